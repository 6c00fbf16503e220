{"id": "C01", "title": "An+B selects exactly the arithmetic progression", "statement": "For a pattern An+B and a 1-based position i, the engine's :nth-*() test accepts i if and only if there is a non-negative integer n with i = A*n + B. This holds for zero, positive and negative A and B.", "quantifier": "all integers A, B and all positions i", "why_tests_cant": "The claim ranges over all triples of integers; the C++ code uses truncating division and remainder whose sign behaviour differs in each quadrant.", "anchors": ["src/vaev-engine/style/selector.cpp: AnB::match"]}
{"id": "C02", "title": "Specificity is a total order with lexicographic comparison", "statement": "Comparing two selector specificities (ids, classes, types) orders them lexicographically, is a total order, and adding the specificity of a further simple selector never makes a selector less specific.", "quantifier": "all specificity triples", "why_tests_cant": "Transitivity and totality range over all triples.", "anchors": ["src/vaev-engine/style/selector.cpp: Spec"]}
{"id": "C03", "title": "The cascade picks the strongest declaration, last one winning ties", "statement": "For each property of an element, the value that survives the cascade is the value of a declaration that is maximal for (importance, origin, specificity, declaration order), and among equally strong declarations the one applied last.", "quantifier": "all finite multisets of matched declarations in all application orders, all properties", "why_tests_cant": "The result must not depend on how many rules match or in which order they are applied; the space of rule lists is unbounded.", "anchors": ["src/vaev-engine/style/cascaded.cpp: CascadedProperties"]}
{"id": "C04", "title": "Importance reverses origin precedence", "statement": "An !important declaration of the user-agent or user sheet beats an !important declaration of the author sheet (CSS Cascade 5 section 6.1).", "quantifier": "all pairs of important declarations of different origins", "why_tests_cant": "A statement over all pairs of declarations.", "anchors": ["src/vaev-engine/style/cascaded.cpp: CascadedProperties::apply", "src/vaev-engine/style/stylesheet.cpp: Origin"]}
{"id": "C05", "title": "A complex selector matches exactly the elements CSS says it matches", "statement": "Given a document tree and a selector written left to right with descendant, child, next-sibling and subsequent-sibling combinators, an element is selected if and only if there is an assignment of elements to the compounds such that the last compound is the element and neighbouring compounds are in the relation named by the combinator.", "quantifier": "all finite trees, all elements, all complex selectors of any length", "why_tests_cant": "Trees and selectors are unbounded, and backtracking through ancestors and siblings has exponentially many paths.", "anchors": ["src/vaev-engine/style/matcher.cpp", "src/vaev-engine/style/selector.cpp: Selector::parse"]}
{"id": "C06", "title": "Selector parsing keeps the author's combinator structure", "statement": "Parsing the text of a complex selector yields a selector whose matching is that of the compounds combined in the order in which the author wrote them, for every mixture of combinators.", "quantifier": "all sequences of compounds and combinators", "why_tests_cant": "The operator precedence climbing has to be right for every mixture and length.", "anchors": ["src/vaev-engine/style/selector.cpp: _parseInfixExpr, _parseNfixExpr, Selector::parse"]}
{"id": "C07", "title": "Indexed rule lookup returns the same matches as testing every rule", "statement": "For every element and style sheet, the rule index returns exactly the rules whose selector matches the element, each once, in declaration order, with the same specificity as matching the rule directly; hence the declaration that wins for a property is the one the cascade prescribes for the matching rules.", "quantifier": "all style sheets, all elements and pseudo-elements of all documents", "why_tests_cant": "An optimisation must be equivalent on every input, not on the sampled ones; the index interleaves up to one cursor per class and attribute.", "anchors": ["src/vaev-engine/style/rules-index.cpp: RuleIndex::add, match, _mergeMatchedRules, _maybeDeferRuleEvaluation", "src/vaev-engine/style/computer.cpp: computeValues"]}
{"id": "C08", "title": "Counter values are rendered by numeric systems as positional numerals", "statement": "For a numeric counter style with at least two symbols, the representation of every non-negative integer decodes, in base n, to the integer itself, has no leading zero symbol (except zero itself), and different integers have different representations.", "quantifier": "all symbol lists with at least two symbols, all non-negative integers", "why_tests_cant": "Infinitely many values and symbol lists.", "anchors": ["src/vaev-engine/style/counter.cpp: _constructNumericCounter, constructCounterRepresentation"]}
{"id": "C09", "title": "Counter values are rendered by alphabetic systems as bijective numerals", "statement": "For an alphabetic counter style with n >= 2 symbols every positive integer has a representation which decodes in bijective base n to the integer; distinct integers get distinct representations and every non-empty symbol string is the representation of some positive integer.", "quantifier": "all symbol lists with at least two symbols, all positive integers", "why_tests_cant": "Infinitely many values.", "anchors": ["src/vaev-engine/style/counter.cpp: _constructAlphabeticCounter, constructCounterRepresentation"]}
{"id": "C10", "title": "Additive counter styles represent the value exactly", "statement": "When an additive counter style yields a representation for a value, the weights of the tuples it is made of add up to the value, weights are used in non-increasing order, and the greedy result is the one CSS Counter Styles 3 prescribes; otherwise the style falls back.", "quantifier": "all additive tuple lists in descending order, all non-negative integers", "why_tests_cant": "Infinitely many values and tuple lists.", "anchors": ["src/vaev-engine/style/counter.cpp: _constructAdditiveCounter, constructCounterRepresentation"]}
{"id": "C11", "title": "Cyclic, symbolic and fixed counter styles index only existing symbols", "statement": "Generating a counter representation with the cyclic, symbolic or fixed system never reads outside the symbol list and yields the symbol CSS Counter Styles 3 names for that value.", "quantifier": "all symbol lists, all integers, all first-symbol values", "why_tests_cant": "Out-of-range indexes appear only for values at or below the first symbol value and for empty symbol lists.", "anchors": ["src/vaev-engine/style/counter.cpp: _constructCyclicCounter, _constructFixedCounter, _constructSymbolicCounter"]}
{"id": "C12", "title": "Generating a counter representation terminates and always produces text", "statement": "For every set of @counter-style rules, formatting any counter value with any style name terminates and yields a string, following fallback chains (even cyclic ones) until a style can represent the value.", "quantifier": "all finite sets of counter styles with arbitrary fallback graphs, all values, all style names", "why_tests_cant": "Fallback graphs are arbitrary finite graphs, including cycles.", "anchors": ["src/vaev-engine/style/counter.cpp: constructCounterRepresentation, _dispatchCounterFallback, _dispatchToFallbackCounter"]}
{"id": "C13", "title": "extends chains of counter styles are resolved away", "statement": "After resolving a style sheet's counter styles no style still has system 'extends'; a style extending another one takes the extended style's algorithm and keeps its own other descriptors; cyclic or dangling chains resolve to the initial style and the resolution terminates.", "quantifier": "all finite counter style maps with arbitrary extends graphs", "why_tests_cant": "Arbitrary reference graphs.", "anchors": ["src/vaev-engine/style/counter.cpp: resolveExtends"]}
{"id": "C14", "title": "Counter scoping follows document order and nesting", "statement": "The value seen by counter(name) at an element is that of the innermost counter of that name in scope at the element, after the resets, increments and sets of all elements that precede it in document order and whose scope reaches it.", "quantifier": "all sequences of counter operations along all trees", "why_tests_cant": "Depends on the whole history of the tree traversal.", "anchors": ["src/vaev-engine/style/counter.cpp: CounterSet", "src/vaev-engine/style/computer.cpp: _resolveCounters"]}
{"id": "C15", "title": "Media queries are evaluated as boolean combinations of their features", "statement": "A parsed media query evaluates to the boolean combination (comma = or, and, or, not) of its media features, where min-/max- and range forms are inclusive or exclusive bounds on the actual value of the medium and an empty query is true.", "quantifier": "all media query trees, all media", "why_tests_cant": "Unbounded nesting and continuous feature values.", "anchors": ["src/vaev-engine/style/media.cpp: MediaQuery, RangeFeature, DiscreteFeature"]}
{"id": "C16", "title": "Absolute and relative lengths convert to CSS pixels with the CSS ratios", "statement": "Every length value with an absolute unit converts to px by the CSS ratio (1in = 96px = 2.54cm = 25.4mm = 101.6Q = 72pt = 6pc), relative units resolve against the font, root font and viewport they name, and vmin/vmax are the smaller/larger viewport axis.", "quantifier": "all numeric values, all units, all resolution contexts", "why_tests_cant": "Continuous inputs.", "anchors": ["src/vaev-engine/values/length.cpp: Resolver::resolve"]}
{"id": "C17", "title": "calc() computes the value of the whole expression", "statement": "Resolving a calc() expression yields the arithmetic value of the complete expression that the author wrote.", "quantifier": "all calc expressions of any length and nesting", "why_tests_cant": "Expressions are unbounded.", "anchors": ["src/vaev-engine/values/calc.cpp: CalcValue, ValueParser<CalcValue<T>>"]}
{"id": "C18", "title": "CSS tokenization always terminates and loses no input", "statement": "Tokenizing any text terminates, each token consumes at least one code point, and (apart from the normalisation of strings) concatenating the token texts gives back the input.", "quantifier": "all finite strings", "why_tests_cant": "All strings.", "anchors": ["src/vaev-engine/css/lexer.cpp: Lexer::next"]}
{"id": "C19", "title": "CSS parsing always terminates", "statement": "Parsing any text as a style sheet terminates and yields a tree.", "quantifier": "all finite strings", "why_tests_cant": "Non-termination is only visible on particular token sequences.", "anchors": ["src/vaev-engine/css/parser.cpp: consumeRuleList and friends"]}
{"id": "C20", "title": "A declaration's value does not swallow the following declaration", "statement": "In a declaration list, a malformed declaration ends at its semicolon; the following declarations are parsed as if the malformed one were absent.", "quantifier": "all declaration lists", "why_tests_cant": "Error recovery has to work at every position of every list.", "anchors": ["src/vaev-engine/css/parser.cpp: consumeDeclarationList, consumeDeclaration, consumeImportant"]}
{"id": "C21", "title": "DOM mutations keep the tree well formed", "statement": "After every sequence of appendChild, prependChild, insertBefore, insertAfter, remove and removeChild in which no node is inserted into itself, into one of its descendants or next to itself, and reference children are children of the parent, each node's parent, first/last child and next/previous sibling links describe one consistent forest, every child list equals the list obtained by performing the same operations on plain lists, no node is its own ancestor, and every traversal ends and visits exactly the right nodes in document order, each once.", "quantifier": "all finite sequences of tree operations on all forests", "why_tests_cant": "The pointer updates are correct only if they are correct in every configuration of neighbours; histories are unbounded.", "anchors": ["src/vaev-engine/dom/tree.cpp: Tree"]}
{"id": "C22", "title": "Serialisation preserves the tree", "statement": "Tokenizing the serialisation of a tree gives exactly the tokens of that tree: every element's start tag with all its attributes and their values, every text character, comment and doctype, and the matching end tags; no text or attribute value can introduce or remove markup.", "quantifier": "all trees, all names, attribute values and texts", "why_tests_cant": "Escaping must be right for every string, and the tokenizer must undo it in every state; trees are unbounded.", "anchors": ["src/vaev-engine/dom/serialisation.cpp: escapeString, serializeHtmlFragment", "src/vaev-engine/html/lexer.cpp: HtmlLexer"]}
{"id": "C23", "title": "HTML tokenization is total", "statement": "Tokenizing any text ends without a crash, whatever mode the tree builder selects at each start tag, and emits exactly one end-of-file token, which is the last.", "quantifier": "all texts, all mode choices", "why_tests_cant": "80 states and reconsumption: no finite set of inputs covers every state, buffer and character.", "anchors": ["src/vaev-engine/html/lexer.cpp: HtmlLexer", "src/vaev-engine/html/parser.cpp: HtmlParser::write"]}
{"id": "C24", "title": "@page selectors match the pages they name", "statement": "An @page rule with selectors :first, :left, :right, :blank and a page name applies to a page if and only if the page has those properties (pages are numbered from one, the first page is a right page in left-to-right documents).", "quantifier": "all page selectors, all pages", "why_tests_cant": "All combinations of pseudo-classes and page numbers.", "anchors": ["src/vaev-engine/style/page.cpp: PageSelector"]}
{"id": "C25", "title": "Page margin boxes and content box tile the page", "statement": "The four corner boxes, the four side regions and the content area computed for a page are pairwise non-overlapping and cover the page exactly, for all non-negative margins that leave a non-negative content area.", "quantifier": "all page sizes and margins", "why_tests_cant": "Continuous inputs.", "anchors": ["src/vaev-engine/driver/print.cpp: _paintMargins, _resolvePageMargin"]}
{"id": "C26", "title": "Pagination terminates and neither drops nor repeats content", "statement": "For every document, the sequence of pages is finite; each unbreakable piece of flow content is laid out on exactly one page, in document order.", "quantifier": "all box trees, all page heights, all break properties", "why_tests_cant": "A history property of the fragmentation loop: each page starts from the breakpoint of the previous one.", "anchors": ["src/vaev-engine/driver/print.cpp: collectBreakPointsAndRunningPositions, print", "src/vaev-engine/layout/block.cpp", "src/vaev-engine/layout/base/breaks.cpp"]}
{"id": "C27", "title": "The chosen break is the best one seen", "statement": "While laying out a fragmentainer the retained breakpoint is the last one among those with the highest appeal; an overflow never replaces a better one.", "quantifier": "all sequences of offered breakpoints", "why_tests_cant": "All sequences.", "anchors": ["src/vaev-engine/layout/base/breaks.cpp: Breakpoint::overrideIfBetter"]}
{"id": "C28", "title": "Adjacent sibling margins collapse as CSS 2.1 prescribes", "statement": "The vertical distance between consecutive in-flow block siblings is max of the margins if both are positive, min if both are negative, and their sum if the signs differ; and the children are stacked in order.", "quantifier": "all lists of block children, all margins and heights", "why_tests_cant": "All sign patterns along lists of any length.", "anchors": ["src/vaev-engine/layout/block.cpp: BlockFormatingContext::run"]}
{"id": "C29", "title": "Auto horizontal margins absorb the free space", "statement": "For an in-flow block whose border box is narrower than its containing block: with two auto margins the box is centred, with one auto margin that margin takes all free space, and margins plus border box equal the containing block's width whenever some margin is auto.", "quantifier": "all widths and margins", "why_tests_cant": "Continuous inputs.", "anchors": ["src/vaev-engine/layout/block.cpp: _resolveAutoHorizontalMargins"]}
{"id": "C30", "title": "Building a table grid keeps every cell", "statement": "For every table markup, the table grid is rectangular, every cell occupies the slots of its rowspan/colspan from its anchor, no two anchors coincide, and no index is out of range while the grid is built.", "quantifier": "all tables, all rowspans and colspans", "why_tests_cant": "The algorithm grows a mutable grid; overlaps depend on the whole history of previous rows.", "anchors": ["src/vaev-engine/layout/table.cpp: TableFormatingContext::buildHTMLTable, processRows, growDownwardsGrowingCells"]}
{"id": "C31", "title": "Collapsed borders pick the winner CSS prescribes", "statement": "Of the borders meeting at a cell edge the one with the highest CSS 2.1 17.6.2.1 priority is used: hidden beats all, none loses to all, wider wins, then by style.", "quantifier": "all border lists", "why_tests_cant": "All combinations.", "anchors": ["src/vaev-engine/layout/table.cpp: harmonizeConflictingBorders"]}
{"id": "C32", "title": "Table column widths add up to the table width", "statement": "The column widths produced by the automatic and fixed table layout algorithms are non-negative and add up to the used table width, and no column is narrower than its minimum content width in automatic layout.", "quantifier": "all tables, all widths", "why_tests_cant": "Continuous inputs, unbounded columns.", "anchors": ["src/vaev-engine/layout/table.cpp: computeAutoColWidths, computeFixedColWidths"]}
{"id": "C33", "title": "Flex line breaking keeps every item in order", "statement": "Collecting flex items into lines partitions the items in order into non-empty lines; a wrapped line holds more than one item only if they fit, and an item starts a new line only if it did not fit the previous one.", "quantifier": "all item lists, all container sizes", "why_tests_cant": "Unbounded lists, continuous sizes.", "anchors": ["src/vaev-engine/layout/flex.cpp: _collectFlexItemsInfoFlexLinesWrap, _collectFlexItemsIntoFlexLines"]}
{"id": "C34", "title": "Resolving flexible lengths terminates, respects min/max and fills the line", "statement": "The flexible length loop terminates; every item ends within its min and max main size; and if the sum of flex factors in use is at least one the outer sizes add up to the container size unless all items are at a bound.", "quantifier": "all lines of items", "why_tests_cant": "An iterative freeze loop over unbounded lists with continuous values.", "anchors": ["src/vaev-engine/layout/flex.cpp: _resolveFlexibleLengths"]}
{"id": "C35", "title": "justify-content places items in order without overlap and consumes the free space", "statement": "Main-axis alignment keeps the items in order, adjacent items do not overlap when there is non-negative free space, and the offsets are those CSS Flexbox prescribes for each justify-content value.", "quantifier": "all lines, all sizes, all alignment keywords", "why_tests_cant": "Continuous inputs.", "anchors": ["src/vaev-engine/layout/flex.cpp: _alignMainAxis, alignMainFlexStart..."]}
{"id": "C36", "title": "Replaced elements respect min/max constraints", "statement": "The used size of a replaced element with an aspect ratio lies within its min/max width and height (with min winning over max) and keeps the ratio whenever the constraints allow it.", "quantifier": "all sizes and constraints", "why_tests_cant": "Continuous inputs, ten-way case table.", "anchors": ["src/vaev-engine/layout/base/sizing.cpp: applyReplacedMinMaxSizeConstraints"]}
{"id": "C37", "title": "Running elements are resolved to the value in force on the page", "statement": "element(name, first|start|last|first-except) used in a page margin yields the running element CSS GCPM prescribes for that page.", "quantifier": "all assignments of running elements to pages", "why_tests_cant": "All page histories.", "anchors": ["src/vaev-engine/layout/base/running-position.cpp: RunningPositionMap::match"]}
{"id": "C38", "title": "WebDriver sessions always have a valid current window", "statement": "In every history of WebDriver commands (including commands whose loading phase interleaves with others) an existing session has at least one window and its current handle names one of its open windows; commands on a deleted session fail.", "quantifier": "all histories and interleavings of commands on any number of sessions", "why_tests_cant": "Histories and schedules are unbounded.", "anchors": ["src/vaev-webdriver/driver.cpp: WebDriver"]}
{"id": "C39", "title": "A script property that was set can be read back", "statement": "When setting a property of an object succeeds, reading it from this object gives the value that was set.", "quantifier": "all heaps that operations can make, all objects, keys and values", "why_tests_cant": "Objects, chains of prototypes and histories are unbounded.", "anchors": ["src/vaev-script/internal-slots-impl.cpp: ordinarySet, ordinarySetWithOwnDescriptor, ordinaryGet"]}
{"id": "C40", "title": "Batch printing writes each input exactly once", "statement": "Running a batch in separate mode writes one output per input in order and stops at the first failure; in concatenated mode exactly one output containing the pages of all inputs in order is written, and only after every input rendered successfully; only the last write closes the connection.", "quantifier": "all input lists, all failure points", "why_tests_cant": "All crash/failure points in lists of any length.", "anchors": ["src/mod.cpp: runBatchAsync"]}
{"id": "C41", "title": "XML documents are parsed with properly scoped namespaces", "statement": "Each element and attribute of a parsed XML document gets the namespace bound by the nearest enclosing xmlns declaration for its prefix; declarations of an element are not visible to its siblings.", "quantifier": "all element nestings and namespace declarations", "why_tests_cant": "Unbounded nesting.", "anchors": ["src/vaev-engine/xml/parser.cpp: NamespaceContext"]}
{"id": "C42", "title": "Class and token lists behave as ordered sets", "statement": "A token list obtained by any sequence of add/remove/toggle/replace never contains a token twice, and contains exactly the tokens the operations imply in order of first insertion.", "quantifier": "all operation histories", "why_tests_cant": "Histories are unbounded.", "anchors": ["src/vaev-engine/dom/token-list.cpp: TokenList"]}
{"id": "C43", "title": "Attribute selectors compare values as CSS says", "statement": "An attribute selector [a], [a=v], [a~=v], [a|=v], [a^=v], [a$=v], [a*=v], with or without the i flag, selects an element exactly when the element has an attribute of that name whose value equals v, contains v as a whitespace-separated word, equals v or starts with v followed by a hyphen, starts with, ends with or contains v (and v is not empty).", "quantifier": "all elements, attribute lists and values, all attribute selectors", "why_tests_cant": "Values are arbitrary strings; word and hyphen boundaries interact with every position.", "anchors": ["src/vaev-engine/style/matcher.cpp: _match(AttributeSelector)"]}
{"id": "C44", "title": "A selector's specificity counts its ids, classes and types", "statement": "The specificity the engine assigns to a selector is the triple (ids, classes+attributes+pseudo-classes, types+pseudo-elements) of Selectors Level 4, with :not() counting as its most specific argument.", "quantifier": "all selectors", "why_tests_cant": "Selectors nest without bound.", "anchors": ["src/vaev-engine/style/selector.cpp: spec"]}
{"id": "C45", "title": "Rules for an element do not style its pseudo-elements", "statement": "A rule whose selector names no pseudo-element applies to elements only; a rule whose subject names ::x applies to the pseudo-element x only.", "quantifier": "all selectors, elements and pseudo-elements", "why_tests_cant": "Must hold for every selector.", "anchors": ["src/vaev-engine/style/matcher.cpp: _match(PseudoElementSelector)", "src/vaev-engine/style/computer.cpp: _evalRule"]}
{"id": "C46", "title": "Matching a selector never crashes", "statement": "Testing any selector accepted by the parser against any element returns an answer.", "quantifier": "all selectors and elements", "why_tests_cant": "One bad selector in any style sheet would take the renderer down.", "anchors": ["src/vaev-engine/style/matcher.cpp: _match(PseudoClassSelector)"]}
{"id": "C47", "title": "CSS tokens are recognised as written", "statement": "Any sequence of identifiers, functions, at-keywords, hashes, strings, numbers, percentages, dimensions, white space, punctuation and delimiters, written one after the other so that none extends the previous one, is tokenized into exactly that sequence.", "quantifier": "all finite sequences of tokens and all texts following them", "why_tests_cant": "A tokenizer test samples a few adjacent pairs of tokens; every sequence of every length has to come back.", "anchors": ["src/vaev-engine/css/lexer.cpp: Lexer::_next, RE_IDENTIFIER, RE_NUMBER, RE_ESCAPE"]}
{"id": "C48", "title": "CSS string literals denote the string they spell", "statement": "Writing any string as a CSS literal with the characters that need it escaped, and reading it, gives the string back; escapes, line continuations, either quote, unterminated and bad strings are read as CSS Syntax prescribes.", "quantifier": "all strings, both quotes, all mixtures of escapes, all following texts", "why_tests_cant": "All strings and all mixtures of escapes.", "anchors": ["src/vaev-engine/css/lexer.cpp: _consumeStringToken, _consumeEscapeCodepoint"]}
{"id": "C49", "title": "CSS comments are ignored", "statement": "A comment anywhere between two tokens of a style sheet changes nothing about how the style sheet is read.", "quantifier": "all style sheets and all positions of comments", "why_tests_cant": "Comments can stand between any two tokens.", "anchors": ["src/vaev-engine/css/parser.cpp: consumeComponentValue, consumeRule, consumeDeclarationValue, consumeFunc"]}
{"id": "C50", "title": "Counter text is assembled in CSS order", "statement": "For every counter style and value, the text is prefix, negative sign, padding, representation, closing sign and suffix in this order, where padding brings the length of sign and representation up to the pad length.", "quantifier": "all counter styles, all values, all grapheme-length functions", "why_tests_cant": "Every combination of prefix, sign, padding and value has to be right.", "anchors": ["src/vaev-engine/style/counter.cpp: _dispatchCounterFallback, _measureRepresentation"]}
{"id": "C51", "title": "Reading a media query ends and does not crash", "statement": "For every sequence of component values in the prelude of an @media rule, reading it ends, and never crashes the program.", "quantifier": "all component value sequences", "why_tests_cant": "The parser is recursive and looks ahead past the end of its input in several places.", "anchors": ["src/vaev-engine/style/media.cpp: parseMediaQuery, _parseMediaQueryLeaf, _parseMediaQueryInfix, _parseMediaFeature"]}
{"id": "C52", "title": "The medium describes the output", "statement": "For every page or viewport size, the medium the command-line tools render for has the media type of the output, its width and height, and the orientation of these.", "quantifier": "all page sizes, viewports, scales", "why_tests_cant": "The devices form a continuum; tests try one or two sizes.", "anchors": ["src/vaev-engine/style/media.cpp: Media::forPrint, Media::forRender, Media::forView"]}
{"id": "C53", "title": "The An+B notation is read as its value", "statement": "Every way of writing An+B - odd, even, an integer, or a step with optional sign, coefficient and constant, with the spacing CSS allows - is read by :nth-child() and its relatives as the step and offset it denotes.", "quantifier": "all coefficients, constants of any number of digits, signs, spacings", "why_tests_cant": "The digits are unbounded and each form is cut into tokens in its own way.", "anchors": ["src/vaev-engine/style/selector.cpp: AnB::parse, _parseAfterN, _parseIdent, _parseDimension"]}
{"id": "C54", "title": "Reading a selector ends and does not crash", "statement": "For every sequence of component values in front of a style block, valid selector or not, reading it ends with a selector or an error, and never crashes the program.", "quantifier": "all component value sequences, of any length and nesting", "why_tests_cant": "The reader is mutually recursive, peeks past what it consumed and has loops without a progress measure.", "anchors": ["src/vaev-engine/style/selector.cpp: Selector::parse, _parseSelectorElement, _parseNfixExpr, _parseInfixExpr, _peekOpCode"]}
{"id": "C55", "title": "The class attribute is split into classes", "statement": "After an element's class attribute is set, its class list holds the whitespace-separated words of the value, each once, in order of first occurrence.", "quantifier": "all attribute values", "why_tests_cant": "Values are unbounded strings with arbitrary whitespace.", "anchors": ["src/vaev-engine/dom/element.cpp: Element::setAttribute", "src/vaev-engine/dom/token-list.cpp: TokenList::add"]}
{"id": "C56", "title": "Attributes of a tag are distinct and the first wins", "statement": "No tag token has two attributes of the same name; of several attributes with one name the first is kept, and all others are kept with their values in order.", "quantifier": "all texts (distinctness); all tag names and lists of attributes (which is kept)", "why_tests_cant": "Lists of attributes and their values are unbounded.", "anchors": ["src/vaev-engine/html/lexer.cpp: ATTRIBUTE_NAME, _beginAttribute"]}
{"id": "C57", "title": "Named character references expand exactly", "statement": "Every named reference of the table, written with its semicolon in text or in a quoted attribute value, is replaced by exactly the characters of the table, and the text around it is kept.", "quantifier": "all 2125 references with a semicolon and all surrounding texts", "why_tests_cant": "Matching is incremental over a table in which names are prefixes of each other.", "anchors": ["src/vaev-engine/html/lexer.cpp: NAMED_CHARACTER_REFERENCE", "src/vaev-engine/html/defs/entities.inc"]}
{"id": "C58", "title": "Numeric character references decode exactly", "statement": "A decimal or hexadecimal reference stands for the character with that number; zero, surrogates and numbers above U+10FFFF, however long, give U+FFFD; 128-159 have their windows-1252 meaning; only hexadecimal digits belong to a hexadecimal reference.", "quantifier": "all digit strings and surrounding texts", "why_tests_cant": "Digit strings are unbounded; accumulation must not wrap.", "anchors": ["src/vaev-engine/html/lexer.cpp: NUMERIC_CHARACTER_REFERENCE, HEXADECIMAL_CHARACTER_REFERENCE, DECIMAL_CHARACTER_REFERENCE, NUMERIC_CHARACTER_REFERENCE_END"]}
{"id": "C59", "title": "Doctypes are read exactly", "statement": "A doctype's name and its public and system identifiers are read exactly, without quirks, whatever white space separates them, and do not change how what follows is read.", "quantifier": "all names, identifiers and following texts", "why_tests_cant": "Names and identifiers are unbounded strings; the lookahead buffer is shared between states.", "anchors": ["src/vaev-engine/html/lexer.cpp: AFTER_DOCTYPE_NAME, MARKUP_DECLARATION_OPEN"]}
{"id": "C60", "title": "@page declarations cascade", "statement": "For every page, the value of a property on the page and in each of its margin boxes is that of the declaration that wins among the @page rules selecting the page: important declarations before normal ones, then the more specific selector, then the later rule; with no declaration it is the initial value; declarations for one margin box never affect another.", "quantifier": "all style sheets, all pages, all properties and margin boxes", "why_tests_cant": "Rule lists, nesting in @media and pages are unbounded.", "anchors": ["src/vaev-engine/style/computer.cpp: computeValues, _evalRule", "src/vaev-engine/style/rules.cpp: PageRule", "src/vaev-engine/style/page.cpp: PageAreaRule"]}
{"id": "C61", "title": "Reading a page selector list ends", "statement": "Reading the prelude of any @page rule ends without crashing, and a selector made of a name and pseudo-classes is read as exactly that.", "quantifier": "all token lists; all selectors", "why_tests_cant": "Preludes are unbounded, and the loop must make progress on every token.", "anchors": ["src/vaev-engine/style/page.cpp: PageSelector::parse, parseList, _parsePagePseudo"]}
{"id": "C62", "title": "Forced breaks are respected", "statement": "On every page, of the fragments of the children of a block only the first may come from a box that asks for a page break before it, and only the last from one that asks for a page break after it.", "quantifier": "all box trees, all page geometries, all break properties", "why_tests_cant": "A history property over pages and trees of any depth.", "anchors": ["src/vaev-engine/layout/block.cpp: processBreakpointsBeforeChild, processBreakpointsAfterChild", "src/vaev-engine/layout/base/breaks.cpp"]}
{"id": "C63", "title": "Content stays inside the content area of its page", "statement": "Every piece of content printed on a page lies between the top and the bottom of the content area of the page when it is not higher than the area, and a page is not ended while the next piece fits.", "quantifier": "all box trees, all page geometries", "why_tests_cant": "All heights, positions and sequences of pages.", "anchors": ["src/vaev-engine/layout/base/breaks.cpp: Fragmentainer::acceptsFit", "src/vaev-engine/layout/inline.cpp", "src/vaev-engine/driver/print.cpp: print"]}
{"id": "C64", "title": "Margins collapse through parents and empty boxes", "statement": "The margins of a block without border and padding and of its first child, and those of an empty block, collapse into one.", "quantifier": "all box trees and margins", "why_tests_cant": "Chains of adjoining margins are unbounded.", "anchors": ["src/vaev-engine/layout/block.cpp: BlockFormatingContext::run"]}
{"id": "C65", "title": "The width of a block is within its limits", "statement": "The used width of a block-level box is at least its min-width and at most its max-width.", "quantifier": "all widths and limits", "why_tests_cant": "Continuous inputs.", "anchors": ["src/vaev-engine/layout/block.cpp: _populateChildSpecifiedSizes"]}
{"id": "C66", "title": "Default size of replaced content", "statement": "An object without natural size, with only one natural dimension, or with a ratio, gets the size that CSS Images 5.3 prescribes: specified dimensions kept, the ratio kept when a dimension is missing, else the natural dimension, else 300 by 150.", "quantifier": "all natural and specified sizes and ratios", "why_tests_cant": "Continuous inputs with every dimension optional.", "anchors": ["src/vaev-engine/layout/base/sizing.cpp: resolveObjectDefaultSizing, resolvePartialSpecifiedSize"]}
{"id": "C67", "title": "Percentages of an unknown height count as automatic", "statement": "In a block whose height depends on its content, a height or a maximal height in percent of an image has no effect.", "quantifier": "all images and percentages", "why_tests_cant": "Continuous inputs.", "anchors": ["src/vaev-engine/layout/block.cpp: BlockFormatingContext::run", "src/vaev-engine/layout/base/sizing.cpp", "src/vaev-engine/layout/replaced.cpp"]}
{"id": "C68", "title": "Percentage widths refer to the containing block", "statement": "The width and margins in percent of a child of a block are of the width of that block, whatever its siblings.", "quantifier": "all lists of children", "why_tests_cant": "Depends on all preceding siblings.", "anchors": ["src/vaev-engine/layout/block.cpp: BlockFormatingContext::run"]}
{"id": "C69", "title": "Rows, columns and their groups keep their place", "statement": "Every tr, every group of rows, every col and every group of columns stands for exactly the rows or columns of the grid that HTML 4.9.12 gives it, in document order.", "quantifier": "all tables, all spans", "why_tests_cant": "The interval of an element depends on everything before it, and on spans that grow later.", "anchors": ["src/vaev-engine/layout/table.cpp: buildHTMLTable, processRows, processRowGroup"]}
{"id": "C70", "title": "Laying out a table never stops the program", "statement": "For every table markup and every style, building the borders of the cells and the widths of the columns ends without an index out of range and without a division by zero.", "quantifier": "all tables, all spans, all widths", "why_tests_cant": "Crashes need combinations of spans, groups and widths.", "anchors": ["src/vaev-engine/layout/table.cpp: buildBordersForSeparateMode, computeAutoWidthOfColGroups, computeFixedColWidths"]}
{"id": "C71", "title": "A table of automatic width fits its container when it can", "statement": "A table whose width is auto has its max-content width when that fits in the containing block, and is not wider than the containing block unless its content cannot be narrower.", "quantifier": "all tables and containing blocks", "why_tests_cant": "Continuous inputs.", "anchors": ["src/vaev-engine/layout/table.cpp: computeAutoColWidths"]}
{"id": "C72", "title": "Laying out a table again gives the same columns", "statement": "What a layout of a table gives depends on its input only, not on how the same table was measured or laid out before.", "quantifier": "all sequences of layouts of a table", "why_tests_cant": "A property of histories of calls: measuring, then layout, then layout on the next page.", "anchors": ["src/vaev-engine/layout/table.cpp: computeWidthAndHeight, CacheParametersFromInput"]}
{"id": "C73", "title": "Rows are as high as their cells need", "statement": "Every row of a table is as high as its tr element says and as every cell that starts in it needs (the share of each of its rows for a cell of several rows), and not higher than one of them needs.", "quantifier": "all tables, spans, heights and contents", "why_tests_cant": "Heights depend on the content of all cells and on spans; continuous inputs.", "anchors": ["src/vaev-engine/layout/table.cpp: computeRowHeights"]}
{"id": "C74", "title": "A table has the height it is given", "statement": "A table is as high as its rows with the space around them. When its height property asks for more, the rows share what is missing and fill the table exactly.", "quantifier": "all tables, all heights, all sequences of layouts", "why_tests_cant": "The distribution depends on counters that live across layouts.", "anchors": ["src/vaev-engine/layout/table.cpp: computeWidthAndHeight, PrefixSum"]}
{"id": "C75", "title": "Repeated headers and footers have the room that is kept for them", "statement": "The room that is kept on each page for the header and the footer of a table is exactly what their rows and the space around them take.", "quantifier": "all tables with headers and footers", "why_tests_cant": "Depends on the number and the height of the rows.", "anchors": ["src/vaev-engine/layout/table.cpp: computeWidthAndHeight, layoutHeaderFooterRows"]}
{"id": "C76", "title": "Every cell of a table is shown once", "statement": "The layout of a table shows every cell of the document exactly once, at the place where it is in the grid.", "quantifier": "all tables, all spans", "why_tests_cant": "A cell of several rows is shown in the row where it ends, which depends on the whole grid.", "anchors": ["src/vaev-engine/layout/table.cpp: layoutRow, layoutRows, layoutCell"]}
{"id": "C77", "title": "Cells are put in their rows and columns and do not overlap", "statement": "Each cell starts after the columns and below the rows that are before it and is as large as those it spans with the space between; two cells do not overlap; the table ends after its last row.", "quantifier": "all tables, all spans, sizes and spacing", "why_tests_cant": "Positions are accumulated row by row from the cells that end in each row.", "anchors": ["src/vaev-engine/layout/table.cpp: layoutRow, layoutRows, layoutCell, run"]}
{"id": "C78", "title": "Flex items stay inside of their container", "statement": "On every line of a flex container, the margin boxes of the items are inside of the container one after the other and in document order (or its reverse for row-reverse), unless all items that may shrink are already as small as they may be.", "quantifier": "all lists of items, all sizes, limits, factors, margins, alignments and wrapping modes", "why_tests_cant": "Line breaking, the freeze loop, margins and alignment interact; continuous inputs.", "anchors": ["src/vaev-engine/layout/flex.cpp: _collectFlexItemsInfoFlexLinesWrap, _resolveFlexibleLengths, _distributeRemainingFreeSpace, justifyContent"]}
{"id": "C79", "title": "Flex items are aligned in their line on the cross axis", "statement": "Each item is put in its line as its align-self (or the align-items of the container) says: at the start, at the end, in the middle, or stretched to the size of the line within its limits; auto margins take the space that is left. Items do not leave their line.", "quantifier": "all items, margins, limits, alignments and sizes of lines", "why_tests_cant": "Continuous inputs and many combinations of alignment, margins and sizes.", "anchors": ["src/vaev-engine/layout/flex.cpp: _determineUsedCrossSize, _resolveCrossAxisAutoMargins, alignItem"]}
{"id": "C80", "title": "Flex lines fill their container as align-content says", "statement": "A line is as large as its largest item; lines follow each other without overlap, with the space before, between and after them that CSS asks for, inside of the container; a stretched container is filled exactly; wrap-reverse reverses the lines.", "quantifier": "all lists of lines, all sizes and values of align-content", "why_tests_cant": "Continuous inputs, any number of lines.", "anchors": ["src/vaev-engine/layout/flex.cpp: _calculateCrossSizeOfEachFlexLineNonIntrinsicSize, _handleAlignContentStretch, _determineFlexContainerUsedCrossSize, _alignAllFlexLines"]}
{"id": "C81", "title": "WebDriver sessions are isolated", "statement": "A command on one session, or the end of a fetch that was started for it, does not change what can be read from another session: its timeouts, windows, current window, location and size.", "quantifier": "all histories, all interleavings of any number of sessions", "why_tests_cant": "Histories and schedules are unbounded.", "anchors": ["src/vaev-webdriver/driver.cpp: WebDriver", "src/vaev-webdriver/service.cpp"]}
{"id": "C82", "title": "Opening, switching and closing windows", "statement": "Switching works exactly for the open windows of the session, and then the window is the current one. Closing takes away the current window and answers with the others, one of which becomes current; with the last one the session ends. A window that was opened is listed and has the blank page.", "quantifier": "all histories and interleavings", "why_tests_cant": "Histories and schedules are unbounded.", "anchors": ["src/vaev-webdriver/driver.cpp: newWindow, switchToWindow, closeWindow, getWindowHandles"]}
{"id": "C83", "title": "What was set in a session can be read back", "statement": "Timeouts stay as they were set last, whatever other commands do. The rectangle that is set for a window is read back.", "quantifier": "all histories and interleavings, all values", "why_tests_cant": "Histories and schedules are unbounded.", "anchors": ["src/vaev-webdriver/driver.cpp: setTimeouts, getTimeouts, setWindowRect, getWindowRect"]}
{"id": "C84", "title": "The location of a window is that of its last page", "statement": "The location of a window changes exactly when a fetch for this window ends well, to the URL of that fetch; a failed navigation leaves the page as it was. The page is that of the latest navigation.", "quantifier": "all histories and interleavings", "why_tests_cant": "Histories and schedules are unbounded.", "anchors": ["src/vaev-webdriver/driver.cpp: navigateTo, getCurrentUrl, refresh", "src/vaev-engine/dom/window.cpp: Window"]}
{"id": "C85", "title": "Reading a script property looks along the prototypes", "statement": "Reading a property gives the value of the nearest object of the chain of prototypes that has it, and undefined if none has it; it always ends. Without accessors no operation on properties throws or crashes.", "quantifier": "all histories of operations on objects, all chains", "why_tests_cant": "Objects, chains of prototypes and histories are unbounded.", "anchors": ["src/vaev-script/internal-slots-impl.cpp: ordinaryGet, ordinaryGetOwnProperty"]}
{"id": "C86", "title": "Setting a script property leaves the rest alone", "statement": "Setting or defining a property does not change what is read for other keys, or from other objects (unless they inherit it).", "quantifier": "all heaps, objects and keys", "why_tests_cant": "Objects, chains of prototypes and histories are unbounded.", "anchors": ["src/vaev-script/internal-slots-impl.cpp: ordinarySetWithOwnDescriptor", "src/vaev-script/ops-impl.cpp: createDataProperty"]}
{"id": "C87", "title": "Script values are compared as SameValue says", "statement": "Comparing answers true for the same value and false for different ones, for every pair of values.", "quantifier": "all pairs of values", "why_tests_cant": "The values are infinitely many; crashes hide in pairs of types.", "anchors": ["src/vaev-script/ops-impl.cpp: sameValue, sameValueNonNumber", "src/vaev-script/value.cpp: Number::sameValue"]}
{"id": "C88", "title": "Accessors are called", "statement": "Reading a property with a getter calls it with the receiver; setting one with a setter calls the setter with the value; a missing getter gives undefined.", "quantifier": "all heaps, receivers and functions of the host", "why_tests_cant": "Functions of the host are arbitrary.", "anchors": ["src/vaev-script/internal-slots-impl.cpp: ordinaryGet, ordinarySetWithOwnDescriptor", "src/vaev-script/ops-impl.cpp: call"]}
{"id": "C89", "title": "Attributes of script properties are respected", "statement": "A property is created with the attributes that were asked for. A read-only property is not changed by anything that is done later, and setting it is refused. Defining a property again changes it, or is refused if it may not be changed.", "quantifier": "all histories of operations", "why_tests_cant": "Objects, chains of prototypes and histories are unbounded.", "anchors": ["src/vaev-script/internal-slots-impl.cpp: _validateAndApplyPropertyDescriptor, ordinaryDefineOwnProperty"]}
{"id": "C90", "title": "Script tokens cover the source", "statement": "Reading tokens ends for every text; put together they are the text again, and each has the type of its text.", "quantifier": "all source texts", "why_tests_cant": "All texts.", "anchors": ["src/vaev-script/lang/lexer.cpp: Lexer"]}
{"id": "C91", "title": "The longest script token is taken", "statement": "The longest punctuator that fits is taken; keywords are recognised, and only as whole words.", "quantifier": "all source texts", "why_tests_cant": "All texts.", "anchors": ["src/vaev-script/lang/lexer.cpp: Lexer::_next"]}
{"id": "C92", "title": "Every XML text is parsed to an end", "statement": "For every text, parsing ends with a document or with an error.", "quantifier": "all texts", "why_tests_cant": "All texts, also those that are not XML.", "anchors": ["src/vaev-engine/xml/parser.cpp: parse"]}
{"id": "C93", "title": "Characters of XML documents are read however they are written", "statement": "Text and attribute values of a document are the characters that are written: directly, as character references, as entity references, or in CDATA sections. Every string with its special characters escaped reads back as itself.", "quantifier": "all strings and all ways of writing them", "why_tests_cant": "Strings and mixtures of notations are unbounded.", "anchors": ["src/vaev-engine/xml/parser.cpp: _parseText, _parseCDSect, _parseReference, _parseAttValue"]}
{"id": "C94", "title": "XML that is not well-formed is refused", "statement": "If a text is taken, its start and end tags nest and match, its prefixes are declared, it has one root element and nothing but comments, instructions and white space around it.", "quantifier": "all texts that are taken", "why_tests_cant": "All texts.", "anchors": ["src/vaev-engine/xml/parser.cpp: parse, _parseElement, _parseEndTag, _parseMisc"]}
{"id": "C95", "title": "Well-formed XML documents are taken", "statement": "Every well-formed document is parsed to the tree it describes, with its declaration, document type, comments and elements in order.", "quantifier": "all well-formed documents", "why_tests_cant": "Documents are unbounded.", "anchors": ["src/vaev-engine/xml/parser.cpp: parse, _parseProlog, _parseContent"]}
{"id": "C96", "title": "Headers and footers repeat on every page", "statement": "On every printed page the header is at the top of the area within the margins, the footer at its bottom, each as tall as it is asked to be or as its content takes, and the content of the page is between them without overlap.", "quantifier": "all headers, footers and sizes, all sequences of pages of any sizes", "why_tests_cant": "Number and sizes of the pages depend on the document.", "anchors": ["src/mod.cpp: HeaderFooterDecorator", "src/vaev-engine/driver/print.cpp: collectBreakPointsAndRunningPositions, print"]}
{"id": "C97", "title": "The options of the command line do what they say", "statement": "--width and --height are the size of the output and take precedence over the paper; --scale scales the document; --background is the color behind it; --flow auto makes pages for PDF and one picture otherwise; the continuous flow grows to fit the content.", "quantifier": "all options, documents and environments", "why_tests_cant": "Combinations of options and documents are unbounded.", "anchors": ["src/mod.cpp: Option, runSingleAsync, runBatchAsync", "src/main.cpp: entryPointAsync"]}
{"id": "C98", "title": "A conforming HTML document is parsed into the tree it was written from", "statement": "Take any document of html, head and body whose elements are nested as HTML allows (paragraphs, headings, lists, forms, tables, raw text and so on). Serializing it and parsing the text gives the same document, except for the order of attributes.", "quantifier": "all conforming documents, of any size and depth", "why_tests_cant": "Documents are unbounded; the tree builder has 23 modes that interact through its stacks.", "anchors": ["src/vaev-engine/html/parser.cpp: HtmlParser::accept, _acceptIn, all handlers", "src/vaev-engine/dom/serialisation.cpp: serializeHtmlFragment"]}
{"id": "C99", "title": "Content without html, head and body gets them", "statement": "Running content on its own, starting with something that can only be in a body, is parsed into a document with html, an empty head, and a body with exactly that content.", "quantifier": "all pieces of running content", "why_tests_cant": "Pieces are unbounded.", "anchors": ["src/vaev-engine/html/parser.cpp: _handleBeforeHtml to _handleAfterHead"]}
{"id": "C100", "title": "Parsing HTML gives a document whatever the text is", "statement": "For every text the parser ends, and gives a document; it never ends the process.", "quantifier": "all texts", "why_tests_cant": "The texts are unbounded, and the failures need unusual combinations of tags.", "anchors": ["src/vaev-engine/html/parser.cpp: HtmlParser::write, _ElementStack, _ActiveFormattingElementList"]}
{"id": "C101", "title": "Everything in a parsed document comes from its text", "statement": "Every element has the name of a start tag of the text (or is one that HTML implies), every attribute is one of a tag, every character of text, every comment and every doctype is one of the text; names are only re-cased for SVG.", "quantifier": "all texts that are parsed into a document", "why_tests_cant": "Holds for every sequence of tags, with misnested formatting, foster parenting and foreign content.", "anchors": ["src/vaev-engine/html/parser.cpp: _createElement, _insertACharacter, _insertAComment, adoptionAgencyAlgorithm"]}
{"id": "C102", "title": "No text appears twice in a parsed document", "statement": "Each character occurs in the text of the document at most as often as among the characters of the text, also when formatting is reopened, elements are moved, or text is put before a table.", "quantifier": "all texts that are parsed into a document, all characters", "why_tests_cant": "Depends on every sequence of misnested tags.", "anchors": ["src/vaev-engine/html/parser.cpp: _insertACharacter, adoptionAgencyAlgorithm, _handleInTableText", "src/vaev-engine/dom/node.cpp: appendChild, insertBefore"]}
{"id": "C103", "title": "Every parsed document has html, head and body", "statement": "Whatever the text is, the document has one html element with one head and one body.", "quantifier": "all texts", "why_tests_cant": "The texts are unbounded.", "anchors": ["src/vaev-engine/html/parser.cpp: _handleText, _handleAfterHead"]}
{"id": "C104", "title": "A comment of the text is in the document once", "statement": "Each comment of the text appears exactly once in the document, and changes nothing else.", "quantifier": "all texts", "why_tests_cant": "The texts are unbounded.", "anchors": ["src/vaev-engine/html/parser.cpp: _handleBeforeHtml"]}
{"id": "C105", "title": "Formatting opened in a table cell ends with the table", "statement": "Bold, italic and so on opened within a cell never apply to what comes after the table.", "quantifier": "all texts", "why_tests_cant": "Depends on the order of all tags before.", "anchors": ["src/vaev-engine/html/parser.cpp: _ActiveFormattingElementList, clearUpToLastMarker, adoptionAgencyAlgorithm"]}
{"id": "C106", "title": "Everything in the document is shown once, in document order", "statement": "Every character that is not white space of the text of the elements, of generated content, list markers and text fields, and the box of every element that has one, is in the box tree exactly once and in document order (captions at their side of the table), each character within the inline boxes of the inline elements around it.", "quantifier": "all styled documents: any nesting of flow, inline, table, flex, SVG, generated content, display: contents and none", "why_tests_cant": "Documents nest without bound; what happens to a run of text depends on every sibling and ancestor.", "anchors": ["src/vaev-engine/layout/builder/mod.cpp: buildDocument, _buildNode, _buildChildren, _buildText, createAndBuildInlineFlowfromElement, createAndBuildBoxFromElement", "src/vaev-engine/layout/builder/mod.cpp: _buildTableChildrenWhileWrappingIntoAnonymousBox, _createTableWrapperAndBuildTable", "src/vaev-engine/layout/base/box.cpp: Box, InlineBox"]}
{"id": "C107", "title": "Words of the document are kept apart, and only they", "statement": "Where white space collapses, words that are separated in the document are separated on the page and no others; preformatted text keeps its spaces.", "quantifier": "all texts and all nestings of inline elements", "why_tests_cant": "Texts and nestings are unbounded.", "anchors": ["src/vaev-engine/layout/builder/mod.cpp: _appendTextToInlineBox, _buildText"]}
{"id": "C108", "title": "A box lays out lines or stacks blocks, and places each child once", "statement": "In every box of the tree either the content is lines, in which each child has exactly one place, in order, and no child is block-level, or the children are stacked and none is inline-level.", "quantifier": "all styled documents", "why_tests_cant": "Documents nest without bound, and blocks within inline elements split lines at every depth.", "anchors": ["src/vaev-engine/layout/builder/mod.cpp: flushRootInlineBoxIntoAnonymousBox, finalizeParentBoxAndFlushInline, _buildVoidElement", "src/vaev-engine/layout/base/box.cpp: Box::add"]}
{"id": "C109", "title": "Building the boxes of a document does not end the process", "statement": "For every styled document the box tree is built.", "quantifier": "all styled documents", "why_tests_cant": "Documents are unbounded; the failure needs one particular combination.", "anchors": ["src/vaev-engine/layout/builder/mod.cpp: BuilderContext::rootInlineBox, _buildPseudoElement, _buildTableBox"]}
{"id": "C110", "title": "Tables are made of rows of cells", "statement": "In every table, whatever its content, there are only rows, groups of rows, columns and groups of columns, groups of rows have only rows, and rows have only cells; what is missing is supplied.", "quantifier": "all styled documents", "why_tests_cant": "The children of tables, groups and rows are any sequences of anything.", "anchors": ["src/vaev-engine/layout/builder/mod.cpp: _buildTableChildrenWhileWrappingIntoAnonymousBox, _buildTableInternal, AnonymousTableBoxWrapper"]}
{"id": "C111", "title": "The children of a flex container are its items", "statement": "Every child of a flex container, and each run of text, is one block-level item; the container has no lines of its own.", "quantifier": "all styled documents", "why_tests_cant": "Any sequence of children, generated content and display: contents.", "anchors": ["src/vaev-engine/layout/builder/mod.cpp: _buildNode, _buildText", "src/vaev-engine/values/display.cpp: blockify"]}
{"id": "C112", "title": "Everything there is to see is painted, and painted once", "statement": "The backgrounds, texts, images and shapes of all visible boxes, wherever positioned, are painted on the page exactly once each, and nothing else is; running elements are not painted where they stand.", "quantifier": "all trees of boxes with any nesting of positions, z-indexes, floats, flex containers, tables and SVGs", "why_tests_cant": "Trees nest without bound; where a positioned box ends up depends on all its ancestors, and whether it is painted on six passes over all of them.", "anchors": ["src/vaev-engine/layout/paint.cpp: paint, _paintStackingContext, _paintChildren, _establishStackingContext", "src/vaev-engine/layout/base/layout-impl.cpp: layoutContentBox, layoutRoot", "src/vaev-engine/layout/positioned.cpp: isAbsolutePositioningContainingBlock, isFixedPositioningContainingBlock", "src/vaev-engine/layout/base/box.cpp: impliesNewStackingContext, isRemovedFromFlow"]}
{"id": "C113", "title": "Boxes cover each other in the order of CSS", "statement": "Within a stacking context the background comes first, then contexts of negative level, blocks, floats, inline-level content, positioned boxes and contexts of level 0, and contexts of positive level, in order of level and, within each, of the document.", "quantifier": "all trees of boxes with any positions and z-indexes", "why_tests_cant": "Which of two boxes is on top depends on all boxes around both.", "anchors": ["src/vaev-engine/layout/paint.cpp: _paintStackingContext, _paintChildren, _establishStackingContext, _paintFrag"]}
{"id": "C114", "title": "Opacity, transforms and clipping apply to the element and what is in it", "statement": "Each thing painted is under the opacity, transform and clip-path of the element it belongs to and of the elements around it, from the outermost in, and under no others.", "quantifier": "all trees of boxes with any effects", "why_tests_cant": "Effects nest without bound, and positioned content is painted away from its place in the document.", "anchors": ["src/vaev-engine/layout/paint.cpp: _establishStackingContext, _applyClip, _applyTransform, _paintSVGElement, _paintSVGRoot"]}
{"id": "C115", "title": "Boxes out of flow are laid out in their containing block", "statement": "Each absolutely positioned box is laid out once, in the nearest ancestor that is positioned or transformed; each fixed one in the nearest that is transformed; and in the page if there is none.", "quantifier": "all trees of boxes, with any nesting of positioned, transformed and other boxes", "why_tests_cant": "The box is passed on from ancestor to ancestor, while other boxes out of flow, laid out on the way, add theirs; trees nest without bound.", "anchors": ["src/vaev-engine/layout/base/layout-impl.cpp: layoutContentBox, layoutRoot", "src/vaev-engine/layout/positioned.cpp: isAbsolutePositioningContainingBlock, isFixedPositioningContainingBlock"]}
{"id": "C116", "title": "Insets are distances from the edges of the containing block", "statement": "The margin box of an absolutely positioned box is as far from the padding edges of its containing block as its insets say, it has its specified size, and is at its static position where both insets are automatic; the page stands in where no ancestor is the containing block.", "quantifier": "all sizes, margins, borders, paddings, insets in lengths and percentages, and positions of the containing block", "why_tests_cant": "Lengths range over all numbers and the cases over all combinations of automatic and given values.", "anchors": ["src/vaev-engine/layout/positioned.cpp: layoutAbsolutePositioned, _computeInsetModifiedContainingBlock", "src/vaev-engine/layout/base/layout-impl.cpp: layoutContentBox, layoutRoot", "src/vaev-engine/layout/block.cpp: run", "src/vaev-engine/layout/inline.cpp: run", "src/vaev-engine/driver/print.cpp: print"]}
{"id": "C117", "title": "Relative positioning moves a box by its insets and nothing else", "statement": "A box with position: relative is moved by its insets, percentages being of the block it is in; all other boxes are where they were, and the block is as high.", "quantifier": "all lists of blocks with any margins, heights and insets", "why_tests_cant": "The positions depend on all children before, of which there are any number.", "anchors": ["src/vaev-engine/layout/positioned.cpp: relativePositionOffset, _negotiateInsetsForRelativePositioning", "src/vaev-engine/layout/block.cpp: run"]}
{"id": "C118", "title": "Tags that HTML lets an author leave out make no difference", "statement": "Write a conforming document without any number of the tags that the HTML standard makes optional: the end tags of p, li, dt, dd, rt, rp, option, optgroup, caption, colgroup, thead, tbody, tfoot, tr, td, th, the start tags of tbody and colgroup, and the tags of html, head and body. It is parsed into the same document as with them.", "quantifier": "all conforming documents, of any size and depth, and all choices of the optional tags to leave out", "why_tests_cant": "The choices are exponential in the size of the document, documents are unbounded, and whether an end tag may be left out depends on what follows the whole element.", "anchors": ["src/vaev-engine/html/parser.cpp: _handleInitialMode to _handleAfterAfterBody, _generateImpliedEndTags, closePElement"]}
{"id": "C119", "title": "var() is replaced by the value of the variable or by its fallback", "statement": "Let a declaration use custom properties by `var(--x)` or `var(--x, fallback)`, anywhere in its value and inside functions. What the property gets is the value with every var() replaced: by the value of the custom property, itself replaced in the same way, or, if it has none, by the fallback. Nothing else is used, and no var() is left.", "quantifier": "for all environments of custom properties and all values of declarations", "why_tests_cant": "Values nest and fallbacks nest in each other; a test has one shape and one depth.", "anchors": ["src/vaev-engine/props/base.cpp:_expandVariable", "src/vaev-engine/props/base.cpp:_expandContent", "src/vaev-engine/props/base.cpp:DeferredProperty"]}
{"id": "C120", "title": "Variables that depend on themselves have no value, and nothing hangs", "statement": "A custom property whose value depends on itself, directly or through others, and a declaration that needs such a property, have no value; replacing var() always ends. A small style sheet should also only give values of a size in proportion to it.", "quantifier": "for all environments of custom properties, with cycles of any length, and all values", "why_tests_cant": "Cycles can be of any length and pass through fallbacks and functions.", "anchors": ["src/vaev-engine/props/base.cpp:_expandVariable", "src/vaev-engine/props/base.cpp:_expandContent"]}
{"id": "C121", "title": "Reading a declaration ends", "statement": "Whatever the value of a declaration is, reading it ends with a property, which may be one that has no effect.", "quantifier": "for all properties of margins, paddings, borders, color and visibility, custom and unknown ones, and all values, for any parsers of lengths and colors that take something when they succeed", "why_tests_cant": "That a loop ends for all inputs is not shown by inputs for which it ends.", "anchors": ["src/vaev-engine/props/base.cpp:_parseToggle", "src/vaev-engine/props/base.cpp:parseValue", "src/vaev-engine/values/borders.cpp"]}
{"id": "C122", "title": "What is not declared is inherited or has its initial value", "statement": "An element for which no declaration that applies sets a property, itself or by a shorthand, has the initial value of it; for inherited properties (the color of the text, the visibility) it has the value of its parent, and so on down the tree.", "quantifier": "for all elements, all parents, all declarations of other things, and all paths in a document", "why_tests_cant": "It concerns every property that is not mentioned, in every tree.", "anchors": ["src/vaev-engine/props/base.cpp:inheritsComputedValues", "src/vaev-engine/props/base.cpp:initialComputedValues", "src/vaev-engine/style/computer.cpp:computeValues", "src/vaev-engine/props/visibility.cpp"]}
{"id": "C123", "title": "initial, inherit, unset and revert work for every property", "statement": "The declaration that counts may be one of the words that all properties have: `initial` gives the initial value, `inherit` that of the parent, `unset` one or the other, `revert` what there would be without the sheet. For a shorthand it is as if the word was given for all its longhands. No declaration makes the computation fail.", "quantifier": "for all properties of margins, paddings, borders, color and visibility, all parents and all other declarations", "why_tests_cant": "Four words times all properties times all parents; the failures are in the combinations.", "anchors": ["src/vaev-engine/props/base.cpp:DefaultedProperty", "src/vaev-engine/props/base.cpp:_parseDefaulted", "src/vaev-engine/props/border.cpp:BorderProperty"]}
{"id": "C124", "title": "The declaration that wins gives the value; invalid and unknown ones are ignored", "statement": "If a declaration of a property has precedence over all others of the property and of shorthands that include it, by importance, origin, specificity and order, the value of the element is the one that it says, after var() has been replaced. Declarations of unknown properties and those whose value makes no sense are as if they were not there.", "quantifier": "for all lists of declarations that apply to an element, all of its properties and all parents", "why_tests_cant": "Any number of declarations, shorthands among them, compete in any order.", "anchors": ["src/vaev-engine/style/computer.cpp:computeValues", "src/vaev-engine/style/cascaded.cpp", "src/vaev-engine/props/base.cpp:parseValue", "src/vaev-engine/props/base.cpp:DeferredProperty"]}
{"id": "C125", "title": "A shorthand with one to four values stands for its longhands", "statement": "`margin`, `padding`, `border-style` or `border-color` with one, two, three or four values gives an element exactly the values that the four declarations of the sides give, with the values distributed as CSS says; two values of `margin-inline` and `margin-block` are for the two sides.", "quantifier": "for all values, all other declarations before and after, of any importance, and all parents", "why_tests_cant": "The other declarations may override any part of the shorthand, from before or after.", "anchors": ["src/vaev-engine/values/insets.cpp", "src/vaev-engine/props/margin.cpp", "src/vaev-engine/props/padding.cpp", "src/vaev-engine/props/border.cpp", "src/vaev-engine/style/cascaded.cpp"]}
{"id": "C126", "title": "Declarations of one property do not change another", "statement": "Adding a declaration that neither is of a property nor of a shorthand of it, nor defines a custom property, leaves the value of the property as it was. Logical properties (`margin-inline-start`) compete with physical ones (`margin-left`) by precedence.", "quantifier": "for all properties of margins, paddings, borders, color and visibility, all lists of declarations and all positions in them", "why_tests_cant": "All pairs of properties, in all contexts.", "anchors": ["src/vaev-engine/style/cascaded.cpp:expandShorthands", "src/vaev-engine/props/margin.cpp", "src/vaev-engine/style/computer.cpp:computeValues"]}
{"id": "C127", "title": "Custom properties cascade and are inherited", "statement": "The value of a custom property on an element is the one of the declaration that has precedence, or that of the parent if there is none; a var() in it means the variables of the element that declares it.", "quantifier": "for all elements, all lists of declarations, all names and values", "why_tests_cant": "Names are arbitrary, and values travel down the tree.", "anchors": ["src/vaev-engine/props/base.cpp:CustomProperty", "src/vaev-engine/style/computed.cpp:setCustomProp", "src/vaev-engine/props/base.cpp:inheritsComputedValues"]}
{"id": "C128", "title": "Borders have the width, style and color that are declared, in any order", "statement": "`border`, `border-top`, `border-right`, `border-bottom` and `border-left` take a width, a style and a color in any order and number; what is left out has its initial value. Widths may be thin, medium or thick everywhere. A border without color has the color of the text.", "quantifier": "for all sequences of parts, all other declarations and all parents", "why_tests_cant": "The parts may come in any order, and each of them may be left out.", "anchors": ["src/vaev-engine/values/borders.cpp", "src/vaev-engine/values/line-width.cpp", "src/vaev-engine/props/border.cpp"]}
{"id": "C129", "title": "Hexadecimal colors mean their digits", "statement": "`#` followed by 3, 4, 6 or 8 hexadecimal digits, in capitals or not, is the color with these red, green, blue and alpha; short forms double each digit and without alpha the color is opaque. Everything else that starts with `#` is no color, and never ends the program.", "quantifier": "for all sequences of hexadecimal digits of any length, and all texts that the tokenizer makes a hash of", "why_tests_cant": "There are more than four thousand million colors, and all other texts.", "anchors": ["src/vaev-engine/values/color.cpp:_parseHexColor", "src/vaev-engine/values/color.cpp:ValueParser<Color>::parse"]}
{"id": "C130", "title": "Color names mean what CSS says, in any case", "statement": "The 148 names of CSS, transparent, currentcolor and the system colors are the colors that CSS says, whatever the case of their letters; every other name is no color.", "quantifier": "for all names, and for each of the known ones all ways to write it in capitals and small letters", "why_tests_cant": "A test takes some names in one case; a table is right or wrong in each line.", "anchors": ["src/vaev-engine/values/color.cpp:parseNamedColor", "src/vaev-engine/values/color.cpp:parseSystemColor", "src/vaev-engine/values/defs/colors.inc", "src/vaev-engine/values/defs/system-colors.inc"]}
{"id": "C131", "title": "rgb() gives the nearest channels, in both notations", "statement": "rgb() and rgba(), with white space or commas, with numbers, percentages or none, and with or without alpha, give for each channel a nearest whole number; numbers that are too large or too small count as the largest or smallest; anything else inside of the parentheses makes it invalid.", "quantifier": "for all decimal numbers of any length, all mixtures of notations and white space, and any rounding to a nearest number", "why_tests_cant": "The channels are any decimals; overflow and fractions appear only for some of them.", "anchors": ["src/vaev-engine/values/color.cpp:_parseSRGBModernFuncColor", "src/vaev-engine/values/color.cpp:_parseSRGBLegacyFuncColor", "src/vaev-engine/values/color.cpp:_parseAlphaValue", "src/vaev-engine/values/color.cpp:_parseNumPercNone"]}
{"id": "C132", "title": "hsl() hands on the hue, saturation and lightness that are written", "statement": "hsl() and hsla(), with white space or commas, give the color of the hue in degrees (whatever unit it is written in), the saturation and the lightness, which are percentages with or without the sign, and the alpha.", "quantifier": "for all decimal numbers, all units of angles in any case, all white space, and any conversion from hsl to rgb", "why_tests_cant": "Units, notations and optional signs combine; the values are any decimals.", "anchors": ["src/vaev-engine/values/color.cpp:_parseHSLModernFuncColor", "src/vaev-engine/values/color.cpp:_parseHSLLegacyFuncColor", "src/vaev-engine/values/angle.cpp:toDegree", "src/vaev-engine/values/angle.cpp:ValueParser<Angle>"]}
{"id": "C133", "title": "color() gives the nearest channels in its color space", "statement": "color(space r g b / alpha) is the color whose channels are these fractions of full intensity, to the nearest whole number of 255, in the color space that is named.", "quantifier": "for all color spaces, all fractions, percentages and none, and all alphas", "why_tests_cant": "Almost all fractions are neither 0 nor 1.", "anchors": ["src/vaev-engine/values/color.cpp:_parseColorFuncColor", "src/vaev-engine/values/color.cpp:_parsePredefinedRGBParams"]}
{"id": "C134", "title": "color-mix() mixes by the shares that are written; currentcolor is the element's color", "statement": "A mix of two colors takes from each its share of the sum of the percentages, where a percentage that is missing is the rest of 100%, or half; less than 100% in all makes it less opaque; it is made in the color space that is named, and hues take the way around the circle that is asked for. The order of the two colors does not matter. The element's own color counts only where currentcolor is written, and there as if it was written out; all this also in mixes of mixes.", "quantifier": "for all colors, mixes nested to any depth, all percentages and white space, all hues, and any interpolation", "why_tests_cant": "Shares are any two decimals, and colors nest.", "anchors": ["src/vaev-engine/values/color.cpp:_parseColorMixFunc", "src/vaev-engine/values/color.cpp:_parseColorMixSide", "src/vaev-engine/values/color.cpp:resolve", "src/vaev-engine/values/color.cpp:_preparePolar", "src/vaev-engine/values/color.cpp:fromStr"]}
{"id": "C135", "title": "Reading a color ends and is defined", "statement": "Whatever a value is, reading a color from it ends without undefined behavior; a color is one value, and a reader that fails leaves the values for the next one.", "quantifier": "for all values, with functions nested to any depth", "why_tests_cant": "That something holds for all inputs, and does so at every depth, is not shown by some of them.", "anchors": ["src/vaev-engine/values/color.cpp:ValueParser<Color>::parse", "src/vaev-engine/values/color.cpp:_parseColorMixFunc"]}
{"id": "C136", "title": "The style sheets of a document, in order", "statement": "The style sheets that apply to a document are the built-in ones, with the origin of the user agent, then the texts of its style elements and of the sheets its link elements refer to, in document order, with the author's origin; the media attribute limits them, rel may be written in any case among other words, and style elements in SVG count too.", "quantifier": "for all documents (trees of any size and depth), all texts of the built-in sheets and all answers of the loader", "why_tests_cant": "Documents are trees of any shape; a style sheet may be anywhere in them.", "anchors": ["src/vaev-engine/loader/loader.cpp:_fetchResourcesAsync", "src/vaev-engine/loader/loader.cpp:fetchDocumentAsync"]}
{"id": "C137", "title": "A sheet that cannot be loaded changes nothing else", "statement": "When the loading of some sheets fails, the document has the other sheets, the same and in the same order.", "quantifier": "for all documents and all sets of addresses that fail", "why_tests_cant": "Which loads fail is up to the network: every subset is possible.", "anchors": ["src/vaev-engine/loader/loader.cpp:_fetchResourcesAsync"]}
{"id": "C138", "title": "The rules of a style sheet are the written ones", "statement": "From the rules of a sheet, nested in media rules to any depth, the style rules that apply on a medium are those outside of media rules and those in media rules that hold, in order, each with the written selector, the declarations that can be read and the origin of the sheet. A rule with an invalid selector selects nothing. Unknown at-rules are skipped, supports and imports are followed, and nested rules are kept.", "quantifier": "for all sheets of the covered rules, nested to any depth, all media and all property readers", "why_tests_cant": "Sheets have any length and nesting; the media decide on each part.", "anchors": ["src/vaev-engine/style/rules.cpp:Rule::parse", "src/vaev-engine/style/rules.cpp:StyleRule::parse", "src/vaev-engine/style/rules.cpp:MediaRule::parse", "src/vaev-engine/style/computer.cpp:_buildSelectorIndex", "src/vaev-engine/style/stylesheet.cpp:StyleSheet::parse"]}
{"id": "C139", "title": "Reading a style sheet ends", "statement": "Reading the rules of a sheet ends, whatever they are, and never ends the program.", "quantifier": "for all trees of rules, declarations and tokens", "why_tests_cant": "An endless loop shows on some inputs only, and a test would not end.", "anchors": ["src/vaev-engine/style/rules.cpp:Rule::parse", "src/vaev-engine/style/page.cpp:PageSelector::parseList"]}
{"id": "C140", "title": "Namespace prefixes mean the last declaration before the rules", "statement": "A type selector with a prefix selects the elements of that name in the namespace of the last declaration of the prefix; without prefix those in the default namespace, or in any if there is none. Declarations after other rules, or in media rules, are ignored.", "quantifier": "for all lists of namespace declarations, all prefixes and names, and all documents", "why_tests_cant": "Declarations repeat and shadow each other in any order.", "anchors": ["src/vaev-engine/style/rules.cpp:NamespaceRule::parse", "src/vaev-engine/style/selector.cpp:Selector::parse"]}
{"id": "C141", "title": "The value of a property comes from the strongest declaration of all sheets and attributes", "statement": "For every element, the value that a property gets is that of the strongest of the declarations in the rules that select the element, of all sheets and media rules that hold, and those its attributes stand for, by importance, origin, specificity and order. It does not depend on how rules are stored.", "quantifier": "for all lists of sheets, all documents and elements, all media, and all registries of properties", "why_tests_cant": "The result depends on all rules of all sheets at once.", "anchors": ["src/vaev-engine/style/computer.cpp:computeValues", "src/vaev-engine/style/computer.cpp:_considerHtmlPresentationalHint", "src/vaev-engine/style/computer.cpp:_considerInlineStyleAttribute", "src/vaev-engine/style/computer.cpp:_considerSvgPresentationAttributes", "src/vaev-engine/style/rules.cpp:Rule::parse"]}
{"id": "C142", "title": "Style attributes win over rules, presentational attributes lose", "statement": "A declaration in the style attribute wins over those of rules unless these are important and it is not. Presentational attributes do not matter for a property that an author's rule or the style attribute declares.", "quantifier": "for all sheets, elements, attributes and readers of values", "why_tests_cant": "Each must hold against every other declaration for the same property.", "anchors": ["src/vaev-engine/style/computer.cpp:computeValues", "src/vaev-engine/style/computer.cpp:_considerElementAttributes", "src/vaev-engine/style/computer.cpp:_considerHtmlPresentationalHint"]}
{"id": "C143", "title": "Spans of table cells are the written numbers, within limits", "statement": "The colspan and span attributes give the written number, at least 1 and at most 1000; rowspan gives it up to 65534; other texts count as 1.", "quantifier": "for all attribute texts, and all numbers of any length", "why_tests_cant": "There are numbers of any length, and all other texts.", "anchors": ["src/vaev-engine/style/computer.cpp:_considerElementAttributes"]}
{"id": "C144", "title": "A written list of transform functions moves every point as the standard says", "statement": "A list of the functions matrix, translate, scale, rotate and skew, in all their forms, with white space and capitals as one likes, is read to its end; content painted with it has every point moved by the functions, the last one first, around the transform origin, with percentages taken of the reference box.", "quantifier": "for all lists of functions of any length, all numbers, units, spacings and capitalisations, all reference boxes, origins and points", "why_tests_cant": "Lists have any length, and the effect is a map on all points.", "anchors": ["src/vaev-engine/values/transform.cpp:ValueParser<Transform>::parse", "src/vaev-engine/layout/paint.cpp:_resolveTransform", "src/vaev-engine/layout/paint.cpp:_applyTransform"]}
{"id": "C145", "title": "Only a well-formed transform is taken for one", "statement": "The keyword none stands for no transform; a value with an unknown function, a wrong number of arguments or no function at all is not read as a transform; lengths in relative units are resolved.", "quantifier": "for all contents of a declaration", "why_tests_cant": "There are endlessly many malformed values.", "anchors": ["src/vaev-engine/values/transform.cpp:ValueParser<Transform>::parse", "src/vaev-engine/layout/paint.cpp:_resolveTransform"]}
{"id": "C146", "title": "Transforms compose and keep what they should", "statement": "A list followed by another does what the second does and then what the first does; scalings, rotations and skewings leave the origin where it is; translations do not depend on the origin; rotations and translations keep distances; the empty list changes nothing.", "quantifier": "for all lists of functions of any length, all boxes, origins and points", "why_tests_cant": "These are identities between maps on all points, for lists of any length.", "anchors": ["src/vaev-engine/layout/paint.cpp:_resolveTransform", "src/vaev-engine/layout/paint.cpp:_resolveTransformOrigin"]}
{"id": "C147", "title": "The transform attribute of SVG means what SVG says", "statement": "In the transform attribute of SVG elements numbers without units are pixels and degrees, commas may be left out, and rotate with three numbers turns around the given center.", "quantifier": "for all lists of functions of any length, all numbers and spacings, all printers of numbers", "why_tests_cant": "Lists have any length; which functions precede a rotation matters.", "anchors": ["src/vaev-engine/props/transform.cpp:TransformProperty::Registration::parsePresentationAttribute", "src/vaev-engine/props/transform.cpp:_expandSvgRotate", "src/vaev-engine/props/transform.cpp:_fixTransformNumberToDimensions"]}
{"id": "C148", "title": "The transform origin is the written position in the reference box", "statement": "A horizontal and a vertical position, each a keyword, a length, a percentage or a calc(), give the point at those distances in the reference box; a single position leaves the other in the middle; keywords may be in either order.", "quantifier": "for all positions, numbers, units and boxes", "why_tests_cant": "Positions contain arbitrary numbers and are resolved in arbitrary boxes.", "anchors": ["src/vaev-engine/values/transform.cpp:ValueParser<TransformOrigin>::parse", "src/vaev-engine/layout/paint.cpp:_resolveTransformOrigin"]}
{"id": "C149", "title": "The view box of an SVG image is fitted into its place", "statement": "The content of an SVG image is scaled by one factor in both directions, so that its view box lies within the place of the image, is centred in it and touches two opposite edges; when the image is moved, content and clip move along.", "quantifier": "for all view boxes of positive size, all places, all points and moves", "why_tests_cant": "It is a geometric fact about all rectangles.", "anchors": ["src/vaev-engine/layout/svg.cpp:_computeEquivalentTransformOfSVGViewport", "src/vaev-engine/layout/base/fragment.cpp:SvgRootFragment::offset"]}
{"id": "C150", "title": "The size of an SVG image keeps what is known of it", "statement": "A known width or height of an SVG image is kept; if one is not known the image has its aspect ratio, that of its view box when it has one; with nothing known it takes the place there is.", "quantifier": "for all known or unknown sizes, aspect ratios and places", "why_tests_cant": "It is arithmetic on arbitrary sizes.", "anchors": ["src/vaev-engine/layout/svg.cpp:_defaultSizing", "src/vaev-engine/layout/svg.cpp:intrinsicAspectRatio"]}
{"id": "C151", "title": "A keyword in a style sheet becomes the computed value", "statement": "For every property for alignment, baselines, breaks, floats, positions, sizes, overflow, tables, text, flexible boxes and lists, each keyword that CSS gives it, in any case of letters, is what the property is computed to when its declaration wins the cascade.", "quantifier": "for all these properties and their keywords, all spellings, all other declarations in any number and order, all parents", "why_tests_cant": "The other declarations are arbitrary in number, order, origin and importance.", "anchors": ["src/vaev-engine/props/base.cpp:RegisteredPropertySet::parseValue", "src/vaev-engine/props/text.cpp:TextTransformProperty", "src/vaev-engine/values/align.cpp:ValueParser<Align>::parse", "src/vaev-engine/style/computer.cpp:Computer::computeValues"]}
{"id": "C152", "title": "Without a declaration a property has its initial or its inherited value", "statement": "A property that nothing is declared about, neither by itself nor by a shorthand, has the initial value of CSS, or the value of the parent if CSS inherits it; the keywords initial, inherit and unset give the same on demand.", "quantifier": "for all these properties, all declarations of other properties, all parents", "why_tests_cant": "The other declarations are arbitrary; inheritance is about all parents.", "anchors": ["src/vaev-engine/props/base.cpp:Property::Registration::initial", "src/vaev-engine/props/align.cpp:AlignContentProperty", "src/vaev-engine/props/text.cpp:TextAlignProperty", "src/vaev-engine/props/baseline.cpp:DominantBaselineProperty"]}
{"id": "C153", "title": "display has an inner type, an outer type and maybe a marker", "statement": "The words of display, in any order and any of them left out, give the inner type, the outer type and whether the box is a list item; the old words and those with one meaning stand for what CSS says.", "quantifier": "for all combinations of words and spellings, all other declarations", "why_tests_cant": "The declaration stands among arbitrary others.", "anchors": ["src/vaev-engine/values/display.cpp:ValueParser<Display>::parse", "src/vaev-engine/props/display.cpp:DisplayProperty"]}
{"id": "C154", "title": "overflow sets both directions", "statement": "One keyword is for both directions, two are for the horizontal and the vertical one; visible next to another value becomes auto.", "quantifier": "for all keywords and spellings, all other declarations", "why_tests_cant": "The declaration stands among arbitrary others.", "anchors": ["src/vaev-engine/props/overflow.cpp:OverflowProperty::Registration::parse", "src/vaev-engine/values/overflow.cpp:ValueParser<Overflow>::parse"]}
{"id": "C155", "title": "flex-flow and flex set all their longhands", "statement": "flex-flow sets the direction and the wrapping, in any order, and resets what is left out; flex sets basis, growing and shrinking in every form CSS has, with the right values for what is left out.", "quantifier": "for all forms, numbers, lengths and spellings, all other declarations", "why_tests_cant": "Numbers and lengths are arbitrary and the declaration stands among arbitrary others.", "anchors": ["src/vaev-engine/props/flex.cpp:FlexProperty::Registration::parse", "src/vaev-engine/props/flex.cpp:FlexFlowProperty::Registration::parse"]}
{"id": "C156", "title": "list-style sets type, image and position", "statement": "A counter style, an image and a position, in any order and any of them left out, set the longhands and reset those left out; none is for the type and the image that are not given.", "quantifier": "for all counter styles, images and spellings, all other declarations", "why_tests_cant": "Names and images are arbitrary and the declaration stands among arbitrary others.", "anchors": ["src/vaev-engine/props/list.cpp:ListStyleProperty::Registration::parse", "src/vaev-engine/values/list.cpp:ListType"]}
{"id": "C157", "title": "vertical-align sets baseline source, alignment and shift", "statement": "The parts of vertical-align, in any order, set their longhands; those left out are reset.", "quantifier": "for all parts, lengths, orders and spellings, all other declarations", "why_tests_cant": "Lengths are arbitrary and the declaration stands among arbitrary others.", "anchors": ["src/vaev-engine/props/baseline.cpp:VerticalAlignProperty::Registration::parse"]}
{"id": "C158", "title": "Unknown properties are ignored and those of CSS are known", "statement": "A declaration with a name that is no property changes nothing; the properties of CSS that the program has code for have an effect.", "quantifier": "for all names and values, all other declarations, all values of properties", "why_tests_cant": "Names, values and the other declarations are arbitrary.", "anchors": ["src/vaev-engine/props/registry.cpp:defaultRegistry", "src/vaev-engine/props/align.cpp:GapProperty", "src/vaev-engine/props/display.cpp:OrderProperty", "src/vaev-engine/props/defs/properties.inc:MARKER_SIDE"]}
{"id": "C159", "title": "Numbers are computed exactly and kept in range", "statement": "flex-grow, flex-shrink and opacity are the number that is written, a percentage of opacity is a hundredth of it, z-index is the integer; opacity is clamped to 0 and 1, negative flex factors are not accepted.", "quantifier": "for all numbers of any length, all other declarations", "why_tests_cant": "Numbers are arbitrary.", "anchors": ["src/vaev-engine/props/visibility.cpp:OpacityProperty::Registration::parse", "src/vaev-engine/props/flex.cpp:FlexGrowProperty", "src/vaev-engine/props/positioned.cpp:ZIndexProperty", "src/vaev-engine/values/primitives.cpp:ValueParser<Integer>::parse"]}
{"id": "C160", "title": "Lengths are kept as they are", "statement": "A length, a percentage or a calc() of a gap, an inset, a size, a baseline shift or a flex basis is what the property is computed to; the old names of the gaps are as good; running() names the running element.", "quantifier": "for all lengths and names, all other declarations", "why_tests_cant": "Lengths are arbitrary and the declaration stands among arbitrary others.", "anchors": ["src/vaev-engine/props/sizing.cpp:WidthProperty", "src/vaev-engine/props/positioned.cpp:TopProperty", "src/vaev-engine/props/align.cpp:RowGapProperty", "src/vaev-engine/values/insets.cpp:ValueParser<Position>::parse"]}
{"id": "C161", "title": "font-family lists the families in order", "statement": "The names of a font-family declaration that wins the cascade, quoted or as identifiers with single spaces between them and separated by commas, are the families of the element, in their order; anything else is ignored.", "quantifier": "for all lists of names of any length, all other declarations, all parents", "why_tests_cant": "The declaration stands among arbitrary others, and values and parents are arbitrary.", "anchors": ["src/vaev-engine/props/fonts.cpp:FontFamilyProperty", "src/vaev-engine/values/font.cpp:ValueParser<FontFamily>::parse"]}
{"id": "C162", "title": "font-weight is a number or relative to the parent", "statement": "normal is 400, bold is 700, a number from 1 to 1000 is itself, and bolder and lighter are the next weights from that of the parent; other numbers are ignored.", "quantifier": "for all numbers and spellings, all other declarations, all parents", "why_tests_cant": "The declaration stands among arbitrary others, and values and parents are arbitrary.", "anchors": ["src/vaev-engine/props/fonts.cpp:FontWeightProperty", "src/vaev-engine/values/font.cpp:ValueParser<FontWeight>::parse", "src/vaev-engine/values/font.cpp:FontWeight::resolve"]}
{"id": "C163", "title": "font-width and font-stretch are the same property", "statement": "The nine keywords stand for their percentages, a percentage for itself, and font-stretch is another name for font-width.", "quantifier": "for all keywords, percentages and spellings, all other declarations, all parents", "why_tests_cant": "The declaration stands among arbitrary others, and values and parents are arbitrary.", "anchors": ["src/vaev-engine/props/fonts.cpp:FontWidthProperty", "src/vaev-engine/values/font.cpp:ValueParser<FontWidth>::parse"]}
{"id": "C164", "title": "font-style is normal, italic or oblique by an angle", "statement": "normal and italic are themselves; oblique has the given angle in its unit, or 14 degrees.", "quantifier": "for all angles, units and spellings, all other declarations, all parents", "why_tests_cant": "The declaration stands among arbitrary others, and values and parents are arbitrary.", "anchors": ["src/vaev-engine/props/fonts.cpp:FontStyleProperty", "src/vaev-engine/values/font.cpp:ValueParser<FontStyle>::parse"]}
{"id": "C165", "title": "font-size in lengths, percentages and words", "statement": "An absolute length is that distance, em and percentages refer to the size of the parent, rem to that of the root; the words for sizes are increasing, medium is 16 pixels, and larger and smaller are not below and not above the size of the parent.", "quantifier": "for all numbers, units and spellings, all other declarations, all parents, all monotone roundings", "why_tests_cant": "The declaration stands among arbitrary others, and values and parents are arbitrary.", "anchors": ["src/vaev-engine/props/fonts.cpp:FontSizeProperty", "src/vaev-engine/values/font.cpp:resolve", "src/vaev-engine/props/base.cpp:ComputationContext"]}
{"id": "C166", "title": "Relative sizes compound", "statement": "On every path down a document the size of an element is that of the first element, multiplied in order by the factors (em and percentages) of the elements on the way; elements that say nothing change nothing.", "quantifier": "for all trees of any depth, all paths, all declarations on the way", "why_tests_cant": "Paths are of any length.", "anchors": ["src/vaev-engine/style/computer.cpp:Computer::styleElement", "src/vaev-engine/props/fonts.cpp:FontSizeProperty", "src/vaev-engine/values/font.cpp:resolve"]}
{"id": "C167", "title": "font sets all longhands", "statement": "Each part of a font declaration has the effect of the same words in a declaration of the longhand, whatever the order of style, weight and width, and what is left out is reset to its initial value.", "quantifier": "for all orders and choices of parts, sizes, heights of lines and families, all other declarations, all parents", "why_tests_cant": "The declaration stands among arbitrary others, and values and parents are arbitrary.", "anchors": ["src/vaev-engine/props/fonts.cpp:FontProperty"]}
{"id": "C168", "title": "Every element has the face that its own values ask for", "statement": "The face of an element is that of the first family found in the database for its weight, width and style, or else the default one, although it is taken over from the parent when the values are the same.", "quantifier": "for all trees and positions in them, all databases, all values", "why_tests_cant": "Trees and databases are arbitrary.", "anchors": ["src/vaev-engine/style/computer.cpp:Computer::_lookupFontface", "src/vaev-engine/style/computer.cpp:Computer::_updateFontface"]}
{"id": "C169", "title": "Font properties are inherited", "statement": "A font property that nothing is declared about has the value of the parent; initial gives the initial value, and inherit and unset the value of the parent.", "quantifier": "for all declarations of other properties in any number and order, all parents", "why_tests_cant": "The other declarations are arbitrary.", "anchors": ["src/vaev-engine/props/fonts.cpp:FontFamilyProperty", "src/vaev-engine/props/fonts.cpp:FontSizeProperty", "src/vaev-engine/props/fonts.cpp:FontWeightProperty"]}
{"id": "C170", "title": "line-height sets the height of lines", "statement": "A declaration of line-height has an effect on the element.", "quantifier": "for all values of line-height, all parents", "why_tests_cant": "A value that had an effect could be any.", "anchors": ["src/vaev-engine/props/baseline.cpp:LineHeightProperty", "src/vaev-engine/values/line-height.cpp:ValueParser<LineHeight>::parse"]}
{"id": "C171", "title": "A position stands for the point that CSS gives it", "statement": "A position of one to four components, with keywords in any order and offsets from any side, is read to its end, and stands for the point at that distance from the sides it names.", "quantifier": "for all lengths, percentages, calc() sums, spellings, white space and boxes", "why_tests_cant": "Lengths, percentages, boxes and spellings are arbitrary.", "anchors": ["src/vaev-engine/values/background.cpp:ValueParser<BackgroundPosition>::parse", "src/vaev-engine/layout/paint.cpp:_resolveBackgroundPosition"]}
{"id": "C172", "title": "A circle is where and as large as it says", "statement": "The region of circle() is around its position in the reference box; to the closest side it is the largest circle in the box, to the farthest side it reaches the farthest side, and otherwise it has the given radius.", "quantifier": "for all radii, positions, boxes, spellings and white space", "why_tests_cant": "Lengths, percentages, boxes and spellings are arbitrary.", "anchors": ["src/vaev-engine/values/basic-shape.cpp:ValueParser<Circle>::parse", "src/vaev-engine/layout/paint.cpp:_applyClip"]}
{"id": "C173", "title": "An ellipse is where and as large as it says", "statement": "The region of ellipse() is around its position in the reference box, with each radius reaching the closest or farthest side of its own axis or of the given length; to the closest sides it stays in the box.", "quantifier": "for all pairs of radii, positions, boxes, spellings and white space", "why_tests_cant": "Lengths, percentages, boxes and spellings are arbitrary.", "anchors": ["src/vaev-engine/values/basic-shape.cpp:ValueParser<Ellipse>::parse", "src/vaev-engine/layout/paint.cpp:_applyClip"]}
{"id": "C174", "title": "rect(), xywh() and inset() keep the points between their sides", "statement": "The region has exactly the points between the four sides given as distances from the top and left, as a position and a size, or as distances from each side inwards.", "quantifier": "for all lengths, percentages, boxes, points and white space", "why_tests_cant": "Lengths, percentages, boxes and spellings are arbitrary.", "anchors": ["src/vaev-engine/values/basic-shape.cpp:ValueParser<Rect>::parse", "src/vaev-engine/values/basic-shape.cpp:ValueParser<Xywh>::parse", "src/vaev-engine/values/basic-shape.cpp:ValueParser<Inset>::parse", "src/vaev-engine/layout/paint.cpp:_applyClip"]}
{"id": "C175", "title": "The corners of polygon() are its points", "statement": "The corners of the region are the points in the order given, from the corner of the reference box, with the given fill rule; a polygon without points is refused.", "quantifier": "for all lists of points of any length, boxes and white space", "why_tests_cant": "Lists of points are of any length.", "anchors": ["src/vaev-engine/values/basic-shape.cpp:ValueParser<Polygon>::parse", "src/vaev-engine/layout/paint.cpp:_applyClip"]}
{"id": "C176", "title": "clip-path puts its shape in the reference box", "statement": "A shape is put in the box named before or after it, or in the border box; a box alone clips to that box.", "quantifier": "for all shapes, boxes and spellings", "why_tests_cant": "Lengths, percentages, boxes and spellings are arbitrary.", "anchors": ["src/vaev-engine/props/visibility.cpp:ClipPathProperty", "src/vaev-engine/layout/paint.cpp:_applyClip"]}
{"id": "C177", "title": "Pseudo-elements are there when they have content", "statement": "In a document that is styled for the first time, every element has ::before and ::after exactly when their content is neither none nor normal, and ::marker exactly when it is a list item and the content of the marker is not none; their values inherit from the element, and the values of an element from its parent.", "quantifier": "for all documents of any size and depth, all elements, all ways to compute values", "why_tests_cant": "Trees are of any depth and values arbitrary.", "anchors": ["src/vaev-engine/style/computer.cpp:Computer::generatePseudoElement", "src/vaev-engine/style/computer.cpp:Computer::styleElement", "src/vaev-engine/dom/element.cpp:Element::addPseudoElement"]}
{"id": "C178", "title": "Rendering again depends on the current media only", "statement": "After a document has been rendered or printed any number of times with any media, the values of its elements and its pseudo-elements are those of the last media alone.", "quantifier": "for all documents, all histories of renderings of any length", "why_tests_cant": "The histories are of any length.", "anchors": ["src/vaev-engine/style/computer.cpp:Computer::styleElement", "src/vaev-engine/style/computer.cpp:Computer::styleDocument", "src/vaev-engine/dom/window.cpp:Window::changeMedia", "src/vaev-engine/dom/window.cpp:Window::print", "src/vaev-engine/dom/element.cpp:Element::clearPseudoElement"]}
{"id": "C179", "title": "The background of the body covers the page", "statement": "An html element without a background takes over the background of its first body child, which then has none; all other elements, and documents of other kinds, keep theirs.", "quantifier": "for all documents, all values", "why_tests_cant": "Documents and values are arbitrary.", "anchors": ["src/vaev-engine/style/computer.cpp:Computer::_propagateBodyBackgroundToHtml", "src/vaev-engine/dom/document.cpp:Document::body", "src/vaev-engine/dom/document.cpp:Document::documentElement"]}
{"id": "C180", "title": "A window shows what it was last told to show", "statement": "After any history of loading, changes of media and viewport, drawing and printing, what a window draws or prints is the document loaded last, in the size and with the media asked for last, although it keeps what it drew.", "quantifier": "for all histories of any length, all documents, media and sizes", "why_tests_cant": "The histories are of any length.", "anchors": ["src/vaev-engine/dom/window.cpp:Window::ensureRender", "src/vaev-engine/dom/window.cpp:Window::changeViewport", "src/vaev-engine/dom/window.cpp:Window::invalidateRender", "src/vaev-engine/style/media.cpp:Media::changeViewport"]}
