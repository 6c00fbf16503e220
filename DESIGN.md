# Formal model of odoo/paper-muncher in Rocq

## Method

The C++ sources in /repo are read as text and transcribed, function by function, into
total Gallina functions (`theories/*/..Model.v`). Every definition cites the file and lines it
models. Specifications that do not mention the model's helpers live in `..Spec.v`, proofs in
`..Proofs.v`, and the theorems that answer the properties in `..Props.v`, each followed by
`Print Assumptions` and accompanied by an `Example` showing that its hypotheses are met by
a concrete non-trivial case.

* Panics, out-of-range accesses and undefined behaviour are explicit outcomes of the model.
* Loops that are not structurally recursive take fuel; running out of fuel is an explicit
  outcome, and the theorems show that it does not occur (or exhibit the input on which it
  occurs for every amount of fuel, which is a finding).
* A property that is false of the code gets a theorem with suffix `_refuted`, stating
  the existence of a counterexample; what does hold is proved under suffix `_partial`.

## Trusted base

* Coq 8.16.1's kernel (including `vm_compute`).
* The transcription from C++ to Gallina, as cited at each definition.
* The Karm library is not part of /repo. Its behaviour is assumed as follows, and as stated at each use:
  - `Vec` and `Buf` indexing out of range, `Opt::unwrap` of nothing and `Union::unwrap` of another alternative
    panic; reading a `Cursor` at its end panics; `Map` is a finite map that iterates in insertion order;
    unsigned subtraction wraps; `search` is binary search.
  - `SScan`: `peek` and `next` at the end yield NUL; `skip`/`ahead` of a string compare it at the position;
    `Re` combinators mean what their names say; `Io::atoi` and `atof` read an optional sign and digits;
    `Io::atou` with base 16 reads hexadecimal digits, `SScan::rem` and `slice` count characters. `Math::round` is any
    function to a nearest whole number, and the conversions and interpolations of `Gfx` are parameters.
  - `Au` and `f64` are exact rationals (`Q`) or integers, so rounding and overflow are outside the model;
    dividing an `Au` by zero is a crash. `Integer` is `Z`.
  - `Gfx::Prose`: runes and struts are kept in the order they are appended, each in the spans open at that moment;
    a strut counts as content; a prose made from the current span of another is within the same spans.
  - `Scene::Stack::prepare` sorts the children by `zIndex` and leaves those of equal `zIndex` in order; the
    `zIndex` of a node is 0 unless set.
  - `Rect`, `Insets`, `clamp`, `Path::stem`, `Url / name`, `PaperStock::custom`, `Print::Settings::pageSize`
    do what their names say (landscape swaps the axes).
  - `Math::Trans2f` is an affine map; `a.multiply(b)` applies `a` first, `t.translated`, `rotated` and `scaled` apply the
    new map before `t`; `rotate`, `skew`, `scale`, `translate` are the maps of those names. Sine, cosine, tangent and pi
    are parameters. `Io::format` prints a number as a decimal, which need not be exact.
  - `Rect::shrink` moves each side inwards by its inset, and `Rect::offset` moves the rectangle; `Math::Path`'s
    `ellipse`, `moveTo`, `lineTo` and `close` draw what they say. In `clip-path`, reading `path()` and corner radii, resolving
    the radii and the square root in the percentages of circle() are parameters.
  - The garbage collected heap never frees what is referenced. `Uuid::v4` never repeats. Tasks interleave only
    where they await. Requests, files and clocks are arbitrary functions of the history.
* Fonts, shaping and line breaking of text are not modelled; where layout needs them they are parameters.
* The depth of the machine stack and the amount of memory are not modelled.

## Plan per property

* **C01 An+B selects exactly the arithmetic progression.** Model: AnB.match over Z with Z.quot/Z.rem (C++ truncation). Proof: arithmetic, all quadrants.
* **C02 Specificity is a total order with lexicographic comparison.** Model: Specificity compare/add on triples. Proof: lexicographic order laws.
* **C03 The cascade picks the strongest declaration, last one winning ties.** Model: CascadedValues::put/expandShorthands as a fold over a finite map. Proof: invariant over the list of declarations: stored entry is a maximum; refinement to an argmax specification; shorthand expansion commutes with the cascade.
* **C04 Importance reverses origin precedence.** Same model. Expected to be false (importance does not reverse origins): `_refuted` witness plus the part that holds.
* **C05 A complex selector matches exactly the elements CSS says it matches.** Model: DOM tree with element/other nodes and paths, every overload of the matcher by recursion on the selector, panics explicit (Style/SelectorModel.v). Spec: `sem` of simple selectors and `matches_complex` (an assignment of elements to compounds). Proved for the supported selectors; `h1 + p` across text, `:root`, `:empty`, `:only-*` refuted.
* **C06 Selector parsing keeps the author's combinator structure.** Style/SelectorParseModel.v: the operator-precedence parser with its lookahead. SelectorParseSpec.v: abstract selector lists, their text with spacing, their meaning. SelectorTree.v: the grouping the parser builds means the same as left association (siblings share ancestors) unless a bad pair occurs; also same specificity and same supportedness. SelectorParseProofs.v: the parser builds that grouping, by mutual induction on the syntax. Bad pairs, dropped compounds and rejected selectors refuted.
* **C07 Indexed rule lookup returns the same matches as testing every rule.** Style/Index{Model,Spec,Proofs,Props}.v. The whole of rules-index.cpp (tables keyed by a tagged sum, k-way merge with swap-and-pop, deferred evaluation of AND/OR rules). Proved: the merge visits a sorted permutation of the collected entries; each group of equal entries contributes the rule iff it matches; in order; exact for compound selectors; and, composed with C03, the cascade over the returned rules computes the winner prescribed for the matching rules (no selector lists). Refuted: specificity of lists hit twice, repeated reports of complex rules, case-insensitive [*|x=v i], two attributes with one local name.
* **C08 Counter values are rendered by numeric systems as positional numerals.** Style/CounterModel.v: the digit loop with fuel; the text is the unique numeral of |v| (Horner value, no leading zero), every numeral is reached, injective; strong induction on the value via the fuel.
* **C09 Counter values are rendered by alphabetic systems as bijective numerals.** Same loop with bijective digits; bijection with the non-empty symbol strings.
* **C10 Additive counter styles represent the value exactly.** Greedy loop on the tuple list; the multiplicities are the unique greedy ones and weigh exactly the value; negative weights refuted.
* **C11 Cyclic, symbolic and fixed counter styles index only existing symbols.** The three functions with an explicit out-of-range outcome, lifted to constructCounterRepresentation; safety where it holds; fixed, symbolic 0 and negative cyclic values refuted.
* **C12 Generating a counter representation terminates and always produces text.** Fallback recursion with `seen` list and fuel; measure = fallback names not yet seen; result is the style that the independent relation `picks` selects. Overridden decimal refuted.
* **C13 extends chains of counter styles are resolved away.** resolveExtends with memo and in-progress sets; termination measure = keys not in progress; independent `chain` relation gives the descriptors; acyclic, dangling and cyclic chains.
* **C14 Counter scoping follows document order and nesting.** CounterSet operations folded over a tree; abstract per-name state; the sibling-only scope is proved and the CSS scope refuted.
* **C15 Media queries are evaluated as boolean combinations of their features.** Style/MediaModel.v: parser and evaluation; MediaSpec.v: abstract query lists printed to component values with arbitrary spacing and case, and their truth on a device; proved by induction on nesting. Language where they disagree refuted: not/only/all, third operand, range syntax, aspect-ratio, boolean discrete features.
* **C16 Absolute and relative lengths convert to CSS pixels with the CSS ratios.** Values/LengthModel.v over exact rationals; conversion checked against inch-based table per unit; printed numbers with units parse back (Values/Number.v models atoi/atof of the trusted library).
* **C17 calc() computes the value of the whole expression.** Values/CalcModel.v; one and two operands proved for every operand and context; more operands and nesting refuted.
* **C18 CSS tokenization always terminates and loses no input.** Css/LexerModel.v models css/lexer.cpp with the regular-expression combinators as functions; induction on the input length.
* **C19 CSS parsing always terminates.** Css/ParserModel.v models css/parser.cpp over token lists with fuel; total with twice the number of tokens as fuel; lexer link for the text-level statement. CDO/CDC at top level loops (refuted).
* **C20 A declaration's value does not swallow the following declaration.** Compositional round trip of a style-sheet AST (component values, declarations, nested rules, at-rules) by nested induction; recovery from a missing colon or a lone `!` refuted.
* **C21 DOM mutations keep the tree well formed.** Dom/Tree{Model,Spec,Proofs,Props}.v. The whole of tree.cpp over an explicit heap of the five link fields; simulation of the list operations by induction over histories; acyclicity; traversals.
* **C22 Serialisation preserves the tree.** Html/Serial{Model,Spec,Proofs}.v, HtmlProps.v. serialisation.cpp and the whole tokenizer; simulation of the tokenizer over the serialisation by induction on the tree.
* **C23 HTML tokenization is total.** Html/Lexer{Model,Inv,Steps,Steps2,Frame,Proofs}.v, HtmlProps.v. All 80 states; an invariant per state (kind of current token, attribute reference, return state) and a rank that bounds reconsumption. Refuted by a stale match length; proved when references have their semicolons.
* **C24 @page selectors match the pages they name.** Print/PageModel.v, PageProps.v. page.cpp and PageRule::match; :first and names proved; :left, :right and :blank are the wrong way round (refuted).
* **C25 Page margin boxes and content box tile the page.** Print/MarginModel.v, MarginProps.v. The nine rectangles of print.cpp; case analysis over exact rationals.
* **C26 Pagination terminates and neither drops nor repeats content.** Layout/BlockModel.v, PaginateModel.v, PaginateProofs.v, RenderProofs.v, DiscoverProofs.v, PaginateProps.v. Both passes of print.cpp over block layout; induction on boxes with a specification of break points as cuts of the document; a measure that every page decreases. Refuted in general by nine documents.
* **C27 The chosen break is the best one seen.** Layout/BreakModel.v, BreakProps.v. overrideIfBetter; induction on the list of offers.
* **C28 Adjacent sibling margins collapse as CSS 2.1 prescribes.** Layout/BlockModel.v, BlockProps.v. The loop of block.cpp; induction on the children.
* **C29 Auto horizontal margins absorb the free space.** Layout/SizingModel.v, SizingProps.v. Case analysis over exact rationals.
* **C30 Building a table grid keeps every cell.** Table/GridModel.v, GridSpec.v, GridProofs.v, GridProps.v. The table model of HTML as built by table.cpp; invariant relating the grid to the list of placed cells. Refuted for rowspan=0 and for overlapping cells.
* **C31 Collapsed borders pick the winner CSS prescribes.** Table/BorderModel.v, BorderProps.v. The fold over the borders; induction on the list. Refuted against the CSS order: the style never decides.
* **C32 Table column widths add up to the table width.** Table/WidthModel.v, WidthProofs.v, WidthProps.v. Column vectors over the rationals; room for every cell is an invariant of each step. Refuted: spacing is added outside of the width; fixed layout loses the borders and divides by zero.
* **C33 Flex line breaking keeps every item in order.** Flex/FlexModel.v, LineProps.v. Induction on the items; refuted: a line that begins with items of size 0 takes one that does not fit; column-reverse is not reversed.
* **C34 Resolving flexible lengths terminates, respects min/max and fills the line.** Flex/FlexProps.v, FillProps.v. The number of unfrozen items falls at each turn; invariants on the sum of sizes, one for growing and one for shrinking; refuted: a negative width gives a loop that does not end.
* **C35 justify-content places items in order without overlap and consumes the free space.** Flex/JustifyProps.v. The list of empty spaces of a line is computed and compared with what CSS Flexbox says; refuted for end, right, space-evenly.
* **C36 Replaced elements respect min/max constraints.** Layout/SizingModel.v, SizingProps.v. Case analysis over the table of sizing.cpp; the ratio is lost for a specified width (refuted).
* **C37 Running elements are resolved to the value in force on the page.** Print/RunningModel.v, RunningProps.v. running-position.cpp with binary search as a parameter; invariants of the registration order; refuted for start and first-except.
* **C38 WebDriver sessions always have a valid current window.** Driver/DriverModel.v, DriverProofs.v, DriverProps.v. A transition system whose steps are split where a command waits for a fetch; inductive invariant over all schedules; a session that ended stays gone. Refuted: a height of 0 crashes the process.
* **C39 A script property that was set can be read back.** Script/ScriptModel.v, ScriptProofs.v, ScriptProps.v. Induction along the chain; proved for properties that did not exist, refuted for others.
* **C40 Batch printing writes each input exactly once.** Batch/BatchModel.v, BatchSpec.v, BatchProofs.v: the tool adds events to a history and the environment answers by any function of the history; induction on the inputs gives the exact shape of the history for every outcome. Refuted for inputs of the same name.
* **C41 XML documents are parsed with properly scoped namespaces.** Xml/XmlModel.v, XmlSpec.v (grammar and meaning written independently), XmlProofs.v, XmlRead.v: induction on the grammar; the parser's context agrees with the declarations in scope. Refuted for xmlns="".
* **C42 Class and token lists behave as ordered sets.** Dom/TokenList{Model,Props}.v. The whole of token-list.cpp. Membership for all histories; order and absence of duplicates for histories without replace; replace refuted twice.
* **C43 Attribute selectors compare values as CSS says.** Same model; `attr_sem` spec over strings; induction on strings. `[*|x]` refuted.
* **C44 A selector's specificity counts its ids, classes and types.** `spec` against the independent `css_spec`; induction on selectors; pseudo-elements, `:not()` lists and `of S` refuted.
* **C45 Rules for an element do not style its pseudo-elements.** False: a selector without pseudo-element never looks at the pseudo-element. The converse direction is proved.
* **C46 Matching a selector never crashes.** Totality by induction; `:nth-child` without argument panics.
* **C47 CSS tokens are recognised as written.** Round trip text -> tokens by induction on the token list; one lemma per token kind.
* **C48 CSS string literals denote the string they spell.** Loop lemma by induction on the items of the literal.
* **C49 CSS comments are ignored.** Comments between items are skipped (proved); inside preludes and values they become tokens (refuted).
* **C50 Counter text is assembled in CSS order.** finish_repr against the independent css_text; non-negative values and unprefixed negative ones proved, the rest refuted.
* **C51 Reading a media query ends and does not crash.** Same model; fuel bound 3*size+3; crash witnesses as refutations.
* **C52 The medium describes the output.** for_print, for_render, for_view against test_holds/type_holds.
* **C53 The An+B notation is read as its value.** AnBParseProofs.v: every form read back, for digits of any length; case-insensitivity and '2n of S' refuted.
* **C54 Reading a selector ends and does not crash.** SelectorParseTotal.v: what is left is always a suffix, fuel 8*size+6 suffices; no crash when '.', '|', '=' and ':' are followed by something; crash witnesses.
* **C55 The class attribute is split into classes.** Dom/TokenList{Model,Props}.v: element.cpp setAttribute's class splitting. Proved for values whose only whitespace is the space; refuted with a line feed.
* **C56 Attributes of a tag are distinct and the first wins.** Html/AttrProofs.v, HtmlProps.v. Distinctness from the C23 invariant for every input; the first-wins order by induction on the attributes.
* **C57 Named character references expand exactly.** Html/{Entities,RefProofs}.v, HtmlProps.v. The whole table; induction on the name.
* **C58 Numeric character references decode exactly.** Html/NumProofs.v, HtmlProps.v. Induction on the digits with a saturating accumulator.
* **C59 Doctypes are read exactly.** Html/DoctypeProofs.v, HtmlProps.v. One layout of white space proved for all names and identifiers; two refutations.
* **C60 @page declarations cascade.** Print/PageModel.v, PageProps.v. computeValues for pages; induction on sheets and rules. Importance and specificity are not looked at (refuted); order of appearance, initial values and isolation of margin boxes proved.
* **C61 Reading a page selector list ends.** Print/PageModel.v, PageProps.v. parse and parseList with fuel; a comma makes the loop endless (refuted).
* **C62 Forced breaks are respected.** Layout/ForcedProofs.v, PaginateProps.v. Invariant of the rendering loop; refuted for the first child of a block that is not the first.
* **C63 Content stays inside the content area of its page.** Layout/PaginateProps.v. Refuted: text overflows and pages end early.
* **C64 Margins collapse through parents and empty boxes.** Layout/BlockProps.v. Refuted.
* **C65 The width of a block is within its limits.** Layout/SizingProps.v. Refuted: the limits are never read by block layout.
* **C66 Default size of replaced content.** Layout/SizingProps.v. Case analysis.
* **C67 Percentages of an unknown height count as automatic.** Layout/SizingProps.v. Refuted: the image gets height 0.
* **C68 Percentage widths refer to the containing block.** Layout/SizingProps.v. Induction on the children; refuted after a sibling wider than the block.
* **C69 Rows, columns and their groups keep their place.** Table/RecordProps.v. Induction on rows and columns; refuted for spans over rows and for groups without columns.
* **C70 Laying out a table never stops the program.** Table/BorderProps.v, WidthProps.v. Every index is in range when row spans are positive; refuted by rowspan=0, a column group with a width and without columns, and fixed layout without rows.
* **C71 A table of automatic width fits its container when it can.** Table/WidthProps.v. Refuted: without caption the max-content width is always used.
* **C72 Laying out a table again gives the same columns.** Table/WidthProps.v. Invariant of the record of the last input; refuted after an intrinsic measure and for fixed layout.
* **C73 Rows are as high as their cells need.** Table/HeightModel.v, HeightProps.v. Induction on the cells; refuted: rows may be higher than needed because a cell of several columns is measured in the width of its first column.
* **C74 A table has the height it is given.** Table/HeightProps.v. Refuted: the number of automatic rows grows with each layout, tr without cells.
* **C75 Repeated headers and footers have the room that is kept for them.** Table/HeightProps.v. Refuted: the footer uses the number of header rows.
* **C76 Every cell of a table is shown once.** Table/CellProps.v. The cells shown are the placements that own the slot where they end; refuted for overlapping cells.
* **C77 Cells are put in their rows and columns and do not overlap.** Table/CellProps.v. Invariant over the rows: the start of each row is the sum of those before; refuted when no cell ends in a row.
* **C78 Flex items stay inside of their container.** Flex/JustifyProps.v. From C33, C34 and C35; refuted for percentages as margins.
* **C79 Flex items are aligned in their line on the cross axis.** Flex/CrossModel.v, CrossProps.v. By cases for one item, then for all items of all lines; refuted for auto margins without free space, end, baseline.
* **C80 Flex lines fill their container as align-content says.** Flex/CrossProps.v. The list of spaces around the lines is compared with what CSS says; refuted for containers with auto height, where the space that is available is 0, and for wrap-reverse.
* **C81 WebDriver sessions are isolated.** Driver/DriverProps.v. Each event that does not concern a session leaves it and its windows alike; handles are shared by no two sessions.
* **C82 Opening, switching and closing windows.** Driver/DriverProps.v. From the invariant, for every reachable state; refuted when the last window is closed while another is opened.
* **C83 What was set in a session can be read back.** Driver/DriverProps.v. Invariant over schedules for timeouts; one step for rectangles, refuted for positions.
* **C84 The location of a window is that of its last page.** Driver/DriverProps.v. One step from any reachable state; refuted for two navigations that end in the other order.
* **C85 Reading a script property looks along the prototypes.** Script/ScriptProps.v. Inductive relation for the nearest property; prototypes are older than their objects in every history, so fuel suffices.
* **C86 Setting a script property leaves the rest alone.** Script/ScriptProps.v. Frame lemma for stores; refuted for objects with a prototype, where the property is created in the last prototype.
* **C87 Script values are compared as SameValue says.** Script/ScriptProps.v. By cases; refuted for different strings, booleans, symbols, objects, NaN and zeros.
* **C88 Accessors are called.** Script/ScriptProps.v. For every host function; refuted for primitive receivers, missing getters and all setters.
* **C89 Attributes of script properties are respected.** Script/ScriptProofs.v. Invariant of histories: what is there stays; refuted for definitions of existing properties.
* **C90 Script tokens cover the source.** Script/LexModel.v, LexProps.v. Induction on the length of the rest.
* **C91 The longest script token is taken.** Script/LexProps.v. Tables are ordered by length; refuted for instanceof and for names that begin like keywords.
* **C92 Every XML text is parsed to an end.** Xml/XmlTotal.v. Every reader consumes text; the fuel, twice the length for elements, is never used up.
* **C93 Characters of XML documents are read however they are written.** Xml/XmlRead.v, XmlProps.v. From the grammar of text and values; refuted for line ends and white space of attributes, which are not normalised.
* **C94 XML that is not well-formed is refused.** Xml/XmlLoose.v (a looser grammar), XmlSound.v: inversion of every reader; refuted with texts that are taken.
* **C95 Well-formed XML documents are taken.** Xml/XmlRead.v; refuted with well-formed documents that are refused.
* **C96 Headers and footers repeat on every page.** Batch/DecoratorModel.v: invariant of the memo (it holds nothing but the wanted heights, and has all sizes that were laid out), for all sequences of page areas. Refuted for empty headers (division by zero) and for headers taller than the page.
* **C97 The options of the command line do what they say.** Batch/BatchModel.v: the pages that are printed as symbolic scenes. Refuted: no scale in the continuous flow, no background on pages, width and height swapped in landscape, no growing without --extend fit.
* **C98 A conforming HTML document is parsed into the tree it was written from.** Html/BuildModel.v models the tree builder function by function; BuildSpec.v says which documents conform, without it. BuildSteps/Tags/Start/End/Table/Tree/Doc.v run the builder over the tokens of a tree by induction on it; LexerSink.v joins this with the tokenizer run of C22.
* **C99 Content without html, head and body gets them.** BuildFrag.v: the same induction, after the first token has opened html, head and body.
* **C100 Parsing HTML gives a document whatever the text is.** Corollary of C98 and C99 where the claim holds; refuted by four kinds of text, one of which recurses for ever (induction on the depth of calls).
* **C101 Everything in a parsed document comes from its text.** FromSpec.v says where a node comes from. BuildInv.v: one invariant of the builder's state (links of the document, kinds of its nodes, what the stacks hold, text held back), preserved by every handler, by induction on the depth of calls; BuildFrom.v reads it off the tree.
* **C102 No text appears twice in a parsed document.** The same invariant counts each character; the document's links form a tree, so each node is read once (BuildFrom.v).
* **C103 Every parsed document has html, head and body.** Corollary of C98; refuted when the text ends within raw text.
* **C104 A comment of the text is in the document once.** Corollary of C98; refuted for a comment between the doctype and the html tag.
* **C105 Formatting opened in a table cell ends with the table.** C98 for nested documents; refuted for a misnested cell.
* **C106 Everything in the document is shown once, in document order.** Boxes/BoxModel.v models the builder and the boxes it makes; BoxSpec.v says what should be shown, without the builder, and reads a box tree. BoxProofs.v: induction on the document, with an invariant of the pair of boxes being filled and of the anonymous row and cell of a table.
* **C107 Words of the document are kept apart, and only they.** BoxText.v: the loop over one text as a function; texts up to runs of spaces, by induction on the text and on the nesting.
* **C108 A box lays out lines or stacks blocks, and places each child once.** BoxShape.v: an invariant of the boxes being filled, preserved by every step, by induction on the document.
* **C109 Building the boxes of a document does not end the process.** BoxShape.v: there is a root inline box whenever one is asked for; refuted for inline generated content of a table.
* **C110 Tables are made of rows of cells.** BoxShape.v: the same induction as C108, with an invariant of the anonymous row and cell.
* **C111 The children of a flex container are its items.** BoxShape.v: within a flex container no line is left open between steps.
* **C112 Everything there is to see is painted, and painted once.** Boxes laid out to fragments with placeholders and the out-of-flow stash, then painted by six passes (Paint/PaintModel.v); the laid out tree is related to the one drawn directly from the boxes (`same`, PaintProofs.v), and the passes counted over it by induction on the box (PaintOnce.v). Ten refutations.
* **C113 Boxes cover each other in the order of CSS.** CSS 2.2 appendix E written as layers over boxes (`css_order`, PaintSpec.v). The entries of the passes are matched with the layers, and the stable sort of the scene with the sort by layers, by induction on the box (PaintOrder.v). Eight refutations.
* **C114 Opacity, transforms and clipping apply to the element and what is in it.** As C112, with the list of effects kept for each mark.
* **C115 Boxes out of flow are laid out in their containing block.** `Paint/PaintModel.v` (each box that is filled, with the box that fills it), `Paint/PaintHolders.v`: invariant that what is filled together with what is pending, resolved against the ancestors still to come, is what CSS says.
* **C116 Insets are distances from the edges of the containing block.** `Layout/PositionModel.v`, both axes of layoutAbsolutePositioned over rationals; `Layout/PositionProps.v`: placed as CSS says if and only if one of the listed cases; universally quantified refutations of the others.
* **C117 Relative positioning moves a box by its insets and nothing else.** `Layout/PositionModel.v` (placement of children in flow), `Layout/PositionProps.v`: induction over the children, compared with the same children not positioned.
* **C118 Tags that HTML lets an author leave out make no difference.** `Html/OmitSpec.v` (a relation between documents and texts, from the tables of the standard), `Html/OmitSteps.v`, `Html/OmitTree.v`, `Html/OmitDoc.v`, `Html/OmitLex.v`: a state that lags behind by elements still open is brought level by the next token, whatever it is; mutual induction over the relation.
* **C119 var() is replaced by the value of the variable or by its fallback.** Props/VarModel.v models the expansion of contents; `substituted` is an inductive definition of substitution. Both directions are proved below the limit of 32 levels; refuted: longer chains, variables without value, var() in brackets.
* **C120 Variables that depend on themselves have no value, and nothing hangs.** `uses_plus` is the dependency of variables; a variable in a cycle and what uses it expand to nothing at any depth, by induction on the depth. Refuted: sizes grow exponentially.
* **C121 Reading a declaration ends.** Props/EngineModel.v models reading; parsers that consume make the loop of toggle() end (induction on the content); every registered parser but those of borders consumes. Refuted: border: toggle(x).
* **C122 What is not declared is inherited or has its initial value.** Props/BoxPropModel.v has the 40 registrations; each longhand owns its member of the computed values (`owns`), the fold over registrations gives initial or parent value, and the cascade has no entry. Paths by induction. Refuted: visibility.
* **C123 initial, inherit, unset and revert work for every property.** From the winner lemma of the cascade with the value of a Defaulted property; shorthands by replacing the expansion. Refuted: border: inherit, revert.
* **C124 The declaration that wins gives the value; invalid and unknown ones are ignored.** The cascade theorems (C11 ff.) lifted to declarations that are read, expanded and applied; what each registration does to a member is a table checked once. Refuted: invalid declarations win.
* **C125 A shorthand with one to four values stands for its longhands.** Two lists of declarations that agree, for every longhand, on weights and values, compute the same (`replace_same`). Refuted: the logical pairs.
* **C126 Declarations of one property do not change another.** The same lemma, with a declaration that concerns no longhand of the member. Refuted: logical against physical margins.
* **C127 Custom properties cascade and are inherited.** The cascade of custom properties, which is applied first; and what the other phases leave alone. Refuted: variables in inherited values.
* **C128 Borders have the width, style and color that are declared, in any order.** The loop that reads parts by induction on the words, then the shorthand that counts. Refuted: border-top: thin solid, border-bottom-width: thin, default color.
* **C129 Hexadecimal colors mean their digits.** Values/ColorModel.v models values/color.cpp; strings of digits come from the written digits, tokens from the lexer model (C47); `#xyz` is read as black (refuted).
* **C130 Color names mean what CSS says, in any case.** The table of colors.inc is copied into the model; the 148 names and values of CSS are written down again, as decimal triples, in ColorSpec.v, and compared by computation, lifted to all ways of writing them.
* **C131 rgb() gives the nearest channels, in both notations.** Written channels are decimals (Values/Number.v); rounding is any function to a nearest whole number. Fractions with commas are cut off, numbers of 256 and more are undefined behavior, and junk after the alpha is accepted (refuted).
* **C132 hsl() hands on the hue, saturation and lightness that are written.** The conversion from hsl is a parameter; what is proved is what it is given. Plain numbers are taken 100 times too large and alpha none is opaque (refuted).
* **C133 color() gives the nearest channels in its color space.** The channels are rounded before they are multiplied by 255, so that only 0 and 255 occur; unknown spaces are white (refuted).
* **C134 color-mix() mixes by the shares that are written; currentcolor is the element's color.** Interpolation, premultiplication and opacity are parameters; shares, symmetry, the substitution of currentcolor by induction on the color, and the hue fix-up for all hues in a circle. The color space is ignored, apart from lch (refuted).
* **C135 Reading a color ends and is defined.** Fuel is bounded by the nesting of functions; a logic of results (`good`) carries the bounds through all functions. Undefined behavior is left out by bounding the numbers.
* **C136 The style sheets of a document, in order.** Sheet/SheetModel.v walks the document as the loader does; the sheets are compared with the nodes in document order, by induction on trees.
* **C137 A sheet that cannot be loaded changes nothing else.** Same model, with a loader that fails on any set of addresses.
* **C138 The rules of a style sheet are the written ones.** Sheet/SheetModel.v models style/rules.cpp; sheets are written in the syntax of Sheet/SheetSpec.v and their meaning is given by inductive rules; by induction on nested rules, with C06 (selectors), C15 (media queries) and C61 (page selectors).
* **C139 Reading a style sheet ends.** Induction on the size of rules, with C51, C54 and C61.
* **C140 Namespace prefixes mean the last declaration before the rules.** Same model; the namespaces in force are compared with the last declaration in the list.
* **C141 The value of a property comes from the strongest declaration of all sheets and attributes.** Sheet/SheetModel.v models how computer.cpp gathers declarations; composition of C138, C05/C06 (matching), C07 (index) and C03 (cascade).
* **C142 Style attributes win over rules, presentational attributes lose.** Same model; a declaration weaker than another one of the same property can be left out (lemma wins_drop).
* **C143 Spans of table cells are the written numbers, within limits.** Same model with the tokenizer of Css/LexerModel.v; numbers by C47.
* **C144 A written list of transform functions moves every point as the standard says.** Transform/TransformModel.v models values/transform.cpp and layout/paint.cpp; the effect of a written function on a point is given by formulas in TransformSpec.v; by induction on lists, with C16 (lengths) and the printing lemmas of Values/Number.v.
* **C145 Only a well-formed transform is taken for one.** Same model; exact characterisation of the values that begin with no function, and refutations for malformed arguments and relative lengths.
* **C146 Transforms compose and keep what they should.** Same model; ring identities and induction on lists.
* **C147 The transform attribute of SVG means what SVG says.** Same model, with the rewriting of props/transform.cpp; the printer of numbers is a parameter with the number that it shows, and the error is bounded.
* **C148 The transform origin is the written position in the reference box.** Same model; single values refuted.
* **C149 The view box of an SVG image is fitted into its place.** Same model (layout/svg.cpp); inequalities over rationals; the move of a fragment refuted.
* **C150 The size of an SVG image keeps what is known of it.** Same model.
* **C151 A keyword in a style sheet becomes the computed value.** Props/LonghandModel.v models the parsers and registrations of 51 longhands and 5 shorthands on top of the property engine of EngineModel.v; LonghandSpec.v has the keywords of CSS. Each keyword is followed through parser, cascade and application; EngineProofs4.v shows that one winning declaration decides. The keywords of the table `unsupported` are refuted: they act like `unset`.
* **C152 Without a declaration a property has its initial or its inherited value.** By the theorem on undeclared properties of the engine, from a table of initial values; five properties differ and are refuted.
* **C153 display has an inner type, an outer type and maybe a marker.** By case analysis on the words, inner type first; the other order and `ruby` are refuted.
* **C154 overflow sets both directions.** The shorthand is followed through expansion and cascade; `clip` and the adjustment of `visible` are refuted.
* **C155 flex-flow and flex set all their longhands.** As C154, for every form of the grammar (an inductive relation).
* **C156 list-style sets type, image and position.** As C154; the position and `none` after a type are refuted.
* **C157 vertical-align sets baseline source, alignment and shift.** By induction on the parts, in any order; the reset is refuted.
* **C158 Unknown properties are ignored and those of CSS are known.** For every registry with the names of props/registry.cpp or some of them; the names missing from it are refuted.
* **C159 Numbers are computed exactly and kept in range.** By the lemmas on printed numbers of Number.v; the ranges are refuted.
* **C160 Lengths are kept as they are.** For any parser of lengths that reads the text as a whole.
* **C161 font-family lists the families in order.** Font/FontModel.v models the parsers and registrations of the five font longhands, `font` and `line-height` on top of EngineModel.v; FontSpec.v has the values of CSS. The list is read by induction over its names. Refuted: a missing comma and an empty value are accepted.
* **C162 font-weight is a number or relative to the parent.** As C161. Refuted: 0 is accepted, and a number with a fraction is not.
* **C163 font-width and font-stretch are the same property.** As C161; the registry resolves the old name to the same registration.
* **C164 font-style is normal, italic or oblique by an angle.** As C161.
* **C165 font-size in lengths, percentages and words.** For any monotone rounding, with the reference sizes read from the parent's values. Refuted: xxx-large and functions such as calc() act like unset.
* **C166 Relative sizes compound.** By induction over the path in the styled tree, from the step of one element (C165, C169).
* **C167 font sets all longhands.** The loop of the parser is followed by induction over the parts, and each result is compared with the longhand's own parser; EngineProofs4.v carries it through cascade and expansion. Refuted: the weight is not reset, a percentage as the size, more than one family, normal after a style, and a size of 0.
* **C168 Every element has the face that its own values ask for.** By induction over the path; the face kept from the parent is the same as one looked up again, since the lookup depends only on the compared values.
* **C169 Font properties are inherited.** From the general theorems about undeclared and defaulted properties in EngineProofs3.v and EngineProofs4.v.
* **C170 line-height sets the height of lines.** Refuted for all declarations: applying line-height does nothing.
* **C171 A position stands for the point that CSS gives it.** Clip/ClipModel.v models positions, basic shapes, clip-path and what painting makes of it; ClipSpec.v has the positions of CSS as a relation. Proved by cases on how a position is written, through the list of read items. Refuted: two keywords with the vertical one first, center after a vertical offset; and an axis named twice is accepted.
* **C172 A circle is where and as large as it says.** From C171; that the circle is the largest one in the box is proved against all other radii. Refuted: a center outside of the box gives a negative radius, a refused position is ignored, white space before the radius is refused. `C172_rest`: whatever comes before, a comma or other foreign component at the end refuses circles and ellipses; by the readers taking one component at a time.
* **C173 An ellipse is where and as large as it says.** As C172.
* **C174 rect(), xywh() and inset() keep the points between their sides.** The region is characterised by its points. Refuted: inset() with white space between its values is refused. `C174_rest`: as `C172_rest`, for any reader of the radii that does not take the last component.
* **C175 The corners of polygon() are its points.** By induction over the points. Refuted: what follows a point without a comma is ignored.
* **C176 clip-path puts its shape in the reference box.** By cases on the boxes, for any shape.
* **C177 Pseudo-elements are there when they have content.** Style/RestyleModel.v: styling as a function on trees that carry values and pseudo-elements, with the computation of one element's values as a parameter (other modules are about that). Proved for every path into the tree, by induction on the path.
* **C178 Rendering again depends on the current media only.** A history is a list of stylings; the values are compared as whole trees, by induction on the tree. Refuted: pseudo-elements that were due earlier and no longer are stay, since they are never cleared.
* **C179 The background of the body covers the page.** The result is given as an equation for any document with a body, and for any without. Refuted for documents without elements: the missing root is dereferenced.
* **C180 A window shows what it was last told to show.** Batch/WindowModel.v: a window as a state machine over events; an invariant says that what is kept is what would be drawn now. Refuted: a viewport of height 0, and drawing without a document, crash.

## What is modelled

For each source file: the lines that the definitions of the model cite, and where. Lines of a file that are
not listed are not modelled; how a definition simplifies what it cites is said in its comment.

* `mod.cpp` (343 lines): 30-50, 77-187, 191-340 — Batch/BatchModel, Batch/DecoratorModel
* `vaev-engine/css/lexer.cpp` (413 lines): 11-87, 98-122, 126-209, 222-235, 252-387, 407-410 — Css/LexerModel, Css/ParserModel, Props/VarModel
* `vaev-engine/css/parser.cpp` (469 lines): 21-24, 34-59, 94-106, 119-265, 270-275, 280-373, 408-425, 457-466 — Css/ParserModel, Props/EngineModel, Props/VarModel, Style/CascadeModel, Values/CalcModel, Values/ColorModel
* `vaev-engine/dom/character-data.cpp` (42 lines): 24-26, 32-34 — Html/BuildModel, Sheet/SheetModel
* `vaev-engine/dom/document.cpp` (118 lines): 82-106 — Style/RestyleModel
* `vaev-engine/dom/element.cpp` (223 lines): 59-76, 111-167, 172-205 — Boxes/BoxModel, Dom/TokenListModel, Html/BuildModel, Html/SerialModel, Sheet/SheetModel, Style/RestyleModel, Style/SelectorModel, Xml/XmlModel
* `vaev-engine/dom/names.cpp` (158 lines): 14-18, 39-62, 82-100, 120, 126, 132-153 — Html/BuildModel, Html/SerialModel, Style/SelectorModel, Xml/XmlModel
* `vaev-engine/dom/node.cpp` (81 lines): 54-61 — Sheet/SheetModel
* `vaev-engine/dom/serialisation.cpp` (199 lines): 18-43, 54-187 — Html/SerialModel
* `vaev-engine/dom/token-list.cpp` (59 lines): 21-25, 31-55 — Dom/TokenListModel
* `vaev-engine/dom/tree.cpp` (183 lines): 12-16, 20-40, 48-53, 69-163, 167-179 — Dom/TreeModel, Html/BuildModel, Style/SelectorModel
* `vaev-engine/dom/window.cpp` (117 lines): 24-113 — Batch/BatchModel, Batch/DecoratorModel, Batch/WindowModel, Driver/DriverModel
* `vaev-engine/driver/print.cpp` (292 lines): 84-108, 120-289 — Batch/BatchModel, Batch/DecoratorModel, Layout/PaginateModel, Layout/PositionModel, Print/MarginModel, Print/PageModel
* `vaev-engine/driver/render.cpp` (71 lines): 26-68 — Batch/DecoratorModel, Layout/PositionModel, Paint/PaintModel
* `vaev-engine/html/lexer.cpp` (3954 lines): 16-31, 45-103, 114-141, 149-3950 — Html/Entities, Html/LexerModel
* `vaev-engine/html/parser.cpp` (4356 lines): 18-400, 413, 443-494, 498-575, 589-614, 618-946, 950-962, 967-972, 977-1029, 1048-1084, 1088-1134, 1138-1190, 1194-1326, 1330-1391, 1395-1489, 1495-2847, 2851-2882, 2886-3121, 3125-3171, 3175-3235, 3239-3334, 3338-3440, 3444-3546, 3550-3644, 3648-3746, 3750-3799, 3803-3889, 3893-3941, 3945-3970, 3974-4005, 4009-4185, 4191-4350 — Html/BuildModel, Html/LexerModel, Html/SerialSpec
* `vaev-engine/html/token.cpp` (86 lines): 12-43, 71-77 — Html/BuildModel, Html/LexerModel
* `vaev-engine/layout/base/box.cpp` (165 lines): 15-66, 102-133, 141-146 — Boxes/BoxModel, Layout/BlockModel, Paint/PaintModel
* `vaev-engine/layout/base/breaks.cpp` (249 lines): 17-246 — Layout/BlockModel, Layout/BreakModel
* `vaev-engine/layout/base/fragment.cpp` (433 lines): 14-431 — Paint/PaintModel, Transform/TransformModel
* `vaev-engine/layout/base/layout-impl.cpp` (381 lines): 24-79, 164-171, 243-378 — Flex/FlexModel, Layout/BlockModel, Layout/PositionModel, Layout/SizingModel, Paint/PaintModel
* `vaev-engine/layout/base/output.cpp` (87 lines): 51-76 — Layout/BlockModel, Paint/PaintModel
* `vaev-engine/layout/base/running-position.cpp` (116 lines): 19-32, 36-103 — Print/RunningModel
* `vaev-engine/layout/base/sizing.cpp` (238 lines): 53-68, 72-155, 164-235 — Layout/SizingModel
* `vaev-engine/layout/base/values.cpp` (122 lines): 12-44, 58-62 — Flex/FlexModel, Values/LengthModel
* `vaev-engine/layout/block.cpp` (442 lines): 99-139, 161-200, 206-232, 262-434 — Flex/CrossProps, Layout/BlockModel, Layout/PositionModel, Layout/SizingModel, Paint/PaintModel
* `vaev-engine/layout/builder/mod.cpp` (1086 lines): 30-173, 177-223, 233-241, 297-304, 350-368, 373-483, 498-547, 553-620, 630-774, 812-833, 837-910, 926-997, 1003-1033 — Boxes/BoxModel
* `vaev-engine/layout/flex.cpp` (1617 lines): 135-234, 320-327, 478-552, 564-653, 669-700, 726-736, 866-902, 907-1073, 1078-1095, 1129-1199, 1211-1371, 1380-1467, 1471-1528, 1562-1608 — Flex/CrossModel, Flex/FlexModel, Layout/PositionModel, Paint/PaintModel
* `vaev-engine/layout/grid.cpp` (15 lines): 10-12 — Paint/PaintModel
* `vaev-engine/layout/inline.cpp` (222 lines): 40, 110-186 — Layout/BlockModel, Layout/PositionModel, Paint/PaintModel
* `vaev-engine/layout/paint.cpp` (824 lines): 97-130, 138-147, 222-250, 282-299, 329-339, 343-388, 405-752, 764-816 — Clip/ClipModel, Paint/PaintModel, Transform/TransformModel
* `vaev-engine/layout/positioned.cpp` (294 lines): 12-281 — Layout/PositionModel, Paint/PaintModel
* `vaev-engine/layout/replaced.cpp` (75 lines): 20, 27-37, 42 — Layout/BlockModel, Layout/SizingModel
* `vaev-engine/layout/svg.cpp` (357 lines): 56-91, 166-204, 211-310 — Paint/PaintModel, Transform/TransformModel
* `vaev-engine/layout/table.cpp` (1824 lines): 17-379, 399-457, 698-720, 745-1270, 1279-1291, 1317-1408, 1427-1572, 1682-1732, 1750-1816 — Paint/PaintModel, Table/BorderModel, Table/BorderProps, Table/GridModel, Table/HeightModel, Table/WidthModel
* `vaev-engine/loader/loader.cpp` (294 lines): 152-235, 241-292 — Sheet/SheetModel
* `vaev-engine/props/align.cpp` (355 lines): 20-299 — Props/LonghandModel, Props/LonghandSpec
* `vaev-engine/props/background.cpp` (299 lines): 256-296 — Props/BoxPropModel
* `vaev-engine/props/base.cpp` (848 lines): 30-252, 258-315, 325-356, 374-474, 483-490, 497-545, 607-609, 651-671, 682-692, 697-715, 719-751, 757-795, 799-838 — Css/ParserModel, Font/FontModel, Print/PageModel, Props/BoxPropModel, Props/EngineModel, Props/LonghandModel, Props/VarModel, Sheet/SheetModel, Style/CascadeModel
* `vaev-engine/props/baseline.cpp` (324 lines): 17-321 — Font/FontModel, Props/LonghandModel
* `vaev-engine/props/border.cpp` (1120 lines): 19-527, 739-979, 983-1030, 1034-1074 — Props/BoxPropModel, Props/LonghandModel
* `vaev-engine/props/breaks.cpp` (121 lines): 19-118 — Props/LonghandModel
* `vaev-engine/props/display.cpp` (120 lines): 17-48 — Props/LonghandModel
* `vaev-engine/props/flex.cpp` (340 lines): 19-337 — Props/LonghandModel
* `vaev-engine/props/floats.cpp` (85 lines): 18-82 — Props/LonghandModel
* `vaev-engine/props/fonts.cpp` (367 lines): 19-364 — Font/FontModel, Props/LonghandSpec
* `vaev-engine/props/list.cpp` (271 lines): 12-225 — Props/LonghandModel
* `vaev-engine/props/margin.cpp` (403 lines): 20-199, 203-398 — Props/BoxPropModel, Props/EngineModel
* `vaev-engine/props/overflow.cpp` (210 lines): 19-207 — Props/LonghandModel
* `vaev-engine/props/padding.cpp` (261 lines): 16-260 — Props/BoxPropModel
* `vaev-engine/props/positioned.cpp` (223 lines): 19-220 — Props/LonghandModel
* `vaev-engine/props/registry.cpp` (248 lines): 62, 73-93, 103-109, 139-164, 183-189 — Font/FontModel, Props/BoxPropModel
* `vaev-engine/props/sizing.cpp` (288 lines): 20-285 — Props/LonghandModel
* `vaev-engine/props/table.cpp` (93 lines): 17-90 — Props/LonghandModel
* `vaev-engine/props/text.cpp` (202 lines): 21-199 — Props/LonghandModel
* `vaev-engine/props/transform.cpp` (225 lines): 64-95, 115-203 — Props/LonghandModel, Transform/TransformModel
* `vaev-engine/props/visibility.cpp` (141 lines): 17-58, 62-138 — Clip/ClipModel, Props/BoxPropModel, Props/LonghandModel
* `vaev-engine/style/cascaded.cpp` (88 lines): 18-52, 59-84 — Props/EngineModel, Style/CascadeModel
* `vaev-engine/style/computed.cpp` (102 lines): 22-99 — Paint/PaintModel, Props/BoxPropModel, Props/EngineModel, Props/LonghandModel, Props/VarModel
* `vaev-engine/style/computer.cpp` (543 lines): 98-151, 155-170, 174-303, 308-413, 417-540 — Font/FontModel, Print/PageModel, Props/EngineModel, Sheet/SheetModel, Style/CascadeModel, Style/CounterModel, Style/IndexModel, Style/IndexProps, Style/RestyleModel, Table/GridModel
* `vaev-engine/style/counter.cpp` (852 lines): 19-28, 33-101, 107-132, 160-204, 224-268, 296-536, 559-582, 586-595, 604-641 — Style/CounterModel
* `vaev-engine/style/matcher.cpp` (380 lines): 22-67, 140-235, 252-274, 284-299, 308-344, 348-377 — Style/SelectorModel
* `vaev-engine/style/media.cpp` (876 lines): 17-282, 298-329, 343-368, 438-446, 453-605, 633-749, 765-818, 822-834, 856-873 — Batch/DecoratorModel, Batch/WindowModel, Driver/DriverModel, Style/MediaModel
* `vaev-engine/style/namespace.cpp` (23 lines): 10-20 — Sheet/SheetModel, Style/SelectorParseModel
* `vaev-engine/style/origin.cpp` (29 lines): 10-26 — Style/CascadeModel
* `vaev-engine/style/page.cpp` (235 lines): 18-70, 74-171, 178-194, 198-227 — Print/PageModel, Sheet/SheetModel
* `vaev-engine/style/rules-index.cpp` (302 lines): 21-149, 153-298 — Style/IndexModel
* `vaev-engine/style/rules.cpp` (361 lines): 31-62, 132-143, 155-189, 196-264, 273-280, 285-307, 358 — Print/PageModel, Sheet/SheetModel, Style/IndexModel
* `vaev-engine/style/selector.cpp` (1252 lines): 22-33, 51-131, 155-176, 262-263, 271-445, 474-503, 521-554, 653-864, 894-961, 1148-1201, 1208-1249 — Style/AnBModel, Style/CascadeModel, Style/SelectorModel, Style/SelectorParseModel
* `vaev-engine/style/stylesheet.cpp` (86 lines): 22-47 — Css/ParserModel, Sheet/SheetModel
* `vaev-engine/values/align.cpp` (176 lines): 33-63, 86-142 — Flex/CrossModel, Flex/FlexModel, Props/LonghandModel
* `vaev-engine/values/angle.cpp` (159 lines): 52-63, 70-81, 141-157 — Transform/TransformModel, Values/ColorModel
* `vaev-engine/values/background.cpp` (327 lines): 43-242 — Clip/ClipModel
* `vaev-engine/values/base.cpp` (46 lines): 10-21, 36-43 — Props/EngineModel, Sheet/SheetModel, Transform/TransformModel, Values/CalcModel, Values/ColorModel
* `vaev-engine/values/baseline.cpp` (63 lines): 13-45 — Props/LonghandModel
* `vaev-engine/values/basic-shape.cpp` (447 lines): 26-56, 61-101, 106-149, 154-196, 201-208, 250-294, 299-350, 355-403, 409-444 — Clip/ClipModel
* `vaev-engine/values/borders.cpp` (239 lines): 19-46, 51-59, 85-117 — Props/BoxPropModel
* `vaev-engine/values/breaks.cpp` (129 lines): 18-69, 74-104 — Layout/BlockModel, Props/LonghandModel
* `vaev-engine/values/calc.cpp` (258 lines): 18-30, 34-79, 124-188, 192-254 — Clip/ClipModel, Transform/TransformModel, Values/CalcModel
* `vaev-engine/values/color.cpp` (738 lines): 26-102, 112-145, 196-225, 232-253, 258-686, 707-735 — Values/ColorModel
* `vaev-engine/values/content.cpp` (110 lines): 18-24 — Print/RunningModel
* `vaev-engine/values/counter.cpp` (240 lines): 63-87, 100, 178-203 — Style/CounterModel
* `vaev-engine/values/display.cpp` (459 lines): 19-130, 159-161, 246-250, 271-298, 324-455 — Boxes/BoxModel, Paint/PaintModel, Props/LonghandModel
* `vaev-engine/values/flex.cpp` (126 lines): 32-48, 62-81 — Props/LonghandModel
* `vaev-engine/values/font.cpp` (448 lines): 35-53, 95-123, 128-189, 207-215, 221-254, 259-270, 277-280, 288-324, 420-445 — Font/FontModel
* `vaev-engine/values/image.cpp` (155 lines): 126-153 — Props/LonghandModel
* `vaev-engine/values/insets.cpp` (105 lines): 25-56, 63-93 — Clip/ClipModel, Layout/BlockModel, Paint/PaintModel, Props/BoxPropModel, Props/LonghandModel
* `vaev-engine/values/keywords.cpp` (50 lines): 24-37 — Font/FontModel, Props/LonghandModel, Transform/TransformModel
* `vaev-engine/values/length.cpp` (492 lines): 34-41, 59-67, 78-104, 134-312, 318-325, 349-382, 394-418, 424-436, 446-455, 459-476 — Clip/ClipModel, Style/MediaModel, Transform/TransformModel, Values/LengthModel
* `vaev-engine/values/line-height.cpp` (60 lines): 37-57 — Font/FontModel
* `vaev-engine/values/line-width.cpp` (73 lines): 26-30, 49-72 — Props/BoxPropModel
* `vaev-engine/values/list.cpp` (33 lines): 14-20 — Props/LonghandModel
* `vaev-engine/values/overflow.cpp` (62 lines): 24-43 — Props/LonghandModel
* `vaev-engine/values/page.cpp` (32 lines): 17-29 — Style/MediaModel
* `vaev-engine/values/percent.cpp` (58 lines): 19-33, 43-48 — Clip/ClipModel, Values/ColorModel, Values/LengthModel
* `vaev-engine/values/primitives.cpp` (208 lines): 24-40, 56-70, 83-91, 121-137, 174-185 — Clip/ClipModel, Font/FontModel, Props/LonghandModel, Sheet/SheetModel, Transform/TransformModel, Values/ColorModel, Values/LengthModel
* `vaev-engine/values/resolution.cpp` (151 lines): 19-31, 57-68, 96-102, 122-147 — Style/MediaModel
* `vaev-engine/values/sizing.cpp` (104 lines): 41-55, 59-60 — Props/LonghandModel
* `vaev-engine/values/svg.cpp` (124 lines): 55-65 — Transform/TransformModel
* `vaev-engine/values/table.cpp` (150 lines): 127-134 — Table/GridModel
* `vaev-engine/values/transform.cpp` (474 lines): 28-37, 45-114, 119-124, 130-439, 453-471 — Transform/TransformModel
* `vaev-engine/values/width.cpp` (19 lines): 14-16 — Props/BoxPropModel, Props/LonghandModel
* `vaev-engine/xml/parser.cpp` (781 lines): 19-22, 28-70, 82-91, 96-98, 103-131, 135-152, 156-201, 208-225, 232-253, 261-290, 295-313, 319-420, 424-446, 458-478, 483-572, 601-624, 638-641, 650-721, 726-748, 755-777 — Xml/XmlModel
* `vaev-script/internal-slots-impl.cpp` (310 lines): 26-57, 75-114, 119-177, 181-307 — Script/ScriptModel
* `vaev-script/internal-slots.cpp` (81 lines): 38-76 — Script/ScriptModel
* `vaev-script/lang/lexer.cpp` (382 lines): 22-144, 196-308, 317-367 — Script/LexModel
* `vaev-script/main/main.cpp` (41 lines): 20-36 — Script/ScriptProps
* `vaev-script/object-impl.cpp` (108 lines): 15-19, 27-31 — Script/ScriptModel
* `vaev-script/object.cpp` (66 lines): 26-31 — Script/ScriptModel
* `vaev-script/ops-impl.cpp` (221 lines): 14-31, 81-183, 194-216 — Script/ScriptModel
* `vaev-script/properties.cpp` (138 lines): 8-134 — Script/ScriptModel
* `vaev-script/value.cpp` (207 lines): 48-127, 134-144, 151-156 — Script/ScriptModel
* `vaev-webdriver/driver.cpp` (310 lines): 23-34, 38-39, 46-64, 68-71, 85-95, 101-119, 134-183, 190-202 — Driver/DriverModel
* `vaev-webdriver/protocol.cpp` (105 lines): 61-65 — Driver/DriverModel
* `vaev-webdriver/service.cpp` (539 lines): 110-122, 316-332 — Driver/DriverModel

## What is not modelled

No line of these files is modelled:

`main.cpp`, `utilities/html5lib-tests-runner/main.cpp`, `utilities/html5lib-tests-runner/mod.cpp`, `utilities/html5lib-tests-runner/test-result.cpp`, `utilities/html5lib-tests-runner/tokenizer.cpp`, `utilities/html5lib-tests-runner/tree-construction.cpp`, `vaev-browser/app.cpp`, `vaev-browser/dialogs.cpp`, `vaev-browser/inspect.cpp`, `vaev-browser/main.cpp`, `vaev-browser/mod.cpp`, `vaev-browser/model.cpp`, `vaev-engine/css/mod.cpp`, `vaev-engine/dom/attr.cpp`, `vaev-engine/dom/comment.cpp`, `vaev-engine/dom/document-type.cpp`, `vaev-engine/dom/mod.cpp`, `vaev-engine/dom/node-impl.cpp`, `vaev-engine/dom/text.cpp`, `vaev-engine/driver/mod.cpp`, `vaev-engine/html/mod.cpp`, `vaev-engine/layout/base/formating.cpp`, `vaev-engine/layout/base/input.cpp`, `vaev-engine/layout/base/layout.cpp`, `vaev-engine/layout/base/mod.cpp`, `vaev-engine/layout/mod.cpp`, `vaev-engine/loader/loader-impl.cpp`, `vaev-engine/loader/mod.cpp`, `vaev-engine/loader/parser.cpp`, `vaev-engine/mod.cpp`, `vaev-engine/props/counter.cpp`, `vaev-engine/props/mod.cpp`, `vaev-engine/props/outline.cpp`, `vaev-engine/props/svg.cpp`, `vaev-engine/style/decls.cpp`, `vaev-engine/style/fonts.cpp`, `vaev-engine/style/mod.cpp`, `vaev-engine/style/selector-impl.cpp`, `vaev-engine/style/viewport.cpp`, `vaev-engine/values/float.cpp`, `vaev-engine/values/frequency.cpp`, `vaev-engine/values/media.cpp`, `vaev-engine/values/mod.cpp`, `vaev-engine/values/outline.cpp`, `vaev-engine/values/ratio.cpp`, `vaev-engine/values/resolved.cpp`, `vaev-engine/values/text.cpp`, `vaev-engine/values/time.cpp`, `vaev-engine/values/visibility.cpp`, `vaev-engine/values/writing.cpp`, `vaev-engine/values/z-index.cpp`, `vaev-engine/xml/mod.cpp`, `vaev-script/agent.cpp`, `vaev-script/completion.cpp`, `vaev-script/lang/expression.cpp`, `vaev-script/lang/identifier.cpp`, `vaev-script/lang/mod.cpp`, `vaev-script/lang/module.cpp`, `vaev-script/lang/script.cpp`, `vaev-script/lang/statement.cpp`, `vaev-script/mod.cpp`, `vaev-script/ops.cpp`, `vaev-script/realm.cpp`, `vaev-script/value-impl.cpp`, `vaev-view/main/main.cpp`, `vaev-view/mod.cpp`, `vaev-webdriver/main.cpp`, `vaev-webdriver/mod.cpp`.

## Assumptions of each theorem

`Print Assumptions` answers "Closed under the global context" for each of the 587 distinct theorems in MANIFEST.json:
no axiom is used, neither of the standard library nor of another one. (The command stands after each theorem;
the seven constants of `Coq.ssr.ssrunder` that a check of the whole context lists belong to a sealed module
of the standard library, are loaded with `lia`, and are used by no theorem.)
