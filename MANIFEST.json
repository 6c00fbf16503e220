{
 "claims": [
  {
   "property": "C01",
   "status": "proved",
   "theorems": [
    "C01_anb_match_iff_progression",
    "C01_anb_match_no_overflow",
    "C01_anb_overflow_refuted"
   ],
   "note": "Matching of An+B is exactly membership in the progression for all integers. Finding: for |b| near 2^63 the C++ subtraction overflows (C01_anb_overflow_refuted)."
  },
  {
   "property": "C02",
   "status": "proved",
   "theorems": [
    "C02_specificity_lexicographic",
    "C02_specificity_total_order",
    "C02_specificity_add_increases",
    "C02_specificity_add_monotone",
    "C02_specificity_or_max"
   ],
   "note": "Comparison of specificities."
  },
  {
   "property": "C03",
   "status": "proved",
   "theorems": [
    "C03_cascade_picks_winner",
    "C03_winner_unique",
    "C03_declared_property_has_winner"
   ],
   "note": "For every well formed declaration list (names consistently shorthand or longhand) the cascaded value is the unique winner."
  },
  {
   "property": "C04",
   "status": "partial",
   "theorems": [
    "C04_importance_reverses_origin_refuted",
    "C04_important_beats_normal_partial"
   ],
   "note": "The property is false of the code: the order of origins is not reversed for important declarations, for any pair of origins. What holds: important beats normal."
  },
  {
   "property": "C05",
   "status": "partial",
   "theorems": [
    "C05_complex_selector_matching_partial",
    "C05_selector_list_partial",
    "C05_next_sibling_refuted",
    "C05_root_refuted",
    "C05_unsupported_pseudo_classes_refuted"
   ],
   "note": "Holds for supported selectors and without text between next siblings; `+` skips no text nodes, :root/:empty/:only-* are wrong in the code."
  },
  {
   "property": "C06",
   "status": "partial",
   "theorems": [
    "C06_parse_partial",
    "C06_match_partial",
    "C06_specificity",
    "C06_grouping_refuted",
    "C06_misread_refuted",
    "C06_default_namespace_refuted"
   ],
   "note": "Every list built from the covered syntax is read with its meaning, up to descendant-child and next-later sibling pairs around a lone simple selector, a combinator with a space only before it, and an attribute selector after a descendant combinator, which are refuted."
  },
  {
   "property": "C07",
   "status": "partial",
   "theorems": [
    "C07_lookup_partial",
    "C07_compounds_exact_partial",
    "C07_cascade_partial",
    "C07_list_specificity_refuted",
    "C07_once_refuted",
    "C07_insensitive_refuted",
    "C07_attribute_names_refuted"
   ],
   "note": "The index returns exactly the matching rules in order, and the cascade over them picks the right winner, for plain elements and rules without selector lists; the four deviations of the code from exact equality are proved as refutations."
  },
  {
   "property": "C08",
   "status": "proved",
   "theorems": [
    "C08_numeric_numeral",
    "C08_numeric_every_numeral",
    "C08_numeric_injective"
   ],
   "note": "Stated on constructCounterRepresentation; padding is C50."
  },
  {
   "property": "C09",
   "status": "proved",
   "theorems": [
    "C09_alphabetic_numeral",
    "C09_alphabetic_every_string",
    "C09_alphabetic_injective"
   ],
   "note": "Stated on constructCounterRepresentation; padding is C50."
  },
  {
   "property": "C10",
   "status": "partial",
   "theorems": [
    "C10_additive_greedy",
    "C10_greedy_unique",
    "C10_additive_zero",
    "C10_negative_weight_refuted"
   ],
   "note": "Holds for non-negative weights; a negative weight makes the repetition count wrap around."
  },
  {
   "property": "C11",
   "status": "partial",
   "theorems": [
    "C11_cyclic_partial",
    "C11_cyclic_negative_refuted",
    "C11_symbolic_partial",
    "C11_symbolic_zero_refuted",
    "C11_fixed_partial",
    "C11_fixed_zero_panics_refuted",
    "C11_fixed_first_value_refuted"
   ],
   "note": "fixed reads out of bounds at or below its first value and is off by one with an explicit first value; cyclic formats negative values by their absolute value; symbolic renders 0 as no symbol at all."
  },
  {
   "property": "C12",
   "status": "partial",
   "theorems": [
    "C12_terminates_partial",
    "C12_decimal_override_refuted"
   ],
   "note": "Proved when decimal is the built-in style and no style hits the crashes of C10/C11; overriding decimal gives unbounded recursion."
  },
  {
   "property": "C13",
   "status": "proved",
   "theorems": [
    "C13_extends_resolved"
   ],
   "note": "For a cyclic chain the guarantee is the initial system (which then falls back to decimal)."
  },
  {
   "property": "C14",
   "status": "partial",
   "theorems": [
    "C14_sibling_scope_partial",
    "C14_list_numbering_partial",
    "C14_parent_scope_refuted",
    "C14_reset_not_inherited_refuted",
    "C14_increment_not_propagated_refuted"
   ],
   "note": "Counters are passed from sibling to sibling only: descendants never see the counters of their ancestors and increments inside a subtree are lost."
  },
  {
   "property": "C15",
   "status": "partial",
   "theorems": [
    "C15_list_partial",
    "C15_boolean",
    "C15_bounds",
    "C15_not_refuted",
    "C15_only_refuted",
    "C15_all_refuted",
    "C15_third_operand_refuted",
    "C15_range_syntax_refuted",
    "C15_aspect_ratio_refuted",
    "C15_color_gamut_refuted"
   ],
   "note": "Every list of and/or groups of types and feature tests with arbitrary nesting is read and evaluated right, except that a space before a second connective drops the rest; not, only, all and range syntax are wrong for every device."
  },
  {
   "property": "C16",
   "status": "partial",
   "theorems": [
    "C16_absolute",
    "C16_absolute_unique",
    "C16_relative_partial",
    "C16_vmin_vmax",
    "C16_negative_vmin_refuted",
    "C16_rem_is_16",
    "C16_rem_ignores_root_refuted",
    "C16_percent",
    "C16_parse_absolute",
    "C16_parse_relative",
    "C16_unitless_zero_refuted"
   ],
   "note": "rem ignores the root font size; negative vmin/vmax take the wrong side; 0 without unit is rejected."
  },
  {
   "property": "C17",
   "status": "partial",
   "theorems": [
    "C17_single_partial",
    "C17_binary_partial",
    "C17_plain",
    "C17_tail_ignored_refuted",
    "C17_three_operands_refuted",
    "C17_nesting_rejected_refuted"
   ],
   "note": "Right for at most two operands; everything after the second is ignored and nested calc() or parentheses are rejected."
  },
  {
   "property": "C18",
   "status": "proved",
   "theorems": [
    "C18_tokenization_total_and_lossless",
    "C18_every_token_consumes_input"
   ],
   "note": "All texts; for both readings of an unterminated comment. Regular-expression combinators are trusted as described in LexerModel.v."
  },
  {
   "property": "C19",
   "status": "partial",
   "theorems": [
    "C19_style_sheet_terminates_partial",
    "C19_style_attribute_terminates",
    "C19_html_comment_markers_refuted"
   ],
   "note": "Terminates for every text without <!-- and -->; those at top level loop for ever."
  },
  {
   "property": "C20",
   "status": "partial",
   "theorems": [
    "C20_item_then_rest_partial",
    "C20_style_sheet_then_rest_partial",
    "C20_text_round_trip_partial",
    "C20_error_recovery_refuted"
   ],
   "note": "Well-formed items compose with any continuation; a declaration without colon or with a lone ! swallows what follows (refuted)."
  },
  {
   "property": "C21",
   "status": "proved",
   "theorems": [
    "C21_history",
    "C21_step",
    "C21_accessors",
    "C21_depth_first",
    "C21_remove_child_panics",
    "C21_before_itself_refuted",
    "C21_cycle_refuted"
   ],
   "note": "Proved for all histories that respect the preconditions; the refutations show what happens without them (insertBefore(node, node), which the DOM standard allows, corrupts the tree)."
  },
  {
   "property": "C22",
   "status": "partial",
   "theorems": [
    "C22_serialisation_roundtrip_partial",
    "C22_namespaced_attributes_refuted",
    "C22_noscript_refuted",
    "C22_other_namespace_refuted"
   ],
   "note": "Proved for all trees of HTML, SVG and MathML elements with names, comments and raw text that HTML can express, text and attribute values without NUL and CR. Refuted for namespaced attributes, elements of other namespaces and noscript. The tree builder's state is a parameter that picks the mode by tag name here; C98 joins it with the modelled tree builder."
  },
  {
   "property": "C23",
   "status": "partial",
   "theorems": [
    "C23_tokenizing_ends_partial",
    "C23_tokenizing_total_partial",
    "C23_tokenizing_crash_refuted"
   ],
   "note": "The only failure is one slice beyond the buffer, reached by a reference without its semicolon in an attribute followed later by another; proved total for inputs whose references have their semicolons."
  },
  {
   "property": "C24",
   "status": "partial",
   "theorems": [
    "C24_page_selector_match_partial",
    "C24_page_selector_match_refuted"
   ],
   "note": "Proved for names and :first for all pages; :left, :right and :blank select the other pages (refuted)."
  },
  {
   "property": "C25",
   "status": "proved",
   "theorems": [
    "C25_margin_regions",
    "C25_regions_tile_the_page",
    "C25_content_area",
    "C25_page_margins"
   ],
   "note": "Exact rationals for lengths."
  },
  {
   "property": "C26",
   "status": "partial",
   "theorems": [
    "C26_pagination_partial",
    "C26_endless_refuted",
    "C26_repeated_refuted",
    "C26_lost_refuted"
   ],
   "note": "Proved for documents without break avoidance in which every first piece has room on an empty page; refuted otherwise: endless, repeated and lost pages."
  },
  {
   "property": "C27",
   "status": "proved",
   "theorems": [
    "C27_appeals",
    "C27_best_break",
    "C27_best_unique"
   ],
   "note": ""
  },
  {
   "property": "C28",
   "status": "proved",
   "theorems": [
    "C28_margins_collapse"
   ],
   "note": "Exact rationals for lengths."
  },
  {
   "property": "C29",
   "status": "proved",
   "theorems": [
    "C29_auto_margins"
   ],
   "note": "Exact rationals for lengths."
  },
  {
   "property": "C30",
   "status": "partial",
   "theorems": [
    "C30_cells_kept",
    "C30_grid_partial",
    "C30_grid_refuted"
   ],
   "note": "Building never fails and keeps every cell for all column spans > 0; the exact grid for row spans > 0; refuted for rowspan=0 and overlaps."
  },
  {
   "property": "C31",
   "status": "partial",
   "theorems": [
    "C31_winner",
    "C31_css_order_partial",
    "C31_css_order_refuted"
   ],
   "note": "The rule of the code is proved for all lists; it is the CSS order when widths differ; the style never decides (refuted)."
  },
  {
   "property": "C32",
   "status": "partial",
   "theorems": [
    "C32_auto_widths",
    "C32_auto_widths_refuted",
    "C32_fixed_widths_partial",
    "C32_fixed_widths_refuted"
   ],
   "note": "Automatic layout: proved for all tables with positive row spans. Fixed layout: proved without borders in the columns. Refuted with spacing, with borders, and for widths of 0."
  },
  {
   "property": "C33",
   "status": "partial",
   "theorems": [
    "C33_lines",
    "C33_lines_fit_partial",
    "C33_lines_fit_refuted",
    "C33_column_reverse_refuted"
   ],
   "note": "Partition, order and greedy breaking: proved for all lists. Fitting: proved (up to the 0.01 of the code) when items have a positive outer size; refuted otherwise."
  },
  {
   "property": "C34",
   "status": "partial",
   "theorems": [
    "C34_within_limits_partial",
    "C34_grow_partial",
    "C34_shrink_partial",
    "C34_exact",
    "C34_terminates_refuted"
   ],
   "note": "Proved for items with 0 <= min <= max; refuted for negative widths, where the loop never ends."
  },
  {
   "property": "C35",
   "status": "partial",
   "theorems": [
    "C35_justify_partial",
    "C35_distribute_partial",
    "C35_forward_partial",
    "C35_reversed_partial",
    "C35_no_overlap_partial",
    "C35_justify_refuted",
    "C35_reversed_refuted"
   ],
   "note": "Proved for normal, center, flex-start, flex-end, space-between and space-around, with auto margins; for row-reverse with center, flex-start, flex-end and space-around. Refuted for the other keywords, that are all treated as flex-start, and for normal and space-between in row-reverse."
  },
  {
   "property": "C36",
   "status": "partial",
   "theorems": [
    "C36_replaced_limits",
    "C36_ratio_partial",
    "C36_ratio_refuted"
   ],
   "note": "Limits proved for all; the ratio for automatic sizes; refuted for a specified width."
  },
  {
   "property": "C37",
   "status": "partial",
   "theorems": [
    "C37_running_elements_partial",
    "C37_running_elements_refuted"
   ],
   "note": "Proved for first and last on pages that have the element, and what other cases give; refuted for start, first-except and pages without the element."
  },
  {
   "property": "C38",
   "status": "partial",
   "theorems": [
    "C38_current_window",
    "C38_deleted",
    "C38_no_crash_partial",
    "C38_no_crash_refuted"
   ],
   "note": "The statement is proved in full; that no command crashes is proved except for windows whose height is set to 0, where it is refuted."
  },
  {
   "property": "C39",
   "status": "partial",
   "theorems": [
    "C39_set_get_partial",
    "C39_set_get_refuted"
   ],
   "note": "Proved for properties that no object of the chain has. Refuted for properties that exist, own or inherited: true is answered and nothing changes."
  },
  {
   "property": "C40",
   "status": "partial",
   "theorems": [
    "C40_separate_partial",
    "C40_concat",
    "C40_own_pages",
    "C40_closed_once",
    "C40_same_name_refuted",
    "C40_failure_refuted"
   ],
   "note": "Proved for every environment and every failure. Refuted: inputs of the same name in different directories overwrite each other's output; after a failure the connection is not closed."
  },
  {
   "property": "C41",
   "status": "partial",
   "theorems": [
    "C41_names_partial",
    "C41_siblings",
    "C41_names_refuted"
   ],
   "note": "Proved for documents that do not take the default namespace back. Refuted: xmlns=\"\" gives the namespace \"\" instead of none."
  },
  {
   "property": "C42",
   "status": "partial",
   "theorems": [
    "C42_membership",
    "C42_order_partial",
    "C42_no_duplicates_partial",
    "C42_duplicate_refuted",
    "C42_replace_moves_refuted"
   ],
   "note": "Set membership proved for all histories; order and uniqueness without replace. replace can list a token twice and moves the token to the end."
  },
  {
   "property": "C43",
   "status": "partial",
   "theorems": [
    "C43_attribute_selectors_partial",
    "C43_universal_namespace_refuted"
   ],
   "note": "Full for attribute names with a definite namespace; [*|x] tests only the first attribute of that local name."
  },
  {
   "property": "C44",
   "status": "partial",
   "theorems": [
    "C44_selector_specificity_partial",
    "C44_selector_specificity_refuted"
   ],
   "note": "Counts agree except for pseudo-elements (0), :not() lists (sum) and `of S` (ignored)."
  },
  {
   "property": "C45",
   "status": "partial",
   "theorems": [
    "C45_pseudo_element_isolation_refuted",
    "C45_pseudo_element_selected_partial"
   ],
   "note": "False of the code; only the ::x direction holds."
  },
  {
   "property": "C46",
   "status": "partial",
   "theorems": [
    "C46_matching_total_partial",
    "C46_matching_total_refuted"
   ],
   "note": "Total except for positional pseudo-classes without argument, which abort."
  },
  {
   "property": "C47",
   "status": "partial",
   "theorems": [
    "C47_tokens_as_written_partial",
    "C47_escaped_names_refuted"
   ],
   "note": "Proved for names without escapes; escapes in names are mis-tokenized (RE_ESCAPE repeats), shown by the refutation. url tokens not covered."
  },
  {
   "property": "C48",
   "status": "partial",
   "theorems": [
    "C48_string_literals_round_trip_partial",
    "C48_string_literals_partial",
    "C48_six_digit_escape_refuted",
    "C48_escaped_crlf_refuted"
   ],
   "note": "Holds for escapes of at most five digits and single-character line breaks; six digits and CRLF refuted (Re::nOrN(1,5) read as one to five)."
  },
  {
   "property": "C49",
   "status": "partial",
   "theorems": [
    "C49_comments_between_items_partial",
    "C49_comments_ignored_refuted"
   ],
   "note": "Holds between rules and declarations only."
  },
  {
   "property": "C50",
   "status": "partial",
   "theorems": [
    "C50_text_nonnegative_partial",
    "C50_text_negative_partial",
    "C50_prefix_refuted",
    "C50_pad_sign_refuted"
   ],
   "note": "Right for non-negative values; for negative ones the sign is put before the prefix and is not counted in the padding."
  },
  {
   "property": "C51",
   "status": "partial",
   "theorems": [
    "C51_terminates",
    "C51_no_crash_partial",
    "C51_crash_refuted"
   ],
   "note": "Always ends; crashes on (), a trailing connective or comma, and a lone not."
  },
  {
   "property": "C52",
   "status": "partial",
   "theorems": [
    "C52_media_type",
    "C52_size",
    "C52_orientation_refuted"
   ],
   "note": "Type and size are right; the orientation of views and renders is a constant."
  },
  {
   "property": "C53",
   "status": "partial",
   "theorems": [
    "C53_anb_partial",
    "C53_case_refuted"
   ],
   "note": "Upper case and 'An of S' without a constant are rejected."
  },
  {
   "property": "C54",
   "status": "partial",
   "theorems": [
    "C54_ends",
    "C54_no_crash_partial",
    "C54_crash_refuted"
   ],
   "note": "Always ends; crashes exactly at the listed look-aheads past the end."
  },
  {
   "property": "C55",
   "status": "partial",
   "theorems": [
    "C55_space_separated",
    "C55_classes_partial",
    "C55_newline_refuted"
   ],
   "note": "The code splits on U+0020 only: proved to be the space-separated words for every value, hence right when the value holds no other whitespace; refuted for a line feed."
  },
  {
   "property": "C56",
   "status": "proved",
   "theorems": [
    "C56_attribute_names_distinct",
    "C56_first_attribute_wins"
   ],
   "note": "Distinctness for every input. First-wins for lower-case names and double-quoted, escaped values without NUL and CR."
  },
  {
   "property": "C57",
   "status": "proved",
   "theorems": [
    "C57_named_reference_in_text",
    "C57_named_reference_in_attribute"
   ],
   "note": "Every table entry with a semicolon, in the data state and in double-quoted values."
  },
  {
   "property": "C58",
   "status": "partial",
   "theorems": [
    "C58_decimal_reference",
    "C58_hexadecimal_reference_partial",
    "C58_hexadecimal_digits_refuted"
   ],
   "note": "Decoding proved for all digit strings; hexadecimal references also take the letters G-Z as digits."
  },
  {
   "property": "C59",
   "status": "partial",
   "theorems": [
    "C59_doctype_identifiers_partial",
    "C59_doctype_white_space_refuted",
    "C59_doctype_leaks_refuted"
   ],
   "note": "Proved with single spaces; two spaces after the name lose the identifiers, and a space before > leaks into the next comment."
  },
  {
   "property": "C60",
   "status": "partial",
   "theorems": [
    "C60_page_declarations_partial",
    "C60_page_initial",
    "C60_page_declarations_refuted",
    "C60_margin_boxes"
   ],
   "note": "The last declaration in order of appearance wins; importance and specificity are ignored (refuted)."
  },
  {
   "property": "C61",
   "status": "partial",
   "theorems": [
    "C61_reading_page_selectors_ends_partial",
    "C61_one_page_selector",
    "C61_reading_page_selectors_ends_refuted"
   ],
   "note": "A comma in the list makes the program loop for ever (refuted); proved for preludes without such tokens."
  },
  {
   "property": "C62",
   "status": "partial",
   "theorems": [
    "C62_forced_breaks_partial",
    "C62_forced_breaks_refuted"
   ],
   "note": "Proved between siblings under the conditions of C26; a break before the first child of a later block is ignored (refuted)."
  },
  {
   "property": "C63",
   "status": "partial",
   "theorems": [
    "C63_page_area_refuted"
   ],
   "note": "Refuted."
  },
  {
   "property": "C64",
   "status": "partial",
   "theorems": [
    "C64_margins_collapse_through_refuted"
   ],
   "note": "Refuted."
  },
  {
   "property": "C65",
   "status": "partial",
   "theorems": [
    "C65_block_limits_refuted"
   ],
   "note": "Refuted: the limits have no effect on any block."
  },
  {
   "property": "C66",
   "status": "proved",
   "theorems": [
    "C66_default_object_size"
   ],
   "note": ""
  },
  {
   "property": "C67",
   "status": "partial",
   "theorems": [
    "C67_percent_height_refuted"
   ],
   "note": "Refuted for all images."
  },
  {
   "property": "C68",
   "status": "partial",
   "theorems": [
    "C68_percentages_partial",
    "C68_percentages_refuted"
   ],
   "note": "Proved when no earlier sibling is wider than the block; refuted otherwise."
  },
  {
   "property": "C69",
   "status": "partial",
   "theorems": [
    "C69_records_partial",
    "C69_records_refuted"
   ],
   "note": "Proved for row spans of 1 and groups with columns; refuted otherwise."
  },
  {
   "property": "C70",
   "status": "partial",
   "theorems": [
    "C70_separate_borders_partial",
    "C70_separate_borders_refuted",
    "C70_widths_refuted"
   ],
   "note": "Borders: proved for positive row spans. Refuted by rowspan=0, by a column group with a width and no columns, and by fixed layout without rows."
  },
  {
   "property": "C71",
   "status": "partial",
   "theorems": [
    "C71_automatic_width_partial",
    "C71_automatic_width_refuted"
   ],
   "note": "Proved when the max-content width fits; refuted otherwise."
  },
  {
   "property": "C72",
   "status": "partial",
   "theorems": [
    "C72_layout_again_partial",
    "C72_layout_again_refuted"
   ],
   "note": "Proved for automatic layout without intrinsic measures in between; refuted otherwise."
  },
  {
   "property": "C73",
   "status": "partial",
   "theorems": [
    "C73_rows_hold_cells",
    "C73_rows_not_higher_partial",
    "C73_rows_not_higher_refuted"
   ],
   "note": "Rows are high enough: proved for all tables. Not higher than needed: proved for cells of one column; refuted for cells of several columns."
  },
  {
   "property": "C74",
   "status": "partial",
   "theorems": [
    "C74_table_height_partial",
    "C74_table_height_refuted"
   ],
   "note": "Proved for the first layout and rows that have elements; refuted for repeated layouts."
  },
  {
   "property": "C75",
   "status": "partial",
   "theorems": [
    "C75_repeated_partial",
    "C75_repeated_refuted"
   ],
   "note": "Proved for headers, and for footers with as many rows as the header; refuted otherwise."
  },
  {
   "property": "C76",
   "status": "partial",
   "theorems": [
    "C76_cells_shown_partial",
    "C76_cells_shown_refuted"
   ],
   "note": "Proved for all tables with positive spans whose cells do not overlap; refuted when they do."
  },
  {
   "property": "C77",
   "status": "partial",
   "theorems": [
    "C77_cells_placed_partial",
    "C77_no_overlap_partial",
    "C77_cells_placed_refuted"
   ],
   "note": "Proved when a cell ends in every row; refuted otherwise."
  },
  {
   "property": "C78",
   "status": "partial",
   "theorems": [
    "C78_inside_partial",
    "C78_inside_refuted"
   ],
   "note": "Proved for margins that are lengths or auto, limits with 0 <= min <= max and shrink factors that are 0 or at least 1; refuted for percentages."
  },
  {
   "property": "C79",
   "status": "partial",
   "theorems": [
    "C79_aligned_partial",
    "C79_auto_margins_partial",
    "C79_in_line_partial",
    "C79_auto_margins_refuted",
    "C79_aligned_refuted"
   ],
   "note": "Proved for flex-start, flex-end, center and stretch, and for auto margins with space left; refuted otherwise."
  },
  {
   "property": "C80",
   "status": "partial",
   "theorems": [
    "C80_line_cross_partial",
    "C80_stretch_partial",
    "C80_lines_placed_partial",
    "C80_lines_placed_refuted",
    "C80_container_refuted",
    "C80_wrap_reverse_refuted"
   ],
   "note": "Proved for containers of a known cross size; refuted for auto sizes and wrap-reverse."
  },
  {
   "property": "C81",
   "status": "proved",
   "theorems": [
    "C81_isolation"
   ],
   "note": "Whatever does not concern a session leaves all that can be read from it."
  },
  {
   "property": "C82",
   "status": "partial",
   "theorems": [
    "C82_switch",
    "C82_close",
    "C82_new_window_partial",
    "C82_new_window_refuted"
   ],
   "note": "Refuted: closing the last window while a new one is loaded ends the session, and the new handle cannot be used."
  },
  {
   "property": "C83",
   "status": "partial",
   "theorems": [
    "C83_timeouts",
    "C83_size",
    "C83_rect_partial",
    "C83_rect_refuted"
   ],
   "note": "Timeouts and sizes are kept; positions are refuted."
  },
  {
   "property": "C84",
   "status": "partial",
   "theorems": [
    "C84_location",
    "C84_latest_refuted"
   ],
   "note": "Refuted: a slow earlier navigation replaces the page of a later one."
  },
  {
   "property": "C85",
   "status": "proved",
   "theorems": [
    "C85_get",
    "C85_histories",
    "C85_total"
   ],
   "note": "For all heaps that histories make, if functions of the host keep what is there."
  },
  {
   "property": "C86",
   "status": "partial",
   "theorems": [
    "C86_keys",
    "C86_objects_partial",
    "C86_objects_refuted"
   ],
   "note": "Refuted: the new property is created in the last prototype, where other objects see it."
  },
  {
   "property": "C87",
   "status": "partial",
   "theorems": [
    "C87_same_partial",
    "C87_same_refuted"
   ],
   "note": "Refuted: comparing two different strings, or any booleans, symbols or objects, crashes; NaN and signed zeros are wrong."
  },
  {
   "property": "C88",
   "status": "partial",
   "theorems": [
    "C88_getter_partial",
    "C88_accessors_refuted",
    "C88_setter_refuted"
   ],
   "note": "Getters work for receivers that are objects; setters are never called."
  },
  {
   "property": "C89",
   "status": "partial",
   "theorems": [
    "C89_permanent",
    "C89_read_only",
    "C89_define_partial",
    "C89_define_refuted"
   ],
   "note": "Refuted: defining an existing property always answers true and does nothing."
  },
  {
   "property": "C90",
   "status": "proved",
   "theorems": [
    "C90_cover"
   ],
   "note": ""
  },
  {
   "property": "C91",
   "status": "partial",
   "theorems": [
    "C91_longest",
    "C91_types",
    "C91_types_differ",
    "C91_all_words_partial",
    "C91_keyword_partial",
    "C91_keyword_refuted"
   ],
   "note": "Refuted: instanceof is never read; names that begin with a keyword are split."
  },
  {
   "property": "C92",
   "status": "proved",
   "theorems": [
    "C92_parsing_ends"
   ],
   "note": "The depth of the machine stack is not modelled."
  },
  {
   "property": "C93",
   "status": "partial",
   "theorems": [
    "C93_text",
    "C93_attribute",
    "C93_escaped",
    "C93_line_ends_refuted"
   ],
   "note": "Refuted for line ends (CR LF) and for white space in attribute values, which XML normalises and the parser does not."
  },
  {
   "property": "C94",
   "status": "partial",
   "theorems": [
    "C94_tags_nest_partial",
    "C94_well_formed_refuted"
   ],
   "note": "Proved: nesting, matching tags, declared prefixes, one root. Refuted: what follows the root is ignored; a tag may be cut off; attributes may repeat; values may have < and unknown references."
  },
  {
   "property": "C95",
   "status": "partial",
   "theorems": [
    "C95_documents_partial",
    "C95_documents_refuted"
   ],
   "note": "Refuted: white space beside = in a tag, xml-stylesheet as the first thing, and internal subsets are refused."
  },
  {
   "property": "C96",
   "status": "partial",
   "theorems": [
    "C96_every_page_partial",
    "C96_no_crash_partial",
    "C96_tiles_partial",
    "C96_empty_header_refuted",
    "C96_tall_header_refuted"
   ],
   "note": "Proved when no viewport is empty and the heights fit. Refuted: an empty header or --header-size 0 divides by zero; a header taller than the page leaves a content of negative height."
  },
  {
   "property": "C97",
   "status": "partial",
   "theorems": [
    "C97_page_size_partial",
    "C97_picture_size",
    "C97_background_partial",
    "C97_scale_partial",
    "C97_auto_flow",
    "C97_scale_refuted",
    "C97_background_refuted",
    "C97_landscape_refuted",
    "C97_grows_refuted"
   ],
   "note": "Refuted: --scale has no effect on pictures; --background is ignored on pages; --width and --height are swapped in landscape; the continuous flow does not grow without --extend fit."
  },
  {
   "property": "C98",
   "status": "proved",
   "theorems": [
    "C98_conforming_document_survives"
   ],
   "note": "For every conforming document (Html/BuildSpec.v): any size and depth, with text, comments, formatting, lists, forms, tables, raw text; through the serializer, the tokenizer and the tree builder."
  },
  {
   "property": "C99",
   "status": "proved",
   "theorems": [
    "C99_fragment_gets_its_body"
   ],
   "note": "For all running content starting with something only a body can hold."
  },
  {
   "property": "C100",
   "status": "partial",
   "theorems": [
    "C100_parsing_gives_a_document_partial",
    "C100_end_tag_across_cell_refuted",
    "C100_deep_formatting_refuted",
    "C100_endless_recursion_refuted"
   ],
   "note": "Proved for conforming documents and fragments. Refuted: <span><table><tr><td>a</span></td><td>b empties the stack of open elements; five formatting elements around a block index out of range; an end tag p in an SVG title recurses for ever."
  },
  {
   "property": "C101",
   "status": "proved",
   "theorems": [
    "C101_content_comes_from_the_text"
   ],
   "note": "By an invariant of all 23 modes, for every text whose parse ends."
  },
  {
   "property": "C102",
   "status": "proved",
   "theorems": [
    "C102_text_is_not_duplicated"
   ],
   "note": "By the same invariant; the claim is about the number of occurrences of each character."
  },
  {
   "property": "C103",
   "status": "partial",
   "theorems": [
    "C103_document_has_its_parts_partial",
    "C103_no_body_refuted"
   ],
   "note": "Proved for conforming documents. Refuted: <title>x gives a document without body."
  },
  {
   "property": "C104",
   "status": "partial",
   "theorems": [
    "C104_comments_kept_partial",
    "C104_comment_between_doctype_and_html_refuted"
   ],
   "note": "Proved for conforming documents. Refuted: a comment between the doctype and the html tag is inserted twice and starts the html element."
  },
  {
   "property": "C105",
   "status": "partial",
   "theorems": [
    "C98_conforming_document_survives",
    "C105_formatting_leaks_out_of_table_refuted"
   ],
   "note": "Proved for conforming documents, whose formatting is nested. Refuted: formatting misnested with a paragraph in a cell stays active after the table."
  },
  {
   "property": "C106",
   "status": "partial",
   "theorems": [
    "C106_shown_in_order_partial",
    "C106_table_part_in_text_refuted",
    "C106_generated_in_row_refuted",
    "C106_contents_style_refuted",
    "C106_hidden_shape_refuted",
    "C106_inline_field_refuted",
    "C106_hidden_document_refuted"
   ],
   "note": "Proved for all documents in which parts of tables are in tables, rows and groups have no generated content, display: contents sets no text style, fields are not inline, and SVGs hold visible shapes, groups and foreign objects. Refuted for each of the others."
  },
  {
   "property": "C107",
   "status": "partial",
   "theorems": [
    "C107_words_of_a_block_partial",
    "C107_words_of_a_text",
    "C107_words_kept_apart_refuted",
    "C107_preformatted_refuted",
    "C107_spaces_across_elements_refuted"
   ],
   "note": "Proved for each text, and for blocks of text and nested inline elements where no text directly in the block is only white space. Refuted: <p><b>a</b> <i>b</i></p> reads ab; the spaces at the start of preformatted text are lost; spaces do not collapse across the start of an element."
  },
  {
   "property": "C108",
   "status": "partial",
   "theorems": [
    "C108_lines_or_blocks_partial",
    "C108_inline_field_refuted"
   ],
   "note": "Proved for all documents without SVG and without fields with display: inline. Refuted: such a field replaces the content of its parent, which no longer shows its children."
  },
  {
   "property": "C109",
   "status": "partial",
   "theorems": [
    "C109_no_panic_partial",
    "C109_table_before_refuted"
   ],
   "note": "Proved for all documents whose tables have no inline generated content. Refuted: table::before with content panics."
  },
  {
   "property": "C110",
   "status": "partial",
   "theorems": [
    "C110_table_fixup_partial",
    "C110_stray_row_refuted"
   ],
   "note": "Proved for all table boxes of all documents without SVG and inline fields. Refuted for a row outside a table, which is not put in one."
  },
  {
   "property": "C111",
   "status": "partial",
   "theorems": [
    "C111_flex_items_partial",
    "C111_flex_document_refuted",
    "C111_comment_splits_item_refuted"
   ],
   "note": "Proved for all flex containers but the document element of documents without SVG and inline fields. Refuted: the document element is never a flex container; a comment splits a run of text into two items."
  },
  {
   "property": "C112",
   "status": "partial",
   "theorems": [
    "C112_painted_once_partial",
    "C112_count_partial",
    "C112_float_refuted",
    "C112_static_z0_refuted",
    "C112_absolute_in_flex_refuted",
    "C112_float_in_flex_refuted",
    "C112_absolute_in_cell_refuted",
    "C112_row_background_refuted",
    "C112_absolute_in_foreign_refuted",
    "C112_hidden_shape_refuted",
    "C112_hidden_svg_refuted",
    "C112_running_inline_refuted"
   ],
   "note": "Proved for all trees without floats, z-index: 0 on boxes that are not positioned, boxes out of flow in flex containers or leaving tables and SVGs, styled rows, hidden SVG elements and running inline boxes. Refuted for each of these."
  },
  {
   "property": "C113",
   "status": "partial",
   "theorems": [
    "C113_paint_order_partial",
    "C113_text_refuted",
    "C113_inline_block_refuted",
    "C113_opacity_refuted",
    "C113_equal_levels_refuted",
    "C113_root_refuted",
    "C113_foreign_refuted",
    "C113_static_z_refuted",
    "C113_effect_level_refuted"
   ],
   "note": "Proved, but for text that is painted with the background of its block, for all trees in which contexts are made by positioned boxes without both z-index and effects, positioned boxes with z-index auto contain no other levels, inline-level boxes only inline-level ones, and nothing is behind the document element. Refuted for each of the others."
  },
  {
   "property": "C114",
   "status": "partial",
   "theorems": [
    "C114_effects_partial",
    "C114_opacity_of_shape_refuted",
    "C114_clip_of_group_refuted",
    "C114_transform_of_foreign_refuted"
   ],
   "note": "Proved where opacity and clip-path are not set within SVGs and transform not on foreignObjects; refuted for each of these."
  },
  {
   "property": "C115",
   "status": "partial",
   "theorems": [
    "C115_containing_block_partial",
    "C115_cell_refuted",
    "C115_flex_refuted"
   ],
   "note": "Proved for all tame trees (see C112). Refuted for boxes that leave a table cell and for those of a flex container without items, which are never laid out."
  },
  {
   "property": "C116",
   "status": "partial",
   "theorems": [
    "C116_in_ancestor_partial",
    "C116_in_page_partial",
    "C116_static",
    "C116_width_refuted",
    "C116_margin_refuted",
    "C116_right_refuted",
    "C116_page_margin_refuted",
    "C116_fixed_percent_refuted",
    "C116_self_end_refuted",
    "C116_static_in_line_refuted"
   ],
   "note": "Exact characterisation for all lengths. Refuted: both insets with a width or margins, right or bottom alone without a size, pages with margins (insets count from the corner of the sheet), percentages of fixed boxes in a transformed ancestor, self-alignment at the end, static position in lines and flex containers (always the corner of the page)."
  },
  {
   "property": "C117",
   "status": "partial",
   "theorems": [
    "C117_relative_partial",
    "C117_percent_refuted"
   ],
   "note": "Proved for all lists of children in a block, without page breaks. Refuted for percentages, which are of the containing block of the parent."
  },
  {
   "property": "C118",
   "status": "partial",
   "theorems": [
    "C118_optional_tags_make_no_difference_partial",
    "C118_optional_tags_refuted"
   ],
   "note": "Proved for all conforming documents and all choices but three, which are refuted: the end tag of p before a table, of optgroup before optgroup or hr, of option before hr."
  },
  {
   "property": "C119",
   "status": "partial",
   "theorems": [
    "C119_variables_are_replaced_partial",
    "C119_nothing_else_is_used_partial",
    "C119_no_variable_is_left_partial",
    "C119_long_chain_refuted",
    "C119_missing_variable_refuted",
    "C119_variable_in_brackets_refuted"
   ],
   "note": "Holds for values nested less than 32 deep in which every var() has a value or a fallback and none is in brackets; otherwise refuted."
  },
  {
   "property": "C120",
   "status": "partial",
   "theorems": [
    "C120_cycles_have_no_value",
    "C120_users_of_cycles_have_no_value",
    "C120_small_input_small_value_refuted"
   ],
   "note": "Cycles have no value, for all environments. The size of values is exponential in that of the style sheet."
  },
  {
   "property": "C121",
   "status": "partial",
   "theorems": [
    "C121_reading_ends_partial",
    "C121_border_toggle_refuted"
   ],
   "note": "All properties but the shorthands of borders; for those `toggle(x)` is read forever."
  },
  {
   "property": "C122",
   "status": "partial",
   "theorems": [
    "C122_undeclared_partial",
    "C122_color_goes_down",
    "C122_visibility_inherited_refuted"
   ],
   "note": "Visibility is not inherited."
  },
  {
   "property": "C123",
   "status": "partial",
   "theorems": [
    "C123_values_exist_partial",
    "C123_keywords_partial",
    "C123_sides_inherit_partial",
    "C123_border_inherit_refuted",
    "C123_revert_refuted"
   ],
   "note": "All longhands, margin and padding; border: inherit takes the top border for all sides, and revert ends the program."
  },
  {
   "property": "C124",
   "status": "partial",
   "theorems": [
    "C124_declared_value_partial",
    "C124_variables_partial",
    "C124_unknown_ignored",
    "C124_invalid_declaration_wins_refuted"
   ],
   "note": "Without logical names, revert or unreadable shorthands among the declarations. Invalid declarations are not ignored."
  },
  {
   "property": "C125",
   "status": "partial",
   "theorems": [
    "C125_one_to_four_values_partial",
    "C125_logical_pairs_refuted"
   ],
   "note": "The four shorthands; margin-inline and margin-block with two values are refuted."
  },
  {
   "property": "C126",
   "status": "partial",
   "theorems": [
    "C126_other_properties_partial",
    "C126_logical_margin_refuted"
   ],
   "note": "Without logical names; these ignore precedence."
  },
  {
   "property": "C127",
   "status": "partial",
   "theorems": [
    "C127_custom_declared",
    "C127_custom_inherited",
    "C127_resolved_where_declared_refuted"
   ],
   "note": "The cascade and inheritance hold; var() in an inherited value is replaced on the element that inherits it."
  },
  {
   "property": "C128",
   "status": "partial",
   "theorems": [
    "C128_border_parts_partial",
    "C128_border_top_thin_refuted",
    "C128_bottom_width_refuted",
    "C128_border_color_refuted"
   ],
   "note": "border, border-right, border-bottom and border-left; not border-top, the width of the bottom border and the default color."
  },
  {
   "property": "C129",
   "status": "partial",
   "theorems": [
    "C129_hex_partial",
    "C129_no_panic",
    "C129_invalid_digits_refuted"
   ],
   "note": "All strings of hexadecimal digits; other characters are read as 0 instead of being invalid."
  },
  {
   "property": "C130",
   "status": "partial",
   "theorems": [
    "C130_named_colors",
    "C130_other_names",
    "C130_system_colors_partial",
    "C130_system_case_refuted"
   ],
   "note": "Names hold in any case; system colors only with the capitals of the specification."
  },
  {
   "property": "C131",
   "status": "partial",
   "theorems": [
    "C131_rgb_partial",
    "C131_rgb_commas_partial",
    "C131_fraction_refuted",
    "C131_too_large_refuted",
    "C131_trailing_refuted"
   ],
   "note": "Numbers in range; with commas, whole numbers or percentages. Out of range is undefined behavior, fractions with commas are cut off, junk after the alpha is accepted."
  },
  {
   "property": "C132",
   "status": "partial",
   "theorems": [
    "C132_hsl_partial",
    "C132_plain_numbers_refuted",
    "C132_alpha_none_refuted"
   ],
   "note": "Percentages with their sign; plain numbers are not divided by 100 and alpha none is opaque."
  },
  {
   "property": "C133",
   "status": "partial",
   "theorems": [
    "C133_color_function_partial",
    "C133_eight_colors_refuted",
    "C133_other_spaces_refuted"
   ],
   "note": "Channels are rounded to 0 or 1 first, so only eight colors can be written; other spaces are white."
  },
  {
   "property": "C134",
   "status": "partial",
   "theorems": [
    "C134_mix_is_read",
    "C134_shares_partial",
    "C134_order",
    "C134_current",
    "C134_space_refuted",
    "C134_no_shares_refuted",
    "C134_hue_arc"
   ],
   "note": "Shares, order, currentcolor and hue arcs hold; the color space is ignored except that lch is hsl; two shares of 0% are white instead of invalid."
  },
  {
   "property": "C135",
   "status": "partial",
   "theorems": [
    "C135_reading_ends",
    "C135_defined_partial",
    "C135_failure_consumes_refuted"
   ],
   "note": "Reading ends; it is defined for small numbers; a hash that is no color is consumed."
  },
  {
   "property": "C136",
   "status": "partial",
   "theorems": [
    "C136_document_order_partial",
    "C136_document_order_refuted"
   ],
   "note": "HTML style elements and links with rel exactly stylesheet; media attributes are ignored, other spellings of rel and SVG style elements are not seen."
  },
  {
   "property": "C137",
   "status": "partial",
   "theorems": [
    "C137_failed_loads_partial"
   ],
   "note": "For documents as read from HTML, where img and link are empty and style has only text in it."
  },
  {
   "property": "C138",
   "status": "partial",
   "theorems": [
    "C138_style_rules_partial",
    "C138_invalid_selector",
    "C138_origin",
    "C138_style_rules_refuted"
   ],
   "note": "For the rules of SheetSpec.crule; unknown at-rules are read as style rules, supports and nested rules are dropped, imports are not followed."
  },
  {
   "property": "C139",
   "status": "partial",
   "theorems": [
    "C139_reading_ends_partial",
    "C139_reading_refuted"
   ],
   "note": "When page selectors are names and pseudo-classes; a page selector list with a comma is read for ever, and some incomplete at-rules end the program."
  },
  {
   "property": "C140",
   "status": "partial",
   "theorems": [
    "C140_namespaces_partial",
    "C140_namespaces_refuted"
   ],
   "note": "With a prefix or a default namespace; otherwise only HTML elements are selected, and late declarations take effect."
  },
  {
   "property": "C141",
   "status": "partial",
   "theorems": [
    "C141_cascaded_value_partial"
   ],
   "note": "For sheets in the covered syntax with one complex selector per rule."
  },
  {
   "property": "C142",
   "status": "partial",
   "theorems": [
    "C142_hints_are_weak",
    "C142_style_attribute_wins",
    "C142_hints_are_weak_refuted"
   ],
   "note": "Holds for all that goes through the cascade; the align attribute does not, and size sets the width of every element."
  },
  {
   "property": "C143",
   "status": "partial",
   "theorems": [
    "C143_spans_partial",
    "C143_range",
    "C143_spans_refuted"
   ],
   "note": "Numbers within the limits, and the limits; colspan above 1000 counts as 1, and a rowspan that is negative or no number as 0."
  },
  {
   "property": "C144",
   "status": "partial",
   "theorems": [
    "C144_written_functions_partial"
   ],
   "note": "For arguments that are numbers, percentages, absolute lengths, zero, sums and differences of two of these in calc(), and angles; see C145 for what else is accepted."
  },
  {
   "property": "C145",
   "status": "partial",
   "theorems": [
    "C145_none",
    "C145_unknown_function",
    "C145_no_function_refuted",
    "C145_long_matrix_refuted",
    "C145_trailing_comma_refuted",
    "C145_relative_length_refuted"
   ],
   "note": "A value without functions is read as an empty list, arguments after the sixth of a matrix and a trailing comma are accepted, relative lengths count as zero."
  },
  {
   "property": "C146",
   "status": "proved",
   "theorems": [
    "C146_concatenation",
    "C146_nothing",
    "C146_origin_fixed",
    "C146_translations_anywhere",
    "C146_rigid"
   ],
   "note": "For the functions of C144; over exact rationals and with any trigonometric functions."
  },
  {
   "property": "C147",
   "status": "partial",
   "theorems": [
    "C147_attribute_partial",
    "C147_precision",
    "C147_late_center_refuted"
   ],
   "note": "When no rotation with a center comes after one without; otherwise the whole attribute is ignored."
  },
  {
   "property": "C148",
   "status": "partial",
   "theorems": [
    "C148_two_values",
    "C148_one_value_refuted",
    "C148_vertical_first_refuted"
   ],
   "note": "Two positions, the horizontal one first; a single position and the other order are not read."
  },
  {
   "property": "C149",
   "status": "partial",
   "theorems": [
    "C149_uniform",
    "C149_inside",
    "C149_centred",
    "C149_touches",
    "C149_exists",
    "C149_moved_refuted"
   ],
   "note": "All but the moves: the clip stays behind and the content moves by another distance."
  },
  {
   "property": "C150",
   "status": "proved",
   "theorems": [
    "C150_known_kept",
    "C150_ratio_kept",
    "C150_default",
    "C150_ratio"
   ],
   "note": "Over exact rationals."
  },
  {
   "property": "C151",
   "status": "partial",
   "theorems": [
    "C151_keyword_partial",
    "C151_alignment",
    "C151_unsupported_refuted"
   ],
   "note": "All keywords but those of the table `unsupported` (baseline alignment, fit-content, overflow clip, break-* always and all, text-align match-parent and justify-all, text-transform lowercase and others), which act like unset."
  },
  {
   "property": "C152",
   "status": "partial",
   "theorems": [
    "C152_initial_partial",
    "C152_initial_refuted"
   ],
   "note": "All but align-content, justify-content, align-items, text-align (other initial values) and dominant-baseline (not inherited)."
  },
  {
   "property": "C153",
   "status": "partial",
   "theorems": [
    "C153_display_partial",
    "C153_order_refuted",
    "C153_ruby_refuted"
   ],
   "note": "Inner type before outer type before list-item; in the usual order the inner type is lost; ruby alone is a block."
  },
  {
   "property": "C154",
   "status": "partial",
   "theorems": [
    "C154_overflow_partial",
    "C154_visible_refuted",
    "C154_clip_refuted"
   ],
   "note": "Without clip, which is not understood, and without the adjustment of visible."
  },
  {
   "property": "C155",
   "status": "proved",
   "theorems": [
    "C155_flex_flow",
    "C155_flex"
   ],
   "note": "For any parser of lengths that leaves identifiers and the end of the text alone."
  },
  {
   "property": "C156",
   "status": "partial",
   "theorems": [
    "C156_list_style_partial",
    "C156_position_refuted",
    "C156_none_refuted"
   ],
   "note": "Type and image, and none before them; a position is read as a counter style, and none after a type takes it away."
  },
  {
   "property": "C157",
   "status": "partial",
   "theorems": [
    "C157_vertical_align_partial",
    "C157_reset_refuted"
   ],
   "note": "What is given is set; what is left out is not reset."
  },
  {
   "property": "C158",
   "status": "partial",
   "theorems": [
    "C158_unknown_partial",
    "C158_missing_refuted"
   ],
   "note": "Unknown names are ignored, among them gap, order and marker-side, which have code but are not registered under their names."
  },
  {
   "property": "C159",
   "status": "partial",
   "theorems": [
    "C159_numbers_partial",
    "C159_range_refuted"
   ],
   "note": "All but the ranges: opacity is not clamped and negative flex factors are accepted."
  },
  {
   "property": "C160",
   "status": "partial",
   "theorems": [
    "C160_lengths_partial",
    "C160_old_names",
    "C160_running"
   ],
   "note": "The text must not begin with an identifier or a bare number (e.g. 0); negative sizes are not ruled out."
  },
  {
   "property": "C161",
   "status": "partial",
   "theorems": [
    "C161_families_partial",
    "C161_no_comma_refuted",
    "C161_empty_refuted"
   ],
   "note": "Valid lists are read; a missing comma and an empty value are accepted as well."
  },
  {
   "property": "C162",
   "status": "partial",
   "theorems": [
    "C162_weight_partial",
    "C162_range_refuted"
   ],
   "note": "0 is accepted; numbers with a fraction are not. The tables for bolder and lighter are in the Karm library."
  },
  {
   "property": "C163",
   "status": "proved",
   "theorems": [
    "C163_width"
   ],
   "note": ""
  },
  {
   "property": "C164",
   "status": "proved",
   "theorems": [
    "C164_style"
   ],
   "note": ""
  },
  {
   "property": "C165",
   "status": "partial",
   "theorems": [
    "C165_size_partial",
    "C165_keywords",
    "C165_unknown_refuted"
   ],
   "note": "em, rem, absolute lengths, percentages and words; xxx-large and calc() are not understood."
  },
  {
   "property": "C166",
   "status": "proved",
   "theorems": [
    "C166_compound"
   ],
   "note": "For steps in em, percentages and elements that say nothing, under any monotone rounding."
  },
  {
   "property": "C167",
   "status": "partial",
   "theorems": [
    "C167_shorthand_partial",
    "C167_weight_refuted",
    "C167_percent_refuted",
    "C167_families_refuted",
    "C167_normal_refuted"
   ],
   "note": "What is given is set; the weight is not reset, percentages as sizes and all but the first family are lost."
  },
  {
   "property": "C168",
   "status": "proved",
   "theorems": [
    "C168_faces"
   ],
   "note": "The search in the database is a parameter."
  },
  {
   "property": "C169",
   "status": "proved",
   "theorems": [
    "C169_inherited",
    "C169_keywords"
   ],
   "note": "For inherit and unset the parent has values that elements can have."
  },
  {
   "property": "C170",
   "status": "partial",
   "theorems": [
    "C170_line_height_refuted"
   ],
   "note": "Refuted: line-height is read and has no effect."
  },
  {
   "property": "C171",
   "status": "partial",
   "theorems": [
    "C171_position_partial",
    "C171_vertical_first_refuted",
    "C171_vertical_center_refuted",
    "C171_twice_refuted"
   ],
   "note": "All positions but those that start with a vertical keyword and have `center` or no offset at all; these are refused or misplaced. Some positions that CSS refuses are read."
  },
  {
   "property": "C172",
   "status": "partial",
   "theorems": [
    "C172_circle_partial",
    "C172_outside_refuted",
    "C172_position_refuted",
    "C172_space_refuted",
    "C172_rest"
   ],
   "note": "For positions as in C171, without white space before the radius; to the closest or farthest side, for centers in the box. The diagonal that percentages refer to is a parameter."
  },
  {
   "property": "C173",
   "status": "partial",
   "theorems": [
    "C173_ellipse_partial",
    "C173_inside",
    "C172_rest"
   ],
   "note": "As C172."
  },
  {
   "property": "C174",
   "status": "partial",
   "theorems": [
    "C174_rect",
    "C174_xywh",
    "C174_inset_partial",
    "C174_inset_values_refuted",
    "C174_rest"
   ],
   "note": "The parser of radii after `round` is a parameter. inset() takes one value, or several that touch."
  },
  {
   "property": "C175",
   "status": "partial",
   "theorems": [
    "C175_polygon_partial",
    "C175_corner",
    "C175_rest_refuted"
   ],
   "note": "The rule is followed by its comma at once, and not preceded by white space."
  },
  {
   "property": "C176",
   "status": "proved",
   "theorems": [
    "C176_shape",
    "C176_box",
    "C176_none",
    "C176_unknown"
   ],
   "note": "fill-box, stroke-box and view-box stand for content-box and border-box, as for boxes without SVG geometry."
  },
  {
   "property": "C177",
   "status": "proved",
   "theorems": [
    "C177_pseudo",
    "C177_inherit"
   ],
   "note": "The values of one element are a parameter."
  },
  {
   "property": "C178",
   "status": "partial",
   "theorems": [
    "C178_values",
    "C178_pseudo_partial",
    "C178_stale_refuted"
   ],
   "note": "Values are those of the last styling, and what is due is there; pseudo-elements that are no longer due stay."
  },
  {
   "property": "C179",
   "status": "partial",
   "theorems": [
    "C179_body",
    "C179_no_body",
    "C179_empty_refuted"
   ],
   "note": "For documents with a root element; one without (which the loaders do not make, but the API accepts) crashes."
  },
  {
   "property": "C180",
   "status": "partial",
   "theorems": [
    "C180_current",
    "C180_print",
    "C180_no_crash_partial",
    "C180_height_refuted",
    "C180_no_document_refuted"
   ],
   "note": "What is drawn is current; drawing is a parameter. It crashes for a viewport of height 0 and without a document."
  }
 ]
}