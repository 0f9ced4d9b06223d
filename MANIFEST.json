{
 "claims": [
  {
   "property": "C01",
   "status": "partial",
   "theorems": [
    "C01_lexer_tokenizes",
    "C01_lexer_tex_partial",
    "C01_lexer_tex_refuted"
   ],
   "note": "The lexer is shown equal to the whole-text rules for every text and category table. TeX's own rules hold unless a line ends with a control sequence; then they are violated (refuted with a witness)."
  },
  {
   "property": "C02",
   "status": "proved",
   "theorems": [
    "C02_spaces"
   ],
   "note": "Every text and table, also after an exception."
  },
  {
   "property": "C03",
   "status": "proved",
   "theorems": [
    "C03_comment_inert"
   ],
   "note": "Any lexer state in which the comment character starts a comment."
  },
  {
   "property": "C04",
   "status": "proved",
   "theorems": [
    "C04_streaming",
    "C04_chunks",
    "C04_no_retraction"
   ],
   "note": "Every interleaving of writes and reads that never reads an empty vector."
  },
  {
   "property": "C05",
   "status": "partial",
   "theorems": [
    "C05_delivered_refuted",
    "C05_delivered_partial"
   ],
   "note": "False as stated: the control word at the end of the text stays in the lexer. It is delivered by the next non-letter."
  },
  {
   "property": "C06",
   "status": "partial",
   "theorems": [
    "C06_encode",
    "C06_unique",
    "C06_decode_partial",
    "C06_decode_refuted"
   ],
   "note": "Encoding proved for every code point up to 0x1FFFFF. Decoding proved except in debug builds with signed char, where every four byte character fails an assert (refuted)."
  },
  {
   "property": "C07",
   "status": "partial",
   "theorems": [
    "C07_validator_partial",
    "C07_validator_complete",
    "C07_validator_refuted",
    "C07_string"
   ],
   "note": "False as stated: overlong forms, surrogates and numbers above U+10FFFF are accepted and the empty string is undefined. The accepted set is characterised exactly."
  },
  {
   "property": "C08",
   "status": "partial",
   "theorems": [
    "C08_decode_all_partial",
    "C08_progress",
    "C08_progress_refuted"
   ],
   "note": "Holds for every list of code points, with the same debug-build restriction as C06. Progress fails on a stray continuation byte in release builds."
  },
  {
   "property": "C09",
   "status": "proved",
   "theorems": [
    "C09_dimension",
    "C09_only_dimensions",
    "C09_incomplete",
    "C09_any_arithmetic",
    "C09_strict_texts"
   ],
   "note": "Every text: the texts with a result are exactly the dimension texts. Other characters inside the factor are skipped (1-2pt reads as 12pt). std::stof is modelled as decimal reading; its range is a parameter."
  },
  {
   "property": "C10",
   "status": "proved",
   "theorems": [
    "C10_kern",
    "C10_outcomes",
    "C10_infinite_refused"
   ],
   "note": "Every text and unit system, as an equivalence, exact arithmetic."
  },
  {
   "property": "C100",
   "status": "partial",
   "theorems": [
    "C100_names",
    "C100_all",
    "C100_same",
    "C100_fonts",
    "C100_recorded",
    "C100_table",
    "C100_only",
    "C100_no_crash",
    "C100_error_refuted",
    "C100_unasked",
    "C100_asked",
    "C100_texts",
    "C100_window",
    "C100_why",
    "C100_failed",
    "C100_needed_refuted"
   ],
   "note": "Every history and formula; the requests of the typesetter are derived. False after a text with an error: the record is cleared while the old formula stays. A large operator asks for the axis height without need."
  },
  {
   "property": "C101",
   "status": "partial",
   "theorems": [
    "C101_fine",
    "C101_crash",
    "C101_no_throw",
    "C101_decided",
    "C101_terminates",
    "C101_closed",
    "C101_safe",
    "C101_grammar",
    "C101_crashes"
   ],
   "note": "The equivalence is proved for every text the parser takes (which texts it takes is C46, C47), in any arithmetic where x = x (in single precision only while no NaN arises: the assertion of rule 15)."
  },
  {
   "property": "C102",
   "status": "partial",
   "theorems": [
    "C102_session",
    "C102_dies",
    "C102_templates",
    "C102_typing",
    "C102_typing_refuted"
   ],
   "note": "Every history. The last sentence is false: typing \\textstyle x kills the editor at the space. Positions of the cursor are counted in bytes."
  },
  {
   "property": "C103",
   "status": "partial",
   "theorems": [
    "C103_calls",
    "C103_document",
    "C103_rich",
    "C103_same",
    "C103_left",
    "C103_anywhere",
    "C103_anywhere_rich",
    "C103_anywhere_same"
   ],
   "note": "Every document whose last character makes no token (otherwise the last token may be lost: C83), whose expansion is digested without error. Definitions may stand anywhere in the text, inside groups too. In C103_anywhere the tokens left must not be macros of the page editor itself."
  },
  {
   "property": "C104",
   "status": "partial",
   "theorems": [
    "C104_shown",
    "C104_failed",
    "C104_enough",
    "C104_position",
    "C104_crash",
    "C104_session",
    "C104_fatal",
    "C104_signs",
    "C104_cleared_refuted",
    "C104_reported_refuted"
   ],
   "note": "Every text and history. The last sentence is false: std::invalid_argument and std::out_of_range are not caught (\\kern\\par x ends the editor) and an empty text changes nothing but the text. Exactly which exceptions end the editor is C104_fatal: a dimension of signs only or out of the range of float, or a group begun after the last one ended."
  },
  {
   "property": "C105",
   "status": "partial",
   "theorems": [
    "C105_hangs_refuted",
    "C105_recursion_refuted",
    "C105_endless",
    "C105_bound",
    "C105_plain",
    "C105_settled",
    "C105_window"
   ],
   "note": "The first sentence is false: \\end\\endcsname and a space, or a macro that calls itself, and the editor hangs whatever follows. The rest holds for every run. The steps counted are those of the machine; within a step the formulas have an end of their own (C101_terminates)."
  },
  {
   "property": "C106",
   "status": "proved",
   "theorems": [
    "C106_causes",
    "C106_sharp",
    "C106_text",
    "C106_text_sharp",
    "C106_formula",
    "C106_formula_converse",
    "C106_lines",
    "C106_short"
   ],
   "note": "Both directions for every step and every text. What asks for the settings of a group is listed in Spec/CrashSpec.v. Formulas that cannot be shown are those with an unfinished construction (both directions; the first for engines whose characters are character nodes and arithmetics where equality is reflexive, the second for enough fuel)."
  },
  {
   "property": "C107",
   "status": "partial",
   "theorems": [
    "C107_parts",
    "C107_font",
    "C107_one",
    "C107_total",
    "C107_crash",
    "C107_table",
    "C107_brace_refuted",
    "C107_empty_refuted",
    "C107_blank_refuted"
   ],
   "note": "The first sentence and the table hold whenever a font is made. False: a specification without any part, or with a size beyond int, is undefined behaviour (exactly then; \\font\\x=} crashes the page editor), and the family of a specification in braces begins with a brace. An option after a blank is ignored."
  },
  {
   "property": "C108",
   "status": "partial",
   "theorems": [
    "C108_same",
    "C108_alone",
    "C108_session",
    "C108_entry",
    "C108_kept",
    "C108_bounded_refuted"
   ],
   "note": "The first two sentences are proved, in both directions (C108_alone, C108_session) for the model of loadFont (C107) and its growing table. The last one is false: a font is loaded again at every change of the text, so typing a text loads its fonts with every letter."
  },
  {
   "property": "C11",
   "status": "partial",
   "theorems": [
    "C11_space",
    "C11_plus_minus_partial",
    "C11_only",
    "C11_outcomes",
    "C11_plus_refuted",
    "C11_minus_refuted",
    "C11_infinite_space"
   ],
   "note": "False for D plus E and D minus F: every such text is refused. Proved for D and for D plus E minus F, and that no other text is accepted."
  },
  {
   "property": "C12",
   "status": "proved",
   "theorems": [
    "C12_parshape",
    "C12_parshape_end",
    "C12_only",
    "C12_overflow",
    "C12_finish_defined",
    "C12_infinite_aborts"
   ],
   "note": "Finite units, one character between dimensions, n at most INT_MAX. An infinite unit fails an assert."
  },
  {
   "property": "C13",
   "status": "proved",
   "theorems": [
    "C13_roundtrip",
    "C13_every_text",
    "C13_rejects"
   ],
   "note": "Assumes that moving an empty std::string leaves it empty. A last option with empty key and no = cannot be written."
  },
  {
   "property": "C14",
   "status": "proved",
   "theorems": [
    "C14_keywords",
    "C14_factors",
    "C14_standard",
    "C14_linear",
    "C14_binary32"
   ],
   "note": "Exact arithmetic, and the binary32 factors within one ulp."
  },
  {
   "property": "C15",
   "status": "proved",
   "theorems": [
    "C15_characters"
   ],
   "note": "Every state between constructs."
  },
  {
   "property": "C16",
   "status": "proved",
   "theorems": [
    "C16_def",
    "C16_order"
   ],
   "note": "Braces are recognised by their character. A parameter number in the body is not checked."
  },
  {
   "property": "C17",
   "status": "proved",
   "theorems": [
    "C17_scopes",
    "C17_restored",
    "C17_dangling_refuted"
   ],
   "note": "endGroup while a macro of the group waits for its arguments leaves a dangling pointer."
  },
  {
   "property": "C18",
   "status": "proved",
   "theorems": [
    "C18_if_else",
    "C18_if"
   ],
   "note": "A control sequence whose name begins with if opens a conditional, so \\iff does."
  },
  {
   "property": "C19",
   "status": "proved",
   "theorems": [
    "C19_call",
    "C19_only_calls"
   ],
   "note": "Both directions. A delimiter is one token: a text that starts the second token of a longer delimiter wrongly is refused, unlike TeX. Braces around delimited arguments are kept."
  },
  {
   "property": "C20",
   "status": "proved",
   "theorems": [
    "C20_sound",
    "C20_complete",
    "C20_more"
   ],
   "note": "At most one space is skipped, and braces are counted by category."
  },
  {
   "property": "C21",
   "status": "proved",
   "theorems": [
    "C21_csname"
   ],
   "note": "The spelled control sequence is put in front of the input."
  },
  {
   "property": "C22",
   "status": "proved",
   "theorems": [
    "C22_expandafter",
    "C22_parameterless",
    "C22_undefined_refuted"
   ],
   "note": "Also for macros with arguments, conditionals, csname and chains. If the second token is not expandable the order is reversed."
  },
  {
   "property": "C23",
   "status": "partial",
   "theorems": [
    "C23_format",
    "C23_text",
    "C23_bad_text",
    "C23_each_once",
    "C23_after_call_refuted"
   ],
   "note": "Texts of definitions and characters. After a macro call in the text the remaining definitions are lost."
  },
  {
   "property": "C24",
   "status": "proved",
   "theorems": [
    "C24_hbox_dims",
    "C24_hbox_height"
   ],
   "note": "Sums and running maxima for any arithmetic (so for float); that the running maximum is the largest element for exact arithmetic."
  },
  {
   "property": "C25",
   "status": "proved",
   "theorems": [
    "C25_glue_setting",
    "C25_exact_width",
    "C25_same_vertical",
    "C25_vbox_glue_setting"
   ],
   "note": "Full rule in exact arithmetic; exact width with infinite glue or any stretch for any arithmetic."
  },
  {
   "property": "C26",
   "status": "proved",
   "theorems": [
    "C26_vbox_dims",
    "C26_vbox_depth"
   ],
   "note": "Exact arithmetic; depth clause for any arithmetic."
  },
  {
   "property": "C27",
   "status": "proved",
   "theorems": [
    "C27_vtop",
    "C27_vtop_to",
    "C27_vtop_total",
    "C27_vtop_empty_refuted",
    "C27_changeHeight"
   ],
   "note": "vtop of an empty list is undefined behaviour (C27_vtop_empty_refuted)."
  },
  {
   "property": "C28",
   "status": "partial",
   "theorems": [
    "C28_hbox_positions",
    "C28_vbox_positions",
    "C28_hbox_to_fills",
    "C28_hbox_fills",
    "C28_vbox_to_fills",
    "C28_vbox_fills",
    "C28_negative_stretch_refuted"
   ],
   "note": "Exact arithmetic, glue with nonnegative stretch and shrink; false with negative stretch."
  },
  {
   "property": "C29",
   "status": "proved",
   "theorems": [
    "C29_full_reader",
    "C29_partial_reader",
    "C29_visits_boxes",
    "C29_prefix"
   ],
   "note": "Any arithmetic, any reader."
  },
  {
   "property": "C30",
   "status": "partial",
   "theorems": [
    "C30_order_refuted",
    "C30_order_partial"
   ],
   "note": "False as stated: glue.cpp:21 tests fill instead of filll. Holds exactly when fill and filll are both present or both absent."
  },
  {
   "property": "C31",
   "status": "partial",
   "theorems": [
    "C31_rebox_refuted",
    "C31_rebox_partial"
   ],
   "note": "False when the requested width is the natural width: the old ratio stays. Proved for every edit history otherwise."
  },
  {
   "property": "C32",
   "status": "partial",
   "theorems": [
    "C32_baselines",
    "C32_paragraph",
    "C32_lineskiplimit_refuted"
   ],
   "note": "The rule without lineskiplimit is proved for all lists; the TeX clause is false."
  },
  {
   "property": "C33",
   "status": "partial",
   "theorems": [
    "C33_spacefactor_partial",
    "C33_spacefactor_refuted",
    "C33_interword_glue",
    "C33_appends",
    "C33_nonzero"
   ],
   "note": "The clamp at 1000 is false (hlist.cpp:34 overwrites it); the rest is proved for all histories."
  },
  {
   "property": "C34",
   "status": "proved",
   "theorems": [
    "C34_legal_ordered"
   ],
   "note": "Any arithmetic."
  },
  {
   "property": "C35",
   "status": "proved",
   "theorems": [
    "C35_forced_taken",
    "C35_prepared_last"
   ],
   "note": "Any arithmetic."
  },
  {
   "property": "C36",
   "status": "proved",
   "theorems": [
    "C36_lines_feasible",
    "C36_start",
    "C36_tolerance",
    "C36_badness"
   ],
   "note": "Any arithmetic for the lines and the sums; what the tolerance means in exact arithmetic. Unless demerits overflow (C37)."
  },
  {
   "property": "C37",
   "status": "partial",
   "theorems": [
    "C37_optimal",
    "C37_optimal_exact",
    "C37_no_overflow",
    "C37_overflow_refuted"
   ],
   "note": "Optimal in any arithmetic among the breakings that never pass an overfull point, and in exact arithmetic among all breakings within tolerance if nothing shrinks infinitely. Undefined behaviour by int overflow is possible and excluded by a bound."
  },
  {
   "property": "C38",
   "status": "proved",
   "theorems": [
    "C38_throw_iff",
    "C38_outcomes",
    "C37_optimal_exact"
   ],
   "note": "Any arithmetic; the exact form is part of C37_optimal_exact."
  },
  {
   "property": "C39",
   "status": "partial",
   "theorems": [
    "C39_nothing_lost",
    "C39_unprepared_refuted"
   ],
   "note": "All prepared lists; a list that is not prepared may lose its last line."
  },
  {
   "property": "C40",
   "status": "partial",
   "theorems": [
    "C40_line_hanging",
    "C40_line_plain",
    "C40_line_parshape",
    "C40_parshape_refuted"
   ],
   "note": "With a parshape the width lacks the indentation (linebreaks.cpp:437, 451)."
  },
  {
   "property": "C41",
   "status": "proved",
   "theorems": [
    "C41_parshape",
    "C41_parshape_last",
    "C41_hanging",
    "C41_plain"
   ],
   "note": "Any arithmetic; hangafter is not INT_MIN."
  },
  {
   "property": "C42",
   "status": "partial",
   "theorems": [
    "C42_ratio_partial",
    "C42_ratio_refuted"
   ],
   "note": "False if leftskip or rightskip has space (linebreaks.cpp:280-281 subtract). Proved otherwise for lines with finite glue, exact arithmetic."
  },
  {
   "property": "C43",
   "status": "partial",
   "theorems": [
    "C43_no_abort",
    "C43_undefined_iff",
    "C43_safe_partial",
    "C43_past_end_refuted",
    "C43_past_end_default_refuted"
   ],
   "note": "False in general; exactly when it fails, and safe for ordinary material."
  },
  {
   "property": "C44",
   "status": "proved",
   "theorems": [
    "C44_fields",
    "C44_order",
    "C44_nesting",
    "C44_ids"
   ],
   "note": "All styles and all nestings. Style::fromId is unchecked: undefined behaviour outside 0..7."
  },
  {
   "property": "C45",
   "status": "proved",
   "theorems": [
    "C45_parts",
    "C45_unique",
    "C45_default",
    "C45_plain",
    "C45_others",
    "C45_family"
   ],
   "note": "All codes and all characters of the default table."
  },
  {
   "property": "C46",
   "status": "partial",
   "theorems": [
    "C46_formula_partial",
    "C46_unique",
    "C46_frac_over_refuted",
    "C46_left_over_refuted",
    "C46_cell_script_refuted"
   ],
   "note": "Proved for every formula of the grammar. Braced subscripts (C48) and \\over inside arguments of \\frac, \\left..\\right and matrix cells are not read as TeX does: refuted with witnesses."
  },
  {
   "property": "C47",
   "status": "partial",
   "theorems": [
    "C47_only_arguments",
    "C47_careful_partial",
    "C47_refuted"
   ],
   "note": "Undefined behaviour only arises from a symbol or a brace where an argument is awaited, and never for careful sequences; \\frac\\textstyle x is a witness of undefined behaviour."
  },
  {
   "property": "C48",
   "status": "partial",
   "theorems": [
    "C48_refuted"
   ],
   "note": "False: every braced subscript of a symbol becomes its superscript. Symbol subscripts are covered by C46."
  },
  {
   "property": "C49",
   "status": "proved",
   "theorems": [
    "C49_matrix"
   ],
   "note": "All tables of the grammar."
  },
  {
   "property": "C50",
   "status": "partial",
   "theorems": [
    "C50_table",
    "C50_layout",
    "C50_refuted"
   ],
   "note": "All pairs of classes, all formulas. The style is that of the formula: after \\scriptstyle the spaces of the outer style are used (refuted with a witness)."
  },
  {
   "property": "C51",
   "status": "partial",
   "theorems": [
    "C51_class",
    "C51_after_partial",
    "C51_refuted",
    "C51_fraction_refuted"
   ],
   "note": "Exact final class of every atom. Only the condition on the following atom is enforced, and only without fractions or delimiters; at the beginning, at the end and after an operator, relation or opening a Bin stays Bin."
  },
  {
   "property": "C52",
   "status": "partial",
   "theorems": [
    "C52_no_operator_partial",
    "C50_layout",
    "C52_refuted"
   ],
   "note": "Exact for all formulas: the penalty meant for Bin is put after Op. As in TeX when there are neither Bin nor Op atoms."
  },
  {
   "property": "C53",
   "status": "partial",
   "theorems": [
    "C53_terminates_partial",
    "C53_fuel",
    "C53_refuted",
    "C53_stuck_refuted"
   ],
   "note": "Terminates on every list of math nodes; loops forever on every list that reaches a box or other node."
  },
  {
   "property": "C54",
   "status": "partial",
   "theorems": [
    "C54_refuted",
    "C54_super",
    "C54_sub",
    "C54_both",
    "C54_low"
   ],
   "note": "False: the result does not depend on the subscript. One script is placed by rule 18; with two, the box holds the superscript twice and the lower one is too low."
  },
  {
   "property": "C55",
   "status": "partial",
   "theorems": [
    "C55_outline",
    "C55_lines_partial",
    "C55_refuted",
    "C55_newline_refuted",
    "C55_no_columns_refuted"
   ],
   "note": "The text is exactly the outline, balanced, for every list and any number format. One line per node fails for operators at the start (no name is printed) and for newline characters; a matrix without columns is undefined behaviour."
  },
  {
   "property": "C56",
   "status": "partial",
   "theorems": [
    "C56_fields",
    "C56_roundtrip",
    "C56_float_refuted",
    "C56_design_partial",
    "C56_design_refuted",
    "C56_initialised"
   ],
   "note": "Exact arithmetic; not in single precision (witness: the x-height of cmr10). cmsy5 has design size 7."
  },
  {
   "property": "C57",
   "status": "proved",
   "theorems": [
    "C57_carriage_returns",
    "C57_position",
    "C57_position_total",
    "C57_read"
   ],
   "note": "Lines and columns are counted from 0. removeCRLF is never called by the typesetting machine."
  },
  {
   "property": "C58",
   "status": "partial",
   "theorems": [
    "C58_restored",
    "C58_refuted"
   ],
   "note": "Parameters and macros are restored at the end of every group of every run. The second half is false: one closing brace too many empties the stack of parameters, which is then read."
  },
  {
   "property": "C59",
   "status": "partial",
   "theorems": [
    "C59_name_exact_partial",
    "C59_unbraced_exact_partial",
    "C59_rejected",
    "C59_refuted"
   ],
   "note": "The name is exact; the spec always keeps the opening brace, because the state that skips it is never entered. It is exact without the opening brace."
  },
  {
   "property": "C60",
   "status": "proved",
   "theorems": [
    "C60_values",
    "C60_strings",
    "C60_no_leak",
    "C60_equal",
    "C60_category",
    "C60_ctor_throw",
    "C60_assign_throw_refuted"
   ],
   "note": "Moved-from strings have an unspecified value. An assignment whose allocation fails leaves a token with no live alternative."
  },
  {
   "property": "C61",
   "status": "proved",
   "theorems": [
    "C61_interleaving"
   ],
   "note": "Every state."
  },
  {
   "property": "C62",
   "status": "partial",
   "theorems": [
    "C62_streams",
    "C62_csname_refuted"
   ],
   "note": "A parameter token inside csname is read as a character: undefined behaviour."
  },
  {
   "property": "C63",
   "status": "proved",
   "theorems": [
    "C63_special",
    "C63_letters",
    "C63_other"
   ],
   "note": "All bytes; control characters other than the listed ones are not claimed."
  },
  {
   "property": "C64",
   "status": "partial",
   "theorems": [
    "C64_hbox_natural",
    "C64_hbox_requested",
    "C64_vbox_natural",
    "C64_vbox_requested",
    "C64_vbox_done",
    "C64_changeHeight_refuted",
    "C64_stale_refuted"
   ],
   "note": "changeHeight without done() is undone by the destructor; a list changed after a rebox leaves stale dimensions."
  },
  {
   "property": "C65",
   "status": "proved",
   "theorems": [
    "C65_raise",
    "C65_lower"
   ],
   "note": "Exact arithmetic."
  },
  {
   "property": "C66",
   "status": "proved",
   "theorems": [
    "C66_fraction"
   ],
   "note": "Exact arithmetic."
  },
  {
   "property": "C67",
   "status": "proved",
   "theorems": [
    "C67_over",
    "C67_under",
    "C67_nucleus"
   ],
   "note": "Exact arithmetic; scripts are then attached as for an ordinary atom."
  },
  {
   "property": "C68",
   "status": "partial",
   "theorems": [
    "C68_centred",
    "C68_delimiter",
    "C68_delimiters",
    "C68_style_refuted"
   ],
   "note": "Exact arithmetic. With a style change between the delimiters they stand on the axis of the style at the end, not on that of the formula."
  },
  {
   "property": "C69",
   "status": "proved",
   "theorems": [
    "C69_radical",
    "C69_clearance"
   ],
   "note": "Exact arithmetic; the clearance and the size asked for the sign are rule 11's."
  },
  {
   "property": "C70",
   "status": "proved",
   "theorems": [
    "C70_limits"
   ],
   "note": "Exact arithmetic. The operator is not centred on the axis: the code discards the shifted box."
  },
  {
   "property": "C71",
   "status": "partial",
   "theorems": [
    "C71_refuted",
    "C71_scriptless_partial"
   ],
   "note": "False: scripts are doubled the second time. True for all lists without scripts, limits and math glue."
  },
  {
   "property": "C72",
   "status": "partial",
   "theorems": [
    "C72_refuted",
    "C72_others_partial"
   ],
   "note": "False for every glue; kerns, rules and penalties are kept."
  },
  {
   "property": "C73",
   "status": "partial",
   "theorems": [
    "C73_refuted",
    "C73_enough_partial",
    "C73_one_partial"
   ],
   "note": "False: heights are added. The size (exact in C50_layout) is enough for each part, and right around a single one."
  },
  {
   "property": "C74",
   "status": "partial",
   "theorems": [
    "C74_refuted",
    "C74_cells",
    "C74_first_column_partial",
    "C74_later_columns"
   ],
   "note": "False: the quad between columns is not counted in the width of a cell. The first column is aligned."
  },
  {
   "property": "C75",
   "status": "proved",
   "theorems": [
    "C50_layout"
   ],
   "note": "All formulas, all engines, any arithmetic."
  },
  {
   "property": "C76",
   "status": "proved",
   "theorems": [
    "C76_stretched"
   ],
   "note": "Exact arithmetic; metrics from Qt are arbitrary."
  },
  {
   "property": "C77",
   "status": "partial",
   "theorems": [
    "C77_new_partial",
    "C77_family_refuted",
    "C77_reset_refuted"
   ],
   "note": "Families 0 to 3 of a new engine. Families 4 to 15 have no fonts, and a later reset has no effect on the math fonts."
  },
  {
   "property": "C78",
   "status": "partial",
   "theorems": [
    "C78_lengths_partial",
    "C78_refuted"
   ],
   "note": "False for every font with a slant and a design size other than 1."
  },
  {
   "property": "C79",
   "status": "partial",
   "theorems": [
    "C79_sfcode_partial",
    "C79_refuted"
   ],
   "note": "Exactly the capital letters and three closing characters differ."
  },
  {
   "property": "C80",
   "status": "proved",
   "theorems": [
    "C80_numbers"
   ],
   "note": "All indices."
  },
  {
   "property": "C81",
   "status": "proved",
   "theorems": [
    "C81_stacks",
    "C81_one_token",
    "C81_loop_ends",
    "C81_cast"
   ],
   "note": "Every host; states reached from a new machine by any number of texts, without exceptions."
  },
  {
   "property": "C82",
   "status": "partial",
   "theorems": [
    "C82_refuted",
    "C82_never_idle"
   ],
   "note": "False for every such text: the horizontal mode entered first has an output routine that always throws."
  },
  {
   "property": "C83",
   "status": "partial",
   "theorems": [
    "C83_delivered_partial",
    "C83_quiet_partial",
    "C83_refuted"
   ],
   "note": "Proved up to the last token, which may stay in the lexer and is then the first one of the next text; none is lost when no macro leaves work behind. False in general: witness for every host."
  },
  {
   "property": "C84",
   "status": "proved",
   "theorems": [
    "C84_document",
    "C84_lines",
    "C84_machine"
   ],
   "note": "Paragraphs that do not begin with a box; fewer than 2^64 nested braces; in a debug build with signed char, characters of the basic plane (C06)."
  },
  {
   "property": "C85",
   "status": "partial",
   "theorems": [
    "C85_meaning_partial",
    "C85_distinct_partial",
    "C85_unknown",
    "C85_refuted"
   ],
   "note": "Class and family are right for all 137 known symbols, the character for 119 of them; 20 symbols (arrows, integrals) are unknown; three pairs of names give the same symbol (cdot = odot)."
  },
  {
   "property": "C86",
   "status": "partial",
   "theorems": [
    "C86_gap_partial",
    "C86_refuted"
   ],
   "note": "False for every sign that is deeper: the code compares with the sign's own height. True otherwise."
  },
  {
   "property": "C87",
   "status": "partial",
   "theorems": [
    "C87_accent",
    "C87_symbol",
    "C87_refuted"
   ],
   "note": "False for symbols with scripts: the correction has the wrong sign. True for other nuclei."
  },
  {
   "property": "C88",
   "status": "proved",
   "theorems": [
    "C88_root"
   ],
   "note": "Exact arithmetic."
  },
  {
   "property": "C89",
   "status": "partial",
   "theorems": [
    "C89_mu",
    "C89_again_refuted"
   ],
   "note": "Converted at every place as stated; false the second time: the converted glue is still math glue."
  },
  {
   "property": "C90",
   "status": "partial",
   "theorems": [
    "C90_formula_partial",
    "C90_rejected",
    "C90_unknown",
    "C90_missing_refuted",
    "C90_last_refuted",
    "C90_bytes_refuted",
    "C90_symbol"
   ],
   "note": "Proved for the texts of the grammar of C46 with the symbols of C85. False for the missing symbols of plain TeX, a last control word and characters outside ASCII."
  },
  {
   "property": "C91",
   "status": "partial",
   "theorems": [
    "C91_document_partial",
    "C91_length",
    "C91_shape",
    "C91_tab_refuted",
    "C91_stop_refuted",
    "C91_shape_stays_refuted"
   ],
   "note": "Proved for texts without macros, without fonts or dimensions inside formulas, whose dimensions are ended by a character or one of a few words. False for the column separator, the character after a dimension and the extent of a shape."
  },
  {
   "property": "C92",
   "status": "proved",
   "theorems": [
    "C92_parameters",
    "C92_parameters_float"
   ],
   "note": "Exactly, and in single precision up to the rounding of the decimal constants."
  },
  {
   "property": "C93",
   "status": "partial",
   "theorems": [
    "C93_shown",
    "C93_best",
    "C93_blank",
    "C93_safe_partial",
    "C93_empty_refuted",
    "C93_stale_refuted",
    "C93_double_space_refuted"
   ],
   "note": "The alternatives and what is shown: every history of events, any arithmetic; std::sort is any sort. False for the empty text and for texts without alternatives, after which the old paragraph stays. A text may end the program (undefined behaviour, witness); not with ordinary parameters and a bound on the length, exact arithmetic."
  },
  {
   "property": "C94",
   "status": "partial",
   "theorems": [
    "C94_glue",
    "C94_dimen",
    "C94_history",
    "C94_no_other_crash",
    "C94_crash_refuted",
    "C94_clear_refuted"
   ],
   "note": "Proved for every history in exact arithmetic as long as no text ends the program; exactly which texts do (std::stof throws): an empty field, a sign alone, numbers out of range."
  },
  {
   "property": "C95",
   "status": "partial",
   "theorems": [
    "C95_pairs",
    "C95_odd",
    "C95_no_number_refuted"
   ],
   "note": "Pairs and odd counts for every text; a word that is no number is read as zero instead of being refused. QString::toFloat is any function."
  },
  {
   "property": "C96",
   "status": "proved",
   "theorems": [
    "C96_reset"
   ],
   "note": "Every history, exact arithmetic."
  },
  {
   "property": "C97",
   "status": "proved",
   "theorems": [
    "C97_drawn",
    "C97_letters",
    "C97_bars",
    "C97_ratios",
    "C97_event",
    "C97_corner",
    "C97_centred",
    "C97_stretched"
   ],
   "note": "Every box and widget, any arithmetic; margins, centring and scaling in exact arithmetic. Fonts, pens and pixels are Qt's."
  },
  {
   "property": "C98",
   "status": "partial",
   "theorems": [
    "C98_inside",
    "C98_margins",
    "C98_page",
    "C98_lines",
    "C98_shift_refuted"
   ],
   "note": "Proved for boxes without shifts and the pages of the texts of C84, exact arithmetic. False for shifted boxes: vbox ignores the shift."
  },
  {
   "property": "C99",
   "status": "partial",
   "theorems": [
    "C99_fits",
    "C99_scroll",
    "C99_rows",
    "C99_sides",
    "C99_columns",
    "C99_room",
    "C99_narrow_refuted",
    "C99_high_refuted",
    "C99_sheet",
    "C99_letters",
    "C99_top"
   ],
   "note": "Every history. False for windows narrower than 780 (no horizontal scrolling) and for pages higher than Qt's largest widget. The scroll bar may cover the right edge of the sheet (not modelled)."
  }
 ]
}