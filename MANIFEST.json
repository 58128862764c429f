{
 "claims": [
  {
   "property": "C01",
   "status": "proved",
   "theorems": [
    "C01_total"
   ],
   "note": "Holds for every unquoting function that returns; needs the input to be valid UTF-8, as &str is."
  },
  {
   "property": "C02",
   "status": "proved",
   "theorems": [
    "C02_content",
    "C02_from_str",
    "C02_from_reader",
    "C02_from_reader_fails"
   ],
   "note": "Readers are modelled as the list of results of their read calls."
  },
  {
   "property": "C03",
   "status": "proved",
   "theorems": [
    "C03_spans_sliceable"
   ],
   "note": ""
  },
  {
   "property": "C04",
   "status": "proved",
   "theorems": [
    "C04_contents",
    "C04_unquoted",
    "C04_one_line"
   ],
   "note": ""
  },
  {
   "property": "C05",
   "status": "proved",
   "theorems": [
    "C05_parts_in_order"
   ],
   "note": ""
  },
  {
   "property": "C06",
   "status": "proved",
   "theorems": [
    "C06_instructions_in_order",
    "C06_separated"
   ],
   "note": ""
  },
  {
   "property": "C07",
   "status": "proved",
   "theorems": [
    "C07_nothing_dropped"
   ],
   "note": ""
  },
  {
   "property": "C08",
   "status": "proved",
   "theorems": [
    "C08_from_index"
   ],
   "note": ""
  },
  {
   "property": "C09",
   "status": "proved",
   "theorems": [
    "C09_global_args",
    "C09_before_unique"
   ],
   "note": ""
  },
  {
   "property": "C10",
   "status": "partial",
   "theorems": [
    "C10_get_global_arg_partial",
    "C10_get_global_arg_leading",
    "C10_exact",
    "C10_refuted"
   ],
   "note": "True if only ARGs precede the first FROM; false in general (C10_refuted): the search stops at the first instruction that is not an ARG.  C10_exact: right exactly for the names among the leading ARGs and for those no global ARG has."
  },
  {
   "property": "C11",
   "status": "partial",
   "theorems": [
    "C11_keyword",
    "C11_refuted",
    "C11_clear",
    "C11_passed_over_partial",
    "C11_exact"
   ],
   "note": "The first half is proved (C11_keyword). The second half is false (C11_refuted): COPY with one argument is reported as Misc. It holds for instructions that are clearly written (C11_clear), always for LABEL and ENV followed by a blank, and C11_exact says for every keyword exactly which texts after it lead to Misc."
  },
  {
   "property": "C12",
   "status": "partial",
   "theorems": [
    "C12_digest_partial",
    "C12_exact",
    "C12_refuted"
   ],
   "note": "Proved: sha256:, 64 characters, at least one hexadecimal digit. That all are hexadecimal digits is false (C12_refuted): the regular expression is not anchored.  C12_exact: precisely these digests are accepted."
  },
  {
   "property": "C13",
   "status": "proved",
   "theorems": [
    "C13_display_parse"
   ],
   "note": ""
  },
  {
   "property": "C14",
   "status": "proved",
   "theorems": [
    "C14_parse_rules",
    "C14_tag_or_hash",
    "C14_parse_display",
    "C14_roundtrip_fields"
   ],
   "note": ""
  },
  {
   "property": "C15",
   "status": "proved",
   "theorems": [
    "C15_substitute_result",
    "C15_expansion_unique",
    "C15_reading_unique"
   ],
   "note": ""
  },
  {
   "property": "C16",
   "status": "proved",
   "theorems": [
    "C16_substitute_fails",
    "C16_substitute_decides",
    "C16_cycles",
    "C16_no_panic"
   ],
   "note": "A panic needs an intermediate text of at least 2^63 bytes."
  },
  {
   "property": "C17",
   "status": "proved",
   "theorems": [
    "C17_used_vars",
    "C17_used_vars_failed",
    "C17_used_vars_set"
   ],
   "note": ""
  },
  {
   "property": "C18",
   "status": "proved",
   "theorems": [
    "C18_depth_monotone",
    "C18_depth_zero"
   ],
   "note": ""
  },
  {
   "property": "C19",
   "status": "proved",
   "theorems": [
    "C19_values_exist",
    "C19_resolve_vars",
    "C19_resolve_vars_none",
    "C19_entry_points_agree"
   ],
   "note": ""
  },
  {
   "property": "C20",
   "status": "proved",
   "theorems": [
    "C20_disjoint_splices_commute"
   ],
   "note": ""
  },
  {
   "property": "C21",
   "status": "partial",
   "theorems": [
    "C21_last_splice_wins_partial",
    "C21_refuted",
    "C21_exact",
    "C21_text",
    "C21_touching",
    "C21_touching_lost"
   ],
   "note": "True unless a span is spliced again after its text was deleted; then false (C21_refuted).  C21_exact and C21_text give the exact result of every history, deletions included, for spans with text between them; C21_touching does so for all spans that do not overlap, and C21_touching_lost shows what goes wrong where they touch."
  },
  {
   "property": "C22",
   "status": "partial",
   "theorems": [
    "C22_outer_after_inner_partial",
    "C22_outside",
    "C22_exact",
    "C22_left",
    "C22_refuted"
   ],
   "note": "False as stated: text spliced where an inner span was deleted before can stay behind the new text (C22_refuted). Proved when no deleted span is spliced again; for any history C22_outside: no panic, all original text of the outer span is gone, the text outside is unchanged, only texts spliced before can be left over.  For spans with text between them C22_exact gives the exact result of any history: nothing is left unless an inner span that ends where the outer one ends was deleted and spliced again (C22_left)."
  },
  {
   "property": "C23",
   "status": "proved",
   "theorems": [
    "C23_splice_safe",
    "C23_any_call",
    "C23_first_call"
   ],
   "note": "Any history, also with spans spliced again after their text was deleted, and with empty spans."
  },
  {
   "property": "C24",
   "status": "proved",
   "theorems": [
    "C24_relative_span",
    "C24_any_span",
    "C24_line_unique"
   ],
   "note": ""
  },
  {
   "property": "C25",
   "status": "proved",
   "theorems": [
    "C25_stages_partition"
   ],
   "note": ""
  },
  {
   "property": "C26",
   "status": "proved",
   "theorems": [
    "C26_stage_index_name"
   ],
   "note": ""
  },
  {
   "property": "C27",
   "status": "proved",
   "theorems": [
    "C27_parents",
    "C27_parent_earlier"
   ],
   "note": ""
  },
  {
   "property": "C28",
   "status": "proved",
   "theorems": [
    "C28_roots",
    "C28_root_unique"
   ],
   "note": ""
  },
  {
   "property": "C29",
   "status": "proved",
   "theorems": [
    "C29_get_by_name",
    "C29_index",
    "C29_get_number",
    "C29_get_name"
   ],
   "note": ""
  },
  {
   "property": "C30",
   "status": "proved",
   "theorems": [
    "C30_arg_index"
   ],
   "note": ""
  },
  {
   "property": "C31",
   "status": "proved",
   "theorems": [
    "C31_logical_line",
    "C31_logical_line_unique"
   ],
   "note": "ENV values that are one word or one quoted string are covered by C04."
  },
  {
   "property": "C32",
   "status": "proved",
   "theorems": [
    "C32_components_tile"
   ],
   "note": ""
  },
  {
   "property": "C33",
   "status": "proved",
   "theorems": [
    "C33_as_str_vec",
    "C33_exec"
   ],
   "note": ""
  },
  {
   "property": "C34",
   "status": "proved",
   "theorems": [
    "C34_copy",
    "C34_paths",
    "C34_flags",
    "C05_parts_in_order"
   ],
   "note": ""
  },
  {
   "property": "C35",
   "status": "proved",
   "theorems": [
    "C35_env",
    "C35_variables",
    "C05_parts_in_order"
   ],
   "note": ""
  },
  {
   "property": "C36",
   "status": "proved",
   "theorems": [
    "C36_label",
    "C05_parts_in_order"
   ],
   "note": ""
  },
  {
   "property": "C37",
   "status": "proved",
   "theorems": [
    "C37_arg",
    "C37_value"
   ],
   "note": ""
  },
  {
   "property": "C38",
   "status": "proved",
   "theorems": [
    "C38_complete",
    "C38_unambiguous"
   ],
   "note": "For the documents of SpecClear.v: every instruction kind, any case of keywords, any gaps; what it leaves out is text that can be read in two ways."
  },
  {
   "property": "C39",
   "status": "proved",
   "theorems": [
    "C39_any_images",
    "C39_any_image",
    "C39_images_accepted",
    "C39_rewrite_images",
    "C39_rewrite_image"
   ],
   "note": "Every document that parses; any set of images, spliced in any order.  The last two say in addition that documents of SpecClear.v stay in that class."
  },
  {
   "property": "C40",
   "status": "partial",
   "theorems": [
    "C40_ends_at_line_partial",
    "C40_exact",
    "C40_refuted"
   ],
   "note": "True unless a shell command begins with a comment; then the next line is absorbed (C40_refuted). C40_exact has no condition: every newline in an instruction is of the stated kinds or ends one of the comment lines with which a shell text begins."
  },
  {
   "property": "C41",
   "status": "proved",
   "theorems": [
    "C41_one_accessor",
    "C41_try_from",
    "C41_try_from_error",
    "C41_span",
    "C41_shell_or_exec",
    "C41_forms",
    "C41_conversions"
   ],
   "note": ""
  },
  {
   "property": "C42",
   "status": "partial",
   "theorems": [
    "C42_errors_partial",
    "C42_refuted",
    "C70_exact"
   ],
   "note": "The kinds of errors and their causes are proved; a generic error also arises for a comment between RUN, CMD or ENTRYPOINT and the command (C42_refuted). C70_exact says exactly which error every rejected text gives."
  },
  {
   "property": "C43",
   "status": "proved",
   "theorems": [
    "C43_insert_lines",
    "C43_remove_lines",
    "C43_refuted"
   ],
   "note": "For the documents of SpecClear.v; C43_refuted shows that some other documents that parse do change; C57 says where lines can be put into any document."
  },
  {
   "property": "C44",
   "status": "proved",
   "theorems": [
    "C44_increasing",
    "C44_order_laws"
   ],
   "note": ""
  },
  {
   "property": "C45",
   "status": "proved",
   "theorems": [
    "C45_splice_parts",
    "C45_exact",
    "C45_nested_or_apart"
   ],
   "note": ""
  },
  {
   "property": "C46",
   "status": "proved",
   "theorems": [
    "C46_joined",
    "C56_joined"
   ],
   "note": "For the documents of SpecClear.v, and by C56_joined for any documents of which the first asks for no further line."
  },
  {
   "property": "C47",
   "status": "proved",
   "theorems": [
    "C47_splice_program",
    "C47_idempotent",
    "C47_printed_refuted"
   ],
   "note": "C47_printed_refuted: with the added line feed the printed text need not parse again."
  },
  {
   "property": "C48",
   "status": "proved",
   "theorems": [
    "C48_polynomial"
   ],
   "note": ""
  },
  {
   "property": "C49",
   "status": "proved",
   "theorems": [
    "C49_no_deeper",
    "C49_level_per_line",
    "C49_unbounded"
   ],
   "note": ""
  },
  {
   "property": "C50",
   "status": "proved",
   "theorems": [
    "C50_spelling",
    "C50_rejected"
   ],
   "note": ""
  },
  {
   "property": "C51",
   "status": "proved",
   "theorems": [
    "C51_local"
   ],
   "note": ""
  },
  {
   "property": "C52",
   "status": "proved",
   "theorems": [
    "C52_total_orders",
    "C52_source_order",
    "C52_span_first",
    "C52_components_refuted"
   ],
   "note": "Proved as stated. Not true of BreakableStringComponent, which the statement leaves out: its own order puts every string before every comment (C52_components_refuted)."
  },
  {
   "property": "C53",
   "status": "proved",
   "theorems": [
    "C53_builder",
    "C53_from_text"
   ],
   "note": ""
  },
  {
   "property": "C54",
   "status": "proved",
   "theorems": [
    "C54_display_parent",
    "C54_display_number",
    "C29_index"
   ],
   "note": ""
  },
  {
   "property": "C55",
   "status": "proved",
   "theorems": [
    "C55_stages_program"
   ],
   "note": "The derived Debug of parents and instructions is any function to texts without line feeds."
  },
  {
   "property": "C56",
   "status": "proved",
   "theorems": [
    "C56_joined",
    "C56_errors",
    "complete_line"
   ],
   "note": "The conditions on the texts (SpecJoin.v) are lexical; C56_conditions shows a text for each that fails without it."
  },
  {
   "property": "C57",
   "status": "proved",
   "theorems": [
    "C57_insert_lines",
    "C57_last_newline"
   ],
   "note": ""
  },
  {
   "property": "C58",
   "status": "proved",
   "theorems": [
    "C58_line_ends",
    "C58_rejected",
    "C58_crlf",
    "C58_quoted_refuted"
   ],
   "note": "C58_quoted_refuted shows that the condition on quoted strings is needed: LABEL values with escaped line breaks."
  },
  {
   "property": "C59",
   "status": "proved",
   "theorems": [
    "C59_replace_lines",
    "C59_spliced"
   ],
   "note": ""
  },
  {
   "property": "C60",
   "status": "proved",
   "theorems": [
    "C60_earlier_stages",
    "C60_same_heads",
    "C60_joined"
   ],
   "note": ""
  },
  {
   "property": "C61",
   "status": "proved",
   "theorems": [
    "C61_between_parts",
    "C38_complete",
    "C61_shell_refuted",
    "C61_env_refuted",
    "C61_misc_refuted",
    "C61_anywhere_refuted"
   ],
   "note": "Between the parts of an instruction every gap is accepted (C38_complete has it for all instructions). In shell commands, one-name ENV values and uninterpreted arguments every such document is rejected, unlike in Docker: hence the names with _refuted."
  },
  {
   "property": "C62",
   "status": "proved",
   "theorems": [
    "C62_resolved",
    "C62_plain",
    "C62_only_reached",
    "C62_later_lines"
   ],
   "note": ""
  },
  {
   "property": "C63",
   "status": "proved",
   "theorems": [
    "C63_read",
    "C63_plain_quotes",
    "C63_env",
    "C63_env_plain"
   ],
   "note": ""
  },
  {
   "property": "C64",
   "status": "proved",
   "theorems": [
    "C64_round_trip",
    "C64_injective",
    "C64_appended",
    "C64_label_refuted"
   ],
   "note": "The statement names its one exception (LABEL texts with a backslash before a line feed), which is proved to be one."
  },
  {
   "property": "C65",
   "status": "proved",
   "theorems": [
    "C65_in_text",
    "C65_rules",
    "C65_first",
    "C65_second",
    "C65_furthest",
    "C65_named"
   ],
   "note": "Rests on the reading of pest's attempt tracking in Attempts.v."
  },
  {
   "property": "C66",
   "status": "proved",
   "theorems": [
    "C66_stricter",
    "C66_only_these",
    "C66_unescape",
    "C66_comment",
    "C66_digest"
   ],
   "note": "In the middle of a document: with C56_errors."
  },
  {
   "property": "C67",
   "status": "proved",
   "theorems": [
    "C67_form",
    "C67_shell",
    "C67_goes_on_refuted",
    "C67_anywhere_refuted"
   ],
   "note": "C67_goes_on_refuted and C67_anywhere_refuted prove the rejection, which departs from Docker."
  },
  {
   "property": "C68",
   "status": "proved",
   "theorems": [
    "C68_no_instruction",
    "C68_no_arguments",
    "C68_from",
    "C68_arg",
    "C68_env_word",
    "C68_env_name",
    "C68_env_value",
    "C68_label_word",
    "C68_label_name",
    "C68_label_value"
   ],
   "note": "In the middle of a document: with C56_errors."
  },
  {
   "property": "C69",
   "status": "proved",
   "theorems": [
    "C69_accepted",
    "C69_exact",
    "C69_one_reading"
   ],
   "note": ""
  },
  {
   "property": "C70",
   "status": "proved",
   "theorems": [
    "C70_syntax_error",
    "C70_exact",
    "C70_cases",
    "C70_one_error",
    "C70_escapes_apart"
   ],
   "note": "Every rejected text and its error, against the independent description in SpecFail.v."
  },
  {
   "property": "C71",
   "status": "proved",
   "theorems": [
    "C71_generic",
    "C71_told_apart",
    "C71_rule_names",
    "C71_conversion"
   ],
   "note": "The texts that come from other crates are parameters, so the statements hold for all of them."
  },
  {
   "property": "C72",
   "status": "proved",
   "theorems": [
    "C72_span_text",
    "C72_span_reads"
   ],
   "note": ""
  },
  {
   "property": "C73",
   "status": "proved",
   "theorems": [
    "C73_any_history",
    "C73_outermost_win",
    "C73_laid",
    "C73_parts",
    "C73_inner_after_outer",
    "C73_other_line_refuted",
    "C73_panic_refuted"
   ],
   "note": "The last sentence of the statement is C73_inner_after_outer, with a parse result for each of its two consequences (_refuted)."
  },
  {
   "property": "C74",
   "status": "proved",
   "theorems": [
    "C74_reworded",
    "C74_rejected",
    "C74_value",
    "C74_new_string",
    "C74_after_equals",
    "C74_arg_default"
   ],
   "note": ""
  },
  {
   "property": "C75",
   "status": "proved",
   "theorems": [
    "C75_same_references",
    "C75_renamed",
    "C75_letter_case",
    "C75_images_rewritten"
   ],
   "note": ""
  },
  {
   "property": "C76",
   "status": "proved",
   "theorems": [
    "C76_dollars",
    "C76_substituted_again",
    "C76_left_alone",
    "C76_resolved_again",
    "C76_again_refuted",
    "C76_another_refuted"
   ],
   "note": "The last two show that the condition on dollar signs is needed."
  },
  {
   "property": "C77",
   "status": "proved",
   "theorems": [
    "C77_reworded",
    "C77_spliced",
    "C77_copy_path"
   ],
   "note": ""
  },
  {
   "property": "C78",
   "status": "proved",
   "theorems": [
    "C78_alias",
    "C78_names",
    "C78_stage"
   ],
   "note": ""
  },
  {
   "property": "C79",
   "status": "proved",
   "theorems": [
    "C79_changes",
    "C79_others",
    "C79_kinds",
    "C79_froms",
    "C79_stage",
    "C79_value",
    "C79_path"
   ],
   "note": ""
  },
  {
   "property": "C80",
   "status": "proved",
   "theorems": [
    "C80_value",
    "C80_others",
    "C80_any_string"
   ],
   "note": ""
  },
  {
   "property": "C81",
   "status": "proved",
   "theorems": [
    "C81_steps",
    "C81_others",
    "C81_kinds",
    "C81_values",
    "C81_any_string"
   ],
   "note": ""
  },
  {
   "property": "C82",
   "status": "proved",
   "theorems": [
    "C82_name",
    "C82_others",
    "C82_own",
    "C82_any_label"
   ],
   "note": ""
  },
  {
   "property": "C83",
   "status": "proved",
   "theorems": [
    "C83_acts",
    "C83_others",
    "C83_kinds",
    "C83_strings",
    "C83_any_label"
   ],
   "note": ""
  },
  {
   "property": "C84",
   "status": "proved",
   "theorems": [
    "C84_more",
    "C84_pairs",
    "C84_any_label",
    "C84_any_var"
   ],
   "note": "ENV name value and LABEL name value, without an equals sign, are excluded (C84_single is an example of what happens there)"
  },
  {
   "property": "C85",
   "status": "proved",
   "theorems": [
    "C85_fewer",
    "C85_pairs"
   ],
   "note": "the first pair of an instruction stays; C85_backslash is an example of what a backslash at the cut does"
  },
  {
   "property": "C86",
   "status": "proved",
   "theorems": [
    "C86_fewer",
    "C86_pairs"
   ],
   "note": "the last pair of an instruction stays; C86_comment is an example of what a number sign behind the cut does"
  }
 ]
}