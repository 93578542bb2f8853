{
 "claims": [
  {
   "property": "C01",
   "status": "proved",
   "theorems": [
    "C01_total_order"
   ],
   "note": ""
  },
  {
   "property": "C02",
   "status": "proved",
   "theorems": [
    "C02_equality"
   ],
   "note": "holds without the sign restriction"
  },
  {
   "property": "C03",
   "status": "proved",
   "theorems": [
    "C03_order",
    "C03_negative_parts_refuted"
   ],
   "note": "non-negative release parts, as the property states; C03_negative_parts_refuted shows the restriction is needed"
  },
  {
   "property": "C04",
   "status": "proved",
   "theorems": [
    "C04_phases",
    "C04_local_adjacent"
   ],
   "note": ""
  },
  {
   "property": "C05",
   "status": "proved",
   "theorems": [
    "C05_padding",
    "C05_padding_index",
    "C05_padding_next"
   ],
   "note": ""
  },
  {
   "property": "C06",
   "status": "proved",
   "theorems": [
    "C06_local"
   ],
   "note": ""
  },
  {
   "property": "C07",
   "status": "partial",
   "theorems": [
    "C07_round_trip_partial",
    "C07_candidate",
    "C07_refuted"
   ],
   "note": "Holds exactly unless the pre phase is candidate: its long form is not in PRE_PHASES, so str of a parsed 1.0c1 does not parse (C07_candidate, C07_refuted). The long string still determines the version (C62_string)."
  },
  {
   "property": "C08",
   "status": "proved",
   "theorems": [
    "C08_round_trip"
   ],
   "note": ""
  },
  {
   "property": "C09",
   "status": "proved",
   "theorems": [
    "C09_normalize",
    "C09_idempotent",
    "C09_round_trip"
   ],
   "note": ""
  },
  {
   "property": "C10",
   "status": "proved",
   "theorems": [
    "C10_grammar",
    "C10_unambiguous"
   ],
   "note": ""
  },
  {
   "property": "C11",
   "status": "partial",
   "theorems": [
    "C11_lower_partial",
    "C11_errors",
    "C11_refuted"
   ],
   "note": "True of strings without capital letters; a capital letter in a tag passes the pattern and raises a plain ValueError (C11_errors gives every failure, C11_refuted)."
  },
  {
   "property": "C12",
   "status": "proved",
   "theorems": [
    "C12_parsed_wf",
    "C12_all_wf"
   ],
   "note": ""
  },
  {
   "property": "C13",
   "status": "proved",
   "theorems": [
    "C13_variants"
   ],
   "note": ""
  },
  {
   "property": "C14",
   "status": "partial",
   "theorems": [
    "C14_next_at_partial",
    "C14_next_parts_partial",
    "C14_post_dev_refuted"
   ],
   "note": "exact: strictly greater iff not a dev release of a post-release; C14_post_dev_refuted shows the failure"
  },
  {
   "property": "C15",
   "status": "proved",
   "theorems": [
    "C15_next_at",
    "C15_determined",
    "C15_negative_index"
   ],
   "note": ""
  },
  {
   "property": "C16",
   "status": "proved",
   "theorems": [
    "C16_next_post",
    "C16_next_epoch",
    "C16_next_pre",
    "C16_next_dev",
    "C16_next_pre_phase",
    "C16_shapes"
   ],
   "note": ""
  },
  {
   "property": "C17",
   "status": "proved",
   "theorems": [
    "C17_next_breaking",
    "C17_breaking_index"
   ],
   "note": ""
  },
  {
   "property": "C18",
   "status": "partial",
   "theorems": [
    "C18_caret_partial",
    "C18_tilde_partial",
    "C18_tilde_equal",
    "C18_wildcard_partial",
    "C18_tilde_shape",
    "C18_tilde_equal_shape",
    "C18_wildcard_shape",
    "C18_post_dev_refuted"
   ],
   "note": "exact: caret, tilde and wildcard fail for dev releases of post-releases only; tilde-equal always holds"
  },
  {
   "property": "C19",
   "status": "proved",
   "theorems": [
    "C19_to_semantic",
    "C19_to_semantic_parts",
    "C19_to_stable"
   ],
   "note": ""
  },
  {
   "property": "C20",
   "status": "proved",
   "theorems": [
    "C20_set_at",
    "C20_get_at",
    "C20_frame",
    "C20_set_parts"
   ],
   "note": ""
  },
  {
   "property": "C21",
   "status": "proved",
   "theorems": [
    "C21_contains",
    "C21_constructor"
   ],
   "note": ""
  },
  {
   "property": "C22",
   "status": "proved",
   "theorems": [
    "C22_intersection"
   ],
   "note": ""
  },
  {
   "property": "C23",
   "status": "partial",
   "theorems": [
    "C23_union_partial",
    "C23_merge_partial",
    "C23_union_refuted",
    "C23_noncanonical_refuted"
   ],
   "note": "C23_union_refuted: union of {v} and (v, ...) recurses for ever; proved exactly outside that case (see C51)"
  },
  {
   "property": "C24",
   "status": "partial",
   "theorems": [
    "C24_difference_partial",
    "C24_difference_refuted",
    "C24_difference_range_refuted"
   ],
   "note": "refuted for union minus empty and range minus covering union; proved exactly outside (see C52)"
  },
  {
   "property": "C25",
   "status": "proved",
   "theorems": [
    "C25_complement"
   ],
   "note": ""
  },
  {
   "property": "C26",
   "status": "partial",
   "theorems": [
    "C26_symmetric_difference_partial",
    "C26_symmetric_difference_refuted",
    "C26_union_refuted"
   ],
   "note": "refuted for disjoint sets and for unions; proved exactly outside (see C53)"
  },
  {
   "property": "C27",
   "status": "proved",
   "theorems": [
    "C27_includes",
    "C27_includes_written",
    "C27_includes_sound",
    "C27_any_word_refuted"
   ],
   "note": "for bounds with integers and non-empty words, as stated; the refuted theorems show why the restriction is needed"
  },
  {
   "property": "C28",
   "status": "proved",
   "theorems": [
    "C28_intersects_intersection",
    "C28_intersects",
    "C28_intersects_written",
    "C28_intersects_complete",
    "C28_any_word_refuted"
   ],
   "note": "for bounds with integers and non-empty words, as stated; the refuted theorems show why the restriction is needed"
  },
  {
   "property": "C29",
   "status": "proved",
   "theorems": [
    "C29_closed",
    "C29_members",
    "C29_total",
    "C29_difference",
    "C29_merge",
    "C29_no_universal_item"
   ],
   "note": ""
  },
  {
   "property": "C30",
   "status": "proved",
   "theorems": [
    "C30_extensional",
    "C30_extensional_written",
    "C30_equal_sound",
    "C30_any_word_refuted",
    "C30_boolean_algebra"
   ],
   "note": "for bounds with integers and non-empty words, as stated; the refuted theorems show why the restriction is needed"
  },
  {
   "property": "C31",
   "status": "proved",
   "theorems": [
    "C31_any_order",
    "C31_any_grouping"
   ],
   "note": ""
  },
  {
   "property": "C32",
   "status": "proved",
   "theorems": [
    "C32_is_empty",
    "C32_is_universal",
    "C32_is_empty_written",
    "C32_is_universal_written",
    "C32_any_word_refuted",
    "C32_below_lowest_refuted"
   ],
   "note": "for bounds with integers and non-empty words, as stated; the refuted theorems show why the restriction is needed"
  },
  {
   "property": "C33",
   "status": "proved",
   "theorems": [
    "C33_total_order",
    "C33_minimum_first"
   ],
   "note": ""
  },
  {
   "property": "C34",
   "status": "proved",
   "theorems": [
    "C34_operator_formulas",
    "C34_constructor"
   ],
   "note": ""
  },
  {
   "property": "C35",
   "status": "partial",
   "theorems": [
    "C35_translate_partial",
    "C35_stuck",
    "C35_refuted"
   ],
   "note": "exact: translate fails (ValueError) only for caret with major 0, tilde and wildcard over a dev release of a post-release (C35_stuck); elsewhere it never fails and agrees with matches"
  },
  {
   "property": "C36",
   "status": "partial",
   "theorems": [
    "C36_exact",
    "C36_prefix_partial",
    "C36_refuted",
    "C36_everything",
    "C36_complement"
   ],
   "note": "C36_exact gives the true meaning; C36_refuted: '== 1.3.*' accepts 1.4.0-alpha.1 and rejects 1.3.0-alpha.1; the complement clause holds in full"
  },
  {
   "property": "C37",
   "status": "partial",
   "theorems": [
    "C37_agree",
    "C37_total_partial",
    "C37_errors",
    "C37_refuted"
   ],
   "note": "soundness in full (C37_agree); '== 1 || > 1' recurses for ever (C37_refuted); returns whenever there is no '||' or all operators are half-open; C75 gives every failure exactly"
  },
  {
   "property": "C38",
   "status": "proved",
   "theorems": [
    "C38_set_to_specifier"
   ],
   "note": ""
  },
  {
   "property": "C39",
   "status": "proved",
   "theorems": [
    "C39_simplify",
    "C39_returns"
   ],
   "note": "whenever conversion returns (C39_returns); see C37 for when it does not"
  },
  {
   "property": "C40",
   "status": "partial",
   "theorems": [
    "C40_short_partial",
    "C40_long_partial",
    "C40_compound",
    "C40_candidate",
    "C40_exact",
    "C40_refuted"
   ],
   "note": "exact (C40_exact): of the parsed specifiers, single ones whose version is no candidate parse back from their long strings, and all others give ParseSpecificationError (C40_refuted); short strings of single specifiers always parse back; without their parentheses all short strings, and the long ones without candidates, parse back (C121)"
  },
  {
   "property": "C41",
   "status": "partial",
   "theorems": [
    "C41_short_partial",
    "C41_long_partial",
    "C41_short_exact",
    "C41_long_exact",
    "C41_empty_refuted",
    "C41_local_refuted"
   ],
   "note": "exact (C41_short_exact, C41_long_exact): the string of a canonical set parses back iff the set is not empty, no range has a bound with a local part (or the set excludes one version) and, for the long string, no bound is a candidate; C41_*_refuted show the failures"
  },
  {
   "property": "C42",
   "status": "proved",
   "theorems": [
    "C42_whitespace"
   ],
   "note": ""
  },
  {
   "property": "C43",
   "status": "proved",
   "theorems": [
    "C43_accepts",
    "C43_parses",
    "C43_structure",
    "C43_grammar"
   ],
   "note": ""
  },
  {
   "property": "C44",
   "status": "partial",
   "theorems": [
    "C44_lower_partial",
    "C44_errors",
    "C44_exact",
    "C44_set_errors",
    "C44_refuted"
   ],
   "note": "exact causes: ValueError comes only from capitals in a tag or a one-part version after '~=' (C44_errors); parse_version_set may also raise the errors of C37 (C44_set_errors); C75 says exactly when"
  },
  {
   "property": "C45",
   "status": "proved",
   "theorems": [
    "C45_parse_version",
    "C45_parse_specifier",
    "C45_version_set_to_specifier",
    "C45_specifier_to_version_set",
    "C45_parse_version_set",
    "C45_parse_errors",
    "C45_all_calls",
    "C45_same_set",
    "C45_same_parsed_set",
    "C45_conversion",
    "C45_parsed",
    "C45_back",
    "C45_simplify",
    "C45_operator",
    "C45_history_matters",
    "C45_conversion_matters",
    "C45_spelling_matters"
   ],
   "note": "the original claim of full transparency is false (C45_history_matters: '*' then '0.*'); the exact dependence on history is proved"
  },
  {
   "property": "C46",
   "status": "partial",
   "theorems": [
    "C46_depth_irrelevant",
    "C46_any_depth",
    "C46_terminates_partial",
    "C46_union_refuted"
   ],
   "note": "union recurses for ever on clashing arguments; everything else terminates"
  },
  {
   "property": "C47",
   "status": "partial",
   "theorems": [
    "C47_operators_partial",
    "C47_refuted",
    "C47_unions"
   ],
   "note": "operators agree for every set but unions, which have none of them (C47_unions); ~ is never defined"
  },
  {
   "property": "C48",
   "status": "proved",
   "theorems": [
    "C48_specifiers",
    "C48_sets",
    "C48_membership",
    "C48_conversions"
   ],
   "note": ""
  },
  {
   "property": "C49",
   "status": "proved",
   "theorems": [
    "C49_specifiers",
    "C49_sets",
    "C49_matches"
   ],
   "note": ""
  },
  {
   "property": "C50",
   "status": "partial",
   "theorems": [
    "C50_operator_exact",
    "C50_equal_specifiers_partial",
    "C50_equal_sets_partial",
    "C50_refuted"
   ],
   "note": "C50_refuted: '^0' == '^0.0.0' but they differ on 0.1; exact for operators (C50_operator_exact: equal operators agree iff as precise); trees agree when all their operators do"
  },
  {
   "property": "C51",
   "status": "proved",
   "theorems": [
    "C51_union",
    "C51_merge"
   ],
   "note": ""
  },
  {
   "property": "C52",
   "status": "proved",
   "theorems": [
    "C52_difference"
   ],
   "note": ""
  },
  {
   "property": "C53",
   "status": "proved",
   "theorems": [
    "C53_symmetric_difference",
    "C53_clash"
   ],
   "note": ""
  },
  {
   "property": "C54",
   "status": "proved",
   "theorems": [
    "C54_union",
    "C54_intersection",
    "C54_difference",
    "C54_symmetric_difference",
    "C54_complement",
    "C54_merge"
   ],
   "note": ""
  },
  {
   "property": "C55",
   "status": "proved",
   "theorems": [
    "C55_union",
    "C55_intersection",
    "C55_difference",
    "C55_symmetric_difference",
    "C55_complement",
    "C55_contains",
    "C55_to_specifier"
   ],
   "note": ""
  },
  {
   "property": "C56",
   "status": "proved",
   "theorems": [
    "C56_conversion_bounds",
    "C56_specifier_leaves",
    "C56_parsed_leaves"
   ],
   "note": ""
  },
  {
   "property": "C57",
   "status": "proved",
   "theorems": [
    "C57_normal_form",
    "C57_parsed",
    "C57_shape",
    "C57_writable_refuted"
   ],
   "note": "proved for versions with integer or word local segments; C57_writable_refuted shows that agreeing only on versions that can be written is not enough ('<0.dev0' and '<1,>1')"
  },
  {
   "property": "C58",
   "status": "proved",
   "theorems": [
    "C58_operators",
    "C58_order",
    "C58_infinities",
    "C58_others"
   ],
   "note": ""
  },
  {
   "property": "C59",
   "status": "proved",
   "theorems": [
    "C59_segments",
    "C59_release",
    "C59_tags",
    "C59_tags_apart",
    "C59_local"
   ],
   "note": ""
  },
  {
   "property": "C60",
   "status": "proved",
   "theorems": [
    "C60_order"
   ],
   "note": ""
  },
  {
   "property": "C61",
   "status": "proved",
   "theorems": [
    "C61_main"
   ],
   "note": ""
  },
  {
   "property": "C62",
   "status": "proved",
   "theorems": [
    "C62_repr",
    "C62_string",
    "C62_names"
   ],
   "note": ""
  },
  {
   "property": "C63",
   "status": "proved",
   "theorems": [
    "C63_reading",
    "C63_extra",
    "C63_has",
    "C63_get_unchecked",
    "C63_set_unchecked",
    "C63_negative",
    "C63_slice",
    "C63_determine"
   ],
   "note": ""
  },
  {
   "property": "C64",
   "status": "proved",
   "theorems": [
    "C64_tags",
    "C64_tags_valid",
    "C64_tag_updates",
    "C64_versions",
    "C64_again",
    "C64_valid"
   ],
   "note": ""
  },
  {
   "property": "C65",
   "status": "proved",
   "theorems": [
    "C65_weaken",
    "C65_lowers",
    "C65_laws"
   ],
   "note": ""
  },
  {
   "property": "C66",
   "status": "proved",
   "theorems": [
    "C66_tags",
    "C66_tags_exact",
    "C66_releases",
    "C66_locals",
    "C66_epochs"
   ],
   "note": ""
  },
  {
   "property": "C67",
   "status": "proved",
   "theorems": [
    "C67_objects",
    "C67_hashable",
    "C67_apart",
    "C67_sets",
    "C67_specifiers",
    "C67_specifiers_exact",
    "C67_specifiers_differ"
   ],
   "note": "= and == are equal types with different hashes (C67_specifiers_differ)"
  },
  {
   "property": "C68",
   "status": "proved",
   "theorems": [
    "C68_is_lower",
    "C68_is_higher",
    "C68_is_strictly_lower",
    "C68_is_strictly_higher",
    "C68_three_ways",
    "C68_is_left_adjacent",
    "C68_is_adjacent",
    "C68_written"
   ],
   "note": ""
  },
  {
   "property": "C69",
   "status": "proved",
   "theorems": [
    "C69_single",
    "C69_union",
    "C69_gapless",
    "C69_exclude_version"
   ],
   "note": ""
  },
  {
   "property": "C70",
   "status": "proved",
   "theorems": [
    "C70_equal_operators",
    "C70_translate",
    "C70_equivalence"
   ],
   "note": ""
  },
  {
   "property": "C71",
   "status": "proved",
   "theorems": [
    "C71_next_at",
    "C71_round",
    "C71_monotone",
    "C71_order_lost",
    "C71_next_dev",
    "C71_next_post",
    "C71_next_pre"
   ],
   "note": "1.5 gives 2.0 but 1.6-alpha.1 gives 1.6 (C71_order_lost)"
  },
  {
   "property": "C72",
   "status": "proved",
   "theorems": [
    "C72_or_parses",
    "C72_or_accepts",
    "C72_single_refuted",
    "C72_and_parses",
    "C72_and_accepts",
    "C72_or_sets",
    "C72_and_sets"
   ],
   "note": "complete for '||' and ','; for a single pipe one direction (C72_or_accepts), the other is false (C72_single_refuted)"
  },
  {
   "property": "C73",
   "status": "partial",
   "theorems": [
    "C73_strings_partial",
    "C73_short_strings_partial",
    "C73_total",
    "C73_empty",
    "C73_refuted"
   ],
   "note": "exact: holds of all sets but the empty one, which is written '0' like the version 0 (C73_empty, C73_refuted)"
  },
  {
   "property": "C74",
   "status": "proved",
   "theorems": [
    "C74_strings",
    "C74_short_strings",
    "C74_writable",
    "C74_parsed",
    "C74_wildcards_lose"
   ],
   "note": "the forgotten number may change the meaning: '= 1.*' is the string of two specifiers that accept different versions (C74_wildcards_lose)"
  },
  {
   "property": "C75",
   "status": "proved",
   "theorems": [
    "C75_one",
    "C75_all",
    "C75_any",
    "C75_simplify",
    "C75_or_string",
    "C75_or_union",
    "C75_and_intersection"
   ],
   "note": ""
  },
  {
   "property": "C76",
   "status": "proved",
   "theorems": [
    "C76_total",
    "C76_names"
   ],
   "note": ""
  },
  {
   "property": "C77",
   "status": "proved",
   "theorems": [
    "C77_sets",
    "C77_specifiers",
    "C77_specifications"
   ],
   "note": ""
  },
  {
   "property": "C78",
   "status": "proved",
   "theorems": [
    "C78_methods",
    "C78_all",
    "C78_kinds",
    "C78_lookup",
    "C78_predicates",
    "C78_predicate_answers",
    "C78_matches",
    "C78_translate"
   ],
   "note": ""
  },
  {
   "property": "C79",
   "status": "proved",
   "theorems": [
    "C79_closed",
    "C79_bounded",
    "C79_single",
    "C79_point"
   ],
   "note": ""
  },
  {
   "property": "C80",
   "status": "partial",
   "theorems": [
    "C80_compute",
    "C80_prepare",
    "C80_steps",
    "C80_bound",
    "C80_again_refuted"
   ],
   "note": "Everything but the last sentence is proved; the last is refuted (C80_again_refuted): a step after the end may append an item again."
  },
  {
   "property": "C81",
   "status": "partial",
   "theorems": [
    "C81_usual_partial",
    "C81_normalized",
    "C81_phase_refuted",
    "C81_local_refuted",
    "C81_crossed",
    "C81_agrees"
   ],
   "note": "Exact (C81_agrees, C81_crossed): two versions compare as PEP 440 says unless a name of rc or post, or the spelling of a local part, decides against it. So it holds of versions spelled alpha, beta, rc, post with no capitals in the local part (C81_usual_partial) and of all normalized ones with small local letters (C81_normalized). Refuted in general: 1.0c2 < 1.0rc1 and 1.0+B < 1.0+a in the code."
  },
  {
   "property": "C82",
   "status": "partial",
   "theorems": [
    "C82_strings_partial",
    "C82_parse",
    "C82_refuted"
   ],
   "note": "Exact: the string is canonical iff the local part has no capital letter (C82_strings_partial); the second sentence is proved in full (C82_parse). C82_refuted: 1.0+Ubuntu keeps its capital."
  },
  {
   "property": "C83",
   "status": "proved",
   "theorems": [
    "C83_union",
    "C83_merge",
    "C83_intersection",
    "C83_difference",
    "C83_complement"
   ],
   "note": ""
  },
  {
   "property": "C84",
   "status": "proved",
   "theorems": [
    "C84_shortest"
   ],
   "note": ""
  },
  {
   "property": "C85",
   "status": "proved",
   "theorems": [
    "C85_count",
    "C85_simplify",
    "C85_parsed"
   ],
   "note": ""
  },
  {
   "property": "C86",
   "status": "proved",
   "theorems": [
    "C86_epoch",
    "C86_release",
    "C86_local",
    "C86_local_fails",
    "C86_errors"
   ],
   "note": ""
  },
  {
   "property": "C87",
   "status": "proved",
   "theorems": [
    "C87_epoch",
    "C87_release",
    "C87_local",
    "C87_simple"
   ],
   "note": ""
  },
  {
   "property": "C88",
   "status": "proved",
   "theorems": [
    "C88_pad",
    "C88_pad_index",
    "C88_pad_next",
    "C88_compare",
    "C88_next_at",
    "C88_defaults"
   ],
   "note": ""
  },
  {
   "property": "C89",
   "status": "proved",
   "theorems": [
    "C89_exact",
    "C89_specifiers",
    "C89_released",
    "C89_differs_local",
    "C89_differs_less",
    "C89_differs_greater",
    "C89_differs_wildcard",
    "C89_differs_compatible"
   ],
   "note": ""
  },
  {
   "property": "C90",
   "status": "proved",
   "theorems": [
    "C90_unlimited",
    "C90_limited",
    "C90_versions",
    "C90_specifications",
    "C90_sets",
    "C90_sets_read",
    "C90_unaffected",
    "C90_strings",
    "C90_strings_unlimited",
    "C90_specifier_strings",
    "C90_round_trip",
    "C90_next"
   ],
   "note": ""
  },
  {
   "property": "C91",
   "status": "proved",
   "theorems": [
    "C91_raises",
    "C91_equal",
    "C91_parsed_apart",
    "C91_parsed_alike",
    "C91_same_specifier",
    "C91_same_set",
    "C91_same_range",
    "C91_range",
    "C91_operators",
    "C91_blind",
    "C91_specifications",
    "C91_sets",
    "C91_agree",
    "C91_one_answers",
    "C91_specifiers_apart"
   ],
   "note": ""
  },
  {
   "property": "C92",
   "status": "proved",
   "theorems": [
    "C92_value_error",
    "C92_digit_limit",
    "C92_parse_error",
    "C92_specifier_parse_error",
    "C92_sets",
    "C92_not_internal",
    "C92_clauses"
   ],
   "note": ""
  },
  {
   "property": "C93",
   "status": "proved",
   "theorems": [
    "C93_equality",
    "C93_equivalence",
    "C93_classes",
    "C93_comparable",
    "C93_order",
    "C93_incomparable",
    "C93_mirrored"
   ],
   "note": ""
  },
  {
   "property": "C94",
   "status": "proved",
   "theorems": [
    "C94_version",
    "C94_refused",
    "C94_public",
    "C94_tag",
    "C94_tag_refused",
    "C94_patterns",
    "C94_groups"
   ],
   "note": ""
  },
  {
   "property": "C95",
   "status": "proved",
   "theorems": [
    "C95_order",
    "C95_caret",
    "C95_tilde",
    "C95_equal",
    "C95_wildcard",
    "C95_wildcard_version",
    "C95_operator_captured",
    "C95_version_captured"
   ],
   "note": ""
  },
  {
   "property": "C96",
   "status": "proved",
   "theorems": [
    "C96_same_answer",
    "C96_patterns",
    "C96_version",
    "C96_clause",
    "C96_specification",
    "C96_not_all"
   ],
   "note": ""
  },
  {
   "property": "C97",
   "status": "proved",
   "theorems": [
    "C97_sort",
    "C97_merge",
    "C97_includes",
    "C97_intersects",
    "C97_intersection",
    "C97_ends",
    "C97_flatten",
    "C97_padding",
    "C97_counting",
    "C97_split",
    "C97_separators",
    "C97_releases",
    "C97_locals",
    "C97_unions",
    "C97_negation"
   ],
   "note": ""
  },
  {
   "property": "C98",
   "status": "proved",
   "theorems": [
    "C98_matched",
    "C98_accepted",
    "C98_refused",
    "C98_sound",
    "C98_characters",
    "C98_untidy"
   ],
   "note": ""
  },
  {
   "property": "C99",
   "status": "proved",
   "theorems": [
    "C99_tests",
    "C99_operations",
    "C99_canonical",
    "C99_epochs",
    "C99_respelled",
    "C99_class_tests",
    "C99_class_made",
    "C99_class_operations",
    "C99_class_conversions",
    "C99_class_groups",
    "C99_parsed",
    "C99_typed"
   ],
   "note": ""
  },
  {
   "property": "C100",
   "status": "proved",
   "theorems": [
    "C100_equal",
    "C100_union",
    "C100_intersection",
    "C100_difference",
    "C100_symmetric_difference",
    "C100_includes",
    "C100_intersects",
    "C100_classless",
    "C100_parsed"
   ],
   "note": ""
  },
  {
   "property": "C101",
   "status": "proved",
   "theorems": [
    "C101_separate",
    "C101_others",
    "C101_transparent",
    "C101_parse_version",
    "C101_parse_specifier",
    "C101_to_version_set",
    "C101_parse_version_set",
    "C101_parse_errors",
    "C101_class",
    "C101_parsed_class"
   ],
   "note": ""
  },
  {
   "property": "C102",
   "status": "proved",
   "theorems": [
    "C102_set",
    "C102_next",
    "C102_next_from_end",
    "C102_version_from_end",
    "C102_next_phase",
    "C102_next_phase_default",
    "C102_versions",
    "C102_parts"
   ],
   "note": ""
  },
  {
   "property": "C103",
   "status": "proved",
   "theorems": [
    "C103_constructors",
    "C103_total",
    "C103_any",
    "C103_all",
    "C103_order",
    "C103_nesting",
    "C103_distribute"
   ],
   "note": ""
  },
  {
   "property": "C104",
   "status": "proved",
   "theorems": [
    "C104_versioned",
    "C104_version",
    "C104_text",
    "C104_errors",
    "C104_untyped"
   ],
   "note": ""
  },
  {
   "property": "C105",
   "status": "proved",
   "theorems": [
    "C105_sets",
    "C105_versions",
    "C105_empty",
    "C105_point",
    "C105_range",
    "C105_union",
    "C105_of",
    "C105_contains",
    "C105_operators",
    "C105_convert",
    "C105_accepts_version",
    "C105_matches",
    "C105_accepts"
   ],
   "note": ""
  },
  {
   "property": "C106",
   "status": "proved",
   "theorems": [
    "C106_nested",
    "C106_places",
    "C106_compatible",
    "C106_up",
    "C106_down",
    "C106_convex",
    "C106_gap",
    "C106_all"
   ],
   "note": ""
  },
  {
   "property": "C107",
   "status": "proved",
   "theorems": [
    "C107_intersection",
    "C107_union",
    "C107_difference",
    "C107_complement",
    "C107_includes_sound",
    "C107_includes",
    "C107_intersects_complete",
    "C107_intersects",
    "C107_empty"
   ],
   "note": ""
  },
  {
   "property": "C108",
   "status": "proved",
   "theorems": [
    "C108_contains",
    "C108_merge",
    "C108_merge_sound",
    "C108_merge_made",
    "C108_includes_sound",
    "C108_intersects_sound",
    "C108_intersection_sound",
    "C108_item_intersects",
    "C108_range_includes"
   ],
   "note": ""
  },
  {
   "property": "C109",
   "status": "proved",
   "theorems": [
    "C109_sequences",
    "C109_strings",
    "C109_lookup",
    "C109_comprehension",
    "C109_get",
    "C109_set",
    "C109_slices",
    "C109_int",
    "C109_str",
    "C109_isdigit",
    "C109_split",
    "C109_strip",
    "C109_strip_chars",
    "C109_words",
    "C109_replace"
   ],
   "note": ""
  },
  {
   "property": "C110",
   "status": "proved",
   "theorems": [
    "C110_same",
    "C110_tag",
    "C110_version",
    "C110_specifier",
    "C110_unique"
   ],
   "note": ""
  },
  {
   "property": "C111",
   "status": "proved",
   "theorems": [
    "C111_merge",
    "C111_union",
    "C111_intersection",
    "C111_difference",
    "C111_complement",
    "C111_symmetric_difference",
    "C111_specifier",
    "C111_nonempty_complement",
    "C111_nonempty_specifier"
   ],
   "note": ""
  },
  {
   "property": "C112",
   "status": "proved",
   "theorems": [
    "C112_same",
    "C112_range",
    "C112_version",
    "C112_union",
    "C112_groups",
    "C112_segments",
    "C112_tag",
    "C112_operator",
    "C112_prepare"
   ],
   "note": ""
  },
  {
   "property": "C113",
   "status": "proved",
   "theorems": [
    "C113_contains",
    "C113_equal",
    "C113_includes",
    "C113_intersects",
    "C113_compare",
    "C113_items",
    "C113_range",
    "C113_merge",
    "C113_union",
    "C113_intersection",
    "C113_difference",
    "C113_complement",
    "C113_symmetric_difference",
    "C113_specifier",
    "C113_version_set",
    "C113_simplify",
    "C113_matches",
    "C113_accepts",
    "C113_first"
   ],
   "note": ""
  },
  {
   "property": "C114",
   "status": "proved",
   "theorems": [
    "C114_bounds",
    "C114_simplify",
    "C114_parsed",
    "C114_shortest"
   ],
   "note": ""
  },
  {
   "property": "C115",
   "status": "proved",
   "theorems": [
    "C115_objects",
    "C115_parsed",
    "C115_texts",
    "C115_lowest"
   ],
   "note": ""
  },
  {
   "property": "C116",
   "status": "proved",
   "theorems": [
    "C116_between",
    "C116_endless",
    "C116_first",
    "C116_following",
    "C116_previous",
    "C116_gap"
   ],
   "note": ""
  },
  {
   "property": "C117",
   "status": "proved",
   "theorems": [
    "C117_strings",
    "C117_semantic",
    "C117_reading",
    "C117_precedence",
    "C117_otherwise",
    "C117_merged"
   ],
   "note": ""
  },
  {
   "property": "C118",
   "status": "proved",
   "theorems": [
    "C118_carried",
    "C118_caret",
    "C118_tilde",
    "C118_tilde_equal",
    "C118_caret_groups",
    "C118_tilde_groups",
    "C118_tilde_equal_groups"
   ],
   "note": ""
  },
  {
   "property": "C119",
   "status": "proved",
   "theorems": [
    "C119_alone",
    "C119_single",
    "C119_order",
    "C119_no_waiting",
    "C119_parse_version",
    "C119_parse_specifier",
    "C119_to_version_set",
    "C119_parse_set",
    "C119_parse_set_error",
    "C119_agree",
    "C119_both_miss"
   ],
   "note": ""
  },
  {
   "property": "C120",
   "status": "proved",
   "theorems": [
    "C120_read",
    "C120_dev",
    "C120_post",
    "C120_local",
    "C120_pre",
    "C120_unstable",
    "C120_stable",
    "C120_release",
    "C120_equal"
   ],
   "note": ""
  },
  {
   "property": "C121",
   "status": "proved",
   "theorems": [
    "C121_short",
    "C121_long",
    "C121_inj"
   ],
   "note": ""
  },
  {
   "property": "C122",
   "status": "proved",
   "theorems": [
    "C122_image",
    "C122_height",
    "C122_sets",
    "C122_simplify"
   ],
   "note": ""
  },
  {
   "property": "C123",
   "status": "proved",
   "theorems": [
    "C123_which",
    "C123_unique",
    "C123_shorter",
    "C123_covered",
    "C123_operators"
   ],
   "note": ""
  },
  {
   "property": "C124",
   "status": "proved",
   "theorems": [
    "C124_release",
    "C124_tags",
    "C124_semantic"
   ],
   "note": ""
  },
  {
   "property": "C125",
   "status": "proved",
   "theorems": [
    "C125_widened",
    "C125_accepts",
    "C125_parses",
    "C125_sets",
    "C125_commas"
   ],
   "note": ""
  },
  {
   "property": "C126",
   "status": "proved",
   "theorems": [
    "C126_local",
    "C126_contains",
    "C126_probes",
    "C126_none",
    "C126_sets"
   ],
   "note": ""
  },
  {
   "property": "C127",
   "status": "proved",
   "theorems": [
    "C127_accepts",
    "C127_converts",
    "C127_specifier",
    "C127_simplify",
    "C127_bumps"
   ],
   "note": ""
  },
  {
   "property": "C128",
   "status": "proved",
   "theorems": [
    "C128_operators",
    "C128_away",
    "C128_plain",
    "C128_alike"
   ],
   "note": ""
  },
  {
   "property": "C129",
   "status": "proved",
   "theorems": [
    "C129_around",
    "C129_early",
    "C129_late",
    "C129_away",
    "C129_ends"
   ],
   "note": ""
  },
  {
   "property": "C130",
   "status": "proved",
   "theorems": [
    "C130_accepts",
    "C130_converts",
    "C130_specifier",
    "C130_simplify",
    "C130_shift"
   ],
   "note": ""
  }
 ]
}