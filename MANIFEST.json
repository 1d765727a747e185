{
 "claims": [
  {
   "property": "C01",
   "status": "proved",
   "theorems": [
    "C01_percent_round_trip",
    "C01_transformations_round_trip",
    "C01_every_string_encodable"
   ],
   "note": "All byte strings, all hex-case choices; also every string has an encoding."
  },
  {
   "property": "C02",
   "status": "proved",
   "theorems": [
    "C02_index_checks",
    "C02_no_index_panic",
    "C02_urldecode_grammar",
    "C02_transformations",
    "C02_output_not_longer",
    "C02_plain_text_unchanged",
    "C02_variants_agree",
    "C02_error_count_bounded"
   ],
   "note": "Exact two-way agreement with an inductive grammar plus length, identity, agreement and error-count corollaries. The loop with the indexes and shifts of the source returns the same on every input and never indexes out of range (C02_no_index_panic). C02_index_checks: the index, slice and assignment checks used there panic exactly out of range."
  },
  {
   "property": "C03",
   "status": "proved",
   "theorems": [
    "C03_lowercase_ascii",
    "C03_lowercase_no_upper"
   ],
   "note": "No-upper-case part assumes the Unicode table never lower-cases a non-ASCII rune to A-Z."
  },
  {
   "property": "C04",
   "status": "proved",
   "theorems": [
    "C04_remove_replace_utf8",
    "C04_remove_replace_any"
   ],
   "note": "Valid UTF-8 and arbitrary byte strings are separate theorems, as in the statement; Go >= 1.12 strings.Map (an invalid byte becomes U+FFFD) is assumed."
  },
  {
   "property": "C05",
   "status": "proved",
   "theorems": [
    "C05_compress_any",
    "C05_compress_utf8",
    "C05_compress_keeps_the_rest"
   ],
   "note": "For arbitrary bytes no two adjacent spaces and idempotence; for valid UTF-8 the exact squeezing relation of SpecText."
  },
  {
   "property": "C06",
   "status": "partial",
   "theorems": [
    "C06_whitespace_refuted",
    "C06_whitespace_partial"
   ],
   "note": "False of the code: only U+0020 is treated. Refutation plus exact statement of what is kept."
  },
  {
   "property": "C07",
   "status": "proved",
   "theorems": [
    "C07_any_transformations_left_to_right",
    "C07_transforms_left_to_right",
    "C07_transforms_compose"
   ],
   "note": "States the values the operator sees, as an iff with the fetched raw values in order. The theorems named _any_ say the same of rules built from a caller's own variables, transformations, operators and actions."
  },
  {
   "property": "C08",
   "status": "partial",
   "theorems": [
    "C08_none_resets_refuted",
    "C08_none_resets_partial"
   ],
   "note": "False of the code: t:none is the identity. Refutation plus exact behaviour."
  },
  {
   "property": "C09",
   "status": "proved",
   "theorems": [
    "C09_compare_exact",
    "C09_decimal_text_qualifies"
   ],
   "note": "'Decimal text' is the relation SpecText.denotes, shown to include strconv's own output (C09_decimal_text_qualifies)."
  },
  {
   "property": "C10",
   "status": "proved",
   "theorems": [
    "C10_total_order",
    "C10_non_numeric_is_zero"
   ],
   "note": "All argument and input strings, numeric or not."
  },
  {
   "property": "C11",
   "status": "proved",
   "theorems": [
    "C11_constructor_domain"
   ],
   "note": "The literal grammar is SpecText.denotes after Unicode white space trimming, both directions."
  },
  {
   "property": "C12",
   "status": "partial",
   "theorems": [
    "C12_large_decimals_refuted",
    "C12_large_decimals_partial"
   ],
   "note": "False of the code: decimals outside int64 count as 0. Refutation plus exact characterisation."
  },
  {
   "property": "C13",
   "status": "proved",
   "theorems": [
    "C13_selectors",
    "C13_names_distinct",
    "C13_word_selectors"
   ],
   "note": "Any Include/Exclude sequence; map iteration order is an arbitrary permutation. For query strings and cookies the names are distinct. C13_word_selectors: selectors with the common kinds of patterns, in bytes."
  },
  {
   "property": "C14",
   "status": "partial",
   "theorems": [
    "C14_exactly_which_names_partial",
    "C14_selectors_union_refuted",
    "C14_selectors_union_partial"
   ],
   "note": "False of the code: ARGS:a|ARGS:/re/ inspects the intersection (witness). Partial: the union holds if all include selectors are exact or all are patterns. C14_exactly_which_names_partial: exactly which names of the union are left out."
  },
  {
   "property": "C15",
   "status": "proved",
   "theorems": [
    "C15_excluded_never_inspected",
    "C15_exclude_never_adds"
   ],
   "note": "Over arbitrary call sequences."
  },
  {
   "property": "C16",
   "status": "proved",
   "theorems": [
    "C16_args_of_any_request",
    "C16_args_is_get_then_post",
    "C16_args_names_is_get_then_post",
    "C16_count"
   ],
   "note": "Both directions of order: GET values first. The count is the shortest decimal text of the number of values (SpecText.decimal). C16_args_of_any_request: ARGS of a request with any query text, any urlencoded body and any selectors."
  },
  {
   "property": "C17",
   "status": "proved",
   "theorems": [
    "C17_any_query_is_read",
    "C17_form_encoding_is_read",
    "C17_any_query_values",
    "C17_any_query_names",
    "C17_query_values",
    "C17_query_names",
    "C17_query_one_name",
    "C17_every_list_encodable"
   ],
   "note": "Form encoding is an independent relation; pairs in any order, superfluous '&' allowed; every list of pairs is encodable. Query text of any other shape: C17_any_query_is_read (read in exactly one way, for both treatments of ';'), C17_any_query_values and _names (any selectors, values name by name)."
  },
  {
   "property": "C18",
   "status": "proved",
   "theorems": [
    "C18_no_index_panic",
    "C18_any_header_is_read",
    "C18_any_header_values",
    "C18_any_header_names",
    "C18_cookie_values",
    "C18_cookie_names"
   ],
   "note": "Header lines under the canonical key Cookie, several lines allowed. Header lines of any shape are covered: each is read in exactly one way (C18_any_header_is_read). The loops with their indexes, stores and slices return the same and never index out of range (C18_no_index_panic)."
  },
  {
   "property": "C19",
   "status": "proved",
   "theorems": [
    "C19_no_index_panic",
    "C19_basename"
   ],
   "note": "The last segment is an inductive relation shown to be functional. The index loops of the source return the same on every path (C19_no_index_panic)."
  },
  {
   "property": "C20",
   "status": "proved",
   "theorems": [
    "C20_media_types",
    "C20_request_body"
   ],
   "note": "Body built by any fault-free history of writes and reads; the three cases of the statement. C75 lifts it to whole transactions. C20_media_types: under the reading of mime.ParseMediaType in Media.v, which media type a Content-Type header gives: its name in lower case whatever the parameters, but nothing at all if a parameter is given twice with two values; the guard then fails and the body is not inspected."
  },
  {
   "property": "C21",
   "status": "partial",
   "theorems": [
    "C21_any_body_partial",
    "C21_any_body_names_partial",
    "C21_args_post_complete_refuted",
    "C21_args_post_complete_partial",
    "C21_args_post_complete_malformed_partial"
   ],
   "note": "False of the code: one malformed field hides the whole body at the first evaluation, the second sees the rest (witness). Partial: complete for bodies without malformed fields, and for every body once ARGS_POST was evaluated. C21_any_body_partial, C21_any_body_names_partial: exactly what is seen of any body, under any selectors, after any evaluations."
  },
  {
   "property": "C22",
   "status": "partial",
   "theorems": [
    "C22_no_panic_refuted",
    "C22_no_panic_partial",
    "C22_no_panic_without_form_error_partial"
   ],
   "note": "False of the code: ARGS_POST_NAMES after a failed multipart parse dereferences a nil form (witness). Partial: exact characterisation (iff) of when a fetch panics, and no panic if the multipart reader never fails."
  },
  {
   "property": "C23",
   "status": "partial",
   "theorems": [
    "C23_cache_reflects_body_refuted",
    "C23_parse_result_stable_partial",
    "C23_same_content_partial"
   ],
   "note": "False of the code: bytes appended after the first parse are never seen (witness). Partial: between appends the parse result and the ARGS_POST content are stable under any further evaluation."
  },
  {
   "property": "C24",
   "status": "proved",
   "theorems": [
    "C24_request_uri",
    "C24_fetch_leaves_request",
    "C24_uri_of_target",
    "C24_uri_decodes",
    "C24_uri_words_in_query",
    "C24_uri_url_decoded"
   ],
   "note": "url.String is an oracle, only its argument is constrained. C24_uri_of_target, C24_uri_decodes, C24_uri_words_in_query, C24_uri_url_decoded: under the reading of net/url in Uri.v, what REQUEST_URI shows of the target the client sent: the target itself if its path is a valid encoding, else the path written anew; so a word with a byte such as < never shows in the path part until t:urlDecode."
  },
  {
   "property": "C25",
   "status": "proved",
   "theorems": [
    "C25_any_match_has_a_value",
    "C25_any_looking_operator",
    "C25_any_match_exactly",
    "C25_match_iff_some_value_hits",
    "C25_match_answers",
    "C25_no_value_no_match"
   ],
   "note": "The abort case (a body too large while fetching) is included: then the rule does not match. The theorems named _any_ say the same of rules built from a caller's own variables, transformations, operators and actions. C25_any_match_exactly: with the caller's own parts, which may change the transaction, matching is exactly the calls of these parts in order, each on the state the one before left."
  },
  {
   "property": "C26",
   "status": "proved",
   "theorems": [
    "C26_map_order_irrelevant"
   ],
   "note": "Two runs with arbitrary, different map orders give equal states and observations; all other oracles shared."
  },
  {
   "property": "C27",
   "status": "partial",
   "theorems": [
    "C27_load_order_decides_panic_refuted",
    "C27_same_verdict_partial",
    "C27_load_order_refuted"
   ],
   "note": "False as stated: two loads may order the variables of a rule differently, and with a malformed body the first body variable sees nothing while the second reads the cache, so ARGS_POST|ARGS_POST_NAMES can pass or block the same request (C27_load_order_refuted). Proved: both loads succeed, and every history gives the same final state and observations if each rule names at most one body-reading variable, or if the history met no body error and no abort; all texts, engines, orders at load and at run time. C27_load_order_decides_panic_refuted: the order in which the map of variables is walked while loading may decide whether a request panics."
  },
  {
   "property": "C28",
   "status": "proved",
   "theorems": [
    "C28_any_chain_all_or_nothing",
    "C28_any_miss_runs_nothing",
    "C28_chain_all_or_nothing",
    "C28_miss_runs_nothing"
   ],
   "note": "Both directions; the order of actions is by group inside each rule (C29). The theorems named _any_ say the same of rules built from a caller's own variables, transformations, operators and actions."
  },
  {
   "property": "C29",
   "status": "proved",
   "theorems": [
    "C29_any_actions_grouped",
    "C29_actions_grouped",
    "C29_grouping_exists_unique"
   ],
   "note": "Grouping is an independent relation that exists and is unique. The theorems named _any_ say the same of rules built from a caller's own variables, transformations, operators and actions. A caller's action whose group lies outside the five panics before any action of the list has run."
  },
  {
   "property": "C30",
   "status": "proved",
   "theorems": [
    "C30_phases_never_go_back",
    "C30_phase_runs_once",
    "C30_needs_hypothesis",
    "C30_past_rules_do_not_matter",
    "C30_programs_past_rules",
    "C30_late_rules_not_run",
    "C30_late_text_not_run",
    "C30_any_past_phase_is_not_run"
   ],
   "note": "C30_needs_hypothesis shows that allow:request in a late phase does go back. The theorems named _any_ say the same of rules built from a caller's own variables, transformations, operators and actions. Over whole programs (World.v): rules or texts added while a transaction is under way, for phases it has reached, never change its answers (C30_late_rules_not_run, C30_late_text_not_run; both runs are taken to return, and allow:request, which leads back to phase 4, is excluded from phase 4 on)."
  },
  {
   "property": "C31",
   "status": "partial",
   "theorems": [
    "C31_rules_in_order_partial",
    "C31_every_rule_evaluated_partial",
    "C31_rules_in_order_refuted",
    "C31_any_rules_in_order",
    "C31_own_rules_are_such_rules"
   ],
   "note": "False without restriction: allow:phase of the last phase restarts it (witness, indexes 0, 0). Partial: order, skip and stopping for rule sets whose actions only lead forward; all rules evaluated without skip. The theorems named _any_ say the same of rules built from a caller's own variables, transformations, operators and actions. C31_own_rules_are_such_rules: the repository's own rules are an instance, call for call."
  },
  {
   "property": "C32",
   "status": "partial",
   "theorems": [
    "C32_program_hangs_exactly",
    "C32_text_hangs_exactly",
    "C32_rule_twice_never_returns",
    "C32_timeout_evaluates_twice",
    "C32_answered_iff_no_rule_twice",
    "C32_no_way_back_terminates_partial",
    "C32_way_back_never_returns",
    "C32_phases_terminate_partial",
    "C32_histories_terminate_partial",
    "C32_phases_terminate_refuted",
    "C32_default_block_never_ends",
    "C32_any_phase_ends",
    "C32_steps_for_ever",
    "C32_fuel_is_time",
    "C32_depth",
    "C32_depth_unbounded",
    "C32_hangs_exactly",
    "C32_exchange_hangs_exactly"
   ],
   "note": "False of the code: allow:phase in the logging phase loops, block among the defaults recurses (both proved for every fuel). Partial: termination with an explicit bound otherwise, given the multipart reader ends. Exact: over settled data a call is answered iff it evaluates no rule twice (C32_answered_iff_no_rule_twice); no rule is evaluated twice if no chain's allow actions lead back to their own phase (C32_no_way_back_terminates_partial), and a chain that fires and leads back never returns (C32_way_back_never_returns). The theorems named _any_ say the same of rules built from a caller's own variables, transformations, operators and actions. C32_text_hangs_exactly: for an engine loaded from a text without body variables, a history never comes to an end exactly if the text spells out no answers for it. Exact, without hypotheses: C32_hangs_exactly, a history never ends iff that account has neither answers nor a breakdown. C32_program_hangs_exactly: the programs that hang. C32_fuel_is_time, C32_steps_for_ever: the functions with fuel say the same as small steps without; C32_depth, C32_depth_unbounded: at most five calls deep, unless a block among the default actions is run, and then without bound. C32_exchange_hangs_exactly: the calls of an exchange hang exactly if the text leaves it without a course."
  },
  {
   "property": "C33",
   "status": "partial",
   "theorems": [
    "C33_deny_partial",
    "C33_single_rule_partial",
    "C33_standing_denial_kept",
    "C33_deny_refuted"
   ],
   "note": "False of the code: a standing denial keeps its status though a later rule sets another (witness). Partial: the exact status if no denial stands; a standing denial is kept unless pass."
  },
  {
   "property": "C34",
   "status": "proved",
   "theorems": [
    "C34_result_one_shot",
    "C34_result_changes_only_the_intervention"
   ],
   "note": "Any state; abort state included."
  },
  {
   "property": "C35",
   "status": "proved",
   "theorems": [
    "C35_any_abort_is_final",
    "C35_abort_is_final",
    "C35_aborted_is_disruptive"
   ],
   "note": "All later call sequences without a further AbortWithStatus. The theorems named _any_ say the same of rules built from a caller's own variables, transformations, operators and actions."
  },
  {
   "property": "C36",
   "status": "partial",
   "theorems": [
    "C36_disruptive_rule_is_last_partial",
    "C36_later_phase_partial",
    "C36_nothing_runs_after_denial_refuted"
   ],
   "note": "False of the code: the first rule of each later phase still runs and may erase the denial (witness). Partial: nothing more in the same phase, exactly the first rule in a later one."
  },
  {
   "property": "C37",
   "status": "partial",
   "theorems": [
    "C37_allow_partial",
    "C37_allow_refuted"
   ],
   "note": "False of the code: each allow form also skips the next phase or the logging phase (three witnesses). Partial: exactly which later calls do nothing."
  },
  {
   "property": "C38",
   "status": "partial",
   "theorems": [
    "C38_mode_is_not_consulted_partial",
    "C38_engine_mode_refuted"
   ],
   "note": "False of the code: the mode is read nowhere (proved for all runs) so Off and DetectionOnly still deny (witness)."
  },
  {
   "property": "C39",
   "status": "partial",
   "theorems": [
    "C39_valid_status_partial",
    "C39_valid_status_refuted",
    "C39_where_statuses_come_from"
   ],
   "note": "False of the code for AbortWithStatus with an arbitrary code (witness). Partial: valid unless it came from such a call. Also where each status comes from: 403, a status action of the rules, 413/500 of an aborted transaction, or the caller."
  },
  {
   "property": "C40",
   "status": "partial",
   "theorems": [
    "C40_own_status_partial",
    "C40_status_is_local_refuted"
   ],
   "note": "False of the code: a status set by an earlier rule is used by a later deny (witness). Partial: a rule with its own status uses it whatever came before."
  },
  {
   "property": "C41",
   "status": "proved",
   "theorems": [
    "C41_every_program",
    "C41_every_program_settles",
    "C41_programs_without_sharing",
    "C41_programs_from_nothing",
    "C41_sharing_limits_is_no_channel",
    "C41_other_transactions_do_not_matter",
    "C41_program_returns",
    "C41_answers_of_own_calls",
    "C41_calls_of_a_program",
    "C41_every_answer_of_a_program",
    "C41_any_schedule",
    "C41_any_schedule_breaks",
    "C41_interleaved_answers",
    "C41_interleaved_finishes",
    "C41_sharing_data_does_not_matter",
    "C41_calls_leave_objects_alone",
    "C41_unwritten_data_are_values",
    "C41_transactions_are_independent",
    "C41_interleaving_returns"
   ],
   "note": "Transactions share only the engine and rule set, which no call writes; each API call is one atomic step of the interleaving. Over whole programs (World.v): engines, rule sets and texts may change between calls and any number of transactions be under way; leaving out all calls on the others changes neither the answers nor the state of a transaction (C41_other_transactions_do_not_matter), and its answers are those of its own calls, each under the settings and rules then in force (C41_answers_of_own_calls). C41_sharing_data_does_not_matter: also for transactions that were handed the same URL or header map, which the program keeps and may write into; C41_unwritten_data_are_values: objects that are not written into behave as values. C41_every_answer_of_a_program: every answer of a transaction is decided by the settings and rules in force at each of its calls, told from what the program had done before. C41_every_program, _settles: everything any program sees - engines, rule sets, texts and transactions made and changed in any order - is what the account of its operations and of its transactions says, and nothing else. C41_any_schedule, C41_any_schedule_breaks, C41_interleaved_answers, C41_interleaved_finishes: goroutines with a transaction each, their steps inside calls interleaved in any order: each is where it would be alone, has been answered what the chronicle of its own calls says, and gets done with turns enough, also if others hang. C41_sharing_limits_is_no_channel: also for engines that share one Limits (Shared.v); C41_programs_without_sharing: programs that share none are those of World.v."
  },
  {
   "property": "C42",
   "status": "proved",
   "theorems": [
    "C42_registration",
    "C42_processed_rules_are_registered"
   ],
   "note": "Also default actions accumulate in order."
  },
  {
   "property": "C43",
   "status": "proved",
   "theorems": [
    "C43_block_is_default_actions",
    "C43_block_in_place",
    "C43_block_without_defaults"
   ],
   "note": "Includes block in the middle of an action list."
  },
  {
   "property": "C44",
   "status": "proved",
   "theorems": [
    "C44_log_entries_attributed",
    "C44_phase_of_the_call"
   ],
   "note": "The phase number is the shortest decimal text; each call logs under the phase it entered."
  },
  {
   "property": "C45",
   "status": "proved",
   "theorems": [
    "C45_size_limit",
    "C45_write_rejected_iff_over_limit"
   ],
   "note": "All histories incl. reads and every fault pattern."
  },
  {
   "property": "C46",
   "status": "proved",
   "theorems": [
    "C46_in_memory_content"
   ],
   "note": "All histories and fault patterns whose accepted stream fits in memory."
  },
  {
   "property": "C47",
   "status": "proved",
   "theorems": [
    "C47_index_panic_exact",
    "C47_spilled_prefix"
   ],
   "note": "Any interleaving of reads. The slice of the spilling write is out of range exactly when its bound is negative (C47_index_panic_exact)."
  },
  {
   "property": "C48",
   "status": "partial",
   "theorems": [
    "C48_every_answer",
    "C48_always_answers",
    "C48_negative_memory_limit",
    "C48_spilled_content_refuted",
    "C48_spilled_content_partial"
   ],
   "note": "False of the code: the spilling write's in-memory part is stored twice. Refutation plus exact content for write-only histories. C48_every_answer: for any history of writes (also ones the disk fails), reads, seeks, WriteTo and String, the answers are exactly those of an account that says byte by byte which stored piece shows; C48_always_answers: with a memory limit of at least zero there always are answers; C48_negative_memory_limit: below zero, panics exactly if some write fits the size limit."
  },
  {
   "property": "C49",
   "status": "partial",
   "theorems": [
    "C49_reading_advances_refuted",
    "C49_reading_advances_partial",
    "C49_programs_see_only_the_beginning",
    "C49_reading_to_the_end_never_stops",
    "C49_multipart_requests_judged_by_their_beginning"
   ],
   "note": "False of the code: every Read restarts. Refutation plus exact behaviour. Consequences: a program reading k bytes at a time answers the same of all bodies that begin with the same k bytes, and one that reads until the end never stops; so two multipart requests whose bodies agree on the first k bytes get the same answers from every rule set (C49_multipart_requests_judged_by_their_beginning), k being how much the multipart reader asks for at a time (4096 in Go's library, taken as a hypothesis since that library is not modelled)."
  },
  {
   "property": "C50",
   "status": "partial",
   "theorems": [
    "C50_reading_to_the_end_partial",
    "C50_reads_writes_refuted",
    "C50_reads_writes_partial"
   ],
   "note": "False of the code after a spill. Refutation plus what is preserved (in-memory content, String, Len). C50_reading_to_the_end_partial: reading changes nothing if the whole body was read (WriteTo) between any other reading operation and the next write. Missing: it is false of other histories."
  },
  {
   "property": "C51",
   "status": "proved",
   "theorems": [
    "C51_response_body"
   ],
   "note": "Whole call sequences, arbitrary rules in between, any file-system faults."
  },
  {
   "property": "C52",
   "status": "proved",
   "theorems": [
    "C52_quoted_round_trip",
    "C52_arguments_exactly",
    "C52_fuel"
   ],
   "note": "Also the exact grammar of every argument the scanner accepts (SpecParse.argument), both directions."
  },
  {
   "property": "C53",
   "status": "partial",
   "theorems": [
    "C53_terminates_refuted",
    "C53_hangs_exactly",
    "C53_terminates_partial",
    "C53_no_panic",
    "C53_hanging_texts"
   ],
   "note": "False of the code: SkipBlank loops for ever on a backslash that is not followed by a line feed. Proved: exactly which texts hang (stuck_file), that all others are read with fuel linear in the length, and that nothing panics."
  },
  {
   "property": "C54",
   "status": "partial",
   "theorems": [
    "C54_pattern_as_written_refuted",
    "C54_pattern_as_written_partial",
    "C54_pattern_escaped"
   ],
   "note": "False of the code as stated: inside quotes the scanner treats backslashes as escapes and drops unknown ones. Proved for patterns without backslash, newline and the delimiting quote; and that every pattern arrives when written escaped."
  },
  {
   "property": "C55",
   "status": "proved",
   "theorems": [
    "C55_no_index_panic",
    "C55_variables_no_index_panic",
    "C55_variables",
    "C55_round_trip",
    "C55_splitter",
    "C55_always_answers",
    "C55_unknown_name"
   ],
   "note": "Reader and printer are related by an independent syntax relation; the splitter's byte conservation is separate. The splitter with its slice made beforehand, stores and slices, for any separators, and the reading of each variable never index out of range (C55_no_index_panic, C55_variables_no_index_panic)."
  },
  {
   "property": "C56",
   "status": "proved",
   "theorems": [
    "C56_no_index_panic",
    "C56_operators",
    "C56_named",
    "C56_pattern",
    "C56_unknown",
    "C56_empty"
   ],
   "note": "One theorem per form of the syntax plus the error cases. The reader with its indexes and slices returns the same on every text (C56_no_index_panic)."
  },
  {
   "property": "C57",
   "status": "proved",
   "theorems": [
    "C57_no_index_panic",
    "C57_actions",
    "C57_bad_item",
    "C57_unknown_action",
    "C57_bad_phase",
    "C57_bad_severity",
    "C57_bad_transformation",
    "C57_bad_id"
   ],
   "note": "One theorem per documented error besides the positive reading. The readers with their indexes and slices return the same on every text (C57_no_index_panic)."
  },
  {
   "property": "C58",
   "status": "partial",
   "theorems": [
    "C58_commas_refuted",
    "C58_never_a_comma",
    "C58_commas_partial"
   ],
   "note": "False of the code: the action list is split at every comma, quoted or not. Proved: no argument ever contains a comma, and any argument without one arrives unchanged."
  },
  {
   "property": "C59",
   "status": "proved",
   "theorems": [
    "C59_round_trip",
    "C59_only_these",
    "C59_files_exactly"
   ],
   "note": "Round trip from every expressible directive list, the set of expressible lists, and the exact grammar of files."
  },
  {
   "property": "C60",
   "status": "proved",
   "theorems": [
    "C60_directive_names",
    "C60_values",
    "C60_word_and_value",
    "C60_unknown_word",
    "C60_registrations",
    "C60_registered_words",
    "C60_library_values",
    "C60_word_with_bar",
    "C60_other_words_looser"
   ],
   "note": "ASCII case only, as the code uses strings.ToLower on registered ASCII names. C60_library_values: through regular expressions as the library reads them (Regex.v) the three flag words are read just so. C60_registrations, C60_registered_words: any other registered words; C60_word_with_bar, C60_other_words_looser: a word with a bar is not one of two words, and a word with k or s is also read in texts with the Kelvin sign or the long s."
  },
  {
   "property": "C61",
   "status": "partial",
   "theorems": [
    "C61_documented_phase_refuted",
    "C61_phase_of_rule_partial",
    "C61_run_by_number_partial",
    "C61_logging_runs_none_partial"
   ],
   "note": "False of the code: phase numbers of the text are used unshifted as engine phases, so a rule runs one call early (phase:1 at the connection, phase:5 at the response body) and none at logging. Proved: exactly which call runs which rules."
  },
  {
   "property": "C62",
   "status": "proved",
   "theorems": [
    "C62_chains",
    "C62_texts",
    "C62_nothing_lost",
    "C62_one_assembly"
   ],
   "note": "Chain grouping for every directive sequence (two-way), nothing lost or reordered, grouping unique."
  },
  {
   "property": "C63",
   "status": "partial",
   "theorems": [
    "C63_all_or_nothing_refuted",
    "C63_syntax_error_partial",
    "C63_leftover_partial",
    "C63_old_kept",
    "C63_no_set",
    "C63_set"
   ],
   "note": "False of the code when a directive parses but its factory fails: what precedes it stays in the set. Proved for syntax errors, with the exact leftover otherwise; NewDireSetFromSecLangString gives a set iff loading succeeds."
  },
  {
   "property": "C64",
   "status": "partial",
   "theorems": [
    "C64_loads_exactly",
    "C64_documented_load_refuted",
    "C64_documented_load_partial",
    "C64_every_other_name_partial"
   ],
   "note": "False of the code for XML, severity, logdata, setvar, capture and pass, which parse but never load. Proved: exactly which parsed files load, and that every combination of the other names does."
  },
  {
   "property": "C65",
   "status": "proved",
   "theorems": [
    "C65_execute",
    "C65_engines_have_limits",
    "C65_limits_seen_by_all_who_share",
    "C65_taking_limits",
    "C65_execute_in_a_program",
    "C65_settings_of_any_program"
   ],
   "note": "All directive lists and engines. C65_execute_in_a_program: the same when executed through pointers in a running program, with nothing else changed. C65_settings_of_any_program: the settings, rule sets and directive sets after any program, told from its operations alone. C65_limits_seen_by_all_who_share, C65_taking_limits: in programs whose engines may share one Limits, which engines see what a text or an assignment writes, after any operation."
  },
  {
   "property": "C66",
   "status": "proved",
   "theorems": [
    "C66_deny_blocks_exactly",
    "C66_regex_meaning",
    "C66_patterns_say",
    "C66_pattern_texts",
    "C66_word_rule_blocks",
    "C66_example_pattern",
    "C66_target_blocked"
   ],
   "note": "Any non-empty list of REMOTE_ADDR/REQUEST_METHOD/REQUEST_PROTOCOL/REQUEST_URI/REQUEST_FILENAME/REQUEST_BASENAME/QUERY_STRING (the request scalars), any transformations, any pattern without double quotes, backslashes and line ends, any id; also every later call of the API leaves the verdict. C66_regex_meaning, C66_patterns_say, C66_word_rule_blocks: under the reading of the regexp library in Regex.v, what patterns match; a rule with one of the common kinds of patterns blocks exactly the requests whose transformed value contains, begins with, ends with or is the word, or contains one of several, with or without (?i). C66_pattern_texts: the same for every pattern text of the fragment, with its meaning given by a grammar over texts (and the model reads no other texts); C66_example_pattern: exactly which texts the pattern of the repository's example rule (calls of sleep and benchmark) matches. C66_target_blocked: the same from the request target as text, for REQUEST_FILENAME rules, whatever percent encoding the client chose."
  },
  {
   "property": "C67",
   "status": "proved",
   "theorems": [
    "C67_same_string_slice"
   ],
   "note": "Iff with Permutation."
  },
  {
   "property": "C68",
   "status": "partial",
   "theorems": [
    "C68_shared_limits_at_creation",
    "C68_limits_are_those_of_creation",
    "C68_transactions_of_any_program",
    "C68_unusable_directory_refuted",
    "C68_fails_exactly_partial",
    "C68_directory_afterwards_partial",
    "C68_every_path_means_one_place",
    "C68_new_transaction",
    "C68_first_result"
   ],
   "note": "False of the code as to unusable directories: any existing path is accepted, also a regular file or a directory without write permission, and a body within its limits is then refused at the first spill (C68_unusable_directory_refuted). Partial, C68_fails_exactly_partial: on a file system with directory permissions, exactly when NewTransaction fails; C68_directory_afterwards_partial: what it leaves on disk and when buffers can spill. The rest of the statement is proved; C68_limits_are_those_of_creation: later changes of the engine's limits do not reach the transaction. C68_transactions_of_any_program: engine, rule set and limits of every transaction of any program. C68_every_path_means_one_place: path texts, told without the code's way of taking them apart; a failed NewTransaction makes no directory, and a successful one exactly the missing ones. C68_shared_limits_at_creation: the same when engines share limits."
  },
  {
   "property": "C69",
   "status": "proved",
   "theorems": [
    "C69_variables_as_written",
    "C69_same_variables",
    "C69_no_index_panic"
   ],
   "note": "One variable per name and count mark; order up to map iteration. A selector's test for slashes and the slice between them never index out of range (C69_no_index_panic)."
  },
  {
   "property": "C70",
   "status": "proved",
   "theorems": [
    "C70_rule_as_written"
   ],
   "note": "Phases as the parser stores them (see C61)."
  },
  {
   "property": "C71",
   "status": "proved",
   "theorems": [
    "C71_scalars_show_the_latest_call",
    "C71_value_determined",
    "C71_scalars_show_present_contents",
    "C71_targets"
   ],
   "note": "Values at any point of evaluation (between calls, and while any rule of a phase reads its variables), independent description in SpecData shown to be functional. url.String and mime.ParseMediaType are oracles. C71_scalars_show_present_contents: if the program keeps the URL or map it handed over and writes into it later, rules evaluated after that see the present contents (C72_calls_see_present_contents: of the object handed over last); C72_later_writes_are_seen is a concrete case. The other theorems take what is handed over to be a value. C71_targets: under the reading of net/url in Uri.v, path and query of every request target."
  },
  {
   "property": "C72",
   "status": "proved",
   "theorems": [
    "C72_headers_show_the_latest_call",
    "C72_entries_determined",
    "C72_calls_see_present_contents",
    "C72_headers_show_present_contents",
    "C72_later_writes_are_seen"
   ],
   "note": "Independent description in SpecData, shown to be functional. C72_calls_see_present_contents, C72_headers_show_present_contents: if the program keeps the map it handed over and writes into it later, rules evaluated after that see the present contents of the map handed over last; C72_later_writes_are_seen is a concrete case. C72_headers_show_the_latest_call takes what is handed over to be a value."
  },
  {
   "property": "C73",
   "status": "partial",
   "theorems": [
    "C73_header_names_ignore_case_refuted",
    "C73_exact_name_partial"
   ],
   "note": "False of the code: selectors are compared byte by byte (witness user-agent / User-Agent). Partial: the exact name selects exactly that header's values."
  },
  {
   "property": "C74",
   "status": "partial",
   "theorems": [
    "C74_default_limits_refuted",
    "C74_default_engine_partial"
   ],
   "note": "False of the code: 134217728 is 128 MiB, 524228 is 60 less than 512 KiB. Partial: all fields of the default engine."
  },
  {
   "property": "C75",
   "status": "proved",
   "theorems": [
    "C75_request_body_of_the_calls",
    "C75_piece_refused"
   ],
   "note": "Any call sequence without file-system failures; points of evaluation as in C71. RESPONSE_BODY is C51."
  },
  {
   "property": "C76",
   "status": "proved",
   "theorems": [
    "C76_denied_iff_some_rule_matches"
   ],
   "note": "Rules that look at a body, skip, pass or allow are outside (C36, C37, C31 describe those)."
  },
  {
   "property": "C77",
   "status": "proved",
   "theorems": [
    "C77_blocked_iff_some_call_denied",
    "C77_order_of_rules_irrelevant",
    "C77_more_rules_block_more"
   ],
   "note": "Same rule sets as C76; calls before the first Result other than Result and AbortWithStatus."
  },
  {
   "property": "C78",
   "status": "partial",
   "theorems": [
    "C78_program_breaks_exactly",
    "C78_interleaved_breaks",
    "C78_loaded_engines_never_panic_partial",
    "C78_loaded_engines_never_panic_refuted",
    "C78_breaks_exactly",
    "C78_calls_never_panic_partial",
    "C78_calls_return_partial",
    "C78_calls_never_panic_refuted",
    "C78_settled_calls_never_panic",
    "C78_settled_calls_return"
   ],
   "note": "False of the code: three witnesses (rule without operator; negative memory limit; a malformed multipart body with two rules that list the names of body arguments), the last also from a rule text. Partial: never otherwise; and calls return under the conditions of C32. Exact, without hypotheses: C78_breaks_exactly, a history panics iff the account of SpecChronicle.v has a breakdown. C78_program_breaks_exactly: the programs that break down. C78_interleaved_breaks: some interleaving brings a program down just if one goroutine's own calls break down. C78_settled_calls_never_panic, C78_settled_calls_return: without assumptions about the multipart reader, if every phase finds bodies that can be read or has no rule that looks at them."
  },
  {
   "property": "C79",
   "status": "proved",
   "theorems": [
    "C79_file_blocks_exactly",
    "C79_word_file_blocks"
   ],
   "note": "Built from C62, C65, C66, C77, C78. Any calls but Result and AbortWithStatus between headers and Result. C79_word_file_blocks: the same with the common kinds of patterns, without a regex oracle."
  },
  {
   "property": "C80",
   "status": "partial",
   "theorems": [
    "C80_names_as_written",
    "C80_names_distinct",
    "C80_operator_written_back",
    "C80_action_written_back_partial",
    "C80_action_written_back_refuted",
    "C80_skip_forgets_its_number"
   ],
   "note": "False of the value of an allow action that is quoted twice (refuted); partial: every other action and every operator. A skip action forgets its number."
  },
  {
   "property": "C81",
   "status": "proved",
   "theorems": [
    "C81_lookup",
    "C81_unknown",
    "C81_start_up",
    "C81_types",
    "C81_types_start_up"
   ],
   "note": "Words compared through strings.ToLower (non-ASCII lower case is an oracle)."
  },
  {
   "property": "C82",
   "status": "proved",
   "theorems": [
    "C82_string_argument",
    "C82_errors_passed_on"
   ],
   "note": "Reads the argument grammar of C52."
  },
  {
   "property": "C83",
   "status": "partial",
   "theorems": [
    "C83_starts_with",
    "C83_no_text_lost",
    "C83_before_the_text",
    "C83_failed_leaves_unchanged_refuted"
   ],
   "note": "False on failure: the shared prefix is consumed (refuted). Hypothesis: characters 128-255 have no ASCII lower case, words are ASCII."
  },
  {
   "property": "C84",
   "status": "partial",
   "theorems": [
    "C84_next_counts_partial",
    "C84_next_counts_refuted",
    "C84_current_rule",
    "C84_jump_to",
    "C84_phase_in_range",
    "C84_no_index_panic"
   ],
   "note": "False for an empty phase, where the first Next gives 0 (refuted); partial: phases that have rules. CurrentSecRule never indexes out of range (C84_no_index_panic)."
  },
  {
   "property": "C85",
   "status": "partial",
   "theorems": [
    "C85_log_of_a_phase",
    "C85_names_its_rule_partial",
    "C85_names_its_rule_refuted",
    "C85_denied_code_refuted"
   ],
   "note": "Partial: a log line names its rule if no allow ran before it in the chain, and the deny line always says 403 (both refuted in general). The lines and their order are exact for every run without backward allow."
  },
  {
   "property": "C86",
   "status": "proved",
   "theorems": [
    "C86_denied_iff_some_rule_matches"
   ],
   "note": "Readable is a condition on the state: the body parses without error or is not parsed, and no body read as a string has spilled. Runs of the model that end (enough fuel) are meant."
  },
  {
   "property": "C87",
   "status": "proved",
   "theorems": [
    "C87_blocked_iff_some_call_denied",
    "C87_orderly_requests_are_readable",
    "C87_form_shown",
    "C87_multipart_shown"
   ],
   "note": "C87_blocked_iff_some_call_denied takes readability at each call as a hypothesis; C87_orderly_requests_are_readable discharges it for orderly requests (of multipart bodies those of which the mime/multipart oracle says that they can be read); C87_form_shown says what the body variables then show. C87_multipart_shown: the same of multipart forms."
  },
  {
   "property": "C88",
   "status": "partial",
   "theorems": [
    "C88_seek_moves_reader_refuted",
    "C88_seek_moves_reader_partial",
    "C88_next_write_partial"
   ],
   "note": "False: every Read rewinds first (refuted). Partial: what Seek reports, when it fails, that content, length and reads are unaffected, and where the next write goes. Extra whence values of some systems are not modelled."
  },
  {
   "property": "C89",
   "status": "proved",
   "theorems": [
    "C89_text_decides",
    "C89_bodiless_text_decides",
    "C89_calls_answered",
    "C89_requests_by_text",
    "C89_bodiless_requests_answered",
    "C89_settled_calls_answered",
    "C89_requests_answered"
   ],
   "note": "Readability of the bodies at calls whose phase has rules about bodies is a hypothesis (discharged by C90_orderly_requests for orderly requests). Answers: texts that leave body access off, or any multipart reader that neither fails nor hangs. C89_requests_by_text states the whole of it with a request as texts (target, header lines, body) against the text of the rules, for rules of phases 2 to 5 about request words, a body of at most 128 KiB, and the URL, content type and multipart readers of Uri.v, Media.v and Multi.v; C89_bodiless_requests_answered adds that there is an answer where body access is off. C89_settled_calls_answered, C89_requests_answered: with body access on too, every such request is answered, whatever the multipart reader does with other bodies."
  },
  {
   "property": "C90",
   "status": "proved",
   "theorems": [
    "C90_other_types_unread",
    "C90_form_by_content_type",
    "C90_multipart_texts",
    "C90_multipart_by_content_type",
    "C90_every_value_printable",
    "C90_one_reading",
    "C90_lf_multipart_texts",
    "C90_lf_multipart_by_content_type",
    "C90_orderly_requests",
    "C90_form_filter",
    "C90_word_form_filter",
    "C90_orderly_requests_answered"
   ],
   "note": "About runs of the model that end; that calls return is C89_calls_answered. The phase number is 3 because the code uses text phases unshifted (C61). C90_word_form_filter: the same with the common kinds of patterns, without a regex oracle. C90_other_types_unread, C90_form_by_content_type: by the text of the Content-Type header (Media.v); a header with one parameter given twice with two values lets every form through. C90_multipart_texts, C90_multipart_by_content_type: multipart forms of up to 2000 bytes, with any header lines (ended either way, or continued on further lines), files and a preamble, by their text, under the reading of mime/multipart in Multi.v; a part with a file name, or with a parameter given twice, is no field; a form whose text stops right after the final delimiter, which has something else on that line, or ends that line with LF alone, or has such a line at another delimiter after the first part, or whose header gives the boundary twice, is let through whatever its fields. C90_lf_multipart_texts, C90_lf_multipart_by_content_type: the same for forms whose first delimiter ends with LF alone (MultiLf.v); there CR LF after a later delimiter lets the form through, and a CR before the last LF belongs to the value. Parts in quoted-printable count with what they stand for, other encodings as they are. C90_every_value_printable: every value can be sent that way on one line of = and digits. C90_one_reading: no form is read both ways. C90_orderly_requests_answered: requests whose bodies come in order are always answered."
  },
  {
   "property": "C91",
   "status": "partial",
   "theorems": [
    "C91_failed_write_refuted",
    "C91_failed_write_partial"
   ],
   "note": "False: a temporary file that cannot be made leaves bytes in memory that were reported as not written, and a failing copy loses stored bytes (refuted with both). Partial: exactly what every failing write leaves (content, memory text, length, report)."
  },
  {
   "property": "C92",
   "status": "partial",
   "theorems": [
    "C92_close_refuted",
    "C92_close_partial",
    "C92_spilled_bodies_close_partial",
    "C92_used_after_close_partial",
    "C92_file_on_disk_partial"
   ],
   "note": "False: closing a body that stayed in memory panics (refuted). Partial: exactly when it panics, what it reports, and that spilled bodies close. C92_used_after_close_partial: every answer of any history that closes a body, also more than once, and uses it afterwards. C92_file_on_disk_partial: the file is on disk exactly if the body spilled and no call of Close could remove it; nothing in the repository calls Close outside a test."
  },
  {
   "property": "C93",
   "status": "proved",
   "theorems": [
    "C93_phase_answer",
    "C93_reaction_unique",
    "C93_any_rules"
   ],
   "note": "The answer is a separate record (SpecAnswer.v); which rules match is stated on the state in which the phase was entered. C93_any_rules: the same for rules with any actions, allow, skip, block and pass included (SpecAccount.v)."
  },
  {
   "property": "C94",
   "status": "proved",
   "theorems": [
    "C94_answers_exactly",
    "C94_answers_exactly_without_bodies",
    "C94_answer",
    "C94_answer_unique",
    "C94_every_answer",
    "C94_every_answer_unique",
    "C94_every_answer_without_bodies",
    "C94_every_history",
    "C94_every_history_settles",
    "C94_every_history_unique",
    "C94_settled_answers_exactly"
   ],
   "note": "C94_every_answer: all answers, in any history (results fetched at any time, aborts from outside), with rules of any actions, are those of a separate account (SpecAccount.v); C94_every_answer_unique: that account is unique; C94_every_answer_without_bodies: if no rule looks at a body the account depends on the calls alone. C94_answers_exactly: both ways, a history is answered with given answers iff the rules spell them out. C94_every_history: for every rule set, engine, history and body, a history is answered with given answers iff a separate account of data, bodies, variables, rules, phases and calls (SpecChronicle.v) spells them out; C94_every_history_settles, C94_every_history_unique: with enough fuel always, and only those. C94_settled_answers_exactly: both ways without assumptions about the multipart reader."
  },
  {
   "property": "C95",
   "status": "proved",
   "theorems": [
    "C95_exchanges_by_text",
    "C95_exchange_answer_unique",
    "C95_bodiless_exchanges_answered",
    "C95_exchange_phases",
    "C95_answers_exactly_without_bodies",
    "C95_answers_exactly",
    "C95_every_history",
    "C95_every_answer",
    "C95_every_answer_without_bodies",
    "C95_every_answer_unique",
    "C95_text_answers",
    "C95_text_answer_unique",
    "C95_any_exchange_exactly",
    "C95_course_unique",
    "C95_any_exchange_answered",
    "C95_settled_answers_exactly",
    "C95_exchanges_answered"
   ],
   "note": "Chains, phases, matching and actions are all read off the parsed text (SpecVerdict.v, SpecReply.v). C95_example also meets the hypotheses of C96. C95_every_answer: all answers, in any history, for a text with any actions; C95_every_answer_unique; C95_every_answer_without_bodies. C95_answers_exactly: both ways. C95_every_history: whatever the text and the bodies, every history on an engine loaded from it is answered, panics or hangs exactly as the account of SpecChronicle.v says for the rules as written. C95_exchanges_by_text: for a request and a response given as texts, and rules that look only at what is known in their phase, the result at any moment is what the text of the rules answers to those texts; C95_exchange_answer_unique, C95_bodiless_exchanges_answered. Bodies within the default limits, response content type absent or well-formed. C95_settled_answers_exactly, C95_exchanges_answered: the same with the existence of the answer, body access on or off, whatever the multipart reader does with other bodies. C95_any_exchange_exactly, C95_course_unique, C95_any_exchange_answered: the same for rules with any actions (skip, allow, pass): the result at any moment of an exchange is the one its course through the text gives, and there is one whenever no chain leads back to its own phase."
  },
  {
   "property": "C96",
   "status": "proved",
   "theorems": [
    "C96_exchange_status",
    "C96_first_match_sets_status",
    "C96_clients_let_through"
   ],
   "note": "Log lines are not part of the statement: later phases may add lines although the status is fixed. C96_exchange_status: the same over the texts of an exchange (C95_exchanges_example meets its hypotheses). C96_clients_let_through: with rules of any kind, a client the first matching rule of phase 1 allows gets 200 at every moment, with no lines."
  },
  {
   "property": "C97",
   "status": "proved",
   "theorems": [
    "C97_snapshot",
    "C97_calls_explained",
    "C97_results_stay"
   ],
   "note": "Slices.v models slice headers and arrays; C97_calls_explained shows that every API call is a list of the events of that model, C97_results_stay relates them to the results of steps."
  },
  {
   "property": "C98",
   "status": "partial",
   "theorems": [
    "C98_early_edits_partial",
    "C98_early_calls_partial",
    "C98_adding_partial",
    "C98_edit_refuted",
    "C98_added_line_refuted"
   ],
   "note": "False once the transaction is aborted: the result then shares its log with the transaction (C98_edit_refuted: an edited line is reported next time) and with other results (C98_added_line_refuted). True for results handed out before the abort, for all edits, seen by the transaction and all other results (C98_early_edits_partial, C98_early_calls_partial); and for callers who only add lines or drop logs, seen by the transaction (C98_adding_partial)."
  },
  {
   "property": "C99",
   "status": "partial",
   "theorems": [
    "C99_calls_answered_partial",
    "C99_only_allow_request_leads_back",
    "C99_texts_without_way_back",
    "C99_calls_answered_refuted"
   ],
   "note": "Refuted with one-line texts (C99_calls_answered_refuted, for every fuel). Partial: every history is answered if no chain of the text leads back to its own phase and either body access is off or the multipart reader neither fails nor hangs (C99_calls_answered_partial); a sufficient condition on the text is C99_texts_without_way_back."
  }
 ]
}