{
 "claims": [
  {
   "property": "C01",
   "status": "proved",
   "theorems": [
    "C01_from_nfa_language"
   ],
   "note": ""
  },
  {
   "property": "C02",
   "status": "proved",
   "theorems": [
    "C02_from_nfa_total"
   ],
   "note": ""
  },
  {
   "property": "C03",
   "status": "proved",
   "theorems": [
    "C03_reversed_language"
   ],
   "note": ""
  },
  {
   "property": "C04",
   "status": "proved",
   "theorems": [
    "C04_minimized_language"
   ],
   "note": ""
  },
  {
   "property": "C05",
   "status": "proved",
   "theorems": [
    "C05_minimized_minimal",
    "C05_minimized_idempotent_size"
   ],
   "note": ""
  },
  {
   "property": "C06",
   "status": "proved",
   "theorems": [
    "C06_removed_unreachable"
   ],
   "note": ""
  },
  {
   "property": "C07",
   "status": "proved",
   "theorems": [
    "C07_grouped"
   ],
   "note": ""
  },
  {
   "property": "C08",
   "status": "proved",
   "theorems": [
    "C08_negated"
   ],
   "note": ""
  },
  {
   "property": "C10",
   "status": "proved",
   "theorems": [
    "C10_prev_states"
   ],
   "note": ""
  },
  {
   "property": "C11",
   "status": "proved",
   "theorems": [
    "C11_states_at_depth"
   ],
   "note": ""
  },
  {
   "property": "C12",
   "status": "proved",
   "theorems": [
    "C12_track_live_states"
   ],
   "note": ""
  },
  {
   "property": "C13",
   "status": "partial",
   "theorems": [
    "C13_transition64_partial",
    "C13_transition64_32bit",
    "C13_transition64_32_exact",
    "C13_transition64_refuted",
    "C13_transition64_undefined"
   ],
   "note": "The claim is false of the code for lengths above 31: refuted with a witness at length 32, undefined shift from 33 on; proved for lengths up to 31, and for length 32 exactly what is read is proved for every 64-bit input."
  },
  {
   "property": "C09",
   "status": "proved",
   "theorems": [
    "C09_spec2spec",
    "C09_minimal"
   ],
   "note": ""
  },
  {
   "property": "C14",
   "status": "proved",
   "theorems": [
    "C14_dump_round_trip"
   ],
   "note": ""
  },
  {
   "property": "C15",
   "status": "proved",
   "theorems": [
    "C15_from_istream_language",
    "C15_every_text_has_lines",
    "C15_from_istream_accepts_iff",
    "C15_empty_specification"
   ],
   "note": ""
  },
  {
   "property": "C16",
   "status": "proved",
   "theorems": [
    "C16_row_lines_checked",
    "C16_missing_row_rejected",
    "C16_failure_modes"
   ],
   "note": ""
  },
  {
   "property": "C17",
   "status": "partial",
   "theorems": [
    "C17_att_round_trip_from_zero",
    "C17_att_round_trip_partial",
    "C17_att_round_trip_refuted"
   ],
   "note": "False of the code when the initial state is not 0 (the format cannot express it): refuted with a witness. Proved: the result is the automaton started in state 0, hence the claim for graphs that start there."
  },
  {
   "property": "C18",
   "status": "partial",
   "theorems": [
    "C18_att_language",
    "C18_att_bad_line",
    "C18_att_accepted_partial",
    "C18_att_accepted_exactly",
    "C18_att_accepted_refuted"
   ],
   "note": "Whatever is returned has the language of the lines, and every other line shape fails. But a well-formed file in which a reachable state is larger than every source state is refused with std::out_of_range: refuted with a witness; C18_att_accepted_exactly: the files accepted are exactly those meeting the complementary condition."
  },
  {
   "property": "C19",
   "status": "proved",
   "theorems": [
    "C19_no_dangling",
    "C19_transformations_keep_wf"
   ],
   "note": ""
  },
  {
   "property": "C20",
   "status": "proved",
   "theorems": [
    "C20_input_decoding",
    "C20_every_word_has_a_file",
    "C20_plain_run"
   ],
   "note": ""
  },
  {
   "property": "C21",
   "status": "proved",
   "theorems": [
    "C21_truncated_input"
   ],
   "note": ""
  },
  {
   "property": "C22",
   "status": "proved",
   "theorems": [
    "C22_serialisation",
    "C22_short_stream"
   ],
   "note": ""
  },
  {
   "property": "C23",
   "status": "proved",
   "theorems": [
    "C23_forward_stream"
   ],
   "note": ""
  },
  {
   "property": "C24",
   "status": "proved",
   "theorems": [
    "C24_reversed_stream"
   ],
   "note": ""
  },
  {
   "property": "C25",
   "status": "proved",
   "theorems": [
    "C25_partial_block"
   ],
   "note": ""
  },
  {
   "property": "C26",
   "status": "partial",
   "theorems": [
    "C26_is_beg_partial",
    "C26_is_end_actual",
    "C26_is_end_refuted"
   ],
   "note": "is_end() is false of the code: it compares the offset with the constant ios_base::end (2). Refuted with witnesses; is_beg proved. is_end has no caller."
  },
  {
   "property": "C27",
   "status": "proved",
   "theorems": [
    "C27_decrypt_threshold",
    "C27_decrypt_noise",
    "C27_bound_tight"
   ],
   "note": ""
  },
  {
   "property": "C28",
   "status": "proved",
   "theorems": [
    "C28_TLWE_add",
    "C28_TRLWE_add",
    "C28_mult_X_k",
    "C28_mult_X_k_bound",
    "C28_phase_functions",
    "C28_trivial"
   ],
   "note": ""
  },
  {
   "property": "C29",
   "status": "proved",
   "theorems": [
    "C29_half_to_half",
    "C29_half_to_eighth",
    "C29_eighth_to_eighth",
    "C29_tlwe_variants",
    "C29_hom_xor"
   ],
   "note": "Under the contract tfhe_ok of the TFHEpp functions (TfheSpec.v), shown satisfiable for every key, dimension and noise."
  },
  {
   "property": "C45",
   "status": "proved",
   "theorems": [
    "C45_digits",
    "C45_noise",
    "C45_layout",
    "C45_digit_threshold"
   ],
   "note": ""
  },
  {
   "property": "C30",
   "status": "proved",
   "theorems": [
    "C30_offline"
   ],
   "note": "Under the contract tfhe_ok; inputs below 2^31 (the code converts the length to int, see C39)."
  },
  {
   "property": "C31",
   "status": "proved",
   "theorems": [
    "C31_reverse",
    "C31_spec_reversed"
   ],
   "note": "Under the contract tfhe_ok; histories interleave inputs and questions arbitrarily."
  },
  {
   "property": "C32",
   "status": "proved",
   "theorems": [
    "C32_block",
    "C32_block_empty_refuted"
   ],
   "note": "Under the contract tfhe_ok. The empty prefix is excluded by the property; C32_block_empty_refuted shows the assertion failure there."
  },
  {
   "property": "C33",
   "status": "proved",
   "theorems": [
    "C33_flut"
   ],
   "note": "Under the contract tfhe_ok; table_fits: live states times assignments of the second half of the queue fit the ring, which 2^depth <= N implies for every specification (depth_fits)."
  },
  {
   "property": "C34",
   "status": "partial",
   "theorems": [
    "C34_flut_refuses",
    "C34_refuses_any",
    "C34_large_depth_refuted"
   ],
   "note": "The refusal is exactly characterised. The second half (every positive depth is refused or correct) is false of the code: C34_large_depth_refuted gives a wrong answer when the table exceeds the ring and undefined behaviour for depth 32."
  },
  {
   "property": "C38",
   "status": "proved",
   "theorems": [
    "C38_lookup_table",
    "C38_size_checked"
   ],
   "note": ""
  },
  {
   "property": "C39",
   "status": "proved",
   "theorems": [
    "C39_offline_size"
   ],
   "note": "For any operations T, n < 2^31."
  },
  {
   "property": "C40",
   "status": "proved",
   "theorems": [
    "C40_sanitize"
   ],
   "note": ""
  },
  {
   "property": "C46",
   "status": "proved",
   "theorems": [
    "C46_legacy_no_result"
   ],
   "note": ""
  },
  {
   "property": "C36",
   "status": "proved",
   "theorems": [
    "C36_race_free",
    "C36_schedules_end",
    "C36_histories_reverse",
    "C36_histories_flut",
    "C36_histories_block",
    "C36_histories_legacy",
    "C36_offline",
    "C36_reverse",
    "C36_flut",
    "C36_block"
   ],
   "note": "Interleavings of reads and writes of ciphertext cells, with arbitrary intermediate contents of half-written cells. The set of outcomes over all schedules is a singleton."
  },
  {
   "property": "C37",
   "status": "proved",
   "theorems": [
    "C37_reverse",
    "C37_offline",
    "C37_flut",
    "C37_block",
    "C37_access_pattern"
   ],
   "note": "For any two implementations of the TFHEpp functions with the same ring dimension. Timing inside TFHEpp is outside the model."
  },
  {
   "property": "C35",
   "status": "proved",
   "theorems": [
    "C35_offline",
    "C35_reverse",
    "C35_spec_reversed",
    "C35_mirrored_spec",
    "C35_flut",
    "C35_block",
    "C35_block_empty_refuted"
   ],
   "note": "Under the contracts tfhe_ok and crypto_ok (encryption, key archives, ciphertext layout). Commands are modelled as clients of the two-thread stream, so the result holds for every interleaving."
  },
  {
   "property": "C41",
   "status": "proved",
   "theorems": [
    "C41_reverse",
    "C41_flut"
   ],
   "note": "As C35. The option --out-dir is not registered with the command line parser, so the theorem is about do_run_reverse and do_run_flut called with a directory."
  },
  {
   "property": "C49",
   "status": "proved",
   "theorems": [
    "C49_keys"
   ],
   "note": "Under the contract crypto_ok."
  },
  {
   "property": "C42",
   "status": "proved",
   "theorems": [
    "C42_ltl",
    "C42_ltl2spec",
    "C42_unknown_propositions"
   ],
   "note": "Spot's monitor is an input satisfying monitor_ok (states exist, distinct variables registered in the order p0, p1, ..., satisfiable conditions); the construction of the NFA from its BDD-labelled edges, the subset construction and the printed specification are modelled."
  },
  {
   "property": "C43",
   "status": "proved",
   "theorems": [
    "C43_reversed"
   ],
   "note": "Same contract on the monitor as C42."
  },
  {
   "property": "C44",
   "status": "proved",
   "theorems": [
    "C44_summary"
   ],
   "note": "Up to the order of lines, which std::unordered_map does not fix."
  },
  {
   "property": "C47",
   "status": "partial",
   "theorems": [
    "C47_counter_runner_partial",
    "C47_dump_partial",
    "C47_lonely_refuted",
    "C47_wrap_refuted",
    "C47_queue_refuted",
    "C47_effects_refuted",
    "C47_twice_refuted"
   ],
   "note": "False of the code in general: five refutations give a tester, a word and both answers. Proved for every tester without these features, every history, every order of the parallel reductions, under the contracts tfhe_ok and gates_ok. What the encrypted runner computes on all other testers and histories is C65."
  },
  {
   "property": "C48",
   "status": "proved",
   "theorems": [
    "C48_counter",
    "C48_too_wide",
    "C48_decrypt_wide_refuted"
   ],
   "note": "Every width up to 64, initial value below 2^width and history, under the contracts tfhe_ok and gates_ok. Counters of more than 64 bits reach undefined behaviour in the constructor, and decrypt does for more than 32 bits."
  },
  {
   "property": "C50",
   "status": "proved",
   "theorems": [
    "C50_test_passes",
    "C50_constructed",
    "C50_tester"
   ],
   "note": "The tester of test() in counter.cpp, any input word, under the contracts tfhe_ok and gates_ok. C50_tester says what the answers are: yes exactly when one of the last twelve inputs was 1."
  },
  {
   "property": "C51",
   "status": "proved",
   "theorems": [
    "C51_manual",
    "C51_total",
    "C51_no_out_dir",
    "C51_no_command",
    "C51_session_offline",
    "C51_session_reverse",
    "C51_session_block",
    "C51_session_flut",
    "C51_session_picture"
   ],
   "note": "CLI11 is not in the repository: the model states how it reads words; the spellings it leaves open end in FUndefined and are named by the predicate outside. The encrypted sessions need the contracts of C35, the picture session that of C42."
  },
  {
   "property": "C52",
   "status": "proved",
   "theorems": [
    "C52_dot",
    "C52_spec2dot",
    "C52_picture_determines"
   ],
   "note": "DOT is the fragment in DotSpec.v: words, quoted strings, punctuation, arrows."
  },
  {
   "property": "C53",
   "status": "proved",
   "theorems": [
    "C53_oracle",
    "C53_reports",
    "C53_no_difference",
    "C53_limits"
   ],
   "note": "Spot's monitors are inputs satisfying monitor_ok and no_dead_ends."
  },
  {
   "property": "C54",
   "status": "partial",
   "theorems": [
    "C54_same_word",
    "C54_encrypted_verdict",
    "C54_verdict_partial",
    "C54_padding_refuted",
    "C54_decryption_refuted"
   ],
   "note": "False of the code: the permutation table is padded with 0 when a proposition does not occur in the formula, so the encrypted run gets another word (C54_padding_refuted), and the test decrypts a verdict encoded as 0 or 1/2 by its sign (C54_decryption_refuted). Proved: if every proposition occurs, the words are the same and each method's verdict, decrypted as the clients do, is the oracle's."
  },
  {
   "property": "C55",
   "status": "proved",
   "theorems": [
    "C55_plain",
    "C55_offline",
    "C55_offline_empty",
    "C55_offline_empty_refuted",
    "C55_reversed",
    "C55_qtrlwe2",
    "C55_bbs",
    "C55_sanitize",
    "C55_config_plain",
    "C55_config_offline",
    "C55_config_reversed",
    "C55_config_qtrlwe2",
    "C55_config_bbs"
   ],
   "note": "Under the contracts tfhe_ok and crypto_ok. benchmark offline prints 0 for an empty input even when the empty word is accepted (C55_offline_empty_refuted gives the automaton). Lines printed before a failure: C74."
  },
  {
   "property": "C56",
   "status": "proved",
   "theorems": [
    "C56_reversed",
    "C56_bbs"
   ],
   "note": "Under the contracts tfhe_ok and crypto_ok; the counts are printed modulo 2^64 (size_t)."
  },
  {
   "property": "C57",
   "status": "proved",
   "theorems": [
    "C57_manual",
    "C57_total",
    "C57_same_results"
   ],
   "note": "CLI11 as in C51. The agreement needs the limits of C55."
  },
  {
   "property": "C58",
   "status": "proved",
   "theorems": [
    "C58_enc",
    "C58_enc_noticed_refuted",
    "C58_bits_passed",
    "C58_offline",
    "C58_reverse",
    "C58_flut",
    "C58_block",
    "C58_reverse_dir",
    "C58_reverse_dir_cut",
    "C58_flut_dir",
    "C58_dec_short",
    "C58_genkey",
    "C58_genbkey"
   ],
   "note": "Only the process dies (no loss of data already written). C58_enc_noticed_refuted: an enc killed between two ciphertexts leaves a file that is taken for a shorter input. Per-file reports only arise below the command line (C51). Rejecting proper prefixes of keys is a hypothesis, cereal being opaque."
  },
  {
   "property": "C59",
   "status": "proved",
   "theorems": [
    "C59_offline",
    "C59_reverse",
    "C59_flut",
    "C59_block"
   ],
   "note": "Crashes as in C58. The names of the files must be different; the run commands are those with --out."
  },
  {
   "property": "C60",
   "status": "proved",
   "theorems": [
    "C60_verdict",
    "C60_agreeing",
    "C60_stops",
    "C60_progress",
    "C60_prompt",
    "C60_quiet",
    "C60_status_refuted"
   ],
   "note": "C60_quiet under the assumptions of C47/C50 on the cryptography. Standard error is modelled piece by piece (number, blank). C60_status_refuted: the program exits with status 0 although it reports a difference."
  },
  {
   "property": "C61",
   "status": "proved",
   "theorems": [
    "C61_complete",
    "C61_rerun",
    "C61_pairs",
    "C61_again_refuted",
    "C61_mixture_refuted",
    "C61_kept_refuted"
   ],
   "note": "Archives are opaque: reading what was saved, and rejecting proper prefixes, are hypotheses. Findings: a run killed while it writes _bkey makes every later run fail; if only _bkey was there, a killed run leaves a mixture that the next run uses; an existing _skey is replaced when _bkey is missing."
  },
  {
   "property": "C62",
   "status": "proved",
   "theorems": [
    "C62_script",
    "C62_spec_10",
    "C62_mirrored",
    "C62_families",
    "C62_shipped",
    "C62_att",
    "C62_bench_refuted"
   ],
   "note": "Under the assumptions of C35 on the cryptography; a noise budget for automata of nine states and 8004 letters for the shipped checks. C62_bench_refuted: bench.sh and bench_ltl.sh use subcommands that no longer exist."
  },
  {
   "property": "C63",
   "status": "proved",
   "theorems": [
    "C63_canonical",
    "C63_minimal",
    "C63_minimized_unique"
   ],
   "note": "Texts of at most 2^31 characters, since a state number is an int. Stated on the command line `spec2spec --reversed` reading standard input."
  },
  {
   "property": "C64",
   "status": "proved",
   "theorems": [
    "C64_script",
    "C64_shipped"
   ],
   "note": "Under the assumptions of C55 on the cryptography; durations are printed as decimal numbers with a sum below 2^63 microseconds; arguments are words of letters, digits and _ . / - . An input of fewer than thirty bits makes the script fail (grep finds nothing), which the theorem includes."
  },
  {
   "property": "C65",
   "status": "proved",
   "theorems": [
    "C65_answers",
    "C65_dump",
    "C65_marks"
   ],
   "note": "Under the contracts tfhe_ok and gates_ok, and andny_sign for HomANDNY (it decides the sign of b - a - 1/8, which bits with several marks need). The dump part is for at most 31 counters of at most 32 bits, beyond which the printing code shifts too far."
  },
  {
   "property": "C66",
   "status": "proved",
   "theorems": [
    "C66_printed",
    "C66_minimized",
    "C66_verdict",
    "C66_offline",
    "C66_reverse",
    "C66_block",
    "C66_flut",
    "C66_final",
    "C66_open",
    "C66_no_false_alarm",
    "C66_alarm",
    "C66_bits"
   ],
   "note": "Under the contract `monitors` on Spot for the formula (shown for G(p0 -> X p1) and F p0), the bound 2^31 on the number of states, and for the encrypted runs the assumptions of C35. A violation is stated as truth of the negated formula with the negation pushed inwards. The parsing of the formula text is part of the contract."
  },
  {
   "property": "C67",
   "status": "proved",
   "theorems": [
    "C67_offline",
    "C67_reverse",
    "C67_reverse_dir",
    "C67_flut",
    "C67_flut_dir",
    "C67_block",
    "C67_broken_file",
    "C67_dec",
    "C67_enc"
   ],
   "note": "No contract on the TFHE functions is used. Bounds: a ciphertext has fewer than 2^63 bytes, the file fewer than 2^64; for block runs the number of states fits the ring and 31 bits; for flut runs the bounds of C34. The bootstrapping key file is one that the reader accepts."
  },
  {
   "property": "C68",
   "status": "proved",
   "theorems": [
    "C68_together",
    "C68_then",
    "C68_genkey",
    "C68_genbkey",
    "C68_enc",
    "C68_dec",
    "C68_plain",
    "C68_offline",
    "C68_reverse",
    "C68_flut",
    "C68_block",
    "C68_files",
    "C68_user",
    "C68_session",
    "C68_users",
    "C68_sessions",
    "C68_shared_refuted"
   ],
   "note": "C68_together, C68_then, the theorems for single commands and C68_files use no contract; the theorems about users and sessions use tfhe_ok and crypto_ok as C35 does. Reading a file is one step of the model."
  },
  {
   "property": "C69",
   "status": "proved",
   "theorems": [
    "C69_encrypted_part",
    "C69_test0",
    "C69_script"
   ],
   "note": "Ciphertexts are arbitrary words of the right number; C69_script uses tfhe_ok and crypto_ok as C62 does. Equality of ciphertexts is equality of their bit patterns. What Spot returns is a parameter: the theorems say which answers make the tests succeed."
  },
  {
   "property": "C70",
   "status": "proved",
   "theorems": [
    "C70_exact",
    "C70_renumbered",
    "C70_reversed",
    "C70_deterministic_refuted"
   ],
   "note": "C70_exact needs the printed texts to be at most 2^31 characters (state numbers are ints). C70_deterministic_refuted shows that --reversed or nondeterminism is needed."
  },
  {
   "property": "C71",
   "status": "proved",
   "theorems": [
    "C71_outcomes",
    "C71_same",
    "C71_spec2spec",
    "C71_long_refuted",
    "C71_initial_refuted",
    "C71_att_refuted"
   ],
   "note": "The exceptions in the statement are shown to be real by the three refutations. Texts have at most 2^31 states (state numbers are ints)."
  },
  {
   "property": "C72",
   "status": "proved",
   "theorems": [
    "C72_enc",
    "C72_enc_room",
    "C72_archive",
    "C72_dec",
    "C72_genkey",
    "C72_genbkey",
    "C72_spec2spec",
    "C72_reported_refuted",
    "C72_buffer_refuted"
   ],
   "note": "Asserts are compiled in; the disk stays full while the command runs. Key readers are assumed to refuse proper prefixes of an archive, as cereal does. The two refutations show that success alone does not mean that the output is complete."
  },
  {
   "property": "C73",
   "status": "proved",
   "theorems": [
    "C73_same",
    "C73_short",
    "C73_total",
    "C73_words",
    "C73_canonical",
    "C73_exact"
   ],
   "note": "piped runs the program (main) for each call; the effect of a pipeline is defined in PipeSpec without reference to the code."
  },
  {
   "property": "C74",
   "status": "proved",
   "theorems": [
    "C74_same",
    "C74_manual",
    "C74_rejected",
    "C74_config",
    "C74_unusable",
    "C74_sanitize",
    "C74_plain",
    "C74_offline",
    "C74_reversed",
    "C74_bbs",
    "C74_qtrlwe2"
   ],
   "note": "Under tfhe_ok and crypto_ok for the methods with ciphertexts. Each line is flushed when it is printed (std::endl); a line cut in the middle by a full pipe or disk is not modelled."
  },
  {
   "property": "C75",
   "status": "proved",
   "theorems": [
    "C75_same",
    "C75_offline",
    "C75_reverse",
    "C75_reverse_dir",
    "C75_flut",
    "C75_flut_dir",
    "C75_block",
    "C75_reported_refuted"
   ],
   "note": "Under tfhe_ok and crypto_ok. Success alone does not mean that a result is complete: C75_reported_refuted."
  },
  {
   "property": "C76",
   "status": "proved",
   "theorems": [
    "C76_same",
    "C76_offline",
    "C76_total_cmux",
    "C76_reverse",
    "C76_flut",
    "C76_block"
   ],
   "note": "For any ciphertexts and any TFHE functions; hypotheses are those of C67 (flut: a run that is not refused). Time stamps are not modelled; the banner of main is in C79, runs that exit with an error in C80."
  },
  {
   "property": "C77",
   "status": "proved",
   "theorems": [
    "C77_grows",
    "C77_resized",
    "C77_left",
    "C77_offline",
    "C77_reverse",
    "C77_flut",
    "C77_block",
    "C77_rewritten_refuted"
   ],
   "note": "C77_grows, C77_resized and C77_left for every command and any ciphertexts; the verdict theorems under tfhe_ok and crypto_ok. Reads are not buffered in the model. Overwriting with other values is outside the claim: C77_rewritten_refuted."
  },
  {
   "property": "C78",
   "status": "proved",
   "theorems": [
    "C78_same",
    "C78_spec",
    "C78_exit",
    "C78_att",
    "C78_missing",
    "C78_formula"
   ],
   "note": "The text of the backtrace is a parameter; time stamps and what the C++ runtime prints about an uncaught exception or an assert are not modelled."
  },
  {
   "property": "C79",
   "status": "proved",
   "theorems": [
    "C79_same",
    "C79_header",
    "C79_notes",
    "C79_total",
    "C79_exit",
    "C79_quiet"
   ],
   "note": "Debug messages are left out; the log of a run on ciphertexts after its start is C76. What CLI11 prints about a refused command line is not modelled."
  },
  {
   "property": "C80",
   "status": "proved",
   "theorems": [
    "C80_offline",
    "C80_reverse",
    "C80_flut",
    "C80_block",
    "C80_crowded"
   ],
   "note": "For any ciphertexts and any TFHE functions. The text of the backtrace is a parameter. Missing files and a key without its parts are failed assertions, without a message of the program."
  },
  {
   "property": "C81",
   "status": "proved",
   "theorems": [
    "C81_exit"
   ],
   "note": "For any files, options and TFHE functions. That an execution with a logged error exits is stated as: one that succeeds has logged none. Between the error and the exit the loader thread may abort the process."
  },
  {
   "property": "C82",
   "status": "proved",
   "theorems": [
    "C82_offline",
    "C82_reverse",
    "C82_flut",
    "C82_block",
    "C82_bad_key",
    "C82_exit"
   ],
   "note": "The command lines of C51 with the logs of C76, C80 and C81. C82_flut is without --debug-secret-key. The text of the backtrace, the build settings and the environment are parameters."
  },
  {
   "property": "C83",
   "status": "proved",
   "theorems": [
    "C83_exit",
    "C83_write",
    "C83_same",
    "C83_line",
    "C83_main"
   ],
   "note": "For any files, options and TFHE functions. The text of the exception is a parameter. An incomplete write that the buffer hides is not an error (C75). A file that cannot be opened ends the run with a failed assertion, which is not logged. C83_line and C83_main are about the whole standard error, from the command line (C82). C83_write has no flut, which can also give up because of too many states."
  },
  {
   "property": "C84",
   "status": "proved",
   "theorems": [
    "C84_same",
    "C84_progress",
    "C84_complete",
    "C84_blame",
    "C84_main",
    "C84_shown"
   ],
   "note": "The order of the transitions, and the conditions, are those of the monitor that Spot returns, which is a parameter; C84_blame is for monitors over the propositions of the formula whose conditions are reduced BDDs, as BuDDy keeps them. Of the lines that count propositions within a transition it is said that each is between 1 and their number, not how many there are."
  },
  {
   "property": "C85",
   "status": "proved",
   "theorems": [
    "C85_genkey",
    "C85_genbkey",
    "C85_enc",
    "C85_next_skey",
    "C85_next_bkey"
   ],
   "note": "The text of the exception, the build settings and the environment are parameters, and so are TFHE and the way the archive hands over its bytes. For the next command: if the reader refuses every proper prefix of the key (cereal does). C85_enc is for an input file that is not the output file."
  },
  {
   "property": "C86",
   "status": "proved",
   "theorems": [
    "C86_manual",
    "C86_total",
    "C86_same",
    "C86_spellings",
    "C86_no_out_dir",
    "C86_bench_manual",
    "C86_bench_total",
    "C86_bench_same"
   ],
   "note": "CLI11 is not in the repository: that it cuts --name=value at the first = and then treats it like --name value is the reading of the model."
  },
  {
   "property": "C87",
   "status": "proved",
   "theorems": [
    "C87_manual",
    "C87_any_number",
    "C87_total"
   ],
   "note": "CLI11 and TBB are not in the repository: the reading of --cpu n and --cpu=n is the model's, and the arena of TBB is not modelled. The file formats of the two keys are parameters. The test that follows is in C60."
  }
 ]
}
