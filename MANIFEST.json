{"claims": [
  {"property": "C01", "status": "proved", "theorems": ["C01_new", "C01_fresh_zero"], "note": "new accepts exactly 4..=18 for every u8, builder and build; a fresh sketch counts exactly 0"},
  {"property": "C02", "status": "partial", "theorems": ["C02_new", "C02_fresh_zero_partial", "C02_fresh_refuted"], "note": "REFUTED as stated: at p = 16 a fresh sketch panics on a 32-bit debug build (C02_fresh_refuted). True part: acceptance of exactly 4..=16 in every build (C02_new), and count 0 whenever 2p < usize width (C02_fresh_zero_partial)"},
  {"property": "C03", "status": "proved", "theorems": ["C03_narrow", "C03_no_panic", "C03_builds_agree"], "note": "for every history and every build with 2p < usize width (so every p on 64-bit targets); all hash functions, orders, builds; 32-bit targets with p >= 16 (2p not below the usize width): see C71"},
  {"property": "C04", "status": "proved", "theorems": ["C04_no_panic", "C04_builds_agree"], "note": "for every history and every build with 2p < usize width (every p on 64-bit targets)"},
  {"property": "C05", "status": "partial", "theorems": ["C05_plus_refuted", "C05_pf_refuted", "C05_plus_witness", "C05_pf_witness", "C05_pf_debug", "C05_pf_release", "C05_plus_debug", "C05_plus_release", "C05_plus_partial", "C05_pf_partial", "C05_sparse_partial"], "note": "REFUTED as stated: one program counts >= 0 on 64 bits, panics on 32-bit debug and is <= -10000 on 32-bit release (C05_*_refuted, C05_*_witness; general failure C05_*_debug, C05_*_release). True part: all widths with 2p < width agree, and any width while sparse (C05_*_partial)"},
  {"property": "C06", "status": "proved", "theorems": ["C06_plus", "C06_pf"], "note": "both sketch types, in every context of later operations; 32-bit targets with p >= 16 (2p not below the usize width): see C71"},
  {"property": "C07", "status": "proved", "theorems": ["C07_plus"], "note": "bit-identical counts for all pairs of histories with the same absorbed set"},
  {"property": "C08", "status": "proved", "theorems": ["C08_pf"], "note": "32-bit targets with p >= 16 (2p not below the usize width): see C71"},
  {"property": "C09", "status": "proved", "theorems": ["C09_plus"], "note": "32-bit targets with p >= 16 (2p not below the usize width): see C71"},
  {"property": "C10", "status": "proved", "theorems": ["C10_pf"], "note": "32-bit targets with p >= 16 (2p not below the usize width): see C71"},
  {"property": "C11", "status": "proved", "theorems": ["C11_plus", "C11_pf"], "note": "32-bit targets with p >= 16 (2p not below the usize width): see C71"},
  {"property": "C12", "status": "proved", "theorems": ["C12_merge_plus", "C12_merge_pf", "C12_fixed_plus", "C12_fixed_pf"], "note": ""},
  {"property": "C13", "status": "proved", "theorems": ["C13_plus", "C13_plus_without", "C13_plus_twice", "C13_pf"], "note": "32-bit targets with p >= 16 (2p not below the usize width): see C71"},
  {"property": "C14", "status": "proved", "theorems": ["C14_code"], "note": ""},
  {"property": "C15", "status": "proved", "theorems": ["C15_sparse_iff", "C15_code_list", "C15_one_way", "C15_monotone"], "note": "32-bit targets with p >= 16 (2p not below the usize width): see C71"},
  {"property": "C16", "status": "proved", "theorems": ["C16_memory"], "note": "32-bit targets with p >= 16 (2p not below the usize width): see C71"},
  {"property": "C17", "status": "proved", "theorems": ["C17_pf"], "note": "32-bit targets with p >= 16 (2p not below the usize width): see C71"},
  {"property": "C18", "status": "proved", "theorems": ["C18_plus"], "note": "32-bit targets with p >= 16 (2p not below the usize width): see C71"},
  {"property": "C19", "status": "proved", "theorems": ["C19_zeros_pf", "C19_zeros_plus"], "note": "32-bit targets with p >= 16 (2p not below the usize width): see C71"},
  {"property": "C20", "status": "proved", "theorems": ["C20_update", "C20_iterate"], "note": ""},
  {"property": "C21", "status": "proved", "theorems": ["C21_varint", "C21_length"], "note": ""},
  {"property": "C22", "status": "proved", "theorems": ["C22_difference", "C22_overflow"], "note": ""},
  {"property": "C23", "status": "proved", "theorems": ["C23_flush"], "note": ""},
  {"property": "C24", "status": "proved", "theorems": ["C24_small", "C24_small_15", "C24_sharp"], "note": "with the sharp bound 5791 instead of 5790"},
  {"property": "C25", "status": "proved", "theorems": ["C25_finite"], "note": "for every history with 2p < usize width (every p on 64-bit targets)"},
  {"property": "C26", "status": "partial", "theorems": ["C26_refuted", "C26_finite_iff", "C26_finite_partial"], "note": "REFUTED as stated (C26_refuted: NaN). Exact characterisation: finite iff the raw estimate is below 2^32 (C26_finite_iff)"},
  {"property": "C27", "status": "partial", "theorems": ["C27_plus_refuted", "C27_pf_refuted", "C27_plus_witness", "C27_plus_partial", "C27_pf_partial"], "note": "REFUTED as stated for both types (C27_*_refuted, C27_plus_witness). True part: within each regime (C27_*_partial)"},
  {"property": "C28", "status": "proved", "theorems": ["C28_bias", "C28_between"], "note": "every finite raw, every conforming binary search; C31_plus_normal_partial also covers infinite raw"},
  {"property": "C29", "status": "proved", "theorems": ["C29_plus", "C29_pf"], "note": "32-bit targets with p >= 16 (2p not below the usize width): see C71"},
  {"property": "C30", "status": "proved", "theorems": ["C30_positions_pf", "C30_positions_plus", "C30_plus", "C30_pf", "C30_plus_without", "C30_pf_without"], "note": "serde data model, with and without field names; JSON texts are C77"},
  {"property": "C31", "status": "partial", "theorems": ["C31_normal_exact_partial", "C31_unreadable_partial", "C31_stays_sparse_partial", "C31_converts_partial", "C31_untidy_witness", "C31_converts_exact_partial", "C31_release_partial", "C31_wrapping_partial", "C31_plus_refuted", "C31_sparse_witness", "C31_pf_refuted", "C31_pf_partial", "C31_plus_normal_partial", "C31_plus_sparse_partial", "C31_checked_partial", "C31_unchecked_partial"], "note": "REFUTED as stated (C31_*_refuted, C31_sparse_witness, C31_untidy_witness). Exact panic condition for HyperLogLogPF (C31_pf_partial) and for HyperLogLogPlus with registers (C31_normal_exact_partial); without registers: unreadable bytes always panic (C31_unreadable_partial), exact condition while the flushed list stays sparse (C31_stays_sparse_partial), exact in release builds (C31_release_partial), exact with overflow checks when it is converted at a legal precision and register count with 2p below the width of usize (C31_converts_exact_partial); exact for every deserialized precision, register count and byte string with overflow checks (C31_checked_partial) and without (C31_wrapping_partial). The panic condition is thus exact in every build; only the statement itself is false"},
  {"property": "C32", "status": "proved", "theorems": ["C32_plus", "C32_pf"], "note": ""},
  {"property": "C33", "status": "proved", "theorems": ["C33_plus", "C33_pf"], "note": "32-bit targets with p >= 16 (2p not below the usize width): see C71"},
  {"property": "C34", "status": "proved", "theorems": ["C34_special"], "note": ""},
  {"property": "C35", "status": "proved", "theorems": ["C35_ln_accurate", "C35_accurate"], "note": ""},
  {"property": "C36", "status": "proved", "theorems": ["C36_raw", "C36_raw_pf", "C36_order"], "note": ""},
  {"property": "C37", "status": "proved", "theorems": ["C37_formula"], "note": "for every history with 2p < usize width"},
  {"property": "C38", "status": "proved", "theorems": ["C38_formula", "C38_below"], "note": "for every history with raw estimate below 2^32; above it see C26"},
  {"property": "C39", "status": "partial", "theorems": ["C39_refuted", "C39_codes", "C39_prefixes", "C39_partial"], "note": "REFUTED as stated (C39_refuted). Exact condition under which codes and prefixes are equally many (C39_codes, C39_prefixes); then the count depends on the number of prefixes only (C39_partial)"},
  {"property": "C40", "status": "partial", "theorems": ["C40_refuted", "C40_partial"], "note": "REFUTED for every nonempty sparse history (C40_refuted): the count is linear counting over 2^24 buckets and exceeds the one over 2^25 by at least n^2/2^27. True part, exact to rounding: the excess is n^2/2^26 up to a fraction n/2^23 of it (C40_partial)"},
  {"property": "C41", "status": "proved", "theorems": ["C41_distribution", "C41_sizes_unique"], "note": "64- and 32-bit analogues"},
  {"property": "C42", "status": "proved", "theorems": ["C42_canonical"], "note": ""},
  {"property": "C43", "status": "proved", "theorems": ["C43_range"], "note": ""},
  {"property": "C44", "status": "partial", "theorems": ["C44_refuted", "C44_witness", "C44_partial"], "note": "REFUTED at p = 5 (C44_refuted, observable: C44_witness); true for every other precision (C44_partial)"},
  {"property": "C45", "status": "proved", "theorems": ["C45_registers", "C45_pf", "C45_pf_total", "C45_plus", "C45_plus_total"], "note": "exact numbers of hash lists; both sketches shown to compute such files for every insertion method"},
  {"property": "C46", "status": "proved", "theorems": ["C46_zeros", "C46_number"], "note": "sum over all hash lists"},
  {"property": "C47", "status": "proved", "theorems": ["C47_harmonic"], "note": "sum over all hash lists"},
  {"property": "C48", "status": "proved", "theorems": ["C48_representation", "C48_exact"], "note": "bounds on the encoded length in terms of the number of codes, then the representation and the truncated count; 32-bit targets with p >= 16 (2p not below the usize width): see C71"},
  {"property": "C49", "status": "proved", "theorems": ["C49_estimate_raw"], "note": "bit-equal results for every register list with representable ranks"},
  {"property": "C50", "status": "proved", "theorems": ["C50_plus", "C50_pf"], "note": "count of a saturated sketch, both types, every precision"},
  {"property": "C51", "status": "proved", "theorems": ["C51_plain", "C51_ranked", "C51_space", "C51_expected", "C51_stored"], "note": "class sizes, size of the code space, expected number of codes, stored codes"},
  {"property": "C52", "status": "proved", "theorems": ["C52_display", "C52_plus", "C52_pf", "C52_format", "C52_plain", "C52_distinct", "C52_debug", "C52_eq"], "note": "Display texts of HyperLogLogError, which method returns which, and the texts under every format (Formatter::pad modelled); sinks that fail are not modelled"},
  {"property": "C53", "status": "proved", "theorems": ["C53_exact"], "note": "for all but n^2/2^26 of the 2^(64n) hash assignments, every history absorbing these hashes counts exactly n"},
  {"property": "C54", "status": "proved", "theorems": ["C54_pair", "C54_harmonic", "C54_zeros"], "note": "joint distribution exact; standard deviation of the harmonic sum at most 1.05/sqrt(m) of its mean for p >= 10"},
  {"property": "C55", "status": "proved", "theorems": ["C55_plus", "C55_plus_10", "C55_pf", "C55_pf_10"], "note": "Chebyshev bound over all hash assignments; m=2^p, from 5.5m (plus) and 4m (pf) values on. For p >= 10 the range below, where the bias tables act, is C59"},
  {"property": "C56", "status": "proved", "theorems": ["C56_pf", "C56_plus"], "note": "linear counting; up to m values (pf) and up to the threshold (plus), sparse or not"},
  {"property": "C57", "status": "partial", "theorems": ["C57_refuted", "C57_high", "C57_over"], "note": "REFUTED (C57_refuted): at p=16 and 2^31 values fewer than 10% of the assignments are counted within 10%; 92.7% are counted at least 20% too high (C57_high). C57_over gives the two-sided bound up to 2^31"},
  {"property": "C58", "status": "proved", "theorems": ["C58_tables", "C58_cardinalities"], "note": "all entries of all precisions checked against rational bounds for the mean of the harmonic sum (integer evaluator, proved sound). C58_cardinalities: the whole grid of cardinalities, each pair to 10^-9"},
  {"property": "C59", "status": "proved", "theorems": ["C59_everywhere"], "note": "all four branches, p >= 10; the bias interpolation is bounded by checking the tables cell by cell (proved sound)"},
  {"property": "C60", "status": "proved", "theorems": ["C60_everywhere"], "note": "both branches, p >= 10, n up to 0.9*2^27; beyond that C57"},
  {"property": "C61", "status": "proved", "theorems": ["C61_plus", "C61_pf"], "note": "corollary of C55 at t = 0.0156; more memory than the 1.5 kB the documentation mentions (precision 14 instead of 11)"},
  {"property": "C62", "status": "proved", "theorems": ["C62_plus", "C62_pf"], "note": "deterministic: no assumption on the hash function; 32-bit targets with p >= 16 (2p not below the usize width): see C71"},
  {"property": "C63", "status": "proved", "theorems": ["C63_varint", "C63_unchecked", "C63_differences"], "note": "every byte string, debug and release"},
  {"property": "C64", "status": "proved", "theorems": ["C64_insert", "C64_merge", "C64_run", "C64_amortised"], "note": "every history, any pointer width; amortised bound C64_amortised"},
  {"property": "C65", "status": "proved", "theorems": ["C65_plus", "C65_pf", "C65_plus_large", "C65_pf_large"], "note": "Fractions are exact counts over all hash lists. HyperLogLogPlus: p 10-18, m/2 <= n <= 2^59; HyperLogLogPF: p 10-16, m/2 <= n <= 0.89*2^27; every precision in the range of the raw estimate. Relies on the same hypotheses about ln as C55."},
  {"property": "C66", "status": "proved", "theorems": ["C66_mean", "C66_square", "C66_programs", "C66_pf_mean", "C66_pf_square", "C66_pf_programs", "C66_pf_small_mean", "C66_pf_small_square", "C66_sparse_mean", "C66_sparse_square", "C66_small_square", "C66_everywhere", "C66_pf_everywhere"], "note": "HyperLogLogPlus from 6.06 m values on, HyperLogLogPF from 4 m to 0.95*2^27 with NaN counted as 0, at precision at least 10; up to 0.45 m and 0.5 m values at every precision (HyperLogLogPlus: but 5). C66_everywhere and C66_pf_everywhere cover every number of values (up to 2^59 and 0.95*2^27) at precision at least 10. C66_programs and C66_pf_programs show the programs averaged over exist. Assumes an accurate ln; p with 2p below the width of usize."},
  {"property": "C67", "status": "proved", "theorems": ["C67_hashes_plus", "C67_hashes_pf", "C67_cards_plus", "C67_cards_pf", "C67_precision", "C67_hasher", "C67_exact"], "note": "Model of the two experiments of evaluation/src/main.rs (ModelEval.v), without command line, files and threads; random numbers are an arbitrary sequence."},
  {"property": "C68", "status": "proved", "theorems": ["C68_pf", "C68_pf_sharp", "C68_pf_rare", "C68_plus_normal", "C68_plus_sparse", "C68_doc_plus", "C68_doc_pf", "C68_doc_plus_failures", "C68_doc_pf_failures", "C68_doc_pf_32"], "note": "Assumes an accurate ln. HyperLogLogPF and normal-mode statements with 2p below the width of usize; C68_doc_pf_32 covers the documented example on 32-bit targets with overflow checks."},
  {"property": "C69", "status": "proved", "theorems": ["C69_code_wrapping", "C69_code_legal", "C69_plus_insert_wrapping", "C69_plus_merge_sparse_wrapping", "C69_bytes_wrapping", "C69_plus_merge_codes_wrapping", "C69_plus_merge_into_wrapping", "C69_pf_insert", "C69_plus_insert", "C69_plus_insert_sparse", "C69_plus_insert_sparse_unchecked", "C69_pf_merge", "C69_plus_merge", "C69_plus_merge_sparse", "C69_plus_merge_sparse_unchecked", "C69_plus_merge_codes", "C69_plus_merge_codes_unchecked", "C69_plus_merge_into", "C69_plus_merge_into_unchecked"], "note": "Exact panic condition of insert and merge for every deserialized sketch: HyperLogLogPF in all builds, HyperLogLogPlus with registers in all builds, sparse ones with overflow checks for any bytes, and without for any bytes, precision and register count (the *_wrapping theorems; the *_unchecked ones are the special case of bytes a checked reader accepts)"},
  {"property": "C70", "status": "proved", "theorems": ["C70_add", "C70_sub", "C70_mul", "C70_i32", "C70_shl", "C70_shr", "C70_cast", "C70_not", "C70_leading_zeros", "C70_index", "C70_update", "C70_sort", "C70_sort_unique", "C70_set_insert", "C70_fadd", "C70_fsub", "C70_fmul", "C70_fdiv", "C70_convert", "C70_compare", "C70_compare_nan", "C70_literal", "C70_tables", "C70_log_constants"], "note": "The Rust primitives of ModelRust.v, ModelF64.v and ModelLog.i32 meet an independent specification (SpecRust.v) for all operands. This shrinks the trusted transcription: what remains trusted is SpecRust.v and which primitive each source expression uses. C70_literal, C70_tables and C70_log_constants do the same for decimal literals: the two tables and the constants of log.rs are the decimals of the source, rounded once"},
  {"property": "C71", "status": "proved", "theorems": ["C71_plus_panics", "C71_pf_panics", "C71_plus_release", "C71_pf_release", "C71_plus_state", "C71_pf_state", "C71_plus_sparse", "C71_plus_same", "C71_pf_same", "C71_plus_transfer", "C71_pf_transfer", "C71_narrow", "C71_fits"], "note": "closes the gap left by the hypothesis narrow (2p < usize width) in other properties: exact panics, states, same-set counts and transfer of counts to any width"},
  {"property": "C72", "status": "proved", "theorems": ["C72_parse", "C72_display", "C72_load", "C72_save", "C72_paths", "C72_names", "C72_threads", "C72_threads_panic", "C72_threads_no_file", "C72_no_directory", "C72_write", "C72_generate", "C72_hashes_plus", "C72_hashes_pf", "C72_cards_plus", "C72_cards_pf", "C72_bad_file", "C72_bad_precision", "C72_bad_jobs", "C72_pipeline", "C72_same_name_refuted"], "note": "arguments, files, std text and path functions and the thread pool modelled in ModelFiles; clap and I/O errors on open files are not. Inputs of the same name overwrite each other (C72_same_name_refuted)"},
  {"property": "C73", "status": "proved", "theorems": ["C73_smaller", "C73_pf_lower", "C73_zeros"], "note": "The claim of evaluation/README.md, with a factor of 10 in the mean square. Precisions both types admit (4 to 16); assumes an accurate ln in each build."},
  {"property": "C74", "status": "proved", "theorems": ["C74_series", "C74_powers", "C74_reach", "C74_compare", "C74_range", "C74_small", "C74_overflow", "C74_file", "C74_statistics", "C74_error", "C74_experiment_plus", "C74_experiment_pf"], "note": "exp.py modelled in ModelExp on integers and binary64; the maximum is an integer; argparse, glob and plots are not modelled, the statistics of numpy are C87. Maxima of about 2^1024 and more raise OverflowError (C74_series, C74_overflow)"},
  {"property": "C75", "status": "proved", "theorems": ["C75_gen_accepted", "C75_run_accepted", "C75_unused", "C75_gen_bad", "C75_cards_unreadable", "C75_cards_bad", "C75_gen_idle", "C75_cards_idle", "C75_nothing"], "note": "Declared rules of clap modelled as a predicate on the values (ModelArgs); how clap splits the command line is not modelled"},
  {"property": "C76", "status": "proved", "theorems": ["C76_string", "C76_insert_pf", "C76_insert_plus", "C76_count_pf", "C76_count_plus", "C76_cases", "C76_thresholds", "C76_registers_get", "C76_registers_set", "C76_varint_push", "C76_varint_decode", "C76_pf_insert", "C76_pf_count", "C76_pf_with_hash", "C76_plus_insert_normal", "C76_plus_with_hash", "C76_plus_count_normal", "C76_merge_sparse", "C76_estimate_bias"], "note": "Timing and the number of iterations are not modelled; the latter is arbitrary. The random numbers, shuffle, hash functions and set iteration orders are arbitrary too."},
  {"property": "C77", "status": "proved", "theorems": ["C77_grammar", "C77_fuel", "C77_write", "C77_escape", "C77_read_pf", "C77_read_plus", "C77_text_pf", "C77_text_plus", "C77_plus", "C77_pf", "C77_builder_plus", "C77_builder_pf", "C77_blank", "C77_order", "C77_unknown", "C77_twice", "C77_missing", "C77_registers", "C77_array", "C77_outside_pf", "C77_outside_plus", "C77_hostile_witness"], "note": "serde_json is modelled as: parse the whole text, then visit the value. Not modelled: the limit of 127 nested values, the UTF-8 check on the bytes of strings (from_str gets a valid str), error messages."},
  {"property": "C78", "status": "proved", "theorems": ["C78_integer", "C78_hexadecimal", "C78_short_pf", "C78_short_plus", "C78_long_pf", "C78_long_plus", "C78_lines", "C78_same_pf", "C78_same_plus", "C78_count_pf", "C78_count_plus", "C78_width_witness", "C78_order_witness"], "note": "The builders of std::fmt and Formatter::pad_integral are modelled from their source. What the hash builder and PhantomData write is an arbitrary text. A sink that refuses the text is not modelled."},
  {"property": "C79", "status": "proved", "theorems": ["C79_same_calls", "C79_same_plus", "C79_same_pf", "C79_plus", "C79_stream", "C79_insert", "C79_merge", "C79_count", "C79_count_registers", "C79_again", "C79_pf"], "note": "A step is defined in ModelCost: calls, loop iterations, elements, and n times the bits of n for sorting n elements. Work between the loops, such as one hash or one HashSet operation, is not counted."},
  {"property": "C80", "status": "proved", "theorems": ["C80_pf", "C80_plus", "C80_sparse", "C80_chance", "C80_changes_pf", "C80_changes_plus", "C80_alike_pf", "C80_alike_plus", "C80_defeat_pf", "C80_defeat_plus", "C80_defeat_sparse"], "note": "A sparse sketch is compared after a count, since the pending set keeps the order of insertion. The chance in C80_chance is over the exact raw estimate; C36 bounds the rounding of the code."},
  {"property": "C81", "status": "proved", "theorems": ["C81_same_pf", "C81_same_plus", "C81_insert_pf", "C81_count_pf", "C81_merge_pf", "C81_setup", "C81_insert_plus", "C81_count_plus", "C81_merge_plus", "C81_calm_pf", "C81_calm_plus", "C81_programs_pf", "C81_programs_plus"], "note": "Allocation failure aborts the process and is not a panic. The codes of a list that was decoded from untrusted data and then flushed before a panic are not described; for sketches built by the API C81_programs says what is left."},
  {"property": "C82", "status": "proved", "theorems": ["C82_pf", "C82_pf_empty", "C82_pf_flip", "C82_plus", "C82_plus_refuted", "C82_plus_close", "C82_plus_empty", "C82_plus_sparse", "C82_plus_flip", "C82_moved", "C82_flip_moves"], "note": "the bound 53-p on the ranks is needed: C82_plus_refuted shows 54-p is too much at precision 4"},
  {"property": "C83", "status": "proved", "theorems": ["C83_sparse", "C83_half_plus", "C83_half_pf", "C83_blowup_plus", "C83_blowup_pf"], "note": "Sparse union: count(a)+count(b)-count(a union b) is the number of common codes up to n^2/2^25, and is negative when there are none (C83_sparse). Values in half of the buckets count at most 2.6m (HyperLogLogPF: 0.76m) whatever their hashes (C83_half_*), yet two such sketches can merge into one counting 2^64 or NaN (C83_blowup_*)"},
  {"property": "C84", "status": "proved", "theorems": ["C84_pf", "C84_plus", "C84_plus_complete"], "note": "serde data model: the accepted data as relations, both directions (C84_pf, C84_plus, C84_plus_complete)"},
  {"property": "C85", "status": "proved", "theorems": ["C85_pf", "C85_plus", "C85_depth_pf", "C85_depth_plus"], "note": "JSON as modelled for C77; bounds in bytes over what the hash builder writes"},
  {"property": "C86", "status": "proved", "theorems": ["C86_bytes", "C86_sparse", "C86_merge", "C86_chance"], "note": "C86_bytes, C86_sparse (worst case by kind of code), C86_merge (union of two lists), C86_chance (random hashes)"},
  {"property": "C87", "status": "proved", "theorems": ["C87_mean", "C87_median", "C87_middle", "C87_std", "C87_rows", "C87_exist"], "note": "numpy is not in /repo: its sums are modelled with any order and parentheses, the median with any partition"},
  {"property": "C88", "status": "proved", "theorems": ["C88_prepare", "C88_hashes", "C88_cards", "C88_experiment_plus", "C88_experiment_pf"], "note": "clap is modelled only for commands of the form exp.py writes; argparse and the matches of glob are given"},
  {"property": "C89", "status": "proved", "theorems": ["C89_plus", "C89_pf"], "note": "the files that glob finds in the prepared directory are given: exactly those prepared, in any order"},
  {"property": "C90", "status": "proved", "theorems": ["C90_plot", "C90_marks"], "note": "the values given to matplotlib; not matplotlib, the x axis and the texts"},
  {"property": "C91", "status": "proved", "theorems": ["C91_line", "C91_sharp", "C91_experiment", "C91_cards"], "note": "the files that glob finds in the prepared directory are given, as in C89"},
  {"property": "C92", "status": "proved", "theorems": ["C92_pf", "C92_plus", "C92_low", "C92_cards_pf", "C92_cards_plus", "C92_cards_low"], "note": "the files that glob finds are given: those prepared, and the estimates written, each in any order; the values given to matplotlib, as in C90"},
  {"property": "C93", "status": "proved", "theorems": ["C93_rows", "C93_plot", "C93_empty"], "note": "All orders of the files; the agreement about cardinalities is shown to be needed by C93_example."}
]}
