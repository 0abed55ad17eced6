{
 "claims": [
  {
   "property": "C01",
   "status": "proved",
   "theorems": [
    "C01_truncate_windows",
    "C01_truncate_fits",
    "C01_truncate_zero"
   ],
   "note": "windows as a relational tiling spec over the zipped token table; both directions"
  },
  {
   "property": "C02",
   "status": "proved",
   "theorems": [
    "C02_parallel_history",
    "C02_parallel_constructors",
    "C02_parallel_batch"
   ],
   "note": "histories of truncate/pad/merge/set_sequence_id/set_type_ids; post-processor preservation is in the processor theorems"
  },
  {
   "property": "C03",
   "status": "proved",
   "theorems": [
    "C03_truncate_panics_iff",
    "C03_truncate_otherwise_ok"
   ],
   "note": "if and only if"
  },
  {
   "property": "C04",
   "status": "proved",
   "theorems": [
    "C04_pad_content",
    "C04_pad_membership",
    "C04_pad_idempotent",
    "C04_pad_positions_have_no_sequence_refuted"
   ],
   "note": "also a finding: on encodings without ranges pad positions are reported as sequence 0"
  },
  {
   "property": "C05",
   "status": "proved",
   "theorems": [
    "C05_pad_batch_longest",
    "C05_pad_fixed"
   ],
   "note": "least multiple; multiple 0 included"
  },
  {
   "property": "C06",
   "status": "proved",
   "theorems": [
    "C06_merge_rows",
    "C06_merge_list",
    "C06_merge_assoc",
    "C06_merge_neutral",
    "C06_merge_ranges",
    "C06_merge_overflow"
   ],
   "note": "rows, association, neutral element, ranges for disjoint sequence ids, overflow product as a permutation"
  },
  {
   "property": "C07",
   "status": "proved",
   "theorems": [
    "C07_char_to_token",
    "C07_token_to_chars",
    "C07_token_to_word",
    "C07_char_to_word",
    "C07_roundtrip",
    "C07_word_to_tokens",
    "C07_word_to_chars"
   ],
   "note": "all six lookups, for well-formed ranges; word_to_tokens for non-decreasing word ids"
  },
  {
   "property": "C08",
   "status": "proved",
   "theorems": [
    "C08_token_to_sequence",
    "C08_out_of_range_refuted",
    "C08_get_sequence_ids",
    "C08_get_sequence_ids_agree_refuted"
   ],
   "note": "stated with the guard that excludes index = len on encodings without ranges; the unguarded claim is refuted"
  },
  {
   "property": "C09",
   "status": "proved",
   "theorems": [
    "C09_truncate_encodings",
    "C09_fits_unchanged",
    "C09_errors",
    "C09_no_panic_without_stride"
   ],
   "note": "exact sum, fairness, kept prefix/suffix, error conditions iff, no panic without stride"
  },
  {
   "property": "C10",
   "status": "proved",
   "theorems": [
    "C10_accepts",
    "C10_single_exactly",
    "C10_single",
    "C10_pair",
    "C10_stride_refuted",
    "C10_pair_count_refuted",
    "C10_halves_refuted",
    "C10_leftover_refuted"
   ],
   "note": "Exact characterisation for single texts, sufficient bounds for pairs; four families of accepted settings that panic are exhibited (\u2026_refuted)."
  },
  {
   "property": "C11",
   "status": "proved",
   "theorems": [
    "C11_length",
    "C11_overflowing",
    "C11_overflowing_refuted"
   ],
   "note": "The overflow claim needs room for a token of each sequence cut; C11_overflowing_refuted shows why."
  },
  {
   "property": "C12",
   "status": "proved",
   "theorems": [
    "C12_alignment_invariant",
    "C12_contract_needed_refuted"
   ],
   "note": "every history of the eleven mutating operations, Unicode tables as oracles; only explicit transform_range calls must respect their documented contract (refuted without it)"
  },
  {
   "property": "C13",
   "status": "proved",
   "theorems": [
    "C13_normalized_to_original",
    "C13_original_to_normalized",
    "C13_untouched",
    "C13_invalid",
    "C13_bounds",
    "C13_original_out_of_bounds_refuted"
   ],
   "note": "both directions characterised byte by byte; identity on untouched text; refused ranges"
  },
  {
   "property": "C14",
   "status": "proved",
   "theorems": [
    "C14_slice_normalized",
    "C14_slice_original",
    "C14_slice_none",
    "C14_slice_empty",
    "C14_slice_total",
    "C14_empty_slice_position_refuted"
   ],
   "note": "non-empty ranges in both referentials, None iff, never panics; finding: empty slices get a wrong position (refuted)"
  },
  {
   "property": "C15",
   "status": "proved",
   "theorems": [
    "C15_split",
    "C15_split_text"
   ],
   "note": "exact pieces for the five behaviours, as parts of the parent with their position, and as text"
  },
  {
   "property": "C16",
   "status": "proved",
   "theorems": [
    "C16_predicate",
    "C16_char",
    "C16_regex",
    "C16_string",
    "C16_invert",
    "C16_empty_string_partial",
    "C16_empty_string_refuted"
   ],
   "note": "regex engine as an oracle (ordered non-overlapping boundary matches); the empty string pattern is refuted on multi-byte text and proved on one-byte text"
  },
  {
   "property": "C17",
   "status": "proved",
   "theorems": [
    "C17_safe_histories",
    "C17_panic_refuted",
    "C17_duplication_refuted",
    "C17_front",
    "C17_front_safe",
    "C17_exact",
    "C17_history",
    "C17_text",
    "C17_prepend_refuted",
    "C17_clear_refuted"
   ],
   "note": "\"Never\" is false of the code (C17_panic_refuted, C17_duplication_refuted, C17_prepend_refuted, C17_clear_refuted); the exact condition is proved for every operation after every history (C17_exact, C17_history), and histories without an insertion in front never panic (C17_safe_histories)."
  },
  {
   "property": "C18",
   "status": "proved",
   "theorems": [
    "C18_roundtrip",
    "C18_bytes_to_char_only",
    "C18_inverse",
    "C18_get_range_of",
    "C18_get_range_of_total",
    "C18_end_refuted"
   ],
   "note": "both directions, inverse, get_range_of; finding: the empty range at the end of a string is refused and inverted ranges panic"
  },
  {
   "property": "C19",
   "status": "proved",
   "theorems": [
    "C19_filter",
    "C19_strip",
    "C19_safe_histories",
    "C19_zero_width_refuted"
   ],
   "note": "for texts whose first character has a non-empty range (all safe histories); refuted without it"
  },
  {
   "property": "C20",
   "status": "proved",
   "theorems": [
    "C20_replace",
    "C20_replace_text"
   ],
   "note": "exact text and alignments"
  },
  {
   "property": "C21",
   "status": "proved",
   "theorems": [
    "C21_parts",
    "C21_lossless",
    "C21_offsets_ordered",
    "C21_offsets_inside",
    "C21_inside_any_history",
    "C21_pattern_split_only_cuts"
   ],
   "note": "any number of cutting passes; plus insideness for passes that also rewrite text"
  },
  {
   "property": "C22",
   "status": "proved",
   "theorems": [
    "C22_rows",
    "C22_no_offsets",
    "C22_fails_iff",
    "C22_words_in_order",
    "C22_empty_token_outside_refuted"
   ],
   "note": "for tokens covering non-empty ranges; finding: empty token ranges are reported at normalised positions"
  },
  {
   "property": "C23",
   "status": "proved",
   "theorems": [
    "C23_convert",
    "C23_encoding",
    "C23_get_splits",
    "C23_get_splits_bytes",
    "C23_end_of_text_refuted",
    "C23_normalized_char_offsets_refuted"
   ],
   "note": "for ranges starting before the end of the text; refuted at the very end and for normalised offsets"
  },
  {
   "property": "C24",
   "status": "proved",
   "theorems": [
    "C24_right",
    "C24_left",
    "C24_left_word_ids_refuted",
    "C24_encode",
    "C24_fails",
    "C24_empty_first_refuted",
    "C24_odd_pair_refuted"
   ],
   "note": "Split level (C24_right, C24_left) and whole inputs (C24_encode); C24_odd_pair_refuted shows the excluded case differs."
  },
  {
   "property": "C25",
   "status": "proved",
   "theorems": [
    "C25_ids_never_change",
    "C25_model_tokens_keep_their_id",
    "C25_distinct_ids",
    "C25_new_ids_are_new",
    "C25_added_tokens_have_ids",
    "C25_id_to_token",
    "C25_round_trip_without_normalizer",
    "C25_round_trip_refuted",
    "C25_sparse_model_refuted"
   ],
   "note": "stability over any model; unambiguity over models whose ids are dense (refuted for models with gaps); read-back up to normalised forms (exact round trip refuted with a normalizer, proved without)"
  },
  {
   "property": "C26",
   "status": "proved",
   "theorems": [
    "C26_count",
    "C26_distinct_new_tokens_all_count",
    "C26_again",
    "C26_again_refuted"
   ],
   "note": "count over any list; idempotence for lists without two different tokens of one content (refuted otherwise)"
  },
  {
   "property": "C27",
   "status": "proved",
   "theorems": [
    "C27_partition",
    "C27_extract",
    "C27_extract_lossless",
    "C27_overlap_refuted",
    "C27_panic_refuted"
   ],
   "note": "when no right-stripping token meets patterns starting with whitespace; refuted (overlap, panic) otherwise"
  },
  {
   "property": "C28",
   "status": "proved",
   "theorems": [
    "C28_matches",
    "C28_patterns",
    "C28_every_token_searched"
   ],
   "note": "leftmost-longest matches, flags, patterns searched; same whitespace condition as C27"
  },
  {
   "property": "C29",
   "status": "proved",
   "theorems": [
    "C29_vocab_size",
    "C29_vocab_entries"
   ],
   "note": "any history, any model with distinct keys"
  },
  {
   "property": "C30",
   "status": "proved",
   "theorems": [
    "C30_decode",
    "C30_decode_successful",
    "C30_unspecial_refuted",
    "C30_normalized_special_refuted"
   ],
   "note": "special = once added as special (refuted for un-specialised and normalised-name tokens)"
  },
  {
   "property": "C31",
   "status": "proved",
   "theorems": [
    "C31_chunk",
    "C31_local",
    "C31_steady",
    "C31_decoders",
    "C31_local_decoders",
    "C31_byte_fallback_refuted",
    "C31_bpe_refuted",
    "C31_fuse_strip_refuted",
    "C31_llama_refuted"
   ],
   "note": "C31_steady: exact for no decoder, ByteLevel, WordPiece, Metaspace, CTC, Fuse, Replace; C31_local: for local decoders (ByteFallback, BPE) as long as no call fails; refuted beyond: ByteFallback stream can error for ever, BPE decoder panics on no token, Fuse+Strip and the Llama decoder silently give another text"
  },
  {
   "property": "C32",
   "status": "proved",
   "theorems": [
    "C32_canonical",
    "C32_unique",
    "C32_built",
    "C32_tokenize",
    "C32_distinct_ids_needed_refuted"
   ],
   "note": "For every heap tie-breaking, word and table with an additive weight; instantiated to every table made by the builder from a vocabulary with distinct ids. The distinct-ids hypothesis is needed: C32_distinct_ids_needed_refuted."
  },
  {
   "property": "C33",
   "status": "proved",
   "theorems": [
    "C33_cover",
    "C33_total",
    "C33_values",
    "C33_text",
    "C33_known_word",
    "C33_byte_fallback_order_refuted",
    "C33_no_unk_refuted",
    "C33_byte_fallback_prefix_refuted",
    "C33_byte_names",
    "C33_byte_names_distinct"
   ],
   "note": "Contiguity always; the end and the texts under the coverage condition of the statement. Where it fails (no unknown token, byte fallback with a pending unknown or with a prefix) the refuted theorems give witnesses."
  },
  {
   "property": "C34",
   "status": "proved",
   "theorems": [
    "C34_valid",
    "C34_all_dropped",
    "C34_none_dropped",
    "C34_tokenize"
   ],
   "note": "All sequences of draws and heap tie-breakings."
  },
  {
   "property": "C35",
   "status": "proved",
   "theorems": [
    "C35_bpe",
    "C35_bpe_progress",
    "C35_bpe_stale_refuted",
    "C35_shared",
    "C35_shared_bounded",
    "C35_shared_no_underflow",
    "C35_unigram",
    "C35_unigram_stale_refuted",
    "C35_retrain_panic_refuted",
    "C35_retrain_refuted"
   ],
   "note": "The thread-local cache of BPE under any interleaving of calls, builds, clones, clears, resizes and assignments; the shared cache of Unigram for any cached computation. C35_bpe_stale_refuted: assigning a public field that decides the words without clear_cache returns stale tokens. C35_retrain_refuted, C35_retrain_panic_refuted: training a model that was used keeps the cache."
  },
  {
   "property": "C36",
   "status": "proved",
   "theorems": [
    "C36_accepts",
    "C36_table",
    "C36_fields",
    "C36_panics",
    "C36_never_panics_refuted"
   ],
   "note": "Acceptance, table and an exact characterisation of the panics, which are reachable (C36_never_panics_refuted)."
  },
  {
   "property": "C37",
   "status": "proved",
   "theorems": [
    "C37_train",
    "C37_special",
    "C37_size",
    "C37_size_refuted",
    "C37_max_length",
    "C37_max_length_refuted",
    "C37_ranks",
    "C37_rank_hole_refuted",
    "C37_rebuild"
   ],
   "note": "for corpora below 2^31/5 characters; refuted beyond: a suffix adds forms of characters over the bound and can leave a rank out; two characters are merged whatever max_token_length"
  },
  {
   "property": "C38",
   "status": "proved",
   "theorems": [
    "C38_learns",
    "C38_deterministic",
    "C38_order_refuted",
    "C38_wrap_refuted"
   ],
   "note": "unconditional without prefix and suffix, else as long as results of merges are new; C38_wrap_refuted: counts of 2^31 wrap; C38_order_refuted: with a suffix ids depend on hash order"
  },
  {
   "property": "C39",
   "status": "proved",
   "theorems": [
    "C39_counts",
    "C39_same",
    "C39_fails",
    "C39_training"
   ],
   "note": "any reduction tree, any order; composed with C38 into C39_training"
  },
  {
   "property": "C40",
   "status": "proved",
   "theorems": [
    "C40_unique",
    "C40_pieces",
    "C40_unknown",
    "C40_cases",
    "C40_total",
    "C40_cover"
   ],
   "note": "Greedy longest-match, uniqueness of the greedy split, the unknown cases, totality and offsets."
  },
  {
   "property": "C41",
   "status": "proved",
   "theorems": [
    "C41_total",
    "C41_one_token"
   ],
   "note": "One token that covers the word, or the missing-unknown error."
  },
  {
   "property": "C42",
   "status": "proved",
   "theorems": [
    "C42_optimised",
    "C42_viterbi",
    "C42_agree",
    "C42_f64_laws",
    "C42_f64_scores",
    "C42_f64",
    "C42_f64_viterbi"
   ],
   "note": "Both searches, for any arithmetic with the listed laws, proved of IEEE 754 binary64 log-probabilities in UnigramFloatProps.v (which brings in the axioms of the standard library of reals). The lattice search needs an unknown token, see C43_sampling_without_unk_refuted."
  },
  {
   "property": "C43",
   "status": "proved",
   "theorems": [
    "C43_pieces",
    "C43_succeeds",
    "C43_sampling_succeeds",
    "C43_failure",
    "C43_only_when_needed_refuted",
    "C43_sampling_without_unk_refuted",
    "C43_f64"
   ],
   "note": "All three ways of choosing a path. Two parts of the claim are refuted: C43_only_when_needed_refuted (error though no unknown is needed) and C43_sampling_without_unk_refuted."
  },
  {
   "property": "C44",
   "status": "proved",
   "theorems": [
    "C44_exact",
    "C44_increasing"
   ],
   "note": "Exactly the stored tokens that are prefixes, in increasing length."
  },
  {
   "property": "C45",
   "status": "proved",
   "theorems": [
    "C45_accurate",
    "C45_build",
    "C45_after_template_refuted",
    "C45_two_templates_refuted",
    "C45_single_B_refuted",
    "C45_deserialised_refuted",
    "C45_setter_refuted",
    "C45_twice_refuted"
   ],
   "note": "For BERT, RoBERTa, ByteLevel, builder-made templates using each sequence once, and sequences of them in which only neutral processors follow a template (accurate): the announced count is right for the output and every overflowing encoding, with and without special tokens, and the input tokens are kept in order. The unrestricted statement is refuted for: processors after a template, two templates, $B in a single template, deserialised templates, setters, sequences used twice."
  },
  {
   "property": "C46",
   "status": "proved",
   "theorems": [
    "C46_bert",
    "C46_bert_bare",
    "C46_roberta",
    "C46_byte_level",
    "C46_template",
    "C46_template_usual",
    "C46_template_total",
    "C46_template_types_refuted",
    "C46_roberta_bare_refuted",
    "C46_byte_level_after_template_refuted"
   ],
   "note": "Layouts of BERT, RoBERTa, ByteLevel and templates, position by position, for the output and all overflowing encodings. Refuted parts: type ids of overflowing encodings for templates whose written type ids differ from the sequence number, RoBERTa without special tokens on pairs, ByteLevel after a template."
  },
  {
   "property": "C47",
   "status": "proved",
   "theorems": [
    "C47_alphabet",
    "C47_distinct",
    "C47_alphabet_only",
    "C47_decode",
    "C47_pre_tokenise",
    "C47_sections",
    "C47_roundtrip",
    "C47_prefix_space_refuted",
    "C47_foreign_refuted"
   ],
   "note": "Any cut of the image, mixed with tokens outside the alphabet. Two limits refuted: the added prefix space stays, and a token of alphabet characters is always read as bytes."
  },
  {
   "property": "C48",
   "status": "proved",
   "theorems": [
    "C48_decode",
    "C48_total",
    "C48_text",
    "C48_plus_refuted"
   ],
   "note": "Exact relation; also '<0x+N>' is read as a byte token (refuted as an exactness claim)."
  },
  {
   "property": "C49",
   "status": "proved",
   "theorems": [
    "C49_any_cut",
    "C49_pre_tokenise",
    "C49_sections",
    "C49_roundtrip",
    "C49_unsplit_refuted",
    "C49_leading_space_refuted"
   ],
   "note": "For split sections cut into tokens in any way, or any cut whose first token has the mark only in front. Unsplit sections kept as one token lose every space, and one leading space is lost: refuted with witnesses."
  },
  {
   "property": "C50",
   "status": "proved",
   "theorems": [
    "C50_runs_exist",
    "C50_runs_unique",
    "C50_runs",
    "C50_simple",
    "C50_delimiter_refuted"
   ],
   "note": "Runs are unique; without cleanup the delimiter is kept (witness)."
  },
  {
   "property": "C51",
   "status": "proved",
   "theorems": [
    "C51_replace",
    "C51_harmless",
    "C51_no_error",
    "C51_bpe",
    "C51_strip",
    "C51_strip_panics",
    "C51_sequence",
    "C51_fuse",
    "C51_refuted"
   ],
   "note": "Never an error; panics exactly for BPE on an empty list and Strip on a token of too few copies of its character."
  },
  {
   "property": "C52",
   "status": "proved",
   "theorems": [
    "C52_glue",
    "C52_glue_unique",
    "C52_words",
    "C52_prefixed_word_refuted",
    "C52_empty_prefix_refuted"
   ],
   "note": "Words that start with the continuation prefix, or an empty prefix, are shown not to come back."
  },
  {
   "property": "C53",
   "status": "proved",
   "theorems": [
    "C53_fixed",
    "C53_zero_refuted",
    "C53_scripts",
    "C53_scripts_kept",
    "C53_scripts_lost_refuted"
   ],
   "note": "refuted parts: FixedLength(0) panics on any text (C53_zero_refuted); UnicodeScripts drops the characters before the first one with a script of its own (C53_scripts_lost_refuted)"
  },
  {
   "property": "C54",
   "status": "proved",
   "theorems": [
    "C54_within",
    "C54_exact",
    "C54_untouched"
   ],
   "note": "Also an exact description of the trimmed range. char::is_whitespace is an arbitrary predicate."
  },
  {
   "property": "C55",
   "status": "proved",
   "theorems": [
    "C55_ok",
    "C55_schedules",
    "C55_fails",
    "C55_same_length"
   ],
   "note": "Every schedule; padding applied twice (by encode and by encode_batch) is shown equal to padding once."
  },
  {
   "property": "C56",
   "status": "proved",
   "theorems": [
    "C56_saved",
    "C56_tokenize",
    "C56_known",
    "C56_duplicate_refuted",
    "C56_max_id_refuted",
    "C56_legacy_merges"
   ],
   "note": "The JSON value is the model of the text: that serde_json writes and reads it back is trusted. Duplicate ids and the id 2^32-1 are refuted."
  },
  {
   "property": "C57",
   "status": "proved",
   "theorems": [
    "C57_save_load",
    "C57_load_succeeds",
    "C57_names",
    "C57_special_set_refuted",
    "C57_encode_special_refuted",
    "C57_sparse_model_refuted"
   ],
   "note": "added tokens saved and loaded over the same dense model; special set and encode_special_tokens refuted"
  },
  {
   "property": "C58",
   "status": "proved",
   "theorems": [
    "C58_tokens",
    "C58_ranges",
    "C58_succeeds"
   ],
   "note": "The tokens of every piece, their ranges and success."
  },
  {
   "property": "C59",
   "status": "proved",
   "theorems": [
    "C59_wordlevel_size",
    "C59_wordlevel",
    "C59_wordlevel_order",
    "C59_wordlevel_gap_refuted",
    "C59_wordpiece",
    "C59_unigram",
    "C59_unigram_order",
    "C59_unigram_size",
    "C59_unigram_ids",
    "C59_unigram_size_refuted",
    "C59_unigram_special_refuted"
   ],
   "note": "WordLevel needs distinct special tokens that are no words (C59_wordlevel_gap_refuted); Unigram exceeds the size when characters fill it (C59_unigram_size_refuted) and panics with more special tokens than the size (C59_unigram_special_refuted). Seeding, expectation counts, digamma and pruning of Unigram are arguments of the model."
  },
  {
   "property": "C60",
   "status": "proved",
   "theorems": [
    "C60_isolated",
    "C60_clean",
    "C60_extension_e_refuted",
    "C60_forgotten"
   ],
   "note": "Isolation for every handled ideograph with any options (table hypotheses only when accents or case change), cleaning, and the refutation: U+2B820-U+2B91F are forgotten by the code."
  },
  {
   "property": "C61",
   "status": "proved",
   "theorems": [
    "C61_map",
    "C61_case",
    "C61_clear",
    "C61_prepend",
    "C61_append",
    "C61_prepend_empty_refuted"
   ],
   "note": "finding: prepend(\"\") is not the identity"
  },
  {
   "property": "C62",
   "status": "proved",
   "theorems": [
    "C62_raw_tokens",
    "C62_words",
    "C62_words_total",
    "C62_single_plain",
    "C62_pair_plain",
    "C62_padding",
    "C62_bert",
    "C62_roberta",
    "C62_template",
    "C62_fast_types_refuted",
    "C62_overflow_owner_refuted",
    "C62_cutting_sound",
    "C62_rewriting_sound",
    "C62_sequence_sound",
    "C62_chars"
   ],
   "note": "for every tokenizer whose parts behave (stated as `sound`); two refuted variants record encode_fast's lost type ids and the unmarked overflowing encodings"
  },
  {
   "property": "C63",
   "status": "proved",
   "theorems": [
    "C63_encode",
    "C63_corpus"
   ],
   "note": "without prefix and suffix"
  },
  {
   "property": "C64",
   "status": "proved",
   "theorems": [
    "C64_unigram",
    "C64_wordlevel",
    "C64_wordpiece",
    "C64_wordpiece_prefix_refuted",
    "C64_wordpiece_suffix_refuted",
    "C64_bpe"
   ],
   "note": "false for WordPiece trained without prefix or with suffix (C64_wordpiece_prefix_refuted, C64_wordpiece_suffix_refuted)"
  },
  {
   "property": "C65",
   "status": "proved",
   "theorems": [
    "C65_pieces",
    "C65_text",
    "C65_sound",
    "C65_whitespace"
   ],
   "note": "regex engines, Unicode tables and the script table are arguments; Metaspace with prepend scheme First is described up to whether it puts the replacement (C49 says when)"
  },
  {
   "property": "C66",
   "status": "proved",
   "theorems": [
    "C66_saved",
    "C66_tokenize",
    "C66_unigram_nonfinite_refuted"
   ],
   "note": "All four models and the wrapper, with and without the field type. Non-finite Unigram scores are refuted."
  },
  {
   "property": "C67",
   "status": "proved",
   "theorems": [
    "C67_bpe",
    "C67_wordlevel",
    "C67_wordpiece",
    "C67_lines",
    "C67_space_refuted",
    "C67_return_refuted",
    "C67_header_refuted",
    "C67_hole_refuted",
    "C67_blank_refuted"
   ],
   "note": "Files as values and texts; the conditions on lines are each shown necessary by a refutation."
  },
  {
   "property": "C68",
   "status": "proved",
   "theorems": [
    "C68_normalizer",
    "C68_text",
    "C68_literal",
    "C68_prepend_empty_refuted",
    "C68_replace_start_refuted",
    "C68_precompiled_leading_refuted"
   ],
   "note": "Every normalizer and sequence of them, characters with their ranges; hypotheses (non-empty prefix, no empty match at the start, documented format of normal forms) shown necessary by refutations."
  },
  {
   "property": "C69",
   "status": "proved",
   "theorems": [
    "C69_round_trip",
    "C69_special_skipped",
    "C69_prefix_space_refuted",
    "C69_added_alphabet_refuted",
    "C69_lstrip_refuted",
    "C69_alphabet_refuted"
   ],
   "note": "Whole pipeline, total: encode succeeds and decode returns the text; with special tokens for Bert, Roberta, ByteLevel and template post-processors; each hypothesis shown necessary by a refutation."
  },
  {
   "property": "C70",
   "status": "proved",
   "theorems": [
    "C70_sections",
    "C70_round_trip",
    "C70_special_skipped",
    "C70_added_refuted",
    "C70_mark_refuted",
    "C70_no_mark_refuted",
    "C70_merged_bytes_refuted",
    "C70_written_byte_refuted",
    "C70_normalized_missed_refuted",
    "C70_special_mark_refuted"
   ],
   "note": "Whole pipeline, total, for every text; exact result when added tokens or marks are written in the text; special tokens around the text for all post-processors of C46; each hypothesis shown necessary by a refutation."
  },
  {
   "property": "C71",
   "status": "proved",
   "theorems": [
    "C71_normalizer",
    "C71_pre_tokenizer",
    "C71_decoder",
    "C71_processor",
    "C71_processor_alike",
    "C71_untyped",
    "C71_loaded_valid",
    "C71_no_panic",
    "C71_defaults",
    "C71_old_metaspace_refuted",
    "C71_precompiled_refuted",
    "C71_delimiter_refuted",
    "C71_wrong_type_refuted",
    "C71_setter_refuted"
   ],
   "note": "All kinds, any nesting of sequences, any order of the fields, with and without the optional field type; what is loaded is always valid; the only panic is a bad Precompiled. Regex engine, charsmap decoding and JSON text are arguments or trusted; serde's other spellings of structs (arrays) are not modelled."
  },
  {
   "property": "C72",
   "status": "proved",
   "theorems": [
    "C72_tokenizer",
    "C72_same",
    "C72_fields",
    "C72_minimal",
    "C72_defaults",
    "C72_no_panic",
    "C72_encode_special_refuted",
    "C72_again_refuted",
    "C72_truncation_refuted",
    "C72_merge_refuted"
   ],
   "note": "Any model, components, added tokens, truncation and padding, any order of the fields. With encode_special_tokens on, or one content added with different flags, the loaded tokenizer differs (refuted with witnesses). The JSON text (and serde_json's depth limit of 127) and the Aho-Corasick builder's answer are arguments or trusted."
  },
  {
   "property": "C73",
   "status": "proved",
   "theorems": [
    "C73_ends",
    "C73_segmentations",
    "C73_reading",
    "C73_all",
    "C73_descending",
    "C73_first",
    "C73_best"
   ],
   "note": "Termination, distinctness and completeness for any scores whatever (NaN included); order and optimality when the scores of the tokens inside the text are comparable and added exactly (f64 rounding can swap near-equal totals). Completeness and optimality up to 16 characters: beyond, the agenda may exceed 100000 entries and is cut to min(512, 10 n)."
  },
  {
   "property": "C74",
   "status": "proved",
   "theorems": [
    "C74_finite",
    "C74_total",
    "C74_expected",
    "C74_posterior",
    "C74_sample",
    "C74_smoothing_refuted",
    "C74_unknown_refuted",
    "C74_real_laws",
    "C74_cut"
   ],
   "note": "Exact arithmetic is a set of laws (exact_marith), satisfied by the real numbers (C74_real_laws) and by positive fractions; f64 rounding is not bounded. unk_apart: the text of the unknown token, where it occurs in the sentence, begins and ends with characters that are tokens; without it the sums are wrong (C74_unknown_refuted). Smoothing parameters other than 1 do not give chances proportional to powers of the likelihoods (C74_smoothing_refuted). Random numbers are draws with given weights."
  },
  {
   "property": "C75",
   "status": "proved",
   "theorems": [
    "C75_seeds",
    "C75_heaviest",
    "C75_seed_parts",
    "C75_counts",
    "C75_e_step",
    "C75_prune",
    "C75_chosen",
    "C75_learns",
    "C75_spells",
    "C75_unk_refuted",
    "C75_real_laws",
    "C75_endless_refuted"
   ],
   "note": "Exact arithmetic for C75_counts, exact sums for the optimality part of C75_prune; the other parts hold for any arithmetic. The hypotheses hold for the real numbers (C75_real_laws). The suffix array library and digamma are arguments. Refuted: training always ends without panic (C75_unk_refuted, C75_endless_refuted)."
  },
  {
   "property": "C76",
   "status": "proved",
   "theorems": [
    "C76_pieces",
    "C76_templates",
    "C76_lists",
    "C76_written",
    "C76_expressible",
    "C76_tokens",
    "C76_build",
    "C76_default_texts",
    "C76_bert",
    "C76_roberta",
    "C76_default_refuted",
    "C76_spaces"
   ],
   "note": "str::split and u32::from_str of the core library are modelled by hand. RoBERTa's equivalence is about the main encoding (type ids of overflowing encodings can differ, C46_template_types_refuted)."
  },
  {
   "property": "C77",
   "status": "proved",
   "theorems": [
    "C77_words",
    "C77_words_enough",
    "C77_words_needed",
    "C77_added_words_refuted",
    "C77_lines",
    "C77_lines_before",
    "C77_bad_line",
    "C77_broken_line",
    "C77_files",
    "C77_missing_file",
    "C77_read_error",
    "C77_unchanged",
    "C77_trained",
    "C77_trainer_error",
    "C77_order",
    "C77_special",
    "C77_encodes",
    "C77_cuts",
    "C77_wordlevel",
    "C77_bpe",
    "C77_bpe_order",
    "C77_bpe_special",
    "C77_bpe_total",
    "C77_wordlevel_order",
    "C77_reading_refuted",
    "C77_retrain_refuted"
   ],
   "note": "Files, thread schedules, hash orders and the automaton builder are arguments; progress bars are left out. Refuted: an error of reading leaves the tokenizer unchanged (C77_reading_refuted), ids stay distinct when tokens were added before training (C77_retrain_refuted), only texts the model will be asked about are counted (C77_added_words_refuted)."
  },
  {
   "property": "C78",
   "status": "proved",
   "theorems": [
    "C78_env",
    "C78_alone",
    "C78_no_panic",
    "C78_used",
    "C78_used_stays",
    "C78_chunks_refuted",
    "C78_off",
    "C78_fork",
    "C78_fork_configured",
    "C78_fork_chunks_refuted"
   ],
   "note": "SeqCst loads and stores are steps of an interleaving; what rayon does and the locks of a forked pool are not modelled. Refuted for chunks: a parallel iteration over chunks is not recorded (C78_chunks_refuted), so the fork handler does not see it (C78_fork_chunks_refuted)."
  },
  {
   "property": "C79",
   "status": "proved",
   "theorems": [
    "C79_sections",
    "C79_round_trip",
    "C79_special_skipped",
    "C79_unigram",
    "C79_bpe",
    "C79_leading_space_refuted",
    "C79_mark_refuted",
    "C79_added_refuted",
    "C79_unknown_refuted",
    "C79_written_unknown_refuted"
   ],
   "note": "The model is any function that spells the words of the text; C79_unigram and C79_bpe discharge this for Unigram (with the laws of the scores that C42 asks for) and BPE. The conditions are needed: C79_leading_space_refuted, C79_mark_refuted, C79_added_refuted, C79_unknown_refuted, C79_written_unknown_refuted."
  },
  {
   "property": "C80",
   "status": "proved",
   "theorems": [
    "C80_saved",
    "C80_bpe",
    "C80_wordpiece",
    "C80_wordlevel",
    "C80_unigram",
    "C80_wrong_trainer",
    "C80_early_refuted"
   ],
   "note": "For tokenizers to which no token was added before training: C80_early_refuted shows that this is needed. The ids are assumed to fit in 32 bits. BPE trainers with a prefix or suffix are left out of C80_bpe (that no merge is listed twice is only shown without them); WordLevel special tokens are not words of the corpus (C64); Unigram pieces are distinct and their scores finite."
  },
  {
   "property": "C81",
   "status": "proved",
   "theorems": [
    "C81_encode",
    "C81_encode_pair",
    "C81_encode_rejects",
    "C81_pair_rejects",
    "C81_unambiguous",
    "C81_batch",
    "C81_batch_rejects",
    "C81_async_batch",
    "C81_async",
    "C81_array",
    "C81_two_words_refuted",
    "C81_array_pair_refuted",
    "C81_async_refuted",
    "C81_array_refuted",
    "C81_array_bytes_refuted"
   ],
   "note": "The extraction of Python objects by PyO3 and numpy is modelled on the kinds of objects that the documentation names (str, list, tuple, arrays of dtype U and object, anything else). What is false of the code is proved as C81_two_words_refuted, C81_array_pair_refuted, C81_async_refuted and C81_array_refuted."
  },
  {
   "property": "C82",
   "status": "proved",
   "theorems": [
    "C82_item",
    "C82_item_after",
    "C82_item_before",
    "C82_slice",
    "C82_negative_refuted",
    "C82_negative_slice_refuted",
    "C82_step_refuted",
    "C82_empty_refuted"
   ],
   "note": "Positive part: indices and bounds from the start for every text, and from the end for ASCII texts. Counting from the end is wrong for other texts, the step is ignored and empty slices are not empty strings: the four C82_..._refuted theorems."
  },
  {
   "property": "C83",
   "status": "proved",
   "theorems": [
    "C83_texts",
    "C83_bad_element",
    "C83_stops",
    "C83_generator",
    "C83_trains",
    "C83_raises",
    "C83_raise_refuted"
   ],
   "note": "An iterator is the finite list of what its calls of __next__ do; iterators that never end are left out. C83_raise_refuted: an exception of the iterator loses texts that came before it, and the model has been replaced when it is raised. C83_generator says exactly which texts are used."
  },
  {
   "property": "C84",
   "status": "proved",
   "theorems": [
    "C84_lent",
    "C84_over",
    "C84_exception",
    "C84_alone",
    "C84_no_abort",
    "C84_self_refuted",
    "C84_threads_refuted",
    "C84_abort_refuted"
   ],
   "note": "For any number of threads and all interleavings, with or without the GIL. That PyO3 checks borrows of Python objects, turns panics into PanicException and resumes the panic when Rust gets this exception is part of the model. What is false of the code: C84_self_refuted and C84_threads_refuted (deadlocks), C84_abort_refuted (an exception in a callback of filter, map or for_each aborts the process)."
  },
  {
   "property": "C85",
   "status": "proved",
   "theorems": [
    "C85_atomic",
    "C85_all",
    "C85_order",
    "C85_progress",
    "C85_train_refuted",
    "C85_component_refuted",
    "C85_self_refuted"
   ],
   "note": "Calls are programs that look at and change the tokenizer step by step; any number of threads, all interleavings, with a lock that prefers writers or not. Panics inside calls (which poison the lock) are left out. What is false of the code: C85_train_refuted, C85_component_refuted and C85_self_refuted (deadlocks when Python code runs during a call)."
  },
  {
   "property": "C86",
   "status": "proved",
   "theorems": [
    "C86_truncation",
    "C86_truncation_error",
    "C86_padding",
    "C86_padding_error",
    "C86_order",
    "C86_truncation_again",
    "C86_padding_again",
    "C86_ignored",
    "C86_length_refuted"
   ],
   "note": "Values are None, bool, int, str or something else; what is printed is left out. With a max_length below the number of special tokens the subtraction of with_truncation overflows (a panic in builds that check). C86_length_refuted: with both length and its old name max_length the order of the arguments matters."
  },
  {
   "property": "C87",
   "status": "proved",
   "theorems": [
    "C87_new",
    "C87_pickle",
    "C87_decoder",
    "C87_equal",
    "C87_add",
    "C87_add_special",
    "C87_add_error",
    "C87_copy_refuted",
    "C87_error_refuted"
   ],
   "note": "Hashing is any function of the content. C87_copy_refuted: a copy made special differs from the original made special. C87_error_refuted: a failing add_special_tokens has changed token objects."
  },
  {
   "property": "C88",
   "status": "proved",
   "theorems": [
    "C88_assigned",
    "C88_read",
    "C88_sequence",
    "C88_items",
    "C88_frame",
    "C88_set",
    "C88_setitem",
    "C88_hang",
    "C88_plain",
    "C88_copy",
    "C88_copy_tokenizer",
    "C88_apart",
    "C88_hang_refuted",
    "C88_class_refuted",
    "C88_twice_refuted",
    "C88_loop_refuted",
    "C88_reassign",
    "C88_in_place",
    "C88_stale_refuted",
    "C88_trained_refuted"
   ],
   "note": "Normalizers and pre-tokenizers (post-processors in the same way); what a component does is any function. Refuted: C88_hang_refuted (s[0] = s[0] never returns), C88_class_refuted, C88_twice_refuted, C88_loop_refuted, C88_stale_refuted (a normalizer changed in place leaves the added tokens behind), C88_trained_refuted (a shared model that is trained)."
  },
  {
   "property": "C89",
   "status": "proved",
   "theorems": [
    "C89_words",
    "C89_bert",
    "C89_bert_skip",
    "C89_bert_again",
    "C89_contraction_refuted",
    "C89_prefix_refuted"
   ],
   "note": "Any normalizer; any pre-tokenizer (C89_words) and that of BERT (the others); no truncation and no padding. Refuted: C89_contraction_refuted (contractions are not rejoined by the cleanup), C89_prefix_refuted (wordpieces_prefix of BertWordPieceTokenizer reaches the decoder only)."
  },
  {
   "property": "C90",
   "status": "proved",
   "theorems": [
    "C90_words",
    "C90_bert",
    "C90_bert_again",
    "C90_spaces",
    "C90_blank_refuted",
    "C90_unknown_refuted",
    "C90_suffix_refuted"
   ],
   "note": "Any normalizer; any pre-tokenizer (C90_words), that of BERT and WhitespaceSplit; the words must be written in the alphabet of the vocabulary; no post-processor, truncation or padding (CharBPETokenizer sets none). Refuted: C90_blank_refuted (a text without words makes the decoder panic), C90_unknown_refuted (an unknown character at the end of a word glues it to the next), C90_suffix_refuted (the suffix in a word)."
  },
  {
   "property": "C91",
   "status": "proved",
   "theorems": [
    "C91_words",
    "C91_bert_again"
   ],
   "note": "Any normalizer and pre-tokenizer; no decoder, post-processor, truncation or padding. C91_bert_again is for the pre-tokenizer of BERT."
  },
  {
   "property": "C92",
   "status": "proved",
   "theorems": [
    "C92_page",
    "C92_encoded",
    "C92_colors",
    "C92_empty_refuted",
    "C92_unk_refuted",
    "C92_label_refuted",
    "C92_negative_refuted",
    "C92_special_refuted",
    "C92_multi_refuted",
    "C92_hue_refuted"
   ],
   "note": "Texts that are not empty; annotations inside the text; labels and unknown tokens without quotes. Refuted: C92_empty_refuted, C92_unk_refuted (\"chunk\" is marked as a special token), C92_label_refuted (labels are not escaped), C92_negative_refuted, C92_special_refuted (tokens of a template are not shown), C92_multi_refuted, C92_hue_refuted (19 labels)."
  },
  {
   "property": "C93",
   "status": "proved",
   "theorems": [
    "C93_repr",
    "C93_str",
    "C93_same",
    "C93_data",
    "C93_cut_refuted",
    "C93_quotes_refuted",
    "C93_limit_refuted",
    "C93_deep_refuted"
   ],
   "note": "Less than 20 levels of nesting for str and 200 for repr; names of word characters; C93_same and C93_data for texts without quotes. Refuted: C93_cut_refuted (str panics when byte 100 of a text is inside a character), C93_quotes_refuted (quotes are not escaped), C93_limit_refuted (six elements: five and dots), C93_deep_refuted (20 levels)."
  },
  {
   "property": "C94",
   "status": "proved",
   "theorems": [
    "C94_truncation",
    "C94_truncation_error",
    "C94_truncation_python",
    "C94_padding",
    "C94_padding_error",
    "C94_padding_python",
    "C94_history",
    "C94_history_panic",
    "C94_token",
    "C94_encode",
    "C94_encode_batch",
    "C94_encoding_truncate",
    "C94_encoding_pad",
    "C94_merge",
    "C94_slice",
    "C94_slice_error",
    "C94_slice_ecma",
    "C94_slice_token",
    "C94_bert",
    "C94_stride_refuted",
    "C94_padding_refuted",
    "C94_pretokenized_refuted",
    "C94_direction_refuted",
    "C94_slice_refuted",
    "C94_bert_refuted",
    "C94_unset_refuted"
   ],
   "note": "Numbers below 2^32. Refuted: C94_stride_refuted (a stride that is too large panics), C94_padding_refuted (setPadding() turns padding off), C94_pretokenized_refuted (isPretokenized is ignored), C94_direction_refuted (Encoding.truncate keeps the end by default), C94_slice_refuted (empty slices are errors), C94_bert_refuted (stripAccents is not on by default), C94_unset_refuted (methods of new Encoding() panic)."
  },
  {
   "property": "C95",
   "status": "proved",
   "theorems": [
    "C95_general",
    "C95_atomic",
    "C95_await",
    "C95_bounded",
    "C95_progress",
    "C95_completes",
    "C95_final",
    "C95_late_refuted",
    "C95_mixed_refuted",
    "C95_deadlock_refuted"
   ],
   "note": "Locks, threads of libuv and workers of rayon are modelled, with or without priority of writers; tokenizing a text is one step. Refuted: C95_late_refuted (a change between the call and the await may or may not be seen), C95_mixed_refuted (with a shared model a batch can mix two models), C95_deadlock_refuted (with a shared model, training while a batch is encoded can halt for ever)."
  },
  {
   "property": "C96",
   "status": "proved",
   "theorems": [
    "C96_given",
    "C96_trained",
    "C96_trains",
    "C96_saved",
    "C96_forgotten",
    "C96_half_given",
    "C96_unknown",
    "C96_space_refuted",
    "C96_suffix_refuted",
    "C96_special_refuted",
    "C96_added_refuted",
    "C96_lower_refuted"
   ],
   "note": "The constructor and train of ByteLevelBPETokenizer, with the tokenizer underneath as in C72/C80. Refuted: with a prefix space, lowercasing or a suffix the text changes (C96_space_refuted, C96_lower_refuted, C96_suffix_refuted); decode drops special tokens spelled in the text (C96_special_refuted); an added token of byte characters does not come back (C96_added_refuted)."
  },
  {
   "property": "C97",
   "status": "proved",
   "theorems": [
    "C97_accepts",
    "C97_markers",
    "C97_words",
    "C97_from_scratch",
    "C97_trained",
    "C97_unmarked",
    "C97_flags_lost",
    "C97_unk_refuted",
    "C97_prefix_refuted",
    "C97_stale_refuted"
   ],
   "note": "The constructor and train of BertWordPieceTokenizer, with the tokenizer underneath as in C72/C80; the sizes of the training corpus are bounded as in C37. Refuted: a vocabulary without the unknown token is accepted (C97_unk_refuted); wordpieces_prefix reaches only the decoder (C97_prefix_refuted); training a tokenizer that was given a vocabulary leaves the old ids of the markers in place (C97_stale_refuted)."
  },
  {
   "property": "C98",
   "status": "proved",
   "theorems": [
    "C98_accepts",
    "C98_words",
    "C98_spaces",
    "C98_both_or_none",
    "C98_flags_lost",
    "C98_nothing_refuted",
    "C98_trained",
    "C98_no_suffix_refuted",
    "C98_unknown_refuted",
    "C98_unk_refuted",
    "C98_suffix_refuted",
    "C98_stale_refuted"
   ],
   "note": "The constructor and train of CharBPETokenizer, with the tokenizer underneath as in C72/C80; the sizes of the training corpus are bounded as in C37. Refuted: decoding no ids, or only unknown tokens, panics (C98_nothing_refuted, C98_unknown_refuted; overflow checks on, see C51); a vocabulary without the unknown token is accepted (C98_unk_refuted); None for the suffix of train is an error (C98_no_suffix_refuted) and another suffix than the one of the constructor is left in the text (C98_suffix_refuted); training a tokenizer that was given a vocabulary leaves the old id of the unknown token in place (C98_stale_refuted)."
  },
  {
   "property": "C99",
   "status": "proved",
   "theorems": [
    "C99_accepts",
    "C99_bpe",
    "C99_both_or_none",
    "C99_unk_token_refuted",
    "C99_fuse_refuted",
    "C99_bpe_trained",
    "C99_unigram_accepts",
    "C99_unigram",
    "C99_file",
    "C99_file_type",
    "C99_unigram_trained",
    "C99_leading_refuted",
    "C99_unknown_refuted",
    "C99_bytes_refuted",
    "C99_bpe_unknown_refuted"
   ],
   "note": "The constructors, from_spm and train of SentencePieceBPETokenizer and SentencePieceUnigramTokenizer, with the tokenizer underneath as in C72/C80; reading the protobuf file is external; the scores of Unigram are ordered as in C42; the corpus of BPE is bounded as in C37. Refuted: an AddedToken as unknown token and fuse_unk=None, which the signature allows, are errors (C99_unk_token_refuted, C99_fuse_refuted); one leading space is lost (C99_leading_refuted); Unigram made from a vocabulary, or trained with the defaults, fails on unknown characters (C99_unknown_refuted); a file with byte fallback decodes to the names of the bytes (C99_bytes_refuted); BPE trained without the unknown token fails (C99_bpe_unknown_refuted)."
  },
  {
   "property": "C100",
   "status": "proved",
   "theorems": [
    "C100_order",
    "C100_again",
    "C100_loaded",
    "C100_model",
    "C100_bpe_files",
    "C100_wordlevel_file",
    "C100_wordpiece_file",
    "C100_shared_id_refuted"
   ],
   "note": "About the files of C72, C66 and C67; JSON texts are their values. The BTreeMap order is assumed to depend on the entries only. Refuted: with two tokens of one id, the file depends on the order of a hash map and lacks a token (C100_shared_id_refuted)."
  },
  {
   "property": "C101",
   "status": "proved",
   "theorems": [
    "C101_bpe",
    "C101_wordpiece",
    "C101_plain",
    "C101_byte_level",
    "C101_bert",
    "C101_char",
    "C101_spm",
    "C101_size_refuted"
   ],
   "note": "BPE and WordPiece; the assumptions are those of C37 and C38 (the counts are small enough for 32 bits). Unigram is C75 and C99. Refuted: more tokens than asked for, when the special tokens and the characters are more (C101_size_refuted)."
  },
  {
   "property": "C102",
   "status": "proved",
   "theorems": [
    "C102_bpe",
    "C102_order",
    "C102_both",
    "C102_from_file",
    "C102_wordpiece",
    "C102_wordlevel",
    "C102_unigram",
    "C102_unigram_fallback_refuted",
    "C102_none_refuted",
    "C102_attributes",
    "C102_calls",
    "C102_uncached",
    "C102_stale_refuted",
    "C102_pickle_bpe",
    "C102_pickle",
    "C102_pickle_assigned",
    "C102_pickle_sampling_refuted",
    "C102_pickle_dropout_refuted",
    "C102_pickle_prefix_refuted"
   ],
   "note": "A dropout is known by its class; files are what read_file gives. Refuted: the documented defaults None of four arguments of BPE are errors when given (C102_none_refuted); byte_fallback without vocabulary is ignored by Unigram (C102_unigram_fallback_refuted); attributes assigned without clearing the cache (C102_stale_refuted); pickles after assigning a dropout out of range or a prefix, and of the sampling attributes of Unigram (C102_pickle_dropout_refuted, C102_pickle_prefix_refuted, C102_pickle_sampling_refuted)."
  },
  {
   "property": "C103",
   "status": "proved",
   "theorems": [
    "C103_pad",
    "C103_padded",
    "C103_pad_errors",
    "C103_truncate",
    "C103_truncate_errors",
    "C103_pickle",
    "C103_answers",
    "C103_history",
    "C103_isolation",
    "C103_call",
    "C103_deep_refuted",
    "C103_state_refuted",
    "C103_lookup",
    "C103_lookup_chars",
    "C103_lookup_words",
    "C103_lookup_tokens",
    "C103_merge",
    "C103_sequence",
    "C103_changed",
    "C103_copies",
    "C103_lookup_default_refuted"
   ],
   "note": "Numbers fit their machine types; the order of a hash map that was read is any permutation; the recursion limit of serde_json (128) is a constant of the model. Refuted: pickles of encodings nested more than 62 deep (C103_deep_refuted); __setstate__ of a state that is no pickle (C103_state_refuted); char_to_token without sequence_index on a token of the second sequence (C103_lookup_default_refuted)."
  },
  {
   "property": "C104",
   "status": "proved",
   "theorems": [
    "C104_new",
    "C104_accepts",
    "C104_raises",
    "C104_order",
    "C104_assign",
    "C104_unknown",
    "C104_assigns",
    "C104_history",
    "C104_reassign",
    "C104_get",
    "C104_pickle",
    "C104_restore",
    "C104_objects",
    "C104_object_assign",
    "C104_marks_refuted",
    "C104_none_refuted",
    "C104_alphabet_refuted",
    "C104_format_refuted",
    "C104_words_refuted",
    "C104_state_refuted",
    "C104_unigram_new",
    "C104_unigram_accepts",
    "C104_unigram_raises",
    "C104_unigram_size_refuted"
   ],
   "note": "BpeTrainer, WordPieceTrainer and WordLevelTrainer; of UnigramTrainer the constructor only (C104_unigram_*), with floats abstract. A hash set is a list without duplicates. Refuted: a constructor that raises leaves the AddedToken objects alone (C104_marks_refuted); the constructor accepts what the attributes give (C104_none_refuted); constructor and attribute agree on an alphabet (C104_alphabet_refuted); unknown formats are refused (C104_format_refuted); the documented argument words is used (C104_words_refuted). Also refuted: __setstate__ refuses the state of another class (C104_state_refuted). A vocabulary of 2^32 tokens is accepted by one class and refused by UnigramTrainer (C104_unigram_size_refuted)."
  }
 ]
}