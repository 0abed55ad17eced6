(** Axiom audit: every theorem of the manifest. *)
From Verif Require Import EncodingProps.
From Verif Require Import NormProps.
From Verif Require Import PreTokProps.
From Verif Require Import AddedProps.
From Verif Require Import BpeProps.
From Verif Require Import CacheProps.
From Verif Require Import WordPieceProps.
From Verif Require Import TrieProps.
From Verif Require Import UnigramProps.
From Verif Require Import UnigramFloatProps.
From Verif Require Import ProcessorsProps.
From Verif Require Import DecodersProps.
From Verif Require Import StreamProps.
From Verif Require Import TokenizerProps.
From Verif Require Import EndToEndProps.
From Verif Require Import BpeTrainProps.
From Verif Require Import TrainersProps.
From Verif Require Import PreTokenizersProps.
From Verif Require Import ModelFilesProps.
From Verif Require Import NormalizersProps.
From Verif Require Import RoundTripProps.
From Verif Require Import SpmTripProps.
From Verif Require Import ComponentFilesProps.
From Verif Require Import TokenizerFilesProps.
From Verif Require Import NBestProps.
From Verif Require Import MarginalProps.
From Verif Require Import MarginalRealProps.
From Verif Require Import UnigramTrainProps.
From Verif Require Import UnigramTrainRealProps.
From Verif Require Import TemplateTextProps.
From Verif Require Import TokenizerTrainProps.
From Verif Require Import ParallelProps.
From Verif Require Import MetaTripProps.
From Verif Require Import TrainSaveProps.
From Verif Require Import PyInputProps.
From Verif Require Import PyNormProps.
From Verif Require Import PyIterProps.
From Verif Require Import PyRefProps.
From Verif Require Import PyLockProps.
From Verif Require Import PySettingsProps.
From Verif Require Import PyShareProps.
From Verif Require Import PyInPlaceProps.
From Verif Require Import NormPanicProps.
From Verif Require Import CacheTrainProps.
From Verif Require Import WordTripProps.
From Verif Require Import CharTripProps.
From Verif Require Import VisualProps.
From Verif Require Import PyReprProps.
From Verif Require Import NodeProps.
From Verif Require Import NodeTaskProps.
From Verif Require Import ImplProps.
From Verif Require Import ImplBertProps.
From Verif Require Import ImplCharProps.
From Verif Require Import ImplSpmProps.
From Verif Require Import FixFileProps.
From Verif Require Import ImplTrainProps.
From Verif Require Import PyModelProps.
From Verif Require Import PyEncProps.
From Verif Require Import PyTrainerProps.
From Verif Require Import PyUniTrainerProps.

(** All the theorems of EncodingProps.v at once. *)
Definition audit_EncodingProps :=
  (@C01_truncate_windows,
   @C01_truncate_fits,
   @C01_truncate_zero,
   @C02_parallel_history,
   @C02_parallel_constructors,
   @C02_parallel_batch,
   @C03_truncate_panics_iff,
   @C03_truncate_otherwise_ok,
   @C04_pad_content,
   @C04_pad_membership,
   @C04_pad_idempotent,
   @C04_pad_positions_have_no_sequence_refuted,
   @C05_pad_batch_longest,
   @C05_pad_fixed,
   @C06_merge_rows,
   @C06_merge_list,
   @C06_merge_assoc,
   @C06_merge_neutral,
   @C06_merge_ranges,
   @C06_merge_overflow,
   @C07_char_to_token,
   @C07_token_to_chars,
   @C07_token_to_word,
   @C07_char_to_word,
   @C07_roundtrip,
   @C07_word_to_tokens,
   @C07_word_to_chars,
   @C08_token_to_sequence,
   @C08_out_of_range_refuted,
   @C08_get_sequence_ids,
   @C08_get_sequence_ids_agree_refuted,
   @C09_truncate_encodings,
   @C09_fits_unchanged,
   @C09_errors,
   @C09_no_panic_without_stride).
Print Assumptions audit_EncodingProps.

(** All the theorems of NormProps.v at once. *)
Definition audit_NormProps :=
  (@C12_alignment_invariant,
   @C12_contract_needed_refuted,
   @C13_normalized_to_original,
   @C13_original_to_normalized,
   @C13_untouched,
   @C13_invalid,
   @C13_bounds,
   @C13_original_out_of_bounds_refuted,
   @C14_slice_normalized,
   @C14_slice_original,
   @C14_slice_none,
   @C14_slice_empty,
   @C14_slice_total,
   @C14_empty_slice_position_refuted,
   @C15_split,
   @C15_split_text,
   @C16_predicate,
   @C16_char,
   @C16_regex,
   @C16_string,
   @C16_invert,
   @C16_empty_string_partial,
   @C16_empty_string_refuted,
   @C17_safe_histories,
   @C17_panic_refuted,
   @C17_duplication_refuted,
   @C18_roundtrip,
   @C18_bytes_to_char_only,
   @C18_inverse,
   @C18_get_range_of,
   @C18_get_range_of_total,
   @C18_end_refuted,
   @C19_filter,
   @C19_strip,
   @C19_safe_histories,
   @C19_zero_width_refuted,
   @C20_replace,
   @C20_replace_text,
   @C61_map,
   @C61_case,
   @C61_clear,
   @C61_prepend,
   @C61_append,
   @C61_prepend_empty_refuted).
Print Assumptions audit_NormProps.

(** All the theorems of PreTokProps.v at once. *)
Definition audit_PreTokProps :=
  (@C21_parts,
   @C21_lossless,
   @C21_offsets_ordered,
   @C21_offsets_inside,
   @C21_inside_any_history,
   @C21_pattern_split_only_cuts,
   @C22_rows,
   @C22_no_offsets,
   @C22_fails_iff,
   @C22_words_in_order,
   @C22_empty_token_outside_refuted,
   @C23_convert,
   @C23_encoding,
   @C23_get_splits,
   @C23_get_splits_bytes,
   @C23_end_of_text_refuted,
   @C23_normalized_char_offsets_refuted,
   @C24_right,
   @C24_left,
   @C24_left_word_ids_refuted).
Print Assumptions audit_PreTokProps.

(** All the theorems of AddedProps.v at once. *)
Definition audit_AddedProps :=
  (@C25_ids_never_change,
   @C25_model_tokens_keep_their_id,
   @C25_distinct_ids,
   @C25_new_ids_are_new,
   @C25_added_tokens_have_ids,
   @C25_id_to_token,
   @C25_round_trip_without_normalizer,
   @C25_round_trip_refuted,
   @C25_sparse_model_refuted,
   @C26_count,
   @C26_distinct_new_tokens_all_count,
   @C26_again,
   @C26_again_refuted,
   @C27_partition,
   @C27_extract,
   @C27_extract_lossless,
   @C27_overlap_refuted,
   @C27_panic_refuted,
   @C28_matches,
   @C28_patterns,
   @C28_every_token_searched,
   @C29_vocab_size,
   @C29_vocab_entries,
   @C30_decode,
   @C30_decode_successful,
   @C30_unspecial_refuted,
   @C30_normalized_special_refuted,
   @C57_save_load,
   @C57_load_succeeds,
   @C57_names,
   @C57_special_set_refuted,
   @C57_encode_special_refuted,
   @C57_sparse_model_refuted).
Print Assumptions audit_AddedProps.

(** All the theorems of BpeProps.v at once. *)
Definition audit_BpeProps :=
  (@C32_canonical,
   @C32_unique,
   @C32_built,
   @C32_tokenize,
   @C32_distinct_ids_needed_refuted,
   @C33_cover,
   @C33_total,
   @C33_values,
   @C33_text,
   @C33_known_word,
   @C33_byte_fallback_order_refuted,
   @C33_no_unk_refuted,
   @C33_byte_fallback_prefix_refuted,
   @C33_byte_names,
   @C33_byte_names_distinct,
   @C34_valid,
   @C34_all_dropped,
   @C34_none_dropped,
   @C34_tokenize,
   @C36_accepts,
   @C36_table,
   @C36_fields,
   @C36_panics,
   @C36_never_panics_refuted).
Print Assumptions audit_BpeProps.

(** All the theorems of CacheProps.v at once. *)
Definition audit_CacheProps :=
  (@C35_bpe,
   @C35_bpe_progress,
   @C35_bpe_stale_refuted,
   @C35_shared,
   @C35_shared_bounded,
   @C35_shared_no_underflow).
Print Assumptions audit_CacheProps.

(** All the theorems of WordPieceProps.v at once. *)
Definition audit_WordPieceProps :=
  (@C40_unique,
   @C40_pieces,
   @C40_unknown,
   @C40_cases,
   @C40_total,
   @C40_cover,
   @C41_total,
   @C41_one_token).
Print Assumptions audit_WordPieceProps.

(** All the theorems of TrieProps.v at once. *)
Definition audit_TrieProps :=
  (@C44_exact,
   @C44_increasing).
Print Assumptions audit_TrieProps.

(** All the theorems of UnigramProps.v at once. *)
Definition audit_UnigramProps :=
  (@C35_unigram,
   @C35_unigram_stale_refuted,
   @C42_optimised,
   @C42_viterbi,
   @C42_agree,
   @C43_pieces,
   @C43_succeeds,
   @C43_sampling_succeeds,
   @C43_failure,
   @C43_only_when_needed_refuted,
   @C43_sampling_without_unk_refuted,
   @C58_tokens,
   @C58_ranges,
   @C58_succeeds).
Print Assumptions audit_UnigramProps.

(** All the theorems of UnigramFloatProps.v at once. *)
Definition audit_UnigramFloatProps :=
  (@C42_f64_laws,
   @C42_f64_scores,
   @C42_f64,
   @C42_f64_viterbi,
   @C43_f64).
Print Assumptions audit_UnigramFloatProps.

(** All the theorems of ProcessorsProps.v at once. *)
Definition audit_ProcessorsProps :=
  (@C45_accurate,
   @C45_build,
   @C45_after_template_refuted,
   @C45_two_templates_refuted,
   @C45_single_B_refuted,
   @C45_deserialised_refuted,
   @C45_setter_refuted,
   @C45_twice_refuted,
   @C46_bert,
   @C46_bert_bare,
   @C46_roberta,
   @C46_byte_level,
   @C46_template,
   @C46_template_usual,
   @C46_template_total,
   @C46_template_types_refuted,
   @C46_roberta_bare_refuted,
   @C46_byte_level_after_template_refuted,
   @C54_within,
   @C54_exact,
   @C54_untouched).
Print Assumptions audit_ProcessorsProps.

(** All the theorems of DecodersProps.v at once. *)
Definition audit_DecodersProps :=
  (@C47_alphabet,
   @C47_distinct,
   @C47_alphabet_only,
   @C47_decode,
   @C47_pre_tokenise,
   @C47_sections,
   @C47_roundtrip,
   @C47_prefix_space_refuted,
   @C47_foreign_refuted,
   @C48_decode,
   @C48_total,
   @C48_text,
   @C48_plus_refuted,
   @C49_any_cut,
   @C49_pre_tokenise,
   @C49_sections,
   @C49_roundtrip,
   @C49_unsplit_refuted,
   @C49_leading_space_refuted,
   @C50_runs_exist,
   @C50_runs_unique,
   @C50_runs,
   @C50_simple,
   @C50_delimiter_refuted,
   @C51_replace,
   @C51_harmless,
   @C51_no_error,
   @C51_bpe,
   @C51_strip,
   @C51_strip_panics,
   @C51_sequence,
   @C51_fuse,
   @C51_refuted,
   @C52_glue,
   @C52_glue_unique,
   @C52_words,
   @C52_prefixed_word_refuted,
   @C52_empty_prefix_refuted).
Print Assumptions audit_DecodersProps.

(** All the theorems of StreamProps.v at once. *)
Definition audit_StreamProps :=
  (@C31_chunk,
   @C31_local,
   @C31_steady,
   @C31_decoders,
   @C31_local_decoders,
   @C31_byte_fallback_refuted,
   @C31_bpe_refuted,
   @C31_fuse_strip_refuted,
   @C31_llama_refuted).
Print Assumptions audit_StreamProps.

(** All the theorems of TokenizerProps.v at once. *)
Definition audit_TokenizerProps :=
  (@C10_accepts,
   @C10_single_exactly,
   @C10_single,
   @C10_pair,
   @C10_stride_refuted,
   @C10_pair_count_refuted,
   @C10_halves_refuted,
   @C10_leftover_refuted,
   @C11_length,
   @C11_overflowing,
   @C11_overflowing_refuted,
   @C24_encode,
   @C24_fails,
   @C24_empty_first_refuted,
   @C24_odd_pair_refuted,
   @C55_ok,
   @C55_schedules,
   @C55_fails,
   @C55_same_length).
Print Assumptions audit_TokenizerProps.

(** All the theorems of EndToEndProps.v at once. *)
Definition audit_EndToEndProps :=
  (@C62_raw_tokens,
   @C62_words,
   @C62_words_total,
   @C62_single_plain,
   @C62_pair_plain,
   @C62_padding,
   @C62_bert,
   @C62_roberta,
   @C62_template,
   @C62_fast_types_refuted,
   @C62_overflow_owner_refuted,
   @C62_cutting_sound,
   @C62_rewriting_sound,
   @C62_sequence_sound).
Print Assumptions audit_EndToEndProps.

(** All the theorems of BpeTrainProps.v at once. *)
Definition audit_BpeTrainProps :=
  (@C37_train,
   @C37_special,
   @C37_size,
   @C37_size_refuted,
   @C37_max_length,
   @C37_max_length_refuted,
   @C37_ranks,
   @C37_rank_hole_refuted,
   @C37_rebuild,
   @C38_learns,
   @C38_deterministic,
   @C38_order_refuted,
   @C38_wrap_refuted,
   @C39_counts,
   @C39_same,
   @C39_fails,
   @C39_training,
   @C63_encode,
   @C63_corpus).
Print Assumptions audit_BpeTrainProps.

(** All the theorems of TrainersProps.v at once. *)
Definition audit_TrainersProps :=
  (@C59_wordlevel_size,
   @C59_wordlevel,
   @C59_wordlevel_order,
   @C59_wordlevel_gap_refuted,
   @C59_wordpiece,
   @C59_unigram,
   @C59_unigram_order,
   @C59_unigram_size,
   @C59_unigram_ids,
   @C59_unigram_size_refuted,
   @C59_unigram_special_refuted,
   @C64_unigram,
   @C64_wordlevel,
   @C64_wordpiece,
   @C64_wordpiece_prefix_refuted,
   @C64_wordpiece_suffix_refuted,
   @C64_bpe).
Print Assumptions audit_TrainersProps.

(** All the theorems of PreTokenizersProps.v at once. *)
Definition audit_PreTokenizersProps :=
  (@C53_fixed,
   @C53_zero_refuted,
   @C53_scripts,
   @C53_scripts_kept,
   @C53_scripts_lost_refuted,
   @C65_pieces,
   @C65_text,
   @C65_sound,
   @C65_whitespace).
Print Assumptions audit_PreTokenizersProps.

(** All the theorems of ModelFilesProps.v at once. *)
Definition audit_ModelFilesProps :=
  (@C56_saved,
   @C56_tokenize,
   @C56_known,
   @C56_duplicate_refuted,
   @C56_max_id_refuted,
   @C56_legacy_merges,
   @C66_saved,
   @C66_tokenize,
   @C66_unigram_nonfinite_refuted,
   @C67_bpe,
   @C67_wordlevel,
   @C67_wordpiece,
   @C67_lines,
   @C67_space_refuted,
   @C67_return_refuted,
   @C67_header_refuted,
   @C67_hole_refuted,
   @C67_blank_refuted).
Print Assumptions audit_ModelFilesProps.

(** All the theorems of NormalizersProps.v at once. *)
Definition audit_NormalizersProps :=
  (@C60_isolated,
   @C60_clean,
   @C60_extension_e_refuted,
   @C60_forgotten,
   @C68_normalizer,
   @C68_text,
   @C68_literal,
   @C68_prepend_empty_refuted,
   @C68_replace_start_refuted,
   @C68_precompiled_leading_refuted).
Print Assumptions audit_NormalizersProps.

(** All the theorems of RoundTripProps.v at once. *)
Definition audit_RoundTripProps :=
  (@C69_round_trip,
   @C69_special_skipped,
   @C69_prefix_space_refuted,
   @C69_added_alphabet_refuted,
   @C69_lstrip_refuted,
   @C69_alphabet_refuted).
Print Assumptions audit_RoundTripProps.

(** All the theorems of SpmTripProps.v at once. *)
Definition audit_SpmTripProps :=
  (@C70_sections,
   @C70_round_trip,
   @C70_special_skipped,
   @C70_added_refuted,
   @C70_mark_refuted,
   @C70_no_mark_refuted,
   @C70_merged_bytes_refuted,
   @C70_written_byte_refuted,
   @C70_normalized_missed_refuted,
   @C70_special_mark_refuted).
Print Assumptions audit_SpmTripProps.

(** All the theorems of ComponentFilesProps.v at once. *)
Definition audit_ComponentFilesProps :=
  (@C71_normalizer,
   @C71_pre_tokenizer,
   @C71_decoder,
   @C71_processor,
   @C71_processor_alike,
   @C71_untyped,
   @C71_loaded_valid,
   @C71_no_panic,
   @C71_defaults,
   @C71_old_metaspace_refuted,
   @C71_precompiled_refuted,
   @C71_delimiter_refuted,
   @C71_wrong_type_refuted,
   @C71_setter_refuted).
Print Assumptions audit_ComponentFilesProps.

(** All the theorems of TokenizerFilesProps.v at once. *)
Definition audit_TokenizerFilesProps :=
  (@C72_tokenizer,
   @C72_same,
   @C72_fields,
   @C72_minimal,
   @C72_defaults,
   @C72_no_panic,
   @C72_encode_special_refuted,
   @C72_again_refuted,
   @C72_truncation_refuted,
   @C72_merge_refuted).
Print Assumptions audit_TokenizerFilesProps.

(** All the theorems of NBestProps.v at once. *)
Definition audit_NBestProps :=
  (@C73_ends,
   @C73_segmentations,
   @C73_reading,
   @C73_all,
   @C73_descending,
   @C73_first,
   @C73_best).
Print Assumptions audit_NBestProps.

(** All the theorems of MarginalProps.v at once. *)
Definition audit_MarginalProps :=
  (@C74_finite,
   @C74_total,
   @C74_expected,
   @C74_posterior,
   @C74_sample,
   @C74_smoothing_refuted,
   @C74_unknown_refuted).
Print Assumptions audit_MarginalProps.

(** All the theorems of MarginalRealProps.v at once. *)
Definition audit_MarginalRealProps :=
  (@C74_real_laws,
   @C74_cut).
Print Assumptions audit_MarginalRealProps.

(** All the theorems of UnigramTrainProps.v at once. *)
Definition audit_UnigramTrainProps :=
  (@C75_seeds,
   @C75_heaviest,
   @C75_seed_parts,
   @C75_counts,
   @C75_e_step,
   @C75_prune,
   @C75_chosen,
   @C75_learns,
   @C75_spells,
   @C75_unk_refuted).
Print Assumptions audit_UnigramTrainProps.

(** All the theorems of UnigramTrainRealProps.v at once. *)
Definition audit_UnigramTrainRealProps :=
  (@C75_real_laws,
   @C75_endless_refuted).
Print Assumptions audit_UnigramTrainRealProps.

(** All the theorems of TemplateTextProps.v at once. *)
Definition audit_TemplateTextProps :=
  (@C76_pieces,
   @C76_templates,
   @C76_lists,
   @C76_written,
   @C76_expressible,
   @C76_tokens,
   @C76_build,
   @C76_default_texts,
   @C76_bert,
   @C76_roberta,
   @C76_default_refuted,
   @C76_spaces).
Print Assumptions audit_TemplateTextProps.

(** All the theorems of TokenizerTrainProps.v at once. *)
Definition audit_TokenizerTrainProps :=
  (@C77_words,
   @C77_words_enough,
   @C77_words_needed,
   @C77_added_words_refuted,
   @C77_lines,
   @C77_lines_before,
   @C77_bad_line,
   @C77_broken_line,
   @C77_files,
   @C77_missing_file,
   @C77_read_error,
   @C77_unchanged,
   @C77_trained,
   @C77_trainer_error,
   @C77_order,
   @C77_special,
   @C77_encodes,
   @C77_cuts,
   @C77_wordlevel,
   @C77_bpe,
   @C77_bpe_order,
   @C77_bpe_special,
   @C77_bpe_total,
   @C77_wordlevel_order,
   @C77_reading_refuted,
   @C77_retrain_refuted).
Print Assumptions audit_TokenizerTrainProps.

(** All the theorems of ParallelProps.v at once. *)
Definition audit_ParallelProps :=
  (@C78_env,
   @C78_alone,
   @C78_no_panic,
   @C78_used,
   @C78_used_stays,
   @C78_chunks_refuted,
   @C78_off,
   @C78_fork,
   @C78_fork_configured,
   @C78_fork_chunks_refuted).
Print Assumptions audit_ParallelProps.

(** All the theorems of MetaTripProps.v at once. *)
Definition audit_MetaTripProps :=
  (@C79_sections,
   @C79_round_trip,
   @C79_special_skipped,
   @C79_unigram,
   @C79_bpe,
   @C79_leading_space_refuted,
   @C79_mark_refuted,
   @C79_added_refuted,
   @C79_unknown_refuted,
   @C79_written_unknown_refuted).
Print Assumptions audit_MetaTripProps.

(** All the theorems of TrainSaveProps.v at once. *)
Definition audit_TrainSaveProps :=
  (@C80_saved,
   @C80_bpe,
   @C80_wordpiece,
   @C80_wordlevel,
   @C80_unigram,
   @C80_wrong_trainer,
   @C80_early_refuted).
Print Assumptions audit_TrainSaveProps.

(** All the theorems of PyInputProps.v at once. *)
Definition audit_PyInputProps :=
  (@C81_encode,
   @C81_encode_pair,
   @C81_encode_rejects,
   @C81_pair_rejects,
   @C81_unambiguous,
   @C81_batch,
   @C81_batch_rejects,
   @C81_async_batch,
   @C81_async,
   @C81_array,
   @C81_two_words_refuted,
   @C81_array_pair_refuted,
   @C81_async_refuted,
   @C81_array_refuted,
   @C81_array_bytes_refuted).
Print Assumptions audit_PyInputProps.

(** All the theorems of PyNormProps.v at once. *)
Definition audit_PyNormProps :=
  (@C82_item,
   @C82_item_after,
   @C82_item_before,
   @C82_slice,
   @C82_negative_refuted,
   @C82_negative_slice_refuted,
   @C82_step_refuted,
   @C82_empty_refuted).
Print Assumptions audit_PyNormProps.

(** All the theorems of PyIterProps.v at once. *)
Definition audit_PyIterProps :=
  (@C83_texts,
   @C83_bad_element,
   @C83_stops,
   @C83_generator,
   @C83_trains,
   @C83_raises,
   @C83_raise_refuted).
Print Assumptions audit_PyIterProps.

(** All the theorems of PyRefProps.v at once. *)
Definition audit_PyRefProps :=
  (@C84_lent,
   @C84_over,
   @C84_exception,
   @C84_alone,
   @C84_no_abort,
   @C84_self_refuted,
   @C84_threads_refuted,
   @C84_abort_refuted).
Print Assumptions audit_PyRefProps.

(** All the theorems of PyLockProps.v at once. *)
Definition audit_PyLockProps :=
  (@C85_atomic,
   @C85_all,
   @C85_order,
   @C85_progress,
   @C85_train_refuted,
   @C85_component_refuted,
   @C85_self_refuted).
Print Assumptions audit_PyLockProps.

(** All the theorems of PySettingsProps.v at once. *)
Definition audit_PySettingsProps :=
  (@C86_truncation,
   @C86_truncation_error,
   @C86_padding,
   @C86_padding_error,
   @C86_order,
   @C86_truncation_again,
   @C86_padding_again,
   @C86_ignored,
   @C86_length_refuted,
   @C87_new,
   @C87_pickle,
   @C87_decoder,
   @C87_equal,
   @C87_add,
   @C87_add_special,
   @C87_add_error,
   @C87_copy_refuted,
   @C87_error_refuted).
Print Assumptions audit_PySettingsProps.

(** All the theorems of PyShareProps.v at once. *)
Definition audit_PyShareProps :=
  (@C88_assigned,
   @C88_read,
   @C88_sequence,
   @C88_items,
   @C88_frame,
   @C88_set,
   @C88_setitem,
   @C88_hang,
   @C88_plain,
   @C88_copy,
   @C88_copy_tokenizer,
   @C88_apart,
   @C88_hang_refuted,
   @C88_class_refuted,
   @C88_twice_refuted,
   @C88_loop_refuted).
Print Assumptions audit_PyShareProps.

(** All the theorems of PyInPlaceProps.v at once. *)
Definition audit_PyInPlaceProps :=
  (@C88_reassign,
   @C88_in_place,
   @C88_stale_refuted,
   @C88_trained_refuted).
Print Assumptions audit_PyInPlaceProps.

(** All the theorems of NormPanicProps.v at once. *)
Definition audit_NormPanicProps :=
  (@C17_front,
   @C17_front_safe,
   @C17_exact,
   @C17_history,
   @C17_text,
   @C17_prepend_refuted,
   @C17_clear_refuted).
Print Assumptions audit_NormPanicProps.

(** All the theorems of CacheTrainProps.v at once. *)
Definition audit_CacheTrainProps :=
  (@C35_retrain_panic_refuted,
   @C35_retrain_refuted).
Print Assumptions audit_CacheTrainProps.

(** All the theorems of WordTripProps.v at once. *)
Definition audit_WordTripProps :=
  (@C89_words,
   @C89_bert,
   @C89_bert_skip,
   @C89_bert_again,
   @C89_contraction_refuted,
   @C89_prefix_refuted).
Print Assumptions audit_WordTripProps.

(** All the theorems of CharTripProps.v at once. *)
Definition audit_CharTripProps :=
  (@C90_words,
   @C90_bert,
   @C90_bert_again,
   @C90_spaces,
   @C90_blank_refuted,
   @C90_unknown_refuted,
   @C90_suffix_refuted,
   @C91_words,
   @C91_bert_again).
Print Assumptions audit_CharTripProps.

(** All the theorems of VisualProps.v at once. *)
Definition audit_VisualProps :=
  (@C62_chars,
   @C92_page,
   @C92_encoded,
   @C92_colors,
   @C92_empty_refuted,
   @C92_unk_refuted,
   @C92_label_refuted,
   @C92_negative_refuted,
   @C92_special_refuted,
   @C92_multi_refuted,
   @C92_hue_refuted).
Print Assumptions audit_VisualProps.

(** All the theorems of PyReprProps.v at once. *)
Definition audit_PyReprProps :=
  (@C93_repr,
   @C93_str,
   @C93_same,
   @C93_data,
   @C93_cut_refuted,
   @C93_quotes_refuted,
   @C93_limit_refuted,
   @C93_deep_refuted).
Print Assumptions audit_PyReprProps.

(** All the theorems of NodeProps.v at once. *)
Definition audit_NodeProps :=
  (@C94_truncation,
   @C94_truncation_error,
   @C94_truncation_python,
   @C94_padding,
   @C94_padding_error,
   @C94_padding_python,
   @C94_history,
   @C94_history_panic,
   @C94_token,
   @C94_encode,
   @C94_encode_batch,
   @C94_encoding_truncate,
   @C94_encoding_pad,
   @C94_merge,
   @C94_slice,
   @C94_slice_error,
   @C94_slice_ecma,
   @C94_slice_token,
   @C94_bert,
   @C94_stride_refuted,
   @C94_padding_refuted,
   @C94_pretokenized_refuted,
   @C94_direction_refuted,
   @C94_slice_refuted,
   @C94_bert_refuted,
   @C94_unset_refuted).
Print Assumptions audit_NodeProps.

(** All the theorems of NodeTaskProps.v at once. *)
Definition audit_NodeTaskProps :=
  (@C95_general,
   @C95_atomic,
   @C95_await,
   @C95_bounded,
   @C95_progress,
   @C95_completes,
   @C95_final,
   @C95_late_refuted,
   @C95_mixed_refuted,
   @C95_deadlock_refuted).
Print Assumptions audit_NodeTaskProps.

(** All the theorems of ImplProps.v at once. *)
Definition audit_ImplProps :=
  (@C96_given,
   @C96_trained,
   @C96_trains,
   @C96_saved,
   @C96_forgotten,
   @C96_half_given,
   @C96_unknown,
   @C96_space_refuted,
   @C96_suffix_refuted,
   @C96_special_refuted,
   @C96_added_refuted,
   @C96_lower_refuted).
Print Assumptions audit_ImplProps.

(** All the theorems of ImplBertProps.v at once. *)
Definition audit_ImplBertProps :=
  (@C97_accepts,
   @C97_markers,
   @C97_words,
   @C97_from_scratch,
   @C97_trained,
   @C97_unmarked,
   @C97_flags_lost,
   @C97_unk_refuted,
   @C97_prefix_refuted,
   @C97_stale_refuted).
Print Assumptions audit_ImplBertProps.

(** All the theorems of ImplCharProps.v at once. *)
Definition audit_ImplCharProps :=
  (@C98_accepts,
   @C98_words,
   @C98_spaces,
   @C98_both_or_none,
   @C98_flags_lost,
   @C98_nothing_refuted,
   @C98_trained,
   @C98_no_suffix_refuted,
   @C98_unknown_refuted,
   @C98_unk_refuted,
   @C98_suffix_refuted,
   @C98_stale_refuted).
Print Assumptions audit_ImplCharProps.

(** All the theorems of ImplSpmProps.v at once. *)
Definition audit_ImplSpmProps :=
  (@C99_accepts,
   @C99_bpe,
   @C99_both_or_none,
   @C99_unk_token_refuted,
   @C99_fuse_refuted,
   @C99_bpe_trained,
   @C99_unigram_accepts,
   @C99_unigram,
   @C99_file,
   @C99_file_type,
   @C99_unigram_trained,
   @C99_leading_refuted,
   @C99_unknown_refuted,
   @C99_bytes_refuted,
   @C99_bpe_unknown_refuted).
Print Assumptions audit_ImplSpmProps.

(** All the theorems of FixFileProps.v at once. *)
Definition audit_FixFileProps :=
  (@C100_order,
   @C100_again,
   @C100_loaded,
   @C100_model,
   @C100_bpe_files,
   @C100_wordlevel_file,
   @C100_wordpiece_file,
   @C100_shared_id_refuted).
Print Assumptions audit_FixFileProps.

(** All the theorems of ImplTrainProps.v at once. *)
Definition audit_ImplTrainProps :=
  (@C101_bpe,
   @C101_wordpiece,
   @C101_plain,
   @C101_byte_level,
   @C101_bert,
   @C101_char,
   @C101_spm,
   @C101_size_refuted).
Print Assumptions audit_ImplTrainProps.

(** All the theorems of PyModelProps.v at once. *)
Definition audit_PyModelProps :=
  (@C102_bpe,
   @C102_order,
   @C102_both,
   @C102_from_file,
   @C102_wordpiece,
   @C102_wordlevel,
   @C102_unigram,
   @C102_unigram_fallback_refuted,
   @C102_none_refuted,
   @C102_attributes,
   @C102_calls,
   @C102_uncached,
   @C102_stale_refuted,
   @C102_pickle_bpe,
   @C102_pickle,
   @C102_pickle_assigned,
   @C102_pickle_sampling_refuted,
   @C102_pickle_dropout_refuted,
   @C102_pickle_prefix_refuted).
Print Assumptions audit_PyModelProps.

(** All the theorems of PyEncProps.v at once. *)
Definition audit_PyEncProps :=
  (@C103_pad,
   @C103_padded,
   @C103_pad_errors,
   @C103_truncate,
   @C103_truncate_errors,
   @C103_pickle,
   @C103_answers,
   @C103_history,
   @C103_isolation,
   @C103_call,
   @C103_deep_refuted,
   @C103_state_refuted,
   @C103_lookup,
   @C103_lookup_chars,
   @C103_lookup_words,
   @C103_lookup_tokens,
   @C103_merge,
   @C103_sequence,
   @C103_changed,
   @C103_copies,
   @C103_lookup_default_refuted).
Print Assumptions audit_PyEncProps.

(** All the theorems of PyTrainerProps.v at once. *)
Definition audit_PyTrainerProps :=
  (@C104_new,
   @C104_accepts,
   @C104_raises,
   @C104_order,
   @C104_assign,
   @C104_unknown,
   @C104_assigns,
   @C104_history,
   @C104_reassign,
   @C104_get,
   @C104_pickle,
   @C104_restore,
   @C104_objects,
   @C104_object_assign,
   @C104_marks_refuted,
   @C104_none_refuted,
   @C104_alphabet_refuted,
   @C104_format_refuted,
   @C104_words_refuted,
   @C104_state_refuted).
Print Assumptions audit_PyTrainerProps.

(** All the theorems of PyUniTrainerProps.v at once. *)
Definition audit_PyUniTrainerProps :=
  (@C104_unigram_new,
   @C104_unigram_accepts,
   @C104_unigram_raises,
   @C104_unigram_size_refuted).
Print Assumptions audit_PyUniTrainerProps.

