{"claims": [
  {"property": "C01", "status": "proved", "theorems": ["dictionary_ids_dense", "dictionary_gap_update_refuted"], "note": "All histories of public calls from the empty dictionary. Refuted for dictionaries loaded from text with gaps in the ids."},
  {"property": "C02", "status": "proved", "theorems": ["dictionary_statistics_exact"], "note": "All sequences of doc2bow calls from the empty dictionary."},
  {"property": "C03", "status": "proved", "theorems": ["doc2bow_exact", "doc2bow_readonly_exact"], "note": "Reachable dictionaries for both modes; read-only mode for any dictionary with distinct ids."},
  {"property": "C04", "status": "proved", "theorems": ["dictionary_growth_stable", "dictionary_add_documents_stable", "dictionary_prune_stability_refuted"], "note": "No hypothesis on the dictionary. Pruning inside add_documents renumbers (witness)."},
  {"property": "C05", "status": "proved", "theorems": ["filter_extremes_exact", "filter_extremes_keep_tokens_refuted"], "note": "no_above is an exact rational (floats not modelled). keep_tokens can be evicted by keep_n (witness)."},
  {"property": "C06", "status": "proved", "theorems": ["filter_tokens_exact", "compactify_exact", "filter_n_most_frequent_exact", "compactify_from_corpus_refuted"], "note": "filter_tokens/compactify for every consistent dictionary, gaps allowed; filter_n_most_frequent for reachable ones."},
  {"property": "C07", "status": "proved", "theorems": ["dictionary_text_roundtrip", "reachable_consistent", "dictionary_text_tab_refuted"], "note": "Code points instead of UTF-8 bytes."},
  {"property": "C08", "status": "proved", "theorems": ["reverse_lookup_correct", "patch_two_tokens_refuted"], "note": ""},
  {"property": "C09", "status": "proved", "theorems": ["merge_with_exact", "merge_with_cfs_refuted"], "note": "other is a Dictionary; merge_with does not carry over cfs (witness)."},
  {"property": "C10", "status": "proved", "theorems": ["hashdict_doc2bow_exact", "hashdict_doc2bow_deterministic", "hashdict_counters_exact", "hashdict_readonly_refuted"], "note": "Any hash function into Z; counters for all histories of doc2bow/filter_extremes."},
  {"property": "C11", "status": "proved", "theorems": ["mm_write_succeeds", "mm_roundtrip", "mm_doc_written_exact", "mm_big_id_refuted", "mm_short_id2word_refuted", "mm_transposed"], "note": "Weight formatting is a parameter with a stated contract (wfmt_ok), instantiated for integers. Ids of 2^63-1 and more are written but not readable; an id2word shorter than the ids gives a wrong header (refuted theorems)."},
  {"property": "C12", "status": "proved", "theorems": ["mm_random_access"], "note": ""},
  {"property": "C13", "status": "proved", "theorems": ["svm_roundtrip", "svm_save_total", "svm_comment_ignored", "svm_last_char_refuted", "svm_label_hash_refuted", "svm_qid_ignored"], "note": "Weight formatting is a parameter with a stated contract (wfmt_ok). Labels must be whitespace-free without #."},
  {"property": "C14", "status": "proved", "theorems": ["blei_roundtrip", "blei_filtered_unreadable", "blei_vocab_roundtrip", "blei_small_counts_exact", "blei_large_count_refuted", "blei_zero_refuted", "blei_vocab_complete", "blei_vocab_complete_ids"], "note": "Documents come back rounded by %g (six significant digits); concrete %g for integers."},
  {"property": "C15", "status": "proved", "theorems": ["low_save_total", "low_roundtrip", "low_roundtrip_exact", "low_read_without_vocab", "low_no_id2word_refuted", "low_duplicate_word_refuted", "low_plain_roundtrip", "low_plain_negative"], "note": "Counts are rationals truncated by int()."},
  {"property": "C16", "status": "proved", "theorems": ["mallet_roundtrip", "mallet_roundtrip_meta", "mallet_metadata_without_vocab_fails", "mallet_docid_space_refuted", "mallet_plain_roundtrip"], "note": "Document ids and languages must be whitespace-free; MalletCorpus(metadata=True) without id2word fails on every non-empty file."},
  {"property": "C17", "status": "proved", "theorems": ["uci_save_total", "uci_roundtrip", "uci_vocab_roundtrip", "uci_dictionary", "uci_dictionary_repeated_id_refuted", "uci_header_overflow_refuted", "uci_vocab_complete"], "note": "Counts up to 2^53 in magnitude (read through a C double)."},
  {"property": "C18", "status": "proved", "theorems": ["chunkize_serial_exact", "chunkize_serial_zero_refuted"], "note": "The three clauses determine the chunks. A chunk size truncated to 0 drops the stream (witness)."},
  {"property": "C19", "status": "proved", "theorems": ["chunkize_background_safe", "chunkize_background_progress", "chunkize_background_terminates", "chunkize_background_complete", "chunkize_background_raising_refuted"], "note": "All interleavings of producer, feeder thread and consumer; pipe capacity counted in items."},
  {"property": "C20", "status": "proved", "theorems": ["repeat_corpus_exact", "repeat_corpus_empty_refuted", "repeat_corpus_ntimes_exact", "clipped_corpus_exact", "clipped_corpus_none_len_refuted"], "note": "Corpora are finite lists of documents."},
  {"property": "C21", "status": "proved", "theorems": ["sliced_iter_exact", "sliced_len_iff", "sliced_len_forward", "sliced_len_negative_step_refuted", "sliced_len_empty_slice_refuted", "sliced_stream_exact", "sliced_stream_len_refuted", "sliced_pylist_refuted"], "note": ""},
  {"property": "C22", "status": "proved", "theorems": ["prune_vocab_exact", "prune_vocab_le_refuted", "trim_vocab_exact", "trim_vocab_zero_refuted", "merge_counts_exact"], "note": "Counts are naturals. trim_vocab_exact is for the default trim rule."},
  {"property": "C23", "status": "proved", "theorems": ["iter_windows_exact", "iter_windows_num_exact"], "note": ""},
  {"property": "C24", "status": "proved", "theorems": ["corpus2csc_slow_roundtrip", "corpus2csc_paths_agree", "corpus2csc_wrong_counts_raise", "corpus2csc_entries", "sparse2corpus_minus_one_empty", "sparse2corpus_negative_index_refuted"], "note": "Exact-arithmetic weights; scipy constructor modelled by its documented checks. Negative indices of Sparse2Corpus are off by one (refuted theorem)."},
  {"property": "C25", "status": "proved", "theorems": ["sparse2full_exact", "sparse2full_out_of_range", "full2sparse_exact", "sparse_dense_sparse_roundtrip", "dense_sparse_dense_roundtrip", "corpus2dense_roundtrip", "corpus2dense_num_docs_checked", "sparse2full_negative_id_refuted"], "note": "Weights are rationals; float32 rounding not modelled."},
  {"property": "C26", "status": "proved", "theorems": ["argsort_is_topn", "full2sparse_clipped_is_topn", "numpy_contracts_satisfiable", "scipy_clipped_row_is_topn", "scipy_clipped_matrix_is_topn", "scipy_clipped_empty_refuted", "scipy_clipped_width_refuted"], "note": "For every np.argsort / np.argpartition meeting the stated contracts. Sparse rows and matrices with distinct column indices per row."},
  {"property": "C27", "status": "proved", "theorems": ["cossim_bounded", "cossim_symmetric", "cossim_self_one", "cossim_error_iff", "cossim_scale_invariant", "hellinger_symmetric", "hellinger_range", "hellinger_zero_iff", "hellinger_triangle", "hellinger_dense_range", "unitvec_bow_l2", "unitvec_bow_l1", "unitvec_bow_zero", "unitvec_bow_idempotent", "unitvec_dense_norm", "unitvec_zero_refuted", "unitvec_csr_argument_refuted", "unitvec_unique_formats_refuted"], "note": "Over the reals (stdlib Reals axioms)."},
  {"property": "C28", "status": "proved", "theorems": ["jaccard_bow_range", "jaccard_bow_self", "jaccard_bow_symmetric", "jaccard_bow_zero_division", "jaccard_sets_metric_facts", "jaccard_distance_metric_facts"], "note": ""},
  {"property": "C29", "status": "proved", "theorems": ["sharded_int", "sharded_int_out_of_range", "sharded_list", "sharded_list_fails", "sharded_slice", "sharded_slice_outside", "sharded_iter", "sharded_build", "sharded_step_refuted", "sharded_empty_list_refuted"], "note": "History = any sequence of int/list/slice/iteration/resize/save+load requests, including failing ones. Rows are stored at full precision (float32 rounding not modelled)."},
  {"property": "C30", "status": "proved", "theorems": ["sharded_resize", "sharded_reopen_after_resize_refuted", "sharded_clone_shardsize_refuted", "sharded_negative_resize_refuted"], "note": "resize with gensim=False and equal retrieval/serialization formats."},
  {"property": "C31", "status": "proved", "theorems": ["sim_len", "sim_vector_by_id", "sim_vector_by_id_range", "sim_add_total", "sim_query_all", "sim_shards", "sim_zero_weight_refuted", "sim_abandoned_iteration_refuted", "sim_stale_save_refuted", "sim_empty_refuted"], "note": "Document conversion, nnz counting and scoring are parameters; rows are stored at full precision (float32 rounding not modelled). Guard: every added document has as many stored non-zeros as counted terms."},
  {"property": "C32", "status": "proved", "theorems": ["sim_best_topk", "sim_best_corpus"], "note": "For every argsort/argpartition meeting the numpy contract, every history and score function. Threshold |score| > 1e-9 as in full2sparse_clipped."},
  {"property": "C33", "status": "proved", "theorems": ["phrases_reading", "phrases_cover", "frozen_cover", "phrases_empty_token_refuted"], "note": "phrases_reading holds for an arbitrary (stateful) candidate judge; phrases_cover/frozen_cover for the two classes."},
  {"property": "C34", "status": "proved", "theorems": ["learn_vocab_counts", "learn_vocab_exact", "phrases_counts_upper", "phrases_counts_exact"], "note": "With m-1 prunings a count is short by at most (m-1)(m-2)/2."},
  {"property": "C35", "status": "proved", "theorems": ["freeze_total", "freeze_same", "freeze_default_refuted", "live_repeat_refuted", "freeze_nan_refuted", "freeze_delimiter_refuted"], "note": "freeze_total: pointwise agreement with the live model at freeze time for any NaN-free scorer; freeze_same: on all sentence series when the scorer ignores len_vocab."},
  {"property": "C36", "status": "proved", "theorems": ["kv_lookup", "kv_aligned", "add_vector_index", "kv_batch_duplicate_refuted", "kv_slot_duplicate_refuted", "add_vector_index_refuted", "kv_int_key_refuted", "add_vectors_extras_fails", "add_vectors_extras_refuted", "add_vectors_short_refuted"], "note": "every history of add_vector / add_vectors / item assignment / norm computations, any number of preallocated slots; lookups hold for all histories, exact inverse for tidy ones; failing cases refuted with witnesses"},
  {"property": "C37", "status": "proved", "theorems": ["kv_norm_fresh", "kv_norm_unit", "kv_norm_stale_refuted"], "note": "every history whose norms are current; kv_norm_unit instantiates to Euclidean norm over the reals (no rounding); stale histories refuted"},
  {"property": "C38", "status": "proved", "theorems": ["most_similar_top", "most_similar_excludes", "most_similar_edges", "most_similar_excludes_refuted", "most_similar_stale_refuted"], "note": "every history with current norms, every query, window and topn, any numpy sort meeting its contract; scores abstract; fails after untidy batches or with stale norms (refuted)"},
  {"property": "C39", "status": "proved", "theorems": ["w2v_text_roundtrip", "w2v_text_no_header", "load_text_file", "w2v_short_line_refuted", "w2v_space_key_refuted", "w2v_int_keys_refuted", "w2v_limit_zero_refuted", "w2v_free_slot_refuted"], "note": "Over every tidy insertion history without free slots, with or without counts, any prefix and limit, scalars abstract (repr parses back). Stored order is the index order or by decreasing count (ties in insertion order). Keys with spaces/newlines, int keys 0..k-1 and free slots are shown not to round-trip."},
  {"property": "C40", "status": "proved", "theorems": ["w2v_binary_roundtrip", "load_binary_file", "w2v_binary_chunk_refuted"], "note": "Every buffer size >= 1, files of this library or of the original tool (newlines before words), complete or truncated; concrete UTF-8. Abstract 4-byte packing. Duplicates with a limit: witness where the buffer size decides between success and EOFError."},
  {"property": "C41", "status": "proved", "theorems": ["huffman_total", "huffman_codes", "huffman_frequent", "huffman_points", "sorted_heap_ok"], "note": "For every implementation of heapq meeting the contract (any tie-breaking), every list of natural counts. Optimality among all prefix codes, Kraft sum exactly 1 (also for one word), points are an injective decreasing numbering of the inner nodes onto 0..n-2."},
  {"property": "C42", "status": "proved", "theorems": ["jobs_greedy", "jobs_alpha", "jobs_alpha_decreasing", "alpha_epochs", "alpha_epochs_refuted", "alpha_rising_refuted", "end_alpha_zero_refuted", "no_totals_refuted", "empty_job_refuted"], "note": "Learning rates over the reals (stdlib Reals axioms)."},
  {"property": "C43", "status": "proved", "theorems": ["epoch_complete", "epoch_progresses", "epoch_terminates", "epoch_can_end", "epoch_totals", "bounds_ok", "epoch_failing_never_ends", "epoch_raising_never_ends", "no_workers_refuted"], "note": "Transition system over two bounded FIFO queues; all interleavings."},
  {"property": "C44", "status": "proved", "theorems": ["scan_vocab_counts", "max_final_vocab_ok", "max_final_vocab_kept", "w2v_first", "max_final_ties_refuted", "max_final_rule_refuted"], "note": "Vocabulary building on a fresh model; np.argsort is any function meeting its contract. Subsampling is not part of this model."},
  {"property": "C45", "status": "proved", "theorems": ["cum_table_ok", "cum_table_fair", "bisect_left_ok", "draw_ok", "draw_counts", "draw_proportional_refuted"], "note": "Reals with an arbitrary rounding function; uses the stdlib axioms of Reals."},
  {"property": "C46", "status": "proved", "theorems": ["text8_tokens", "text8_characters", "text8_pieces", "line_sentence_ok", "line_sentence_tokens", "line_sentence_bad", "saved_sentences_ok", "saved_sentences_roundtrip", "saved_empty_refuted", "path_order", "path_sentences_ok", "text8_merge_refuted", "text8_long_refuted", "zero_length_refuted", "subdirectory_refuted", "decode_strict"], "note": "Byte level, strict UTF-8; buffers of arbitrary sizes."},
  {"property": "C47", "status": "proved", "theorems": ["load_save", "facebook_round_trip", "save_succeeds", "no_trailing_bytes", "truncated_never_loads", "truncated_word_loops", "utf8_coding", "batches_do_not_matter", "both_layers_refuted", "no_layer_refuted", "null_word_refuted", "utf16_refuted", "zero_count_refuted", "facebook_layout", "old_format_layout"], "note": "Files are byte lists, floats their bit patterns; little-endian, 4-byte int, 8-byte long long; OS errors not modelled. facebook_layout gives the bytes of a saved file field by field, old_format_layout what is read from a file without magic number; both independently of the header tables shared by reader and writer."},
  {"property": "C48", "status": "proved", "theorems": ["getstate_exactly_once", "wait_over_all_done", "jobs_conserved", "failed_job_never_returned", "failed_job_hangs", "getstate_returns", "putjob_returns", "reset_discipline", "update_keeps_discipline", "abandoned_epoch_refuted"], "note": "Statistics are multisets of jobs (float addition order not modelled); no loss of messages or workers."},
  {"property": "C49", "status": "proved", "theorems": ["termsim_total", "termsim_diagonal", "termsim_symmetric", "termsim_limit", "termsim_dominant", "termsim_answered", "termsim_maximal", "termsim_exact", "uniform_good", "termsim_positive", "termsim_float16_fails", "termsim_float16_refuted", "termsim_missing_idf_refuted", "termsim_missing_idf_key_refuted", "termsim_self_refuted"], "note": "Floats are rationals (positive definiteness: reals, stdlib Reals axioms); rounding of column_sum not modelled."},
  {"property": "C50", "status": "proved", "theorems": ["lev_least", "lev_metric", "levdist_bounded", "levsim_exact", "levsim_range", "lev_most_similar_ok", "levsim_bound_refuted", "levsim_threshold_refuted", "levsim_zero_refuted", "levsim_empty_refuted"], "note": "Over the reals (stdlib Reals axioms); float rounding not modelled. Levenshtein.distance is an external C function, modelled by the usual recursion and proved least."},
  {"property": "C51", "status": "proved", "theorems": ["tfidf_corpus_statistics", "tfidf_dfs_agree", "tfidf_same", "tfidf_documents_same", "dictionary_describes", "filtered_describes", "tfidf_duplicates_refuted", "filtered_pivot_refuted", "tfidf_b_corpus_refuted"], "note": "Over the reals (stdlib Reals axioms); the dictionary part is the Dictionary model. id2word and logging not modelled."},
  {"property": "C52", "status": "proved", "theorems": ["save_intact", "save_success_intact", "save_flat_intact", "save_only_loses", "save_load_roundtrip", "save_load_all", "nested_failure_refuted", "outer_failure_refuted", "cycle_refuted", "shared_refuted", "separately_refuted", "scalar_array_refuted", "stale_refuted", "mmap_compressed"], "note": "A failing write is one of a counted number of writes; pickling itself is a heap snapshot. Properties, slots and memory mapping (except its error on compressed files) not modelled."},
  {"property": "C53", "status": "proved", "theorems": ["patch_one_token", "patch_statistics_refuted", "patch_stale_cache_refuted"], "note": ""},
  {"property": "C54", "status": "proved", "theorems": ["hashdict_debug_exact", "hashdict_tables_agree", "hashdict_filter_extremes_exact", "hashdict_filter_bucket_dfs_refuted"], "note": "no_above is an exact rational."},
  {"property": "C55", "status": "proved", "theorems": ["get_max_id_exact", "dict_from_corpus_covers", "fakedict_lookups_agree", "fakedict_keys_refuted", "flatten_exact", "is_corpus_preserves_stream"], "note": "is_corpus: objects whose class name does not contain Corpus; the checks on the first element are a parameter."},
  {"property": "C56", "status": "proved", "theorems": ["convert_vec_small_ids", "convert_vec_large_id_fails", "convert_vec_refuted"], "note": ""},
  {"property": "C57", "status": "proved", "theorems": ["load_frozen_same", "load_frozen_old", "load_connectors_refuted", "load_tuple_keys_refuted"], "note": "Pickling itself is taken to be lossless."},
  {"property": "C58", "status": "proved", "theorems": ["default_phrase_frequent"], "note": "Exact rational arithmetic instead of floats."},
  {"property": "C59", "status": "proved", "theorems": ["npmi_in_range"], "note": "Over the reals (stdlib axioms); float rounding not modelled."},
  {"property": "C60", "status": "proved", "theorems": ["kv_sort", "kv_sort_lost_refuted", "kv_sort_untidy_refuted", "kv_sort_norms_refuted"], "note": "any argsort meeting its contract"},
  {"property": "C61", "status": "proved", "theorems": ["load_text_file", "load_binary_file", "w2v_vocab_roundtrip", "w2v_resave_refuted"], "note": "Text: arbitrary entries with words free of spaces/newlines. Binary: all entries wanted or no duplicates (otherwise C40 witness)."},
  {"property": "C62", "status": "proved", "theorems": ["w2v_update", "w2v_history", "w2v_update_empty", "w2v_rebuild_more_refuted", "w2v_rebuild_same_refuted", "w2v_rebuild_fewer_refuted", "w2v_update_null_refuted", "w2v_dry_run_refuted", "w2v_min_count_zero", "vocab_report"], "note": "Violations are computed witnesses."},
  {"property": "C63", "status": "proved", "theorems": ["downsampled_iff", "probability_decreasing", "sample_int_ok", "no_sampling", "fraction_sampling", "count_sampling_lenient", "count_sampling_refuted", "count_sampling_intended"], "note": "Over the mathematical reals (stdlib Reals axioms); float rounding not modelled."},
  {"property": "C64", "status": "proved", "theorems": ["lcg_period", "lcg_range", "lcg_distinct"], "note": "Integers modulo 2^64 as in C."},
  {"property": "C65", "status": "proved", "theorems": ["prepare_batch_ok", "prepare_batch_all", "jobs_prepared", "batch_pairs_ok", "batch_pairs_once", "prepared_pairs_once", "batch_overflow_refuted"], "note": "The arithmetic of the training steps themselves is not modelled."},
  {"property": "C66", "status": "proved", "theorems": ["tfidf_default_transform", "df2idf_facts", "tfidf_common_dropped", "smart_idf", "resolve_weights_exact", "pivoted_length", "tfidf_b_unknown_refuted", "tfidf_a_empty_refuted", "tfidf_zero_frequency_refuted", "tfidf_identity_pivot_refuted", "tfidf_empty_dictionary_refuted", "tfidf_corpus_eps_refuted", "smart_tf"], "note": "Over the reals (stdlib Reals axioms); float rounding, infinities and NaN not modelled."},
  {"property": "C67", "status": "proved", "theorems": ["inner_vectors_full", "soft_vectors", "soft_corpora", "soft_vector_corpus", "soft_cauchy_schwarz", "soft_cosine_range", "maintain_length", "no_cancellation", "nonnegative_accepted", "soft_cosine_corpus_refuted", "cancellation_refuted", "not_dominant_refuted", "duplicates_refuted", "soft_empty"], "note": "Over the reals (stdlib Reals axioms); rounding, NaN and explicit zero weights not modelled; infinite weights are an error value."},
  {"property": "C68", "status": "proved", "theorems": ["compute_ngrams_bytes_places", "compute_ngrams_places", "ngrams_same", "ft_hash_fnv", "ngram_hashes", "ft_hash_not_fnv_refuted", "ngrams_single_refuted", "ngrams_surrogate_refuted"], "note": ""},
  {"property": "C69", "status": "proved", "theorems": ["ft_step_coherent", "ft_history_coherent", "ft_known_word", "ft_unknown_word", "ft_save_load", "ft_add_vectors_ignored", "ft_add_vector_refuted", "ft_normalized_save_refuted", "ft_sort_refuted", "ft_contains_refuted"], "note": "Real arithmetic instead of float32; nan from zero norms not modelled."},
  {"property": "C70", "status": "proved", "theorems": ["cython_iter_ok", "cython_iter_line_sentence", "cython_iter_unicode_refuted", "cython_iter_ascii_refuted", "next_batch_spec", "epoch_in_order", "epoch_one_worker", "epoch_no_overflow", "epoch_words", "epoch_loses_words", "long_line_lost", "sentence_idx_overflow_refuted", "workers_overlap_refuted", "workers_cut_word_refuted"], "note": "The inner training functions and floats are left out; max is a parameter (10000 in the code)."},
  {"property": "C71", "status": "proved", "theorems": ["offsets_ok", "offsets_empty_refuted", "docs_some", "docs_in_order", "docs_own_tags", "docs_one_worker", "blank_line_refuted", "workers_gap_refuted", "workers_twice_refuted", "empty_file_refuted", "dmc_tags", "dmc_wrong_tag_refuted", "dmc_update_refuted"], "note": "As for C70."},
  {"property": "C72", "status": "proved", "theorems": ["accumulate_seen", "accumulate_below", "accumulate_exact", "accumulate_short", "repeated_word_refuted", "num_docs_relevant_refuted", "accumulate_twice_refuted"], "note": "Counts are unbounded (uint32 in the code); id2token gives one word per id."},
  {"property": "C73", "status": "proved", "theorems": ["parallel_exact", "parallel_progress", "parallel_finite", "parallel_crash_refuted", "parallel_hang_refuted", "corpus_exact", "inverted_index_exact", "inverted_index_fails", "worker_replies"], "note": "The feeder threads and pipes of multiprocessing.Queue are one bounded FIFO queue; KeyboardInterrupt in the master is left out."},
  {"property": "C74", "status": "proved", "theorems": ["s_one_pre_pairs", "s_one_one_pairs", "u_mass_exact", "u_mass_short", "u_mass_bag", "u_mass_range", "u_mass_nonpositive_refuted", "u_mass_unseen_word_refuted"], "note": "Over the mathematical reals; nan is Err ZeroDivErr. Builds on corpus_exact (C73)."},
  {"property": "C75", "status": "proved", "theorems": ["log_ratio_exact", "log_ratio_unseen", "npmi_range", "npmi_above_one_refuted", "npmi_always_together_refuted", "cosine_exact", "cosine_range"], "note": "Over the mathematical reals; divisions by zero (inf or nan with numpy counts) are Err ZeroDivErr; gamma is a natural number."},
  {"property": "C76", "status": "proved", "theorems": ["cache_exact", "compare_exact", "for_topics_exact", "raised_topn_refuted", "topics_none_refuted", "truncation_refuted", "topics_replaced_refuted", "short_topics_refuted", "restore_refuted", "topn_grid_steps"], "note": "For the u_mass measure; averages over the grid and user-supplied segmented_topics are left out."},
  {"property": "C77", "status": "proved", "theorems": ["scan_tags_exact", "tags_built", "tags_updated", "from_freq_no_tags", "scan_docs_counts", "update_tags_refuted", "update_takes_over_refuted", "stale_tag_refuted", "stale_tag_outside_refuted", "rebuild_fewer_tags_refuted", "unused_integer_refuted", "doc_count_twice_refuted"], "note": "Model DocTags_Model.v; initial vectors are an arbitrary function of the slot."},
  {"property": "C78", "status": "proved", "theorems": ["dbow_touches", "dm_touches", "concat_touches", "locked_tag", "locked_word", "infer_untouched", "infer_concat_tags", "infer_alpha_linear", "no_words_nothing", "dm_word_lock_refuted", "dm_word_lock_outside_refuted", "infer_zero_alpha_refuted"], "note": "Model W2vStep_Model.v; all row numbers in range."},
  {"property": "C79", "status": "proved", "theorems": ["pass_climbs", "neg_loss", "hs_loss", "loss_no_effect", "dbow_climbs", "ctx_climbs", "cbow_gradient_refuted", "hs_loss_refuted"], "note": "Real numbers; the table of the logistic function is C80. Negative samples drawn twice are one step after the other (the theorem for distinct outputs applies to each)."},
  {"property": "C80", "status": "proved", "theorems": ["table_index_range", "table_error", "table_sign", "table_unused_refuted"], "note": "Real numbers, no rounding of the table entries or of f + 6."},
  {"property": "C81", "status": "proved", "theorems": ["hs_distribution", "score_sg_value", "score_cbow_value", "pair_logp_bounds", "score_input_alone", "score_total", "neg_objective", "lock_value", "score_left_out_refuted", "score_input_value"], "note": "HsScore_Properties.v. Real numbers, exact logistic function (the table is C80). The unset inv_count of score_pair_cbow_hs is multiplied with a zero vector only (score_input_alone)."},
  {"property": "C82", "status": "proved", "theorems": ["score_complete", "score_progresses", "score_terminates", "score_ends", "score_error", "score_queues", "score_empty_refuted"], "note": "ScoreSched_Properties.v. One step per job; scoring a sentence does not raise."},
  {"property": "C83", "status": "proved", "theorems": ["stem_porter", "longest_suffix", "measure_form", "stem_form", "stem_sentence_tokens", "stem_documents_each", "stem_recursion_refuted", "stem_twice_refuted"], "note": "Porter_Properties.v. Rules in Porter_Spec.v; str.lower is a parameter; elif chains over suffixes are lists in the model."},
  {"property": "C84", "status": "proved", "theorems": ["update_batches", "update_every_document", "rho_decays", "update_wrong_length", "gamma_mass", "gammas_each", "statistics_mass", "statistics_repeated_refuted", "update_positive", "blend_mass", "offset_below_one_refuted", "iterations_ignored", "learned_eta_unused", "evaluation_changes_training_refuted", "document_topics_spec", "term_topics_sorted_refuted", "chosen_topics_count", "no_topics_refuted", "estep_of_parts", "update_synced"], "note": "LdaTrain_Properties.v. Real numbers; exp of dirichlet_expectation is any positive function; Newton steps and random draws are parameters."},
  {"property": "C85", "status": "proved", "theorems": ["multicore_conserves", "multicore_bounded", "multicore_pass", "multicore_batch", "multicore_settles", "multicore_can_finish", "multicore_failure_hangs", "multicore_loses_refuted"], "note": "LdaMulti_Properties.v. Transition system of one pass; which version of the model a worker sees is not modelled."},
  {"property": "C86", "status": "proved", "theorems": ["poincare_metric", "poincare_similarity", "distance_from_centre"], "note": "Real arithmetic (no rounding, NaN or infinities). The triangle inequality goes through the hyperboloid model and a reversed Cauchy-Schwarz inequality."},
  {"property": "C87", "status": "proved", "theorems": ["loss_gradient", "gradients_defined", "step_downhill", "reported_loss", "batch_rows", "batch_in_ball", "stays_in_ball", "clip_border_refuted", "clip_dimensions_refuted", "clip_single", "clip_versions_refuted", "init_in_ball", "training_in_ball"], "note": "Real arithmetic. At u equal to another vector the loss is not differentiable; the code (and the model) put 0 there."},
  {"property": "C88", "status": "proved", "theorems": ["build_vocab_exact", "new_model_wf", "bad_relation", "failed_update_refuted", "no_relations_refuted", "draw_shares", "negatives_valid", "negatives_reachable", "few_negatives", "prepare_exact", "self_negative_refuted", "poincare_batches_exact", "poincare_train_ok", "burn_in_once", "burn_in_complete", "failed_burn_in_refuted", "negative_batch_refuted"], "note": "Random numbers are arguments of the model. numpy choice is any function that returns the asked number of different allowed values."},
  {"property": "C89", "status": "proved", "theorems": ["closest_child_exact", "closest_parent_exact", "ancestors_exact", "descendants_exact", "most_similar_exact", "difference_antisymmetric", "descendants_refuted", "most_similar_first_refuted", "int_node_refuted", "avg_precision_exact", "avg_precision_bounds", "self_counts", "perfect_refuted", "evaluated_all", "evaluated_bound", "max_n_refuted", "score_function_exact"], "note": "Distances and norms are arbitrary functions into the rationals; numpy argsort and argpartition any functions with their documented contract (satisfiable: numpy_contracts_satisfiable)."},
  {"property": "C90", "status": "proved", "theorems": ["strip_tags_exact", "strip_tags_none_left", "strip_numeric_exact", "strip_non_alphanum_exact", "strip_punctuation_exact", "strip_whitespaces_exact", "split_alphanum_exact", "split_capitals_refuted", "remove_stopwords_exact", "strip_short_exact", "preprocess_string_exact", "preprocess_twice_refuted", "comparison_lost_refuted", "simple_tokenize_exact", "simple_preprocess_exact", "underscore_refuted", "decode_plain", "decode_decimal", "decode_hex", "decode_name", "decode_xi_refuted", "decode_escape", "punctuation_exact"], "note": "The patterns are run by a model of the leftmost greedy backtracking matcher of re. \\w, \\d, lower and the name table are arguments."},
  {"property": "C91", "status": "proved", "theorems": ["lsi_clip_spectrum", "lsi_merge", "lsi_merge_trivial", "lsi_train", "lsi_above", "lsi_train_energy", "lsi_svd", "lsi_svd_exact", "lsi_action", "lsi_distributed", "lsi_distributed_decay_refuted", "lsi_distributed_forgets_refuted", "lsi_chunksize_refuted", "lsi_uncorrelated", "lsi_corpus", "lsi_scaled_refuted"], "note": "Real numbers. What LAPACK returns is an argument; the QR and SVD contracts are hypotheses, shown satisfiable by the examples."},
  {"property": "C92", "status": "proved", "theorems": ["ok_vocab_first", "analogies_sections", "answerable_case_sensitive", "section_name", "analogies_state", "analogies_errors", "pairs_exact", "pairs_undecodable", "analogies_input_refuted", "analogies_variants_refuted", "pairs_state_refuted"], "note": "Scores of rows, cosines, upper-casing and float() are parameters; the correlation coefficients of scipy are not modelled."},
  {"property": "C93", "status": "proved", "theorems": ["similarity_exact", "similarity_unknown", "n_similarity_exact", "n_similarity_single", "n_similarity_empty", "distances_exact", "closer_than_exact", "rank_order", "most_similar_to_given_first", "most_similar_to_none", "centrality_exact", "doesnt_match_exact", "doesnt_match_invariant", "doesnt_match_two", "doesnt_match_none", "similar_score_exact", "similar_score_weights", "cosmul_exact", "cosmul_monotone", "cosmul_single", "relative_similarity_sum", "relative_similarity_average", "rank_zero_refuted", "distances_zero_refuted", "centrality_unnormed_refuted", "relative_similarity_refuted"], "note": "Real numbers; NaN appears only as a missing distance. Which rows are returned for given scores is C92 and C38."},
  {"property": "C94", "status": "proved", "theorems": ["wmd_exact", "wmd_infinite", "wmd_symmetric", "wmd_bounds", "wmd_shares_only", "wmd_same", "wmd_triangle", "wmd_single", "wmd_separates", "wmd_average", "emd_exists", "wmd_self_refuted"], "note": "Real numbers; pyemd is a parameter with a contract that emd_exists shows satisfiable; vectors of the words used are not zero."},
  {"property": "C95", "status": "proved", "theorems": ["doc2author_made", "author2doc_made", "update_consistent", "agree_from_author2doc", "agree_from_doc2author", "one_pass_exact", "local_ids_miss", "new_author_restores", "bound_ignores", "bound_training", "update_other_cases", "bound_rejects", "second_update_refuted", "empty_author_refuted", "resume_refuted", "bound_refuted"], "note": "The numerical inference is a parameter here; corpora are lists in memory."},
  {"property": "C96", "status": "proved", "theorems": ["at_words_shared", "at_rows", "at_stored", "at_sequential", "at_statistics", "at_single_is_lda", "at_author_order", "at_counts", "at_fractions_lost", "author_topics_spec", "at_weights_refuted"], "note": "Real numbers; the digamma function is a parameter, only its positivity after exp is used; documents without authors get no statistics."},
  {"property": "C97", "status": "proved", "theorems": ["sample_exact", "sample_uniform", "draws_all", "sample_rejects", "sample_too_long", "sample_metadata_refuted", "step_through_exact", "step_through_refuted", "lower_exact", "lower_refuted", "corpus_complete", "metadata_exact", "file_object_refuted", "directory_files", "directory_default", "directory_documents", "directory_length", "directory_length_refuted", "no_directory_refuted", "max_depth_none_refuted"], "note": "Outcomes of randint are an argument; directory trees are values that do not change; regular expressions of file names are any predicates; deaccent is not modelled."},
  {"property": "C98", "status": "proved", "theorems": ["documents_apart", "weights_nonneg", "weights_descend", "large_step_refuted", "step_best", "rest_is_best", "empty_topic_zero", "empty_topic_refuted", "topics_feasible", "topics_descend", "topics_descend_refuted", "solution_descends", "training_feasible", "passes_exact", "batch_order", "chunksize_refuted", "nmf_iterator_refuted", "statistics_exact", "update_forgets_refuted", "empty_batch_refuted", "nan_forever", "topics_sum", "document_topics_exact", "document_query_refuted", "topic_terms_sum", "topic_terms_refuted", "term_topics_exact", "term_topics_refuted"], "note": "Real numbers (no rounding); random permutations and the start of W are arguments; NaN is kept as a separate value; evaluation, logging, selection of the top terms and the corpus form of the queries are not modelled."},
  {"property": "C99", "status": "proved", "theorems": ["lazy_is_eager", "learning_rate", "tau_zero_refuted", "parameters_positive", "chunk_mass", "duplicate_ids_refuted", "lda_of_hdp", "update_once", "update_again_one_chunk", "update_again_refuted", "update_max_chunks", "empty_corpus_refuted", "no_corpus_refuted", "topics_ordered", "numbering_agrees", "suggested_topics_refuted", "show_topics_count", "show_all_topics_refuted", "getitem_untrained", "getitem_shares", "getitem_empty"], "note": "Real numbers (no rounding); digamma and the likelihood of a document are arbitrary functions; the order of equal weights is arbitrary; random draws and the clock are arguments; minus infinity and NaN of the discounts are separate values; files, logging, evaluation and the choice of the top words of a topic are not modelled."},
  {"property": "C100", "status": "proved", "theorems": ["template_exact", "template_none_left", "template_unique", "template_brace_refuted", "comment_braces_refuted", "files_captioned", "file_uncaptioned_refuted", "file_link_refuted", "no_tags_left", "no_brackets_left", "never_longer", "plain_untouched", "markup_exact", "interlinks_found", "tokens_exact", "tokens_order", "image_article_refuted", "dash_link_refuted", "four_levels_refuted", "comparisons_refuted", "exclamation_refuted"], "note": "Texts are str; the regular expressions are written in a model of a backtracking matcher with groups, lookarounds and greedy and lazy repetition; word characters, digits, lowercasing and entity names are arguments."},
  {"property": "C101", "status": "proved", "theorems": ["pages_exact", "texts_exact", "processes_irrelevant", "default_tokenizer", "sections_lossless", "sections_exact", "sections_corpus", "excluded_pages_refuted", "length_before_pass_refuted", "no_namespaces_refuted", "prefixes_refuted", "headings_missed_refuted", "sections_namespace_refuted"], "note": "A dump is the parsed tree with the elements in the order of their end tags and pages emptied after use; decompression, pickling between processes and the XML parser are not modelled. Cleaning of the texts is C100, the background reader is modelled in Chunkize_Model.v."},
  {"property": "C102", "status": "proved", "theorems": ["weights_exact", "weight_bounds", "transform_exact", "one_document_generator_refuted", "le_empty_corpus_refuted", "le_zero_count_refuted", "repeated_term_refuted", "norm_model_exact", "norm_zero_refuted"], "note": "Real numbers instead of floats; a corpus is what its two iterations give."},
  {"property": "C103", "status": "proved", "theorems": ["projection_exact", "trained_projectable", "rp_draws_all", "inner_products_kept", "distances_kept", "unknown_id_refuted", "repeated_id_refuted", "small_document_refuted"], "note": "Real numbers instead of float32; the random draws are an argument."},
  {"property": "C104", "status": "proved", "theorems": ["smoother_marginals", "marginals_unique", "forward_values", "smoothing_helps"], "note": "Real numbers; the division by a zero variance is excluded by the guard."},
  {"property": "C105", "status": "proved", "theorems": ["mean_derivative", "objective_gradient", "mean_deriv_too_small", "gradient_always_wrong", "gradient_refuted"], "note": "Derivatives are those of the Coq real analysis library."},
  {"property": "C106", "status": "proved", "theorems": ["bound_exact", "bound_one_slice", "late_counts_ignored", "chain_bound_refuted"], "note": "The full bound keeps the code's terms and signs."},
  {"property": "C107", "status": "proved", "theorems": ["phi_rows", "phi_update_best", "posterior_of_document", "posterior_total", "statistics_of_document", "mixture_distribution"], "note": "Real numbers; psi and log-gamma are parameters."},
  {"property": "C108", "status": "proved", "theorems": ["slice_of_documents", "statistics_of_slices", "mixtures_of_documents", "inference_total", "slices_refuted", "documents_fitted", "slice_needed"], "note": ""},
  {"property": "C109", "status": "proved", "theorems": ["fitted_chain", "fitting_total", "initial_chain", "topic_softmax", "topic_mass", "fitted_words", "training_rounds", "convergence_refuted", "trained_model", "topics_fitted", "fitted_bound", "one_round", "limit_values", "document_topics"], "note": "scipy's optimiser is an arbitrary function."},
  {"property": "C110", "status": "proved", "theorems": ["posterior_depends_on", "leftovers_refuted", "start_values"], "note": "Real numbers; the topics of the counterexample are arbitrary numbers, not fitted ones."},
  {"property": "C111", "status": "proved", "theorems": ["train_exact", "train_least", "exact_dictionary", "train_fails"], "note": "Real numbers; np.linalg.lstsq and np.argsort are parameters with their documented behaviour; zero vectors (nan) are excluded where needed."},
  {"property": "C112", "status": "proved", "theorems": ["translate_nearest", "translate_scale"], "note": "Real numbers; ties are ordered arbitrarily by argsort."},
  {"property": "C113", "status": "proved", "theorems": ["corrected_order", "corrected_possible", "corrected_needs_sample", "corrected_scale_refuted", "corrected_repeat_refuted", "corrected_sample_refuted"], "note": "Real numbers; random draws are a parameter."},
  {"property": "C114", "status": "proved", "theorems": ["annoy_order", "annoy_is_cosine", "annoy_cosine_refuted", "nmslib_cosine"], "note": "The neighbours and distances are what the libraries return; their search is not modelled."},
  {"property": "C115", "status": "proved", "theorems": ["bound_is_best", "score_is_bound", "bound_fails", "matrix_prior_refuted"], "note": "Real numbers; digamma and log gamma are parameters."},
  {"property": "C116", "status": "proved", "theorems": ["inference_raises", "batch_raises", "constant_close"], "note": "Assumes as hypothesis that the log of the multivariate beta function lies above its tangents (true of the gamma function: convexity); an example shows the hypothesis is consistent. Distinct word ids in each document for the batch update. Weight < 1 (online updates) is not covered: there the bound may fall."},
  {"property": "C117", "status": "proved", "theorems": ["per_word_bound", "no_documents", "perplexity_base_refuted", "perplexity_decreasing"], "note": "Real numbers; a chunk without words (0/0) is excluded."},
  {"property": "C118", "status": "proved", "theorems": ["symmetric_prior", "asymmetric_prior", "prior_fails", "priors_shapes", "positive_prior_refuted"], "note": "Arrays are given as lists; num_topics > 0."},
  {"property": "C119", "status": "proved", "theorems": ["diff_cells", "diff_normed", "diff_diagonal", "diff_fails", "diff_class_refuted", "diff_diagonal_scale_refuted", "kullback_distance", "jensen_distance", "annotation"], "note": "Real numbers; distances for positive distributions."},
  {"property": "C120", "status": "proved", "theorems": ["unpack_restores", "unpack_rows", "unpack_cycle_refuted", "unpack_chain_refuted", "unpack_full_refuted", "unpack_fails"], "note": "Rows are opaque; random rows are a parameter."},
  {"property": "C121", "status": "proved", "theorems": ["dense_query", "sparse_query", "same_index", "query_bounded", "corpus_query", "maintain_best_refuted", "index_fails"], "note": "Real numbers (float32 rounding not modelled); the clipping of a row is a parameter here (Matutils)."},
  {"property": "C122", "status": "proved", "theorems": ["dense_iterate", "sparse_iterate", "sparse_iterate_refuted", "abandoned_refuted"], "note": "As C121."},
  {"property": "C123", "status": "proved", "theorems": ["wmd_values", "wmd_loop", "wmd_loop_refuted"], "note": "The distance is a parameter."},
  {"property": "C124", "status": "proved", "theorems": ["only_verified", "load_present", "load_offline", "load_arrives", "load_failed", "left_over_stuck", "interrupted_refuted", "cache_refuted", "outdated_refuted", "corrupt_refuted"], "note": "Files and their checksums are opaque values; the loader module of a data set is not modelled."},
  {"property": "C125", "status": "proved", "theorems": ["metrics_history", "metrics_see_pass", "batch_sees_start", "batch_metrics_refuted", "window_order_refuted", "same_label_refuted"], "note": "A metric is a function of the model and the previous one; one worker."},
  {"property": "C126", "status": "proved", "theorems": ["intersect_text_merges", "intersect_binary_merges", "always_fails", "truncated_hangs", "single_lock_stops", "single_lock_all"], "note": "Scalars and file formats as in C39; keys are strings."},
  {"property": "C127", "status": "proved", "theorems": ["predict_exact", "predict_none", "predict_fails", "predict_order", "predict_fasttext_refuted"], "note": "Real numbers (no overflow of exp); the sorting is any that meets its contract."},
  {"property": "C128", "status": "proved", "theorems": ["smart_extension_beside", "lda_roundtrip", "lda_save_ok", "lda_others_safe", "stale_dictionary_refuted", "stale_state_refuted", "ignore_none_refuted", "ignore_string_refuted", "other_name_refuted", "lost_state_refuted"], "note": "Pickling of single objects is a table; arrays in separate files are C-level details of SaveLoad (modelled elsewhere)."},
  {"property": "C129", "status": "proved", "theorems": ["w2v_sims_exact", "word2vec_similarity_exact", "word2vec_similarity_fails", "id_table_fresh", "grown_dictionary_refuted", "train_args_kept", "train_args_set", "hs_lost_refuted", "hs_always_zero"], "note": "Real numbers; plain KeyedVectors; nan is None."},
  {"property": "C130", "status": "proved", "theorems": ["upgrade_w2v_moves", "upgrade_w2v_current", "upgrade_loses_syn1", "hs_weights_lost_refuted", "exponent_lost_refuted", "upgrade_kv_words", "upgrade_kv_current", "upgrade_doctags_fails", "int_keys_refuted", "old_documents_refuted"], "note": "Attribute values are opaque; all values of a per-word attribute have one type."},
  {"property": "C131", "status": "proved", "theorems": ["lsi_show_topic_best", "lsi_topics_agree", "lsi_show_topic_missing", "lsi_show_topics_list", "lda_terms_best", "lda_terms_share", "lda_show_topic_words", "top_topics_sorted", "hdp_show_topic_best", "hdp_negative_refuted"], "note": "Exact rational weights; the square root is an arbitrary function; the coherence scores are an argument. Theorems on shares assume a positive sum of the row."},
  {"property": "C132", "status": "proved", "theorems": ["d2v_text_combined", "d2v_binary_combined", "d2v_single", "d2v_vocab", "glove_exact", "glove_info_lines", "tensor_lines", "int_tags_vocab_refuted", "int_tags_twice_refuted", "same_text_tags_refuted", "tag_is_word_refuted", "glove_twice_refuted"], "note": "The binary form is proved if there is a string tag or no integer tag. A file is left as it was if its vectors cannot be collected."},
  {"property": "C133", "status": "proved", "theorems": ["json_read_back", "json_ascii", "lines_tell", "dump_to_lines", "surrogates_refuted"], "note": "The JSON reader is a separate function in SegmentJson_Spec.v."},
  {"property": "C134", "status": "proved", "theorems": ["hash_text_exact", "hash_text_no_debug", "hash_text_determines", "hash_text_tab_refuted"], "note": ""},
  {"property": "C135", "status": "proved", "theorems": ["brown_sentences", "brown_tags_distinct", "brown_bad_line", "brown_slash_refuted", "brown_order_refuted", "brown_empty_word_refuted"], "note": ""},
  {"property": "C136", "status": "proved", "theorems": ["one_document", "many_documents", "iterating", "bags_come_back", "resize_kind", "dimension_derived", "dimension_given", "chain_total", "sparse_bags_refuted", "same_bags_refuted", "resized_rows_refuted", "coercing_refuted", "transformed_refuted"], "note": "Files are taken to be all of one kind; weights are rationals."},
  {"property": "C137", "status": "proved", "theorems": ["train_accepts", "train_refuses", "d2v_train_same", "build_exact", "construct_steps", "construct_generator", "history_counts", "d2v_settings_exact", "w2v_iterator_refuted", "epochs_lost_refuted", "loss_lost_refuted", "rates_refuted", "dm_mean_refuted", "dm_two_refuted"], "note": "Which words are kept is arbitrary here (C44, C62); training on what is read is C42, C43 and C79."},
  {"property": "C138", "status": "proved", "theorems": ["annoy_answers", "annoy_saved", "annoy_missing", "annoy_none", "nms_answers", "nms_saved", "annoy_again_refuted", "nms_query_refuted"], "note": "The libraries are arbitrary functions of what an index was made of."},
  {"property": "C139", "status": "proved", "theorems": ["wes_unknown", "wes_best", "wes_words", "wes_again", "wes_order", "wes_matrix", "shortest_uint_fits", "wes_negative_refuted", "wes_crowded_refuted", "shortest_uint_refuted"], "note": "Scores are rationals; fractional exponents are an arbitrary function."},
  {"property": "C140", "status": "proved", "theorems": ["seq_print_topic", "seq_outside", "seq_lists", "seq_coherence", "seq_vis", "seq_mixture", "seq_lengths_refuted", "seq_gap_refuted"], "note": "The chains hold the exponentials of e_log_prob as positive rationals."},
  {"property": "C141", "status": "proved", "theorems": ["cohwords_right", "cohwords_all", "for_models_exact", "cohwords_stale_refuted"], "note": "Weights are rationals; u_mass coherence."},
  {"property": "C142", "status": "proved", "theorems": ["hdp_eval_exact", "hdp_eval_fails", "hdp_eval_order", "hdp_eval_parts", "hdp_eval_trained", "hdp_eval_stale", "hdp_no_outputdir", "hdp_eval_untrained_refuted", "hdp_eval_stale_refuted", "hdp_outputdir_refuted"], "note": "Real numbers; the likelihood of one document is an arbitrary function."},
  {"property": "C143", "status": "proved", "theorems": ["lex_scores_exact", "lex_eval_exact", "lex_duplicate_refuted", "csvcorpus_refuted"], "note": "Rows are given split into fields; rational distances; the rank correlation is an arbitrary function."},
  {"property": "C144", "status": "proved", "theorems": ["nmf_show_all", "nmf_show_some", "nmf_show_one", "nmf_show_none_refuted", "nmf_show_changes_refuted"], "note": "Weights are rationals; not formatted."},
  {"property": "C145", "status": "proved", "theorems": ["shared_consistent", "shared_others", "shared_counts", "reset_exact", "shared_expand_refuted", "shared_build_refuted", "shared_doc2vec_refuted", "shared_build_exact", "shared_expand_exact", "expand_counts_refuted"], "note": "Words are kept by their count and not sorted; rows are abstract; words of document models only."},
  {"property": "C146", "status": "proved", "theorems": ["meta_exact", "dir_found", "dir_root_refuted", "content_longest", "dictionary_back", "dictionary_tab_refuted", "similar_exact", "similar_zero_refuted"], "note": "Lines end with newline only; sizes are in characters; the pairs a dictionary writes are given."},
  {"property": "C147", "status": "proved", "theorems": ["keys_exact", "space_corpus_exact", "length_exact", "all_alike", "gap_refuted", "fake_refuted", "nothing_refuted"], "note": "Words of mappings are left out."},
  {"property": "C148", "status": "proved", "theorems": ["shard_name_inj", "shards_on_disk", "destroy_exact", "destroy_other_refuted", "save_other_refuted"], "note": "A shard is one file; prefixes without special characters of glob, files in the directory of the prefix."},
  {"property": "C149", "status": "proved", "theorems": ["xml_exact", "own_one", "pieces_exact", "normalize_exact", "formula_refuted", "cut_word_refuted"], "note": "The XML parser is the sequence of events it hands over."},
  {"property": "C150", "status": "proved", "theorems": ["states_exact", "never_stuck", "acts_end", "waiting_ends", "no_reset_refuted"], "note": "Workers do not crash; what a worker has learned is the list of its jobs; the states are collected at once. Ends under the assumption that a worker that can act at some time does."},
  {"property": "C151", "status": "proved", "theorems": ["metric_value", "metric_fails", "override_stays_refuted"], "note": "What is computed from the attributes is a parameter."},
  {"property": "C152", "status": "proved", "theorems": ["articles_found", "articles_all", "content_own", "base_article_refuted", "same_number_refuted"], "note": "No symbolic links; the tree does not change during the search; sources at / or . are in C146's violation of paths."}
]}
