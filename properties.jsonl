{"id": "C01", "title": "Dictionary ids are always the dense range 0..n-1, one per token", "statement": "Starting from an empty Dictionary, after any sequence of doc2bow/add_documents (with or without pruning), filter_extremes, filter_n_most_frequent, filter_tokens, compactify and merge_with calls, token2id maps distinct tokens to distinct ids and the ids used are exactly 0..len(dictionary)-1. For a dictionary whose ids have gaps (reachable through load_from_text or from_corpus) one updating doc2bow call can hand out an id that is already taken.", "quantifier": "every finite history of public mutating calls with arbitrary arguments, starting from an empty dictionary; plus one explicit gappy history for the negative half", "why_tests_cant": "Tests try a handful of call sequences; the invariant is over all histories and all token sets, including prune triggers in the middle of add_documents.", "anchors": ["gensim/corpora/dictionary.py: Dictionary.doc2bow, add_documents, filter_extremes, filter_n_most_frequent, filter_tokens, compactify, merge_with, load_from_text"]}
{"id": "C02", "title": "Dictionary corpus statistics are exact", "statement": "For every sequence of documents given to doc2bow(allow_update=True) on a fresh Dictionary, num_docs is the number of documents, num_pos the total number of tokens, num_nnz the total number of distinct (document, token) pairs, and for every token seen dfs[id] is the number of documents containing it and cfs[id] its total number of occurrences; no other ids appear in dfs or cfs.", "quantifier": "every finite sequence of documents, every token", "why_tests_cant": "Counting must be right for every corpus, including repeated tokens, repeated documents and empty documents.", "anchors": ["gensim/corpora/dictionary.py: Dictionary.doc2bow"]}
{"id": "C03", "title": "doc2bow output is the exact sorted bag of words and read-only mode changes nothing", "statement": "doc2bow(document) returns ids in strictly increasing order, with exactly the known tokens of the document, each with its number of occurrences; with return_missing it also returns exactly the unknown tokens with their counts; with allow_update=False the dictionary is unchanged; with allow_update=True every token of the document becomes known and is included.", "quantifier": "every dictionary whose ids are distinct, every document, every flag combination", "why_tests_cant": "Ranges over all dictionaries and documents, including duplicates and unknown tokens.", "anchors": ["gensim/corpora/dictionary.py: Dictionary.doc2bow"]}
{"id": "C04", "title": "Dictionary ids are stable while growing", "statement": "An updating doc2bow call never changes the id of a token that was already known, never removes a token, and never decreases dfs or cfs of an existing id; hence bag-of-words vectors produced earlier stay interpretable after adding more documents without pruning.", "quantifier": "every dictionary state and every document sequence", "why_tests_cant": "Stability is a statement about all later histories.", "anchors": ["gensim/corpora/dictionary.py: Dictionary.doc2bow, add_documents"]}
{"id": "C05", "title": "filter_extremes keeps exactly the documented tokens", "statement": "After filter_extremes(no_below, no_above, keep_n, keep_tokens) on a consistent dictionary the surviving tokens are exactly the first keep_n, by decreasing document frequency, of those with no_below <= df <= no_above*num_docs or listed in keep_tokens; the surviving tokens keep their dfs and cfs and num_docs/num_pos/num_nnz are untouched. The documented promise that keep_tokens survive regardless is false: keep_n can evict them.", "quantifier": "every consistent dictionary and every choice of thresholds and keep list; an explicit witness for the false promise", "why_tests_cant": "Tests check a few thresholds on one dictionary; the exact survivor set and the interplay of keep_tokens with keep_n need all dictionaries.", "anchors": ["gensim/corpora/dictionary.py: Dictionary.filter_extremes, filter_tokens, compactify"]}
{"id": "C06", "title": "Filtering and compactify renumber without reordering and move statistics with the token", "statement": "filter_tokens, filter_n_most_frequent and compactify preserve the relative id order of the surviving tokens, renumber them to 0..n-1, and every surviving token keeps exactly its own dfs and cfs values.", "quantifier": "every consistent dictionary and every id list", "why_tests_cant": "A swap of two statistics is invisible to tests that only look at the token set.", "anchors": ["gensim/corpora/dictionary.py: Dictionary.filter_tokens, filter_n_most_frequent, compactify"]}
{"id": "C07", "title": "Dictionary text save/load round-trips", "statement": "For every dictionary whose maps are consistent (distinct tokens, distinct ids, a document frequency for exactly the ids in use) and whose tokens contain no TAB and no newline, load_from_text(save_as_text(d)) has the same token2id, the same dfs and the same num_docs, whichever sort_by_word flag is used; cfs, num_pos and num_nnz are not preserved. A token containing a TAB makes the saved file unreadable (ValueError).", "quantifier": "every such dictionary and both sort orders", "why_tests_cant": "Round trip over arbitrary Unicode tokens and arbitrary id assignments.", "anchors": ["gensim/corpora/dictionary.py: Dictionary.save_as_text, load_from_text"]}
{"id": "C08", "title": "Reverse lookup is the inverse of token2id", "statement": "After any history of growth and filtering calls interleaved with lookups, dictionary[id] returns the token whose id it is (and raises KeyError for unused ids) even though the reverse map is cached and refreshed lazily. patch_with_special_tokens given two tokens that are already known can raise KeyError for a valid request, because it consults the cached reverse map while it is stale.", "quantifier": "every history of doc2bow/filter/compactify/merge/lookup calls; explicit witness history for patch_with_special_tokens", "why_tests_cant": "Cache coherence depends on the whole call history.", "anchors": ["gensim/corpora/dictionary.py: Dictionary.__getitem__, compactify, patch_with_special_tokens"]}
{"id": "C09", "title": "merge_with returns a transformation consistent with the merged dictionary", "statement": "After d.merge_with(other) every token of other is known to d, tokens of d keep their ids, num_docs/num_pos/num_nnz become the sums, dfs of each token becomes the sum, and the returned transformation maps every bag of words over other's ids to the bag of words of the same tokens over d's new ids.", "quantifier": "every pair of consistent dictionaries with dense ids and every document vector", "why_tests_cant": "Needs all overlaps of two vocabularies and all vectors.", "anchors": ["gensim/corpora/dictionary.py: Dictionary.merge_with", "gensim/models/__init__.py: VocabTransform"]}
{"id": "C10", "title": "HashDictionary vectors are total, in range and deterministic; but never read-only", "statement": "HashDictionary.doc2bow returns strictly increasing ids inside [0, id_range), the counts sum to the document length, and the same document always gives the same vector no matter which documents were processed before. Contrary to the documented flag, doc2bow(allow_update=False) does change num_docs.", "quantifier": "every hash function, id_range > 0, document and history; a witness for the second half", "why_tests_cant": "Hash collisions and histories cannot be enumerated by tests.", "anchors": ["gensim/corpora/hashdictionary.py: HashDictionary.doc2bow, restricted_hash"]}
{"id": "C11", "title": "Matrix Market corpora round-trip, including empty documents", "statement": "Writing any corpus with MmCorpus.serialize and iterating the file back yields, document by document, the entries whose absolute weight exceeds the writer threshold, sorted by term id, with empty documents (also leading, trailing and consecutive ones) in place; the header counts equal the number of documents, max id + 1 and number of stored entries. Term ids of 2^63-1 and above are written but cannot be read back, and an id2word shorter than the ids used yields a wrong header.", "quantifier": "every finite corpus of (non-negative id, weight) lists", "why_tests_cant": "Empty-document placement and header back-patching must hold for every shape of corpus.", "anchors": ["gensim/matutils.py: MmWriter.write_corpus, write_vector, fake_headers", "gensim/corpora/_mmreader.pyx: MmReader.__init__, __iter__", "gensim/corpora/mmcorpus.py: MmCorpus"]}
{"id": "C12", "title": "Random access into a serialized MmCorpus equals iteration", "statement": "For every corpus and every valid position i (also for empty documents), MmCorpus(fname)[i] equals the i-th document obtained by iterating the file.", "quantifier": "every corpus, every index", "why_tests_cant": "Byte offsets depend on all previous documents.", "anchors": ["gensim/matutils.py: MmWriter.write_corpus", "gensim/corpora/_mmreader.pyx: docbyoffset", "gensim/corpora/indexedcorpus.py: IndexedCorpus.__getitem__"]}
{"id": "C13", "title": "SVMlight corpora round-trip and are randomly accessible", "statement": "For every corpus, saving in SvmLight format and iterating (or indexing) gives back the same documents and labels, provided labels are whitespace-free and contain no '#'; saving fails only when the labels run out; a trailing comment never changes a document. When the last line of a file has no trailing newline and no comment, its last character is silently dropped, so a different value is read.", "quantifier": "every corpus of (id, value) lists; a witness file for the second half", "why_tests_cant": "Round trip over all ids and counts, byte offsets over all prefixes.", "anchors": ["gensim/corpora/svmlightcorpus.py: SvmLightCorpus.save_corpus, line2doc, doc2line, docbyoffset"]}
{"id": "C14", "title": "Blei LDA-C corpora round-trip when no weight is near zero, and are unreadable otherwise", "statement": "BleiCorpus.save_corpus followed by iteration or indexing returns the same documents up to %g rounding when every weight survives the near-zero filter (exactly, for integer counts below a million); a single filtered weight makes the written file unreadable from that document on. The vocabulary file gives back every word, '---' standing for missing ids.", "quantifier": "every corpus of (id, weight); witness for the failing case", "why_tests_cant": "Universal over corpora; the failing case needs a particular weight.", "anchors": ["gensim/corpora/bleicorpus.py: BleiCorpus.save_corpus, line2doc, docbyoffset"]}
{"id": "C15", "title": "GibbsLda (low) corpora round-trip", "statement": "For every vocabulary of distinct non-empty whitespace-free words and every corpus over it, LowCorpus.save_corpus followed by reading with the same id2word yields the same bag of words per document (exactly the stored list when ids are distinct and counts positive), by iteration and by index, and the declared document count is right. Read without id2word, the collected sorted vocabulary gives the same word counts; saved and read without id2word, ids are renumbered. Saved without id2word, ids from zero on are written as decimals, and reading with the mapping to decimals gives every bag back; a negative id raises ValueError.", "quantifier": "every vocabulary and corpus", "why_tests_cant": "Order of words in lines and sorting must work for all documents.", "anchors": ["gensim/corpora/lowcorpus.py: LowCorpus.save_corpus, line2doc, __iter__"]}
{"id": "C16", "title": "Mallet corpora round-trip, with metadata", "statement": "For every vocabulary of distinct non-empty whitespace-free words and every corpus, MalletCorpus.save_corpus followed by iteration or indexing yields the same bags of words, and document ids and languages survive when they are whitespace-free. With metadata=True and no id2word the constructor fails on every non-empty file. Saved without id2word, reading with the mapping of ids to decimals gives every bag back.", "quantifier": "every vocabulary, corpus and metadata", "why_tests_cant": "Universal over contents including empty documents.", "anchors": ["gensim/corpora/malletcorpus.py: MalletCorpus.save_corpus, line2doc"]}
{"id": "C17", "title": "UCI bag-of-words corpora round-trip", "statement": "UciCorpus written through UciWriter and read through UciReader gives back every document (entries with non-zero truncated count, sorted by id), by iteration and by index, with empty documents in place and right header counts; the vocabulary file round-trips; create_dictionary has document frequencies and corpus length when ids are distinct within documents. A 21-character header value passes the size check and destroys the header.", "quantifier": "every corpus", "why_tests_cant": "Header back-patching and empty document bookkeeping for all corpora.", "anchors": ["gensim/corpora/ucicorpus.py: UciWriter, UciReader, UciCorpus"]}
{"id": "C18", "title": "Serial chunking partitions the stream", "statement": "chunkize_serial(it, n) yields chunks whose concatenation is the stream in order, every chunk is non-empty, all but the last have exactly n items and the last has at most n.", "quantifier": "every finite stream and n >= 1", "why_tests_cant": "All stream lengths relative to n.", "anchors": ["gensim/utils.py: chunkize_serial, grouper"]}
{"id": "C19", "title": "Background chunking is equivalent to serial chunking under every schedule", "statement": "chunkize(corpus, n, maxsize=m>0) with its producer process, feeder thread and bounded queue yields exactly the chunks of chunkize_serial in the same order for every interleaving, never deadlocks, and terminates; the queue never holds more than m chunks. If iterating the corpus raises in the background process, the consumer waits for ever.", "quantifier": "every interleaving, every corpus, n and queue bound", "why_tests_cant": "Concurrency: schedules cannot be enumerated by tests.", "anchors": ["gensim/utils.py: chunkize, InputQueue"]}
{"id": "C20", "title": "Corpus views: repeat, repeat-n, clip", "statement": "Iterating RepeatCorpus(c, r) over a non-empty c yields exactly r documents, the i-th being c[i mod len(c)]; RepeatCorpusNTimes(c, n) yields n copies in order; ClippedCorpus(c, k) yields the first min(k, len c) documents and len() agrees.", "quantifier": "every corpus and every parameter", "why_tests_cant": "All length/parameter relations.", "anchors": ["gensim/utils.py: RepeatCorpus, RepeatCorpusNTimes, ClippedCorpus"]}
{"id": "C21", "title": "SlicedCorpus yields the slice; its length agrees with iteration exactly for a characterised set of slices", "statement": "Iterating SlicedCorpus(c, s) yields the documents of the Python slice in order. For an indexed corpus len() equals the number of documents yielded if and only if the step is positive and start < stop + step, or the step is negative, stop <= start and the step divides stop - start (after normalisation); so it is right for every forward slice and wrong (or raises ValueError) for the others. Streamed corpora have no length and a plain Python list cannot be sliced at all.", "quantifier": "every corpus and every slice object with a valid step", "why_tests_cant": "All slices over all lengths.", "anchors": ["gensim/utils.py: SlicedCorpus.__iter__, __len__"]}
{"id": "C22", "title": "Vocabulary pruning removes exactly the rare words", "statement": "prune_vocab(vocab, min_reduce) removes exactly the entries with count < min_reduce (or as the trim_rule says), returns the sum of removed counts, and keeps every other entry unchanged and in order; a count equal to min_reduce is kept, contrary to the comment and log message. trim_vocab_by_freq(vocab, topk) keeps exactly the entries with fewer than topk strictly larger counts; topk=0 raises IndexError. merge_counts adds counts pointwise.", "quantifier": "every vocabulary, threshold and trim rule; topk >= 1", "why_tests_cant": "Universal over count maps; ties matter.", "anchors": ["gensim/utils.py: prune_vocab, trim_vocab_by_freq, merge_counts, keep_vocab_item"]}
{"id": "C23", "title": "Sliding windows enumerate every window once", "statement": "iter_windows over texts yields, per text of length >= w, its len - w + 1 contiguous slices of length w in order and nothing else (shorter texts: the whole text, or nothing with ignore_below_size), with the right text numbers; the unchecked strided view never reads outside the text.", "quantifier": "every text list and window size", "why_tests_cant": "All lengths relative to the window size.", "anchors": ["gensim/utils.py: iter_windows, _iter_windows, strided_windows"]}
{"id": "C24", "title": "corpus2csc builds the same matrix on both code paths", "statement": "corpus2csc(corpus) computed with the true (num_terms, num_docs, num_nnz) equals the matrix computed by the streaming path, whatever the preallocated memory contained; wrong counts always raise; the (term, doc) entry is the summed weight of that term in that document; reading the matrix back with Sparse2Corpus returns every document as stored. Sparse2Corpus[-1], however, is always the empty document.", "quantifier": "every corpus", "why_tests_cant": "The two paths are separate code; equality for all corpora.", "anchors": ["gensim/matutils.py: corpus2csc, Sparse2Corpus"]}
{"id": "C25", "title": "Dense/sparse vector conversions round-trip", "statement": "full2sparse(sparse2full(doc, n)) returns the document's entries above eps in increasing id order, and sparse2full(full2sparse(v)) returns v with entries of magnitude <= eps zeroed, for every document with distinct ids below n.", "quantifier": "every document / vector, every eps >= 0", "why_tests_cant": "All positions and values.", "anchors": ["gensim/matutils.py: full2sparse, sparse2full"]}
{"id": "C26", "title": "full2sparse_clipped and argsort return a true top-n", "statement": "full2sparse_clipped(vec, topn) returns at most topn entries, only entries with magnitude > eps, sorted by decreasing magnitude, and no omitted entry with magnitude > eps has larger magnitude than a returned one; argsort(x, topn, reverse) returns the indices of a top-n selection in order. scipy2scipy_clipped does the same for each row of a sparse matrix; it fails with ValueError if no row has an entry, and the number of columns of the result is that of the kept entries, not of the input.", "quantifier": "every vector and topn, for every behaviour of the partition primitive allowed by its contract", "why_tests_cant": "Ties and partition order are implementation dependent; the statement is over all of them.", "anchors": ["gensim/matutils.py: argsort, full2sparse_clipped"]}
{"id": "C27", "title": "Cosine similarity and Hellinger distance are bounded and symmetric", "statement": "cossim(a, b) lies in [-1, 1], is symmetric and scale invariant, and equals 1 for a non-zero vector with itself; it raises exactly for an explicit all-zero vector. hellinger(a, b) does not depend on set iteration order, is symmetric, zero exactly on equal vectors, satisfies the triangle inequality and is at most 1 for probability vectors. unitvec returns norm 1, or the empty bag / zero array unchanged; an explicit all-zero bag raises, and a float CSR argument is overwritten.", "quantifier": "every pair of sparse vectors over the reals", "why_tests_cant": "Inequalities over all real vectors (Cauchy-Schwarz).", "anchors": ["gensim/matutils.py: cossim, hellinger, unitvec"]}
{"id": "C28", "title": "Jaccard of identical bags is not zero", "statement": "jaccard on bag-of-words inputs claims distance 0 for identical documents but returns 1/2 for every non-empty bag compared with itself; on sets jaccard_distance is symmetric, in [0,1], and 0 exactly for equal non-empty sets.", "quantifier": "every non-empty bag; every pair of sets", "why_tests_cant": "The value must be known for all inputs.", "anchors": ["gensim/matutils.py: jaccard, jaccard_distance"]}
{"id": "C29", "title": "ShardedCorpus retrieval equals the original documents", "statement": "For every corpus, shard size >= 1 and history of earlier accesses (successful or not, including resizes and reloads), indexing a ShardedCorpus by an int, a non-empty list of ints or a slice a:b with 0 <= a < n, a <= b <= n returns exactly the rows of the original corpus; out-of-range ints raise ValueError or IndexError, lists with an out-of-range index raise, and any other slice raises or returns no row. Known violations: the step of a slice is ignored, and an empty list raises on a sparse corpus.", "quantifier": "every corpus, shard size >= 1, access history and request", "why_tests_cant": "The currently loaded shard is hidden mutable state; all histories matter.", "anchors": ["gensim/corpora/sharded_corpus.py: ShardedCorpus.init_shards, shard_by_offset, in_current, in_next, _ensure_shard, get_by_offset, __getitem__"]}
{"id": "C30", "title": "Resizing shards preserves the in-memory corpus but not the stored one", "statement": "resize_shards(k), k >= 1, leaves every document retrievable from the live object, in full blocks of k rows. It does not refresh the saved wrapper, so reopening the corpus from disk after a resize can return wrong rows; reopening through the constructor uses the argument's shard size even if the files have another; a negative size silently deletes every shard.", "quantifier": "every corpus and pair of shard sizes for the positive half; a witness for the reopened corpus", "why_tests_cant": "Needs all size pairs and the on-disk state.", "anchors": ["gensim/corpora/sharded_corpus.py: ShardedCorpus.resize_shards, save, load, init_by_clone"]}
{"id": "C31", "title": "The sharded similarity index is a faithful growing sequence", "statement": "For every history of add_documents, queries, iterations, vector_by_id, save/load and close_shard calls on a Similarity index, where every added document stores exactly as many non-zeros as it has terms, len(index) is the number of documents added, vector_by_id(i) is the i-th added document, similarity vectors list documents in insertion order, all shards but the last are full, and reopening a shard never fails. Known violations: a document with an explicit zero weight makes the index unusable (AssertionError at the next shard close); an abandoned iteration switches query normalisation off; a saved index shares its last shard file with the live one and becomes inconsistent when that one grows; querying an empty index raises ValueError.", "quantifier": "every history and shard size >= 1", "why_tests_cant": "Shard closing/reopening depends on the whole history.", "anchors": ["gensim/similarities/docsim.py: Similarity.add_documents, close_shard, reopen_shard, vector_by_id, __getitem__, __len__"]}
{"id": "C32", "title": "num_best over shards is a true global top-k", "statement": "For every history, sharding, scoring and k, index[query] with num_best=k returns exactly min(k, number of documents with |similarity| > 1e-9) pairs with distinct global document numbers and their true similarities, sorted by decreasing absolute similarity, and no document outside the result has larger absolute similarity than one inside it; a corpus query returns for each query document what it would return alone.", "quantifier": "every sharding, score assignment and k", "why_tests_cant": "Merging per-shard top-k lists must be right for all distributions of scores.", "anchors": ["gensim/similarities/docsim.py: Similarity.__getitem__, _nlargest"]}
{"id": "C33", "title": "Phrase detection only joins adjacent tokens", "statement": "For every scorer and every sentence whose non-connector tokens are non-empty, the output of analyze_sentence, with each detected phrase split back into its component tokens, is exactly the input sentence; every phrase starts and ends with a non-connector word and its inner words are connector words; candidates are tried leftmost first. Known violation: an empty-string token is silently dropped.", "quantifier": "every sentence, scorer and connector set", "why_tests_cant": "All sentences and all scoring functions.", "anchors": ["gensim/models/phrases.py: _PhrasesTransformation.analyze_sentence, __getitem__"]}
{"id": "C34", "title": "Phrases vocabulary counts are exact without pruning and lower bounds with it", "statement": "Without pruning, vocab counts of every token and candidate bigram equal the number of their (connector-aware) occurrences in the corpus; with max_vocab_size pruning every stored count is at most the true count, and falls short of it by at most (m-1)(m-2)/2 where m is the returned min_reduce; the word total is exact. Pruning never happens while the distinct keys fit in max_vocab_size. The same upper bound holds for the model object after any history of training, transforming and exporting.", "quantifier": "every corpus, connector set and pruning bound", "why_tests_cant": "All corpora; pruning happens at data-dependent points.", "anchors": ["gensim/models/phrases.py: Phrases._learn_vocab, add_vocab", "gensim/utils.py: prune_vocab"]}
{"id": "C35", "title": "Frozen phrase models behave like the model they were exported from", "statement": "Over delimiter-free tokens, freezing a Phrases model never fails, the frozen model judges every candidate as the live model does at that moment (NaN-free scorer), and if the scorer does not use len_vocab both give the same output on every series of sentences. Known violations: with the default scorer a live model's answers drift, because looking up unknown words adds them to the vocabulary whose size is part of the score; a NaN score is accepted live but not frozen; a training token containing the delimiter makes freeze() raise RuntimeError.", "quantifier": "every sentence over delimiter-free tokens", "why_tests_cant": "Equivalence over all sentences.", "anchors": ["gensim/models/phrases.py: FrozenPhrases.score_candidate, Phrases.score_candidate, export_phrases"]}
{"id": "C36", "title": "KeyedVectors keys and vectors stay aligned", "statement": "After any history of add_vector, add_vectors and item assignment with string keys, where no single batch contains a new key twice, every key maps to a row, index_to_key inverts key_to_index, and looking a key up returns the vector most recently stored for it (first one, unless replaced). A batch with a repeated new key breaks the correspondence, and an int key smaller than the current size is silently dropped.", "quantifier": "every history of insertions; explicit witnesses for the failing cases", "why_tests_cant": "Alignment must hold for all histories.", "anchors": ["gensim/models/keyedvectors.py: KeyedVectors.add_vector, add_vectors, __setitem__, get_index, get_vector"]}
{"id": "C37", "title": "Cached vector norms match the vectors only if no vector changed since they were computed", "statement": "get_vector(key, norm=True) is the unit vector of the current vector as long as no vector was added or replaced after norms were first cached; after add_vectors with replace=True the stale norm is used and the result is not unit length.", "quantifier": "every state with fresh norms; a witness history", "why_tests_cant": "Cache staleness depends on history.", "anchors": ["gensim/models/keyedvectors.py: KeyedVectors.fill_norms, get_vector, add_vectors"]}
{"id": "C38", "title": "most_similar excludes the query and is a true top-n", "statement": "most_similar(positive, negative, topn) never returns an input key, returns min(topn, available) keys in decreasing similarity order, and no omitted non-input key has higher similarity than a returned one.", "quantifier": "every vector set, query and topn", "why_tests_cant": "All similarity patterns including ties with input keys.", "anchors": ["gensim/models/keyedvectors.py: KeyedVectors.most_similar"]}
{"id": "C39", "title": "word2vec text format round-trips", "statement": "save_word2vec_format(binary=False) followed by load_word2vec_format returns the same keys in the stored order with the same vectors, for every vocabulary of distinct whitespace-free keys.", "quantifier": "every vocabulary and matrix", "why_tests_cant": "Universal over key strings and values.", "anchors": ["gensim/models/keyedvectors.py: save_word2vec_format, _word2vec_read_text, _word2vec_line_to_vector, _add_word_to_kv"]}
{"id": "C40", "title": "word2vec binary loading does not depend on the read-buffer size", "statement": "For files whose words are distinct, space-free and do not start with a newline, loading the binary format returns the saved keys and vectors for every buffer size >= 1. With duplicate words and a limit the outcome depends on the buffer size.", "quantifier": "every vocabulary, vector bytes and buffer size; witness for duplicates with limit", "why_tests_cant": "Chunk boundaries can fall anywhere.", "anchors": ["gensim/models/keyedvectors.py: _word2vec_read_binary, _add_bytes_to_kv"]}
{"id": "C41", "title": "Huffman codes form a complete prefix code favouring frequent words", "statement": "create_binary_tree gives every vocabulary word a code such that no code is a prefix of another, the Kraft sum is exactly 1 (vocabulary >= 2), a strictly more frequent word never has a longer code, the inner-node indices (points) on each path are below vocabulary size - 1 and begin at the root, and the expected code length is minimal among prefix codes.", "quantifier": "every count assignment, every tie-breaking of the heap", "why_tests_cant": "Optimality and prefix-freeness are universally quantified over counts and trees.", "anchors": ["gensim/models/word2vec.py: _build_heap, _assign_binary_codes"]}
{"id": "C42", "title": "Training job batches partition the corpus", "statement": "The job producer splits the corpus greedily: the batches concatenated are the corpus in order, every batch holds at most batch_words words or is a single sentence, no batch could have taken the next sentence, and the only empty batch is one before a first sentence that exceeds the limit. The learning rate of a job is the linear schedule at the share of examples (or words) pushed before it; rates never increase within an epoch, nor to the next one if the total is not too small, and lie between min_alpha and alpha. Violations: a total that is too small makes the rate rise again at the next epoch, a rising schedule is silently constant, end_alpha=0 is ignored, totals of 0 kill the producer at the second job, a first over-long sentence yields an empty job.", "quantifier": "every corpus, batch size and progress denominators", "why_tests_cant": "All sentence-length sequences.", "anchors": ["gensim/models/word2vec.py: Word2Vec._job_producer, _get_next_alpha"]}
{"id": "C43", "title": "Every training job is processed exactly once under every schedule", "statement": "With any number of workers and any interleaving, every schedule of an epoch is finite, some thread can always move until the epoch is over, and when it is over every job has been processed exactly once, both queues are empty, all workers have ended and the reported totals are the sums over the jobs. If training one job raises, or the corpus iterator raises, the epoch never ends under any schedule. With zero workers it ends at once without training.", "quantifier": "every interleaving, worker count, queue bound and job list; witness for the failing worker", "why_tests_cant": "Concurrency.", "anchors": ["gensim/models/word2vec.py: Word2Vec._train_epoch, _worker_loop, _job_producer, _log_epoch_progress"]}
{"id": "C44", "title": "Vocabulary selection respects min_count and max_final_vocab", "statement": "Without a bound on the scan every raw count is exact, with max_vocab_size no count exceeds the truth. build_vocab keeps exactly the words whose count reaches the effective minimum (or that the trimming rule keeps), with exactly their counts, in frequency order if asked. With max_final_vocab = k and no trimming rule at most k words are kept, no dropped word is more frequent than a kept one, and no smaller effective minimum that respects min_count would do. Ties at the cut-off are all dropped (possibly leaving nothing), and a trimming rule can exceed k.", "quantifier": "every raw count map, min_count and max_final_vocab", "why_tests_cant": "Ties at the cut-off.", "anchors": ["gensim/models/word2vec.py: Word2Vec.prepare_vocab, _scan_vocab"]}
{"id": "C45", "title": "The negative-sampling table is a valid cumulative distribution", "statement": "cum_table has one entry per word, is non-decreasing, lies in 0..domain and ends at domain, so the assertion never fails, in float arithmetic (any monotone idempotent rounding exact on 0, 1 and domain); in exact arithmetic each entry is within 1/2 of the exact cumulative share. The binary search returns the insertion point, every random number yields a valid word index, and word i is drawn for exactly cum_table[i]-cum_table[i-1] of the numbers below the last entry, plus one for the first word and minus one for the first word that reaches the last entry (so a word with increment 1 may never be drawn).", "quantifier": "every non-negative weight vector with a positive sum, every rounding function with the stated properties, every table and random number", "why_tests_cant": "All vocabularies and draws.", "anchors": ["gensim/models/word2vec.py: Word2Vec.make_cum_table"]}
{"id": "C46", "title": "Line and text8 sentence readers lose no tokens", "statement": "LineSentence yields, for each line (up to limit lines), consecutive non-empty pieces of at most max_sentence_length tokens, all full but the last, whose concatenation is the line's tokens; a line that is not UTF-8 raises after the sentences of the lines before it; PathLineSentences does this for all files in name order whatever the directory listing order; save_as_line_sentence followed by LineSentence is the identity on non-empty sentences of plain tokens within the length. Text8Corpus delivers exactly the file's tokens for every buffering in which no buffer ends in whitespace other than a space (and exact pieces if spaces are the only whitespace), and never loses or moves a printable character. Violations: a newline at the end of a buffer merges two words, a file without spaces is one sentence of any length, max_sentence_length=0 never ends, empty sentences vanish, a subdirectory makes the directory reader fail.", "quantifier": "every file and buffer size; witness for the newline case", "why_tests_cant": "Buffer boundaries can fall anywhere.", "anchors": ["gensim/models/word2vec.py: LineSentence.__iter__, Text8Corpus.__iter__"]}
{"id": "C47", "title": "fastText .bin files round-trip", "statement": "Saving a model in Facebook's binary format and loading it back returns the same header fields, vocabulary with counts in order, and both matrices bit for bit, provided words are distinct and their encodings contain no NUL byte and numbers fit their field widths; the gensim model rebuilt from the file equals the saved one when exactly one of hs/negative is on, counts are at least 1, there are no buckets if max_n < min_n and widths equal vector_size. No proper prefix of a saved file loads; cut inside the vocabulary words the loader loops for ever; trailing bytes are rejected; reading a compressed file in batches gives the same floats. Violations: with hs and negative both on syn1 is lost and syn1neg loaded twice; with neither on saving raises UnboundLocalError; null_word, NUL-producing encodings and zero counts make the file unloadable.", "quantifier": "every model", "why_tests_cant": "Binary layout must be right for all sizes and bytes.", "anchors": ["gensim/models/_fasttext_bin.py: save, load, _dict_save, _load_vocab, _input_save, _output_save, _load_matrix", "gensim/models/fasttext.py:777-871 _load_fasttext_format"]}
{"id": "C48", "title": "Distributed LDA merges every job exactly once", "statement": "In the dispatcher/worker protocol, as long as every epoch ends with getstate before the next reset, then for every interleaving, any number of workers and jobs and any queue bound: whenever getstate returns, every job put since the last reset has been processed by exactly one worker and its contribution is in the merged state exactly once; if no E step fails, putjob and getstate always return, after boundedly many actions; LdaModel.update obeys that discipline. Violations: one failing E step makes getstate wait for ever; an epoch given up after putjob (update raising, then being called again) makes the next getstate return the leftover jobs' contribution instead of the new ones.", "quantifier": "every interleaving, number of workers and jobs", "why_tests_cant": "Concurrency and asynchrony.", "anchors": ["gensim/models/lda_dispatcher.py: Dispatcher", "gensim/models/lda_worker.py: Worker"]}
{"id": "C49", "title": "Sparse term similarity matrices keep their promised structure", "statement": "With a dictionary numbered 0..n-1, a tf-idf model (if any) knowing exactly its terms, and an index that answers with distinct other terms, the construction of a SparseTermSimilarityMatrix succeeds for float32/float64 and the matrix has ones on the diagonal; with symmetric=True it is symmetric; no column has more than nonzero_limit off-diagonal entries; with dominant=True the absolute off-diagonal sum of each column stays below 1; every off-diagonal entry is an answer of the index, and an answer is only left out if a column is full or would lose dominance. Symmetric and dominant together make it positive definite. Violations: float16 is accepted but always fails; a tf-idf model lacking a term leaves zeros on the diagonal or raises KeyError; an index answering with the asked term spoils the diagonal.", "quantifier": "every similarity index, dictionary and parameter combination", "why_tests_cant": "Greedy construction over arbitrary similarity answers.", "anchors": ["gensim/similarities/termsim.py: _create_source"]}
{"id": "C50", "title": "Levenshtein similarity thresholding is exact below 1; most_similar is the exact ranking; range and threshold claims are false", "statement": "The distance is the least number of single-character edits and a metric. For alpha, beta > 0, levsim with min_similarity s equals the exact similarity if that is at least s clamped to [0,1], and 0 otherwise; it is symmetric and lies between 0 and max(alpha, 1). most_similar returns at most topn terms other than the given one, each with its similarity, positive and at least the clamped threshold, best first with ties by descending term, and omits nothing better. Violations: identical terms give 1.8 by default (documented bound 1.0), a min_similarity above 1 is not respected, alpha or beta 0 pass the assertions and then divide by zero, two empty terms get 1.0 rather than alpha.", "quantifier": "every pair of terms and parameters alpha > 0, beta > 0", "why_tests_cant": "Real-valued threshold arithmetic for all lengths.", "anchors": ["gensim/similarities/levenshtein.py: levdist, levsim"]}
{"id": "C51", "title": "TF-IDF from a Dictionary equals TF-IDF from the corpus", "statement": "TfidfModel trained from the bag-of-words corpus and TfidfModel built from the Dictionary of the same documents (built without pruning, or filtered afterwards) have the same document frequencies, number of documents and idf weights, hence transform every vector identically for every setting except SMART letter b; a corpus that repeats a term inside a document is counted twice. Violations: after filter_extremes the dictionary keeps its old num_nnz, so the default pivot of letter u differs between the two; letter b cannot be trained from a corpus at all (AttributeError).", "quantifier": "every document collection and vector", "why_tests_cant": "Two construction paths, all corpora.", "anchors": ["gensim/models/tfidfmodel.py: TfidfModel.__init__, initialize, __getitem__, precompute_idfs"]}
{"id": "C52", "title": "Saving leaves the live object intact and loading restores it", "statement": "SaveLoad.save that succeeds, that fails while writing the main pickle, or that fails anywhere for an object without nested SaveLoad objects, leaves every attribute of every object as it was (apart from four bookkeeping attributes it adds); a failed save can only remove attributes, never alter them. Loading the files returns objects with the same attributes, except that ignored ones and separate ones that are no arrays are None, whenever each nested object is reached once and attribute names contain no dot. Violations: if writing fails while a nested object is being saved the outer arrays are lost, and vice versa; a self-referencing object cannot be saved and loses its arrays; an object held by two attributes comes back without its arrays; a non-array named in separately is silently not stored; a 0-d array comes back 1-d; after saving to a name, saving to a handle loads the old arrays.", "quantifier": "every heap of objects, size threshold, separately/ignore list and failure point", "why_tests_cant": "Failure points and attribute combinations.", "anchors": ["gensim/utils.py: SaveLoad._smart_save, _save_specials, _load_specials"]}
{"id": "C53", "title": "Patching one special token keeps a dense one-to-one id map", "statement": "For every dictionary reached by public calls whose cached reverse map is empty or complete, patch_with_special_tokens({t: i}) with i below the dictionary size succeeds, puts t at id i, keeps ids dense and distinct, loses no token and moves only the token that had id i before. Document frequencies do not move along (wrong statistics afterwards), and with a half-filled reverse map the call can raise KeyError.", "quantifier": "every reachable dictionary, token and id; explicit witnesses for the failures", "why_tests_cant": "The unit test patches one fixed dictionary; the id map invariant has to hold for every dictionary and token.", "anchors": ["gensim/corpora/dictionary.py: Dictionary.patch_with_special_tokens"]}
{"id": "C54", "title": "HashDictionary debug tables are exact, agree with each other, and filter_extremes keeps the right words", "statement": "With debug=True, after any sequence of doc2bow calls token2id, id2token, dfs and dfs_debug are the exact statistics of the documents seen; after any mix of doc2bow and filter_extremes calls the tables agree with each other (a word is listed under its bucket iff token2id has it, dfs has exactly the non-empty buckets); filter_extremes keeps exactly the words within the frequency bounds, trimmed to the keep_n most frequent with ties in first-seen order. The bucket frequency kept after filtering still counts documents containing only removed words.", "quantifier": "every hash function, id_range > 0, history of calls, thresholds; a witness for the last sentence", "why_tests_cant": "The claim ranges over all hash functions (collision patterns) and histories.", "anchors": ["gensim/corpora/hashdictionary.py: HashDictionary.doc2bow, filter_extremes, __getitem__, restricted_hash"]}
{"id": "C55", "title": "Small corpus helpers: get_max_id, FakeDict, flatten, is_corpus", "statement": "get_max_id is the largest id of the corpus (-1 if there is none); the FakeDict made from a corpus names every non-negative id of the corpus injectively and its lookups agree with iteritems (its keys() do not list all keys); flatten returns the leaves in order; is_corpus never loses a document of the stream it peeks into.", "quantifier": "every corpus, nested list and stream", "why_tests_cant": "Universal over all corpora and nestings.", "anchors": ["gensim/utils.py: get_max_id, FakeDict, dict_from_corpus, flatten, lazy_flatten, is_corpus"]}
{"id": "C56", "title": "Divergences size bags by entry count, not by largest id", "statement": "_convert_vec (used by kullback_leibler and jensen_shannon) without num_features densifies two bags exactly when all ids are below the larger number of entries, and raises IndexError for every pair containing a larger id, e.g. [(5, 1.0)] against itself.", "quantifier": "every pair of bags of words", "why_tests_cant": "tests use contiguous ids starting at 0, for which the entry count happens to bound the ids", "anchors": ["gensim/matutils.py:843-865"]}
{"id": "C57", "title": "Loading a saved phrase detector", "statement": "Loading a FrozenPhrases file saved by this version gives the same model if it has no connector words, and files with (frequency, score) values and common_terms load completely. Known violations: connector words of a model saved by this version are dropped on load, and a file with tuple keys and plain scores keeps only its first phrase.", "quantifier": "every saved model", "why_tests_cant": "All stored models; the wrong branch is only visible for models with connector words.", "anchors": ["gensim/models/phrases.py: _PhrasesTransformation.load"]}
{"id": "C58", "title": "Default scoring never detects a rare phrase", "statement": "With the default scorer and a positive threshold, after any history of training, transforming and exporting over delimiter-free tokens, every detected phrase occurs in the training sentences strictly more than min_count times.", "quantifier": "every history, every candidate", "why_tests_cant": "All corpora and pruning points.", "anchors": ["gensim/models/phrases.py: original_scorer, Phrases.score_candidate, add_vocab"]}
{"id": "C59", "title": "NPMI scores are defined and lie in [-1, 1]", "statement": "After any history of training, transforming and exporting over delimiter-free tokens, npmi_scorer applied to the counts of any candidate with positive phrase count does not raise (no division by zero or logarithm of zero) and returns minus infinity or a number in [-1, 1].", "quantifier": "every history, every candidate", "why_tests_cant": "Needs count inequalities for all corpora, including after pruning.", "anchors": ["gensim/models/phrases.py: npmi_scorer, _learn_vocab, add_vocab"]}
{"id": "C60", "title": "Sorting by frequency keeps each key's vector and count", "statement": "After any tidy history with counts for every row, sort_by_descending_frequency leaves every key its vector and its count, keeps index_to_key and key_to_index inverse, keeps the set of keys, and puts the counts in decreasing order, however ties are broken. It loses keys added in a batch after counts were allocated, changes the vector of a duplicated key and does not permute cached norms.", "quantifier": "every tidy history, counts and tie-breaking; witnesses for the failures", "why_tests_cant": "All histories, counts and tie-breaking orders.", "anchors": ["gensim/models/keyedvectors.py: KeyedVectors.sort_by_descending_frequency, allocate_vecattrs"]}
{"id": "C61", "title": "Word2vec-format files: what loading an arbitrary file keeps, and vocabulary files", "statement": "Loading a text or binary word2vec file reads exactly the declared number of entries (or the limit), keeps the first vector of each word in order of first appearance, leaves one empty slot per duplicate, and raises EOFError when fewer entries are present. The vocabulary file written next to the vectors gives back the count of every key for whitespace-free keys. Re-saving a model loaded from a file with duplicates writes a file that cannot be loaded.", "quantifier": "every file content, limit and buffer size; every history with counts; witness for re-saving", "why_tests_cant": "Duplicates, limits and truncation interact with buffering.", "anchors": ["gensim/models/keyedvectors.py: _load_word2vec_format, _add_word_to_kv, _word2vec_read_text, _word2vec_read_binary, save_word2vec_format"]}
{"id": "C62", "title": "Vocabulary histories: extending keeps rows, counts and vectors; rebuilding does not start over", "statement": "After a first build_vocab and any number of build_vocab(update=True) calls every known word has the sum of its counts, every newly wanted word is appended, all rows keep their word and vector, keys and indexes stay a bijection, and vectors and counts have one entry per key. Updating an empty vocabulary is refused. Calling build_vocab again without update is broken: a larger vocabulary raises IndexError, one of the same size silently gives old vectors to other words, a smaller one raises ValueError; update with null_word duplicates the null word; a dry run adds the null word. The report of prepare_vocab gives the number of kept and dropped words and the total of the kept ones.", "quantifier": "every corpus sequence, min_count, trimming rule and sorting flag; witnesses for the violations", "why_tests_cant": "All histories of vocabulary updates.", "anchors": ["gensim/models/word2vec.py: Word2Vec.build_vocab, prepare_vocab, prepare_weights, init_weights, update_weights", "gensim/models/keyedvectors.py: KeyedVectors.resize_vectors, prep_vectors"]}
{"id": "C63", "title": "Downsampling probabilities are monotone, exact to 2^-32, and the count threshold is not what the comment says", "statement": "A word is downsampled exactly if its count exceeds (3+sqrt 5)/2 times the threshold; the probability never increases with the count; sample_int fits 32 bits and an occurrence is kept for a share of the random numbers within 2^-32 of the probability; with sample=0 nothing is ever skipped; with 0<sample<1 exactly the words with a share above sample*(3+sqrt 5)/2 are downsampled. For sample>=1 the comment promises that words more frequent than sample are downsampled, but no word with a count up to 4*sample is, because the code multiplies where it should divide.", "quantifier": "every count, total and sample value over the reals; witness for the violation", "why_tests_cant": "Continuum of sample values; statistical property.", "anchors": ["gensim/models/word2vec.py: Word2Vec.prepare_vocab", "gensim/models/word2vec_inner.pyx: train_batch_sg"]}
{"id": "C64", "title": "The training random number generator has full period", "statement": "The linear congruential generator of the training routines stays within 48 bits, its outputs within 32 bits, and from every start visits all 2^48 states before it returns to the start.", "quantifier": "every start state and number of steps", "why_tests_cant": "2^48 states.", "anchors": ["gensim/models/word2vec_inner.pyx: random_int32"]}
{"id": "C65", "title": "Batch preparation keeps words and sentence borders; window pairs are exact; buffer overflow beyond the default batch size", "statement": "Preparing a batch with at most MAX_SENTENCE_LEN non-empty sentences stores exactly the selected (known, not downsampled) words in order, cut off at MAX_SENTENCE_LEN, and the ends of the sentences; batches cut by the job producer with batch_words <= MAX_SENTENCE_LEN never overflow the buffers and lose words only from single longer sentences. Two positions are trained together exactly if they are distinct, in the same sentence and within the reduced window of the first, each pair once. With a larger batch_words, sentences of unknown words overflow c.sentence_idx.", "quantifier": "every batch, vocabulary, sampling state, window and buffer size", "why_tests_cant": "All batch shapes; memory corruption is silent.", "anchors": ["gensim/models/word2vec_inner.pyx: train_batch_sg, train_batch_cbow", "gensim/models/word2vec_inner.pxd: Word2VecConfig"]}
{"id": "C66", "title": "The tf-idf transform: which terms survive, with which weight, and which settings break", "statement": "By default a document keeps, in order, exactly its terms with |idf| > eps, weighted frequency*idf divided by the Euclidean length of those, minus weights up to eps; unknown terms and terms of every training document vanish; the idf is non-negative, zero exactly for terms of all documents, strictly decreasing in the document frequency; the SMART letters are accepted exactly as listed and the stored letters denote themselves; slope 1 disables the pivot, slope 0 divides by it, in between the length used lies between pivot and own length. Violations: letter b with an unknown term raises KeyError, letter a fails on an empty document, an explicit frequency 0 raises AssertionError, normalize=False with a pivot raises TypeError, an empty dictionary leaves the model unusable, and the eps given for a corpus is ignored.", "quantifier": "every model, eps >= 0 and vector", "why_tests_cant": "All vectors, idf tables, thresholds and pivots over the reals.", "anchors": ["gensim/models/tfidfmodel.py: TfidfModel.__getitem__, resolve_weights, smartirs_wglobal, df2idf"]}
{"id": "C67", "title": "The soft cosine: one value, three ways to compute it", "statement": "For a positive definite matrix and proper bags of words, inner_product of two vectors, and of two corpora cell by cell, is x^T M y divided by the chosen norms; for symmetric M the soft cosine lies in [-1,1] (the clip changes nothing) and is 1 for equal vectors; 'maintain' keeps the Euclidean length; non-negative similarities and weights never trip the assertion. A vector against a corpus gives the same numbers if no word of the query cancels in the expanded query and, when documents are normalised, all their words occur in it. Violations: otherwise documents are normalised over the query's words only, so the cosine of (1,0) and (1,1) comes out as 1 instead of 1/sqrt 2; cancelling queries lose words; without dominance negative similarities trip the assertion on ordinary bags; repeated indices are overwritten in one mode and added in the other.", "quantifier": "every matrix, vector and corpus over the reals", "why_tests_cant": "All matrices and vectors; the wrong normalisation shows only when documents have words unrelated to the query.", "anchors": ["gensim/similarities/termsim.py: SparseTermSimilarityMatrix.inner_product, _normalize_dense_vector, _normalize_dense_corpus, _normalize_sparse_corpus"]}
{"id": "C68", "title": "fastText n-grams and hashes", "statement": "For every word of valid characters and all min_n, max_n, compute_ngrams_bytes lists the UTF-8 encodings of the character substrings of '<word>' with a length in [min_n, max_n], each place exactly once, by start and then length, except the single characters at both ends; it never splits a character. compute_ngrams lists all places of these lengths by length and then start; for min_n >= 2 both list the same n-grams with the same multiplicities. ft_hash_bytes is FNV-1a (32 bits) over sign-extended bytes, FNV-1a itself on ASCII, and every bucket index is below num_buckets. Violations: hash differs from FNV-1a beyond ASCII; single '<' and '>' only in the text version; a lone surrogate is an error only in the byte version.", "quantifier": "every word, min_n, max_n, num_buckets", "why_tests_cant": "Tests compare a few words; byte-boundary handling must be right for all characters and lengths.", "anchors": ["gensim/models/fasttext_inner.pyx:614-715 ft_hash_bytes, compute_ngrams, compute_ngrams_bytes", "gensim/models/fasttext.py:1298-1319 ft_ngram_hashes"]}
{"id": "C69", "title": "fastText word vectors are means and survive saving", "statement": "After building a vocabulary, and after any sequence of vocabulary growth, training, saving and loading, queries and norm computations: the vector of every known word is the mean of its own row and the rows of its n-grams (its own row alone without buckets), cached norms are those of the vectors, normed vectors have length 1, the vector of an unknown word is the mean of its n-gram rows (zero if it has no n-gram, KeyError without buckets), none of these operations fails, and saving and loading changes no answer. Violations: add_vector/add_vectors never add a key because 'in' is always true (the returned index does not exist; replace=True raises KeyError); 'in' is true for words without vector; unit_normalize_all is undone by save/load while the norms stay 1, so normed queries return unnormed vectors; sort_by_descending_frequency followed by save/load gives words the vectors of others.", "quantifier": "every history, word, weights", "why_tests_cant": "Tests check a few trained models; derived arrays must stay consistent over all histories.", "anchors": ["gensim/models/fasttext.py:457-460,1000-1197 FastTextKeyedVectors", "gensim/models/keyedvectors.py:440-528,613-622,659-672,1463-1471"]}
{"id": "C70", "title": "Training from a corpus_file: which words are trained on", "statement": "Reading a corpus_file from an offset delivers the lines from there on, in order, none twice and none left out, whole if they have at most max words, otherwise in consecutive pieces of max words; on files whose white space is ASCII white space these are the sentences LineSentence gives. next_batch never drops or reorders a sentence. With one worker, lines of at most max words and a correct total_words, every line is in exactly one batch; lines of 2..max words never overflow sentence_idx. Violations: every batch but the last has more than max words (off by one in next_batch), so words after the first max of each batch are not trained on; of a file that is one long line at most 2*max words are looked at and max trained on; one word per line with unknown words writes past the end of sentence_idx; with several workers words are trained twice and words cut in two; the vocabulary scan splits on Unicode and \\x1c-\\x1f white space, training does not.", "quantifier": "every file, vocabulary, sample table, max sentence length, worker count, offset", "why_tests_cant": "Tests train on one small corpus and look at similarities; lost or doubled words and out-of-bounds writes go unnoticed.", "anchors": ["gensim/models/fast_line_sentence.h FastLineSentence", "gensim/models/word2vec_corpusfile.pyx:79-229 CythonLineSentence, prepare_c_structures_for_batch; 303-315 train_epoch_sg", "gensim/models/word2vec.py:1313-1340 _train_epoch_corpusfile"]}
{"id": "C71", "title": "Doc2Vec training from a corpus_file: documents and tags", "statement": "For every non-empty file, each worker starts at the beginning of the line that contains its share's first byte, with that line's number as tag. A worker trains on the lines with words from there on, in order, with tags counting up; it reads on until the end of the file or its share of the words. If no line is blank, every document is trained with its own line number by every worker, and one worker with a correct total_words trains on all of them. Violations: a blank line shifts all later tags against TaggedLineDocument; with several workers lines may be trained by none or by two; on an empty file all workers fail with IndexError; in concatenation mode every worker counts tags from 0 and the document vector gets the error of a context word.", "quantifier": "every file, vocabulary, worker count, expected word count", "why_tests_cant": "Tests use files without blank lines and one worker and check similarity of neighbours only.", "anchors": ["gensim/models/doc2vec.py:514-556 _get_offsets_and_start_doctags_for_corpusfile; 1126-1170 TaggedLineDocument", "gensim/models/doc2vec_corpusfile.pyx:58-236 d2v_train_epoch_dbow; 305-382 d2v_train_epoch_dm; 458-541 d2v_train_epoch_dm_concat"]}
{"id": "C72", "title": "Word and pair counts for topic coherence", "statement": "WordOccurrenceAccumulator.accumulate: each text with a relevant word gives one virtual document per sliding window; if no relevant word comes twice within window_size consecutive words of a text, or all texts are at most window_size long, the count of a word is the number of windows containing it and the count of a pair the number of windows containing both, whatever the order of relevant_ids; counts are never too large. Violations: a word that leaves the window while another copy of it stays inside is no longer counted (exact characterisation proved); num_docs depends on the set of relevant words; a second accumulate doubles the pair counts of the first.", "quantifier": "every list of texts, set of relevant ids, dictionary, window size >= 1", "why_tests_cant": "The sliding update is only wrong for words repeated within one window; tests use windows as long as the texts or texts without such repeats.", "anchors": ["gensim/topic_coherence/text_analysis.py:273-314 WindowedTextsAnalyzer; 326-407 WordOccurrenceAccumulator", "gensim/utils.py iter_windows"]}
{"id": "C73", "title": "Parallel and inverted-index accumulators agree with the serial counts", "statement": "ParallelWordOccurrenceAccumulator: under every interleaving of master and workers over the bounded queue, a finished run has the counts and num_docs of the serial WordOccurrenceAccumulator, for every batch size; no run is stuck before it is finished and every run is finite. CorpusAccumulator's counts are document frequencies and pair frequencies; InvertedIndexAccumulator's are exact window counts if the texts consist of relevant words only. Violations: a worker that hits an exception still replies and its batch is silently missing; if all workers end so while the queue is full the master waits for ever; InvertedIndexAccumulator fails with IndexError as soon as a relevant text contains an irrelevant word (`is not` on a numpy scalar).", "quantifier": "every list of texts, batch size, number of processes, interleaving", "why_tests_cant": "Schedules; a test sees one of them.", "anchors": ["gensim/topic_coherence/text_analysis.py:216-270 InvertedIndexBased, CorpusAccumulator; 317-323 InvertedIndexAccumulator; 410-601 ParallelWordOccurrenceAccumulator, AccumulatingWorker"]}
{"id": "C74", "title": "Segmentation and the u_mass coherence", "statement": "s_one_pre pairs every position of a topic with every earlier one, s_one_one with every other one, in a fixed order and each once. For topics of at least two words the u_mass coherence is the mean over these pairs of ln((D(w,w0)/D + eps)/(D(w0)/D)) with D the document frequencies (0 if w0 is never seen); it depends on the documents only as a bag of word sets and lies in [ln eps, ln(1 + D*eps)]; a topic of fewer than two words has no value. Violations: it can exceed 0; putting a word that never occurs into a topic raises its coherence to 0.", "quantifier": "every corpus, every list of topics (repeated words included)", "why_tests_cant": "Tests fix one small corpus with one expected number; order independence, range and the effect of unseen words concern all corpora.", "anchors": ["gensim/topic_coherence/segmentation.py:14-95", "gensim/topic_coherence/direct_confirmation_measure.py:19-125", "gensim/topic_coherence/aggregation.py:15-39", "gensim/models/coherencemodel.py:548-615"]}
{"id": "C75", "title": "Log-ratio and cosine confirmation measures", "statement": "log_ratio_measure is the mean of PMI (or NPMI) over the pairs of each topic; NPMI is symmetric, at least -1, and at most 1 exactly when (p+eps)^2 <= p1*p2, if the pair is not in all windows. cosine_similarity with its similarity and context-vector caches gives, for every order of topics and segments, the mean cosine of the context vectors (entry of w: occurrences of w in the topic times the sum of NPMI^gamma with the words of the segment); every value is in [-1,1]. Violations: NPMI exceeds 1 for words that always occur together; words together in every window get -1; a word without occurrences makes the whole list fail.", "quantifier": "every accumulator with consistent counts, every list of topics and segments, every natural gamma", "why_tests_cant": "The caches are shared between all topics and segments, so a wrong key shows only for certain orders; bounds need all counts.", "anchors": ["gensim/topic_coherence/direct_confirmation_measure.py:128-215", "gensim/topic_coherence/indirect_confirmation_measure.py:118-343"]}
{"id": "C76", "title": "CoherenceModel's cached accumulator never changes a value", "statement": "After any sequence of setting topics, model, topn and computing, in which topn is not raised while probabilities are cached and topics are not set to None, the coherence of the visible topics is what a new CoherenceModel gives. compare_model_topics gives these values for each model and each topn of the grid and puts topics and topn back; for_topics counts once and the comparison reuses the counts. Violations: raising topn without expansion, or topics = None in between, keeps a stale accumulator and unseen pairs count as 0; only the first topic's length decides about truncation; setting topn replaces given short topics by those of the model; topics shorter than topn cannot be compared; with an empty id2token the original topics cannot be restored.", "quantifier": "every corpus, dictionary, sequence of operations, list of models; any np.array_equal that never calls different topics equal", "why_tests_cant": "The values depend on the history of the object; tests run a few fixed histories.", "anchors": ["gensim/models/coherencemodel.py:164-215", "gensim/models/coherencemodel.py:303-461", "gensim/models/coherencemodel.py:512-584", "gensim/models/coherencemodel.py:652-700"]}
{"id": "C77", "title": "Doc2Vec gives every usable tag its own vector slot", "statement": "After scanning a corpus the document tags have the slots: every integer from 0 to the greatest integer tag, then the distinct string tags in the order of first use; per tag the number of documents and of words is counted once per use. Building a new model makes exactly one vector per slot, and training uses for every document exactly the slots of its usable tags, in order, all within the vectors. Word counts are those of Word2Vec on the documents' words. Violations: with update=True the tags are numbered anew while the vectors stay, so new tags are out of range or take over old tags' vectors; tags of an earlier scan stay in the mapping with stale slots; building again with fewer tags is a ValueError; an unused integer finds a string's slot; a tag repeated in a document counts it twice; build_vocab_from_freq knows no tags.", "quantifier": "every corpus of documents with any mix of string, integer and negative tags; every previous model", "why_tests_cant": "The slots depend on the whole mix and order of tags and on earlier scans; tests use consecutive integers or one string per document.", "anchors": ["gensim/models/doc2vec.py:833-1003", "gensim/models/doc2vec.py:393-432", "gensim/models/keyedvectors.py:274-362"]}
{"id": "C78", "title": "Training on a document and inferring a vector change only what they may", "statement": "Training Doc2Vec on a document (dbow, dm or concatenation mode, hierarchical softmax and/or negative sampling) changes only vectors of the document's words, tags, and in the hidden layer only rows of the words' Huffman paths; what is switched off by learn_words, learn_tags, learn_hidden is not changed at all; in dbow without train_words no word vector. A tag whose lock factor is 0 never changes; nor a word, in dbow and concatenation mode. infer_vector leaves word vectors, tag vectors and hidden layers as they were; its learning rate falls in equal steps from alpha in the first to min_alpha in the last epoch. Violations: in dm mode the words' lock factors are read at the index modulo the number of tag lock factors, so a locked word changes or memory outside the array is read; a document of no known words counts its tags as trained words; in concatenation mode with another number of tags per document inference returns the start vector; alpha=0.0 or epochs=0 take the model's values.", "quantifier": "every model, document, window reductions and random draws, any scalar arithmetic (locks: any with 0*x+y=y; learning rates: real numbers)", "why_tests_cant": "It is a frame condition on all other vectors over all documents and settings; tests compare similarities of trained vectors.", "anchors": ["gensim/models/doc2vec_inner.pyx:36-223", "gensim/models/doc2vec_inner.pyx:285-694", "gensim/models/doc2vec.py:585-649"]}
{"id": "C79", "title": "A training step climbs the log-likelihood of its outputs", "statement": "With exact arithmetic and the exact logistic function, the pass of word2vec/doc2vec over the outputs of one position (Huffman path or word and negative samples) adds to each coordinate of the hidden layer, and to the error handed to the input, the learning rate times the partial derivative of the log-likelihood of the outputs that are not left out (score in (-6,6)). The skip-gram/dbow input row changes by lock factor times rate times its partial derivatives. With several input rows (CBOW, dm) each changes in the direction of its partial derivatives, but by count times the rate when the input is the mean and by 1/count of it when it is the sum. Computing the loss does not change the vectors; with negative sampling the loss is minus the log-likelihood. Violations: the CBOW step is not the gradient step of the given rate; with hierarchical softmax the reported loss is that of the opposite outputs, larger by the sum of the signed scores.", "quantifier": "every size, input, hidden layer, distinct outputs (any outputs when the hidden layer is fixed), rate, lock factor, windows and tags with repetitions", "why_tests_cant": "That an update is the derivative of a function is a statement about limits; tests check that training improves similarities on small corpora.", "anchors": ["gensim/models/word2vec_inner.pyx:74-139", "gensim/models/word2vec_inner.pyx:159-466", "gensim/models/doc2vec_inner.pyx:36-223", "gensim/models/doc2vec_inner.pyx:508-556"]}
{"id": "C80", "title": "The table of the logistic function is in range and close", "statement": "For every score f with -6 < f < 6 the index into EXP_TABLE and LOG_TABLE is between 0 and 999. The value found is never above the logistic function and at most 0.015 below it (0.003 if the factor is not an integer division), its logarithm at most 0.06 (0.012) below. It lies strictly between 0 and 1, so the error of every output has the right sign. Violation: with the integer division the end of the table is never used.", "quantifier": "every score f in (-6,6), both readings of the integer constant expression", "why_tests_cant": "The bound is over a continuum of scores and includes the absence of out-of-range reads.", "anchors": ["gensim/models/word2vec_inner.pyx:908-931", "gensim/models/word2vec_inner.pyx:115-117", "gensim/models/doc2vec_inner.pyx:36-70"]}
{"id": "C81", "title": "Hierarchical softmax is a distribution; the score of a sentence", "statement": "For every vocabulary, every input and every hidden layer the probabilities that the Huffman paths give to the words add up to 1. Word2Vec.score adds, for every word of a sentence, the log-probability of its path given each word of the full window (skip-gram) or their sum or mean (CBOW), leaving out the outputs with a score outside (-6, 6); leaving them out only raises the score, so the scores of all words for one input exponentiate to at least 1, and to exactly 1 if nothing is left out. A word that the model is sure is wrong therefore costs nothing (refutation). The negative-sampling objective is the word against every drawn word other than itself.", "quantifier": "all counts, heaps that satisfy the contract of heapq, real vectors and layers, sentences, windows", "why_tests_cant": "tests check scores for one trained model only; that the probabilities add up depends on the whole tree", "anchors": ["gensim/models/word2vec_inner.pyx:689-906", "gensim/models/word2vec.py:2093-2151"]}
{"id": "C82", "title": "Word2Vec.score returns every score under every schedule", "statement": "With any positive number of workers, chunk size and queue factor and under every interleaving of the main thread and the workers: some thread can always move until it is over, every schedule is finite, and at the end the result is the list of the scores of the first total_sentences sentences in order, all reports read and no worker busy. The progress queue has room for the reports of all jobs that can be queued or held, which is what rules out a deadlock of the main thread, which both pushes jobs and reads reports. An empty stream ends in an exception (job_no not bound: refutation).", "quantifier": "all streams, workers, chunk sizes, queue factors, totals, schedules", "why_tests_cant": "schedules and queue sizes are not enumerable", "anchors": ["gensim/models/word2vec.py:1691-1771"]}
{"id": "C83", "title": "The Porter stemmer computes the rules of the algorithm", "statement": "For every word, lower-cased by any function, and every state left over from earlier words, PorterStemmer.stem returns what the rules of the algorithm (stated on words, without buffer and indices) give: no index error, no letter left in the buffer beyond the end of the word is read, the first matching suffix of a step is its longest matching suffix, and the measure is the m of [C](VC)^m[V]. A stem is not longer than the word, not empty for a non-empty word and adds lower-case letters only; a stemmed sentence has one token per token of the sentence, and documents do not influence one another. Guard: runs of y shorter than the recursion limit; for every limit there is a longer word that raises (refutation). Stemming a stem may change it again (refutation).", "quantifier": "all words, lower-casing functions, recursion limits, states of the stemmer, sentences, documents", "why_tests_cant": "tests compare a list of words with recorded output; the use of self.b beyond self.k and of a stale self.j shows up for particular words only", "anchors": ["gensim/parsing/porter.py:46-576"]}
{"id": "C84", "title": "LDA training on one machine: batches, weights, mass and sign of the statistics", "statement": "LdaModel.update cuts the corpus, in every pass and in order, into batches of chunksize*update_every documents (one batch if update_every is 0) and does one M step per batch, so that every document enters once per pass; the weight of a batch is (offset + pass + documents trained on before / chunksize)^-decay, it never grows and lies in (0,1] for offset >= 1; num_updates and numdocs grow by the size of the corpus; a corpus of another length than it claims raises RuntimeError. Inference keeps every gamma at its prior or above, and their sum grows by the number of words (exactly, without epsilon); the statistics of a chunk share the occurrences of every word among the topics, if no document lists a word twice (numpy's += drops the repetition: refutation). The statistics of a chunk are those of its parts merged, and the topics used for inference always follow the statistics. With offset >= 1 training keeps lambda, alpha and all topic probabilities positive, and topics sum to 1 (offset < 1: negative lambda, refutation). The arguments iterations and gamma_threshold of update have no effect, and a learned eta has no effect on anything else. Document topics are positive, sum to 1, and are filtered by the minimum; show_topics(n) gives n distinct topics for n <> 0 (for 0 it gives all: refutation); term topics are not sorted by relevance (refutation), and logging the perplexity changes the trained model (refutation).", "quantifier": "all corpora, chunk sizes, numbers of passes, update_every, eval_every, priors, states, random draws, positive exp-expectation functions, Newton steps", "why_tests_cant": "tests train on a nine-document corpus and check shapes or rough topics; which documents enter which M step, lost occurrences and signs for other settings cannot be seen there", "anchors": ["gensim/models/ldamodel.py:98-262", "gensim/models/ldamodel.py:619-743", "gensim/models/ldamodel.py:834-1069", "gensim/models/ldamodel.py:1127-1213", "gensim/models/ldamodel.py:1316-1400"]}
{"id": "C85", "title": "Multicore LDA: every chunk is learned from once, unless the last results come back early; a failed worker hangs the training", "statement": "In every interleaving of LdaMulticore.update with its worker processes, every chunk of a pass is in exactly one place and queue_size is the number of chunks on the way; at the end of a pass the queues are empty, every chunk has entered exactly one M step except fewer than chunksize*workers documents that are dropped with `other`, and every M step but the last has at least that many documents; in batch mode a pass is exactly one M step with the whole corpus. The queue of jobs has at most twice as many chunks as there are workers, and at most as many as workers are worked on. There is no deadlock: every reachable state leads to the end of the pass, and no run makes progress for ever. Violations: if the last result is merged by the unforced process_result_queue() after the last put, no M step is forced and its statistics - possibly those of the whole corpus - are lost (refutation); after an exception in a worker (a word id out of range) the pass never ends.", "quantifier": "all lists of chunks, numbers of workers, update thresholds, interleavings of master, workers and queues, failures of workers", "why_tests_cant": "the loss needs a worker that is faster than the master at one particular point; tests see one scheduling at a time", "anchors": ["gensim/models/ldamulticore.py:187-316", "gensim/models/ldamulticore.py:319-345"]}
{"id": "C86", "title": "Poincaré distance is a metric on the open unit ball", "statement": "On vectors of norm below 1, PoincareKeyedVectors.vector_distance is non-negative, zero exactly for equal vectors, symmetric, and satisfies the triangle inequality; the distance from the centre of a vector of norm r is ln((1+r)/(1-r)). similarity lies in (0,1], is 1 exactly for equal vectors, and orders nodes opposite to the distance.", "quantifier": "all dimensions, all triples of vectors in the open unit ball", "why_tests_cant": "tests compare a few numbers; the triangle inequality of the hyperbolic metric is a statement about all triples", "anchors": ["gensim/models/poincare.py:891-933", "gensim/models/poincare.py:1032-1108"]}
{"id": "C87", "title": "Poincaré training: gradients, clipping, and all updates of a node in a batch", "statement": "The gradients computed by PoincareBatch are the derivatives of the loss, along every direction of u, of the related node and of the negative samples (none of them equal to u); inside the ball nothing is divided by zero, and the step of an example goes downhill unless all gradients vanish. A batch moves each node by the sum of all its updates as first node, clips it, then by the sum of all its updates as related node or negative sample, clips it, and moves no other node. With 0 < epsilon < 1 and dimensions*epsilon < 2(1-epsilon) all vectors stay inside the unit ball through any number of batches, and every node of a batch ends with a norm below 1-epsilon. Violations: epsilon 0 leaves vectors on the border, a large epsilon pushes them past the threshold, and the clipping of single vectors is a different function from the clipping of rows (refutations). The reported loss omits the regularization term.", "quantifier": "all matrices, batches with repeated nodes, dimensions, learning rates, regularizations, epsilons, runs of batches", "why_tests_cant": "the tests check gradients numerically on one batch, and clipping on two vectors; repeated nodes and the invariant over all runs need all batches", "anchors": ["gensim/models/poincare.py:318-385", "gensim/models/poincare.py:432-467", "gensim/models/poincare.py:545-600", "gensim/models/poincare.py:762-855"]}
{"id": "C88", "title": "Poincaré vocabulary, negative samples and training schedule", "statement": "build_vocab numbers the nodes in the order of first occurrence, adds to each count its occurrences on either side, appends the relations and draws vectors for exactly the new nodes (update) or for all. A number drawn uniformly from 1 to the total count selects each node in exact proportion to its count. _sample_negatives returns `negative` different nodes not related to the node, raises ValueError exactly if there are too few, and can always still end. Every epoch trains every relation exactly once, in batches all full but the last; burn-in comes first, counts as done only when complete, and is never repeated after that; training uses the training rate. Violations: a malformed relation during an update leaves nodes without vectors, so that the vectors of later updates belong to other nodes; the node itself can be its own negative sample; an empty training set raises KeyError; more than 2000 negatives always fail; a burn-in that failed is redone from the start; a negative batch size trains nothing silently (refutations).", "quantifier": "all relations, histories of updates, random draws and shuffles, buffers, failures, batch sizes", "why_tests_cant": "tests build from one small file; proportions of draws, aligned vectors after failures and histories of calls with failures are not sampled", "anchors": ["gensim/models/poincare.py:148-316", "gensim/models/poincare.py:432-467", "gensim/models/poincare.py:506-543", "gensim/models/poincare.py:602-700", "gensim/models/poincare.py:1357-1405"]}
{"id": "C89", "title": "Poincaré queries and evaluation measures", "statement": "closest_child (closest_parent) of a node given by name is the nearest of the nodes with a strictly larger (smaller) norm, the first of them if several are as near, and None exactly if there is none. ancestors always ends: the chain of closest parents, without repetitions, up to a node that has none. descendants is the chain of closest children. most_similar of a node other than the first one lists the topn nearest other nodes in order of their distance. difference_in_hierarchy is antisymmetric. The average precision computed from the ranks is, for different distances, the mean over the related nodes of the share of related ones among the nodes as near; it lies in (0, 1] and is 1 exactly if all ranks are 1. With max_n exactly the items with relations among the first max_n, and one more, are evaluated. score_function uses a nearest pair of terms of the two words and fails with ValueError exactly if one has none. Violations: a chain of descendants that ends early gives a trailing None or a TypeError; the first node is its own most similar node; a node given by number gets distances of the number; the node itself counts as an unrelated nearer node, so no rank is 1 even for a perfect embedding; max_n counts items and lets one more pass (refutations).", "quantifier": "all embeddings, distance and norm functions, nodes, relations, bounds", "why_tests_cant": "tests use one small trained embedding and typical nodes; ties, the first node, ends of chains and ranks of perfect embeddings are not sampled", "anchors": ["gensim/models/poincare.py:935-1030", "gensim/models/poincare.py:1110-1306", "gensim/models/poincare.py:1408-1619", "gensim/models/poincare.py:1643-1700"]}
{"id": "C90", "title": "Text cleaning, tokenizing and HTML entities", "statement": "strip_tags removes from left to right every \"<\", non-empty text, next \">\", and leaves no tag; strip_numeric drops exactly the ASCII digits; strip_non_alphanum replaces exactly the other characters by spaces; strip_punctuation and strip_multiple_whitespaces leave the words between punctuation and white space, no punctuation, and single spaces only; split_alphanum inserts a space exactly where a small ASCII letter and a digit meet; remove_stopwords and strip_short keep exactly the other words. preprocess_string with the default filters returns the Porter stems of the kept words of the cleaned text, in order. simple_tokenize yields the maximal runs of word characters other than digits, simple_preprocess those of the allowed lengths that do not begin with an underscore. decode_htmlentities decodes every character reference by number, every known name not beginning with x, changes nothing else, and undoes html.escape for all texts. Violations: the tokens can be stop words or short again, so cleaning twice differs; text between \"<\" and \">\" is lost even if it is no markup; capital letters are not split from digits; underscores are alphabetic and words after an underscore are lost; &xi; and &Xi; are never decoded (refutations).", "quantifier": "all texts, all word-character classes, all name tables, all lengths", "why_tests_cant": "tests check a few sentences; overlapping and nested matches, leftmost-greedy backtracking and round trips for all texts are not sampled", "anchors": ["gensim/parsing/preprocessing.py:30-393", "gensim/utils.py:39-40", "gensim/utils.py:213-301", "gensim/utils.py:1057-1128"]}
{"id": "C91", "title": "Latent semantic indexing: incremental decomposition", "statement": "clip_spectrum keeps the least number of leading energies, at least one and at most k, that leaves at most the fraction discard (or 1/k) of the energy. Merging two projections gives exactly the leading eigenvectors, with orthonormal columns that start with a non-negative number, of decay^2 times the old covariance u s^2 u^T plus the new one, also if the new directions depend on the old ones and if the first decomposition fails; what is left out is a sum of squares, at most a thousandth of the energy if fewer than k are kept. A series of merges therefore never gives any direction more energy than the discounted documents have, loses at most 1 - 0.999^n of it while there is room, and is exact if the total energy is. The decomposition of one chunk is that of the documents projected on the sampled range, for sparse matrices and streams in any chunks, and is exact if the sample spans the documents or there are as many samples as terms. With decay one the assignment of jobs to workers does not matter. Topics are uncorrelated over the decomposed documents. Transforming a corpus equals transforming its documents for any chunk size. Violations: the chunk size matters even if there are enough topics; the dispatcher merges without decay; a second add_documents in distributed mode forgets the first corpus; scaled is ignored for a corpus, or scales documents instead of topics (refutations).", "quantifier": "all matrices, decompositions LAPACK may return, numbers of topics, chunkings, decays, assignments of jobs to workers", "why_tests_cant": "tests compare a few small decompositions within tolerance; optimality, orthonormality and energy bounds over all merges and all library outputs cannot be sampled", "anchors": ["gensim/models/lsimodel.py:80-105", "gensim/models/lsimodel.py:153-318", "gensim/models/lsimodel.py:446-525", "gensim/models/lsimodel.py:538-604", "gensim/models/lsimodel.py:858-1025", "gensim/models/lsi_dispatcher.py:167-215", "gensim/models/lsi_worker.py:117-181", "gensim/matutils.py:168-194", "gensim/matutils.py:1090-1131"]}
{"id": "C92", "title": "Evaluating word vectors on analogies and word pairs", "statement": "The vocabulary of an evaluation gives each spelling, upper-cased if case is ignored, the first row that reads so among the first restrict_vocab rows. For a file of sections, evaluate_word_analogies returns exactly the sections in order with the quadruplets of each split into right and wrong ones and a last section with all of them; a quadruplet of known words is right exactly if the answer is the expected word, and the answer is the word with the best score that is none of the three, provided at most four other rows read like one of the three and some row reads differently (always so when case matters and there is another word); quadruplets with unknown words are skipped or wrong; the score is the fraction of right ones. The model is unchanged whatever the file holds, errors included. evaluate_word_pairs compares exactly the judged pairs, in order, with the similarities of the first rows that read like their words; the third result is the percentage of judged pairs with unknown words. Violations: with case ignored a word that is one of the inputs can count as the right answer, five spellings of the inputs hide the best answer, and an undecodable line leaves the model of evaluate_word_pairs with the upper-case vocabulary (refutations).", "quantifier": "all vocabularies, scores, files, restrictions and modes", "why_tests_cant": "tests evaluate one trained model on one file and check a threshold; case variants, error paths and the correctness of the answer for all scores are not sampled", "anchors": ["gensim/models/keyedvectors.py:1183-1319", "gensim/models/keyedvectors.py:1336-1438", "gensim/models/keyedvectors.py:690-784"]}
{"id": "C93", "title": "Queries by cosine similarity", "statement": "similarity is the cosine of the two vectors, symmetric, between -1 and 1, 1 exactly for vectors of the same direction, and 0 if one vector is zero; distance is one minus it; unknown keys raise KeyError. n_similarity is the cosine of the two sums, independent of the order of the keys, and similarity for single keys. distances agrees with distance for vectors other than zero. closer_than lists, in order, exactly the keys more similar than the second one; ranks order keys as similarities do, the key itself has rank 1 and all others are below the number of keys. most_similar_to_given returns the first of the most similar keys. rank_by_centrality sorts known words by their cosine to the sum of unit vectors; doesnt_match returns the smallest one, the first in the alphabet of several, whatever the order of the words and the lengths of the vectors; of two words always the first in the alphabet. The score of most_similar is the cosine to the weighted sum of unit vectors, invariant under scaling all weights; the multiplicative score is the quotient of products of shifted cosines, between 0 and a million, grows with similarity to positive keys and falls with similarity to negative ones, and ranks as most_similar does for one positive key. Relative similarities of the n most similar keys add up to one. Violations: a zero vector has rank 1 and no number as distance although its similarity is 0; without unit vectors centrality is no similarity; relative similarity inverts the order if the most similar keys are dissimilar (refutations).", "quantifier": "all sets of vectors over the reals, keys, weights and word lists", "why_tests_cant": "tests compare a few values of one trained model; invariance under order and length, consistency of ranks and ties hold or fail for all vectors", "anchors": ["gensim/models/keyedvectors.py:565-583", "gensim/models/keyedvectors.py:733-784", "gensim/models/keyedvectors.py:946-1181", "gensim/models/keyedvectors.py:1473-1501", "gensim/matutils.py:741-759"]}
{"id": "C94", "title": "Word Mover's Distance", "statement": "wmdistance of two documents is the least cost (greatest lower bound over all transport plans) of moving the shares of the known words of one document to those of the other, a unit from word a to word b costing the Euclidean distance of their unit vectors, whatever ids the internal dictionary gives; the matrix passed to emd is non-negative, zero on common words, and obeys the triangle inequality through common words. It is symmetric, between 0 and 2, depends only on the shares of known words (not on order, repetition or unknown words), is 0 for equal shares and, if different words have different directions, only then, obeys the triangle inequality, is never below the distance of the averages of the unit vectors, and is the distance of the vectors for single words. It is infinite exactly if a document has no known word, or there are several words and every word of one document has the direction of every word of the other. Violation: so a document with two words of the same direction is infinitely far from itself although moving costs nothing (refutation).", "quantifier": "all sets of vectors over the reals, all documents, all implementations of emd meeting its contract", "why_tests_cant": "tests compare two sentences with one model; metric laws and minimality over all plans quantify over infinitely many inputs and plans", "anchors": ["gensim/models/keyedvectors.py:842-944", "gensim/corpora/dictionary.py:206-270"]}
{"id": "C95", "title": "Author and document maps of the author-topic model", "statement": "construct_doc2author and construct_author2doc make from one map the other that tells the same, with an entry for every document (resp. every author with a document, no repetition), whatever the iteration order of sets. update with both maps over fresh document numbers keeps the model consistent: documents appended, the two maps tell the union, every author with documents has one number, numbers are dense and inverse to each other, old numbers kept, new ones in alphabetical order, one row of gamma per author with old rows kept, and the documents trained on are exactly those with an author, in increasing order; with one map the first update behaves as with both. A pass then looks at every such document once, in order, with the rows of exactly its authors. get_new_author_topics leaves the model exactly as it was, even when inference raises. Violations: document numbers of a later update starting at 0 are never shifted (the loop assigns a local name), so none of the documents from max(old, new) on is ever trained and old authors are overwritten; an author with an empty list gets another number at each update; update() without arguments raises KeyError if a document lacks an entry; bound ignores the authors given for held-out documents and uses those of training documents (all refuted with witnesses, and the first and last proved for all inputs).", "quantifier": "all corpora, author maps, orders of sets, sequences of updates through the invariant, all inference procedures", "why_tests_cant": "tests compare topics of one small corpus within tolerance; consistency after any sequence of updates and restoration after a failed inference are claims about all states", "anchors": ["gensim/models/atmodel.py:102-155", "gensim/models/atmodel.py:697-852", "gensim/models/atmodel.py:936-978", "gensim/models/atmodel.py:1035-1105"]}
{"id": "C96", "title": "Inference of the author-topic model", "statement": "For a document the words are shared out among its authors and the topics: each author's row is at least the interpolation of its old row and the prior, what it gets above that is at most rho times its number of documents times the words, and divided by the number of documents adds up over the authors to rho times the words (exactly when the 1e-100 in the denominator is left out). The computed rows are stored, and documents of a chunk are used one after the other. Rows stay positive, and only rows of authors of the documents change, also when a word id outside the vocabulary raises. The statistics of a word are non-negative and add up over the topics to its occurrences in the documents that have authors. With a single author with a single document and rho 1 it is the inference of LDA; the order of the authors does not matter. get_author_topics gives exactly the topics whose share of the row reaches the minimum, shares adding up to 1, in order, and KeyError for unknown authors. Violation: counts are cast to integers, so weights below 1 are lost and a document of such weights leaves its authors at the prior (proved for all such documents, refuted with a witness).", "quantifier": "all documents, author lists, gammas, priors, numbers of iterations and thresholds; the exponentiated Dirichlet expectation is any positive function", "why_tests_cant": "tests compare topic probabilities of a few authors within wide tolerances after random initialisation; conservation of words and locality of changes hold for every state", "anchors": ["gensim/models/atmodel.py:377-538", "gensim/models/atmodel.py:1107-1164"]}
{"id": "C97", "title": "Plain text corpora: samples, preprocessing, directories and lengths", "statement": "sample_texts yields exactly n of the first `length` documents, each at most once and in their order, and every choice of n of L documents comes from exactly n!(L-n)! of the L! sequences of random draws, so all choices are equally likely; n outside 0..length yields nothing and raises; a length larger than the corpus raises exactly if fewer than n were chosen, after they were yielded. step_through_preprocess yields the text after each character filter and the tokens. A corpus with its own dictionary loses no token (up to 2,000,000 tokens) however often it is read, and numbers its documents from 0. A directory corpus reads exactly the files in the range of depths with admitted names that are reached without links and unreadable directories, each once; len is the number of documents of the current settings after any sequence of settings and readings, unless a stream begun before a change is read to its end after it. Violations: with metadata a sample is the first character of the line with the second as metadata (IndexError for shorter ones); token filters of step_through_preprocess are not chained, with the default generator tokenizer the second filter sees nothing; files are lowercased as bytes, so only ASCII letters; a corpus of an open file cannot be read again as the file is closed; a file given as directory is silently an empty corpus; max_depth set to None raises TypeError.", "quantifier": "all corpora, sample sizes, lengths, random draws, filters, directory trees, settings and sequences of operations", "why_tests_cant": "uniformity of a sample is a count over all sequences of draws; tests use one seed, one directory layout and never change settings between readings", "anchors": ["gensim/corpora/textcorpus.py:53-115", "gensim/corpora/textcorpus.py:263-471", "gensim/corpora/textcorpus.py:473-683", "gensim/utils.py:111-131"]}
{"id": "C98", "title": "Non-negative matrix factorization: descent, optimality at rest, bounds, statistics, queries", "statement": "The weights of the documents of a batch never fall below zero, do not depend on the other documents except through the number of rounds, and with a step kappa of at most 2 no document ends further from its topics than it began; with kappa 1 every weight in turn becomes the best one with the others fixed. A round reports no violation exactly if no non-negative weights at all fit the document better (topics without words aside), and then it changes nothing. After any training and queries the topics, if they are numbers, are non-negative and not longer than 1; a step of W does not raise the error 1/2 tr(W'WA) - tr(W'B) for kappa at most 2 (it lowers it if W changes and kappa < 2) unless the largest value of the first batch cuts weights off. A and B are the means of hh' and vh' over the batches of the update. Every pass covers each document once in batches of the model's chunksize. Document topics are exactly the shares above the threshold of weights that fit no worse than none; topics and topic terms sum to 1. Violations: with kappa above 2 the fit can get worse; a topic without words makes the violation NaN so that all rounds are always done; the cap at the first batch's largest value can raise the error; update ignores its chunksize argument, and an iterator with passes=2 in the call is read once silently; a second update forgets the statistics of earlier ones; an update whose first batch has documents without words only turns W into NaN for ever; get_document_topics removes the cap v_max for later training; get_topic_terms and get_term_topics write the normalised values into W, so document topics change and a topic may get longer than 1.", "quantifier": "all corpora, W, starts, permutations, steps, stop conditions, sequences of updates and queries", "why_tests_cant": "Optimality over all non-negative weights, descent for every batch and invariants over all sequences of updates and queries are statements over the reals; tests check a few trained models.", "anchors": ["gensim/models/nmf_pgd.pyx:18", "gensim/models/nmf.py:213", "gensim/models/nmf.py:333", "gensim/models/nmf.py:417", "gensim/models/nmf.py:463", "gensim/models/nmf.py:543", "gensim/models/nmf.py:661", "gensim/models/nmf.py:709", "gensim/models/nmf.py:723"]}
{"id": "C99", "title": "Hierarchical Dirichlet process: lazy discounts equal eager training; positivity, masses, length of training, queries", "statement": "HdpModel discounts the columns of its topics only when their words appear again. After any sequence of chunks, each stored column times its pending discount is the column that training has when it discounts the whole matrix after every chunk; the maintained row sums are the sums of that matrix; stick parameters, document weights and the counter are equal; and update_expectations gives exactly its topics and expectations. The learning rate lies strictly between 0 and 1 for positive tau, kappa and a scale of at most 1; training keeps all Dirichlet and beta parameters positive. Summed over topics, a chunk contributes exactly the counts of each word (scaled), and K per document with words. The model for inference has non-negative weights that sum to alpha and topics that are distributions and equal get_topics. Without limits a new model sees each chunk of its corpus exactly once; with max_chunks exactly so many, going round. After a chunk topics are ordered by weight, and if weights differ the shown numbers agree with those of queries. Document topics are exactly the shares of at least eps of weights that are not below the prior and exceed it in total by at most the document's counts. Violations: tau=0 (rate 1) makes the topics NaN; a second update() trains on its first chunk only; an empty corpus never ends; a model built without corpus starts with all parameters 0; an id twice in a document loses a count; suggested_lda_model shows topics that are random draws; show_topics(-1), documented as all, shows none; an untrained model cannot infer.", "quantifier": "all corpora of documents with distinct ids, chunk sequences, initial draws, digamma and likelihood functions, orders of ties", "why_tests_cant": "That lazily kept columns equal eager ones is a statement about all interleavings of word occurrences in unboundedly many chunks; tests check a few trained numbers.", "anchors": ["gensim/models/hdpmodel.py:72", "gensim/models/hdpmodel.py:347", "gensim/models/hdpmodel.py:411", "gensim/models/hdpmodel.py:450", "gensim/models/hdpmodel.py:508", "gensim/models/hdpmodel.py:519", "gensim/models/hdpmodel.py:579", "gensim/models/hdpmodel.py:685", "gensim/models/hdpmodel.py:735", "gensim/models/hdpmodel.py:877", "gensim/models/hdpmodel.py:990", "gensim/matutils.py:662"]}
{"id": "C100", "title": "Removal of wiki markup: templates, files, tags, links, interlinks, tokens", "statement": "remove_template removes exactly the templates (from each '{{' outside a template to the brace at which as many are closed as opened, or to the end of the text) and leaves the rest in order, without any '{{'. remove_file replaces each captioned file or image by its caption and leaves the text around unchanged. After filter_wiki no '<' is followed by a '>' anywhere, with promote_remaining no bracket is left, and remove_markup never lengthens a text. Text without markup is unchanged. An article made of text, links, shown links, comments, footnotes and tags becomes exactly what a reader sees, and find_interlinks gives exactly its links with what they show, in order. Tokens are exactly the maximal runs of word characters other than digits that have an admitted length and no leading underscore, in order. Violations: one unmatched brace in a template or '{{' in a comment loses the rest of the article; a file without caption keeps its name, and a link in a caption ends the file early; titles that begin with 'image' are taken for files, so their links and the following one are lost; link text that begins with '-' loses the rest of the line in find_interlinks; nesting deeper than three is not resolved; comparisons are taken for tags; '!!' is taken for a table cell.", "quantifier": "all texts, all sequences of segments that satisfy the stated guards, all word and digit classes", "why_tests_cant": "The result comes from sixteen backtracking regular expressions applied up to three times; tests compare a few article snippets.", "anchors": ["gensim/corpora/wikicorpus.py:44", "gensim/corpora/wikicorpus.py:153", "gensim/corpora/wikicorpus.py:184", "gensim/corpora/wikicorpus.py:209", "gensim/corpora/wikicorpus.py:268", "gensim/corpora/wikicorpus.py:314", "gensim/corpora/wikicorpus.py:337"]}
{"id": "C101", "title": "Pages and sections of wiki dumps", "statement": "extract_pages gives one entry for each page of a dump, in order: title, id, and the text, or the empty text if the page is not in an asked namespace or the article filter rejects it. A pass over WikiCorpus (at least one process, a minimum of at least one token, a tokenizer that gives nothing for the empty text) gives exactly the wanted pages with enough tokens whose title has none of the ignored prefixes, in the order of the dump, with id and title if metadata is asked for; the texts do not depend on the number of processes and the length afterwards is their number. segment cuts every text at headings without losing a character, leaves no heading inside a section, and always has as many headings as sections (the assertion never fails); texts built of sections come back exactly. The corpus of sections gives exactly the pages of namespace 0 that have a text, are no redirects, have no ignored prefix and have enough characters, in order. Violations: with a minimum of 0 tokens pages of excluded namespaces come out as empty documents; with a given dictionary len() before a pass raises AttributeError; an empty tuple of namespaces filters nothing; 'User talk:' is not ignored while an article titled 'Book: ...' is; a heading that follows a heading directly, has one character, is followed by a space or begins the text is not recognised; the corpus of sections ignores its parameter filter_namespaces.", "quantifier": "all dumps, all filters, tokenizers and settings, all texts", "why_tests_cant": "Tests read two small dumps; the number and order of pages, the split into groups for the processes and the agreement of the two heading expressions are claims about all dumps and all texts.", "anchors": ["gensim/corpora/wikicorpus.py:84", "gensim/corpora/wikicorpus.py:366", "gensim/corpora/wikicorpus.py:390", "gensim/corpora/wikicorpus.py:455", "gensim/corpora/wikicorpus.py:640", "gensim/scripts/segment_wiki.py:172", "gensim/scripts/segment_wiki.py:206", "gensim/scripts/segment_wiki.py:303"]}
{"id": "C102", "title": "Log-entropy weights and normalised documents", "statement": "For a corpus of documents with distinct ids and positive counts, LogEntropyModel gives each term exactly one minus its entropy over the documents divided by log(n_docs + 1). A weight is positive and at most 1; it is 1 exactly for terms of a single document, at least 1 - log(k)/log(n_docs + 1) for a term of k documents, with equality for equal counts. A document becomes its known terms in order, each with log(count + 1) times its weight, all positive, so that the assertion of unitvec never fails; with normalisation the length is one. NormModel gives every document with a non-zero entry norm one with the same ids and directions and counts documents and entries. Violations: a generator of one document is not noticed and gives a model that empties every document; an empty list is rejected as a generator; explicit zero counts raise ZeroDivisionError; a term listed three times in one document gets a negative weight; one document of zeros makes NormModel fail.", "quantifier": "all corpora and documents over the reals with the stated guards", "why_tests_cant": "Bounds of the weights follow from an inequality about entropies of all count vectors; tests compare one small corpus.", "anchors": ["gensim/models/logentropy_model.py:82", "gensim/models/logentropy_model.py:127", "gensim/models/normmodel.py:47", "gensim/models/normmodel.py:68"]}
{"id": "C103", "title": "Random projections", "statement": "RpModel maps a document with distinct known ids to its coordinates along the rows of random signs divided by sqrt(num_topics), in the order of the topics, leaving out exactly those of absolute value at most 1e-8. Documents of the training corpus (no mapping given) and documents over the ids of the mapping can always be projected. Over all sign matrices, each counted once, inner products and squared distances of projected documents are on average exactly those of the documents. Violations: an id beyond those of the training raises IndexError; of a repeated id only the last entry counts; a document scaled down far enough becomes empty.", "quantifier": "all corpora, mappings, numbers of topics, sign matrices and documents over the reals", "why_tests_cant": "The claim is about the mean over all sign matrices; tests use one seed.", "anchors": ["gensim/models/rpmodel.py:75", "gensim/models/rpmodel.py:107"]}
{"id": "C104", "title": "Kalman smoothing of a topic chain", "statement": "For positive observation and chain variances, compute_post_variance and compute_post_mean give for every word exactly the means and variances of the Gaussian chain given its observations: with b_t fixed to x the least energy (minus log density) is the least energy plus (x - mean_t)^2 / (2 variance_t). These means and variances are the only such numbers; forward values are those of the chain cut at t, and smoothing never increases a variance.", "quantifier": "all numbers of slices, observations and positive variances over the reals", "why_tests_cant": "The recursions have to minimise a quadratic form in any number of variables; tests compare stored numbers.", "anchors": ["gensim/models/ldaseqmodel.py:746", "gensim/models/ldaseqmodel.py:808"]}
{"id": "C105", "title": "Derivatives of the means and the gradient for the optimiser", "statement": "With the forward variances the recursion of compute_mean_deriv gives exactly the derivative of each smoothed mean after an observation, and compute_obs_deriv with these derivatives exactly the gradient of f_obs. Violation: compute_mean_deriv is written with the smoothed variances; the derivative of the last mean is then too small for every chain, and for every chain with at least one slice there are counts for which the gradient handed to the optimiser is not that of the objective.", "quantifier": "all numbers of slices, observations, counts and positive variances over the reals", "why_tests_cant": "The tests never compare the gradient with the function; the optimiser still returns something.", "anchors": ["gensim/models/ldaseqmodel.py:1122", "gensim/models/ldaseqmodel.py:1172", "gensim/models/ldaseqmodel.py:1533"]}
{"id": "C106", "title": "Bound of a topic chain", "statement": "compute_bound returns the sum of the terms of all words and slices except the last t words of slice t: the inner loop rebinds the vocabulary size, so every slice loses one more word. With at most one slice the bound is complete; with more the counts of the lost words have no influence on it, and it differs from the bound of the model.", "quantifier": "all chains, counts and totals over the reals", "why_tests_cant": "The number is only logged and compared with itself; a wrong bound changes nothing a test looks at.", "anchors": ["gensim/models/ldaseqmodel.py:980"]}
{"id": "C107", "title": "Inference for one document of the dynamic topic model", "statement": "After update_phi every word of a document has a distribution over the topics, proportional to exp(psi(gamma_k) + topic_kw), whose logarithm is log_phi; no other distributions with the same gamma give a larger bound. fit_lda_post succeeds exactly when all ids are in the vocabulary; then gamma is at least alpha, sums to the sum of alpha plus the length of the document, and the number returned is the bound of the result, after at least one and at most lda_inference_max_iter + 1 rounds. update_lda_seq_ss adds the counts of the document once, to one slice. The mixture of a new document is a distribution.", "quantifier": "all topics, priors, documents and starting values; psi and log-gamma are arbitrary functions", "why_tests_cant": "Normalisation in the log domain and optimality hold for all values; tests compare stored numbers.", "anchors": ["gensim/models/ldaseqmodel.py:1291", "gensim/models/ldaseqmodel.py:1342", "gensim/models/ldaseqmodel.py:1420", "gensim/models/ldaseqmodel.py:1497", "gensim/models/ldaseqmodel.py:660"]}
{"id": "C108", "title": "Documents and time slices", "statement": "With non-empty slices and at most one more document than their sum, inference assigns document d to the slice of document d - 1 and completes if all ids are in the vocabulary; the statistics of a slice have for each word the counts of the documents assigned to it, and each document has its row of mixtures. Violation: the comparison is > instead of >=, so that the first document of each later slice is counted in the slice before, a last slice of one document stays empty and one document too many goes unnoticed.", "quantifier": "all corpora, slices, chains and numbers of rounds", "why_tests_cant": "The slices are off by one document only; the tests have stored results of the same code.", "anchors": ["gensim/models/ldaseqmodel.py:311", "gensim/models/ldaseqmodel.py:368"]}
{"id": "C109", "title": "Training of the dynamic topic model", "statement": "Whatever the optimiser returns, fit_sslm leaves means and variances that belong to the observations, zeta that belongs to them, and topics that belong to zeta; it fails only for an empty vocabulary. Initially every slice has the smoothed proportions of the statistics. A printed topic is the softmax of the means and a distribution, while the unnormalised topics sum to less than one. A frequent word gets what the optimiser returns for its counts, the first rare word what it returns for no counts; further rare words keep their observations. The trained model is that of the last round. Violation: the change of the bound is reset to 1 when it is small, so training does not stop on convergence: it always takes em_max_iter + 1 rounds (or em_min_iter if larger), unless the change is nan or exactly the threshold.", "quantifier": "all corpora, priors, variances, iteration limits and optimiser results over the reals", "why_tests_cant": "Depends on every possible answer of scipy's optimiser; the tests do not look at the number of rounds.", "anchors": ["gensim/models/ldaseqmodel.py:221", "gensim/models/ldaseqmodel.py:470", "gensim/models/ldaseqmodel.py:881", "gensim/models/ldaseqmodel.py:921", "gensim/models/ldaseqmodel.py:1046", "gensim/models/ldaseqmodel.py:536"]}
{"id": "C110", "title": "What the mixture of a document depends on", "statement": "fit_lda_post starts every document with even topic weights and gamma = alpha_0 + length / num_topics. Of what earlier documents left in the shared LdaPost only log_phi has an influence: two runs with the same log_phi in the rows of the document give the same gamma, phi, bound and number of rounds. Violation: log_phi is not reset but used in the first bound, so the first convergence test, and with it the mixture of a document, depends on the document before: for every digamma and log-gamma function there are topics and two corpora that differ only in the first document and give the second one different mixtures.", "quantifier": "all topics, priors, documents, leftover arrays and iteration limits; psi and log-gamma are arbitrary functions", "why_tests_cant": "A dependence between documents shows only for special pairs of documents; the tests run one corpus.", "anchors": ["gensim/models/ldaseqmodel.py:1364", "gensim/models/ldaseqmodel.py:1420", "gensim/models/ldaseqmodel.py:1372"]}
{"id": "C111", "title": "Training a translation matrix", "statement": "TranslationMatrix.train hands to the least squares solver exactly the unit vectors of the word pairs, in the order of the pairs, whatever order Python's sets have and however often a word occurs in the pairs; it succeeds iff there are pairs and all words have vectors (ValueError, KeyError otherwise). With a correct solver the matrix has the least total squared distance between images and targets; if any linear map fits the dictionary exactly, the trained one does, and the first translation of each dictionary word then has the direction of its partner's vector.", "quantifier": "all vectors of all dimensions, all dictionaries, set orders, sorting and least squares functions", "why_tests_cant": "The row order depends on hash randomisation and optimality compares with every other matrix; the tests check a handful of words.", "anchors": ["gensim/models/translation_matrix.py:221", "gensim/models/translation_matrix.py:109", "gensim/models/translation_matrix.py:157"]}
{"id": "C112", "title": "Translating by nearest neighbours", "statement": "translate without correction succeeds iff there are words, all known, and topn does not exceed the number of target words; it returns for each word exactly the topn target words whose vectors have the largest cosine with the image of the word's vector, largest first and without repetition, and scaling the matrix by a positive factor changes nothing.", "quantifier": "all matrices, vectors, words, topn and sorting functions", "why_tests_cant": "Exactness of a ranking and independence of scale range over all vectors and matrices.", "anchors": ["gensim/models/translation_matrix.py:265", "gensim/models/translation_matrix.py:244"]}
{"id": "C113", "title": "Globally corrected retrieval", "statement": "With gc the target words are ordered by score minus rank, where the rank of a target word for w is the number of words, among those asked for and those sampled, that it fits better; distinct known words, a sample size >= 0 and topn within the target words suffice for success; without a sample size RuntimeError. Violations: the scores are not normalised, so multiplying the matrix by a positive number changes the translations although all cosines stay; repeated words can raise ValueError although plain retrieval answers; sampling is with replacement, so fewer words than asked for may take part.", "quantifier": "all matrices, vectors, words, samples, set orders and sorting functions", "why_tests_cant": "The double argsort is a rank only by an argument about permutations; scale dependence needs a specially chosen pair of matrices.", "anchors": ["gensim/models/translation_matrix.py:311", "gensim/models/translation_matrix.py:334"]}
{"id": "C114", "title": "Similarities reported by the approximate indexers", "statement": "AnnoyIndexer reports 1 - d/2 for Annoy's angular distance d = sqrt(2(1 - cos)): this lies in [0, 1] and keeps the order of the cosines, but is the cosine only for cosine 1 or 1/2 (violation of 'cosine similarity': perpendicular vectors are reported as more than 1/4 similar). NmslibIndexer reports 1 - d for the cosine distance, which is the cosine. Labels are those of the returned indices.", "quantifier": "all vectors, labels and lists of neighbours", "why_tests_cant": "Tests compare the most similar word with itself, where both formulas give 1.", "anchors": ["gensim/similarities/annoy.py:186", "gensim/similarities/nmslib.py:230"]}
{"id": "C115", "title": "LdaModel.bound is the variational bound", "statement": "For a document and its gamma, the score that bound adds up is the greatest value of E_q[log p] - E_q[log q] over all assignments of topics to its words, and it is attained. For an eta that is a number or a vector, bound of a corpus is the whole variational lower bound; it raises IndexError iff a word is outside the vocabulary. Violation: with one eta per topic (a matrix) the code adds the priors of all topics inside one log gamma and reports more than the bound.", "quantifier": "all topics, priors, documents with non-negative counts, gammas; all functions in the place of digamma and log gamma", "why_tests_cant": "It is an equality with a supremum over all variational distributions.", "anchors": ["gensim/models/ldamodel.py:1066", "gensim/models/ldamodel.py:1104", "gensim/models/ldamodel.py:1117"]}
{"id": "C116", "title": "Inference and batch updates raise the bound", "statement": "Every round of inference, hence inference of a chunk as a whole, never lowers the bound of any document compared to the random start; a batch update with the whole corpus (weight 1) never lowers the bound of the corpus for the inferred gammas and whatever alpha. The bound is the one with inference's constant added to the probability of each word; it exceeds the reported bound by at most the constant times the sum of count over probability.", "quantifier": "all corpora with non-negative counts, positive priors and starts, iteration limits, thresholds, constants >= 0; all digamma / log gamma pairs whose log beta function lies above its tangents", "why_tests_cant": "Monotonicity for all data is a theorem about coordinate ascent; tests look at one corpus.", "anchors": ["gensim/models/ldamodel.py:606", "gensim/models/ldamodel.py:706", "gensim/models/ldamodel.py:1031"]}
{"id": "C117", "title": "log_perplexity", "statement": "log_perplexity is (bounds of the documents + bound of the topics divided by total_docs / documents of the chunk) / words of the chunk; an empty chunk raises ZeroDivisionError. The logged perplexity falls as the bound rises. Violation: it is 2 to the power of minus a bound in natural logarithms, so it is not the perplexity: it is too small whenever the bound is negative.", "quantifier": "all models, chunks and totals", "why_tests_cant": "Tests compare with stored numbers of one model.", "anchors": ["gensim/models/ldamodel.py:806", "gensim/models/ldamodel.py:823", "gensim/models/ldamodel.py:828"]}
{"id": "C118", "title": "Priors of LDA", "statement": "'symmetric', 'auto' and None give 1/num_topics everywhere ('auto' and only it turns on learning); 'asymmetric' gives positive, strictly decreasing numbers that sum to one, in the proportions 1/(i + sqrt n); other strings and types raise ValueError; a model is only made with one alpha per topic and an eta per word (or a row per topic), never with an 'asymmetric' eta. Violation: negative priors are accepted.", "quantifier": "all sizes and arguments", "why_tests_cant": "Tests use a few sizes.", "anchors": ["gensim/models/ldamodel.py:523", "gensim/models/ldamodel.py:459"]}
{"id": "C119", "title": "Differences of topics", "statement": "diff returns each pair of topics once with its distance (with diagonal only equal numbers); normed divides by the greatest distance, so values lie in [0, 1] and the greatest is 1; errors are exactly: unknown distance ValueError, different kind of model AttributeError (violation of the documented ValueError), diagonal of different numbers of topics AssertionError. Kullback-Leibler is >= 0 and 0 iff equal, Jensen-Shannon is symmetric, within [0, ln 2] and 0 iff equal. Annotations are distinct words of both topics and of exactly one topic, n_ann_terms of them or all. Violation: the scaled diagonal is not the diagonal of the scaled matrix.", "quantifier": "all topics, distances, sizes, set orders", "why_tests_cant": "Tests check shapes and a self comparison.", "anchors": ["gensim/models/ldamodel.py:1401", "gensim/matutils.py:843", "gensim/matutils.py:891"]}
{"id": "C120", "title": "Unpacking compatible hashes of fastText", "statement": "_unpack keeps every stored row exactly once (a permutation of stored and random rows) and puts each used bucket's row at its bucket when the map hash2index only moves rows in pairs or out of places whose number is no used bucket. Violations: a cycle of three, a chain, or more stored rows than buckets end with rows in wrong places.", "quantifier": "all matrices, numbers of rows and maps", "why_tests_cant": "Tests unpack one stored model whose map is harmless; the failing maps depend on the order of vocabulary insertions.", "anchors": ["gensim/models/fasttext.py:1209", "gensim/models/fasttext.py:1277"]}
{"id": "C121", "title": "Indexes answer with cosine similarities", "statement": "MatrixSimilarity and SparseMatrixSimilarity answer a document with matutils.cossim of it and every indexed document (num_best: the clipping of that), agree with each other, lie within [-1, 1] and give 1 for an indexed copy of the query; a corpus is answered document by document. Errors: no features or unknown number of features ValueError, a query of explicit zeros AssertionError, an id beyond the features IndexError. Violation: maintain_sparsity with num_best raises ValueError for a single document.", "quantifier": "all corpora and queries of distinct in-range ids that are empty or not all zero; all num_best, chunk sizes", "why_tests_cant": "Tests compare a nine-document corpus against stored numbers.", "anchors": ["gensim/similarities/docsim.py:796", "gensim/similarities/docsim.py:856", "gensim/similarities/docsim.py:1203", "gensim/interfaces.py:305"]}
{"id": "C122", "title": "Looping over an index", "statement": "Looping over an index gives, for each indexed document in order, its cosines with all documents (clipped if num_best), whatever the chunk size, and restores normalisation - for MatrixSimilarity always, for SparseMatrixSimilarity when the last chunk is not a single document. Violations: a single-document last chunk of a sparse index yields numbers instead of rows; a loop left early leaves the index not normalising queries.", "quantifier": "all corpora, chunk sizes, num_best", "why_tests_cant": "Tests loop over a small corpus in one chunk.", "anchors": ["gensim/interfaces.py:365", "gensim/interfaces.py:384", "gensim/similarities/docsim.py:1219"]}
{"id": "C123", "title": "Word mover's similarity", "statement": "WmdSimilarity gives 1/(1+distance) for every document: in [0, 1], 0 only for infinite distance, 1 only for distance 0, ordered opposite to the distances; a loop gives a row for each document if no chunk is a single document. Violation: a single-document last chunk yields numbers.", "quantifier": "all distances >= 0, corpora and chunk sizes", "why_tests_cant": "Tests use one word vector model and a small corpus.", "anchors": ["gensim/similarities/docsim.py:1065", "gensim/similarities/docsim.py:1082"]}
{"id": "C124", "title": "Downloaded data", "statement": "Whatever happens, and whenever the process is killed, load leaves the folder of a data set as it was or filled with data of the listed checksums, and touches no other folder but the temporary one. A failed load changes nothing; a present folder is loaded as it is, also offline from the cached list; with a good network a missing data set arrives whole. Violations: a process killed while moving leaves a temporary folder after which the data set can never be loaded; an answer that is no list replaces the good cached list; an older version has an entry but cannot be loaded; a damaged present folder is never checked again.", "quantifier": "all states of disk and network, all lists of data sets, all interruptions", "why_tests_cant": "Tests download one small data set with a working network.", "anchors": ["gensim/downloader.py:189", "gensim/downloader.py:286", "gensim/downloader.py:346", "gensim/downloader.py:404", "gensim/downloader.py:489"]}
{"id": "C125", "title": "Metrics of passes", "statement": "With distinct labels, LdaModel.metrics holds for every metric its value after each pass, Diff and Convergence comparing with the model one pass earlier (the first pass with the model before training); if the drawn metrics come first every window shows all values of its metric. The metrics of a pass see the model after the pass if the chunks divide evenly into updates. Violations: otherwise they see the model before the pass's last update (batch training: the first pass reports the untrained model, the final model is never reported); a metric not drawn before a drawn one makes the second pass fail with IndexError; of two metrics with the same label one is lost.", "quantifier": "all lists of metrics, numbers of passes, chunks and update_every", "why_tests_cant": "Tests check that one metric of each kind is present after training.", "anchors": ["gensim/models/callbacks.py:477", "gensim/models/callbacks.py:515", "gensim/models/ldamodel.py:951", "gensim/models/ldamodel.py:1015"]}
{"id": "C126", "title": "Merging vectors of a file", "statement": "With a lock factor for every vector, intersect_word2vec_format gives each word of the model that is in the (text or binary) file the vector of its last entry and the given lock factor and changes nothing else. Violations: no call ever succeeds (the last line raises AttributeError after merging); with the single lock factor that training sets up, a word other than the first stops the merge with IndexError after its vector is replaced, and the first word's lock factor becomes that of all words; a truncated binary file makes the call hang.", "quantifier": "all files of well-formed words and vectors, all models with distinct indexes", "why_tests_cant": "No test calls this function; a hang cannot be observed by a finite test.", "anchors": ["gensim/models/keyedvectors.py:1633", "gensim/models/keyedvectors.py:1666", "gensim/models/keyedvectors.py:1682", "gensim/models/keyedvectors.py:1691"]}
{"id": "C127", "title": "Predicting a word from its context", "statement": "predict_output_word gives the topn words with the highest softmax probabilities of the scores with the sum (cbow_mean: mean) of the known context words: distinct words, best first, each probability in (0, 1], summing to at most 1 and exactly 1 if all words are asked for; unknown words and the order of the context do not matter; None if no word is known; RuntimeError without negative sampling. Violation: a FastText model raises KeyError for any unknown word in the context.", "quantifier": "all models with one row per word, contexts, topn, and orders of equal probabilities", "why_tests_cant": "Tests check one context on one trained model.", "anchors": ["gensim/models/word2vec.py:1773", "gensim/models/fasttext.py:1018"]}
{"id": "C128", "title": "Saving and loading an LDA model", "statement": "LdaModel.save followed by load gives, whatever files there were, the same attributes (None for ignored ones), the same state and the same dictionary; the companion files are named by inserting .state/.id2word before a compression extension, so that a model saved under a name that is neither the same nor that of a companion is not touched. Violations: a save that leaves the dictionary (or the state, if None) out does not remove the file of an older save, which load then picks up; ignore=None raises TypeError after overwriting the state; a string given as ignore leaves the dictionary out if it merely contains 'id2word'; an unreadable state file goes unnoticed.", "quantifier": "all models, file names, ignore arguments and contents of the file system", "why_tests_cant": "Tests save to fresh names and load once; collisions of names and leftovers of older saves are not exercised.", "anchors": ["gensim/models/ldamodel.py:1533", "gensim/models/ldamodel.py:1577", "gensim/models/ldamodel.py:1580", "gensim/models/ldamodel.py:1641", "gensim/utils.py:1339"]}
{"id": "C129", "title": "Coherence of topics by word vectors", "statement": "word2vec_similarity gives for every topic the mean, standard deviation and number of the cosines between the summed vectors of the two sides of its pairs, over exactly the pairs with a known word on each side; unknown words are ignored, the mean is in [-1, 1] and a topic without such pairs has no mean (nan). Violations: the words are looked up in a table that is filled once, so a word added to the dictionary afterwards raises KeyError; hierarchical softmax cannot be asked for when the vectors are trained on the fly (hs is read from the misspelled argument hw and always 0).", "quantifier": "all word vectors, dictionaries, topics, segmentations and keyword arguments", "why_tests_cant": "Tests compare two coherence values with a tolerance on one corpus.", "anchors": ["gensim/topic_coherence/text_analysis.py:56", "gensim/topic_coherence/text_analysis.py:636", "gensim/topic_coherence/text_analysis.py:655", "gensim/topic_coherence/indirect_confirmation_measure.py:92"]}
{"id": "C130", "title": "Loading models of older versions", "statement": "Bringing a loaded Word2Vec model up to date keeps every attribute, moves those of the old objects vocabulary and trainables into the model, turns iter into epochs and rebuilds the sampling table, and changes nothing else in a present model; for keyed vectors with string keys, words, positions, vectors and all per-word attributes are kept. Violations: the hierarchical softmax weights (syn1) of an old model are deleted; its ns_exponent and max_final_vocab are replaced by defaults; with integer keys per-word attributes go to wrong rows; old vectors of documents (with doctags) always raise AttributeError.", "quantifier": "all attribute tables, vocabularies and vectors", "why_tests_cant": "Tests load a few stored files of old versions and check some attributes; the tests with old document vectors are disabled.", "anchors": ["gensim/models/word2vec.py:1917", "gensim/models/word2vec.py:1943", "gensim/models/word2vec.py:1950", "gensim/models/keyedvectors.py:239", "gensim/models/keyedvectors.py:261", "gensim/models/keyedvectors.py:1693", "gensim/models/keyedvectors.py:655"]}
{"id": "C131", "title": "Words listed for a topic (LSI, LDA, NMF top topics, HDP)", "statement": "For every behaviour of numpy's sorting allowed by its documentation, the words shown for a topic are those with the greatest weights (for LSI: greatest absolute values), greatest first, each word with its own weight; LSI divides by the length of the topic and its numbers agree with get_topics; LDA shows shares of the sum of the row, never negative, at most one together, and one if all words are shown; top_topics lists every topic once with its own score and words, best score first, equal scores in the order of the topics; LSI show_topics lists the first computed topics and no others; HDP breaks ties by word id. Violation: a negative number of words shows nothing for LDA but all words except the last ones for HDP.", "quantifier": "all matrices of topics, numbers of words and topics, scores, and all admissible results of argsort and argpartition", "why_tests_cant": "Tests compare lengths and types of the listed topics of one trained model.", "anchors": ["gensim/models/lsimodel.py:629", "gensim/models/lsimodel.py:662", "gensim/models/lsimodel.py:691", "gensim/models/ldamodel.py:1200", "gensim/models/ldamodel.py:1231", "gensim/models/ldamodel.py:1272", "gensim/models/nmf.py:401", "gensim/models/hdpmodel.py:1136", "gensim/models/hdpmodel.py:1166"]}
{"id": "C132", "title": "Word and document vectors in one word2vec file; GloVe and tensor conversion", "statement": "Doc2Vec.save_word2vec_format with words and tags writes one file whose loading gives every word with its own vector in the order of counts, then every tag under its prefixed name with its own vector (integers first, then strings by number of documents), and nothing else, as long as no two of these names coincide; the vocabulary file holds the words, then the tags. glove2word2vec of a file with distinct words is the same file with a true header; word2vec2tensor writes word i and vector i on line i. Violations: with integer tags only, the tags are written twice (the header counts them once), and asking for a vocabulary raises ValueError after the words were written under a header that makes the file unreadable; the tags 0 and \"0\" become one; without prefix a tag that is also a word is lost; a GloVe file with a repeated word becomes a file that cannot be loaded.", "quantifier": "all tables of words and tags, prefixes, previous contents of the files, scalar formats, sizes of the read buffer", "why_tests_cant": "Tests save one trained model with string tags and compare lengths.", "anchors": ["gensim/models/doc2vec.py:732", "gensim/models/doc2vec.py:742", "gensim/models/keyedvectors.py:1531", "gensim/models/keyedvectors.py:1563", "gensim/models/keyedvectors.py:1571", "gensim/scripts/glove2word2vec.py:109", "gensim/scripts/glove2word2vec.py:85", "gensim/scripts/word2vec2tensor.py:68"]}
{"id": "C133", "title": "Segmented articles written as lines of JSON", "statement": "segment_and_write_all_articles writes one line of printable ASCII for each article that is long enough, no redirect and no page of another kind, in the order of the dump, and a JSON reader gets from each line the title, the headings, the texts of the sections and (if asked for) the links of that article. Violation: two surrogates that came from character references such as &#55357;&#56832; are read back as one character.", "quantifier": "all dumps, articles with arbitrary characters, minimal lengths, numbers of workers", "why_tests_cant": "Tests check the keys of the JSON of a few articles of one small dump.", "anchors": ["gensim/scripts/segment_wiki.py:109", "gensim/scripts/segment_wiki.py:137", "gensim/scripts/segment_wiki.py:145", "gensim/scripts/segment_wiki.py:158", "gensim/scripts/segment_wiki.py:164"]}
{"id": "C134", "title": "The text form of a hash dictionary", "statement": "After any calls of doc2bow and filter_extremes, save_as_text writes a line for exactly the ids that have words, by increasing id, with the document frequency of the id and its words, each once, with their document frequencies, more frequent words first and otherwise in the order of the words; the file determines all of these. Without debug the file is empty. Violation: words with a tabulator, for which two different dictionaries give the same file.", "quantifier": "all hash functions, ranges, histories of calls, words without tabulator and line end", "why_tests_cant": "Tests only look at whether a saved file exists or at one dictionary.", "anchors": ["gensim/corpora/hashdictionary.py:310", "gensim/corpora/hashdictionary.py:340", "gensim/corpora/hashdictionary.py:342", "gensim/corpora/hashdictionary.py:344", "gensim/corpora/hashdictionary.py:348"]}
{"id": "C135", "title": "The readers of the Brown corpus", "statement": "BrownCorpus and TaggedBrownCorpus give, file by file and line by line, the words with exactly one slash whose tag begins with letters, in lower case with the first two letters of the tag; lines without such words are left out; the tagged documents are the sentences, each with the path of the file and the number of its line, so all tags differ. A line that is not UTF-8 ends the reading with an exception after what came before. Violations: words that contain a slash are silently lost, an empty word counts as one, and the order is that of os.listdir.", "quantifier": "all directories of valid UTF-8 files, all words and tags", "why_tests_cant": "There are no tests of these readers with files.", "anchors": ["gensim/models/word2vec.py:1976", "gensim/models/word2vec.py:1985", "gensim/models/doc2vec.py:1101", "gensim/models/doc2vec.py:1118", "gensim/models/doc2vec.py:1123"]}
{"id": "C136", "title": "The forms in which a sharded corpus gives its documents", "statement": "After any history of requests, a ShardedCorpus gives for a document, a list or a slice exactly the rows asked for, in the form of its settings: vectors and arrays, CSR matrices, or bags of words with the entries above 1e-9 (all stored ones for sparse files) by increasing id; a corpus of such bags of words is given back unchanged. Resizing writes files of the kind in which rows are retrieved, and raises a TypeError if that is bags of words. Without a given dimension the first of corpus, transformation and transformed corpus that knows one decides. Violations: sparse files with gensim=True give generators instead of documents; resizing sparse files with dense retrieval makes every later request fail; the dimension given by argument is not the one used although the warning says so.", "quantifier": "all settings of sparse_serialization, sparse_retrieval and gensim, all rows, shard sizes and histories, all nestings of transformed corpora", "why_tests_cant": "Tests compare forms for one small corpus with one history and never resize with gensim=True or mixed sparsity.", "anchors": ["gensim/corpora/sharded_corpus.py:266", "gensim/corpora/sharded_corpus.py:442", "gensim/corpora/sharded_corpus.py:495", "gensim/corpora/sharded_corpus.py:570", "gensim/corpora/sharded_corpus.py:708", "gensim/corpora/sharded_corpus.py:721", "gensim/corpora/sharded_corpus.py:737"]}
{"id": "C137", "title": "Building and training a Word2Vec or Doc2Vec model: which calls are accepted and what they read", "statement": "train is accepted exactly if there is a vocabulary with vectors, a number of examples or of words and a positive number of epochs are given, and exactly one readable source of sentences (a generator only for one epoch); then every epoch reads all sentences of a source that can be read again, between the calls of all callbacks in order, and train_count rises by one. A refused call reads nothing, calls no callback and names the first reason. build_vocab sets the counts of the sentences and fails exactly for an update without vectors or a smaller vocabulary. Giving sentences to the constructor equals building and training; generators are always refused there. After any history train_count is the number of accepted trainings. Violations: an iterator that is no generator is accepted and training sees no sentences; a refused call without epochs erases model.epochs; compute_loss of the constructor is lost; an end_alpha of 0 is ignored; dm_mean of Doc2Vec has no effect.", "quantifier": "all vocabularies kept, sources, numbers of callbacks, arguments and histories of calls", "why_tests_cant": "Tests try a few refused calls each on its own model; histories and all combinations of arguments are unbounded.", "anchors": ["gensim/models/word2vec.py:415", "gensim/models/word2vec.py:476", "gensim/models/word2vec.py:1007", "gensim/models/word2vec.py:1027", "gensim/models/word2vec.py:1464", "gensim/models/word2vec.py:1501", "gensim/models/doc2vec.py:277", "gensim/models/doc2vec.py:490"]}
{"id": "C138", "title": "Approximate indexers: labels, saving and loading", "statement": "For every behaviour of the Annoy and nmslib libraries: an indexer built from a model names each found position by the key of that vector (document vectors for Doc2Vec) and reports 1 - d/2 or 1 - d; an Annoy indexer that is saved and loaded, by any indexer and among any other files, gives the same answers to all queries, files of other paths stay as they are, and loading without both files raises. Other objects raise a ValueError; empty keyed vectors or no trees give an indexer that cannot be queried. Violations: a loaded nmslib indexer does not use the saved parameters for queries but the defaults; a loaded Annoy indexer without model cannot be saved again and leaves one of its two files behind.", "quantifier": "all models, keys, vectors, queries, numbers, parameters, paths, files, and all answers of the libraries within the items", "why_tests_cant": "Tests compare the answers of one saved and loaded index with default parameters.", "anchors": ["gensim/similarities/annoy.py:70", "gensim/similarities/annoy.py:104", "gensim/similarities/annoy.py:137", "gensim/similarities/annoy.py:155", "gensim/similarities/annoy.py:186", "gensim/similarities/nmslib.py:159", "gensim/similarities/nmslib.py:176", "gensim/similarities/nmslib.py:202"]}
{"id": "C139", "title": "Word embeddings as a term similarity index", "statement": "For every history of keyed vectors without stale norms, every threshold and exponent: the index answers a word with the topn most similar ones among the other words above the threshold (within the rows searched), in decreasing order of similarity, each with its similarity raised to the exponent; words without vector get no answer and asking changes no later answer. With a threshold of at least zero the values are non-negative and ordered. A term similarity matrix built from it is always built, has ones on the diagonal and elsewhere only powers of similarities above the threshold of the two words. The counter type is the shortest one that holds the limit. Violations: negative thresholds with even exponent make opposites as similar as synonyms and break the order; words outside the dictionary use up the places, so similar dictionary words get zero in an otherwise empty column; limits from 2^64 on do not fit the counter.", "quantifier": "all vectors, norms, scores, histories of insertions, words, numbers, thresholds, exponents, windows, negative words, dictionaries and matrix options", "why_tests_cant": "Tests use a few words of one tiny model whose words all are in the dictionary.", "anchors": ["gensim/similarities/termsim.py:127", "gensim/similarities/termsim.py:134", "gensim/similarities/termsim.py:138", "gensim/similarities/termsim.py:161", "gensim/similarities/termsim.py:254"]}
{"id": "C140", "title": "Views of a dynamic topic model", "statement": "For every trained dynamic topic model: print_topic lists the top_terms most probable words of the topic in the slice, best first, each with its probability in that slice (topics and slices also counted from the end, others raise an IndexError); print_topic_times goes through all slices and print_topics through all topics in order; dtm_coherence gives the twenty best words of every topic; doc_topics is the normalised mixture; dtm_vis gives distributions for documents and topics, the words in the order of their ids and the total of every word in the corpus. Violations: the document lengths given to pyLDAvis count distinct words, not words, and so disagree with the term frequencies; a gap in the ids makes dtm_vis fail always and print_topic sometimes.", "quantifier": "all models, topics, slices, numbers of terms, corpora, vocabularies, and every argsort and argpartition within their contracts", "why_tests_cant": "Tests compare a few words of one model and never look at dtm_vis with repeated words.", "anchors": ["gensim/models/ldaseqmodel.py:510", "gensim/models/ldaseqmodel.py:534", "gensim/models/ldaseqmodel.py:555", "gensim/models/ldaseqmodel.py:582", "gensim/models/ldaseqmodel.py:611", "gensim/models/ldaseqmodel.py:624", "gensim/models/ldaseqmodel.py:651"]}
{"id": "C141", "title": "Comparing models by coherence: words of the topics", "statement": "For every dictionary built by public calls and every model: the word lists given to the coherence are the words of the heaviest positions of every topic, heaviest first, or a KeyError - never other words - and the token ids stay; if the reverse map of the dictionary is empty or up to date, all topics over the vocabulary get their words. for_models followed by the comparison of these words gives every model, for every length tried, exactly the u_mass coherence of the prefixes of its heaviest ids, although the words of all models are counted together. Violation: the reverse map is made once and not renewed, so after more documents the words of a larger model raise a KeyError until any word is looked up.", "quantifier": "all histories of dictionaries, models, topics, weights, numbers of words, corpora, and every argsort and argpartition within their contracts", "why_tests_cant": "Tests compare two models over one unchanged dictionary.", "anchors": ["gensim/models/coherencemodel.py:254", "gensim/models/coherencemodel.py:277", "gensim/models/coherencemodel.py:280", "gensim/models/coherencemodel.py:303"]}
{"id": "C142", "title": "Hierarchical Dirichlet process: test corpus and output directory", "statement": "For every model and test corpus with a length, known words and tokens that do not cancel: the evaluation is the sum of the likelihoods of the non-empty documents under the topics kept with the model (after training: those of the trained parameters), whatever the order of the documents; two corpora one after the other give the sum of both together; the parameters stay. It fails exactly for a word outside the vocabulary, for no tokens (division by zero), or for a corpus without a length, after all the work. Without an output directory no file is touched. Violations: evaluating an untrained model makes it answer queries from random topics where it raised an error before; later chunks given to update_chunk never reach the evaluation; with an output directory no model can be made at all (TypeError: text written to a file of bytes), and the options file is emptied.", "quantifier": "all models, likelihood functions, corpora, orders of documents, output directories and files", "why_tests_cant": "Tests evaluate no corpus and give no output directory.", "anchors": ["gensim/models/hdpmodel.py:934", "gensim/models/hdpmodel.py:938", "gensim/models/hdpmodel.py:948", "gensim/models/hdpmodel.py:384", "gensim/models/hdpmodel.py:863"]}
{"id": "C143", "title": "Tables of lexical entailment and their evaluation; CSV corpora", "statement": "For every table: it can be read exactly if every non-empty row gives both word columns and a score that is a number; then every pair has the score of the last row that names it, where a column name given twice means the last column. For every embedding and table the evaluation never fails: it compares, in one order, the scores of the table with the predictions from the nearest pair of terms, for exactly the pairs whose words both have terms. Violations: a pair judged twice counts once, with its last score; no file at all gives a CsvCorpus (lines read as bytes, joined as texts: TypeError; of an empty file no dialect can be guessed).", "quantifier": "all tables, number parsers, vocabularies, distances, norms, rank correlations and CSV files", "why_tests_cant": "Neither class has a test.", "anchors": ["gensim/models/poincare.py:1634", "gensim/models/poincare.py:1638", "gensim/models/poincare.py:1746", "gensim/models/poincare.py:1749", "gensim/corpora/csvcorpus.py:52"]}
{"id": "C144", "title": "Topics shown by non-negative matrix factorization", "statement": "For every factorization whose topics have positive total weight and named words: asked for some topics, show_topics lists exactly as many, none twice: half of them least sparse, the other half sparsest, in the order of sparsity, and every topic left out lies between; asked for a negative number or at least all, it lists all in their order. For every listed topic it gives the words of greatest weight, greatest first, with their weights or shares as set. show_topic gives the same words and numbers as show_topics does for that topic. Violations: asked for no topics, all are shown; showing one topic with shares changes the topic in the model, so that weights shown later differ.", "quantifier": "all matrices, numbers of topics and words, settings, and every argsort and argpartition within their contracts", "why_tests_cant": "Tests show all topics of one small trained model.", "anchors": ["gensim/models/nmf.py:269", "gensim/models/nmf.py:276", "gensim/models/nmf.py:282", "gensim/models/nmf.py:293", "gensim/models/nmf.py:328", "gensim/models/nmf.py:356"]}
{"id": "C145", "title": "Models that share a vocabulary after reset_from", "statement": "For every sequence of successful calls on any number of models (new models, building and expanding vocabularies, reset_from of one model from another, training), in which a vocabulary is expanded only while no other model has it: every model is consistent, that is, its words are distinct, the place of a word is where it stands, and there is one row and one output row per word; and a call on one model leaves words, places and rows of all others as they are, and their counts too when they have another object for them. A word model that was reset has the words, places and counts of the other, fresh rows and zero output rows. Violations: expanding the vocabulary of a model that was reset gives the other model words without rows, so that looking one up raises IndexError; building its vocabulary again changes the counts of the other; a document model keeps its trained rows under the words of the other. After building, the model has exactly the words that are frequent enough, each with its count; after expanding it, the old words and then the new ones, each with old and new count together, if there were no more counts than words. Violation: counts left by the vocabulary of another model are added to new words.", "quantifier": "all sequences of calls, all models, all words, counts and rows", "why_tests_cant": "Tests reset one model once and train it; sharing shows only in later calls on either model.", "anchors": ["gensim/models/word2vec.py:1840", "gensim/models/word2vec.py:618", "gensim/models/word2vec.py:663", "gensim/models/word2vec.py:841", "gensim/models/doc2vec.py:356", "gensim/models/keyedvectors.py:274"]}
{"id": "C146", "title": "Articles of digital mathematics libraries", "statement": "For every metadata file with an article whose fields are written one per line: the metadata has every subject code in order, the last value of every other field (review numbers without their prefix), no other field, and nothing from outside of the article. For every directory of a source that does not end with '/', the id of an article directory is what follows its last '#' and joining its path to the source gives the directory back. The content of an article with two full texts is the longer one, the first where they are equal. Every dictionary with words free of tabs and line ends is read back as it was saved. For every list of similarities and every positive limit, the listed articles are the first ones above the least score other than the article itself, with their scores. Violations: articles of a source at '/' or '.' are looked for at a wrong place; words with a tab are lost without notice, and a last line that does not end loses a character; a limit of zero, meant to list all, lists one.", "quantifier": "all files, fields, paths, dictionaries, lists of similarities and limits", "why_tests_cant": "The examples have no tests; the faults show only for particular directories, words and settings.", "anchors": ["gensim/examples/dmlcz/sources.py:94", "gensim/examples/dmlcz/sources.py:123", "gensim/examples/dmlcz/sources.py:215", "gensim/examples/dmlcz/dmlcorpus.py:168", "gensim/examples/dmlcz/gensim_xml.py:57"]}
{"id": "C147", "title": "Sizes of vocabulary topic models take from a mapping or a corpus", "statement": "For every mapping with ids from zero on, latent Dirichlet allocation, the author-topic model, latent semantic indexing and random projections have room for all its ids and no more; non-negative matrix factorization, hierarchical Dirichlet processes and sequential allocation have it just when the ids are the numbers from zero on, and then all seven sizes agree. Without a mapping, all but hierarchical Dirichlet processes have room for all ids of the corpus and no more. Violations: with a gap between the ids the greatest id has no room in the last three; a mapping another model made for itself raises ValueError in random projections; factorization without mapping and corpus raises TypeError.", "quantifier": "all mappings and all corpora", "why_tests_cant": "Tests use dictionaries without gaps, one model at a time.", "anchors": ["gensim/models/ldamodel.py:433", "gensim/models/atmodel.py:232", "gensim/models/lsimodel.py:404", "gensim/models/nmf.py:196", "gensim/models/hdpmodel.py:352", "gensim/models/ldaseqmodel.py:130", "gensim/models/rpmodel.py:83", "gensim/utils.py:736"]}
{"id": "C148", "title": "Files of similarity indexes side by side", "statement": "The name of a shard's file determines the index's prefix and the number of the shard, for prefixes that do not end in a dot. Whatever sequence of closing and reopening shards, saving and destroying is done to indexes none of whose prefixes begins with another's, saved under their prefixes or under names that begin with none, the shards of every index not destroyed are read back as they were written. Destroying removes just the files that begin with the prefix. Violations: destroying index 'idx' deletes the shards of 'idx2'; saving index 'idx.1' overwrites a shard of 'idx'; prefixes 'idx' and 'idx.' share their shards.", "quantifier": "all prefixes, all numbers of indexes and all sequences of operations", "why_tests_cant": "Tests use one index at a time, with a fresh prefix.", "anchors": ["gensim/similarities/docsim.py:416", "gensim/similarities/docsim.py:435", "gensim/similarities/docsim.py:464", "gensim/similarities/docsim.py:711", "gensim/similarities/docsim.py:751"]}
{"id": "C149", "title": "Tokens of articles in XML", "statement": "For every document, however nested, the tokens of an article are those of the texts and of the inline formulas directly in a paragraph and of nothing else, in the order of the document; every token is then normalized without failure, words in lower case and formulas as they are. A text handed over by the parser in pieces has the words of the whole, unless a word is cut. Violations: formulas are not the expression between dollar signs, as documented, but its representation as bytes; a word in two pieces becomes two words.", "quantifier": "all documents, attributes and pieces of texts", "why_tests_cant": "The examples have no tests; nesting of elements and pieces of texts are unbounded.", "anchors": ["gensim/examples/dmlcz/sources.py:249", "gensim/examples/dmlcz/sources.py:337", "gensim/examples/dmlcz/sources.py:350"]}
{"id": "C150", "title": "Distributed latent semantic indexing learns every job once", "statement": "For every number of workers, every sequence of rounds of adding documents and every order in which messages arrive and workers act, when the dispatcher hands over the states every job since the last reset has been learned by just one worker, just once, and no job of an earlier round is among them. While the dispatcher waits some worker can act, and workers cannot act for ever, so the waiting ends. Violation, were the reset left out: fresh workers, and those that have given their states, never take a job, and the waiting does not end.", "quantifier": "all numbers of workers, jobs and rounds, and all interleavings", "why_tests_cant": "Tests do not run distributed training; interleavings are unbounded.", "anchors": ["gensim/models/lsi_dispatcher.py:124", "gensim/models/lsi_dispatcher.py:160", "gensim/models/lsi_dispatcher.py:193", "gensim/models/lsi_dispatcher.py:223", "gensim/models/lsi_dispatcher.py:233", "gensim/models/lsi_worker.py:110", "gensim/models/lsi_worker.py:155", "gensim/models/lsi_worker.py:171", "gensim/models/lsimodel.py:486"]}
{"id": "C151", "title": "Parameters of metrics of topic models", "statement": "Whatever calls were made before, the value of a metric is computed from what each attribute it reads was last set to, by its constructor or by any call; coherence takes its model and topics from the call itself, or None. A call fails with AttributeError just when some attribute it reads has never been set. Violation: what a call overrides stays overridden in later calls, and a value can be of the model of an earlier call.", "quantifier": "all kinds of metrics, arguments and sequences of calls", "why_tests_cant": "Tests call each metric by training, with the same arguments each time.", "anchors": ["gensim/models/callbacks.py:134", "gensim/models/callbacks.py:249", "gensim/models/callbacks.py:304", "gensim/models/callbacks.py:369", "gensim/models/callbacks.py:437"]}
{"id": "C152", "title": "Articles found in a tree of directories", "statement": "For every tree of directories, the articles a source finds are exactly the directories below its own, at any depth, whose name starts with '#' and which contain the files of its format; each is found once, under its own path, and the content read for it is that of its own directory (the longer of two texts). Its number is what follows the last '#' of its name, or what its dspace_id file says. The search fails just if the directory of the source is itself an article, or a dspace_id is no file. Violations: a source whose own directory is an article finds nothing; different articles may have the same number.", "quantifier": "all directory trees with names as file systems allow them, all three kinds of sources and all normalized base directories other than '/' and '.'", "why_tests_cant": "The examples have no tests; depth and number of directories are unbounded.", "anchors": ["gensim/examples/dmlcz/sources.py:129", "gensim/examples/dmlcz/sources.py:143", "gensim/examples/dmlcz/sources.py:191", "gensim/examples/dmlcz/sources.py:215", "gensim/examples/dmlcz/sources.py:300", "gensim/examples/dmlcz/sources.py:310"]}
