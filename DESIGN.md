# Design: a formal model of gensim in Rocq 8.16.1

The code in `/repo` is read as text. The model is written by hand, function by
function, in `rocq/theories/*_Model.v`. Each definition cites file and lines.
Specifications that do not use model helpers live in `*_Spec.v`, proofs in
`*_Proofs.v`, and the final statements with `Print Assumptions` and examples in
`*_Properties.v`.

## Conventions

| Python | Model |
| --- | --- |
| `str` | `pystr := list N`, a list of code points. Files are lists of code points. UTF-8 encoding and decoding is treated as the identity. |
| `int` | `nat` for sizes and ids that are never negative, `Z` otherwise |
| `float` | an abstract type with the operations and laws used; rationals or reals where the claim is about magnitudes; rounding is not modelled unless stated |
| `dict` | insertion-ordered association list with at most one entry per key |
| `sorted` | stable insertion sort |
| exceptions | `Err` values of a result type |
| iterables | finite lists |
| loops | structural recursion or folds; fuel only where termination is data dependent, and then the theorem excludes running out of fuel |
| threads, processes | labelled transition systems; theorems are about every execution |

A property that fails on the real code is stated with the guard under which it
holds; the failing part gets a `..._refuted` theorem with a computed witness.
Findings are listed at the end of this file.

## Plan per property (first properties)

The plan made before the model was written; later properties were planned in the same way and appear in the table further down.


| Id | Modelled | Proof idea |
| --- | --- | --- |
| C01 | `Dictionary` state machine: doc2bow, add_documents, filters, compactify, merge_with | invariant over operation lists: ids are a permutation of `0..n-1` |
| C02 | doc2bow update path | fold invariant against counting specification over the document list |
| C03 | doc2bow | specification by counts; sortedness; state equality |
| C04 | doc2bow, add_documents without pruning | monotonicity by induction |
| C05 | filter_extremes | survivor set equals specification written with `firstn` of a sorted list; refutation for keep_tokens |
| C06 | filter_tokens, filter_n_most_frequent, compactify | rank function specification |
| C07 | save_as_text, load_from_text on code point lists | round trip; decimal print/parse lemma; refutation for TAB |
| C08 | `__getitem__` with lazy cache, patch_with_special_tokens | coherence invariant; refutation |
| C09 | merge_with, VocabTransform | relation between the two maps |
| C10 | HashDictionary doc2bow | generic hash function |
| C11, C12 | MmWriter, MmReader, byte offsets | round trip over the written text; offsets as lengths of prefixes |
| C13 | SvmLightCorpus | line round trip plus offsets |
| C14 | BleiCorpus | same |
| C15 | LowCorpus | same |
| C16 | MalletCorpus | same |
| C17 | UciWriter, UciReader | same as C11 |
| C18 | chunkize_serial | induction on fuel/stream |
| C19 | InputQueue producer, bounded queue, consumer | transition system, invariant, measure for termination, progress |
| C20, C21 | corpus views in utils | list specifications with `nth` |
| C22 | prune_vocab, trim_vocab_by_freq, merge_counts, keep_vocab_item | filter specifications |
| C23 | iter_windows, strided_windows | list slices |
| C24 | corpus2csc both paths, Sparse2Corpus | equality of CSC triples |
| C25, C26 | sparse2full, full2sparse, clipped, argsort | list specifications; partition primitive as any function satisfying its contract |
| C27 | cossim, hellinger, unitvec over stdlib reals | Cauchy-Schwarz on finite sums |
| C28 | jaccard, jaccard_distance over rationals | counting |
| C29, C30 | ShardedCorpus with a disk map and a current shard | invariant over access histories; refutation of reopening |
| C31 | Similarity with fresh docs and shards | invariant over histories |
| C32 | per-shard top-k and merge | top-k specification closed under merging |
| C33 | analyze_sentence as a state machine over tokens | induction with the pending-state invariant |
| C34 | _learn_vocab, add_vocab, prune | counting specification, inequality with pruning |
| C35 | FrozenPhrases lookup | extensional equality of scorers |
| C36, C37 | KeyedVectors key/index/vector state | invariants over histories; refutations |
| C38 | most_similar | top-n specification |
| C39, C40 | word2vec text and binary format, chunked reader | round trip; reader equals one-shot parser |
| C41 | heap as any priority queue with the ordering contract, tree, codes | Huffman optimality by exchange argument |
| C42 | _job_producer, _get_next_alpha | partition of list; bounds over rationals |
| C43 | training epoch as transition system | counting invariant, progress, termination measure; refutation for crash |
| C44 | prepare_vocab selection | sorting facts |
| C45 | make_cum_table over rationals/integers, searchsorted | monotone sums |
| C46 | LineSentence, Text8Corpus | chunked reader equals tokenizer |
| C47 | fastText `.bin` layout on bytes | serialiser/parser round trip |
| C48 | dispatcher/worker LTS | multiset invariant |
| C49 | _create_source greedy loop | invariant on the matrix map |
| C50 | levdist/levsim with an abstract edit distance | real arithmetic |
| C51 | TfidfModel initialisation, precompute_idfs, transform | equality of frequency maps |
| C52 | _smart_save, _save_specials, _load_specials | state equality on every failure point |
| C53 | patch_with_special_tokens (one token) | explicit description of the patched map; refutations for dfs and stale cache |

## Which code is modelled

The text is the header of each model file; what a header calls a simplification is not modelled. Code of `/repo` that no header names is not modelled.

* `Base.v` — Shared vocabulary of the model: exceptions as values, Python dicts, stable sorting, and small list facts. Nothing in this file is specific to one gensim module. It fixes how the Python built-ins used by the modelled code are represented.
* `Str.v` — Python strings as lists of code points, their order, decimal numerals, splitting and joining. Files are lists of code points; UTF-8 encoding and decoding (`utils.to_utf8`, `utils.to_unicode`) is treated as the identity because it is injective on valid strings and maps '\n', '\t', ' ' and digits to themselves.
* `Dictionary_Model.v` — Model of gensim/corpora/dictionary.py (class Dictionary). Documents are lists of `str` tokens; the `bytes` branch of doc2bow (line 244) and the TypeError for a plain string argument (lines 238-239, 300-301) are not modelled because documents are typed. Logging is not modelled, except where a log argument performs a lookup that may raise or refresh the cache.
* `HashDictionary_Model.v` — Model of gensim/corpora/hashdictionary.py: `HashDictionary`.
* `Utils_Model.v` — Model of parts of gensim/utils.py: chunking, corpus views, vocabulary pruning, sliding windows.
* `Chunkize_Model.v` — Model of the background chunking of gensim/utils.py: `InputQueue` and `chunkize` with `maxsize > 0`, as a transition system. Three actors share a `multiprocessing.Queue(maxsize)`: the producer process (utils.py 1201-1224), the queue's feeder thread that moves items from the queue's buffer to the pipe, and the consumer (utils.py 1300-1306). `put` needs a slot of the queue's semaphore; a slot is given back when the consumer has received an item.
* `Matutils_Model.v` — Model of parts of gensim/matutils.py: conversions between bag-of-words, dense and sparse formats, top-n selection, Jaccard distances. Weights are exact rationals (float rounding is not modelled).
* `MatClip_Model.v` — Model of `matutils.scipy2scipy_clipped` on a sparse matrix (several rows).
* `MatReal_Model.v` — Model of the real-valued vector functions of gensim/matutils.py, over the mathematical reals (float rounding, overflow and NaN are not modelled).
* `Formats_Base.v` — Shared parts of the corpus file formats: number scanning, textual weights, generators that may fail midway, and byte positions in a file. A file is its content (`pystr`, one character per byte: every format below writes only ASCII apart from words, which are kept as code points and read back with the same decoding).
* `MmCorpus_Model.v` — Model of the Matrix Market writer, reader and indexed corpus: /repo/gensim/matutils.py 1135-1342 (MmWriter), /repo/gensim/corpora/_mmreader.pyx 41-212 (MmReader), /repo/gensim/corpora/mmcorpus.py 54-126, /repo/gensim/corpora/indexedcorpus.py 49-188. Simplifications: the output file is a fresh local uncompressed file; logging and the metadata pickle are left out; weights are abstract (`wfmt`, Formats_Base.v); term ids are arbitrary integers.
* `LineCorpora_Model.v` — Models of the corpus formats that store one document per line: /repo/gensim/corpora/svmlightcorpus.py 46-189, bleicorpus.py 37-185, lowcorpus.py 19-288, malletcorpus.py 57-236. Simplifications: local uncompressed files; a file is the sequence of its characters, so that positions count characters where the code counts UTF-8 bytes (writer and reader agree on either count); logging is left out; weights are abstract (`wfmt`) except for the list-of-words formats, where they are rationals truncated by `int`.
* `Uci_Model.v` — Model of the UCI bag-of-words corpus: /repo/gensim/corpora/ucicorpus.py 23-293. The format is Matrix Market with another header, so the writing and reading loops of MmCorpus_Model are reused. Simplifications: as in MmCorpus_Model. Counts are read back by the reader as C doubles; integers of magnitude at most 2^53 are exact there, and are identified with the double.
* `ShardedCorpus_Model.v` — Model of /repo/gensim/corpora/sharded_corpus.py: ShardedCorpus. Simplifications: a row of a shard is a value of an abstract type `R` (retrieval never looks inside a row; the conversion of documents to rows is `sc_row`); the shard files `prefix.0`, `prefix.1`, ... are a list; `int(offset / shardsize)` is exact integer division (offsets below 2^53); the output format conversions (`_getitem_format`) are the identity on rows, which for `resize_shards` means `gensim=False` and `sparse_retrieval = sparse_serialization`; the bounds of a slice are integers; a failing [offsets`n`] in `load_shard` (more shard files than offsets) leaves the object unchanged.
* `Docsim_Model.v` — Model of the sharded similarity index: /repo/gensim/similarities/docsim.py 93-255 (Shard, _nlargest), 303-740 (Similarity), with the query of one shard from /repo/gensim/interfaces.py 305-353. Simplifications: an indexed vector is a value of an abstract type `V`; `conv` is the conversion and normalization of one added document (which may fail), `doclen` the count used for `fresh_nnz`, `nnz` the number of entries that `scipy2sparse`/`full2sparse` find in a vector; `score normalize q v` is the similarity of a query to a vector; `issparse` is the density test of line 447 (any decision). Float32 rounding is not modelled. A failing `close_shard` changes nothing, since the shard is appended last.
* `Phrases_Model.v` — Collocation detection: models/phrases.py. Simplifications: logging/progress is dropped; scores are exact rationals, minus infinity or NaN (floating point rounding of the scorer is not modelled, the scorer itself is a parameter); tokens are strings, so `_is_single` (170-203) always takes the sentence branch; corpora are lists.
* `KeyedVectors_Model.v` — Model of /repo/gensim/models/keyedvectors.py 194-784: storing, looking up, replacing, sorting vectors and `most_similar`. Simplifications: a vector is a value of an abstract type `V`, a norm one of type `R`; float arithmetic is not modelled: `norm`, `divide`, `mean_of` (unit vector of the weighted mean) and `score` (dot product divided by the norm) are parameters. All vectors have the right size. Of the per-key attributes only 'count' is modelled. Keys are strings or integers; warnings and logging are left out.
* `W2vFormat_Model.v` — Model of the word2vec text and binary formats: /repo/gensim/models/keyedvectors.py 1502-1579 (saving) and 1744-1917 (loading). Simplifications: a text file is the sequence of its code points (the same UTF-8 coding is used both ways); in binary files words are UTF-8 bytes. A scalar is a value of an abstract type with a textual form, and a packed form of four bytes. Counts are integers. The file being written when an error occurs is not modelled. `prefix`, `write_header`/`no_header`, `fvocab` and `limit` are; `total_vec` and `append` are left at their defaults, as are `encoding` and `unicode_errors` (strict UTF-8). A word missing from the vocabulary file is a TypeError (numpy refuses None in the array of counts).
* `Huffman_Model.v` — Model of the Huffman tree of hierarchical softmax: /repo/gensim/models/word2vec.py 2134-2192 and 783-789. Simplifications: the vocabulary is the list of its counts (natural numbers), words are their indices (`get_vecattr`/`set_vecattr` with an integer index); a code is a list of booleans, points are naturals (the uint32 range is not modelled). The `heapq` functions of the Python library are parameters with the contract of Huffman_Spec.
* `W2vVocab_Model.v` — Model of the vocabulary of Word2Vec: /repo/gensim/models/word2vec.py 434-748 (`build_vocab`, `_scan_vocab`, `prepare_vocab`), 776-780 (`add_null_word`), 818-860 (`prepare_weights`) and /repo/gensim/models/keyedvectors.py 352-362, 1938-1955 (`resize_vectors`, `prep_vectors`). Simplifications: counts are natural numbers in the scan and integers in the vector set; subsampling (683-715) is in Downsample_*; Huffman codes and the table for negative sampling are in Huffman_* and NegSampling_*; syn1 and syn1neg are left out. The random rows of `prep_vectors` come from a parameter. Logging and `estimate_memory` are left out.
* `NegSampling_Model.v` — Model of the table for negative sampling and of drawing from it: /repo/gensim/models/word2vec.py 796-817 (`make_cum_table`) and /repo/gensim/models/word2vec_inner.pyx 142-157 (`bisect_left`, `random_int32`), 222 and 432 (the draw). The powers count**ns_exponent are arbitrary reals here. Every float operation is the exact operation followed by an arbitrary rounding function `rnd`; the theorems assume of it only what IEEE 754 guarantees. The entries are integers (the uint32 array holds them all, see the theorem on their range).
* `Downsample_Model.v` — Model of the downsampling of frequent words: /repo/gensim/models/word2vec.py 694-718 (in `prepare_vocab`) and /repo/gensim/models/word2vec_inner.pyx 548 (the decision for one word). Over the mathematical reals; float rounding is not modelled. The report values are sums over the words and left out except `downsample_unique`.
* `TrainJobs_Model.v` — Model of how training data is cut into jobs and prepared for the inner loops: /repo/gensim/models/word2vec.py 1142-1211 (`_job_producer`), 1411-1433 (`_get_next_alpha`), 1448-1461 (`_raw_word_count`), 1012-1013 (in `train`) and /repo/gensim/models/word2vec_inner.pyx 539-586 (`train_batch_sg`; `train_batch_cbow` 632-684 is the same up to the inner function). The learning rate is a real number. Logging is left out.
* `TrainSched_Model.v` — Model of one training epoch with threads: /repo/gensim/models/word2vec.py 1352-1409 (`_train_epoch`), 1101-1140 (`_worker_loop`), 1203-1211 (the end of `_job_producer`) and 1253-1285 (`_log_epoch_progress`), as a transition system. The threads share two FIFO queues; `put` blocks on a full queue and `get` on an empty one (`queue.Queue`; a maximal size of 0 or less means no bound, here `None`). Training one job is one step that yields its report or raises; callbacks are part of it. The corpus iterator may raise after some jobs. Logging is left out.
* `Sentences_Model.v` — Models of the sentence readers: /repo/gensim/models/word2vec.py 1993-2018 (Text8Corpus), 2021-2067 (LineSentence), 2070-2121 (PathLineSentences), and of /repo/gensim/utils.py 1970-1982 (save_as_line_sentence). Simplifications: files are byte sequences and decoding is strict UTF-8; for `Text8Corpus` the results of successive `fin.read(8192)` are given as a list of non-empty chunks, of whatever sizes; `max_sentence_length` and `limit` are not negative. A reader that never stops yielding is marked as such (`Loops`).
* `Levenshtein_Model.v` — Model of /repo/gensim/similarities/levenshtein.py 20-153. The C function `Levenshtein.distance` is not part of the repository; it stands here as the usual recursion. Over the mathematical reals (float rounding and overflow are not modelled); `x ** y` for `x >= 0`.
* `Tfidf_Model.v` — Model of /repo/gensim/models/tfidfmodel.py: resolve_weights 28-105, df2idf 108-129, precompute_idfs 132-153, smartirs_wlocal 155-186, smartirs_wglobal 189-214, TfidfModel.__init__ 363-414, initialize 440-470, __getitem__ 472-548. Over the mathematical reals (float rounding, infinities and NaN are not modelled: logarithms are taken of positive numbers in the theorems that speak of their values, and the pivoted norm is not zero). A corpus given to the constructor is a list of documents (an empty list is false). `normalize` is `True`, `False` or a function that can also return the norm. The length of a term is read off the token map; `id2word` and the logging are left out.
* `SaveLoad_Model.v` — Model of SaveLoad in /repo/gensim/utils.py: load 389-422, _load_specials 424-490, _adapt_by_suffix 492-508, _smart_save 510-551, _save_specials 553-649, save 651-690. Objects live in a heap, by location, and hold their instance attributes (class attributes, properties and `__slots__` are not modelled). An attribute is a numpy array, a csr/csc matrix, another SaveLoad object (by reference), or anything else, which is pickled in place. Pickling an object writes a snapshot of the heap and the object's location, so that references inside it keep their sharing; the object read back is the snapshot. A matrix is only referred to by the object that holds it. Any write may fail: `w_left` is the number of writes that still succeed (`None`: all of them), and a failed write leaves a truncated file. The recursion of the two `_specials` functions is bounded by `fuel`, as by Python's recursion limit (a RuntimeError). Memory mapping is modelled by its error on compressed files only.
* `TermSim_Model.v` — Model of gensim/similarities/termsim.py 170-288: `_create_source`, the greedy construction of a sparse term similarity matrix. Floats are rationals (rounding, infinities and NaN are not modelled). The dictionary is its `token2id`; the index is a function from term and `topn` to the answers in order. The answer is the list of triplets (row, column, value) given to `coo_matrix`, whose duplicates are added up by `tocsc`.
* `SoftCosine_Model.v` — Model of SparseTermSimilarityMatrix.inner_product (gensim/similarities/termsim.py 482-593) and its normalisation helpers (290-390), over the mathematical reals (rounding, overflow and NaN are not modelled). The matrix is a function on indices below `n`; a vector is a list of (index, weight). Weights that numpy would make infinite (division by a zero norm) are an `OverflowErr`; explicit zero weights, which the code forbids in its assertion message, are treated like absent ones.
* `LdaDispatch_Model.v` — Distributed LDA: the dispatcher / worker protocol, as a transition system. Source: gensim/models/lda_dispatcher.py (Dispatcher.initialize 93-155, getjob 168-186, putjob 188-200, getstate 202-231, reset 233-248, jobdone 250-271), gensim/models/lda_worker.py (Worker.initialize 88-110, requestjob 112-139, processjob 141-157, getstate 164-180, reset 182-199) and the client loop gensim/models/ldamodel.py update 958-1028. Pyro's one-way calls are asynchronous: `requestjob` and `jobdone` return to the caller at once and run later, in a thread of the callee. Every other call is synchronous. A step below is one atomic action; any enabled step may happen next, so the relation covers every interleaving. Simplifications (each only adds behaviours, unless said otherwise): - a one-way `requestjob` call in transit, the loop of lines 127-133 and a blocked `jobs.get` are one token `ask w`; such a token may take a job even if `finished` was set after the test of line 128; - the statistics a worker accumulates (`LdaState.sstats`, `numdocs`) are the list of the jobs whose E step went into them; `merge` (ldamodel.py 178-191) concatenates. Real addition is commutative, float addition is so up to rounding; - `do_estep` changes the state only after `inference` is through (ldamodel.py 741-743), so a failing job leaves no partial contribution; which jobs fail is the parameter `bad`; - the time-outs (1 s in getjob, a year in putjob), the pings of getstate and the loss of a worker or of a message by the network are left out (the last removes behaviours: the protocol has no answer to it).
* `FtBin_Model.v` — Facebook's binary fastText format: /repo/gensim/models/_fasttext_bin.py 63-674 (load, save) and /repo/gensim/models/fasttext.py 437-455, 777-871, 1135-1161 (what a loaded file is turned into). A file is a list of bytes. The machine is little endian with 4-byte int/float and 8-byte long long/double ('@' native sizes; no field needs padding). A float32 or float64 is its bit pattern, an integer. `np.int32(v)` and `np.int64(v)` are taken modulo the width (newer numpy versions raise instead; the theorems assume the values fit). `struct.error` is ValueError here. A negative element count in a matrix header is a ValueError (numpy would read the whole rest for -1). `word.encode(encoding)` and `bytes.decode(encoding)` are parameters, `utf8` instances below; the replacement text for undecodable bytes is a parameter, too. A loader that never returns is `None`; `fuel` bounds the turns of the loop reading one word, see `word_loop`.
* `FtNgrams_Model.v` — Character n-grams and their hashes in fastText: /repo/gensim/models/fasttext_inner.pyx 614-715 and /repo/gensim/models/fasttext.py 1298-1319. A word is a list of code points, encoded text a list of bytes; a `bytes` index is a `nat`. The code's unsigned 32-bit arithmetic is reduction modulo 2^32 on `N`. `range` and `while` loops that count upwards carry a fuel that `FtNgrams_Properties` shows to be sufficient.
* `FtVectors_Model.v` — Word vectors of fastText: /repo/gensim/models/fasttext.py 457-460, 1000-1197, with the parts of /repo/gensim/models/keyedvectors.py it inherits: 401-433, 440-528, 613-622, 659-672, 1463-1471, 1938-1955. Vectors are lists of real numbers (float32 rounding is not modelled); division by a zero norm (nan in numpy) is whatever Coq's division gives, the theorems assume it away. `vectors` is the same array as `vectors_vocab` when there are no buckets (`aliased`); `vectors_vocab` then names both. Per-key attributes other than 'count', lockf arrays and preallocated slots are left out. `KeyError`s carry no message.
* `CorpusFile_Model.v` — Model of training from a `corpus_file`: /repo/gensim/models/fast_line_sentence.h (FastLineSentence), /repo/gensim/models/word2vec_corpusfile.pyx 79-182 (CythonLineSentence), 185-229 (`prepare_c_structures_for_batch`) and 303-315 (the loop of `train_epoch_sg`; the one of `train_epoch_cbow` is the same up to the inner function), /repo/gensim/models/word2vec.py 1313-1340 (`_train_epoch_corpusfile`). Simplifications: the file does not change; `offset` is the exact `size * thread_id / workers` rounded down (the code goes through a float); machine integers do not overflow; opening and seeking succeed. A write past the end of a C array is an error here (`None`). The inner functions and the learning rate are left out; what is kept is which word indexes reach them, in which sentences.
* `DocFile_Model.v` — Model of training document vectors from a `corpus_file`: /repo/gensim/models/doc2vec.py 514-556 (`_get_offsets_and_start_doctags_for_corpusfile`), 1126-1170 (TaggedLineDocument) and /repo/gensim/models/doc2vec_corpusfile.pyx 58-97 (`prepare_c_structures_for_batch`), 165-236 (`d2v_train_epoch_dbow`; the loop of `d2v_train_epoch_dm` 305-382 treats documents and tags in the same way), 458-541 (`d2v_train_epoch_dm_concat`). Simplifications: as in CorpusFile_Model; what is kept is which document is trained with which tag.
* `CohAccum_Model.v` — Topic coherence: the occurrence accumulators of gensim/topic_coherence/text_analysis.py. Simplifications: words are strings, word ids and counts are unbounded naturals (uint32 in the code); a sparse matrix is the function from its two indices to the entry; logging is left out; `relevant_ids` (a set in the code) is the list of its elements in iteration order.
* `CohMeasure_Model.v` — Topic coherence: segmentation, confirmation measures, aggregation. Model of gensim/topic_coherence/segmentation.py, direct_confirmation_measure.py, indirect_confirmation_measure.py (cosine_similarity) and aggregation.py, over the mathematical reals (no rounding, infinities or NaN: a division by zero or a mean of nothing, which gives inf or nan with numpy numbers and raises ZeroDivisionError with Python numbers, is `Err ZeroDivErr` here).
* `CohModel_Model.v` — CoherenceModel: topics, topn and the cached accumulator. Model of gensim/models/coherencemodel.py for the u_mass measure (s_one_pre, document counts of a corpus, log conditional probability). The corpus and the dictionary are fixed. The accumulator is represented by its set of relevant ids: its counts are those of `corpus_accumulate` on the corpus.
* `DocTags_Model.v` — Model of the document tags of Doc2Vec: /repo/gensim/models/doc2vec.py 336-339 (`init_weights`), 393-432 (`_do_train_job`: the tags of a document), 833-880 (`build_vocab`), 883-931 (`build_vocab_from_freq`), 933-1003 (`_scan_vocab`) and /repo/gensim/models/keyedvectors.py 274-350 (attributes), 352-362 (`resize_vectors`), 386-399 (`get_index`). Simplifications: a tag is a string or an integer. The words of the documents are counted as in Word2Vec (W2vVocab_Model.scan: same code); what `build_vocab` does to the word vectors is in W2vVocab_Model, so here it is only followed on the document vectors. Of the checks only those that stop the program are modelled; logging is left out.
* `W2vStep_Model.v` — Model of the training steps of Word2Vec and Doc2Vec: /repo/gensim/models/word2vec_inner.pyx 74-139 (`w2v_fast_sentence_sg_hs`), 159-246 (`w2v_fast_sentence_sg_neg`), 249-345 (`..._cbow_hs`), 348-466 (`..._cbow_neg`) and /repo/gensim/models/doc2vec_inner.pyx 36-223 (the dbow, dm and dmc passes), 285-412 (`train_document_dbow`), 415-557 (`train_document_dm`), 560-694 (`train_document_dm_concat`); /repo/gensim/models/doc2vec.py 585-649 (`infer_vector`). Simplifications: scalars are of an arbitrary type `F` with arbitrary operations, so rounding is allowed for. A matrix is a list of rows; all rows have the size of the layer and all row numbers are in range (the C code does not check them). Random numbers come from a state of type `S` with `draw`: the next negative word. The words of a document arrive as the row numbers that are in the vocabulary and were not down-sampled (see TrainJobs_Model, Downsample_Model), at most 10000. Reading a lock factor outside its array gives `junk`.
* `W2vTable_Model.v` — Model of the table of the logistic function: /repo/gensim/models/word2vec_inner.pyx 40-41 (sizes), 928-931 (`init`) and e.g. 117 and 230 (look-up), also in doc2vec_inner.pyx 52 and fasttext_inner.pyx. Simplifications: real numbers. `EXP_TABLE_SIZE / MAX_EXP / 2` divides compile-time integers: that is 83 if Cython reads the file as Python 2 (its default before version 3) and 250/3 otherwise; both are treated. The conversion to `int` cuts off the fraction; its argument is not negative.
* `HsScore_Model.v` — Model of `Word2Vec.score` for one sentence: /repo/gensim/models/word2vec_inner.pyx 689-794 (`score_sentence_sg`, `score_pair_sg_hs`), 796-906 (`score_sentence_cbow`, `score_pair_cbow_hs`). Simplifications: real numbers with the exact logistic function (its table is in W2vTable_Model). A sentence is the rows of its known words, at most 10000; `paths` gives the points and codes of a word. The local variable `inv_count` of `score_pair_cbow_hs` is not set when there are no other words: `unset` is its value then.
* `ScoreSched_Model.v` — Model of `Word2Vec.score` with its threads: /repo/gensim/models/word2vec.py 1691-1771, as a transition system. The main thread and the workers share two FIFO queues; `put` blocks on a full queue, `get` on an empty one, except that the main thread's `get` does not block before all jobs are pushed. Scoring one job is one step: its scores are written in order (distinct jobs write distinct elements). Scoring a sentence does not raise (see HsScore_Model). `total_sentences` is not negative; logging is left out. The sentences come from an iterator that does not raise.
* `Porter_Model.v` — Model of the Porter stemmer: /repo/gensim/parsing/porter.py. Strings are lists of code points, indexed as in Python: negative indices count from the end and an index out of range raises. `depth` is the number of nested calls of `_cons` that the interpreter allows; one more raises a RecursionError. `lower` is `str.lower`. Elif chains over suffixes are written as lists of (suffix, replacement), the outer elif chain over the letter `ch` as a list of (letter, rules); nothing else is changed.
* `LdaTrain_Model.v` — Model of training and using an LDA model on one machine: /repo/gensim/models/ldamodel.py 98-145 (`update_dir_prior`), 149-262 (`LdaState`), 619-720 (`inference`), 722-743 (`do_estep`), 834-1030 (`update`), 1031-1069 (`do_mstep`), 1149-1180 (`show_topics`), 1202-1213 (`get_topics`), 1316-1365 (`get_document_topics`), 1386-1400 (`get_term_topics`). Simplifications: real numbers. Arrays are functions of their indices; `K` topics, `V` terms. `edir n v` is the exponential of `dirichlet_expectation` of a vector with `n` elements (digamma is not modelled). Word ids are natural numbers; an id of `V` or more is an IndexError. `draw i` is the `i`-th vector of random gammas. Newton's step for the priors is a parameter. The distributed version is in LdaDispatch_Model; callbacks and logging are left out, except that computing the perplexity for the log draws random numbers. `seen` and `m_steps` are history that no step reads.
* `LdaMulti_Model.v` — Model of one pass of /repo/gensim/models/ldamulticore.py (`LdaMulticore.update` 187-316, `worker_e_step` 319-345): the master and its worker processes. A chunk is a list of documents. A state of the program has the chunks that are still to be read, the job queue, the chunks that workers are busy with, the results on their way to the result queue (`multiprocessing.Queue` hands an object over in a thread of its own, so `empty()` may still be true), the results that the master can see, the chunks merged into `other` since it was reset, and the counter `queue_size`. `m_steps` (the chunks of every M step) and `lost` (the chunks whose worker failed) are history that no step reads. What a worker computes from a chunk is in LdaTrain_Model; with which version of the model it does so is not modelled, nor is the evaluation of perplexity.
* `PoincareGeo_Model.v` — Model of the geometry of Poincaré embeddings: /repo/gensim/models/poincare.py 318-385 (`_loss_fn`, `_clip_vectors`), 545-600 (`_handle_duplicates`, `_update_vectors_batch`), 432-467 (the batch), 762-855 (`PoincareBatch`), 891-933 (`vector_distance`), 1032-1108 (`distance`, `similarity`). Simplifications: real numbers (no rounding, infinities or NaN; `arccosh` of a number below 1 and a division by zero have some value here, the theorems show that they do not happen inside the unit ball). A matrix is the list of its rows, and assigning to several rows (`vectors`indices` = ...`) goes from left to right. The arrays of a batch have one axis for the examples, which never mix: they are written here for one example. The gradients do not depend on autograd, which is only used for checking them.
* `PoincareVocab_Model.v` — Model of the vocabulary, the negative samples and the schedule of Poincaré training: /repo/gensim/models/poincare.py 148-170, 172-252 (`build_vocab`), 253-316 (negative samples), 432-467 and 506-543 (the batch), 602-700 (`train`), 1357-1405 (`NegativesBuffer`), with `set_vecattr` and `get_vecattr` of /repo/gensim/models/keyedvectors.py 274-350. Simplifications: random numbers are arguments: the initial vectors, the draws for the buffer (one list per refill), the outcome of `choice`, the shuffled indices. Node names are of any type with decidable equality. The fraction `relations / nodes < 0.01` is compared exactly (no rounding). Logging, timing and gradient checks are left out, but for the remainder by `print_every`.
* `PoincareQuery_Model.v` — Model of the queries and evaluations of Poincaré embeddings: /repo/gensim/models/poincare.py 935-1030 (`closest_child`, `closest_parent`, `descendants`, `ancestors`), 1110-1224 (`most_similar`, `distances`), 1226-1306 (`norm`, `difference_in_hierarchy`), 1408-1508 (`ReconstructionEvaluation`), 1511-1619 (`LinkPredictionEvaluation`), 1643-1680 (`score_function`), with `get_index` of /repo/gensim/models/keyedvectors.py 386-399. Simplifications: the numbers are rational (floats are), the distance of two vectors and the norm of a vector are any functions into them. Names are strings. A whole number in place of a vector is broadcast by numpy: `scalar k` stands for what the distance then takes as vector. The relations of the evaluations are given by the numbers of the nodes, sets as lists in their order of iteration; at least one node is not masked (numpy's sum over masked values only is masked itself).
* `Text_Model.v` — Model of the text cleaning functions: /repo/gensim/parsing/preprocessing.py 22-393 and /repo/gensim/utils.py 39-40 (`PAT_ALPHABETIC`, `RE_HTML_ENTITY`), 213-301 (`tokenize`, `simple_tokenize`, `simple_preprocess`), 1057-1128 (`safe_unichr`, `decode_htmlentities`). The patterns are modelled literally, by a matcher with Python's rules: a pattern is a sequence of character classes with a least and a greatest number of repetitions, each a group; a repetition takes as many characters as it can and gives them back one by one while the rest does not match; `sub` and `finditer` take the leftmost match and go on behind it. All patterns here match at least one character. Simplifications: texts are `str` already (`to_unicode` does nothing). `wordc` and `decimal` are \\w and \\d, `lower` is `str.lower`, `n2cp` is html.entities.name2codepoint; \\s is what `split` splits at. `int` reads ASCII digits, as decimal digits of other scripts are not modelled.
* `Lsi_Model.v` — Model of latent semantic indexing: /repo/gensim/models/lsimodel.py 80-105 (`clip_spectrum`), 153-318 (`Projection`), 446-525 (`LsiModel.add_documents`), 538-604 (`LsiModel.__getitem__`), 858-1016 (`stochastic_svd`); /repo/gensim/matutils.py 168-194 (`pad`), 1090-1131 (`qr_destroy`); /repo/gensim/models/lsi_dispatcher.py 167-215 and lsi_worker.py 117-181 (distributed training). Simplifications: real numbers (no rounding). A matrix is a function of its row and its column; its shape is kept beside it. A document is a column: the weight of each of the `m` terms. LAPACK is not modelled: what a QR or a singular value decomposition returns is an argument of the function that calls it, and `qr_of` / `svd_of` say what it promises. The random matrix of `stochastic_svd` is an argument. `sparsesvd`, logging, dtypes and memory layout are left out.
* `KvEval_Model.v` — Model of /repo/gensim/models/keyedvectors.py 1183-1438: `evaluate_word_analogies` and `evaluate_word_pairs`. Simplifications: keys are strings, one vector per key and row `i` belongs to [index_to_key`i`]. The similarity of row `j` to the mean of the unit rows b, c and minus a (`offset_score`) and the cosine of two rows (`cosine`) are parameters without NaN. A line of the file is its text, or `None` if the bytes do not decode (`utils.to_unicode` raises). `str.upper` and `float()` are parameters. `stats.pearsonr` and `stats.spearmanr` are not modelled except that `pearsonr` raises `ValueError` for fewer than two pairs; the two lists they are given are returned instead. Logging is left out.
* `KvSim_Model.v` — Model of the similarity queries of /repo/gensim/models/keyedvectors.py over the real numbers: 565-583 (`most_similar_to_given`, `closer_than`, `rank`), 946-1020 (`most_similar_cosmul`, the scores), 1022-1181 (`rank_by_centrality`, `doesnt_match`, `cosine_similarities`, `distances`, `distance`, `similarity`, `n_similarity`) and 1473-1501 (`relative_cosine_similarity`). Simplifications: a vector is a function giving its first `d` coordinates; keys are strings; float rounding is left out. The quotients numpy would compute as 0/0 are `None` in `distances` (NaN); elsewhere the vectors divided by their norms are required to be different from zero where it matters. Cached norms are up to date (C37 tells when).
* `Wmd_Model.v` — Model of /repo/gensim/models/keyedvectors.py 842-944 (`wmdistance`) over the real numbers. Simplifications: keys are strings, a vector is a function giving its first `d` coordinates, float rounding is left out, the vectors of the words used are required to be different from zero where it matters. The numpy matrix and the numpy vectors are functions on the indexes, of which the ones below `vocab_len` are used. `emd` of the C extension pyemd is a parameter.
* `AtMaps_Model.v` — Model of the author and document maps of the author-topic model: /repo/gensim/models/atmodel.py 102-155 (`construct_doc2author`, `construct_author2doc`), 340-374 (`extend_corpus`), 697-800 (`update`, up to the training loop), which documents and authors the loop uses (819-852, 464-470), 889-978 (`bound`, which authors it uses), 1035-1105 (`get_new_author_topics`). Simplifications: author names are strings, document ids natural numbers, the corpus is a list (`serialized=False`). A row of gamma is an abstract value; `draw i` is the `i`-th random row. `order` is the order in which a set of strings is iterated. Lists are values: that the model keeps the caller's lists and extends them in place is not modelled.
* `AtInfer_Model.v` — Model of the inference of the author-topic model: /repo/gensim/models/atmodel.py 377-396 (`compute_phinorm`), 398-538 (`inference`), 1107-1164 (`get_author_topics`). Simplifications: real numbers, arrays as functions of their indices, `K` topics and `V` terms, `edir` as in LdaTrain_Model. Authors are given by their rows; which rows a document has is in AtMaps_Model. `ndocs a` is [len(self.author2doc[self.id2author`a`])]. An id of `V` or more is an IndexError.
* `TextCorpus_Model.v` — Model of the corpora of plain texts: /repo/gensim/corpora/textcorpus.py 53-115 (`remove_stopwords`, `remove_short`, `lower_to_unicode`), 263-471 (`TextCorpus`), 473-621 (`TextDirectoryCorpus`), 623-683 (`walk`); with `file_or_filename` of /repo/gensim/utils.py 111-131. Simplifications: the outcomes of `randint` are an argument. A directory tree is a value that does not change. A path is the list of the names below the top directory. Whether a file name matches one of the two regular expressions is an argument. The text of a file is given decoded. Generators are modelled by what they yield and by what happens at their end; where the program can change something between two steps of a generator, the model says so.
* `Nmf_Model.v` — Model of online non-negative matrix factorization: /repo/gensim/models/nmf_pgd.pyx 18-61 (`solve_h`), /repo/gensim/models/nmf.py 213-233 (`get_topics`), 333-360 (`get_topic_terms`), 417-461 (`get_term_topics`), 463-510 (`get_document_topics`), 512-531 (`_setup`), 543-659 (`update`), 661-686 (`_solve_w`), 709-714 (`_transform`), 723-770 (`_solveproj`). Simplifications: real numbers (no rounding). A matrix is a function of its row and its column, as in Lsi_Model; a document is a column of `m` weights that are not negative. Numbers that are no number (a division of zero by zero) are kept apart: `None` in place of a number, `NaN` in place of the matrix W, which then consists of nothing else. Random permutations and the random start of W are arguments. The two ways of giving a corpus (a matrix, a stream of documents) are not told apart. Logging and the evaluation are left out.
* `Hdp_Model.v` — Model of the hierarchical Dirichlet process: /repo/gensim/models/hdpmodel.py 72-94 (`expect_log_sticks`), 97-140 (`lda_e_step`), 142-170 (`SuffStats`), 347-389 (`__init__`), 391-448 (`inference`, `__getitem__`), 450-517 (`update`, `update_finished`), 519-577 (`update_chunk`), 579-683 (`doc_e_step`), 685-747 (`update_lambda`, `optimal_ordering`, `update_expectations`), 787-797 (`get_topics`), 877-917 (`hdp_to_lda`, `suggested_lda_model`), 960-1060 (`HdpTopicFormatter`: order and number of topics); /repo/gensim/matutils.py 662-682 (`ret_log_normalize_vec`). Simplifications: real numbers (no rounding). Arrays are functions of their indices. The digamma function `psi` and the likelihood of a document `lik` are arbitrary functions. `order n f` is the result of `argsort(f, reverse=True)`, which is not determined for equal numbers. The logarithm of zero (minus infinity) is `None` in the list of discounts; if a number that is none appears (the difference of two infinities, or the logarithm of a negative number), the run ends with `NotANumber`. Random numbers and the clock are arguments. Word ids are natural numbers below `o_W`. Writing files and logging are left out.
* `Regex_Model.v` — A backtracking matcher with the rules of Python's `re`, for the patterns of /repo/gensim/corpora/wikicorpus.py 44-83 and /repo/gensim/scripts/segment_wiki.py 217-218. Alternatives are tried from left to right. A greedy repetition tries one round more before it stops, a lazy one stops first; a round that takes no character is not begun again. A group remembers what it took last. `sub`, `finditer` and `split` take the leftmost match and go on behind it, and assertions see the text in front of the match. No pattern here matches the empty text, so the rules for empty matches are left out: such a match counts as none.
* `Wiki_Model.v` — Model of the removal of wiki markup: /repo/gensim/corpora/wikicorpus.py 44-83 (the patterns), 153-181 (`find_interlinks`), 184-334 (`filter_wiki`, `remove_markup`, `remove_template`, `remove_file`) and 337-363 (`tokenize`). `wordc` and `decimal` are \\w and \\d, `lower` is `str.lower`, `n2cp` is html.entities.name2codepoint. Texts are `str` already (`to_unicode` does nothing).
* `WikiPages_Model.v` — Model of the reading of wiki dumps: /repo/gensim/corpora/wikicorpus.py 84-88 (`IGNORED_NAMESPACES`), 366-384 (`get_namespace`), 390-449 (`extract_pages`), 455-529 (`process_article`, `_process_article`), `WikiCorpus` 570-718, and /repo/gensim/scripts/segment_wiki.py 172-203 (`extract_page_xmls`), 206-259 (`segment`), 262-366 (`_WikiSectionsCorpus`); /repo/gensim/corpora/textcorpus.py 290-304 and 453-470 (`__iter__` and `__len__` as `WikiCorpus` inherits them). A dump is the parsed tree. `iterparse` gives the elements in the order of their end tags; `clear` empties each page after it was used, so an element that ends later sees the empty page. What is yielded before an exception is not modelled. The groups of articles come from the background reader (Chunkize_Model.v) and from `pool.imap` in order. `tostring` and `fromstring` of a page are inverse.
* `LogEntropy_Model.v` — Model of /repo/gensim/models/logentropy_model.py: `LogEntropyModel` 58-152, and /repo/gensim/models/normmodel.py: `NormModel` 15-99, over the reals. A corpus is what its first and its second iteration give: the same for a list, nothing the second time for a generator. `is_corpus` and `_apply` are those of Utils_Model.v and Tfidf_Model.v (`TransformedCorpus`: one document after the other).
* `Rp_Model.v` — Model of /repo/gensim/models/rpmodel.py: `RpModel` 48-165, over the reals (float32 rounding is not modelled, so `isfinite` always holds). The random draws (0 or 1) of `np.random.binomial` are an argument.
* `LdaSeq_Model.v` — Model of the dynamic topic model: /repo/gensim/models/ldaseqmodel.py 194-218 (`init_ldaseq_ss`), 221-309 (`fit_lda_seq`), 368-490 (`inferDTMseq`, `make_lda_seq_slice`, `fit_lda_seq_topics`), 536-583 (`print_topic`, `doc_topics`), 660-687 (`__getitem__`), 704-1243 (class `sslm`), 1245-1530 (class `LdaPost`), 1533-1645 (`f_obs`, `df_obs`). Simplifications: real numbers (no rounding); arrays are functions of their indices and fresh arrays are full of zeros. The digamma function `psi` and the logarithm of the gamma function `lgam` are arbitrary. scipy's `fmin_cg` is the argument `cg`: of the chain, the word, its counts, the totals and the matrix of derivatives it gives the new observations and what its last evaluation of the objective left in the rows of the means. Dividing by zero gives an infinity or nan: this is kept where it steers a loop (`change`), elsewhere the theorems ask for positive numbers. The corpus is a list, so that cutting it into chunks (`utils.grouper`, Utils_Model.v) changes nothing; it is not longer than `max_doc_len` allows. `lhoods`, which nothing reads, logging, the unused branches of the document influence model and the stationary LDA of the first step are left out.
* `Trans_Model.v` — Model of /repo/gensim/models/translation_matrix.py 109-163 (class `Space`), 221-356 (`TranslationMatrix.train`, `apply_transmat`, `translate`), and of what /repo/gensim/similarities/annoy.py 186-188 and /repo/gensim/similarities/nmslib.py 230-232 (`most_similar`) return. Simplifications: real numbers; a vector is a function of its coordinates, the dimensions `d1`, `d2` of the two languages are arguments. A `KeyedVectors` is the list of its keys, each once, with their vectors. Python's order of a set is the argument `order`, `np.linalg.lstsq` the argument `lstsq`, `np.argsort` (not stable) the argument `argsort`, the draws of `random_state.choice` the argument `draw`. A vector of zeros gives nan in the code: the theorems that need it exclude it. `BackMappingTranslationMatrix`, saving and warnings are left out.
* `LdaBound_Model.v` — Model of /repo/gensim/models/ldamodel.py 459-475 and 523-589 (priors), 806-833 (`log_perplexity`), 1065-1125 (`bound`), 1401-1508 (`diff`), with /repo/gensim/matutils.py 843-915 (`kullback_leibler`, `jensen_shannon` of dense arrays). Simplifications: as in LdaTrain_Model (real numbers, arrays are functions). The digamma function `psi` and the logarithm `lgam` of the gamma function are parameters. `diff` gets the distances of the topics and the sets of their words as functions; `order` is Python's order of a set.
* `FtUnpack_Model.v` — Model of /repo/gensim/models/fasttext.py 1201-1283 (`_pad_random`, `_unpack`). Simplifications: a matrix is the list of its rows; the rows that are drawn (or filled) are given.
* `DocIndex_Model.v` — Model of the in-memory indexes: /repo/gensim/interfaces.py 305-398 (`SimilarityABC.__getitem__`, `__iter__`), /repo/gensim/similarities/docsim.py 796-875 (`MatrixSimilarity`), 932-979 (`SoftCosineSimilarity`: the empty corpus only), 1032-1089 (`WmdSimilarity`), 1144-1228 (`SparseMatrixSimilarity`), with /repo/gensim/matutils.py 263-310 (`scipy2scipy_clipped`: the type of its argument), 403-428 (`sparse2full`). Simplifications: real numbers. Ids below zero are outside the model; an id beyond the number of features raises IndexError (for the sparse index scipy decides). The choice of the best similarities of a row, `clip`, is a parameter (see Matutils_Model). Arrays of one and two dimensions, sparse matrices and lists are kept apart, since the code treats them differently; the word mover's distance is a parameter that gives None for infinity.
* `Downloader_Model.v` — Model of /repo/gensim/downloader.py 189-225 (`_load_info`), 228-289 (`info`), 292-343 (`_get_checksum`, `_get_parts`), 346-409 (`_download`), 412-432 (`_get_filename`), 435-498 (`load` with return_path). Simplifications: the directory gensim-data exists and can be written; what a directory in it holds is given by file name. The network is a function of time (None: an error). JSON and MD5 are parameters. The temporary directory outside of gensim-data is not recorded. `shutil.move` between file systems copies file by file: `copies` gives what the directory holds in between. A world records what gensim-data held before each step, so that a process killed at any moment leaves one of these. The import of the downloaded module (500-503) is not modelled.
* `Callbacks_Model.v` — Model of the metrics of topic models: /repo/gensim/models/callbacks.py 129-132 (`Metric.__str__`), 477-492 (`Callback.set_model`), 515-568 (`on_epoch_end`), and their use in /repo/gensim/models/ldamodel.py 951-956, 958-1028 (`LdaModel.update`: which model the metrics see). Simplifications: a metric is its label, whether it compares with the previous model (DiffMetric, ConvergenceMetric), whether it is drawn (logger 'visdom'), whether its value has dimensions, and its value as a function of the model and the previous model. Visdom is installed; a window holds the values that are drawn. Logging to the shell is left out; one worker. `Queue.get` of an empty queue waits for ever; the model raises EOFErr there.
* `Intersect_Model.v` — Model of /repo/gensim/models/keyedvectors.py 1633-1691 (`intersect_word2vec_format`). Simplifications: of the keyed vectors only the string keys with their indexes, the rows and the lock factors are kept (get_index of a string is the dictionary's). Files and scalars are those of W2vFormat_Model; a header with a negative number is a ValueError. `None`: the call does not return (at the end of a binary file the loop reading a word goes on for ever). `self.wv` in the last line does not exist in KeyedVectors, so that a call that gets there raises AttributeError.
* `Predict_Model.v` — Model of /repo/gensim/models/word2vec.py 1773-1817 (`Word2Vec.predict_output_word`) over the real numbers. Simplifications: no float rounding or overflow of exp; keyed vectors are those of KvSim_Model. `contains` is `w in self.wv`: membership in the index for Word2Vec (keyedvectors.py 562-563), always true for FastText (fasttext.py 1018-1052). `best xs n` is `matutils.argsort(xs, topn=n, reverse=True)`. The attribute syn1neg exists iff negative sampling was set up.
* `LdaSave_Model.v` — Model of /repo/gensim/models/ldamodel.py 1533-1677 (`LdaModel.save`, `LdaModel.load`), /repo/gensim/utils.py 1310-1347 (`smart_extension`) and `os.path.splitext`. Simplifications: the file system is a table from names to pickled objects (`OBad`: a file that cannot be read); arrays stored in separate files belong to the object they are part of (SaveLoad_Model has the details), so `separately` has no effect here; an attribute is a value of the type `V` and `state`, `id2word` are kept apart; the elements of `ignore` are strings; loading a main file that does not hold a model is an error.
* `W2vCoh_Model.v` — Model of the coherence of topics by word vectors: /repo/gensim/topic_coherence/text_analysis.py 603-665 (`WordVectorsAccumulator`), 25-67 (the table of `_ids_to_words`), /repo/gensim/topic_coherence/indirect_confirmation_measure.py 89-115 (`word2vec_similarity`) and /repo/gensim/topic_coherence/direct_confirmation_measure.py 118-125 (`aggregate_segment_sims`), over the real numbers. Simplifications: the model is a plain KeyedVectors (KvSim_Model), for which `word in model` is membership in its index; ids are natural numbers and a single id is a list of one (the code wraps it); the mean of nothing (nan) is None; the values of keyword arguments are integers.
* `Upgrade_Model.v` — Model of how models saved by older versions are brought up to date when loaded: /repo/gensim/models/word2vec.py 1917-1953 (`Word2Vec._load_specials`), /repo/gensim/models/keyedvectors.py 239-272 (`_load_specials`, `_upconvert_old_vocab`), 274-329 (`allocate_vecattrs`, `set_vecattr`), 386-399 (`get_index`), 646-657 (the property `vocab`) and 1693-1713 (`_upconvert_old_d2vkv`). Simplifications: attributes are values of a type `V`; the values of one per-word attribute have one type, so that no allocation is refused; an old per-word object is its index and its attributes; the objects `vocabulary` and `trainables` of an old model are tables of their attributes (None: the model has no such object).
* `ShowTopics_Model.v` — Model of the listing of the words of topics: /repo/gensim/models/lsimodel.py 629-636 (`get_topics`), 662-667 (`show_topic`), 691-703 (`show_topics`, not formatted), /repo/gensim/models/ldamodel.py 1182-1200 (`show_topic`), 1202-1213 (`get_topics`), 1231-1234 (`get_topic_terms`), 1272-1286 (`top_topics`; nmf.py 401-415 is the same text), /repo/gensim/models/hdpmodel.py 1136-1148 (`show_topic`, not formatted) and 1166 (`show_topic_terms`). Simplifications: weights are exact rational numbers; the square root `sqrt` is an arbitrary function; dividing by a sum that is zero is left out (theorems about quotients assume that it is not). The matrix of topics is the list of its rows; a topic is a row with one weight per word id. `np_argsort` and `np_argpartition` are the functions of numpy that `matutils.argsort` calls. The mapping `id2word` is a dictionary from ids to words. The coherence scores of `top_topics` are an argument (CoherenceModel is modelled in Coherence_Model). Logging and formatting are left out.
* `D2vFormat_Model.v` — Model of writing the vectors of a Doc2Vec model in the format of word2vec: /repo/gensim/models/doc2vec.py 732-749 (`save_word2vec_format`) with /repo/gensim/models/keyedvectors.py 1531-1579 (arguments `total_vec`, `write_header`, `append`, `sort_attr`), and of the scripts /repo/gensim/scripts/glove2word2vec.py 85-89 (`get_glove_info`), 109-114 (`glove2word2vec`) and /repo/gensim/scripts/word2vec2tensor.py 68-76. Simplifications: those of W2vFormat_Model. A file is its contents, None if it does not exist. In the model of the document vectors `counts` stands for the attribute `doc_count`, by which they are sorted. If the vectors of a file cannot be collected, the file is left as it was (the code would leave an unfinished one). `s_str` is `str(x)` of a number.
* `SegmentJson_Model.v` — Model of the writing of segmented articles: /repo/gensim/scripts/segment_wiki.py 109-169 (`segment_and_write_all_articles`), with `json.dumps` of the standard library (ASCII only, separators ", " and ": ") for strings, `None`, lists and dictionaries. The articles are those of WikiPages_Model.v; the file is what was written when the stream of articles ended without an exception.
* `HashText_Model.v` — Model of the text form of a hash dictionary: /repo/gensim/corpora/hashdictionary.py 310-348 (`save_as_text`), 141-147 (`__len__`, `keys`), with the dictionary of HashDictionary_Model.v. The set [self`tokenid`] is sorted before it is used, so its order is of no importance.
* `Brown_Model.v` — Models of the readers of the Brown corpus: /repo/gensim/models/word2vec.py 1968-1990 (`BrownCorpus`) and /repo/gensim/models/doc2vec.py 1088-1123 (`TaggedBrownCorpus`). A directory is given by what `os.listdir` lists, in that order, each name with the bytes of the file or `None` for what is no file; decoding is strict UTF-8, line by line. `lower` is `str.lower`, `alpha` is `str.isalpha` of one character.
* `ShardFormat_Model.v` — Model of the forms in which a `ShardedCorpus` gives its rows: /repo/gensim/corpora/sharded_corpus.py 559-582 and 708-744 (`__getitem__`, `_getitem_format`, `_getitem_sparse2gensim`, `_getitem_dense2gensim`), 747-753 (`__iter__`), 428-450 (`resize_shards`), 495-538 (`_guess_n_features`) and 266-276 (the dimension of `init_shards`); which rows are taken is ShardedCorpus_Model.v. Shards are all of one kind, dense arrays or CSR matrices made from dense arrays (so a row stores its nonzero entries by increasing index). Files of dense arrays written for a corpus with `sparse_serialization` are read as such; CSR files for a corpus without it are not modelled.
* `W2vSession_Model.v` — Model of the calls that build and train a Word2Vec or Doc2Vec model: /repo/gensim/models/word2vec.py 363-433 (`__init__`), 476-485 (`build_vocab`), 1007-1062 (`train`), 1464-1477 (`_check_corpus_sanity`), 1501-1517 (`_check_training_sanity`), 819-850 (`prepare_weights`), keyedvectors.py 1946-1955 (`prep_vectors`, number of rows), doc2vec.py 275-303 (`__init__`) and 490-512 (`train`). Which words are kept is left open (`new_vocab`; W2vVocab_Model.v). Training on the sentences of an epoch is the event that they are read (TrainJobs_Model.v); callbacks are told apart by their number and change nothing; numbers are rationals.
* `Indexers_Model.v` — Model of the approximate indexers: /repo/gensim/similarities/annoy.py 70-85 (`__init__`), 104-107 (`save`), 137-152 (`load`), 155-167 (`_build_from_model`), 186-189 (`most_similar`) and /repo/gensim/similarities/nmslib.py 101-142 (`__init__`), 159-163 (`save`), 176-186 (`load`), 188-210 (building), 228-232 (`most_similar`). The libraries are functions from what an index was made of to its answers; a written index file has all of that except the parameters for queries of nmslib, which belong to an index in memory. Files are the two files of a path; vectors are abstract, `normed` is the unit vector of one.
* `WordEmbIndex_Model.v` — Model of gensim/similarities/termsim.py 102-140 (`WordEmbeddingSimilarityIndex`) and 143-167 (`_shortest_uint_dtype`). The keyed vectors are those of KeyedVectors_Model, so vectors, norms and scores are arbitrary; raising to the exponent is an arbitrary function on rationals (rounding and NaN are not modelled). The generator is modelled as the list of what it yields when it is run to the end.
* `SeqViews_Model.v` — Model of the views of a dynamic topic model: gensim/models/ldaseqmodel.py 492-514 (`print_topic_times`), 516-534 (`print_topics`), 536-562 (`print_topic`), 564-583 (`doc_topics`), 585-633 (`dtm_vis`) and 635-658 (`dtm_coherence`). Simplifications: numbers are rationals; the chains hold the exponentials of `e_log_prob.T`, one row per time slice; sums are exact, so their order does not matter.
* `CohWords_Model.v` — Model of gensim/models/coherencemodel.py 217-257 (`CoherenceModel.for_models`) and 259-286 (`top_topics_as_word_lists`). The dictionary is that of Dictionary_Model, the rest of the construction that of CohModel_Model. A model is what its `get_topics` gives: the weights of all words, one list per topic.
* `HdpEval_Model.v` — Model of gensim/models/hdpmodel.py 919-953 (`evaluate_test_corpus`), 345-389 (`__init__`: the output directory) and 851-875 (`save_options`), over the states of Hdp_Model. Simplifications: real numbers. The likelihood of a document is an arbitrary function `lik` of the document and the topics (its value is that of lda_e_step, 135-140). The scores of documents that are only logged are left out (they are numbers, or infinite with a warning). The lines of the options file are their texts; a file opened for bytes takes bytes only.
* `LexEval_Model.v` — Model of gensim/models/poincare.py 1625-1642 (`LexicalEntailmentEvaluation.__init__`) and 1728-1758 (`evaluate_spearman`), over `score_function` of PoincareQuery_Model, and of gensim/corpora/csvcorpus.py 45-57 (`CsvCorpus.__init__`). Simplifications: the rows of a table are given split into fields. The reader of rows (`csv.DictReader`) is modelled as documented: the first row has the names; empty rows are left out; a name given twice means the last column; fields that are missing are None. `parse` reads a number.
* `NmfShow_Model.v` — Model of gensim/models/nmf.py 264-303 (`show_topics`, not formatted), 323-331 (`show_topic`) and 351-360 (`get_topic_terms`), with 226-233 (`get_topics`). Simplifications: weights are rational numbers; the matrix is the list of its topics (its columns), all over the same words. Dividing by a sum that is zero is left out (theorems assume that it is not). `chosen_topics` of LdaTrain_Model is the same text as 275-283.
* `SharedVocab_Model.v` — Model of models that share a vocabulary: gensim/models/word2vec.py 1840-1846 and doc2vec.py 356-364 (`reset_from`, words), 618-640 and 663-686 (`prepare_vocab`: which objects are made anew and which are changed), 831-858 (`init_weights`, `update_weights`), keyedvectors.py 274-306 (`allocate_vecattrs`), 308-330 (`set_vecattr`), 352-362 (`resize_vectors`) and 1944-1955 (`prep_vectors`). Objects are on a heap and known by their number. The two maps of a vocabulary (`index_to_key`, `key_to_index`) are always made, handed on and changed together and are one object here; the object `expandos` has the attribute 'count' only. Simplifications: words are kept by their count alone and not sorted (`sorted_vocab` 0); a row of weights is an abstract value; training sets rows.
* `Dmlcz_Model.v` — Model of gensim/examples/dmlcz: sources.py 94-121 (`parseDmlMeta`), 123-127 (`idFromDir`), 215-234 (`DmlCzSource.getContent`); dmlcorpus.py 160-176 (`saveDictionary`, `loadDictionary`); gensim_xml.py 57-69 (`generateSimilar`: the articles listed for one document). Simplifications: files are read with '\n' as the only end of line; the size of a file is its number of characters; `saveDictionary` is given the pairs it writes (the attribute it takes them from is of an older version of dictionaries).
* `Space_Model.v` — Model of the sizes of vocabulary that topic models take: gensim/models/ldamodel.py 427-443, atmodel.py 226-242, lsimodel.py 399-409, nmf.py 196-199, hdpmodel.py 352, ldaseqmodel.py 124-137, rpmodel.py 83-90, with the mapping made by utils.py 800-823 (`dict_from_corpus`) and 736-800 (`FakeDict`). A mapping given is a dict or a Dictionary, known by its ids, or a FakeDict. Simplification: the words do not matter.
* `IndexFiles_Model.v` — Model of the files of similarity indexes: gensim/similarities/docsim.py 416-433 (`shardid2filename`), 435-462 (`close_shard`), 464-476 (`reopen_shard`), 711-749 (`save`, after the open shard is closed), 751-756 (`destroy`). Several indexes share a file system. An index is known by its prefix and by the contents its shards should have; whether a shard can be read again is what is asked. Simplifications: a shard is one file; patterns of `glob` have no special characters in them and every file is in the directory of the prefix it begins with (a star does not match a slash); an index is not used after `destroy`, as documented.
* `Arxmliv_Model.v` — Model of gensim/examples/dmlcz/sources.py 249-271 (`ArxmlivContentHandler`), 337-348 (`ArxmlivSource.tokenize`), 350-354 (`normalizeWord`). Simplifications: the parser is the sequence of events it hands over; `encode('utf8')` is the identity on words (bytes that stand for a word are `Word`, strings are `Math`); `repr` is how bytes are shown by `'%s'`.
* `LsiDispatch_Model.v` — Model of distributed latent semantic indexing: gensim/models/lsi_dispatcher.py 124-147 (`initialize`), 160-177 (`getjob`), 179-191 (`putjob`), 193-219 (`getstate`), 223-231 (`reset`), 233-254 (`jobdone`); lsi_worker.py 86-106 (`initialize`), 110-135 (`requestjob`), 138-151 (`processjob`), 155-167 (`getstate`), 171-175 (`reset`); lsimodel.py 486-521 (the order in which `add_documents` calls them). What a worker has learned is the list of the jobs it was given, in the order it processed them. One-way calls are messages that arrive at any time later. A worker runs any number of loops of `requestjob` at a time. Simplifications: the states of the workers are taken at once (no job is left by then); polling an empty queue changes nothing; workers do not crash; the bound of the queue only delays `putjob`.
* `MetricParams_Model.v` — Model of the parameters of metrics: gensim/models/callbacks.py 134-144 (`Metric.set_parameters`), 218-226 and 249-259 (`CoherenceMetric`), 281-284 and 304-307 (`PerplexityMetric`), 340-348 and 369-374 (`DiffMetric`), 407-415 and 437-442 (`ConvergenceMetric`). A metric is its attributes. Simplifications: what is computed from the attributes a metric reads is an argument, `compute`.
* `DmlFind_Model.v` — Model of gensim/examples/dmlcz/sources.py: 129-152 (`DmlSource.isArticle`, `findArticles`), 154-160 (`getContent`), 191-234 (`DmlCzSource`: `idFromDir`, `isArticle`, `getContent`), 295-328 (`ArxmlivSource`: `idFromDir`, `isArticle`, `findArticles`, `getContent`); with `id_from_dir`, `path_join` and `dmlcz_content` of Dmlcz_Model. Simplifications: a directory tree is a value that does not change, without symbolic links, and every directory can be listed; the order of the subdirectories is that of `os.walk`; `os.path.normpath` is the identity, which it is on what `os.walk` makes of a normalized directory other than '.'; a failure of the generator takes the articles before it along; `getContent` is given articles whose texts are files.

## Properties and theorems

| Id | Title | Status | File | Theorems |
| --- | --- | --- | --- | --- |
| C01 | Dictionary ids are always the dense range 0..n-1, one per token | proved | `Dictionary_Properties` | `dictionary_ids_dense`, `dictionary_gap_update_refuted` |
| C02 | Dictionary corpus statistics are exact | proved | `Dictionary_Properties` | `dictionary_statistics_exact` |
| C03 | doc2bow output is the exact sorted bag of words and read-only mode changes nothing | proved | `Dictionary_Properties` | `doc2bow_exact`, `doc2bow_readonly_exact` |
| C04 | Dictionary ids are stable while growing | proved | `Dictionary_Properties` | `dictionary_growth_stable`, `dictionary_add_documents_stable`, `dictionary_prune_stability_refuted` |
| C05 | filter_extremes keeps exactly the documented tokens | proved | `Dictionary_Properties` | `filter_extremes_exact`, `filter_extremes_keep_tokens_refuted` |
| C06 | Filtering and compactify renumber without reordering and move statistics with the token | proved | `Dictionary_Properties` | `filter_tokens_exact`, `compactify_exact`, `filter_n_most_frequent_exact`, `compactify_from_corpus_refuted` |
| C07 | Dictionary text save/load round-trips | proved | `Dictionary_Properties` | `dictionary_text_roundtrip`, `reachable_consistent`, `dictionary_text_tab_refuted` |
| C08 | Reverse lookup is the inverse of token2id | proved | `Dictionary_Properties` | `reverse_lookup_correct`, `patch_two_tokens_refuted` |
| C09 | merge_with returns a transformation consistent with the merged dictionary | proved | `Dictionary_Properties` | `merge_with_exact`, `merge_with_cfs_refuted` |
| C10 | HashDictionary vectors are total, in range and deterministic; but never read-only | proved | `HashDictionary_Properties` | `hashdict_doc2bow_exact`, `hashdict_doc2bow_deterministic`, `hashdict_counters_exact`, `hashdict_readonly_refuted` |
| C11 | Matrix Market corpora round-trip, including empty documents | proved | `MmCorpus_Properties` | `mm_write_succeeds`, `mm_roundtrip`, `mm_doc_written_exact`, `mm_big_id_refuted`, `mm_short_id2word_refuted`, `mm_transposed` |
| C12 | Random access into a serialized MmCorpus equals iteration | proved | `MmCorpus_Properties` | `mm_random_access` |
| C13 | SVMlight corpora round-trip and are randomly accessible | proved | `LineCorpora_Properties` | `svm_roundtrip`, `svm_save_total`, `svm_comment_ignored`, `svm_last_char_refuted`, `svm_label_hash_refuted`, `svm_qid_ignored` |
| C14 | Blei LDA-C corpora round-trip when no weight is near zero, and are unreadable otherwise | proved | `LineCorpora_Properties` | `blei_roundtrip`, `blei_filtered_unreadable`, `blei_vocab_roundtrip`, `blei_small_counts_exact`, `blei_large_count_refuted`, `blei_zero_refuted`, `blei_vocab_complete`, `blei_vocab_complete_ids` |
| C15 | GibbsLda (low) corpora round-trip | proved | `LowMallet_Properties`, `LowPlain_Properties` | `low_save_total`, `low_roundtrip`, `low_roundtrip_exact`, `low_read_without_vocab`, `low_no_id2word_refuted`, `low_duplicate_word_refuted`, `low_plain_roundtrip`, `low_plain_negative` |
| C16 | Mallet corpora round-trip, with metadata | proved | `LowMallet_Properties`, `LowPlain_Properties` | `mallet_roundtrip`, `mallet_roundtrip_meta`, `mallet_metadata_without_vocab_fails`, `mallet_docid_space_refuted`, `mallet_plain_roundtrip` |
| C17 | UCI bag-of-words corpora round-trip | proved | `Uci_Properties` | `uci_save_total`, `uci_roundtrip`, `uci_vocab_roundtrip`, `uci_dictionary`, `uci_dictionary_repeated_id_refuted`, `uci_header_overflow_refuted`, `uci_vocab_complete` |
| C18 | Serial chunking partitions the stream | proved | `Utils_Properties` | `chunkize_serial_exact`, `chunkize_serial_zero_refuted` |
| C19 | Background chunking is equivalent to serial chunking under every schedule | proved | `Chunkize_Properties` | `chunkize_background_safe`, `chunkize_background_progress`, `chunkize_background_terminates`, `chunkize_background_complete`, `chunkize_background_raising_refuted` |
| C20 | Corpus views: repeat, repeat-n, clip | proved | `Utils_Properties` | `repeat_corpus_exact`, `repeat_corpus_empty_refuted`, `repeat_corpus_ntimes_exact`, `clipped_corpus_exact`, `clipped_corpus_none_len_refuted` |
| C21 | SlicedCorpus yields the slice; its length agrees with iteration exactly for a characterised set of slices | proved | `Utils_Properties` | `sliced_iter_exact`, `sliced_len_iff`, `sliced_len_forward`, `sliced_len_negative_step_refuted`, `sliced_len_empty_slice_refuted`, `sliced_stream_exact`, `sliced_stream_len_refuted`, `sliced_pylist_refuted` |
| C22 | Vocabulary pruning removes exactly the rare words | proved | `Utils_Properties` | `prune_vocab_exact`, `prune_vocab_le_refuted`, `trim_vocab_exact`, `trim_vocab_zero_refuted`, `merge_counts_exact` |
| C23 | Sliding windows enumerate every window once | proved | `Utils_Properties` | `iter_windows_exact`, `iter_windows_num_exact` |
| C24 | corpus2csc builds the same matrix on both code paths | proved | `Matutils_Properties` | `corpus2csc_slow_roundtrip`, `corpus2csc_paths_agree`, `corpus2csc_wrong_counts_raise`, `corpus2csc_entries`, `sparse2corpus_minus_one_empty`, `sparse2corpus_negative_index_refuted` |
| C25 | Dense/sparse vector conversions round-trip | proved | `Matutils_Properties` | `sparse2full_exact`, `sparse2full_out_of_range`, `full2sparse_exact`, `sparse_dense_sparse_roundtrip`, `dense_sparse_dense_roundtrip`, `corpus2dense_roundtrip`, `corpus2dense_num_docs_checked`, `sparse2full_negative_id_refuted` |
| C26 | full2sparse_clipped and argsort return a true top-n | proved | `Matutils_Properties`, `MatClip_Properties` | `argsort_is_topn`, `full2sparse_clipped_is_topn`, `numpy_contracts_satisfiable`, `scipy_clipped_row_is_topn`, `scipy_clipped_matrix_is_topn`, `scipy_clipped_empty_refuted`, `scipy_clipped_width_refuted` |
| C27 | Cosine similarity and Hellinger distance are bounded and symmetric | proved | `MatReal_Properties` | `cossim_bounded`, `cossim_symmetric`, `cossim_self_one`, `cossim_error_iff`, `cossim_scale_invariant`, `hellinger_symmetric`, `hellinger_range`, `hellinger_zero_iff`, `hellinger_triangle`, `hellinger_dense_range`, `unitvec_bow_l2`, `unitvec_bow_l1`, `unitvec_bow_zero`, `unitvec_bow_idempotent`, `unitvec_dense_norm`, `unitvec_zero_refuted`, `unitvec_csr_argument_refuted`, `unitvec_unique_formats_refuted` |
| C28 | Jaccard of identical bags is not zero | proved | `Matutils_Properties` | `jaccard_bow_range`, `jaccard_bow_self`, `jaccard_bow_symmetric`, `jaccard_bow_zero_division`, `jaccard_sets_metric_facts`, `jaccard_distance_metric_facts` |
| C29 | ShardedCorpus retrieval equals the original documents | proved | `ShardedCorpus_Properties` | `sharded_int`, `sharded_int_out_of_range`, `sharded_list`, `sharded_list_fails`, `sharded_slice`, `sharded_slice_outside`, `sharded_iter`, `sharded_build`, `sharded_step_refuted`, `sharded_empty_list_refuted` |
| C30 | Resizing shards preserves the in-memory corpus but not the stored one | proved | `ShardedCorpus_Properties` | `sharded_resize`, `sharded_reopen_after_resize_refuted`, `sharded_clone_shardsize_refuted`, `sharded_negative_resize_refuted` |
| C31 | The sharded similarity index is a faithful growing sequence | proved | `Docsim_Properties` | `sim_len`, `sim_vector_by_id`, `sim_vector_by_id_range`, `sim_add_total`, `sim_query_all`, `sim_shards`, `sim_zero_weight_refuted`, `sim_abandoned_iteration_refuted`, `sim_stale_save_refuted`, `sim_empty_refuted` |
| C32 | num_best over shards is a true global top-k | proved | `Docsim_Properties` | `sim_best_topk`, `sim_best_corpus` |
| C33 | Phrase detection only joins adjacent tokens | proved | `Phrases_Properties` | `phrases_reading`, `phrases_cover`, `frozen_cover`, `phrases_empty_token_refuted` |
| C34 | Phrases vocabulary counts are exact without pruning and lower bounds with it | proved | `Phrases_Properties` | `learn_vocab_counts`, `learn_vocab_exact`, `phrases_counts_upper`, `phrases_counts_exact` |
| C35 | Frozen phrase models behave like the model they were exported from | proved | `Phrases_Properties` | `freeze_total`, `freeze_same`, `freeze_default_refuted`, `live_repeat_refuted`, `freeze_nan_refuted`, `freeze_delimiter_refuted` |
| C36 | KeyedVectors keys and vectors stay aligned | proved | `KeyedVectors_Properties` | `kv_lookup`, `kv_aligned`, `add_vector_index`, `kv_batch_duplicate_refuted`, `kv_slot_duplicate_refuted`, `add_vector_index_refuted`, `kv_int_key_refuted`, `add_vectors_extras_fails`, `add_vectors_extras_refuted`, `add_vectors_short_refuted` |
| C37 | Cached vector norms match the vectors only if no vector changed since they were computed | proved | `KeyedVectors_Properties`, `KvReal_Properties` | `kv_norm_fresh`, `kv_norm_unit`, `kv_norm_stale_refuted` |
| C38 | most_similar excludes the query and is a true top-n | proved | `KeyedVectors_Properties` | `most_similar_top`, `most_similar_excludes`, `most_similar_edges`, `most_similar_excludes_refuted`, `most_similar_stale_refuted` |
| C39 | word2vec text format round-trips | proved | `W2vFormat_Properties` | `w2v_text_roundtrip`, `w2v_text_no_header`, `load_text_file`, `w2v_short_line_refuted`, `w2v_space_key_refuted`, `w2v_int_keys_refuted`, `w2v_limit_zero_refuted`, `w2v_free_slot_refuted` |
| C40 | word2vec binary loading does not depend on the read-buffer size | proved | `W2vFormat_Properties` | `w2v_binary_roundtrip`, `load_binary_file`, `w2v_binary_chunk_refuted` |
| C41 | Huffman codes form a complete prefix code favouring frequent words | proved | `Huffman_Properties` | `huffman_total`, `huffman_codes`, `huffman_frequent`, `huffman_points`, `sorted_heap_ok` |
| C42 | Training job batches partition the corpus | proved | `TrainJobs_Properties` | `jobs_greedy`, `jobs_alpha`, `jobs_alpha_decreasing`, `alpha_epochs`, `alpha_epochs_refuted`, `alpha_rising_refuted`, `end_alpha_zero_refuted`, `no_totals_refuted`, `empty_job_refuted` |
| C43 | Every training job is processed exactly once under every schedule | proved | `TrainSched_Properties` | `epoch_complete`, `epoch_progresses`, `epoch_terminates`, `epoch_can_end`, `epoch_totals`, `bounds_ok`, `epoch_failing_never_ends`, `epoch_raising_never_ends`, `no_workers_refuted` |
| C44 | Vocabulary selection respects min_count and max_final_vocab | proved | `W2vVocab_Properties` | `scan_vocab_counts`, `max_final_vocab_ok`, `max_final_vocab_kept`, `w2v_first`, `max_final_ties_refuted`, `max_final_rule_refuted` |
| C45 | The negative-sampling table is a valid cumulative distribution | proved | `NegSampling_Properties` | `cum_table_ok`, `cum_table_fair`, `bisect_left_ok`, `draw_ok`, `draw_counts`, `draw_proportional_refuted` |
| C46 | Line and text8 sentence readers lose no tokens | proved | `Sentences_Properties` | `text8_tokens`, `text8_characters`, `text8_pieces`, `line_sentence_ok`, `line_sentence_tokens`, `line_sentence_bad`, `saved_sentences_ok`, `saved_sentences_roundtrip`, `saved_empty_refuted`, `path_order`, `path_sentences_ok`, `text8_merge_refuted`, `text8_long_refuted`, `zero_length_refuted`, `subdirectory_refuted`, `decode_strict` |
| C47 | fastText .bin files round-trip | proved | `FtBin_Properties` | `load_save`, `facebook_round_trip`, `save_succeeds`, `no_trailing_bytes`, `truncated_never_loads`, `truncated_word_loops`, `utf8_coding`, `batches_do_not_matter`, `both_layers_refuted`, `no_layer_refuted`, `null_word_refuted`, `utf16_refuted`, `zero_count_refuted`, `facebook_layout`, `old_format_layout` |
| C48 | Distributed LDA merges every job exactly once | proved | `LdaDispatch_Properties` | `getstate_exactly_once`, `wait_over_all_done`, `jobs_conserved`, `failed_job_never_returned`, `failed_job_hangs`, `getstate_returns`, `putjob_returns`, `reset_discipline`, `update_keeps_discipline`, `abandoned_epoch_refuted` |
| C49 | Sparse term similarity matrices keep their promised structure | proved | `TermSim_Properties`, `SoftCosine_Properties` | `termsim_total`, `termsim_diagonal`, `termsim_symmetric`, `termsim_limit`, `termsim_dominant`, `termsim_answered`, `termsim_maximal`, `termsim_exact`, `uniform_good`, `termsim_positive`, `termsim_float16_fails`, `termsim_float16_refuted`, `termsim_missing_idf_refuted`, `termsim_missing_idf_key_refuted`, `termsim_self_refuted` |
| C50 | Levenshtein similarity thresholding is exact below 1; most_similar is the exact ranking; range and threshold claims are false | proved | `Levenshtein_Properties` | `lev_least`, `lev_metric`, `levdist_bounded`, `levsim_exact`, `levsim_range`, `lev_most_similar_ok`, `levsim_bound_refuted`, `levsim_threshold_refuted`, `levsim_zero_refuted`, `levsim_empty_refuted` |
| C51 | TF-IDF from a Dictionary equals TF-IDF from the corpus | proved | `Tfidf_Properties` | `tfidf_corpus_statistics`, `tfidf_dfs_agree`, `tfidf_same`, `tfidf_documents_same`, `dictionary_describes`, `filtered_describes`, `tfidf_duplicates_refuted`, `filtered_pivot_refuted`, `tfidf_b_corpus_refuted` |
| C52 | Saving leaves the live object intact and loading restores it | proved | `SaveLoad_Properties` | `save_intact`, `save_success_intact`, `save_flat_intact`, `save_only_loses`, `save_load_roundtrip`, `save_load_all`, `nested_failure_refuted`, `outer_failure_refuted`, `cycle_refuted`, `shared_refuted`, `separately_refuted`, `scalar_array_refuted`, `stale_refuted`, `mmap_compressed` |
| C53 | Patching one special token keeps a dense one-to-one id map | proved | `Dictionary_Properties` | `patch_one_token`, `patch_statistics_refuted`, `patch_stale_cache_refuted` |
| C54 | HashDictionary debug tables are exact, agree with each other, and filter_extremes keeps the right words | proved | `HashDictionary_Properties` | `hashdict_debug_exact`, `hashdict_tables_agree`, `hashdict_filter_extremes_exact`, `hashdict_filter_bucket_dfs_refuted` |
| C55 | Small corpus helpers: get_max_id, FakeDict, flatten, is_corpus | proved | `Utils_Properties` | `get_max_id_exact`, `dict_from_corpus_covers`, `fakedict_lookups_agree`, `fakedict_keys_refuted`, `flatten_exact`, `is_corpus_preserves_stream` |
| C56 | Divergences size bags by entry count, not by largest id | proved | `Matutils_Properties` | `convert_vec_small_ids`, `convert_vec_large_id_fails`, `convert_vec_refuted` |
| C57 | Loading a saved phrase detector | proved | `Phrases_Properties` | `load_frozen_same`, `load_frozen_old`, `load_connectors_refuted`, `load_tuple_keys_refuted` |
| C58 | Default scoring never detects a rare phrase | proved | `Phrases_Properties` | `default_phrase_frequent` |
| C59 | NPMI scores are defined and lie in [-1, 1] | proved | `PhrasesNpmi` | `npmi_in_range` |
| C60 | Sorting by frequency keeps each key's vector and count | proved | `KeyedVectors_Properties2` | `kv_sort`, `kv_sort_lost_refuted`, `kv_sort_untidy_refuted`, `kv_sort_norms_refuted` |
| C61 | Word2vec-format files: what loading an arbitrary file keeps, and vocabulary files | proved | `W2vFormat_Properties` | `load_text_file`, `load_binary_file`, `w2v_vocab_roundtrip`, `w2v_resave_refuted` |
| C62 | Vocabulary histories: extending keeps rows, counts and vectors; rebuilding does not start over | proved | `W2vVocab_Properties` | `w2v_update`, `w2v_history`, `w2v_update_empty`, `w2v_rebuild_more_refuted`, `w2v_rebuild_same_refuted`, `w2v_rebuild_fewer_refuted`, `w2v_update_null_refuted`, `w2v_dry_run_refuted`, `w2v_min_count_zero`, `vocab_report` |
| C63 | Downsampling probabilities are monotone, exact to 2^-32, and the count threshold is not what the comment says | proved | `Downsample_Properties` | `downsampled_iff`, `probability_decreasing`, `sample_int_ok`, `no_sampling`, `fraction_sampling`, `count_sampling_lenient`, `count_sampling_refuted`, `count_sampling_intended` |
| C64 | The training random number generator has full period | proved | `NegSampling_Properties` | `lcg_period`, `lcg_range`, `lcg_distinct` |
| C65 | Batch preparation keeps words and sentence borders; window pairs are exact; buffer overflow beyond the default batch size | proved | `TrainJobs_Properties` | `prepare_batch_ok`, `prepare_batch_all`, `jobs_prepared`, `batch_pairs_ok`, `batch_pairs_once`, `prepared_pairs_once`, `batch_overflow_refuted` |
| C66 | The tf-idf transform: which terms survive, with which weight, and which settings break | proved | `Tfidf_Properties` | `tfidf_default_transform`, `df2idf_facts`, `tfidf_common_dropped`, `smart_idf`, `resolve_weights_exact`, `pivoted_length`, `tfidf_b_unknown_refuted`, `tfidf_a_empty_refuted`, `tfidf_zero_frequency_refuted`, `tfidf_identity_pivot_refuted`, `tfidf_empty_dictionary_refuted`, `tfidf_corpus_eps_refuted`, `smart_tf` |
| C67 | The soft cosine: one value, three ways to compute it | proved | `SoftCosine_Properties` | `inner_vectors_full`, `soft_vectors`, `soft_corpora`, `soft_vector_corpus`, `soft_cauchy_schwarz`, `soft_cosine_range`, `maintain_length`, `no_cancellation`, `nonnegative_accepted`, `soft_cosine_corpus_refuted`, `cancellation_refuted`, `not_dominant_refuted`, `duplicates_refuted`, `soft_empty` |
| C68 | fastText n-grams and hashes | proved | `FtNgrams_Properties` | `compute_ngrams_bytes_places`, `compute_ngrams_places`, `ngrams_same`, `ft_hash_fnv`, `ngram_hashes`, `ft_hash_not_fnv_refuted`, `ngrams_single_refuted`, `ngrams_surrogate_refuted` |
| C69 | fastText word vectors are means and survive saving | proved | `FtVectors_Properties` | `ft_step_coherent`, `ft_history_coherent`, `ft_known_word`, `ft_unknown_word`, `ft_save_load`, `ft_add_vectors_ignored`, `ft_add_vector_refuted`, `ft_normalized_save_refuted`, `ft_sort_refuted`, `ft_contains_refuted` |
| C70 | Training from a corpus_file: which words are trained on | proved | `CorpusFile_Properties` | `cython_iter_ok`, `cython_iter_line_sentence`, `cython_iter_unicode_refuted`, `cython_iter_ascii_refuted`, `next_batch_spec`, `epoch_in_order`, `epoch_one_worker`, `epoch_no_overflow`, `epoch_words`, `epoch_loses_words`, `long_line_lost`, `sentence_idx_overflow_refuted`, `workers_overlap_refuted`, `workers_cut_word_refuted` |
| C71 | Doc2Vec training from a corpus_file: documents and tags | proved | `DocFile_Properties` | `offsets_ok`, `offsets_empty_refuted`, `docs_some`, `docs_in_order`, `docs_own_tags`, `docs_one_worker`, `blank_line_refuted`, `workers_gap_refuted`, `workers_twice_refuted`, `empty_file_refuted`, `dmc_tags`, `dmc_wrong_tag_refuted`, `dmc_update_refuted` |
| C72 | Word and pair counts for topic coherence | proved | `CohAccum_Properties` | `accumulate_seen`, `accumulate_below`, `accumulate_exact`, `accumulate_short`, `repeated_word_refuted`, `num_docs_relevant_refuted`, `accumulate_twice_refuted` |
| C73 | Parallel and inverted-index accumulators agree with the serial counts | proved | `CohPar_Properties` | `parallel_exact`, `parallel_progress`, `parallel_finite`, `parallel_crash_refuted`, `parallel_hang_refuted`, `corpus_exact`, `inverted_index_exact`, `inverted_index_fails`, `worker_replies` |
| C74 | Segmentation and the u_mass coherence | proved | `CohUMass_Properties` | `s_one_pre_pairs`, `s_one_one_pairs`, `u_mass_exact`, `u_mass_short`, `u_mass_bag`, `u_mass_range`, `u_mass_nonpositive_refuted`, `u_mass_unseen_word_refuted` |
| C75 | Log-ratio and cosine confirmation measures | proved | `CohNpmi_Properties`, `CohCosine_Properties` | `log_ratio_exact`, `log_ratio_unseen`, `npmi_range`, `npmi_above_one_refuted`, `npmi_always_together_refuted`, `cosine_exact`, `cosine_range` |
| C76 | CoherenceModel's cached accumulator never changes a value | proved | `CohModel_Properties` | `cache_exact`, `compare_exact`, `for_topics_exact`, `raised_topn_refuted`, `topics_none_refuted`, `truncation_refuted`, `topics_replaced_refuted`, `short_topics_refuted`, `restore_refuted`, `topn_grid_steps` |
| C77 | Doc2Vec gives every usable tag its own vector slot | proved | `DocTags_Properties` | `scan_tags_exact`, `tags_built`, `tags_updated`, `from_freq_no_tags`, `scan_docs_counts`, `update_tags_refuted`, `update_takes_over_refuted`, `stale_tag_refuted`, `stale_tag_outside_refuted`, `rebuild_fewer_tags_refuted`, `unused_integer_refuted`, `doc_count_twice_refuted` |
| C78 | Training on a document and inferring a vector change only what they may | proved | `DocTrain_Properties` | `dbow_touches`, `dm_touches`, `concat_touches`, `locked_tag`, `locked_word`, `infer_untouched`, `infer_concat_tags`, `infer_alpha_linear`, `no_words_nothing`, `dm_word_lock_refuted`, `dm_word_lock_outside_refuted`, `infer_zero_alpha_refuted` |
| C79 | A training step climbs the log-likelihood of its outputs | proved | `W2vGrad_Properties` | `pass_climbs`, `neg_loss`, `hs_loss`, `loss_no_effect`, `dbow_climbs`, `ctx_climbs`, `cbow_gradient_refuted`, `hs_loss_refuted` |
| C80 | The table of the logistic function is in range and close | proved | `W2vTable_Properties` | `table_index_range`, `table_error`, `table_sign`, `table_unused_refuted` |
| C81 | Hierarchical softmax is a distribution; the score of a sentence | proved | `HsScore_Properties` | `hs_distribution`, `score_sg_value`, `score_cbow_value`, `pair_logp_bounds`, `score_input_alone`, `score_total`, `neg_objective`, `lock_value`, `score_left_out_refuted`, `score_input_value` |
| C82 | Word2Vec.score returns every score under every schedule | proved | `ScoreSched_Properties` | `score_complete`, `score_progresses`, `score_terminates`, `score_ends`, `score_error`, `score_queues`, `score_empty_refuted` |
| C83 | The Porter stemmer computes the rules of the algorithm | proved | `Porter_Properties` | `stem_porter`, `longest_suffix`, `measure_form`, `stem_form`, `stem_sentence_tokens`, `stem_documents_each`, `stem_recursion_refuted`, `stem_twice_refuted` |
| C84 | LDA training on one machine: batches, weights, mass and sign of the statistics | proved | `LdaTrain_Properties` | `update_batches`, `update_every_document`, `rho_decays`, `update_wrong_length`, `gamma_mass`, `gammas_each`, `statistics_mass`, `statistics_repeated_refuted`, `update_positive`, `blend_mass`, `offset_below_one_refuted`, `iterations_ignored`, `learned_eta_unused`, `evaluation_changes_training_refuted`, `document_topics_spec`, `term_topics_sorted_refuted`, `chosen_topics_count`, `no_topics_refuted`, `estep_of_parts`, `update_synced` |
| C85 | Multicore LDA: every chunk is learned from once, unless the last results come back early; a failed worker hangs the training | proved | `LdaMulti_Properties` | `multicore_conserves`, `multicore_bounded`, `multicore_pass`, `multicore_batch`, `multicore_settles`, `multicore_can_finish`, `multicore_failure_hangs`, `multicore_loses_refuted` |
| C86 | Poincaré distance is a metric on the open unit ball | proved | `PoincareGeo_Properties` | `poincare_metric`, `poincare_similarity`, `distance_from_centre` |
| C87 | Poincaré training: gradients, clipping, and all updates of a node in a batch | proved | `PoincareGeo_Properties`, `PoincareTrain_Properties` | `loss_gradient`, `gradients_defined`, `step_downhill`, `reported_loss`, `batch_rows`, `batch_in_ball`, `stays_in_ball`, `clip_border_refuted`, `clip_dimensions_refuted`, `clip_single`, `clip_versions_refuted`, `init_in_ball`, `training_in_ball` |
| C88 | Poincaré vocabulary, negative samples and training schedule | proved | `PoincareVocab_Properties` | `build_vocab_exact`, `new_model_wf`, `bad_relation`, `failed_update_refuted`, `no_relations_refuted`, `draw_shares`, `negatives_valid`, `negatives_reachable`, `few_negatives`, `prepare_exact`, `self_negative_refuted`, `poincare_batches_exact`, `poincare_train_ok`, `burn_in_once`, `burn_in_complete`, `failed_burn_in_refuted`, `negative_batch_refuted` |
| C89 | Poincaré queries and evaluation measures | proved | `PoincareQuery_Properties`, `PoincareEval_Properties` | `closest_child_exact`, `closest_parent_exact`, `ancestors_exact`, `descendants_exact`, `most_similar_exact`, `difference_antisymmetric`, `descendants_refuted`, `most_similar_first_refuted`, `int_node_refuted`, `avg_precision_exact`, `avg_precision_bounds`, `self_counts`, `perfect_refuted`, `evaluated_all`, `evaluated_bound`, `max_n_refuted`, `score_function_exact` |
| C90 | Text cleaning, tokenizing and HTML entities | proved | `Text_Properties` | `strip_tags_exact`, `strip_tags_none_left`, `strip_numeric_exact`, `strip_non_alphanum_exact`, `strip_punctuation_exact`, `strip_whitespaces_exact`, `split_alphanum_exact`, `split_capitals_refuted`, `remove_stopwords_exact`, `strip_short_exact`, `preprocess_string_exact`, `preprocess_twice_refuted`, `comparison_lost_refuted`, `simple_tokenize_exact`, `simple_preprocess_exact`, `underscore_refuted`, `decode_plain`, `decode_decimal`, `decode_hex`, `decode_name`, `decode_xi_refuted`, `decode_escape`, `punctuation_exact` |
| C91 | Latent semantic indexing: incremental decomposition | proved | `Lsi_Properties` | `lsi_clip_spectrum`, `lsi_merge`, `lsi_merge_trivial`, `lsi_train`, `lsi_above`, `lsi_train_energy`, `lsi_svd`, `lsi_svd_exact`, `lsi_action`, `lsi_distributed`, `lsi_distributed_decay_refuted`, `lsi_distributed_forgets_refuted`, `lsi_chunksize_refuted`, `lsi_uncorrelated`, `lsi_corpus`, `lsi_scaled_refuted` |
| C92 | Evaluating word vectors on analogies and word pairs | proved | `KvEval_Properties` | `ok_vocab_first`, `analogies_sections`, `answerable_case_sensitive`, `section_name`, `analogies_state`, `analogies_errors`, `pairs_exact`, `pairs_undecodable`, `analogies_input_refuted`, `analogies_variants_refuted`, `pairs_state_refuted` |
| C93 | Queries by cosine similarity | proved | `KvSim_Properties` | `similarity_exact`, `similarity_unknown`, `n_similarity_exact`, `n_similarity_single`, `n_similarity_empty`, `distances_exact`, `closer_than_exact`, `rank_order`, `most_similar_to_given_first`, `most_similar_to_none`, `centrality_exact`, `doesnt_match_exact`, `doesnt_match_invariant`, `doesnt_match_two`, `doesnt_match_none`, `similar_score_exact`, `similar_score_weights`, `cosmul_exact`, `cosmul_monotone`, `cosmul_single`, `relative_similarity_sum`, `relative_similarity_average`, `rank_zero_refuted`, `distances_zero_refuted`, `centrality_unnormed_refuted`, `relative_similarity_refuted` |
| C94 | Word Mover's Distance | proved | `Wmd_Properties` | `wmd_exact`, `wmd_infinite`, `wmd_symmetric`, `wmd_bounds`, `wmd_shares_only`, `wmd_same`, `wmd_triangle`, `wmd_single`, `wmd_separates`, `wmd_average`, `emd_exists`, `wmd_self_refuted` |
| C95 | Author and document maps of the author-topic model | proved | `AtMaps_Properties` | `doc2author_made`, `author2doc_made`, `update_consistent`, `agree_from_author2doc`, `agree_from_doc2author`, `one_pass_exact`, `local_ids_miss`, `new_author_restores`, `bound_ignores`, `bound_training`, `update_other_cases`, `bound_rejects`, `second_update_refuted`, `empty_author_refuted`, `resume_refuted`, `bound_refuted` |
| C96 | Inference of the author-topic model | proved | `AtInfer_Properties` | `at_words_shared`, `at_rows`, `at_stored`, `at_sequential`, `at_statistics`, `at_single_is_lda`, `at_author_order`, `at_counts`, `at_fractions_lost`, `author_topics_spec`, `at_weights_refuted` |
| C97 | Plain text corpora: samples, preprocessing, directories and lengths | proved | `TextCorpus_Properties` | `sample_exact`, `sample_uniform`, `draws_all`, `sample_rejects`, `sample_too_long`, `sample_metadata_refuted`, `step_through_exact`, `step_through_refuted`, `lower_exact`, `lower_refuted`, `corpus_complete`, `metadata_exact`, `file_object_refuted`, `directory_files`, `directory_default`, `directory_documents`, `directory_length`, `directory_length_refuted`, `no_directory_refuted`, `max_depth_none_refuted` |
| C98 | Non-negative matrix factorization: descent, optimality at rest, bounds, statistics, queries | proved | `Nmf_Properties` | `documents_apart`, `weights_nonneg`, `weights_descend`, `large_step_refuted`, `step_best`, `rest_is_best`, `empty_topic_zero`, `empty_topic_refuted`, `topics_feasible`, `topics_descend`, `topics_descend_refuted`, `solution_descends`, `training_feasible`, `passes_exact`, `batch_order`, `chunksize_refuted`, `nmf_iterator_refuted`, `statistics_exact`, `update_forgets_refuted`, `empty_batch_refuted`, `nan_forever`, `topics_sum`, `document_topics_exact`, `document_query_refuted`, `topic_terms_sum`, `topic_terms_refuted`, `term_topics_exact`, `term_topics_refuted` |
| C99 | Hierarchical Dirichlet process: lazy discounts equal eager training; positivity, masses, length of training, queries | proved | `Hdp_Properties` | `lazy_is_eager`, `learning_rate`, `tau_zero_refuted`, `parameters_positive`, `chunk_mass`, `duplicate_ids_refuted`, `lda_of_hdp`, `update_once`, `update_again_one_chunk`, `update_again_refuted`, `update_max_chunks`, `empty_corpus_refuted`, `no_corpus_refuted`, `topics_ordered`, `numbering_agrees`, `suggested_topics_refuted`, `show_topics_count`, `show_all_topics_refuted`, `getitem_untrained`, `getitem_shares`, `getitem_empty` |
| C100 | Removal of wiki markup: templates, files, tags, links, interlinks, tokens | proved | `Wiki_Properties` | `template_exact`, `template_none_left`, `template_unique`, `template_brace_refuted`, `comment_braces_refuted`, `files_captioned`, `file_uncaptioned_refuted`, `file_link_refuted`, `no_tags_left`, `no_brackets_left`, `never_longer`, `plain_untouched`, `markup_exact`, `interlinks_found`, `tokens_exact`, `tokens_order`, `image_article_refuted`, `dash_link_refuted`, `four_levels_refuted`, `comparisons_refuted`, `exclamation_refuted` |
| C101 | Pages and sections of wiki dumps | proved | `WikiPages_Properties` | `pages_exact`, `texts_exact`, `processes_irrelevant`, `default_tokenizer`, `sections_lossless`, `sections_exact`, `sections_corpus`, `excluded_pages_refuted`, `length_before_pass_refuted`, `no_namespaces_refuted`, `prefixes_refuted`, `headings_missed_refuted`, `sections_namespace_refuted` |
| C102 | Log-entropy weights and normalised documents | proved | `LogEntropy_Properties` | `weights_exact`, `weight_bounds`, `transform_exact`, `one_document_generator_refuted`, `le_empty_corpus_refuted`, `le_zero_count_refuted`, `repeated_term_refuted`, `norm_model_exact`, `norm_zero_refuted` |
| C103 | Random projections | proved | `Rp_Properties` | `projection_exact`, `trained_projectable`, `rp_draws_all`, `inner_products_kept`, `distances_kept`, `unknown_id_refuted`, `repeated_id_refuted`, `small_document_refuted` |
| C104 | Kalman smoothing of a topic chain | proved | `LdaSeq_Properties` | `smoother_marginals`, `marginals_unique`, `forward_values`, `smoothing_helps` |
| C105 | Derivatives of the means and the gradient for the optimiser | proved | `LdaSeq_Properties` | `mean_derivative`, `objective_gradient`, `mean_deriv_too_small`, `gradient_always_wrong`, `gradient_refuted` |
| C106 | Bound of a topic chain | proved | `LdaSeq_Properties2` | `bound_exact`, `bound_one_slice`, `late_counts_ignored`, `chain_bound_refuted` |
| C107 | Inference for one document of the dynamic topic model | proved | `LdaSeq_Properties2` | `phi_rows`, `phi_update_best`, `posterior_of_document`, `posterior_total`, `statistics_of_document`, `mixture_distribution` |
| C108 | Documents and time slices | proved | `LdaSeq_Properties2`, `LdaSeq_Properties3` | `slice_of_documents`, `statistics_of_slices`, `mixtures_of_documents`, `inference_total`, `slices_refuted`, `documents_fitted`, `slice_needed` |
| C109 | Training of the dynamic topic model | proved | `LdaSeq_Properties2`, `LdaSeq_Properties3` | `fitted_chain`, `fitting_total`, `initial_chain`, `topic_softmax`, `topic_mass`, `fitted_words`, `training_rounds`, `convergence_refuted`, `trained_model`, `topics_fitted`, `fitted_bound`, `one_round`, `limit_values`, `document_topics` |
| C110 | What the mixture of a document depends on | proved | `LdaSeq_Properties3` | `posterior_depends_on`, `leftovers_refuted`, `start_values` |
| C111 | Training a translation matrix | proved | `Trans_Properties` | `train_exact`, `train_least`, `exact_dictionary`, `train_fails` |
| C112 | Translating by nearest neighbours | proved | `Trans_Properties` | `translate_nearest`, `translate_scale` |
| C113 | Globally corrected retrieval | proved | `Trans_Properties2` | `corrected_order`, `corrected_possible`, `corrected_needs_sample`, `corrected_scale_refuted`, `corrected_repeat_refuted`, `corrected_sample_refuted` |
| C114 | Similarities reported by the approximate indexers | proved | `Trans_Properties2` | `annoy_order`, `annoy_is_cosine`, `annoy_cosine_refuted`, `nmslib_cosine` |
| C115 | LdaModel.bound is the variational bound | proved | `LdaBound_Properties` | `bound_is_best`, `score_is_bound`, `bound_fails`, `matrix_prior_refuted` |
| C116 | Inference and batch updates raise the bound | proved | `LdaBound_Properties` | `inference_raises`, `batch_raises`, `constant_close` |
| C117 | log_perplexity | proved | `LdaBound_Properties2` | `per_word_bound`, `no_documents`, `perplexity_base_refuted`, `perplexity_decreasing` |
| C118 | Priors of LDA | proved | `LdaBound_Properties2` | `symmetric_prior`, `asymmetric_prior`, `prior_fails`, `priors_shapes`, `positive_prior_refuted` |
| C119 | Differences of topics | proved | `LdaBound_Properties2` | `diff_cells`, `diff_normed`, `diff_diagonal`, `diff_fails`, `diff_class_refuted`, `diff_diagonal_scale_refuted`, `kullback_distance`, `jensen_distance`, `annotation` |
| C120 | Unpacking compatible hashes of fastText | proved | `FtUnpack_Properties` | `unpack_restores`, `unpack_rows`, `unpack_cycle_refuted`, `unpack_chain_refuted`, `unpack_full_refuted`, `unpack_fails` |
| C121 | Indexes answer with cosine similarities | proved | `DocIndex_Properties` | `dense_query`, `sparse_query`, `same_index`, `query_bounded`, `corpus_query`, `maintain_best_refuted`, `index_fails` |
| C122 | Looping over an index | proved | `DocIndex_Properties` | `dense_iterate`, `sparse_iterate`, `sparse_iterate_refuted`, `abandoned_refuted` |
| C123 | Word mover's similarity | proved | `DocIndex_Properties` | `wmd_values`, `wmd_loop`, `wmd_loop_refuted` |
| C124 | Downloaded data | proved | `Downloader_Properties` | `only_verified`, `load_present`, `load_offline`, `load_arrives`, `load_failed`, `left_over_stuck`, `interrupted_refuted`, `cache_refuted`, `outdated_refuted`, `corrupt_refuted` |
| C125 | Metrics of passes | proved | `Callbacks_Properties` | `metrics_history`, `metrics_see_pass`, `batch_sees_start`, `batch_metrics_refuted`, `window_order_refuted`, `same_label_refuted` |
| C126 | Merging vectors of a file | proved | `Intersect_Properties` | `intersect_text_merges`, `intersect_binary_merges`, `always_fails`, `truncated_hangs`, `single_lock_stops`, `single_lock_all` |
| C127 | Predicting a word from its context | proved | `Predict_Properties` | `predict_exact`, `predict_none`, `predict_fails`, `predict_order`, `predict_fasttext_refuted` |
| C128 | Saving and loading an LDA model | proved | `LdaSave_Properties` | `smart_extension_beside`, `lda_roundtrip`, `lda_save_ok`, `lda_others_safe`, `stale_dictionary_refuted`, `stale_state_refuted`, `ignore_none_refuted`, `ignore_string_refuted`, `other_name_refuted`, `lost_state_refuted` |
| C129 | Coherence of topics by word vectors | proved | `W2vCoh_Properties` | `w2v_sims_exact`, `word2vec_similarity_exact`, `word2vec_similarity_fails`, `id_table_fresh`, `grown_dictionary_refuted`, `train_args_kept`, `train_args_set`, `hs_lost_refuted`, `hs_always_zero` |
| C130 | Loading models of older versions | proved | `Upgrade_Properties` | `upgrade_w2v_moves`, `upgrade_w2v_current`, `upgrade_loses_syn1`, `hs_weights_lost_refuted`, `exponent_lost_refuted`, `upgrade_kv_words`, `upgrade_kv_current`, `upgrade_doctags_fails`, `int_keys_refuted`, `old_documents_refuted` |
| C131 | Words listed for a topic (LSI, LDA, NMF top topics, HDP) | proved | `ShowTopics_Properties` | `lsi_show_topic_best`, `lsi_topics_agree`, `lsi_show_topic_missing`, `lsi_show_topics_list`, `lda_terms_best`, `lda_terms_share`, `lda_show_topic_words`, `top_topics_sorted`, `hdp_show_topic_best`, `hdp_negative_refuted` |
| C132 | Word and document vectors in one word2vec file; GloVe and tensor conversion | proved | `D2vFormat_Properties` | `d2v_text_combined`, `d2v_binary_combined`, `d2v_single`, `d2v_vocab`, `glove_exact`, `glove_info_lines`, `tensor_lines`, `int_tags_vocab_refuted`, `int_tags_twice_refuted`, `same_text_tags_refuted`, `tag_is_word_refuted`, `glove_twice_refuted` |
| C133 | Segmented articles written as lines of JSON | proved | `SegmentJson_Properties` | `json_read_back`, `json_ascii`, `lines_tell`, `dump_to_lines`, `surrogates_refuted` |
| C134 | The text form of a hash dictionary | proved | `HashText_Properties` | `hash_text_exact`, `hash_text_no_debug`, `hash_text_determines`, `hash_text_tab_refuted` |
| C135 | The readers of the Brown corpus | proved | `Brown_Properties` | `brown_sentences`, `brown_tags_distinct`, `brown_bad_line`, `brown_slash_refuted`, `brown_order_refuted`, `brown_empty_word_refuted` |
| C136 | The forms in which a sharded corpus gives its documents | proved | `ShardFormat_Properties` | `one_document`, `many_documents`, `iterating`, `bags_come_back`, `resize_kind`, `dimension_derived`, `dimension_given`, `chain_total`, `sparse_bags_refuted`, `same_bags_refuted`, `resized_rows_refuted`, `coercing_refuted`, `transformed_refuted` |
| C137 | Building and training a Word2Vec or Doc2Vec model: which calls are accepted and what they read | proved | `W2vSession_Properties` | `train_accepts`, `train_refuses`, `d2v_train_same`, `build_exact`, `construct_steps`, `construct_generator`, `history_counts`, `d2v_settings_exact`, `w2v_iterator_refuted`, `epochs_lost_refuted`, `loss_lost_refuted`, `rates_refuted`, `dm_mean_refuted`, `dm_two_refuted` |
| C138 | Approximate indexers: labels, saving and loading | proved | `Indexers_Properties` | `annoy_answers`, `annoy_saved`, `annoy_missing`, `annoy_none`, `nms_answers`, `nms_saved`, `annoy_again_refuted`, `nms_query_refuted` |
| C139 | Word embeddings as a term similarity index | proved | `WordEmbIndex_Properties` | `wes_unknown`, `wes_best`, `wes_words`, `wes_again`, `wes_order`, `wes_matrix`, `shortest_uint_fits`, `wes_negative_refuted`, `wes_crowded_refuted`, `shortest_uint_refuted` |
| C140 | Views of a dynamic topic model | proved | `SeqViews_Properties` | `seq_print_topic`, `seq_outside`, `seq_lists`, `seq_coherence`, `seq_vis`, `seq_mixture`, `seq_lengths_refuted`, `seq_gap_refuted` |
| C141 | Comparing models by coherence: words of the topics | proved | `CohWords_Properties` | `cohwords_right`, `cohwords_all`, `for_models_exact`, `cohwords_stale_refuted` |
| C142 | Hierarchical Dirichlet process: test corpus and output directory | proved | `HdpEval_Properties` | `hdp_eval_exact`, `hdp_eval_fails`, `hdp_eval_order`, `hdp_eval_parts`, `hdp_eval_trained`, `hdp_eval_stale`, `hdp_no_outputdir`, `hdp_eval_untrained_refuted`, `hdp_eval_stale_refuted`, `hdp_outputdir_refuted` |
| C143 | Tables of lexical entailment and their evaluation; CSV corpora | proved | `LexEval_Properties` | `lex_scores_exact`, `lex_eval_exact`, `lex_duplicate_refuted`, `csvcorpus_refuted` |
| C144 | Topics shown by non-negative matrix factorization | proved | `NmfShow_Properties` | `nmf_show_all`, `nmf_show_some`, `nmf_show_one`, `nmf_show_none_refuted`, `nmf_show_changes_refuted` |
| C145 | Models that share a vocabulary after reset_from | proved | `SharedVocab_Properties`, `SharedCounts_Properties` | `shared_consistent`, `shared_others`, `shared_counts`, `reset_exact`, `shared_expand_refuted`, `shared_build_refuted`, `shared_doc2vec_refuted`, `shared_build_exact`, `shared_expand_exact`, `expand_counts_refuted` |
| C146 | Articles of digital mathematics libraries | proved | `Dmlcz_Properties` | `meta_exact`, `dir_found`, `dir_root_refuted`, `content_longest`, `dictionary_back`, `dictionary_tab_refuted`, `similar_exact`, `similar_zero_refuted` |
| C147 | Sizes of vocabulary topic models take from a mapping or a corpus | proved | `Space_Properties` | `keys_exact`, `space_corpus_exact`, `length_exact`, `all_alike`, `gap_refuted`, `fake_refuted`, `nothing_refuted` |
| C148 | Files of similarity indexes side by side | proved | `IndexFiles_Properties` | `shard_name_inj`, `shards_on_disk`, `destroy_exact`, `destroy_other_refuted`, `save_other_refuted` |
| C149 | Tokens of articles in XML | proved | `Arxmliv_Properties` | `xml_exact`, `own_one`, `pieces_exact`, `normalize_exact`, `formula_refuted`, `cut_word_refuted` |
| C150 | Distributed latent semantic indexing learns every job once | proved | `LsiDispatch_Properties` | `states_exact`, `never_stuck`, `acts_end`, `waiting_ends`, `no_reset_refuted` |
| C151 | Parameters of metrics of topic models | proved | `MetricParams_Properties` | `metric_value`, `metric_fails`, `override_stays_refuted` |
| C152 | Articles found in a tree of directories | proved | `DmlFind_Properties` | `articles_found`, `articles_all`, `content_own`, `base_article_refuted`, `same_number_refuted` |

## Findings

Places where the code does not do what its documentation, its name or the neighbouring code lets one expect. Each has a theorem with a computed witness.

* C01 `dictionary_gap_update_refuted`: A text file with a gap in its ids is loaded as is; the next updating `doc2bow` hands out an id that is already taken.
* C04 `dictionary_prune_stability_refuted`: With pruning switched on (the default), a large stream may renumber tokens (the prune threshold is lowered here to keep the witness small).
* C05 `filter_extremes_keep_tokens_refuted`: `keep_tokens` are not safe from `keep_n`: they compete with tokens that occur in every document.
* C06 `compactify_from_corpus_refuted`: A dictionary made by `from_corpus` with an `id2word` that misses some ids is not consistent, and compactifying it fails.
* C07 `dictionary_text_tab_refuted`: A token containing a TAB is written but cannot be read back.
* C08 `patch_two_tokens_refuted`: `patch_with_special_tokens` with two existing tokens fails on a valid request, because the cached reverse map is consulted while stale.
* C09 `merge_with_cfs_refuted`: The collection frequencies of the other dictionary are lost.
* C10 `hashdict_readonly_refuted`: `doc2bow(document, allow_update=False)` is not read-only.
* C11 `mm_big_id_refuted`: A term id that does not fit a C `long long` is written without complaint; opening the file then fails.
* C11 `mm_short_id2word_refuted`: With an `id2word` that is too short the header claims fewer terms than the ids in the file.
* C13 `svm_last_char_refuted`: Without a newline at the end of the file the last character of the last line is lost: "0 1:12" is read as the value 1.
* C13 `svm_label_hash_refuted`: A label that contains a '#' (or white space) damages the document.
* C14 `blei_large_count_refuted`: The claim of exactness fails for larger counts: %g keeps six significant digits.
* C14 `blei_zero_refuted`: A stored zero makes the written file unreadable.
* C15 `low_no_id2word_refuted`: Saved and loaded without a mapping, ids are renumbered: id 10 sorts before id 2.
* C15 `low_duplicate_word_refuted`: Two ids for one word: the counts of both end up on the later id.
* C16 `mallet_docid_space_refuted`: A document id containing a space moves the pieces.
* C17 `uci_dictionary_repeated_id_refuted`: A repeated id in one document is counted twice in the document frequency.
* C17 `uci_header_overflow_refuted`: The size check allows 21 characters in a field of 20: the value then overwrites the line break, and the header cannot be read.
* C18 `chunkize_serial_zero_refuted`: A chunk size that `int()` truncates to 0 silently drops the whole stream.
* C19 `chunkize_background_raising_refuted`: If iterating the corpus raises in the background process, the end marker is never sent: a state is reached in which nobody can move and the consumer still waits. (`chunkize_serial` would raise the exception.)
* C20 `repeat_corpus_empty_refuted`: The promised length is not reached for an empty corpus.
* C20 `clipped_corpus_none_len_refuted`: "No limit" (`max_docs=None`) can be iterated but has no length.
* C21 `sliced_len_negative_step_refuted`: The length of a sliced corpus can differ from the number of documents it yields.
* C21 `sliced_len_empty_slice_refuted`: The length of an empty slice is a ValueError, although iterating it works.
* C21 `sliced_stream_len_refuted`: A streamed corpus has no length at all, and a plain Python list (whose `index` is a method) cannot even be iterated.
* C21 `sliced_pylist_refuted`: A plain Python list, whose `index` is a method, can be neither iterated nor measured once sliced.
* C22 `prune_vocab_le_refuted`: The comment and the log message say "count <= min_reduce"; a word whose count equals the threshold is kept.
* C22 `trim_vocab_zero_refuted`: Keeping the 0 most frequent words raises IndexError.
* C24 `sparse2corpus_negative_index_refuted`: Negative indices of `Sparse2Corpus` are off by one: `-1` is an empty document and `-2` is the last one.
* C25 `sparse2full_negative_id_refuted`: A negative id is not rejected: it overwrites a position counted from the end.
* C26 `scipy_clipped_empty_refuted`: A matrix without entries is not accepted.
* C26 `scipy_clipped_width_refuted`: The width of the matrix is not kept: the last column of the input is lost when its entries are not among the greatest.
* C27 `unitvec_zero_refuted`: A bag-of-words vector of zeros fails an assertion with the L2 norm.
* C27 `unitvec_csr_argument_refuted`: Normalising a CSR matrix of floats rewrites the caller's matrix.
* C27 `unitvec_unique_formats_refuted`: The 'unique' norm counts stored entries of a sparse matrix but non-zero entries of an array: the two formats of the same vector normalise differently when a zero is stored.
* C29 `sharded_step_refuted`: The step of a slice is ignored: [corpus`0:4:2`] returns four rows.
* C29 `sharded_empty_list_refuted`: An empty list request fails on a sparse corpus.
* C30 `sharded_reopen_after_resize_refuted`: The wrapper saved before a resize no longer matches the shard files: reopening reads a wrong row.
* C30 `sharded_clone_shardsize_refuted`: Reopening through the constructor keeps the shard size of the argument, not that of the files.
* C30 `sharded_negative_resize_refuted`: A negative size is accepted and deletes every shard.
* C31 `sim_zero_weight_refuted`: Failure 1: a document with an explicit zero weight makes every later query fail.
* C31 `sim_abandoned_iteration_refuted`: Failure 2: an iteration that is not exhausted switches the normalization of all later queries off.
* C31 `sim_stale_save_refuted`: Failure 3: an index saved earlier shares its last shard file with the live index; after more documents were added, loading it gives an index whose length disagrees with its similarity vectors.
* C31 `sim_empty_refuted`: Failure 4: querying an empty index raises.
* C33 `phrases_empty_token_refuted`: An empty token is silently dropped.
* C35 `freeze_default_refuted`: With the default scorer the live model disagrees with its frozen copy, and with itself: looking up unknown words adds them to the vocabulary, whose size is part of the score.
* C35 `live_repeat_refuted`: A live phrase iterator over the same sentence twice does not yield the same analysis twice.
* C35 `freeze_nan_refuted`: A scorer returning NaN: accepted live ("nan <= threshold" is false), never frozen in ("nan > threshold" is false too).
* C35 `freeze_delimiter_refuted`: One training token containing the delimiter makes the export (and so `freeze`) fail.
* C36 `kv_batch_duplicate_refuted`: A new key given twice in one batch: two rows bear the key, so the size is wrong and the rows are no longer inverse to the keys.
* C36 `kv_slot_duplicate_refuted`: A preallocated slot filled with a key already present.
* C36 `add_vector_index_refuted`: `add_vector` of a present key without free slot returns an index beyond the end.
* C36 `kv_int_key_refuted`: An integer key below the current size is not added; item assignment overwrites the vector of an unrelated key.
* C36 `add_vectors_extras_refuted`: A call with extra attributes raises ValueError, but its keys and vectors have been stored.
* C36 `add_vectors_short_refuted`: Too few vectors: the error comes after the keys were stored, so later lookups of them fail differently.
* C37 `kv_norm_stale_refuted`: A replaced vector is divided by the norm of the old one, and a new vector has no norm at all.
* C38 `most_similar_excludes_refuted`: After an untidy batch the query key itself is returned, with similarity 1.
* C38 `most_similar_stale_refuted`: Stale norms: with one norm computed before the other vectors came, every similarity is divided by that norm and the order is wrong; with two, the query fails.
* C39 `w2v_short_line_refuted`: A line with a single value fills the whole vector with it.
* C39 `w2v_space_key_refuted`: A key with a space cannot be read back as text, and comes back as another key with another vector from binary; a key with a leading newline loses it.
* C39 `w2v_int_keys_refuted`: Integer keys 0..k-1 are written twice, so that the last keys are lost.
* C39 `w2v_limit_zero_refuted`: A limit of 0 reads everything; without header it is a TypeError.
* C39 `w2v_free_slot_refuted`: A model with counts and a free slot: the header counts the free slot, its line is never written.
* C40 `w2v_binary_chunk_refuted`: With duplicate words and a limit, whether a binary file can be read depends on the size of the read buffer.
* C42 `alpha_epochs_refuted`: If the total is too small the learning rate rises again at the next epoch.
* C42 `alpha_rising_refuted`: A rate meant to rise from `alpha` to a larger `min_alpha` is constantly the latter.
* C42 `end_alpha_zero_refuted`: `end_alpha=0.0` is ignored.
* C42 `no_totals_refuted`: A corpus whose size is not known is cut short: the producer dies at the second job.
* C42 `empty_job_refuted`: A job without any sentence.
* C43 `no_workers_refuted`: Without workers the epoch is over at once and nothing is trained.
* C44 `max_final_ties_refuted`: If all words are equally frequent nothing is left, although `k` words were allowed.
* C44 `max_final_rule_refuted`: A trimming rule can exceed the limit.
* C45 `draw_proportional_refuted`: So a word with a positive increment may never be drawn, and one without any may be.
* C46 `saved_empty_refuted`: Empty sentences disappear.
* C46 `text8_merge_refuted`: A newline at the end of a buffer makes two words into one.
* C46 `text8_long_refuted`: Without spaces (one word per line) everything is one sentence, however long; training keeps only its first words.
* C46 `zero_length_refuted`: A maximal length of 0 never ends.
* C46 `subdirectory_refuted`: A subdirectory makes the reader of a directory fail.
* C47 `both_layers_refuted`: With both hierarchical softmax and negative sampling one output layer is dropped, and the other is loaded twice.
* C47 `no_layer_refuted`: A model with neither cannot be saved (the file is left incomplete).
* C47 `null_word_refuted`: A word that is the null character comes back empty with a wrong count, and the rest of the file is out of step.
* C47 `utf16_refuted`: An encoding with NUL bytes, accepted as `encoding` argument, cannot be read back even for plain words.
* C47 `zero_count_refuted`: A word with count 0 (possible with build_vocab_from_freq and min_count=0) is dropped on loading; the matrix then has too many rows.
* C48 `abandoned_epoch_refuted`: An epoch the client gives up (an exception between `putjob` and `getstate`, then a new `update`) spoils the next one: the leftover job is counted and merged instead of the new one.
* C49 `termsim_float16_refuted`: With half precision as dtype, creating a term similarity matrix raises ValueError.
* C49 `termsim_missing_idf_refuted`: A tf-idf model that has not seen all terms: the diagonal is incomplete.
* C49 `termsim_missing_idf_key_refuted`: ... and an index that answers with one of those fails with KeyError.
* C49 `termsim_self_refuted`: An index that answers with the term itself spoils the diagonal.
* C50 `levsim_bound_refuted`: The documented upper bound of 1 does not hold: identical terms have similarity 1.8 by default.
* C50 `levsim_threshold_refuted`: A minimal similarity above 1 is not respected: it is cut down to 1.
* C50 `levsim_zero_refuted`: Zero parameters pass the assertions but cannot be used.
* C50 `levsim_empty_refuted`: Two empty terms are less similar than any other two identical terms.
* C51 `tfidf_duplicates_refuted`: A document that lists a term twice counts twice.
* C51 `filtered_pivot_refuted`: But its number of entries is not updated, so that the pivot for letter u differs from the one of the corpus.
* C51 `tfidf_b_corpus_refuted`: Letter b (byte length) with a corpus but no dictionary.
* C52 `nested_failure_refuted`: If the file of a nested object cannot be written, the outer object has lost its array.
* C52 `outer_failure_refuted`: If the file of the outer object cannot be written, the nested object has lost its array.
* C52 `cycle_refuted`: Saving an object that contains itself ends in RecursionError, and its large arrays are gone from the object afterwards.
* C52 `shared_refuted`: An object held by two attributes is saved twice, the second time without its array, which is then missing after loading.
* C52 `separately_refuted`: An attribute named in `separately` that is no array is not stored at all.
* C52 `scalar_array_refuted`: A 0-d array comes back 1-d.
* C52 `stale_refuted`: The names that saving leaves on the live object make a later save through a file handle load the old arrays.
* C53 `patch_statistics_refuted`: The document frequencies do not move with the tokens.
* C53 `patch_stale_cache_refuted`: With a half-filled reverse map even one special token can fail.
* C54 `hashdict_filter_bucket_dfs_refuted`: The frequency of a bucket is not recomputed when some of its words go: after filtering it still counts documents that contain only removed words.
* C55 `fakedict_keys_refuted`: `keys()` lists one key only (documented as an optimisation).
* C56 `convert_vec_refuted`: Converting two proper bag-of-words vectors to dense distributions without a number of features raises IndexError.
* C57 `load_connectors_refuted`: A model saved by this version loses its connector words.
* C57 `load_tuple_keys_refuted`: A file with tuple keys and plain scores keeps only its first phrase.
* C60 `kv_sort_lost_refuted`: Keys added in a batch after the counts were allocated are lost by sorting.
* C60 `kv_sort_untidy_refuted`: After an untidy history sorting changes which vector a key has.
* C60 `kv_sort_norms_refuted`: Cached norms are not permuted: afterwards vectors are divided by the norms of other keys.
* C61 `w2v_resave_refuted`: Loading a file with a duplicate word and saving the result with counts writes a header larger than the file.
* C62 `w2v_rebuild_more_refuted`: Building the vocabulary again without `update` raises IndexError if there are more words.
* C62 `w2v_rebuild_same_refuted`: with as many words the old vectors stay and now belong to other words;
* C62 `w2v_rebuild_fewer_refuted`: with fewer words and without sorting a ValueError.
* C62 `w2v_update_null_refuted`: Extending a vocabulary that has a null word adds it once more.
* C62 `w2v_dry_run_refuted`: A dry run adds the null word to the vocabulary.
* C63 `count_sampling_refuted`: With `sample` as a count, a word more frequent than it may not be downsampled.
* C65 `batch_overflow_refuted`: A batch one word longer than the limit can write past the arrays of the compiled code.
* C66 `tfidf_b_unknown_refuted`: Letter b and a document with a term the dictionary does not know: an error, where the other letters drop the term.
* C66 `tfidf_a_empty_refuted`: Letter a (augmented frequency) and an empty document.
* C66 `tfidf_zero_frequency_refuted`: An explicit frequency 0 cannot be normalised.
* C66 `tfidf_identity_pivot_refuted`: `normalize=False` with a pivot: `utils.identity` is called with `return_norm`.
* C66 `tfidf_empty_dictionary_refuted`: An empty dictionary (here, one filtered of everything) is false, and the corpus is used in its place; with neither, the model cannot transform anything.
* C66 `tfidf_corpus_eps_refuted`: The transformation of a corpus takes no notice of the `eps` it is given.
* C67 `soft_cosine_corpus_refuted`: Documents are normalised over the words of the query only: the cosine of (1, 0) and (1, 1) comes out as 1.
* C67 `cancellation_refuted`: A query whose expansion cancels in one of its own words loses that word: its similarity to a corpus is not that to the single document.
* C67 `not_dominant_refuted`: Without dominance, negative similarities can make a norm negative, and the assertion fails for an ordinary bag of words.
* C67 `duplicates_refuted`: An index given twice: two vectors take the last weight, two corpora the sum.
* C68 `ft_hash_not_fnv_refuted`: Beyond ASCII it is not FNV-1a.
* C68 `ngrams_single_refuted`: Not so for single characters: only the text version lists '<' and '>'.
* C68 `ngrams_surrogate_refuted`: A word with a lone surrogate has no n-grams at all: an error, even though the text version works.
* C69 `ft_add_vector_refuted`: Yet `add_vector` returns an index, at which nothing is; and replacing fails for a new key.
* C69 `ft_normalized_save_refuted`: `unit_normalize_all` does not survive saving (with buckets): the vectors are computed anew, the norms stay 1, so that "normed" vectors are not normed any more.
* C69 `ft_sort_refuted`: After sorting by frequency, the vectors in use are right, but those after saving and loading are of other words.
* C69 `ft_contains_refuted`: "A vector for the word is guaranteed to exist if `in` returns True": not without buckets.
* C70 `cython_iter_unicode_refuted`: Otherwise not: the vocabulary is built from other words than those looked up in training.
* C70 `cython_iter_ascii_refuted`: Even for ASCII text (with a control character that separates fields), the words of the compiled reader can differ from those of `LineSentence`.
* C70 `sentence_idx_overflow_refuted`: A file of many short lines of unknown words writes past the array of sentence indexes.
* C70 `workers_overlap_refuted`: Words are trained on twice: the second worker starts in the middle of the line that the first one reads to its end.
* C70 `workers_cut_word_refuted`: The second worker trains on a word that is not in the file.
* C71 `offsets_empty_refuted`: An empty file has no offsets, although there are workers.
* C71 `blank_line_refuted`: After a blank line the tags are those of other lines: `TaggedLineDocument` and the vocabulary scan count blank lines.
* C71 `workers_gap_refuted`: Several workers: one line is trained on by no worker.
* C71 `workers_twice_refuted`: ... or one line by several.
* C71 `empty_file_refuted`: On an empty file every worker fails.
* C71 `dmc_wrong_tag_refuted`: So the second worker trains the first documents' vectors on other documents.
* C71 `dmc_update_refuted`: And the error applied to the document vector is that of a context word (the one before the last, if the window is 1 the first).
* C72 `repeated_word_refuted`: A word that leaves the window while another copy of it stays inside is not counted any more: in "a b a c" with windows of 3 words, a is in both windows but counted once, and never together with c.
* C72 `num_docs_relevant_refuted`: Whether a text counts depends on the set of relevant words: adding a relevant word changes the number of documents, hence the estimated probability of the others.
* C72 `accumulate_twice_refuted`: A second `accumulate` on the same object doubles the pair counts of the first.
* C73 `parallel_crash_refuted`: A worker that hits an exception replies with what it has; the master merges it as if nothing had happened: the run finishes with counts missing.
* C73 `parallel_hang_refuted`: If every worker has ended that way while the queue is full, the master waits for ever.
* C74 `u_mass_nonpositive_refuted`: A mean of logarithms of conditional probabilities should not exceed 0: it does for words that always occur together.
* C74 `u_mass_unseen_word_refuted`: Putting a word that occurs in no document into a topic should not raise its coherence: here it goes from ln(2 * EPSILON) up to 0, the greatest value (up to EPSILON) there is.
* C75 `npmi_above_one_refuted`: NPMI should be at most 1: two words that occur in the same windows, half of them.
* C75 `npmi_always_together_refuted`: Words that occur together in every window should get a high score: they get -1, the score of words that never occur together.
* C76 `raised_topn_refuted`: Raising topn after a computation: the accumulator without the new word is kept, and its pairs silently count as 0.
* C76 `topics_none_refuted`: The topics set to None and then to new ones: the accumulator of the old ones is kept.
* C76 `truncation_refuted`: Only the first topic decides whether topics are cut to topn words.
* C76 `topics_replaced_refuted`: Given topics shorter than topn, in an object that has a model: setting topn (as `compare_model_topics` does, even to the value it has) replaces them by the topics of the model.
* C76 `short_topics_refuted`: Topics shorter than topn, without a model: accepted and evaluated by the object, but they cannot be compared, not even with themselves.
* C76 `restore_refuted`: A dictionary whose reverse mapping was not filled in yet: the original topics cannot be put back, the comparison fails.
* C77 `update_tags_refuted`: Updating with new tags gives them slots beyond the vectors,
* C77 `update_takes_over_refuted`: or the vectors of the old tags,
* C77 `stale_tag_refuted`: while the old tags are still found: at the slot of another tag,
* C77 `stale_tag_outside_refuted`: or at none at all.
* C77 `rebuild_fewer_tags_refuted`: Building anew with fewer tags is a ValueError; with as many or more the trained vectors stay.
* C77 `unused_integer_refuted`: An integer that is not a tag is answered with the vector of a string.
* C77 `doc_count_twice_refuted`: A tag given twice to one document counts it twice.
* C78 `dm_word_lock_refuted`: In dm mode a word with lock factor 0 is changed, if the tags have their single default lock factor:
* C78 `dm_word_lock_outside_refuted`: if the tags have more lock factors than the words, it is read outside the array.
* C78 `infer_zero_alpha_refuted`: A learning rate of 0 cannot be asked for:
* C79 `cbow_gradient_refuted`: The step of CBOW with the mean of two words is not the gradient step of the given rate:
* C79 `hs_loss_refuted`: With hierarchical softmax the better the prediction the larger the loss:
* C80 `table_unused_refuted`: With the integer division the last places of the table are never used, and the score 0 is not taken for 1/2.
* C81 `score_left_out_refuted`: A word that the model is sure is wrong costs nothing:
* C82 `score_empty_refuted`: With an empty stream it ends in an exception.
* C83 `stem_recursion_refuted`: Whatever the depth of recursion allowed, there is a word whose stemming exceeds it.
* C83 `stem_twice_refuted`: The stem of a stem may be another word: stemming twice is not stemming once.
* C84 `statistics_repeated_refuted`: If a document lists a word twice, numpy's [sstats`:, ids` += ...] counts it once: two occurrences, one in the statistics.
* C84 `offset_below_one_refuted`: With an offset below 1 the first weight is above 1, and lambda can become negative.
* C84 `evaluation_changes_training_refuted`: It uses up random numbers, so that a model that is evaluated while it is trained turns out different.
* C84 `term_topics_sorted_refuted`: The topics of a word come in the order of the topics, not of their relevance.
* C84 `no_topics_refuted`: If none are asked for, all are shown.
* C85 `multicore_loses_refuted`: The same pass with fast workers: the last result is merged by the call of `process_result_queue` that follows the last `put`, the counter is 0, and the loop that would force the last M step is not entered: the pass ends, nothing has been learned from the corpus.
* C87 `clip_border_refuted`: With an epsilon of 0 nothing is subtracted, and a vector that left the ball ends up on its border, where the distance divides by zero.
* C87 `clip_dimensions_refuted`: The bound on epsilon and the dimensions is needed: with 9/10 in one dimension, the subtraction goes past zero.
* C87 `clip_versions_refuted`: The clipping of a single vector differs from that of a row of a matrix.
* C88 `failed_update_refuted`: So after a failed update and a further one, the vectors no longer belong to the nodes: here two of six nodes have no vector, and node 4 got the vector drawn for node 4 of the second update only by position.
* C88 `no_relations_refuted`: No relations at all: the missing counts raise a KeyError.
* C88 `self_negative_refuted`: The node itself can be its negative sample: with one relation between two nodes and one negative sample, it always is.
* C88 `failed_burn_in_refuted`: A failure during the burn-in: the learning rate stays, and the next call trains the first batch of the burn-in again.
* C88 `negative_batch_refuted`: A negative batch size trains nothing, without an error.
* C89 `descendants_refuted`: The descendants of a node whose chain ends before the depth asked for: not the shorter chain, but a None at its end, or a TypeError.
* C89 `most_similar_first_refuted`: The first node is its own most similar node, and takes the place of another one.
* C89 `int_node_refuted`: A node given by its number is accepted, but its distances are those of the number, not of the node.
* C89 `perfect_refuted`: Even where all related nodes are nearer than all others, the mean rank is 2 and the precision below 1.
* C89 `max_n_refuted`: "At most `max_n`": one more, and of items, not of relations.
* C90 `split_capitals_refuted`: Other letters are not split from digits.
* C90 `preprocess_twice_refuted`: The tokens may be stop words and short words again: cleaning the cleaned text changes it.
* C90 `comparison_lost_refuted`: Text between "<" and ">" is lost even if it is no markup.
* C90 `underscore_refuted`: "Contiguous sequences of alphabetic characters": the underscore is one of them; a word after an underscore is lost.
* C90 `decode_xi_refuted`: The names of the Greek letters xi and Xi: the first letter is taken for the mark of a hexadecimal number, so the entity stays.
* C91 `lsi_distributed_decay_refuted`: the dispatcher merges the workers' states without decay: old documents are not discounted as in the serial version
* C91 `lsi_distributed_forgets_refuted`: a second call of `add_documents` replaces what the model knew
* C91 `lsi_chunksize_refuted`: two documents of weights 100 and 1: one chunk has rank two, merging two chunks gives rank one
* C91 `lsi_scaled_refuted`: `scaled` is forgotten when a corpus is transformed in chunks; without chunks the factors go to the documents instead of the topics
* C92 `analogies_input_refuted`: "Input words to be ignored": with a case variant of an input word as the only row left, the input word itself is the prediction and is counted as correct.
* C92 `analogies_variants_refuted`: Five case variants of the input words among the best rows hide the answer: the only other word of the vocabulary is the best answer and is counted as incorrect.
* C92 `pairs_state_refuted`: After a file with an undecodable line the words of the model are no longer found.
* C93 `rank_zero_refuted`: A zero vector has the similarity 0 to every key, yet its rank is 1: nothing counts as closer.
* C93 `distances_zero_refuted`: Distance 1 for a pair of which one vector is zero, but no number among the distances to all keys.
* C93 `centrality_unnormed_refuted`: Without unit vectors the score is no similarity: the word that points exactly to the centre of the three, at which the others do not point, comes last.
* C93 `relative_similarity_refuted`: If the most similar keys are dissimilar, the less similar of two keys has the larger relative similarity.
* C94 `wmd_self_refuted`: A document may be infinitely far from itself.
* C95 `second_update_refuted`: The documents of a second update, numbered from 0, are not trained on, and the authors of the old documents are overwritten.
* C95 `empty_author_refuted`: An author without documents gets a new number at every update.
* C95 `resume_refuted`: Training goes on without new documents only if every document is in `doc2author`.
* C95 `bound_refuted`: A held-out document by `bob` is scored as the training document with the same number, by `ann`.
* C96 `at_weights_refuted`: A document of weights below 1, as from tf-idf, leaves its author at the prior.
* C97 `sample_metadata_refuted`: With metadata the first character is taken for the document, and the second for its metadata.
* C97 `step_through_refuted`: The token filters are not chained: the last output is not that of preprocessing.
* C97 `lower_refuted`: Capital letters outside ASCII stay as they are.
* C97 `file_object_refuted`: An open file is closed by the first reading, which is that of the dictionary.
* C97 `directory_length_refuted`: The end of an older stream brings the old length back.
* C97 `no_directory_refuted`: A file in place of a directory is an empty corpus, and so is a directory that cannot be listed; None as greatest depth is an error once the corpus exists.
* C97 `max_depth_none_refuted`: None as greatest depth is a TypeError once the corpus exists.
* C98 `large_step_refuted`: With a step above 2 it can.
* C98 `empty_topic_refuted`: With such a topic the stop condition is never met: all rounds are done, even if nothing changes any more.
* C98 `topics_descend_refuted`: The largest value, which is that of the first batch, can cut off so much that the error rises: documents with larger numbers later.
* C98 `chunksize_refuted`: The size of the batches given to `update` is not used.
* C98 `nmf_iterator_refuted`: An iterator with two passes given to `update`: the second is empty, and nothing is said.
* C98 `update_forgets_refuted`: So a second update forgets what the statistics were: the first batch has number 1 again.
* C98 `empty_batch_refuted`: An update that begins with a batch of documents without words turns every number of W into no number (after a new model, or a batch of another size), and no later update repairs that.
* C98 `document_query_refuted`: The question changes the model: there is no largest value any more.
* C98 `topic_terms_refuted`: But the question writes the shares into the model, so that the topics of a document are others afterwards.
* C98 `term_topics_refuted`: It, too, writes into the model: a topic can become longer than 1.
* C99 `tau_zero_refuted`: With a learning rate of 1, as after `tau=0`, the logarithm of the discount is minus infinity and the topics are no numbers.
* C99 `duplicate_ids_refuted`: An id that is twice in a document loses one of its counts.
* C99 `update_again_refuted`: A second update trains on its first chunk only.
* C99 `empty_corpus_refuted`: An empty corpus: the training never ends.
* C99 `no_corpus_refuted`: A model without a corpus: all parameters of its topics are 0, where the digamma function has a pole.
* C99 `suggested_topics_refuted`: The suggested LDA model infers with the topics of this model, but what it shows as its topics does not depend on this model at all.
* C99 `show_all_topics_refuted`: -1, documented as all topics, shows none.
* C100 `template_brace_refuted`: One brace too many in a template loses the rest of the article.
* C100 `comment_braces_refuted`: Templates go before comments: braces in a comment count.
* C100 `file_uncaptioned_refuted`: Without a caption the file keeps its brackets and its name.
* C100 `file_link_refuted`: A link inside a caption ends the file too early.
* C100 `image_article_refuted`: The pattern of files knows "image" without a colon: articles whose title begins with it are no links, and if the link shows its title the next link is lost, too.
* C100 `dash_link_refuted`: A link whose text begins with a minus is taken for a row of a table; the rest of the line is lost.
* C100 `four_levels_refuted`: Only three passes are made: deeper nesting is not resolved.
* C100 `comparisons_refuted`: Two comparisons are taken for a tag.
* C100 `exclamation_refuted`: Exclamation marks after a space or in a row are taken for cells of tables.
* C101 `excluded_pages_refuted`: With a minimum of 0 tokens the pages of other namespaces come out as empty documents.
* C101 `length_before_pass_refuted`: With a dictionary given, the length does not exist before the first pass.
* C101 `no_namespaces_refuted`: No namespaces asked for means all of them.
* C101 `prefixes_refuted`: Talk pages of users are taken for articles; an article whose title begins with "Book:" is left out.
* C101 `headings_missed_refuted`: A heading right after another one, of one character only, or followed by a space is not recognised.
* C101 `sections_namespace_refuted`: The corpus of sections reads namespace 0 whatever it was asked for.
* C102 `one_document_generator_refuted`: A generator of one document is not noticed: there are no weights and every document becomes empty.
* C102 `le_empty_corpus_refuted`: An empty list is taken for a generator.
* C102 `le_zero_count_refuted`: An explicit zero count raises.
* C102 `repeated_term_refuted`: A document that lists a term three times gives it a negative weight.
* C102 `norm_zero_refuted`: One document whose entries are all zero makes the model fail.
* C103 `unknown_id_refuted`: A document with an id beyond those of the training raises.
* C103 `repeated_id_refuted`: Of a repeated id only the last entry counts.
* C103 `small_document_refuted`: Scaling a document down far enough makes it vanish.
* C105 `gradient_refuted`: The computed gradient is not that of the objective.
* C106 `chain_bound_refuted`: With two slices the value is not the bound: the word terms of the second slice are missing from it.
* C108 `slices_refuted`: The first document of each slice but the first is counted in the slice before; a last slice of one document stays empty.
* C109 `convergence_refuted`: It does not stop when the bound does not change any more.
* C110 `leftovers_refuted`: A document's topic weights depend on the document before it in the chunk.
* C113 `corrected_scale_refuted`: The correction adds ranks to scores of images that are not normalised: a quarter of the matrix gives other translations, although all cosines are the same.
* C113 `corrected_repeat_refuted`: A repeated word counts twice: asking for the same word as often as there are words and once more raises, although the plain retrieval answers.
* C113 `corrected_sample_refuted`: The sample is drawn with replacement: it can hold the same word over and over, so that fewer words than asked for take part.
* C114 `annoy_cosine_refuted`: Perpendicular vectors are reported as 0.29 similar, opposite ones as 0.
* C115 `matrix_prior_refuted`: With one prior per topic the code adds the priors of all topics: two topics over one word, all parameters one.
* C117 `perplexity_base_refuted`: The bound is made of natural logarithms, the reported perplexity is a power of two: two words that both have probability 1/2 have perplexity 2.
* C118 `positive_prior_refuted`: Nothing requires the numbers to be positive
* C119 `diff_class_refuted`: Another kind of model gives an AttributeError instead of the documented ValueError.
* C119 `diff_diagonal_scale_refuted`: The scaled diagonal is not the diagonal of the scaled differences.
* C120 `unpack_cycle_refuted`: A cycle of three rows goes wrong: buckets 1, 2, 0 stored in this order.
* C120 `unpack_chain_refuted`: So does a bucket beyond the packed rows whose packed row is needed by another bucket.
* C120 `unpack_full_refuted`: And a full matrix is returned as it is, whatever the map.
* C121 `maintain_best_refuted`: Violation: a sparse index that keeps results sparse cannot give the best documents for a single document
* C122 `sparse_iterate_refuted`: Violation: three documents in chunks of two. The last document's similarities come one by one, as numbers.
* C122 `abandoned_refuted`: Violation: in a loop that is left early the index stops normalising its queries for good
* C123 `wmd_loop_refuted`: Violation: with a single document in the last chunk it gives numbers
* C124 `interrupted_refuted`: A process killed while moving leaves a temporary folder after which the data set can never be loaded.
* C124 `cache_refuted`: Violation: an answer that is no list (of a hotel's network) replaces the good list in the cache; data sets that are there can then no longer be loaded offline
* C124 `outdated_refuted`: Violation: an older version of a data set has an entry but cannot be loaded
* C124 `corrupt_refuted`: Violation: what is in the directory is never checked again
* C125 `batch_metrics_refuted`: Violation: otherwise they see the model before its last update. In batch training (update_every = 0) the values of the first pass are those of the untrained model, and no value belongs to the final model.
* C125 `window_order_refuted`: With a metric that is not drawn before one that is, the second pass raises IndexError.
* C125 `same_label_refuted`: Violation: of two metrics with the same label only the last is kept
* C127 `predict_fasttext_refuted`: Violation: a FastText model claims to contain every word, so that an unknown word in the context is a KeyError
* C128 `stale_dictionary_refuted`: A model saved without its dictionary over an older save gets the dictionary of the older model.
* C128 `stale_state_refuted`: A model without state (after `clear`) gets the state of the older save.
* C128 `ignore_none_refuted`: `ignore=None`: TypeError after the state was overwritten, so the old model comes back with the new state.
* C128 `ignore_string_refuted`: Ignoring another attribute, given as a string that contains 'id2word', loses the dictionary.
* C128 `other_name_refuted`: A model saved as "m.state" replaces the state of the model "m".
* C128 `lost_state_refuted`: An unreadable state file goes unnoticed: the model is loaded without state.
* C129 `grown_dictionary_refuted`: A table of ids filled before the dictionary grew is used as it is: a word of the dictionary is a KeyError.
* C129 `hs_lost_refuted`: Hierarchical softmax cannot be asked for: `hs` is always replaced by 0 (the code reads the argument `hw`, which Word2Vec does not have).
* C130 `hs_weights_lost_refuted`: The weights of hierarchical softmax are lost in an upgrade, although the model still uses it.
* C130 `exponent_lost_refuted`: So are the exponent of negative sampling and the bound of the vocabulary: the table is rebuilt with 0.75.
* C130 `int_keys_refuted`: With integers as keys, attributes go to the wrong rows.
* C130 `old_documents_refuted`: Vectors of documents
* C131 `hdp_negative_refuted`: A negative number of words shows nothing for LDA, but for HDP all words except the last ones.
* C132 `int_tags_vocab_refuted`: With integer tags only there is nothing to sort by: asking for a vocabulary file raises ValueError after the words were written, under a header that counts the missing tags; the file cannot be loaded.
* C132 `int_tags_twice_refuted`: The same tags are written twice; the header counts them once.
* C132 `same_text_tags_refuted`: The tags 0 and "0" are different, but only one of them comes back.
* C132 `tag_is_word_refuted`: Without a prefix a tag that is also a word is lost.
* C132 `glove_twice_refuted`: A GloVe file with a word twice is converted to a file that cannot be loaded, and cannot be turned into tensor files.
* C133 `surrogates_refuted`: The entities "&#55357;&#56832;" become two surrogates in the text (utils.py, `decode_htmlentities`); who reads the line gets one character instead.
* C134 `hash_text_tab_refuted`: A tabulator in a word: two dictionaries with different words give the same file.
* C135 `brown_slash_refuted`: A word with a slash is left out without notice.
* C135 `brown_order_refuted`: The order of the sentences is that of `os.listdir`, which is arbitrary; `PathLineSentences` sorts.
* C135 `brown_empty_word_refuted`: An empty word before the tag counts as a word.
* C136 `sparse_bags_refuted`: Iterating over a corpus of sparse files that is to give bags of words gives no bags of words.
* C136 `same_bags_refuted`: The bags of words of dense and of sparse files differ.
* C136 `resized_rows_refuted`: Resizing a corpus of sparse files that gives dense rows: afterwards no row can be had.
* C136 `coercing_refuted`: The dimension given is not the one used, though a warning says so; and the corpus that is transformed would have known.
* C136 `transformed_refuted`: For a transformed corpus, the dimension given is used, although another one would be found without it.
* C137 `w2v_iterator_refuted`: An iterator that is no generator is accepted, and nothing is left of it for training.
* C137 `epochs_lost_refuted`: A call without the number of epochs is refused, but the model has lost its own number, and training with that is refused as well.
* C137 `loss_lost_refuted`: The setting compute_loss is lost in the first training that does not repeat it.
* C137 `rates_refuted`: A last learning rate of 0 is not used; one that was given stays for the trainings to come.
* C137 `dm_mean_refuted`: The argument dm_mean has no effect.
* C137 `dm_two_refuted`: With dm = 2 the model is one without word order, and still has the layer for concatenation.
* C138 `annoy_again_refuted`: What was loaded into a new indexer cannot be saved again; its file of the index is written and the other is not.
* C138 `nms_query_refuted`: The parameters for queries are not set for a loaded index of nmslib: it answers otherwise than the saved one.
* C139 `wes_negative_refuted`: With a negative threshold the even exponent gives words of opposite meaning the similarity of synonyms, and the answers are no longer in order.
* C139 `wes_crowded_refuted`: Words outside the dictionary use up the places: two words of the dictionary that are similar get the entry zero, though nothing else is in the column.
* C139 `shortest_uint_refuted`: Limits of 2^64 and more do not fit the chosen type.
* C140 `seq_lengths_refuted`: The lengths of the documents are not the numbers of their words: they need not add up to the total of the words.
* C140 `seq_gap_refuted`: A gap in the ids: the topics can be printed or not depending on what is asked for, the visualisation always fails.
* C141 `cohwords_stale_refuted`: The reverse map is made once and not renewed: after more documents the words of the new, larger model cannot be found; looking any word up in the dictionary repairs it.
* C142 `hdp_eval_untrained_refuted`: Evaluating a model that was not trained makes it answer queries with its random topics, where it raised an error before.
* C142 `hdp_eval_stale_refuted`: Evaluation stores topics that later training does not renew.
* C142 `hdp_outputdir_refuted`: With one, there is never a model: the options are texts, and their file takes bytes only. What was in the file is lost; no other file changes.
* C143 `lex_duplicate_refuted`: A pair that was judged twice counts once, with its last score.
* C143 `csvcorpus_refuted`: No file gives a CSV corpus: its lines are read as bytes and joined as texts; of an empty file no dialect can be guessed.
* C144 `nmf_show_none_refuted`: No topics asked for: all are shown.
* C144 `nmf_show_changes_refuted`: Showing one topic changes what the model shows without shares.
* C145 `shared_expand_refuted`: Violation: expanding the vocabulary of one model leaves the other with words without rows.
* C145 `shared_build_refuted`: Violation: building the vocabulary of one model again changes the counts of the other.
* C145 `shared_doc2vec_refuted`: Violation: the words of a document model that is reset keep the rows it had, now under other words.
* C145 `expand_counts_refuted`: Violation: counts left by another vocabulary are added to new words.
* C146 `dir_root_refuted`: Violation: articles of a source at the root, or at '.', are looked for at a wrong place.
* C146 `dictionary_tab_refuted`: Violation: a word with a tab is lost without notice, and a last line that does not end loses its last character.
* C146 `similar_zero_refuted`: Violation: zero is to store all similar articles, but only the first is.
* C147 `gap_refuted`: Violation: with a gap between the ids, the greatest has no room in three of the models.
* C147 `fake_refuted`: Violation: the mapping another model made for itself cannot be used for random projections, but for all others.
* C147 `nothing_refuted`: Violation: factorization without corpus and mapping raises TypeError where the others say what is missing.
* C148 `destroy_other_refuted`: Violation: destroying an index deletes the shards of another whose prefix is longer.
* C148 `save_other_refuted`: Violation: an index saved under its prefix overwrites a shard of another; a dot at the end of a prefix makes two indexes write the same shards.
* C149 `formula_refuted`: Violation: formulas are not in the form of the documentation, a dollar sign before and after the expression, but shown as bytes.
* C149 `cut_word_refuted`: Violation: a word handed over in two pieces becomes two words.
* C150 `no_reset_refuted`: Violation, were the reset left out: workers that have not been asked, or that have given their states and stopped, never take a job, and the waiting does not end.
* C151 `override_stays_refuted`: Violation: what a call overrides stays overridden; a value can be of the model of an earlier call.
* C152 `base_article_refuted`: Violation: a source whose own directory is an article finds nothing, although there are articles in it.
* C152 `same_number_refuted`: Violation: the number does not identify an article.

## Trusted base

* The Coq 8.16.1 kernel, with all its checks switched on.
* The axioms that `Print Assumptions` lists, by theorem, in the list below. They are those of the standard library's real numbers (`sig_forall_dec`, `sig_not_dec`,
  functional extensionality, and `classic` where `Rpower`, `ln` or `exp` come in). No other library is used, and there is no axiom, parameter or
  admitted proof in the files of this repository. Many theorems about parametric code (a hash function, a random generator, floating-point operations, an operating
  system) take these as universally quantified arguments; the hypotheses they need are in the statement of the theorem.
* The translation by hand of the Python and Cython code to Gallina, documented definition by definition with file and line numbers.
* For the transition systems: the granularity of the steps that the comments give (a Python statement under the interpreter lock, a queue operation, a message).

### Print Assumptions


* **Closed under the global context** (790 theorems):
  * `Dictionary_Properties`: dictionary_ids_dense, dictionary_gap_update_refuted, dictionary_statistics_exact, doc2bow_exact, doc2bow_readonly_exact, dictionary_growth_stable, dictionary_add_documents_stable, dictionary_prune_stability_refuted, filter_extremes_exact, filter_extremes_keep_tokens_refuted, filter_tokens_exact, compactify_exact, filter_n_most_frequent_exact, compactify_from_corpus_refuted, dictionary_text_roundtrip, reachable_consistent, dictionary_text_tab_refuted, reverse_lookup_correct, patch_two_tokens_refuted, merge_with_exact, merge_with_cfs_refuted, patch_one_token, patch_statistics_refuted, patch_stale_cache_refuted
  * `HashDictionary_Properties`: hashdict_doc2bow_exact, hashdict_doc2bow_deterministic, hashdict_counters_exact, hashdict_readonly_refuted, hashdict_debug_exact, hashdict_tables_agree, hashdict_filter_extremes_exact, hashdict_filter_bucket_dfs_refuted
  * `MmCorpus_Properties`: mm_write_succeeds, mm_roundtrip, mm_doc_written_exact, mm_big_id_refuted, mm_short_id2word_refuted, mm_transposed, mm_random_access
  * `LineCorpora_Properties`: svm_roundtrip, svm_save_total, svm_comment_ignored, svm_last_char_refuted, svm_label_hash_refuted, svm_qid_ignored, blei_roundtrip, blei_filtered_unreadable, blei_vocab_roundtrip, blei_small_counts_exact, blei_large_count_refuted, blei_zero_refuted, blei_vocab_complete, blei_vocab_complete_ids
  * `LowMallet_Properties`: low_save_total, low_roundtrip, low_roundtrip_exact, low_read_without_vocab, low_no_id2word_refuted, low_duplicate_word_refuted, mallet_roundtrip, mallet_roundtrip_meta, mallet_metadata_without_vocab_fails, mallet_docid_space_refuted
  * `LowPlain_Properties`: low_plain_roundtrip, low_plain_negative, mallet_plain_roundtrip
  * `Uci_Properties`: uci_save_total, uci_roundtrip, uci_vocab_roundtrip, uci_dictionary, uci_dictionary_repeated_id_refuted, uci_header_overflow_refuted, uci_vocab_complete
  * `Utils_Properties`: chunkize_serial_exact, chunkize_serial_zero_refuted, repeat_corpus_exact, repeat_corpus_empty_refuted, repeat_corpus_ntimes_exact, clipped_corpus_exact, clipped_corpus_none_len_refuted, sliced_iter_exact, sliced_len_iff, sliced_len_forward, sliced_len_negative_step_refuted, sliced_len_empty_slice_refuted, sliced_stream_exact, sliced_stream_len_refuted, sliced_pylist_refuted, prune_vocab_exact, prune_vocab_le_refuted, trim_vocab_exact, trim_vocab_zero_refuted, merge_counts_exact, iter_windows_exact, iter_windows_num_exact, get_max_id_exact, dict_from_corpus_covers, fakedict_lookups_agree, fakedict_keys_refuted, flatten_exact, is_corpus_preserves_stream
  * `Chunkize_Properties`: chunkize_background_safe, chunkize_background_progress, chunkize_background_terminates, chunkize_background_complete, chunkize_background_raising_refuted
  * `Matutils_Properties`: corpus2csc_slow_roundtrip, corpus2csc_paths_agree, corpus2csc_wrong_counts_raise, corpus2csc_entries, sparse2corpus_minus_one_empty, sparse2corpus_negative_index_refuted, sparse2full_exact, sparse2full_out_of_range, full2sparse_exact, sparse_dense_sparse_roundtrip, dense_sparse_dense_roundtrip, corpus2dense_roundtrip, corpus2dense_num_docs_checked, sparse2full_negative_id_refuted, argsort_is_topn, full2sparse_clipped_is_topn, numpy_contracts_satisfiable, jaccard_bow_range, jaccard_bow_self, jaccard_bow_symmetric, jaccard_bow_zero_division, jaccard_sets_metric_facts, jaccard_distance_metric_facts, convert_vec_small_ids, convert_vec_large_id_fails, convert_vec_refuted
  * `MatClip_Properties`: scipy_clipped_row_is_topn, scipy_clipped_matrix_is_topn, scipy_clipped_empty_refuted, scipy_clipped_width_refuted
  * `ShardedCorpus_Properties`: sharded_int, sharded_int_out_of_range, sharded_list, sharded_list_fails, sharded_slice, sharded_slice_outside, sharded_iter, sharded_build, sharded_step_refuted, sharded_empty_list_refuted, sharded_resize, sharded_reopen_after_resize_refuted, sharded_clone_shardsize_refuted, sharded_negative_resize_refuted
  * `Docsim_Properties`: sim_len, sim_vector_by_id, sim_vector_by_id_range, sim_add_total, sim_query_all, sim_shards, sim_zero_weight_refuted, sim_abandoned_iteration_refuted, sim_stale_save_refuted, sim_empty_refuted, sim_best_topk, sim_best_corpus
  * `Phrases_Properties`: phrases_reading, phrases_cover, frozen_cover, phrases_empty_token_refuted, learn_vocab_counts, learn_vocab_exact, phrases_counts_upper, phrases_counts_exact, freeze_total, freeze_same, freeze_default_refuted, live_repeat_refuted, freeze_nan_refuted, freeze_delimiter_refuted, load_frozen_same, load_frozen_old, load_connectors_refuted, load_tuple_keys_refuted, default_phrase_frequent
  * `KeyedVectors_Properties`: kv_lookup, kv_aligned, add_vector_index, kv_batch_duplicate_refuted, kv_slot_duplicate_refuted, add_vector_index_refuted, kv_int_key_refuted, add_vectors_extras_fails, add_vectors_extras_refuted, add_vectors_short_refuted, kv_norm_fresh, kv_norm_stale_refuted, most_similar_top, most_similar_excludes, most_similar_edges, most_similar_excludes_refuted, most_similar_stale_refuted
  * `W2vFormat_Properties`: w2v_text_roundtrip, w2v_text_no_header, load_text_file, w2v_short_line_refuted, w2v_space_key_refuted, w2v_int_keys_refuted, w2v_limit_zero_refuted, w2v_free_slot_refuted, w2v_binary_roundtrip, load_binary_file, w2v_binary_chunk_refuted, w2v_vocab_roundtrip, w2v_resave_refuted
  * `Huffman_Properties`: huffman_total, huffman_codes, huffman_frequent, huffman_points, sorted_heap_ok
  * `TrainSched_Properties`: epoch_complete, epoch_progresses, epoch_terminates, epoch_can_end, epoch_totals, bounds_ok, epoch_failing_never_ends, epoch_raising_never_ends, no_workers_refuted
  * `W2vVocab_Properties`: scan_vocab_counts, max_final_vocab_ok, max_final_vocab_kept, w2v_first, max_final_ties_refuted, max_final_rule_refuted, w2v_update, w2v_history, w2v_update_empty, w2v_rebuild_more_refuted, w2v_rebuild_same_refuted, w2v_rebuild_fewer_refuted, w2v_update_null_refuted, w2v_dry_run_refuted, w2v_min_count_zero, vocab_report
  * `NegSampling_Properties`: bisect_left_ok, draw_ok, draw_counts, draw_proportional_refuted, lcg_period, lcg_range, lcg_distinct
  * `Sentences_Properties`: text8_tokens, text8_characters, text8_pieces, line_sentence_ok, line_sentence_tokens, line_sentence_bad, saved_sentences_ok, saved_sentences_roundtrip, saved_empty_refuted, path_order, path_sentences_ok, text8_merge_refuted, text8_long_refuted, zero_length_refuted, subdirectory_refuted, decode_strict
  * `FtBin_Properties`: zero_count_refuted, load_save, facebook_round_trip, save_succeeds, no_trailing_bytes, truncated_never_loads, truncated_word_loops, utf8_coding, batches_do_not_matter, both_layers_refuted, no_layer_refuted, null_word_refuted, utf16_refuted, facebook_layout, old_format_layout
  * `LdaDispatch_Properties`: getstate_exactly_once, wait_over_all_done, jobs_conserved, failed_job_never_returned, failed_job_hangs, getstate_returns, putjob_returns, reset_discipline, update_keeps_discipline, abandoned_epoch_refuted
  * `TermSim_Properties`: termsim_total, termsim_diagonal, termsim_symmetric, termsim_limit, termsim_dominant, termsim_answered, termsim_maximal, termsim_exact, uniform_good, termsim_float16_fails, termsim_float16_refuted, termsim_missing_idf_refuted, termsim_missing_idf_key_refuted, termsim_self_refuted
  * `Levenshtein_Properties`: lev_least, lev_metric, levdist_bounded
  * `Tfidf_Properties`: tfidf_corpus_statistics, filtered_describes, tfidf_b_corpus_refuted, resolve_weights_exact
  * `SaveLoad_Properties`: save_intact, save_success_intact, save_flat_intact, save_only_loses, save_load_roundtrip, save_load_all, nested_failure_refuted, outer_failure_refuted, cycle_refuted, shared_refuted, separately_refuted, scalar_array_refuted, stale_refuted, mmap_compressed
  * `KeyedVectors_Properties2`: kv_sort, kv_sort_lost_refuted, kv_sort_untidy_refuted, kv_sort_norms_refuted
  * `TrainJobs_Properties`: prepare_batch_ok, prepare_batch_all, batch_pairs_ok, batch_pairs_once, prepared_pairs_once, batch_overflow_refuted
  * `FtNgrams_Properties`: compute_ngrams_bytes_places, compute_ngrams_places, ngrams_same, ft_hash_fnv, ngram_hashes, ft_hash_not_fnv_refuted, ngrams_single_refuted, ngrams_surrogate_refuted
  * `FtVectors_Properties`: ft_add_vectors_ignored
  * `CorpusFile_Properties`: cython_iter_ok, cython_iter_line_sentence, cython_iter_unicode_refuted, cython_iter_ascii_refuted, next_batch_spec, epoch_in_order, epoch_one_worker, epoch_no_overflow, epoch_words, epoch_loses_words, long_line_lost, sentence_idx_overflow_refuted, workers_overlap_refuted, workers_cut_word_refuted
  * `DocFile_Properties`: offsets_ok, offsets_empty_refuted, docs_some, docs_in_order, docs_own_tags, docs_one_worker, blank_line_refuted, workers_gap_refuted, workers_twice_refuted, empty_file_refuted, dmc_tags, dmc_wrong_tag_refuted, dmc_update_refuted
  * `CohAccum_Properties`: accumulate_seen, accumulate_below, accumulate_exact, accumulate_short, repeated_word_refuted, num_docs_relevant_refuted, accumulate_twice_refuted
  * `CohPar_Properties`: parallel_exact, parallel_progress, parallel_finite, parallel_crash_refuted, parallel_hang_refuted, corpus_exact, inverted_index_exact, inverted_index_fails, worker_replies
  * `CohUMass_Properties`: s_one_pre_pairs, s_one_one_pairs
  * `CohModel_Properties`: truncation_refuted, topics_replaced_refuted, topn_grid_steps
  * `DocTags_Properties`: scan_tags_exact, tags_built, tags_updated, from_freq_no_tags, scan_docs_counts, update_tags_refuted, update_takes_over_refuted, stale_tag_refuted, stale_tag_outside_refuted, rebuild_fewer_tags_refuted, unused_integer_refuted, doc_count_twice_refuted
  * `DocTrain_Properties`: dbow_touches, dm_touches, concat_touches, locked_tag, locked_word, infer_untouched, infer_concat_tags, no_words_nothing, dm_word_lock_refuted, dm_word_lock_outside_refuted, infer_zero_alpha_refuted
  * `HsScore_Properties`: lock_value
  * `ScoreSched_Properties`: score_complete, score_progresses, score_terminates, score_ends, score_error, score_queues, score_empty_refuted
  * `Porter_Properties`: stem_porter, longest_suffix, measure_form, stem_form, stem_sentence_tokens, stem_documents_each, stem_recursion_refuted, stem_twice_refuted
  * `LdaTrain_Properties`: chosen_topics_count, no_topics_refuted
  * `LdaMulti_Properties`: multicore_conserves, multicore_bounded, multicore_pass, multicore_batch, multicore_settles, multicore_can_finish, multicore_failure_hangs, multicore_loses_refuted
  * `PoincareVocab_Properties`: build_vocab_exact, new_model_wf, bad_relation, failed_update_refuted, no_relations_refuted, draw_shares, negatives_valid, negatives_reachable, few_negatives, prepare_exact, self_negative_refuted, poincare_batches_exact, poincare_train_ok, burn_in_once, burn_in_complete, failed_burn_in_refuted, negative_batch_refuted
  * `PoincareQuery_Properties`: closest_child_exact, closest_parent_exact, ancestors_exact, descendants_exact, most_similar_exact, difference_antisymmetric, descendants_refuted, most_similar_first_refuted, int_node_refuted
  * `PoincareEval_Properties`: avg_precision_exact, avg_precision_bounds, self_counts, perfect_refuted, evaluated_all, evaluated_bound, max_n_refuted, score_function_exact
  * `Text_Properties`: strip_tags_exact, strip_tags_none_left, strip_numeric_exact, strip_non_alphanum_exact, strip_punctuation_exact, strip_whitespaces_exact, split_alphanum_exact, split_capitals_refuted, remove_stopwords_exact, strip_short_exact, preprocess_string_exact, preprocess_twice_refuted, comparison_lost_refuted, simple_tokenize_exact, simple_preprocess_exact, underscore_refuted, decode_plain, decode_decimal, decode_hex, decode_name, decode_xi_refuted, decode_escape, punctuation_exact
  * `KvEval_Properties`: ok_vocab_first, analogies_sections, answerable_case_sensitive, section_name, analogies_state, analogies_errors, pairs_exact, pairs_undecodable, analogies_input_refuted, analogies_variants_refuted, pairs_state_refuted
  * `KvSim_Properties`: most_similar_to_none
  * `AtMaps_Properties`: doc2author_made, author2doc_made, update_consistent, agree_from_author2doc, agree_from_doc2author, one_pass_exact, local_ids_miss, new_author_restores, bound_ignores, bound_training, update_other_cases, bound_rejects, second_update_refuted, empty_author_refuted, resume_refuted, bound_refuted
  * `TextCorpus_Properties`: sample_exact, sample_uniform, draws_all, sample_rejects, sample_too_long, sample_metadata_refuted, step_through_exact, step_through_refuted, lower_exact, lower_refuted, corpus_complete, metadata_exact, file_object_refuted, directory_files, directory_default, directory_documents, directory_length, directory_length_refuted, no_directory_refuted, max_depth_none_refuted
  * `Rp_Properties`: rp_draws_all
  * `Nmf_Properties`: passes_exact
  * `W2vSession_Properties`: w2v_iterator_refuted, train_accepts, train_refuses, d2v_train_same, build_exact, construct_steps, construct_generator, history_counts, d2v_settings_exact, epochs_lost_refuted, loss_lost_refuted, rates_refuted, dm_mean_refuted, dm_two_refuted
  * `Hdp_Properties`: show_topics_count
  * `Wiki_Properties`: template_exact, template_none_left, template_unique, template_brace_refuted, comment_braces_refuted, files_captioned, file_uncaptioned_refuted, file_link_refuted, no_tags_left, no_brackets_left, never_longer, plain_untouched, markup_exact, interlinks_found, tokens_exact, tokens_order, image_article_refuted, dash_link_refuted, four_levels_refuted, comparisons_refuted, exclamation_refuted
  * `WikiPages_Properties`: pages_exact, texts_exact, processes_irrelevant, default_tokenizer, sections_lossless, sections_exact, sections_corpus, excluded_pages_refuted, length_before_pass_refuted, no_namespaces_refuted, prefixes_refuted, headings_missed_refuted, sections_namespace_refuted
  * `Trans_Properties2`: corrected_needs_sample
  * `LdaBound_Properties2`: no_documents, annotation
  * `FtUnpack_Properties`: unpack_restores, unpack_rows, unpack_cycle_refuted, unpack_chain_refuted, unpack_full_refuted, unpack_fails
  * `Downloader_Properties`: only_verified, load_present, load_offline, load_arrives, load_failed, left_over_stuck, interrupted_refuted, cache_refuted, outdated_refuted, corrupt_refuted
  * `Callbacks_Properties`: metrics_history, metrics_see_pass, batch_sees_start, batch_metrics_refuted, window_order_refuted, same_label_refuted
  * `Intersect_Properties`: intersect_text_merges, intersect_binary_merges, always_fails, truncated_hangs, single_lock_stops, single_lock_all
  * `Predict_Properties`: predict_fails
  * `LdaSave_Properties`: smart_extension_beside, lda_roundtrip, lda_save_ok, lda_others_safe, stale_dictionary_refuted, stale_state_refuted, ignore_none_refuted, ignore_string_refuted, other_name_refuted, lost_state_refuted
  * `W2vCoh_Properties`: id_table_fresh, train_args_kept, train_args_set, hs_lost_refuted, hs_always_zero
  * `Upgrade_Properties`: upgrade_w2v_moves, upgrade_w2v_current, upgrade_loses_syn1, hs_weights_lost_refuted, exponent_lost_refuted, upgrade_kv_words, upgrade_kv_current, upgrade_doctags_fails, int_keys_refuted, old_documents_refuted
  * `ShowTopics_Properties`: lsi_show_topic_best, lsi_topics_agree, lsi_show_topic_missing, lsi_show_topics_list, lda_terms_best, lda_terms_share, lda_show_topic_words, top_topics_sorted, hdp_show_topic_best, hdp_negative_refuted
  * `D2vFormat_Properties`: d2v_text_combined, d2v_binary_combined, d2v_single, d2v_vocab, glove_exact, glove_info_lines, tensor_lines, int_tags_vocab_refuted, int_tags_twice_refuted, same_text_tags_refuted, tag_is_word_refuted, glove_twice_refuted
  * `SegmentJson_Properties`: json_read_back, json_ascii, lines_tell, dump_to_lines, surrogates_refuted
  * `HashText_Properties`: hash_text_exact, hash_text_no_debug, hash_text_determines, hash_text_tab_refuted
  * `Brown_Properties`: brown_sentences, brown_tags_distinct, brown_bad_line, brown_slash_refuted, brown_order_refuted, brown_empty_word_refuted
  * `ShardFormat_Properties`: one_document, many_documents, iterating, bags_come_back, resize_kind, dimension_derived, dimension_given, chain_total, sparse_bags_refuted, same_bags_refuted, resized_rows_refuted, coercing_refuted, transformed_refuted
  * `Indexers_Properties`: annoy_answers, annoy_saved, annoy_missing, annoy_none, nms_answers, nms_saved, annoy_again_refuted, nms_query_refuted
  * `WordEmbIndex_Properties`: wes_unknown, wes_best, wes_words, wes_again, wes_order, wes_matrix, shortest_uint_fits, wes_negative_refuted, wes_crowded_refuted, shortest_uint_refuted
  * `SeqViews_Properties`: seq_print_topic, seq_outside, seq_lists, seq_coherence, seq_vis, seq_mixture, seq_lengths_refuted, seq_gap_refuted
  * `CohWords_Properties`: cohwords_right, cohwords_all, cohwords_stale_refuted
  * `LexEval_Properties`: lex_scores_exact, lex_eval_exact, lex_duplicate_refuted, csvcorpus_refuted
  * `NmfShow_Properties`: nmf_show_all, nmf_show_some, nmf_show_one, nmf_show_none_refuted, nmf_show_changes_refuted
  * `SharedVocab_Properties`: shared_consistent, shared_others, shared_counts, reset_exact, shared_expand_refuted, shared_build_refuted, shared_doc2vec_refuted
  * `SharedCounts_Properties`: shared_build_exact, shared_expand_exact, expand_counts_refuted
  * `Dmlcz_Properties`: meta_exact, dir_found, dir_root_refuted, content_longest, dictionary_back, dictionary_tab_refuted, similar_exact, similar_zero_refuted
  * `Space_Properties`: keys_exact, space_corpus_exact, length_exact, all_alike, gap_refuted, fake_refuted, nothing_refuted
  * `IndexFiles_Properties`: shard_name_inj, shards_on_disk, destroy_exact, destroy_other_refuted, save_other_refuted
  * `Arxmliv_Properties`: xml_exact, own_one, pieces_exact, normalize_exact, formula_refuted, cut_word_refuted
  * `LsiDispatch_Properties`: states_exact, never_stuck, acts_end, waiting_ends, no_reset_refuted
  * `MetricParams_Properties`: metric_value, metric_fails, override_stays_refuted
  * `DmlFind_Properties`: articles_found, articles_all, content_own, base_article_refuted, same_number_refuted
* `ClassicalDedekindReals.sig_forall_dec` (8 theorems):
  * `Tfidf_Properties`: tfidf_dfs_agree, dictionary_describes, tfidf_duplicates_refuted
  * `Nmf_Properties`: batch_order, chunksize_refuted
  * `Rp_Properties`: trained_projectable, repeated_id_refuted
  * `Trans_Properties2`: corrected_sample_refuted
* `ClassicalDedekindReals.sig_forall_dec`, `FunctionalExtensionality.functional_extensionality_dep` (78 theorems):
  * `TrainJobs_Properties`: jobs_greedy, jobs_alpha, jobs_alpha_decreasing, alpha_epochs, alpha_epochs_refuted, alpha_rising_refuted, end_alpha_zero_refuted, no_totals_refuted, empty_job_refuted, jobs_prepared
  * `NegSampling_Properties`: cum_table_ok, cum_table_fair
  * `SoftCosine_Properties`: termsim_positive, soft_cauchy_schwarz, no_cancellation
  * `DocTrain_Properties`: infer_alpha_linear
  * `W2vTable_Properties`: table_index_range, table_unused_refuted
  * `HsScore_Properties`: score_input_alone, score_input_value
  * `LdaTrain_Properties`: gamma_mass, gammas_each, statistics_mass, statistics_repeated_refuted, blend_mass, document_topics_spec, term_topics_sorted_refuted, estep_of_parts
  * `Lsi_Properties`: lsi_clip_spectrum, lsi_action, lsi_uncorrelated, lsi_corpus, lsi_scaled_refuted
  * `AtInfer_Properties`: at_words_shared, at_rows, at_stored, at_sequential, at_statistics, at_single_is_lda, at_author_order, at_counts, at_fractions_lost, author_topics_spec, at_weights_refuted
  * `Nmf_Properties`: large_step_refuted, step_best, rest_is_best, empty_topic_zero, topics_sum, topic_terms_sum, term_topics_exact, term_topics_refuted
  * `Hdp_Properties`: suggested_topics_refuted, show_all_topics_refuted
  * `LdaSeq_Properties`: smoother_marginals, marginals_unique, forward_values, smoothing_helps, mean_derivative, mean_deriv_too_small
  * `LdaSeq_Properties2`: statistics_of_document, training_rounds, convergence_refuted
  * `LdaSeq_Properties3`: limit_values, start_values
  * `LdaBound_Properties2`: diff_cells, diff_normed, diff_diagonal, diff_fails, diff_class_refuted, diff_diagonal_scale_refuted
  * `DocIndex_Properties`: wmd_values, wmd_loop, wmd_loop_refuted
  * `HdpEval_Properties`: hdp_eval_exact, hdp_eval_fails, hdp_eval_order, hdp_eval_parts
* `ClassicalDedekindReals.sig_forall_dec`, `ClassicalDedekindReals.sig_not_dec`, `FunctionalExtensionality.functional_extensionality_dep` (177 theorems):
  * `MatReal_Properties`: cossim_bounded, cossim_symmetric, cossim_self_one, cossim_error_iff, cossim_scale_invariant, hellinger_symmetric, hellinger_range, hellinger_zero_iff, hellinger_triangle, hellinger_dense_range, unitvec_bow_l2, unitvec_bow_l1, unitvec_bow_zero, unitvec_bow_idempotent, unitvec_dense_norm, unitvec_zero_refuted, unitvec_csr_argument_refuted, unitvec_unique_formats_refuted
  * `KvReal_Properties`: kv_norm_unit
  * `Downsample_Properties`: downsampled_iff, probability_decreasing, sample_int_ok, no_sampling, fraction_sampling, count_sampling_lenient, count_sampling_refuted, count_sampling_intended
  * `Tfidf_Properties`: tfidf_default_transform, pivoted_length, tfidf_corpus_eps_refuted
  * `SoftCosine_Properties`: inner_vectors_full, soft_vectors, soft_corpora, soft_vector_corpus, soft_cosine_range, maintain_length, nonnegative_accepted, soft_cosine_corpus_refuted, cancellation_refuted, not_dominant_refuted, duplicates_refuted, soft_empty
  * `FtVectors_Properties`: ft_step_coherent, ft_history_coherent, ft_known_word, ft_unknown_word, ft_save_load, ft_add_vector_refuted, ft_normalized_save_refuted, ft_sort_refuted, ft_contains_refuted
  * `W2vTable_Properties`: table_sign
  * `PoincareGeo_Properties`: clip_border_refuted, clip_dimensions_refuted, clip_single, clip_versions_refuted
  * `PoincareTrain_Properties`: init_in_ball
  * `Lsi_Properties`: lsi_merge, lsi_merge_trivial, lsi_train, lsi_above, lsi_train_energy, lsi_svd, lsi_svd_exact, lsi_distributed, lsi_distributed_decay_refuted, lsi_distributed_forgets_refuted, lsi_chunksize_refuted
  * `KvSim_Properties`: similarity_exact, similarity_unknown, n_similarity_exact, n_similarity_single, n_similarity_empty, distances_exact, closer_than_exact, rank_order, most_similar_to_given_first, centrality_exact, doesnt_match_exact, doesnt_match_invariant, doesnt_match_two, doesnt_match_none, similar_score_exact, similar_score_weights, cosmul_exact, cosmul_monotone, cosmul_single, relative_similarity_sum, relative_similarity_average, rank_zero_refuted, distances_zero_refuted, centrality_unnormed_refuted, relative_similarity_refuted
  * `Wmd_Properties`: wmd_exact, wmd_infinite, wmd_symmetric, wmd_bounds, wmd_shares_only, wmd_same, wmd_triangle, wmd_single, wmd_separates, wmd_average, emd_exists, wmd_self_refuted
  * `Nmf_Properties`: nmf_iterator_refuted, documents_apart, weights_nonneg, weights_descend, empty_topic_refuted, topics_feasible, topics_descend, topics_descend_refuted, solution_descends, training_feasible, statistics_exact, update_forgets_refuted, empty_batch_refuted, nan_forever, document_topics_exact, document_query_refuted, topic_terms_refuted
  * `Hdp_Properties`: lda_of_hdp, numbering_agrees, getitem_untrained, getitem_shares, getitem_empty
  * `LogEntropy_Properties`: norm_model_exact, norm_zero_refuted
  * `Rp_Properties`: projection_exact, inner_products_kept, distances_kept, unknown_id_refuted, small_document_refuted
  * `LdaSeq_Properties`: objective_gradient, gradient_always_wrong, gradient_refuted
  * `LdaSeq_Properties2`: fitted_words
  * `Trans_Properties`: train_exact, train_least, exact_dictionary, train_fails, translate_nearest, translate_scale
  * `Trans_Properties2`: corrected_order, corrected_possible, corrected_scale_refuted, corrected_repeat_refuted, annoy_order, annoy_is_cosine, annoy_cosine_refuted, nmslib_cosine
  * `LdaBound_Properties2`: symmetric_prior, asymmetric_prior, prior_fails, priors_shapes, positive_prior_refuted
  * `DocIndex_Properties`: dense_query, sparse_query, same_index, query_bounded, corpus_query, maintain_best_refuted, index_fails, dense_iterate, sparse_iterate, sparse_iterate_refuted, abandoned_refuted
  * `Predict_Properties`: predict_exact, predict_none, predict_order, predict_fasttext_refuted
  * `W2vCoh_Properties`: w2v_sims_exact, word2vec_similarity_exact, word2vec_similarity_fails, grown_dictionary_refuted
  * `HdpEval_Properties`: hdp_eval_untrained_refuted
* `ClassicalDedekindReals.sig_forall_dec`, `ClassicalDedekindReals.sig_not_dec`, `Classical_Prop.classic`, `FunctionalExtensionality.functional_extensionality_dep` (143 theorems):
  * `LogEntropy_Properties`: le_empty_corpus_refuted, le_zero_count_refuted, weights_exact, weight_bounds, transform_exact, one_document_generator_refuted, repeated_term_refuted
  * `Levenshtein_Properties`: levsim_exact, levsim_range, lev_most_similar_ok, levsim_bound_refuted, levsim_threshold_refuted, levsim_zero_refuted, levsim_empty_refuted
  * `Tfidf_Properties`: tfidf_same, tfidf_documents_same, filtered_pivot_refuted, df2idf_facts, tfidf_common_dropped, smart_idf, tfidf_b_unknown_refuted, tfidf_a_empty_refuted, tfidf_zero_frequency_refuted, tfidf_identity_pivot_refuted, tfidf_empty_dictionary_refuted, smart_tf
  * `PhrasesNpmi`: npmi_in_range
  * `CohUMass_Properties`: u_mass_exact, u_mass_short, u_mass_bag, u_mass_range, u_mass_nonpositive_refuted, u_mass_unseen_word_refuted
  * `CohNpmi_Properties`: log_ratio_exact, log_ratio_unseen, npmi_range, npmi_above_one_refuted, npmi_always_together_refuted
  * `CohCosine_Properties`: cosine_exact, cosine_range
  * `CohModel_Properties`: cache_exact, compare_exact, for_topics_exact, raised_topn_refuted, topics_none_refuted, short_topics_refuted, restore_refuted
  * `W2vGrad_Properties`: pass_climbs, neg_loss, hs_loss, loss_no_effect, dbow_climbs, ctx_climbs, cbow_gradient_refuted, hs_loss_refuted
  * `W2vTable_Properties`: table_error
  * `HsScore_Properties`: hs_distribution, score_sg_value, score_cbow_value, pair_logp_bounds, score_total, neg_objective, score_left_out_refuted
  * `LdaTrain_Properties`: update_batches, update_every_document, rho_decays, update_wrong_length, update_positive, offset_below_one_refuted, iterations_ignored, learned_eta_unused, evaluation_changes_training_refuted, update_synced
  * `PoincareGeo_Properties`: poincare_metric, poincare_similarity, distance_from_centre, loss_gradient, gradients_defined, step_downhill, reported_loss, batch_rows, batch_in_ball, stays_in_ball
  * `PoincareTrain_Properties`: training_in_ball
  * `Hdp_Properties`: empty_corpus_refuted, lazy_is_eager, learning_rate, tau_zero_refuted, parameters_positive, chunk_mass, duplicate_ids_refuted, update_once, update_again_one_chunk, update_again_refuted, update_max_chunks, no_corpus_refuted, topics_ordered
  * `LdaSeq_Properties2`: chain_bound_refuted, bound_exact, bound_one_slice, late_counts_ignored, phi_rows, phi_update_best, posterior_of_document, posterior_total, mixture_distribution, slice_of_documents, statistics_of_slices, mixtures_of_documents, inference_total, slices_refuted, fitted_chain, fitting_total, initial_chain, topic_softmax, topic_mass, trained_model
  * `LdaSeq_Properties3`: documents_fitted, slice_needed, topics_fitted, fitted_bound, one_round, document_topics, posterior_depends_on, leftovers_refuted
  * `LdaBound_Properties`: bound_is_best, score_is_bound, bound_fails, matrix_prior_refuted, inference_raises, batch_raises, constant_close
  * `LdaBound_Properties2`: per_word_bound, perplexity_base_refuted, perplexity_decreasing, kullback_distance, jensen_distance
  * `CohWords_Properties`: for_models_exact
  * `HdpEval_Properties`: hdp_eval_trained, hdp_eval_stale, hdp_no_outputdir, hdp_eval_stale_refuted, hdp_outputdir_refuted
