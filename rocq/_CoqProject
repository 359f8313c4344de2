-Q theories Verif
theories/Base.v
theories/Str.v
theories/Dictionary_Model.v
theories/Dictionary_Spec.v
theories/Dictionary_Proofs.v
theories/Dictionary_Proofs2.v
theories/Dictionary_Proofs3.v
theories/Dictionary_Properties.v
theories/SortFacts.v
theories/HashDictionary_Model.v
theories/HashDictionary_Proofs.v
theories/HashDictionary_Properties.v
theories/Utils_Model.v
theories/Utils_Proofs.v
theories/Utils_Properties.v
theories/Chunkize_Model.v
theories/Chunkize_Properties.v
theories/Matutils_Model.v
theories/Matutils_Proofs.v
theories/Matutils_Proofs2.v
theories/Matutils_Proofs3.v
theories/Matutils_Properties.v
theories/MatClip_Model.v
theories/MatClip_Properties.v
theories/MatReal_Model.v
theories/MatReal_Proofs.v
theories/MatReal_Properties.v
theories/Formats_Base.v
theories/MmCorpus_Model.v
theories/MmCorpus_Proofs.v
theories/MmCorpus_Properties.v
theories/LineCorpora_Model.v
theories/LineCorpora_Proofs.v
theories/LineCorpora_Properties.v
theories/LowMallet_Properties.v
theories/Uci_Model.v
theories/Uci_Properties.v
theories/ShardedCorpus_Model.v
theories/ShardedCorpus_Proofs.v
theories/ShardedCorpus_Properties.v
theories/Docsim_Model.v
theories/Docsim_Proofs.v
theories/Docsim_Properties.v
theories/Phrases_Model.v
theories/Phrases_Spec.v
theories/Phrases_Proofs.v
theories/Phrases_Properties.v
theories/PhrasesNpmi.v
theories/KeyedVectors_Model.v
theories/KeyedVectors_Spec.v
theories/KeyedVectors_Proofs.v
theories/KeyedVectors_Properties.v
theories/KeyedVectors_Properties2.v
theories/KvReal_Properties.v
theories/W2vFormat_Model.v
theories/W2vFormat_Spec.v
theories/W2vFormat_Proofs.v
theories/W2vFormat_Proofs2.v
theories/W2vFormat_Properties.v
theories/Huffman_Model.v
theories/Huffman_Spec.v
theories/Huffman_Proofs.v
theories/Huffman_Proofs2.v
theories/Huffman_Properties.v
theories/W2vVocab_Model.v
theories/W2vVocab_Spec.v
theories/W2vVocab_Proofs.v
theories/W2vVocab_Properties.v
theories/NegSampling_Model.v
theories/NegSampling_Spec.v
theories/NegSampling_Properties.v
theories/Downsample_Model.v
theories/Downsample_Properties.v
theories/TrainJobs_Model.v
theories/TrainJobs_Spec.v
theories/TrainJobs_Properties.v
theories/TrainSched_Model.v
theories/TrainSched_Properties.v
theories/Sentences_Model.v
theories/Sentences_Spec.v
theories/Sentences_Properties.v
theories/Levenshtein_Model.v
theories/Levenshtein_Spec.v
theories/Levenshtein_Properties.v
theories/Tfidf_Model.v
theories/Tfidf_Spec.v
theories/Tfidf_Properties.v
theories/SaveLoad_Model.v
theories/SaveLoad_Spec.v
theories/SaveLoad_Properties.v
theories/TermSim_Model.v
theories/TermSim_Spec.v
theories/TermSim_Properties.v
theories/SoftCosine_Model.v
theories/SoftCosine_Spec.v
theories/SoftCosine_Properties.v
theories/LdaDispatch_Model.v
theories/LdaDispatch_Spec.v
theories/LdaDispatch_Proofs.v
theories/LdaDispatch_Properties.v
theories/FtBin_Model.v
theories/FtBin_Spec.v
theories/FtBin_Proofs.v
theories/FtBin_Properties.v
theories/FtNgrams_Model.v
theories/FtNgrams_Spec.v
theories/FtNgrams_Properties.v
theories/FtVectors_Model.v
theories/FtVectors_Spec.v
theories/FtVectors_Proofs.v
theories/FtVectors_Properties.v
theories/CorpusFile_Model.v
theories/CorpusFile_Spec.v
theories/CorpusFile_Proofs.v
theories/CorpusFile_Properties.v
theories/DocFile_Model.v
theories/DocFile_Properties.v
theories/CohAccum_Model.v
theories/CohAccum_Spec.v
theories/CohAccum_Proofs.v
theories/CohPar_Proofs.v
theories/CohAccum_Properties.v
theories/CohPar_Properties.v
theories/CohMeasure_Model.v
theories/CohUMass_Properties.v
theories/CohNpmi_Properties.v
theories/CohCosine_Properties.v
theories/CohModel_Model.v
theories/CohModel_Properties.v
theories/DocTags_Model.v
theories/DocTags_Spec.v
theories/DocTags_Properties.v
theories/W2vStep_Model.v
theories/DocTrain_Properties.v
theories/W2vGrad_Spec.v
theories/W2vGrad_Properties.v
theories/W2vTable_Model.v
theories/W2vTable_Properties.v
theories/HsScore_Model.v
theories/HsScore_Properties.v
theories/ScoreSched_Model.v
theories/ScoreSched_Properties.v
theories/Porter_Model.v
theories/Porter_Spec.v
theories/Porter_Proofs.v
theories/Porter_Proofs2.v
theories/Porter_Properties.v
theories/LdaTrain_Model.v
theories/LdaTrain_Proofs.v
theories/LdaTrain_Proofs2.v
theories/LdaTrain_Properties.v
theories/LdaMulti_Model.v
theories/LdaMulti_Properties.v
theories/PoincareGeo_Model.v
theories/PoincareGeo_Proofs.v
theories/PoincareGeo_Proofs2.v
theories/PoincareGeo_Properties.v
theories/PoincareVocab_Model.v
theories/PoincareVocab_Proofs.v
theories/PoincareVocab_Properties.v
theories/PoincareTrain_Properties.v
theories/PoincareQuery_Model.v
theories/PoincareQuery_Properties.v
theories/PoincareEval_Properties.v
theories/Text_Model.v
theories/Text_Proofs.v
theories/Text_Properties.v
theories/Lsi_Model.v
theories/Lsi_Spec.v
theories/Lsi_Linear.v
theories/Lsi_Proofs.v
theories/Lsi_Proofs2.v
theories/Lsi_Properties.v
theories/KvEval_Model.v
theories/KvEval_Spec.v
theories/KvEval_Properties.v
theories/KvSim_Model.v
theories/KvSim_Spec.v
theories/KvSim_Proofs.v
theories/KvSim_Properties.v
theories/Wmd_Spec.v
theories/Wmd_Transport.v
theories/Wmd_Model.v
theories/Wmd_Proofs.v
theories/Wmd_Properties.v
theories/AtMaps_Spec.v
theories/AtMaps_Model.v
theories/AtMaps_Proofs.v
theories/AtMaps_Properties.v
theories/AtInfer_Model.v
theories/AtInfer_Proofs.v
theories/AtInfer_Properties.v
theories/TextCorpus_Model.v
theories/TextCorpus_Spec.v
theories/TextCorpus_Proofs.v
theories/TextCorpus_Properties.v
theories/Nmf_Model.v
theories/Nmf_Spec.v
theories/Nmf_Proofs.v
theories/Nmf_Proofs2.v
theories/Nmf_Properties.v
theories/Hdp_Model.v
theories/Hdp_Spec.v
theories/Hdp_Proofs.v
theories/Hdp_Proofs2.v
theories/Hdp_Properties.v
theories/Regex_Model.v
theories/Wiki_Spec.v
theories/Wiki_Model.v
theories/Regex_Proofs.v
theories/Wiki_Proofs.v
theories/Wiki_Proofs2.v
theories/Wiki_Proofs3.v
theories/Wiki_Proofs4.v
theories/Wiki_Proofs5.v
theories/Wiki_Proofs6.v
theories/Wiki_Properties.v
theories/WikiPages_Model.v
theories/WikiPages_Spec.v
theories/WikiPages_Proofs.v
theories/WikiPages_Proofs2.v
theories/WikiPages_Properties.v
theories/LogEntropy_Model.v
theories/LogEntropy_Spec.v
theories/LogEntropy_Proofs.v
theories/LogEntropy_Properties.v
theories/Rp_Model.v
theories/Rp_Spec.v
theories/Rp_Proofs.v
theories/Rp_Properties.v
theories/LdaSeq_Model.v
theories/LdaSeq_Spec.v
theories/LdaSeq_Proofs.v
theories/LdaSeq_Proofs2.v
theories/LdaSeq_Proofs3.v
theories/LdaSeq_Proofs4.v
theories/LdaSeq_Proofs5.v
theories/LdaSeq_Properties.v
theories/LdaSeq_Properties2.v
theories/LdaSeq_Properties3.v
theories/Trans_Model.v
theories/Trans_Spec.v
theories/Trans_Proofs.v
theories/Trans_Proofs2.v
theories/Trans_Proofs3.v
theories/Trans_Properties.v
theories/Trans_Properties2.v
theories/LdaBound_Model.v
theories/LdaBound_Spec.v
theories/LdaBound_Proofs.v
theories/LdaBound_Properties.v
theories/LdaBound_Properties2.v
theories/FtUnpack_Model.v
theories/FtUnpack_Properties.v
theories/DocIndex_Model.v
theories/DocIndex_Proofs.v
theories/DocIndex_Properties.v
theories/Downloader_Model.v
theories/Downloader_Properties.v
theories/Callbacks_Model.v
theories/Callbacks_Properties.v
theories/Intersect_Model.v
theories/Intersect_Properties.v
theories/Predict_Model.v
theories/Predict_Properties.v
theories/LdaSave_Model.v
theories/LdaSave_Properties.v
theories/W2vCoh_Model.v
theories/W2vCoh_Properties.v
theories/Upgrade_Model.v
theories/Upgrade_Properties.v
theories/ShowTopics_Model.v
theories/ShowTopics_Properties.v
theories/D2vFormat_Model.v
theories/D2vFormat_Properties.v
theories/SegmentJson_Model.v
theories/SegmentJson_Spec.v
theories/SegmentJson_Properties.v
theories/HashText_Model.v
theories/HashText_Properties.v
theories/Brown_Model.v
theories/Brown_Properties.v
theories/ShardFormat_Model.v
theories/ShardFormat_Properties.v
theories/W2vSession_Model.v
theories/W2vSession_Properties.v
theories/Indexers_Model.v
theories/Indexers_Properties.v
theories/WordEmbIndex_Model.v
theories/WordEmbIndex_Properties.v
theories/SeqViews_Model.v
theories/SeqViews_Properties.v
theories/CohWords_Model.v
theories/CohWords_Properties.v
theories/HdpEval_Model.v
theories/HdpEval_Properties.v
theories/LexEval_Model.v
theories/LexEval_Properties.v
theories/NmfShow_Model.v
theories/NmfShow_Properties.v
theories/SharedVocab_Model.v
theories/SharedVocab_Properties.v
theories/LowPlain_Properties.v
theories/SharedCounts_Properties.v
theories/Dmlcz_Model.v
theories/Dmlcz_Properties.v
theories/Space_Model.v
theories/Space_Properties.v
theories/IndexFiles_Model.v
theories/IndexFiles_Properties.v
theories/Arxmliv_Model.v
theories/Arxmliv_Properties.v
theories/LsiDispatch_Model.v
theories/LsiDispatch_Properties.v
theories/MetricParams_Model.v
theories/MetricParams_Properties.v
theories/DmlFind_Model.v
theories/DmlFind_Properties.v
