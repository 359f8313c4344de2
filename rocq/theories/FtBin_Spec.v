(** What a round trip through Facebook's binary format must preserve. *)

From Verif Require Import Base Str W2vFormat_Model FtBin_Model.
Local Open Scope Z_scope.

(** A signed integer fits [k] bytes; a bit pattern does. *)
Definition fits (k : Z) (z : Z) : Prop := - 2 ^ (8 * k - 1) <= z < 2 ^ (8 * k - 1).
Definition pattern (k : Z) (z : Z) : Prop := 0 <= z < 2 ^ (8 * k).

Record good_matrix (m : matrix) : Prop := {
  gm_rows : 0 <= m_rows m; gm_cols : 0 <= m_cols m;
  gm_rows_fit : fits 8 (m_rows m); gm_cols_fit : fits 8 (m_cols m);
  gm_len : Z.of_nat (length (m_data m)) = m_rows m * m_cols m;
  gm_data : Forall (pattern 4) (m_data m)
}.

(** Every number fits its field; words are distinct. *)
Record good_model (m : ftmodel) : Prop := {
  g_ints : Forall (fits 4) [f_vector_size m; f_window m; f_epochs m; f_min_count m; f_negative m; f_bucket m; f_min_n m; f_max_n m];
  g_sample : pattern 8 (f_sample m);
  g_total : fits 8 (f_corpus_total_words m);
  g_nwords : fits 4 (Z.of_nat (length (f_words m)));
  g_counts : Forall (fun wc => fits 8 (snd wc)) (f_words m);
  g_distinct : NoDup (map fst (f_words m));
  g_vocab : good_matrix (f_vectors_vocab m);
  g_ngrams : good_matrix (f_vectors_ngrams m);
  g_rows : fits 8 (m_rows (f_vectors_vocab m) + m_rows (f_vectors_ngrams m));
  g_hidden : forall h, f_syn1 m = Some h \/ f_syn1neg m = Some h -> good_matrix h
}.

(** The encoding gives every word of the model back and never produces a NUL byte. *)
Definition good_coding (encode : pystr -> option (list N)) (decode : list N -> option pystr) (m : ftmodel) : Prop :=
  forall w, In w (map fst (f_words m)) -> exists e, encode w = Some e /\ ~ In 0%N e /\ decode e = Some w.

(** Nothing is lost in the loaded file. *)
Record same_content (m : ftmodel) (lr wn : Z) (b : fbmodel) : Prop := {
  sc_header : forall f v, get_field m lr wn f = Ok v -> dget (fb_header b) f = Some v;
  sc_words : v_raw (fb_vocab b) = f_words m;
  sc_size : v_size (fb_vocab b) = Z.of_nat (length (f_words m));
  sc_nwords : v_nwords (fb_vocab b) = Z.of_nat (length (f_words m));
  sc_tokens : v_ntokens (fb_vocab b) = f_corpus_total_words m;
  sc_vectors : fb_vectors b = mkMat (m_rows (f_vectors_vocab m) + m_rows (f_vectors_ngrams m)) (m_cols (f_vectors_vocab m))
                                    (m_data (f_vectors_vocab m) ++ m_data (f_vectors_ngrams m));
  sc_hidden : exists h, hidden_output m = Ok h /\ fb_hidden b = Some h
}.
