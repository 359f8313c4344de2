(** Model of training and using an LDA model on one machine: /repo/gensim/models/ldamodel.py 98-145 ([update_dir_prior]),
    149-262 ([LdaState]), 619-720 ([inference]), 722-743 ([do_estep]), 834-1030 ([update]), 1031-1069 ([do_mstep]),
    1149-1180 ([show_topics]), 1202-1213 ([get_topics]), 1316-1365 ([get_document_topics]), 1386-1400 ([get_term_topics]).

    Simplifications: real numbers.  Arrays are functions of their indices; [K] topics, [V] terms.  [edir n v] is the exponential of
    [dirichlet_expectation] of a vector with [n] elements (digamma is not modelled).  Word ids are natural numbers; an id of
    [V] or more is an IndexError.  [draw i] is the [i]-th vector of random gammas.  Newton's step for the priors is a parameter.  The
    distributed version is in LdaDispatch_Model; callbacks and logging are left out, except that computing the perplexity for
    the log draws random numbers.  [seen] and [m_steps] are history that no step reads. *)
From Coq Require Import Reals.
From Verif Require Import Base MatReal_Model Utils_Model.
Local Open Scope R_scope.

Definition doc : Type := list (nat * R).
Definition sumn (n : nat) (f : nat -> R) : R := Rsum (map f (seq 0 n)).

Section Lda.
Variables K V : nat.
Variable eps : R.
Variable edir : nat -> (nat -> R) -> nat -> R.
Variable draw : nat -> nat -> R.

(** ** Inference *)
(** 674, 688: [np.dot(expElogthetad, expElogbetad) + epsilon] for the word [w]. *)
Definition phinorm (beta : nat -> nat -> R) (th : nat -> R) (w : nat) : R := sumn K (fun k => th k * beta k w) + eps.
(** 685 *)
Definition gamma_step (alpha : nat -> R) (beta : nat -> nat -> R) (th : nat -> R) (d : doc) (k : nat) : R :=
  alpha k + th k * Rsum (map (fun wc => snd wc / phinorm beta th (fst wc) * beta k (fst wc)) d).
Definition mean_change (g g' : nat -> R) : R := sumn K (fun k => Rabs (g' k - g k)) / INR K.
(** 680-693 *)
Fixpoint iterate (n : nat) (threshold : R) (alpha : nat -> R) (beta : nat -> nat -> R) (d : doc) (g th : nat -> R) : (nat -> R) * (nat -> R) :=
  match n with
  | O => (g, th)
  | S n' =>
    let g' := gamma_step alpha beta th d in
    let th' := edir K g' in
    if Rlt_dec (mean_change g g') threshold then (g', th') else iterate n' threshold alpha beta d g' th'
  end.
(** 699: [sstats[:, ids] += ...] adds once per distinct column: for an id that occurs more than once, numpy keeps the last. *)
Fixpoint last_count (d : doc) (w : nat) : option R :=
  match d with
  | [] => None
  | (w', c) :: d' => match last_count d' w with Some c' => Some c' | None => if Nat.eqb w w' then Some c else None end
  end.
Definition scatter (beta : nat -> nat -> R) (th : nat -> R) (d : doc) (acc : nat -> nat -> R) (k w : nat) : R :=
  match last_count d w with Some c => acc k w + th k * (c / phinorm beta th w) | None => acc k w end.

Record params : Type := Params { p_alpha : nat -> R; p_beta : nat -> nat -> R; p_iterations : nat; p_threshold : R }.
Definition infer_doc (p : params) (d : doc) (g0 : nat -> R) : (nat -> R) * (nat -> R) :=
  iterate (p_iterations p) (p_threshold p) (p_alpha p) (p_beta p) d g0 (edir K g0).
Definition in_vocab (d : doc) : bool := forallb (fun wc => Nat.ltb (fst wc) V) d.
(** 657-699; the draws start at [r]. *)
Fixpoint infer_loop (p : params) (r : nat) (chunk : list doc) (acc : nat -> nat -> R) : result (list (nat -> R) * (nat -> nat -> R)) :=
  match chunk with
  | [] => Ok ([], acc)
  | d :: chunk' =>
    if in_vocab d then
      let gt := infer_doc p d (draw r) in
      let* rest := infer_loop p (S r) chunk' (scatter (p_beta p) (snd gt) d acc) in
      Ok (fst gt :: fst rest, snd rest)
    else Err IndexError
  end.
(** 709: [sstats *= self.expElogbeta] *)
Definition inference (p : params) (r : nat) (chunk : list doc) : result (list (nat -> R) * (nat -> nat -> R)) :=
  let* gs := infer_loop p r chunk (fun _ _ => 0) in Ok (fst gs, fun k w => snd gs k w * p_beta p k w).

(** ** States *)
Record lstate : Type := LState { stats : nat -> nat -> R; numdocs : nat; seen : list doc }.
Definition fresh : lstate := LState (fun _ _ => 0) 0 [].
(** 178-191 *)
Definition merge (a b : lstate) : lstate := LState (fun k w => stats a k w + stats b k w) (numdocs a + numdocs b) (seen a ++ seen b).
(** 193-228; the M step calls it without [targetsize]. *)
Definition stretch (target docs : nat) : R := if (Nat.eqb docs 0 || Nat.eqb target docs)%bool then 1 else INR target / INR docs.
Definition blend (rhot : R) (self other : lstate) (target : option nat) : lstate :=
  let target := match target with Some t => t | None => numdocs self end in
  LState (fun k w => stats self k w * ((1 - rhot) * stretch target (numdocs self)) + rhot * stretch target (numdocs other) * stats other k w) target (seen self).
(** 254-262: with the prior that the state was made with. *)
Definition lambda (eta : nat -> nat -> R) (s : lstate) (k w : nat) : R := eta k w + stats s k w.

(** ** The model *)
Variable newton_alpha : (nat -> R) -> list (nat -> R) -> nat -> R.
Variable newton_eta : (nat -> nat -> R) -> (nat -> nat -> R) -> nat -> nat -> R.
(** [m_eta] is the prior of the model, [m_state_eta] that of its state: [update_eta] (794-803) replaces the first only. *)
Record lda : Type := Lda {
  m_state : lstate; m_beta : nat -> nat -> R; m_alpha : nat -> R; m_eta : nat -> nat -> R; m_state_eta : nat -> nat -> R; m_updates : nat; m_draws : nat;
  m_auto_alpha : bool; m_auto_eta : bool; m_iterations : nat; m_threshold : R;
  m_steps : list (nat * R * list doc)
}.
(** 133-145: the step is taken if all elements stay positive. *)
Definition all_pos (n : nat) (v : nat -> R) : bool := forallb (fun i => if Rlt_dec 0 (v i) then true else false) (seq 0 n).
Definition update_dir_prior (n : nat) (prior dprior : nat -> R) (rho : R) : nat -> R :=
  let updated i := rho * dprior i + prior i in if all_pos n updated then updated else prior.

Definition set_draws (m : lda) (n : nat) : lda :=
  Lda (m_state m) (m_beta m) (m_alpha m) (m_eta m) (m_state_eta m) (m_updates m) n (m_auto_alpha m) (m_auto_eta m) (m_iterations m) (m_threshold m) (m_steps m).
Definition set_alpha (m : lda) (a : nat -> R) : lda :=
  Lda (m_state m) (m_beta m) a (m_eta m) (m_state_eta m) (m_updates m) (m_draws m) (m_auto_alpha m) (m_auto_eta m) (m_iterations m) (m_threshold m) (m_steps m).
Definition add_docs (m : lda) (n : nat) : lda :=
  let s := m_state m in
  Lda (LState (stats s) (numdocs s + n) (seen s)) (m_beta m) (m_alpha m) (m_eta m) (m_state_eta m) (m_updates m) (m_draws m) (m_auto_alpha m) (m_auto_eta m) (m_iterations m) (m_threshold m) (m_steps m).
(** 722-743.  [inference] reads the settings of the model. *)
Definition model_params (m : lda) : params := Params (m_alpha m) (m_beta m) (m_iterations m) (m_threshold m).
Definition do_estep (m : lda) (chunk : list doc) (other : lstate) : result (lda * list (nat -> R) * lstate) :=
  let* gs := inference (model_params m) (m_draws m) chunk in
  Ok (set_draws m (m_draws m + length chunk), fst gs, LState (fun k w => stats other k w + snd gs k w) (numdocs other + length (fst gs)) (seen other ++ chunk)).
(** 762-765 *)
Definition update_alpha (m : lda) (gammas : list (nat -> R)) (rho : R) : lda :=
  set_alpha m (update_dir_prior K (m_alpha m) (newton_alpha (m_alpha m) gammas) rho).
(** 1031-1069; the priors of all topics are updated at once (a vector [eta] is the same for all topics). *)
Definition do_mstep (m : lda) (pass : nat) (rho : R) (other : lstate) (extra_pass : bool) : lda :=
  let s := blend rho (m_state m) other None in
  let lam := lambda (m_state_eta m) s in
  let eta := if m_auto_eta m then (fun k => update_dir_prior V (m_eta m k) (newton_eta (m_eta m) lam k) rho) else m_eta m in
  Lda s (fun k => edir V (lam k)) (m_alpha m) eta (m_state_eta m) (if extra_pass then m_updates m else m_updates m + numdocs other)%nat (m_draws m)
    (m_auto_alpha m) (m_auto_eta m) (m_iterations m) (m_threshold m) (m_steps m ++ [(pass, rho, seen other)]).

(** ** Training *)
Record settings : Type := Settings {
  a_chunksize : nat; a_decay : R; a_offset : R; a_passes : nat; a_update_every : nat; a_eval_every : nat;
  a_iterations : nat; a_threshold : R
}.
(** 948-949 *)
Definition rho (a : settings) (m : lda) (pass : nat) : R := Rpower (a_offset a + INR pass + INR (m_updates m) / INR (a_chunksize a)) (- a_decay a).
(** 824, 1097: perplexity calls [inference] for every document of the chunk. *)
Definition evaluate (a : settings) (lencorpus reallen chunk_no : nat) (m : lda) (chunk : list doc) : result lda :=
  if (negb (Nat.eqb (a_eval_every a) 0) && (Nat.eqb reallen lencorpus || Nat.eqb ((chunk_no + 1) mod a_eval_every a) 0))%bool
  then (if forallb in_vocab chunk then Ok (set_draws m (m_draws m + length chunk)) else Err IndexError)
  else Ok m.
Record progress : Type := Progress { g_model : lda; g_other : lstate; g_dirty : bool; g_reallen : nat }.
(** 969-1008 *)
Definition chunk_step (a : settings) (lencorpus pass : nat) (s : progress) (nc : nat * list doc) : result progress :=
  let '(chunk_no, chunk) := nc in
  let reallen := (g_reallen s + length chunk)%nat in
  let* m := evaluate a lencorpus reallen chunk_no (g_model s) chunk in
  let* mgo := do_estep m chunk (g_other s) in
  let '(m, gammas, other) := mgo in
  let m := if m_auto_alpha m then update_alpha m gammas (rho a m pass) else m in
  if (negb (Nat.eqb (a_update_every a) 0) && Nat.eqb ((chunk_no + 1) mod a_update_every a) 0)%bool
  then Ok (Progress (do_mstep m pass (rho a m pass) other (Nat.ltb 0 pass)) fresh false reallen)
  else Ok (Progress m other true reallen).
(** 958-1029 *)
Definition pass_step (a : settings) (corpus : list doc) (lencorpus : nat) (m : lda) (pass : nat) : result lda :=
  let chunks := chunkize_serial corpus (a_chunksize a) in
  let* s := rfold (chunk_step a lencorpus pass) (combine (seq 0 (length chunks)) chunks) (Progress m fresh false 0) in
  if negb (Nat.eqb (g_reallen s) lencorpus) then Err RuntimeErr
  else if g_dirty s then Ok (do_mstep (g_model s) pass (rho a (g_model s) pass) (g_other s) (Nat.ltb 0 pass))
  else Ok (g_model s).
(** 899-1029: [lencorpus] is what [len(corpus)] says.  [a_iterations] and [a_threshold], the arguments of [update], are for the log
    only (894-897, 928-931). *)
Definition update (a : settings) (corpus : list doc) (lencorpus : nat) (m : lda) : result lda :=
  if Nat.eqb lencorpus 0 then Ok m else rfold (pass_step a corpus lencorpus) (seq 0 (a_passes a)) (add_docs m lencorpus).

(** ** Topics *)
(** 1212-1213 *)
Definition topics (m : lda) (k w : nat) : R := lambda (m_state_eta m) (m_state m) k w / sumn V (lambda (m_state_eta m) (m_state m) k).
(** 1316-1365 without [per_word_topics]. *)
Definition document_topics (m : lda) (d : doc) (minimum : R) : result (list (nat * R)) :=
  let minimum := Rmax minimum (1 / 100000000) in
  let* gs := inference (model_params m) (m_draws m) [d] in
  match fst gs with
  | g :: _ => Ok (filter (fun kp => if Rle_dec minimum (snd kp) then true else false) (map (fun k => (k, g k / sumn K g)) (seq 0 K)))
  | [] => Err IndexError
  end.
(** 1392-1400 *)
Definition term_topics (m : lda) (w : nat) (minimum : R) : list (nat * R) :=
  filter (fun kp => if Rle_dec (Rmax minimum (1 / 100000000)) (snd kp) then true else false) (map (fun k => (k, m_beta m k w)) (seq 0 K)).
(** 1155-1166: [sorted_topics] is all topics in some order. *)
Definition chosen_topics (num : Z) (sorted_topics : list nat) : list nat :=
  if (num <? 0)%Z || (Z.of_nat K <=? num)%Z then seq 0 K
  else
    let num := Z.min num (Z.of_nat K) in
    let lo := (- num / 2)%Z in
    firstn (Z.to_nat (num / 2)) sorted_topics ++
    skipn (if (lo <? 0)%Z then Z.to_nat (Z.of_nat (length sorted_topics) + lo) else Z.to_nat lo) sorted_topics.
End Lda.
