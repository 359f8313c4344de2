(** Model of the hierarchical Dirichlet process: /repo/gensim/models/hdpmodel.py 72-94 (`expect_log_sticks`), 97-140 (`lda_e_step`), 142-170
    (`SuffStats`), 347-389 (`__init__`), 391-448 (`inference`, `__getitem__`), 450-517 (`update`, `update_finished`), 519-577 (`update_chunk`),
    579-683 (`doc_e_step`), 685-747 (`update_lambda`, `optimal_ordering`, `update_expectations`), 787-797 (`get_topics`), 877-917 (`hdp_to_lda`,
    `suggested_lda_model`), 960-1060 (`HdpTopicFormatter`: order and number of topics); /repo/gensim/matutils.py 662-682 (`ret_log_normalize_vec`).

    Simplifications: real numbers (no rounding).  Arrays are functions of their indices.  The digamma function [psi] and the likelihood of a
    document [lik] are arbitrary functions.  [order n f] is the result of `argsort(f, reverse=True)`, which is not determined for equal
    numbers.  The logarithm of zero (minus infinity) is [None] in the list of discounts; if a number that is none appears (the difference of two
    infinities, or the logarithm of a negative number), the run ends with [NotANumber].  Random numbers and the clock are
    arguments.  Word ids are natural numbers below [o_W].  Writing files and logging are left out. *)
From Coq Require Import Reals.
From Verif Require Import Base MatReal_Model Utils_Model LdaTrain_Model Lsi_Model.
Local Open Scope R_scope.

Record opts : Type := mkOpts { o_T : nat; o_K : nat; o_W : nat; o_D : nat; o_alpha : R; o_gamma : R; o_eta : R; o_tau : R; o_kappa : R; o_scale : R;
  o_converge : R; o_chunksize : nat; max_chunks : option nat; has_max_time : bool }.

(** matutils.py 664-669, 672-676: one row *)
Definition maxn (n : nat) (v : nat -> R) : R := fold_right Rmax (v 0%nat) (map v (seq 0 n)).
Definition log_normalize (n : nat) (v : nat -> R) : nat -> R :=
  let shift := 100 - ln (INR n + 1) - maxn n v in
  let tot := sumn n (fun i => exp (v i + shift)) in
  let log_norm := ln tot - shift in
  fun i => v i - log_norm.

Section Hdp.
Variable psi : R -> R.
Variable order : nat -> (nat -> R) -> nat -> nat.
Variable lik : doc -> mat -> mat -> mat -> R.
Variable o : opts.
Notation T := (o_T o).
Notation K := (o_K o).
Notation W := (o_W o).

(** 86-94: [n] - 1 sticks [a], [b] *)
Definition expect_log_sticks (n : nat) (a b : nat -> R) : nat -> R := fun i =>
  (if (i <? n - 1)%nat then psi (a i) - psi (a i + b i) else 0) + sumn i (fun j => psi (b j) - psi (a j + b j)).

(** ** One document *)
Definition word (d : doc) (n : nat) : nat := fst (nth n d (0%nat, 0)).
Definition count (d : doc) (n : nat) : R := snd (nth n d (0%nat, 0)).
(** 608: the columns of the words of the document *)
Definition elog_doc (d : doc) (elog : mat) : mat := fun t n => if (n <? length d)%nat then elog t (word d n) else 0.
(** 627-636 *)
Definition var_phi_of (d : doc) (el : mat) (sticks1 : nat -> R) (it : nat) (phi : mat) : mat := fun k =>
  let raw t := sumn (length d) (fun n => phi n k * (el t n * count d n)) + (if (it <? 3)%nat then 0 else sticks1 t) in
  fun t => exp (log_normalize T raw t).
(** 638-646 *)
Definition phi_of (d : doc) (el : mat) (it : nat) (var_phi : mat) (sticks2 : nat -> R) : mat := fun n =>
  let raw k := sumn T (fun t => var_phi k t * el t n) + (if (it <? 3)%nat then 0 else sticks2 k) in
  fun k => exp (log_normalize K raw k).
(** 648-653 *)
Definition v0_of (d : doc) (phi : mat) : nat -> R := fun k => 1 + sumn (length d) (fun n => phi n k * count d n).
Definition v1_of (d : doc) (phi : mat) : nat -> R := fun k =>
  o_alpha o + sumn (K - 1 - k) (fun j => sumn (length d) (fun n => phi n (k + 1 + j)%nat * count d n)).
(** 623-677; the result: [var_phi] and [phi], None if the loop is not entered *)
Fixpoint e_loop (d : doc) (el : mat) (sticks1 : nat -> R) (fuel it : nat) (phi : mat) (sticks2 : nat -> R) (last : option (mat * mat)) (old conv : R) : option (mat * mat) :=
  match fuel with
  | O => last
  | S fuel' =>
    if (if Rlt_dec conv 0 then true else if Rlt_dec (o_converge o) conv then true else false) then
      let vp := var_phi_of d el sticks1 it phi in
      let phi' := phi_of d el it vp sticks2 in
      let l := lik d el vp phi' in
      e_loop d el sticks1 fuel' (S it) phi' (expect_log_sticks K (v0_of d phi') (v1_of d phi')) (Some (vp, phi')) l ((l - old) / Rabs old)
    else last
  end.
Definition e_rounds : nat := 100.
Definition doc_e_step (d : doc) (elog : mat) (sticks1 : nat -> R) : option (mat * mat) :=
  e_loop d (elog_doc d elog) sticks1 e_rounds 0 (fun _ _ => 1 / INR K) (fun _ => 0) None (- Rpower 10 200) 1.

(** ** Chunks *)
Record hdp : Type := mkHdp { m_lambda : mat; m_lambda_sum : nat -> R; m_elog : mat; m_sticks : (nat -> R) * (nat -> R); m_varphi : nat -> R;
  m_ct : nat; m_time : nat -> nat; m_r : list (option R); m_docs : nat; m_lda : option ((nat -> R) * mat) }.
(** 347-384 *)
Definition new_hdp (draw : mat) : hdp :=
  let lam : mat := fun t w => draw t w * INR (o_D o) * 100 / (INR T * INR W) - o_eta o in
  let sums t := sumn W (lam t) in
  mkHdp lam sums (fun t w => psi (o_eta o + lam t w) - psi (sumn W (fun w' => o_eta o + lam t w')))
    ((fun _ => 1), (fun k => INR (T - 1 - k))) (fun _ => 0) 0 (fun _ => 0%nat) [Some 0] 0 None.

(** 538-546 *)
Definition word_list (chunk : list doc) : list nat := fold_left (fun l w => if memb w l then l else l ++ [w]) (concat (map (map fst) chunk)) [].
Fixpoint index_of (w : nat) (l : list nat) : option nat :=
  match l with [] => None | x :: l' => if (x =? w)%nat then Some 0%nat else option_map S (index_of w l') end.
(** [np.exp(self.m_r[-1] - self.m_r[t])] *)
Definition factor (rs : list (option R)) (t : nat) : option R :=
  match last rs None, nth t rs None with Some x, Some y => Some (exp (x - y)) | None, Some _ => Some 0 | _, None => None end.
Definition factor_or_0 (rs : list (option R)) (t : nat) : R := match factor rs t with Some x => x | None => 0 end.
Definition is_some {A} (x : option A) : bool := match x with Some _ => true | None => false end.
(** 551-555, 741-744: bring some columns up to date *)
Definition refresh (words : list nat) (s : hdp) : option hdp :=
  if forallb (fun w => is_some (factor (m_r s) (m_time s w))) words then
    let lam : mat := fun t w => if memb w words then m_lambda s t w * factor_or_0 (m_r s) (m_time s w) else m_lambda s t w in
    Some (mkHdp lam (m_lambda_sum s)
      (fun t w => if memb w words then psi (o_eta o + lam t w) - psi (INR W * o_eta o + m_lambda_sum s t) else m_elog s t w)
      (m_sticks s) (m_varphi s) (m_ct s) (m_time s) (m_r s) (m_docs s) (m_lda s))
  else None.

(** 681-682; for an id that occurs twice in a document numpy keeps the last *)
Fixpoint last_at (j : nat) (ids : list (option nat)) : option nat :=
  match ids with
  | [] => None
  | i :: ids' => match last_at j ids' with Some n => Some (S n) | None => match i with Some i' => if (i' =? j)%nat then Some 0%nat else None | None => None end end
  end.
Definition add_doc (words : list nat) (d : doc) (vp phi : mat) (ss : (nat -> R) * mat) : (nat -> R) * mat :=
  let ids := map (fun wc => index_of (fst wc) words) d in
  ((fun t => fst ss t + sumn K (fun k => vp k t)),
   (fun t j => match last_at j ids with Some n => snd ss t j + sumn K (fun k => vp k t * (phi n k * count d n)) | None => snd ss t j end)).
(** 564-573; None: the loop of a document is not entered *)
Fixpoint stats_of (words : list nat) (elog : mat) (sticks1 : nat -> R) (chunk : list doc) (ss : (nat -> R) * mat) : option ((nat -> R) * mat) :=
  match chunk with
  | [] => Some ss
  | [] :: rest => stats_of words elog sticks1 rest ss
  | d :: rest => match doc_e_step d elog sticks1 with Some (vp, phi) => stats_of words elog sticks1 rest (add_doc words d vp phi ss) | None => None end
  end.

(** 700-703 *)
Definition rhot (ct : nat) : R := let r := o_scale o * Rpower (o_tau o + 1 + INR ct) (- o_kappa o) in if Rlt_dec r 0 then 0 else r.
(** 714: None: no number *)
Definition next_r (rs : list (option R)) (rho : R) : option (list (option R)) :=
  if Rlt_dec (1 - rho) 0 then None
  else Some (rs ++ [if Req_EM_T (1 - rho) 0 then None else match last rs None with Some x => Some (x + ln (1 - rho)) | None => None end]).
(** 723-725 *)
Definition top_sticks (varphi : nat -> R) : (nat -> R) * (nat -> R) :=
  ((fun k => varphi k + 1), (fun k => sumn (T - 1 - k) (fun j => varphi (k + 1 + j)%nat) + o_gamma o)).
(** 698-733 *)
Definition update_lambda (words : list nat) (size : nat) (ss : (nat -> R) * mat) (opt_o : bool) (s : hdp) : option hdp :=
  let rho := rhot (m_ct s) in
  let lam : mat := fun t w => match index_of w words with
    | Some j => m_lambda s t w * (1 - rho) + rho * INR (o_D o) * snd ss t j / INR size
    | None => m_lambda s t w end in
  let sums t := (1 - rho) * m_lambda_sum s t + rho * INR (o_D o) * sumn (length words) (snd ss t) / INR size in
  let varphi t := (1 - rho) * m_varphi s t + rho * fst ss t * INR (o_D o) / INR size in
  let idx := if opt_o then order T sums else fun t => t in
  match next_r (m_r s) rho with
  | Some rs => Some (mkHdp (fun t => lam (idx t)) (fun t => sums (idx t)) (fun t => m_elog s (idx t)) (top_sticks (fun t => varphi (idx t))) (fun t => varphi (idx t))
      (S (m_ct s)) (fun w => if memb w words then S (m_ct s) else m_time s w) rs (m_docs s) (m_lda s))
  | None => None
  end.
(** 538-575 *)
Definition update_chunk (opt_o : bool) (s : hdp) (chunk : list doc) : option hdp :=
  let words := word_list chunk in
  match refresh words s with
  | None => None
  | Some s1 =>
    match stats_of words (m_elog s1) (expect_log_sticks T (fst (m_sticks s1)) (snd (m_sticks s1))) chunk ((fun _ => 0), mzero) with
    | None => None
    | Some ss => update_lambda words (length chunk) ss opt_o s1
    end
  end.
(** 741-747 *)
Definition update_expectations (s : hdp) : option hdp :=
  match refresh (seq 0 W) s with
  | Some s1 => Some (mkHdp (m_lambda s1) (m_lambda_sum s1) (m_elog s1) (m_sticks s1) (m_varphi s1) (m_ct s1) (fun _ => m_ct s1) (m_r s1) (m_docs s1) (m_lda s1))
  | None => None
  end.

(** 886-899 *)
Fixpoint left_of (sticks : nat -> R) (n : nat) : R := match n with O => 1 | S n' => left_of sticks n' - sticks n' * left_of sticks n' end.
Definition lda_alpha (s : hdp) : nat -> R :=
  let sticks k := fst (m_sticks s) k / (fst (m_sticks s) k + snd (m_sticks s) k) in
  fun i => (if (i <? T - 1)%nat then sticks i * left_of sticks i else left_of sticks (T - 1)) * o_alpha o.
Definition lda_beta (s : hdp) : mat := fun t w => (m_lambda s t w + o_eta o) / (INR W * o_eta o + m_lambda_sum s t).
Definition hdp_to_lda (s : hdp) : (nat -> R) * mat := (lda_alpha s, lda_beta s).

(** ** Training *)
Inductive outcome : Type := Done (s : hdp) | NotANumber | Running.
(** 508-517; [late n]: the time is over after [n] chunks *)
Definition update_finished (late : nat -> bool) (chunks docs : nat) : bool :=
  let limit := match max_chunks o with Some (S _) => true | _ => false end in
  (limit && match max_chunks o with Some n => (chunks =? n)%nat | None => false end) || (has_max_time o && late chunks) ||
  (negb limit && negb (has_max_time o) && (o_D o <=? docs)%nat).
Definition count_docs (n : nat) (s : hdp) : hdp :=
  mkHdp (m_lambda s) (m_lambda_sum s) (m_elog s) (m_sticks s) (m_varphi s) (m_ct s) (m_time s) (m_r s) (m_docs s + n) (m_lda s).
Definition with_lda (s : hdp) : hdp :=
  mkHdp (m_lambda s) (m_lambda_sum s) (m_elog s) (m_sticks s) (m_varphi s) (m_ct s) (m_time s) (m_r s) (m_docs s) (Some (hdp_to_lda s)).
Definition save_freq : nat := Nat.max 1 (Nat.div (10 * 1000) (o_chunksize o)).
(** 468-487: one round of the corpus; the number of chunks so far, or the end *)
Fixpoint pass (late : nat -> bool) (chunks : list (list doc)) (n : nat) (s : hdp) : outcome + (nat * hdp) :=
  match chunks with
  | [] => inr (n, s)
  | c :: rest =>
    match update_chunk true s c with
    | None => inl NotANumber
    | Some s1 =>
      let s2 := count_docs (length c) s1 in
      if update_finished late (S n) (m_docs s2) then
        match update_expectations s2 with Some s3 => inl (Done (with_lda s3)) | None => inl NotANumber end
      else if (Nat.modulo (S n) save_freq =? 0)%nat then
        match update_expectations s2 with Some s3 => pass late rest (S n) s3 | None => inl NotANumber end
      else pass late rest (S n) s2
    end
  end.
Fixpoint update_loop (rounds : nat) (late : nat -> bool) (corpus : list doc) (n : nat) (s : hdp) : outcome :=
  match rounds with
  | O => Running
  | S r => match pass late (chunkize_serial corpus (o_chunksize o)) n s with inl e => e | inr (n', s') => update_loop r late corpus n' s' end
  end.
(** 463-487, within so many rounds of the corpus *)
Definition update (rounds : nat) (late : nat -> bool) (corpus : list doc) (s : hdp) : outcome := update_loop rounds late corpus 0 s.

(** ** Queries *)
Definition edir (n : nat) (v : nat -> R) (i : nat) : R := exp (psi (v i) - psi (sumn n v)).
(** 119-133 *)
Definition lda_e_step (d : doc) (alpha : nat -> R) (beta : mat) (tiny : R) : nat -> R :=
  fst (iterate T tiny edir 100 (1 / 100000) alpha beta d (fun _ => 1) (edir T (fun _ => 1))).
(** 411-448 *)
Definition getitem (tiny eps : R) (s : hdp) (d : doc) : result (list (nat * R)) :=
  match m_lda s with
  | None => Err RuntimeErr
  | Some (alpha, beta) =>
    let g : nat -> R := match d with [] => fun _ => 0 | _ => lda_e_step d alpha beta tiny end in
    if Req_EM_T (sumn T g) 0 then Ok []
    else Ok (filter (fun tv => if Rle_dec eps (snd tv) then true else false) (map (fun t => (t, g t / sumn T g)) (seq 0 T)))
  end.
(** 795-797 *)
Definition get_topics (s : hdp) : mat := fun t w => (m_lambda s t w + o_eta o) / sumn W (fun w' => m_lambda s t w' + o_eta o).
(** 990-993, 1046-1048: the row that the formatter calls topic [k] *)
Definition formatted (s : hdp) : mat := fun k w => let topics : mat := fun t w => m_lambda s t w + o_eta o in
  topics (order T (fun t => sumn W (topics t)) k) w / sumn W (topics (order T (fun t => sumn W (topics t)) k)).
(** 1040-1043 *)
Definition topics_shown (num_topics : Z) : Z := Z.min (Z.max num_topics 0) (Z.of_nat T).
(** 911-917: what the suggested model infers with, and what it shows as its topics: its statistics are drawn at random *)
Record lda_model : Type := mkLda { l_alpha : nat -> R; l_expElogbeta : mat; l_sstats : mat; l_eta : R }.
Definition suggested_lda_model (s : hdp) (draw : mat) : lda_model := mkLda (lda_alpha s) (lda_beta s) draw (1 / INR T).
Definition lda_topics (m : lda_model) : mat := fun t w => (l_eta m + l_sstats m t w) / sumn W (fun w' => l_eta m + l_sstats m t w').
End Hdp.
