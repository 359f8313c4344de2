(** Model of the dynamic topic model: /repo/gensim/models/ldaseqmodel.py 194-218 (`init_ldaseq_ss`), 221-309 (`fit_lda_seq`), 368-490
    (`inferDTMseq`, `make_lda_seq_slice`, `fit_lda_seq_topics`), 536-583 (`print_topic`, `doc_topics`), 660-687 (`__getitem__`), 704-1243 (class
    `sslm`), 1245-1530 (class `LdaPost`), 1533-1645 (`f_obs`, `df_obs`).

    Simplifications: real numbers (no rounding); arrays are functions of their indices and fresh arrays are full of zeros.  The digamma
    function [psi] and the logarithm of the gamma function [lgam] are arbitrary.  scipy's `fmin_cg` is the argument [cg]: of the chain, the
    word, its counts, the totals and the matrix of derivatives it gives the new observations and what its last evaluation of the
    objective left in the rows of the means.  Dividing by zero gives an infinity or nan: this is kept where it steers a loop ([change]),
    elsewhere the theorems ask for positive numbers.  The corpus is a list, so that cutting it into chunks (`utils.grouper`, Utils_Model.v)
    changes nothing; it is not longer than [max_doc_len] allows.  `lhoods`, which nothing reads, logging, the unused branches of the document
    influence model and the stationary LDA of the first step are left out. *)
From Coq Require Import Reals.
From Verif Require Import Base MatReal_Model LdaTrain_Model SoftCosine_Model.
Local Open Scope R_scope.

Definition row : Type := nat -> R.
Definition put {A : Type} (f : nat -> A) (i : nat) (x : A) : nat -> A := fun j => if (j =? i)%nat then x else f j.

(** numpy's [np.fabs(d / old)] *)
Inductive change : Type := Fin (x : R) | Inf | Nan.
Definition rel_change (d old : R) : change :=
  if Req_EM_T old 0 then if Req_EM_T d 0 then Nan else Inf else Fin (Rabs (d / old)).
Definition above (c : change) (eps : R) : bool := match c with Fin x => if Rlt_dec eps x then true else false | Inf => true | Nan => false end.
Definition below (c : change) (eps : R) : bool := match c with Fin x => if Rlt_dec x eps then true else false | _ => false end.

(** ** One word: variances and means *)
(** compute_post_variance, 783-806; [r] is [obs_variance], [q] is [chain_variance] *)
Definition fwd_variance (T : nat) (r q : R) (fwd : row) : row :=
  fold_left (fun f t => let c := if Req_EM_T r 0 then 0 else r / (f (t - 1)%nat + q + r) in put f t (c * (f (t - 1)%nat + q))) (seq 1 T) (put fwd 0%nat (q * 1000)).
Definition bwd_variance (T : nat) (q : R) (fwd variance : row) : row :=
  fold_left (fun v t => let c := if Rlt_dec 0 (fwd t) then (fwd t / (fwd t + q)) ^ 2 else 0 in put v t (c * (v (t + 1)%nat - q) + (1 - c) * fwd t)) (rev (seq 0 T)) (put variance T (fwd T)).
Definition post_variance (T : nat) (r q : R) (variance fwd : row) : row * row :=
  let f := fwd_variance T r q fwd in (bwd_variance T q f variance, f).

(** compute_post_mean, 843-862 *)
Definition fwd_mean (T : nat) (r q : R) (fvar obs fm : row) : row :=
  fold_left (fun m t => let c := r / (fvar (t - 1)%nat + q + r) in put m t (c * m (t - 1)%nat + (1 - c) * obs (t - 1)%nat)) (seq 1 T) (put fm 0%nat 0).
Definition bwd_mean (T : nat) (q : R) (fvar fm mean : row) : row :=
  fold_left (fun m t => let c := if Req_EM_T q 0 then 0 else q / (fvar t + q) in put m t (c * fm t + (1 - c) * m (t + 1)%nat)) (rev (seq 0 T)) (put mean T (fm T)).
Definition post_mean (T : nat) (r q : R) (fvar obs mean fm : row) : row * row :=
  let f := fwd_mean T r q fvar obs fm in (bwd_mean T q fvar f mean, f).

(** compute_mean_deriv, 1144-1170; [fv] is what it calls [fwd_variance] *)
Definition mean_deriv (T : nat) (r q : R) (fv : row) (time : nat) (deriv : row) : row :=
  let fwd := fold_left (fun d t =>
    let w := if Rlt_dec 0 r then r / (fv (t - 1)%nat + q + r) else 0 in
    put d t (w * d (t - 1)%nat + (if (time =? t - 1)%nat then 1 - w else 0))) (seq 1 T) (put deriv 0%nat 0) in
  fold_left (fun d t => let w := if Req_EM_T q 0 then 0 else q / (fv t + q) in put d t (w * d t + (1 - w) * d (t + 1)%nat)) (rev (seq 0 T)) fwd.

(** ** A chain *)
Record sslm : Type := mkS { s_W : nat; s_T : nat; s_r : R; s_q : R; s_obs : mat; s_elog : mat; s_mean : mat; s_fmean : mat; s_fvar : mat; s_var : mat; s_zeta : row }.

Definition with_var (s : sslm) (v f : mat) : sslm := mkS (s_W s) (s_T s) (s_r s) (s_q s) (s_obs s) (s_elog s) (s_mean s) (s_fmean s) f v (s_zeta s).
Definition with_mean (s : sslm) (m f : mat) : sslm := mkS (s_W s) (s_T s) (s_r s) (s_q s) (s_obs s) (s_elog s) m f (s_fvar s) (s_var s) (s_zeta s).
Definition with_zeta (s : sslm) (z : row) : sslm := mkS (s_W s) (s_T s) (s_r s) (s_q s) (s_obs s) (s_elog s) (s_mean s) (s_fmean s) (s_fvar s) (s_var s) z.
Definition with_elog (s : sslm) (e : mat) : sslm := mkS (s_W s) (s_T s) (s_r s) (s_q s) (s_obs s) e (s_mean s) (s_fmean s) (s_fvar s) (s_var s) (s_zeta s).
Definition with_obs (s : sslm) (o : mat) : sslm := mkS (s_W s) (s_T s) (s_r s) (s_q s) o (s_elog s) (s_mean s) (s_fmean s) (s_fvar s) (s_var s) (s_zeta s).

(** __init__, 704-718 *)
Definition new_sslm (W T : nat) (r q : R) : sslm := let z : mat := fun _ _ => 0 in mkS W T r q z z z z z z (fun _ => 0).
(** update_zeta, 742-744 *)
Definition update_zeta (s : sslm) : sslm := with_zeta s (fun j => sumn (s_W s) (fun w => exp (s_mean s w (j + 1)%nat + s_var s w (j + 1)%nat / 2))).
(** compute_expected_log_prob, 877-879 *)
Definition expected_log_prob (s : sslm) : sslm := with_elog s (fun w t => s_mean s w (t + 1)%nat - ln (s_zeta s t)).
(** The variances, the means of all words *)
Definition all_variances (s : sslm) : sslm :=
  with_var s (fun w => fst (post_variance (s_T s) (s_r s) (s_q s) (s_var s w) (s_fvar s w))) (fun w => snd (post_variance (s_T s) (s_r s) (s_q s) (s_var s w) (s_fvar s w))).
Definition all_means (s : sslm) : sslm :=
  with_mean s (fun w => fst (post_mean (s_T s) (s_r s) (s_q s) (s_fvar s w) (s_obs s w) (s_mean s w) (s_fmean s w)))
    (fun w => snd (post_mean (s_T s) (s_r s) (s_q s) (s_fvar s w) (s_obs s w) (s_mean s w) (s_fmean s w))).
(** sslm_counts_init, 898-919 *)
Definition norm_counts (W : nat) (sstats : row) : row :=
  let c1 w := sstats w / sumn W sstats in
  let c2 w := c1 w + 1 / INR W in
  fun w => c2 w / sumn W c2.
Definition counts_init (s : sslm) (r q : R) (sstats : row) : sslm :=
  let s1 := with_obs (mkS (s_W s) (s_T s) r q (s_obs s) (s_elog s) (s_mean s) (s_fmean s) (s_fvar s) (s_var s) (s_zeta s)) (fun w _ => ln (norm_counts (s_W s) sstats w)) in
  expected_log_prob (update_zeta (all_means (all_variances s1))).

(** compute_bound, 1000-1044.  The loop over the words rebinds [w], so that the next slice has one word less.  Without words there is nothing
    to unpack in 1011. *)
Definition term1 (q : R) (m v : row) (t : nat) : R := (m t - m (t - 1)%nat) ^ 2 / (2 * q) - v t / q - ln q.
Definition bound_step (s : sslm) (sstats : mat) (totals : row) (vw : R * nat) (t : nat) : R * nat :=
  let (val, w) := vw in
  let term_1 := sumn w (fun w => term1 (s_q s) (s_mean s w) (s_var s w) t) in
  let term_2 := sumn w (fun w => sstats w (t - 1)%nat * s_mean s w t) in
  let ent := sumn w (fun w => ln (s_var s w t) / 2) in
  let term_3 := - totals (t - 1)%nat * ln (s_zeta s (t - 1)%nat) in
  (val + (term_2 + term_3 + ent - term_1), match w with O => O | S w' => w' end).
Definition compute_bound (s : sslm) (sstats : mat) (totals : row) : result (sslm * R) :=
  if (s_W s =? 0)%nat then Err ValueError else
  let s1 := update_zeta (all_means s) in
  let val := sumn (s_W s1) (fun w => s_var s1 w 0%nat - s_var s1 w (s_T s1)) / 2 * s_q s1 in
  Ok (s1, fst (fold_left (bound_step s1 sstats totals) (seq 1 (s_T s1)) (val, s_W s1))).

(** ** Fitting the observations *)
(** compute_obs_deriv, 1198-1243 *)
Definition obs_deriv (T : nat) (q : R) (mean variance zeta counts totals : row) (mtx : mat) : row := fun t =>
  let d := mtx t in
  let t1 := sumn T (fun u => (mean (u + 1)%nat - mean u) * (d (u + 1)%nat - d u)) in
  let t2 := sumn T (fun u => (counts u - totals u * exp (mean (u + 1)%nat + variance (u + 1)%nat / 2) / zeta u) * d (u + 1)%nat) in
  (if Req_EM_T q 0 then 0 else - (t1 / q) - mean 0%nat * d 0%nat / (1000 * q)) + t2.
(** 1563-1605, 1633-1645 *)
Definition f_obs (s : sslm) (counts totals : row) (word : nat) (x : row) : R :=
  let T := s_T s in
  let mean := fst (post_mean T (s_r s) (s_q s) (s_fvar s word) x (s_mean s word) (s_fmean s word)) in
  let t1 := sumn T (fun u => (mean (u + 1)%nat - mean u) * (mean (u + 1)%nat - mean u)) in
  let t2 := sumn T (fun u => counts u * mean (u + 1)%nat - totals u * exp (mean (u + 1)%nat + s_var s word (u + 1)%nat / 2) / s_zeta s u) in
  - ((if Rlt_dec 0 (s_q s) then - (t1 / (2 * s_q s)) - mean 0%nat * mean 0%nat / (2 * 1000 * s_q s) else 0) + t2).
Definition df_obs (s : sslm) (counts totals : row) (mtx : mat) (word : nat) (x : row) : row :=
  let mean := fst (post_mean (s_T s) (s_r s) (s_q s) (s_fvar s word) x (s_mean s word) (s_fmean s word)) in
  fun t => - obs_deriv (s_T s) (s_q s) mean (s_var s word) (s_zeta s) counts totals mtx t.
(** 1098-1099 with 1145: the variances that are handed over are the smoothed ones *)
Definition deriv_mtx (s : sslm) (word : nat) : mat := fun t => mean_deriv (s_T s) (s_r s) (s_q s) (s_var s word) t (fun _ => 0).

Section Fit.
Variable cg : sslm -> nat -> row -> row -> mat -> row * row * row.

(** update_obs, 1067-1120: one word; the flag: [norm_cutoff_obs] is not None *)
Definition counts_norm (T : nat) (counts : row) : R := sqrt (sumn T (fun i => counts i * counts i)).
Definition obs_step (sstats : mat) (totals : row) (sf : sslm * bool) (w : nat) : sslm * bool :=
  let (s, cutoff) := sf in
  let small := if Rlt_dec (counts_norm (s_T s) (sstats w)) 2 then true else false in
  if small && cutoff then (s, true) else
  let counts := if small then fun _ => 0 else sstats w in
  let '(obs, mean, fm) := cg s w counts totals (deriv_mtx s w) in
  (with_obs (with_mean s (put (s_mean s) w mean) (put (s_fmean s) w fm)) (put (s_obs s) w obs), cutoff || small).
Definition update_obs (s : sslm) (sstats : mat) (totals : row) : sslm :=
  update_zeta (fst (fold_left (obs_step sstats totals) (seq 0 (s_W s)) (s, false))).

(** fit_sslm, 940-978 *)
Definition fit_tol : R := 1 / 1000000.
Fixpoint fit_loop (fuel : nat) (s : sslm) (sstats : mat) (totals : row) (bound : R) (conv : change) : result (sslm * R) :=
  match fuel with
  | O => Ok (s, bound)
  | S fuel' => if above conv fit_tol
      then let* sb := compute_bound (update_obs s sstats totals) sstats totals in
        fit_loop fuel' (fst sb) sstats totals (snd sb) (rel_change (snd sb - bound) bound)
      else Ok (s, bound)
  end.
Definition fit_sslm (s : sslm) (sstats : mat) : result (sslm * R) :=
  if (s_W s =? 0)%nat then Err ValueError else
  let s1 := all_variances s in
  let totals t := sumn (s_W s) (fun w => sstats w t) in
  let* sb := compute_bound s1 sstats totals in
  let* sb' := fit_loop 2 (fst sb) sstats totals (snd sb) (Fin (fit_tol + 1)) in
  Ok (expected_log_prob (fst sb'), snd sb').
(** fit_lda_seq_topics, 484-490 *)
Fixpoint fit_topics (chains : list sslm) (suff : nat -> mat) (k : nat) : result (list sslm * R) :=
  match chains with
  | [] => Ok ([], 0)
  | c :: cs => let* cb := fit_sslm c (suff k) in
      let* rest := fit_topics cs suff (S k) in
      Ok (fst cb :: fst rest, snd cb + snd rest)
  end.
End Fit.

(** ** One document *)
Record lda : Type := mkLda { l_K : nat; l_W : nat; l_alpha : row; l_topics : mat }.
Record post : Type := mkP { p_gamma : row; p_phi : mat; p_log : mat }.
(** np.logaddexp *)
Definition logaddexp (a b : R) : R := ln (exp a + exp b).

Section Post.
Variables psi lgam : R -> R.
Variable m : lda.
Notation K := (l_K m).

(** update_phi, 1315-1340: row [n] belongs to the [n]-th word of the document *)
Definition raw_phi (gamma : row) (word : nat) : row := fun k => psi (gamma k) + l_topics m word k.
Definition log_norm (v : row) : R := fold_left (fun a i => logaddexp a (v i)) (seq 1 (K - 1)) (v 0%nat).
Definition phi_step (gamma : row) (pl : mat * mat) (nw : nat * (nat * R)) : mat * mat :=
  let v := raw_phi gamma (fst (snd nw)) in
  let l k := v k - log_norm v in
  (put (fst pl) (fst nw) (fun k => exp (l k)), put (snd pl) (fst nw) l).
Definition numbered {A : Type} (l : list A) : list (nat * A) := combine (seq 0 (length l)) l.
Definition update_phi (d : doc) (p : post) : post :=
  let pl := fold_left (phi_step (p_gamma p)) (numbered d) (p_phi p, p_log p) in mkP (p_gamma p) (fst pl) (snd pl).
(** update_gamma, 1353-1362 *)
Definition update_gamma (d : doc) (p : post) : post :=
  mkP (fold_left (fun g nw => fun k => g k + p_phi p (fst nw) k * snd (snd nw)) (numbered d) (l_alpha m)) (p_phi p) (p_log p).
(** init_lda_post, 1364-1370 *)
Definition total (d : doc) : R := Rsum (map snd d).
Definition init_post (d : doc) (p : post) : post :=
  mkP (fun _ => l_alpha m 0%nat + total d / INR K) (fun n => if (n <? length d)%nat then fun _ => 1 / INR K else p_phi p n) (p_log p).
(** compute_lda_lhood, 1381-1418 *)
Definition lhood_term (d : doc) (p : post) (digsum : R) (k : nat) : R :=
  let e := psi (p_gamma p k) - digsum in
  (l_alpha m k - p_gamma p k) * e + lgam (p_gamma p k) - lgam (l_alpha m k) +
  Rsum (map (fun nw => if Rlt_dec 0 (p_phi p (fst nw) k) then snd (snd nw) * p_phi p (fst nw) k * (e + l_topics m (fst (snd nw)) k - p_log p (fst nw) k) else 0) (numbered d)).
Definition lda_lhood (d : doc) (p : post) : R :=
  let gamma_sum := sumn K (p_gamma p) in
  lgam (sumn K (l_alpha m)) - lgam gamma_sum + sumn K (lhood_term d p (psi gamma_sum)).
(** fit_lda_post, 1450-1495; an id that the topics do not have is an IndexError.  The last component: the rounds *)
Definition lda_tol : R := 1 / 100000000.
Definition round (d : doc) (p : post) : post := update_phi d (update_gamma d p).
Fixpoint post_loop (fuel : nat) (d : doc) (max_iter it : nat) (p : post) (lhood : R) (conv : change) : post * R * nat :=
  match fuel with
  | O => (p, lhood, it)
  | S fuel' => if above conv lda_tol && (it <=? max_iter)%nat
      then let p' := round d p in let l' := lda_lhood d p' in post_loop fuel' d max_iter (S it) p' l' (rel_change (lhood - l') (lhood * total d))
      else (p, lhood, it)
  end.
Definition fit_post (d : doc) (max_iter : nat) (p : post) : result (post * R * nat) :=
  if negb (forallb (fun wc => (fst wc <? l_W m)%nat) d) then Err IndexError else
  let p0 := init_post d p in
  let l0 := lda_lhood d p0 in
  let p1 := round d p0 in
  let l1 := lda_lhood d p1 in
  Ok (post_loop (S max_iter) d max_iter 1 p1 l1 (rel_change (l0 - l1) (l0 * total d))).
(** update_lda_seq_ss, 1519-1530 *)
Definition seq_ss (time : nat) (d : doc) (p : post) (suff : nat -> mat) : nat -> mat := fun k =>
  if (k <? K)%nat
  then fold_left (fun ss nw => put ss (fst (snd nw)) (put (ss (fst (snd nw))) time (ss (fst (snd nw)) time + snd (snd nw) * p_phi p (fst nw) k))) (numbered d) (suff k)
  else suff k.
End Post.

(** ** The corpus *)
Section Seq.
Variables psi lgam : R -> R.
Variables K W : nat.
Variable alphas : row.

(** make_lda_seq_slice, 463-468: a slice that is not there is an IndexError *)
Definition make_slice (chains : list sslm) (time : nat) : result lda :=
  if negb (forallb (fun c => (time <? s_T c)%nat) chains) then Err IndexError
  else Ok (mkLda K W alphas (fun w k => s_elog (nth k chains (new_sslm 0 0 0 0)) w time)).
(** np.cumsum *)
Definition cumsum (l : list nat) (i : nat) : nat := fold_right Nat.add 0%nat (firstn (S i) l).

Record infer_state : Type := mkI { i_index : nat; i_time : nat; i_lda : lda; i_post : post; i_suff : nat -> mat; i_gammas : mat; i_bound : R; i_times : list nat }.
(** inferDTMseq, 404-445: one document; [i_times] is history *)
Definition infer_doc (chains : list sslm) (time_slice : list nat) (max_iter : nat) (st : infer_state) (d : doc) : result infer_state :=
  let* tl := if (cumsum time_slice (i_time st) <? i_index st)%nat
             then let* l := make_slice chains (S (i_time st)) in Ok (S (i_time st), l) else Ok (i_time st, i_lda st) in
  let* r := fit_post psi lgam (snd tl) d max_iter (i_post st) in
  let '(p, lh, _) := r in
  Ok (mkI (S (i_index st)) (fst tl) (snd tl) p (seq_ss (snd tl) (fst tl) d p (i_suff st)) (put (i_gammas st) (i_index st) (p_gamma p)) (i_bound st + lh) (i_times st ++ [fst tl])).
Definition infer (chains : list sslm) (time_slice : list nat) (max_iter : nat) (corpus : list doc) : result infer_state :=
  let* l := make_slice chains 0 in
  let z : mat := fun _ _ => 0 in
  rfold (infer_doc chains time_slice max_iter) corpus (mkI 0 0 l (mkP (fun _ => 0) z z) (fun _ => z) z 0 []).

(** __getitem__, 673-687: the mixture after the last slice *)
Definition get_item (chains : list sslm) (T : nat) (d : doc) : result row :=
  let z : mat := fun _ _ => 0 in
  let* p := rfold (fun p time => let* l := make_slice chains time in let* r := fit_post psi lgam l d 25 p in Ok (fst (fst r))) (seq 0 T) (mkP (fun _ => 0) z z) in
  Ok (fun k => p_gamma p k / sumn K (p_gamma p)).
End Seq.

(** print_topic, 555-562, before sorting; doc_topics, 582-583 *)
Definition topic_dist (s : sslm) (time : nat) : result row :=
  if (time <? s_T s)%nat then Ok (fun w => exp (s_elog s w time) / sumn (s_W s) (fun v => exp (s_elog s v time))) else Err IndexError.
Definition doc_topics (K : nat) (gammas : mat) (doc_number : nat) : row := fun k => gammas doc_number k / sumn K (gammas doc_number).

(** ** fit_lda_seq, 248-309, for an arbitrary round [step] (the E and the M step) of the number of the round, the limit of the inference and the model;
    the result: model, bound, rounds, the limit and the last convergence *)
Section Em.
Context {St : Type}.
Variable step : nat -> nat -> St -> result (R * St).
Definition em_tol : R := 1 / 10000.
Fixpoint em_loop (fuel : nat) (em_min em_max it : nat) (max_iter : nat) (bound : R) (conv : change) (s : St) : result (St * R * nat * nat * change) :=
  match fuel with
  | O => Ok (s, bound, it, max_iter, conv)
  | S fuel' =>
      if (it <? em_min)%nat || (above conv em_tol && (it <=? em_max)%nat) then
        let* bs := step it max_iter s in
        let b := fst bs in
        let mi1 := if Rlt_dec (b - bound) 0 then if (max_iter <? 10)%nat then (max_iter * 2)%nat else max_iter else max_iter in
        let c := rel_change (b - bound) bound in
        let fin := below c em_tol in
        em_loop fuel' em_min em_max (S it) (if fin then 500%nat else mi1) b (if fin then Fin 1 else c) (snd bs)
      else Ok (s, bound, it, max_iter, conv)
  end.
Definition em_fit (max_iter em_min em_max : nat) (s : St) : result (St * R * nat * nat * change) :=
  em_loop (em_min + em_max + 1) em_min em_max 0 max_iter 0 (Fin (em_tol + 1)) s.
End Em.

(** The round of 263-309: the chains and the mixtures of the documents *)
Definition em_step (psi lgam : R -> R) (cg : sslm -> nat -> row -> row -> mat -> row * row * row) (K W : nat) (alphas : row) (time_slice : list nat) (corpus : list doc)
  (it max_iter : nat) (s : list sslm * mat) : result (R * (list sslm * mat)) :=
  let* i := infer psi lgam K W alphas (fst s) time_slice max_iter corpus in
  let* cb := fit_topics cg (fst s) (i_suff i) 0 in
  Ok (i_bound i + snd cb, (fst cb, i_gammas i)).
Definition fit_lda_seq (psi lgam : R -> R) (cg : sslm -> nat -> row -> row -> mat -> row * row * row) (W : nat) (r q : R) (alphas : row) (time_slice : list nat)
  (corpus : list doc) (K : nat) (init : mat) (max_iter em_min em_max : nat) : result (list sslm * mat * R * nat * nat * change) :=
  let chains := map (fun k => counts_init (new_sslm W (length time_slice) r q) r q (fun w => init w k)) (seq 0 K) in
  em_fit (em_step psi lgam cg K W alphas time_slice corpus) max_iter em_min em_max (chains, fun _ _ => 0).
