(** Training without any laziness: after every chunk the whole matrix is discounted and the sums are computed anew. *)
From Coq Require Import Reals.
From Verif Require Import Base MatReal_Model LdaTrain_Model Lsi_Model Hdp_Model.
Local Open Scope R_scope.

Section Eager.
Variable psi : R -> R.
Variable order : nat -> (nat -> R) -> nat -> nat.
Variable lik : doc -> mat -> mat -> mat -> R.
Variable o : opts.

Record eager : Type := mkEager { e_lambda : mat; e_varphi : nat -> R; e_sticks : (nat -> R) * (nat -> R); e_ct : nat }.
Definition e_sum (e : eager) (t : nat) : R := sumn (o_W o) (e_lambda e t).
(** expectations of all words, from the matrix *)
Definition e_elog (e : eager) : mat := fun t w => psi (o_eta o + e_lambda e t w) - psi (INR (o_W o) * o_eta o + e_sum e t).
(** what a document, with [vp] and [phi], says about topic [t] and word [w] *)
Definition doc_says (d : doc) (vp phi : mat) (t w : nat) : R :=
  sumn (length d) (fun n => if (word d n =? w)%nat then sumn (o_K o) (fun k => vp k t * phi n k) * count d n else 0).
(** the sums over the documents that have words *)
Fixpoint chunk_says (chunk : list doc) (elog : mat) (sticks1 : nat -> R) : option (mat * (nat -> R)) :=
  match chunk with
  | [] => Some (mzero, fun _ => 0)
  | [] :: rest => chunk_says rest elog sticks1
  | d :: rest =>
    match doc_e_step psi lik o d elog sticks1, chunk_says rest elog sticks1 with
    | Some (vp, phi), Some (m, q) => Some ((fun t w => doc_says d vp phi t w + m t w), fun t => sumn (o_K o) (fun k => vp k t) + q t)
    | _, _ => None
    end
  end.
Definition eager_chunk (opt_o : bool) (e : eager) (chunk : list doc) : option eager :=
  match chunk_says chunk (e_elog e) (expect_log_sticks psi (o_T o) (fst (e_sticks e)) (snd (e_sticks e))) with
  | None => None
  | Some (says, sticks_say) =>
    let rho := rhot o (e_ct e) in
    let lam : mat := fun t w => (1 - rho) * e_lambda e t w + rho * (INR (o_D o) * says t w / INR (length chunk)) in
    let varphi t := (1 - rho) * e_varphi e t + rho * (INR (o_D o) * sticks_say t / INR (length chunk)) in
    let idx := if opt_o then order (o_T o) (fun t => sumn (o_W o) (lam t)) else fun t => t in
    Some (mkEager (fun t => lam (idx t)) (fun t => varphi (idx t)) (top_sticks o (fun t => varphi (idx t))) (S (e_ct e)))
  end.
Fixpoint eager_run (opt_o : bool) (e : eager) (chunks : list (list doc)) : option eager :=
  match chunks with
  | [] => Some e
  | c :: rest => match eager_chunk opt_o e c with Some e' => eager_run opt_o e' rest | None => None end
  end.
Definition new_eager (draw : mat) : eager :=
  mkEager (fun t w => draw t w * INR (o_D o) * 100 / (INR (o_T o) * INR (o_W o)) - o_eta o) (fun _ => 0) ((fun _ => 1), (fun k => INR (o_T o - 1 - k))) 0.
End Eager.

Definition doc_ok (W : nat) (d : doc) : Prop := NoDup (map fst d) /\ Forall (fun wc => (fst wc < W)%nat /\ 0 <= snd wc) d.
