(** Model of /repo/gensim/models/keyedvectors.py 1183-1438: [evaluate_word_analogies] and [evaluate_word_pairs].

    Simplifications: keys are strings, one vector per key and row [i] belongs to [index_to_key[i]].  The similarity of
    row [j] to the mean of the unit rows b, c and minus a ([offset_score]) and the cosine of two rows ([cosine]) are
    parameters without NaN.  A line of the file is its text, or [None] if the bytes do not decode ([utils.to_unicode]
    raises).  [str.upper] and [float()] are parameters.  [stats.pearsonr] and [stats.spearmanr] are not modelled except
    that [pearsonr] raises [ValueError] for fewer than two pairs; the two lists they are given are returned instead.
    Logging is left out. *)

From Coq Require Import QArith.
From Verif Require Import Base Str Matutils_Model.
Close Scope Q_scope.
Local Open Scope nat_scope.

Record kvm : Type := mkKvm { index_to_key : list pystr; key_to_index : dict pystr nat }.
Definition set_k2i (m : kvm) (d : dict pystr nat) : kvm := mkKvm (index_to_key m) d.

(** [l[:k]], [k] an integer or None. *)
Definition prefix_opt {A} (k : option Z) (l : list A) : list A := match k with Some z => py_prefix z l | None => l end.

Section Eval.
Variable upper : pystr -> pystr.
Variable offset_score : nat -> nat -> nat -> nat -> Q.    (* a b c row *)
Variable cosine : nat -> nat -> Q.
Variable parse_float : pystr -> option Q.
Variable np_argsort : list Q -> list nat.
Variable np_argpartition : list Q -> nat -> list nat.

Definition fold_case (case_insensitive : bool) (w : pystr) : pystr := if case_insensitive then upper w else w.

(** 386-399: [get_index] of a string. *)
Definition get_index (m : kvm) (k : pystr) : result nat := of_option KeyError (dget (key_to_index m) k).

(** 1244-1248 and 1381-1385: [ok_vocab]. *)
Definition ok_vocab (m : kvm) (restrict_vocab : option Z) (ci : bool) : result (dict pystr nat) :=
  rfold (fun d k => let* i := get_index m k in Ok (dset d (fold_case ci k) i)) (rev (prefix_opt restrict_vocab (index_to_key m))) [].

(** 690-784: [most_similar(positive=[b, c], negative=[a], topn=5, restrict_vocab=restrict_vocab)]. *)
Definition set_of (l : list nat) : list nat := nodup eq_dec l.
Definition most_similar5 (m : kvm) (a b c : pystr) (restrict_vocab : option Z) : result (list pystr) :=
  let* ib := get_index m b in
  let* ic := get_index m c in
  let* ia := get_index m a in
  let all_keys := set_of [ib; ic; ia] in
  let rows := seq 0 (length (index_to_key m)) in
  let rows := match restrict_vocab with Some 0%Z => rows | _ => prefix_opt restrict_vocab rows end in
  let dists := map (offset_score ia ib ic) rows in
  let best := argsort np_argsort np_argpartition dists (Some (5 + Z.of_nat (length all_keys))%Z) true in
  let* res := rmapM (fun i => of_option IndexError (nth_error (index_to_key m) i)) (filter (fun i => negb (memb i all_keys)) best) in
  Ok (firstn 5 res).

Definition quad : Type := pystr * pystr * pystr * pystr.
Record section : Type := mkSection { s_name : pystr; s_correct : list quad; s_incorrect : list quad }.

(** 1293-1298: the loop over [sims]. *)
Fixpoint predict (ci : bool) (ok : dict pystr nat) (ignore : list pystr) (sims : list pystr) (predicted : option pystr) : option pystr :=
  match sims with
  | [] => predicted
  | k :: r => let p := fold_case ci k in
              if dmem ok p && negb (memb p ignore) then Some p else predict ci ok ignore r (Some p)
  end.

(** 1257-1303: the state of the loop over the lines. *)
Record st : Type := mkSt { st_sections : list section; st_section : option section; st_oov : nat; st_quads : nat }.
Definition is_header (line : pystr) : bool := match line with 58%N :: 32%N :: _ => true | _ => false end.
Definition header_name (line : pystr) : pystr := strip is_space (lstrip (fun c => (c =? 58)%N || (c =? 32)%N) line).
Definition store (s : st) : list section := match st_section s with Some x => st_sections s ++ [x] | None => st_sections s end.
Definition add_correct (x : section) (q : quad) : section := mkSection (s_name x) (s_correct x ++ [q]) (s_incorrect x).
Definition add_incorrect (x : section) (q : quad) : section := mkSection (s_name x) (s_correct x) (s_incorrect x ++ [q]).

Section Run.
Variables (restrict_vocab : option Z) (ci dummy4unknown : bool) (ok : dict pystr nat).

(** One line; the model with it, as [key_to_index] is replaced for the time of the search. *)
Definition analogy_line (m : kvm) (s : st) (line : option pystr) : result st * kvm :=
  match line with
  | None => (Err UnicodeErr, m)
  | Some line =>
    if is_header line then (Ok (mkSt (store s) (Some (mkSection (header_name line) [] [])) (st_oov s) (st_quads s)), m) else
    match st_section s with
    | None => (Err ValueError, m)
    | Some x =>
      match map (fold_case ci) (words is_space line) with
      | [a; b; c; expected] =>
        let q := (a, b, c, expected) in
        let n := S (st_quads s) in
        if negb (dmem ok a) || negb (dmem ok b) || negb (dmem ok c) || negb (dmem ok expected)
        then (Ok (mkSt (st_sections s) (Some (if dummy4unknown then add_incorrect x q else x)) (S (st_oov s)) n), m)
        else
          let original := key_to_index m in
          let m1 := set_k2i m ok in
          match most_similar5 m1 a b c restrict_vocab with
          | Err e => (Err e, m1)
          | Ok sims =>
            let m2 := set_k2i m1 original in
            let predicted := predict ci ok [a; b; c] sims None in
            (Ok (mkSt (st_sections s) (Some (if eqb predicted (Some expected) then add_correct x q else add_incorrect x q)) (st_oov s) n), m2)
          end
      | _ => (Ok s, m)
      end
    end
  end.
Fixpoint analogy_lines (m : kvm) (s : st) (lines : list (option pystr)) : result st * kvm :=
  match lines with
  | [] => (Ok s, m)
  | l :: r => match analogy_line m s l with
              | (Err e, m1) => (Err e, m1)
              | (Ok s1, m1) => analogy_lines m1 s1 r
              end
  end.
End Run.

(** 1184-1203 *)
Definition section_score (x : section) : option Q :=
  let correct := length (s_correct x) in let incorrect := length (s_incorrect x) in
  if 0 <? correct + incorrect then Some (inject_Z (Z.of_nat correct) / inject_Z (Z.of_nat (correct + incorrect)))%Q else None.

(** 1205-1319; 1309-1311 divide by the number of quadruplets. *)
Definition evaluate_word_analogies (m : kvm) (lines : list (option pystr)) (restrict_vocab : option Z) (ci dummy4unknown : bool)
    : result (option Q * list section) * kvm :=
  match ok_vocab m restrict_vocab ci with
  | Err e => (Err e, m)
  | Ok ok =>
    match analogy_lines restrict_vocab ci dummy4unknown ok m (mkSt [] None 0 0) lines with
    | (Err e, m1) => (Err e, m1)
    | (Ok s, m1) =>
      let sections := store s in
      let total := mkSection (str "Total accuracy") (flat_map s_correct sections) (flat_map s_incorrect sections) in
      if st_quads s =? 0 then (Err ZeroDivErr, m1) else
      (Ok (section_score total, sections ++ [total]), m1)
    end
  end.

(** ** 1336-1438 *)

(** 1394-1417: gold values, values of the model, number of pairs with unknown words.  [delimiter] is one character. *)
Fixpoint pair_lines (m : kvm) (delimiter : N) (ci dummy4unknown : bool) (ok : dict pystr nat)
    (gold model : list Q) (oov : nat) (lines : list (option pystr)) : result (list Q * list Q * nat) :=
  match lines with
  | [] => Ok (gold, model, oov)
  | None :: _ => Err UnicodeErr
  | Some line :: r =>
    match line with
    | 35%N :: _ => pair_lines m delimiter ci dummy4unknown ok gold model oov r
    | _ =>
      match map (fold_case ci) (split_on delimiter line) with
      | [a; b; sim] =>
        match parse_float sim with
        | None => pair_lines m delimiter ci dummy4unknown ok gold model oov r
        | Some g =>
          if negb (dmem ok a) || negb (dmem ok b) then
            if dummy4unknown then pair_lines m delimiter ci dummy4unknown ok (gold ++ [g]) (model ++ [0%Q]) (S oov) r
            else pair_lines m delimiter ci dummy4unknown ok gold model (S oov) r
          else
            let* ia := get_index m a in
            let* ib := get_index m b in
            pair_lines m delimiter ci dummy4unknown ok (gold ++ [g]) (model ++ [cosine ia ib]) oov r
        end
      | _ => pair_lines m delimiter ci dummy4unknown ok gold model oov r
      end
    end
  end.
Definition evaluate_word_pairs (m : kvm) (lines : list (option pystr)) (delimiter : N) (restrict_vocab : option Z) (ci dummy4unknown : bool)
    : result (list Q * list Q * Q) * kvm :=
  match ok_vocab m restrict_vocab ci with
  | Err e => (Err e, m)
  | Ok ok =>
    let original := key_to_index m in
    let m1 := set_k2i m ok in
    match pair_lines m1 delimiter ci dummy4unknown ok [] [] 0 lines with
    | Err e => (Err e, m1)
    | Ok (gold, model, oov) =>
      let m2 := set_k2i m1 original in
      if length gold <? 2 then (Err ValueError, m2) else
      let n := if dummy4unknown then length gold else length gold + oov in
      (Ok (gold, model, (inject_Z (Z.of_nat oov) / inject_Z (Z.of_nat n) * 100)%Q), m2)
    end
  end.
End Eval.
