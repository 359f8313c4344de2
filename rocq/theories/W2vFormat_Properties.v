(** Theorems about the word2vec formats (properties C39, C40, C61). *)

From Coq Require Import Permutation.
From Verif Require Import Base Str Matutils_Model Formats_Base LineCorpora_Proofs KeyedVectors_Model KeyedVectors_Spec KeyedVectors_Proofs
  W2vFormat_Model W2vFormat_Spec W2vFormat_Proofs W2vFormat_Proofs2.
From Coq Require Import ZifyBool ZifyNat ZifyN.
Local Open Scope nat_scope.

(** ** Loading arbitrary files *)

(** A text file: the first [n] lines are read ([n]: the declared number or the limit), the first entry of each word is
    kept, and a shorter file is an error. *)
Theorem load_text_file : forall {A R} (F : sfmt A) dom, sfmt_ok F dom ->
  forall d declared es limit cnts, d <> 0 ->
  (forall e, In e es -> text_word (fst e) /\ length (snd e) = d /\ Forall dom (snd e)) -> counted cnts es ->
  let file := file_header declared d ++ concat (map (fun e => text_line F (fst e) (snd e)) es) in
  let n := limited limit declared in
  if n <=? length es
  then exists m : kv (list A) R, load_text F file limit false cnts = Ok (d, m) /\
         holds F d m (firsts (firstn n es)) (count_in cnts n) (n - length (firsts (firstn n es)))
  else load_text F file limit false cnts = Err EOFErr :> result (nat * kv (list A) R).
Proof.
  intros A R F dom FO d declared es limit cnts D H C file n.
  destruct (header_ok declared d (concat (lines_of F es))) as (H1 & H2 & _).
  unfold load_text. fold (lines_of F es) in file. unfold file. rewrite H1. cbn [fst snd]. rewrite H2. cbn [rbind fst snd].
  rewrite (file_lines_of F dom FO) by (intros e He; destruct (H e He) as (? & _ & ?); auto). fold n.
  pose proof (read_text_ok F dom FO d n cnts es [] (kv_new (repeat (s_zero F) d) n : kv (list A) R) D H C (loaded_new F d n _) ltac:(cbn; lia)) as X.
  cbn [length app] in X. rewrite Nat.sub_0_r in X.
  destruct (n <=? length es).
  - destruct X as (m & E & L). rewrite E. cbn [rbind]. exists m. split; [reflexivity|]. apply loaded_holds. exact L.
  - rewrite X. reflexivity.
Qed.
Print Assumptions load_text_file.

(** A binary file, written here or by the original tool (any number of newlines before a word), possibly cut in the middle
    of an entry: for every chunk size, if no word occurs twice or all entries are wanted, the first [n] entries are read,
    the first entry of each word is kept, and a shorter file is an error. *)
Theorem load_binary_file : forall {A R} (F : sfmt A) dom, sfmt_ok F dom ->
  forall d declared es tail limit cnts chunk_size, d <> 0 -> chunk_size <> 0 -> incomplete d tail ->
  (forall e, In e es -> binary_word (fst (snd e)) /\ length (snd (snd e)) = d /\ Forall dom (snd (snd e))) -> counted cnts (map snd es) ->
  let n := limited limit declared in
  length es <= n \/ NoDup (map (fun e => fst (snd e)) es) ->
  let file := file_header declared d ++ concat (map (c_entry F) es) ++ tail in
  if n <=? length es
  then exists m : kv (list A) R, load_binary F file limit cnts chunk_size = Ok (d, m) /\
         holds F d m (firsts (firstn n (map snd es))) (count_in cnts n) (n - length (firsts (firstn n (map snd es))))
  else load_binary F file limit cnts chunk_size = Err EOFErr :> result (nat * kv (list A) R).
Proof.
  intros A R F dom FO d declared es tail limit cnts cs D Cz Inc H C n Dis file.
  destruct (header_ok declared d (concat (map (c_entry F) es) ++ tail)) as (H1 & H2 & H3).
  unfold load_binary. unfold file. rewrite H1, H3. cbn [of_option rbind]. rewrite H2. cbn [rbind fst snd]. fold n.
  pose proof (read_binary_ok F dom FO d n cnts cs tail D Inc Cz (S (length (concat (map (c_entry F) es) ++ tail))) es []
    (kv_new (repeat (s_zero F) d) n : kv (list A) R) [] (concat (map (c_entry F) es) ++ tail) H C (loaded_new F d n _)) as X.
  cbn [length app] in X. rewrite Nat.sub_0_r in X.
  assert (X' := X ltac:(lia) ltac:(destruct Dis as [?|Dis]; [left; lia | right; rewrite map_map; exact Dis]) eq_refl ltac:(lia)).
  destruct (n <=? length es).
  - destruct X' as (m & E & L). rewrite E. cbn [rbind]. exists m. split; [reflexivity|]. apply loaded_holds. exact L.
  - rewrite X'. reflexivity.
Qed.
Print Assumptions load_binary_file.

(** ** Saving and loading *)

Section RoundTrip.
Context {A R : Type}.
Variable F : sfmt A.
Variable dom : A -> Prop.
Hypothesis FO : sfmt_ok F dom.
Variables (norm : list A -> R) (divide : list A -> R -> list A) (zero : list A).
Variables (count : nat) (ops : list (op (list A))) (c : option (list Z)).
Hypothesis W : Forall well_shaped ops.
Hypothesis Ti : tidy count ops.
Hypothesis Full : fst (content count ops) = 0.
Notation m := (set_counts (run zero norm divide count ops) c).
Hypothesis Hc : match c with None => True | Some l => length l = kv_len (run zero norm divide count ops) end.
Notation f := (snd (content count ops)).
Variable d : nat.
Hypothesis Hv : forall k v, f k = Some v -> length v = d /\ Forall dom v.

Lemma hist_ok : exists order, keys_to_write m = Ok (map (fun s => Some (KStr s)) order) /\ store_order m = Ok (map (fun s => Some (KStr s)) order) /\
  stored_order m order /\ NoDup order /\ length order = length (index_to_key m) /\ (forall s, In s order <-> f s <> None) /\ Inv m 0 f.
Proof.
  destruct (run_ok zero norm divide count ops W) as (I & _ & Al). specialize (Al Ti). rewrite Full in I.
  assert (I' : Inv m 0 f) by (apply (Inv_same (run zero norm divide count ops)); [repeat split | exact I]).
  assert (K : str_keys m) by (apply (str_keys_same (run zero norm divide count ops)); [reflexivity | reflexivity | apply str_keys_run]).
  destruct (keys_ok m f I' Al K Hc) as (order & E1 & E2 & E3 & E4 & E5 & E6). exists order. auto 10.
Qed.

Lemma write_ok : forall {X} prefix order (g : pystr -> list A -> X), (forall s, In s order -> f s <> None) -> Inv m 0 f ->
  rmapM (fun k => let* v := getitem m k in Ok (g (prefix ++ opt_text k) v)) (map (fun s => Some (KStr s)) order)
  = Ok (map (fun e => g (fst e) (snd e)) (entries_of f prefix order)).
Proof.
  intros X prefix order g H I. induction order as [|s order IH]; [reflexivity|]. cbn [map rmapM].
  destruct (f s) as [v|] eqn:E; [|exfalso; apply (H s); [left; reflexivity | exact E]].
  rewrite (getitem_ok m 0 f s v I E). cbn [rbind]. rewrite IH by (intros; apply H; right; assumption). cbn [rbind entries_of map fst snd]. rewrite E. reflexivity.
Qed.

Lemma entries_ok : forall prefix order, (forall s, In s order <-> f s <> None) -> forall e, In e (entries_of f prefix order) ->
  exists k v, e = (prefix ++ k, v) /\ f k = Some v /\ length v = d /\ Forall dom v.
Proof.
  intros prefix order H e He. apply in_map_iff in He. destruct He as (k & <- & Hk). apply H in Hk. destruct (f k) as [v|] eqn:E; [|congruence].
  destruct (Hv k v E). exists k, v. auto.
Qed.
Lemma entries_nodup : forall prefix order, NoDup order -> NoDup (map fst (entries_of f prefix order)).
Proof.
  intros prefix order N. unfold entries_of. rewrite map_map. cbn [fst]. apply FinFun.Injective_map_NoDup; [|exact N].
  intros x y E. apply app_inv_head in E. exact E.
Qed.
Lemma NoDup_map_firstn : forall {X} n (l : list (pystr * X)), NoDup (map fst l) -> NoDup (map fst (firstn n l)).
Proof. intros X n l N. rewrite <- firstn_map. apply NoDup_firstn. exact N. Qed.
Lemma upto_limited : forall {X} limit (l : list X), firstn (limited limit (length l)) l = upto limit l /\ limited limit (length l) <= length l /\
  length (upto limit l) = limited limit (length l).
Proof.
  intros X limit l. destruct limit as [[|n]|]; unfold limited, upto.
  - rewrite firstn_all. auto.
  - split; [|split; [lia | rewrite firstn_length; lia]].
    destruct (Nat.le_gt_cases (length l) (S n)) as [L|L]; [rewrite Nat.min_l by lia; rewrite !firstn_all2 by lia; reflexivity | rewrite Nat.min_r by lia; reflexivity].
  - rewrite firstn_all. auto.
Qed.

Theorem text_roundtrip_ : d <> 0 -> forall prefix limit cnts, text_word prefix -> (forall k v, f k = Some v -> text_word k) ->
  exists order, stored_order m order /\ NoDup order /\ (forall k, In k order <-> f k <> None) /\
  (counted cnts (entries_of f prefix order) ->
  exists file m', save_text F m d prefix true = Ok file /\ load_text F file limit false cnts = Ok (d, m') /\
    holds F (R := R) d m' (upto limit (entries_of f prefix order)) (count_in cnts (length (upto limit (entries_of f prefix order)))) 0).
Proof.
  intros D prefix limit cnts Wp Wk. destruct hist_ok as (order & E1 & E2 & E3 & E4 & E5 & E6 & I).
  exists order. split; [exact E3|]. split; [exact E4|]. split; [exact E6|]. intros C.
  exists (file_header (length order) d ++ concat (map (fun e => text_line F (fst e) (snd e)) (entries_of f prefix order))).
  assert (Le : length (entries_of f prefix order) = length order) by (unfold entries_of; apply map_length).
  pose proof (load_text_file (R := R) F dom FO d (length order) (entries_of f prefix order) limit cnts D) as X. cbv zeta in X.
  destruct (upto_limited limit (entries_of f prefix order)) as (U1 & U2 & U3). rewrite Le in U1, U2, U3. rewrite U1 in X.
  assert (Hw : forall e, In e (entries_of f prefix order) -> text_word (fst e) /\ length (snd e) = d /\ Forall dom (snd e)).
  { intros e He. destruct (entries_ok prefix order E6 e He) as (k & v & -> & Ek & Lv & Dv). split; [|auto]. cbn [fst]. destruct Wp as [P1 P2]. destruct (Wk k v Ek) as [K1 K2].
    split; intros Hi; apply in_app_or in Hi; tauto. }
  specialize (X Hw C). rewrite Le in X. replace (limited limit (length order) <=? length order) with true in X by lia.
  destruct X as (m' & El & Hh). exists m'. split.
  { unfold save_text. rewrite E1. cbn [rbind]. rewrite (write_ok prefix order (text_line F)) by (try assumption; intros s Hs; apply E6; exact Hs).
    cbn [rbind]. unfold header, file_header. rewrite <- E5. reflexivity. }
  split; [exact El|].
  assert (Ef : firsts (upto limit (entries_of f prefix order)) = upto limit (entries_of f prefix order)).
  { apply firsts_nodup; [|intros e _ []]. rewrite <- U1. apply NoDup_map_firstn, entries_nodup. exact E4. }
  rewrite Ef, <- U3, Nat.sub_diag in Hh. exact Hh.
Qed.

Theorem text_no_header_ : d <> 0 -> forall prefix limit cnts, text_word prefix -> (forall k v, f k = Some v -> text_word k) ->
  (exists k, f k <> None) -> limit <> Some 0 ->
  exists order, stored_order m order /\ NoDup order /\ (forall k, In k order <-> f k <> None) /\
  (counted cnts (entries_of f prefix order) ->
  exists file m', save_text F m d prefix false = Ok file /\ load_text F file limit true cnts = Ok (d, m') /\
    holds F (R := R) d m' (upto limit (entries_of f prefix order)) (count_in cnts (length (upto limit (entries_of f prefix order)))) 0).
Proof.
  intros D prefix limit cnts Wp Wk (k0 & Hk0) Lz. destruct hist_ok as (order & E1 & E2 & E3 & E4 & E5 & E6 & I).
  exists order. split; [exact E3|]. split; [exact E4|]. split; [exact E6|]. intros C.
  set (es := entries_of f prefix order) in *. exists (concat (lines_of F es)).
  assert (Le : length es = length order) by (unfold es, entries_of; apply map_length).
  destruct (upto_limited limit es) as (U1 & U2 & U3).
  assert (Hw : forall e, In e es -> text_word (fst e) /\ length (snd e) = d /\ Forall dom (snd e)).
  { intros e He. destruct (entries_ok prefix order E6 e He) as (k & v & -> & Ek & Lv & Dv). split; [|auto]. cbn [fst]. destruct Wp as [P1 P2]. destruct (Wk k v Ek) as [K1 K2].
    split; intros Hi; apply in_app_or in Hi; tauto. }
  assert (Lo : order <> []). { intros ->. apply E6 in Hk0. destruct Hk0. }
  assert (Ds : detect_sizes F limit (lines_of F es) = Ok (length (upto limit es), d)).
  { unfold detect_sizes.
    assert (Es : match limit with Some l => firstn l (lines_of F es) | None => lines_of F es end = lines_of F (upto limit es)).
    { unfold lines_of. destruct limit as [[|l]|]; [congruence | apply firstn_map | reflexivity]. }
    rewrite Es. assert (Un : exists e r, upto limit es = e :: r /\ In e es).
    { destruct es as [|e r] eqn:Ee; [destruct order; [congruence | discriminate]|]. exists e. destruct limit as [[|l]|]; cbn [upto firstn]; eexists; split; try reflexivity; left; reflexivity. }
    destruct Un as (e & r & Eu & He). rewrite Eu. cbn [lines_of map detect_dim]. destruct (Hw e He) as (We & Ve & De).
    rewrite (line_ok F dom FO) by (try assumption; intros X; rewrite X in Ve; cbn in Ve; congruence). cbn [rbind snd]. rewrite Ve.
    assert (Dd : forall ls, detect_dim F (Some d) ls = Ok (Some d)) by (induction ls as [|x ls IH]; cbn; [reflexivity|]; destruct d; [congruence | exact IH]).
    rewrite Dd. cbn [rbind length]. rewrite map_length. reflexivity. }
  assert (Fl : file_lines (concat (lines_of F es)) = lines_of F es).
  { apply (file_lines_of F dom FO). intros e He. destruct (Hw e He) as (? & _ & ?); auto. }
  set (n := length (upto limit es)).
  assert (Ln : limited limit n = n).
  { unfold n. rewrite U3. unfold limited. destruct limit as [[|l]|]; lia. }
  pose proof (read_text_ok F dom FO d n cnts es [] (kv_new (repeat (s_zero F) d) n : kv (list A) R) D Hw C (loaded_new F d n _) ltac:(cbn; lia)) as X.
  cbn [length app] in X. rewrite Nat.sub_0_r in X. replace (n <=? length es) with true in X by (unfold n; lia).
  destruct X as (m' & Er & L). exists m'. split.
  { unfold save_text. rewrite E1. cbn [rbind]. rewrite (write_ok prefix order (text_line F)) by (try assumption; intros s Hs; apply E6; exact Hs). reflexivity. }
  split.
  { unfold load_text. rewrite Fl, Ds. cbn [rbind fst snd]. fold n. rewrite Ln, Er. reflexivity. }
  assert (Ef : firsts (firstn n es) = upto limit es).
  { unfold n. rewrite U3, U1. apply firsts_nodup; [|intros e _ []]. rewrite <- U1. apply NoDup_map_firstn, entries_nodup. exact E4. }
  rewrite Ef in L. apply loaded_holds in L. fold n in L. rewrite Nat.sub_diag in L. exact L.
Qed.

Theorem binary_roundtrip_ : d <> 0 -> forall prefix limit cnts chunk_size, chunk_size <> 0 ->
  (forall k v, f k = Some v -> binary_word (prefix ++ k)) ->
  exists order, stored_order m order /\ NoDup order /\ (forall k, In k order <-> f k <> None) /\
  (counted cnts (entries_of f prefix order) ->
  exists file m', save_binary F m d prefix = Ok file /\ load_binary F file limit cnts chunk_size = Ok (d, m') /\
    holds F (R := R) d m' (upto limit (entries_of f prefix order)) (count_in cnts (length (upto limit (entries_of f prefix order)))) 0).
Proof.
  intros D prefix limit cnts cs Cz Wk. destruct hist_ok as (order & E1 & E2 & E3 & E4 & E5 & E6 & I).
  exists order. split; [exact E3|]. split; [exact E4|]. split; [exact E6|]. intros C.
  exists (file_header (length order) d ++ concat (map (fun e => binary_entry F (fst e) (snd e)) (entries_of f prefix order))).
  set (es := entries_of f prefix order) in *. set (zs := map (fun e => (0, e)) es).
  assert (Le : length es = length order) by (unfold es, entries_of; apply map_length).
  assert (Lz : length zs = length order) by (unfold zs; rewrite map_length; exact Le).
  assert (Ms : map snd zs = es) by (unfold zs; rewrite map_map; cbn [snd]; apply map_id).
  pose proof (load_binary_file (R := R) F dom FO d (length order) zs [] limit cnts cs D Cz) as X. cbv zeta in X.
  rewrite Ms, app_nil_r in X.
  destruct (upto_limited limit es) as (U1 & U2 & U3). rewrite Le in U1, U2, U3. rewrite U1 in X.
  assert (X' := X Logic.I). clear X.
  assert (Hw : forall e, In e zs -> binary_word (fst (snd e)) /\ length (snd (snd e)) = d /\ Forall dom (snd (snd e))).
  { intros e He. apply in_map_iff in He. destruct He as (e' & <- & He). cbn [snd]. destruct (entries_ok prefix order E6 e' He) as (k & v & -> & Ek & Lv & Dv). split; [|auto]. cbn [fst]. apply (Wk k v Ek). }
  assert (Nd : NoDup (map (fun e => fst (snd e)) zs)).
  { unfold zs. rewrite map_map. cbn [snd]. apply entries_nodup. exact E4. }
  assert (X := X' Hw C (or_intror Nd)). clear X'. rewrite Lz in X. replace (limited limit (length order) <=? length order) with true in X by lia.
  assert (Ez : concat (map (c_entry F) zs) = concat (map (fun e => binary_entry F (fst e) (snd e)) es)).
  { unfold zs. rewrite map_map. f_equal. }
  rewrite Ez in X. destruct X as (m' & El & Hh). exists m'. split.
  { unfold save_binary. rewrite E1. cbn [rbind]. rewrite (write_ok prefix order (binary_entry F)) by (try assumption; intros s Hs; apply E6; exact Hs).
    cbn [rbind]. unfold header, file_header. rewrite <- E5. reflexivity. }
  split; [exact El|].
  assert (Ef : firsts (upto limit es) = upto limit es).
  { apply firsts_nodup; [|intros e _ []]. rewrite <- U1. apply NoDup_map_firstn, entries_nodup. exact E4. }
  rewrite Ef, <- U3, Nat.sub_diag in Hh. exact Hh.
Qed.
Theorem vocab_roundtrip_ : forall prefix : pystr, c <> None -> (forall k v, f k = Some v -> token (prefix ++ k)) ->
  exists file cs, save_vocab m prefix = Ok file /\ load_vocab file = Ok cs /\
    (forall k, f k <> None -> exists z, get_count m (KStr k) = Ok z /\ dget cs (prefix ++ k) = Some z) /\
    (forall w, dget cs w <> None -> exists k, w = prefix ++ k /\ f k <> None).
Proof.
  intros prefix Cn Wk. destruct hist_ok as (order & E1 & E2 & E3 & E4 & E5 & E6 & I).
  assert (Gc : forall s, In s order -> exists z, get_count m (KStr s) = Ok z).
  { intros s Hs. apply E6 in Hs. rewrite (I_f _ _ _ I s) in Hs. unfold get_count. rewrite get_index_str. cbn [counts set_counts].
    destruct (dget (key_to_index m) (KStr s)) as [i|] eqn:Ei; [|congruence]. destruct c as [l|] eqn:Ec; [|congruence].
    pose proof (Inv_range _ _ _ _ _ I Ei) as L. rewrite (I_len _ _ _ I) in L.
    rewrite (nth_error_nth' l 0%Z); [cbn; eauto|]. rewrite Hc. exact L. }
  assert (Ls : exists zs, Forall2 (fun s z => get_count m (KStr s) = Ok z) order zs).
  { clear - Gc. induction order as [|s order IH]; [exists []; constructor|]. destruct IH as [zs Hz]; [intros; apply Gc; right; assumption|].
    destruct (Gc s (or_introl eq_refl)) as [z Ez]. exists (z :: zs). constructor; assumption. }
  destruct Ls as [zs Hz].
  set (line := fun p : pystr * Z => (prefix ++ fst p) ++ [chr_sp] ++ show_Z (snd p) ++ [chr_nl]).
  set (ps := combine order zs).
  assert (Hp : forall p, In p ps -> In (fst p) order /\ get_count m (KStr (fst p)) = Ok (snd p)).
  { intros p H. unfold ps in H. clear - Hz H. induction Hz as [|s z order zs E Hz IH]; [destruct H|]. cbn [combine] in H.
    destruct H as [<-|H]; [cbn; auto|]. destruct (IH H). split; [right; assumption | assumption]. }
  exists (concat (map line ps)).
  assert (Sv : save_vocab m prefix = Ok (concat (map line ps))).
  { unfold save_vocab. cbn [counts set_counts]. destruct c as [l|] eqn:Ec; [|congruence]. rewrite E2. cbn [rbind].
    match goal with |- context [rmapM ?g ?l0] => assert (Er : rmapM g l0 = Ok (map line ps)) end.
    { unfold ps. clear - Hz. induction Hz as [|s z order zs E Hz IH]; [reflexivity|]. cbn [map rmapM combine]. cbv beta iota. rewrite E. cbn [rbind].
      rewrite IH. cbn [rbind]. f_equal. f_equal. unfold line. cbn [fst snd key_text]. rewrite <- !app_assoc. reflexivity. }
    rewrite Er. reflexivity. }
  assert (Tk : forall p, In p ps -> token (prefix ++ fst p)).
  { intros p H. destruct (Hp p H) as [H1 _]. apply E6 in H1. destruct (f (fst p)) as [v|] eqn:Ef; [apply (Wk _ v Ef) | congruence]. }
  assert (Fl : file_lines (concat (map line ps)) = map line ps).
  { clear - Tk. induction ps as [|p ps IH]; [reflexivity|]. cbn [map concat].
    assert (El : line p = ((prefix ++ fst p) ++ [chr_sp] ++ show_Z (snd p)) ++ [chr_nl]) by (unfold line; rewrite <- !app_assoc; reflexivity).
    rewrite El at 1. rewrite <- app_assoc. cbn [app]. rewrite file_lines_cons.
    - rewrite IH by (intros; apply Tk; right; assumption). rewrite El. reflexivity.
    - intros H. apply in_app_or in H. destruct H as [H|[H|H]]; [|discriminate|].
      + revert H. apply token_no_nl. apply Tk. left; reflexivity.
      + revert H. apply show_Z_notin; [reflexivity | discriminate]. }
  assert (Ld : forall d0, rfold (fun cs line => match words is_space line with
                        | [w; z] => let* z := of_option ValueError (parse_Z z) in Ok (dset cs w z)
                        | _ => Err ValueError
                        end) (map line ps) d0 = Ok (fold_left (fun (cs : dict pystr Z) (p : pystr * Z) => dset cs (prefix ++ fst p : pystr) (snd p)) ps d0)).
  { clear - Tk. induction ps as [|p ps IH]; intros d0; [reflexivity|]. cbn [map rfold fold_left].
    unfold line at 1. pose proof (words_cons_tokens (prefix ++ fst p) [show_Z (snd p)] [chr_nl]) as X. cbn [join] in X. cbn [app]. cbn [app] in X. rewrite X.
    - rewrite parse_show_Z. cbn [of_option rbind]. apply IH. intros; apply Tk; right; assumption.
    - apply Tk. left; reflexivity.
    - repeat constructor; [apply show_Z_nonempty | apply show_Z_nospace].
    - repeat constructor. }
  exists (fold_left (fun (cs : dict pystr Z) (p : pystr * Z) => dset cs (prefix ++ fst p : pystr) (snd p)) ps []). split; [exact Sv|].
  split; [unfold load_vocab; rewrite Fl; apply Ld|].
  assert (Fo : map fst ps = order).
  { unfold ps. clear - Hz. induction Hz as [|s z order zs E Hz IH]; [reflexivity|]. cbn [combine map fst]. rewrite IH. reflexivity. }
  assert (Get : forall (w : pystr) (d0 : dict pystr Z), dget (fold_left (fun (cs : dict pystr Z) (p : pystr * Z) => dset cs (prefix ++ fst p : pystr) (snd p)) ps d0) w =
     match find (fun p : pystr * Z => eqb (prefix ++ fst p : pystr) w) ps with Some p => Some (snd p) | None => dget d0 w end).
  { assert (Nd : NoDup (map fst ps)) by (rewrite Fo; exact E4). clear - Nd. induction ps as [|p ps IH]; intros w d0; [reflexivity|].
    cbn [fold_left find map] in *. inversion Nd; subst. rewrite IH by assumption. destruct (eqb (prefix ++ fst p : pystr) w) eqn:Eq.
    - apply (proj1 (eqb_true _ _)) in Eq. subst w. match goal with |- context [find ?g ?l0] => destruct (find g l0) as [q|] eqn:Ef end.
      + apply find_some in Ef. destruct Ef as [Hq Eq]. apply (proj1 (eqb_true _ _)) in Eq; apply app_inv_head in Eq. exfalso. apply H1. rewrite <- Eq. apply in_map. exact Hq.
      + apply dget_dset_same.
    - apply (proj1 (eqb_false _ _)) in Eq. match goal with |- context [find ?g ?l0] => destruct (find g l0); [reflexivity|] end. apply dget_dset_other. exact Eq. }
  split.
  - intros k Hk. apply E6 in Hk. rewrite <- Fo in Hk. apply in_map_iff in Hk. destruct Hk as (p & <- & Hp1). exists (snd p). destruct (Hp p Hp1) as [_ Hg]. split; [exact Hg|].
    rewrite Get. match goal with |- context [find ?g ?l0] => destruct (find g l0) as [q|] eqn:Ef end.
    + apply find_some in Ef. destruct Ef as [Hq Eq]. apply (proj1 (eqb_true _ _)) in Eq; apply app_inv_head in Eq. destruct (Hp q Hq) as [_ Hg']. rewrite Eq in Hg'. congruence.
    + exfalso. pose proof (find_none _ _ Ef p Hp1) as X. cbv beta in X. rewrite eqb_refl in X. discriminate.
  - intros w Hw. rewrite Get in Hw. match type of Hw with context [find ?g ?l0] => destruct (find g l0) as [q|] eqn:Ef; [|cbn in Hw; congruence] end.
    apply find_some in Ef. destruct Ef as [Hq Eq]. apply (proj1 (eqb_true _ _)) in Eq. exists (fst q). split; [symmetry; exact Eq|]. apply E6, (Hp q Hq).
Qed.
End RoundTrip.

(** Every tidy history without free slots, with or without counts (one for each row): the text file read back holds the
    stored keys (prefixed) in the stored order, or the first [limit] of them, with their vectors.  Words may contain
    anything but spaces and newlines. *)
Theorem w2v_text_roundtrip : forall {A R} (F : sfmt A) dom, sfmt_ok F dom -> forall zero (norm : list A -> R) divide count ops counts_,
  Forall well_shaped ops -> tidy count ops -> fst (content count ops) = 0 ->
  match counts_ with None => True | Some l => length l = kv_len (run zero norm divide count ops) end ->
  let m := set_counts (run zero norm divide count ops) counts_ in
  let f := snd (content count ops) in
  forall d, d <> 0 -> (forall k v, f k = Some v -> length v = d /\ Forall dom v) ->
  forall prefix limit cnts, text_word prefix -> (forall k v, f k = Some v -> text_word k) ->
  exists order, stored_order m order /\ NoDup order /\ (forall k, In k order <-> f k <> None) /\
  (counted cnts (entries_of f prefix order) ->
   exists file m', save_text F m d prefix true = Ok file /\ load_text F file limit false cnts = Ok (d, m') /\
     holds F (R := R) d m' (upto limit (entries_of f prefix order)) (count_in cnts (length (upto limit (entries_of f prefix order)))) 0).
Proof. intros. eapply text_roundtrip_; eassumption. Qed.
Print Assumptions w2v_text_roundtrip.

(** The same without header line, for at least one vector. *)
Theorem w2v_text_no_header : forall {A R} (F : sfmt A) dom, sfmt_ok F dom -> forall zero (norm : list A -> R) divide count ops counts_,
  Forall well_shaped ops -> tidy count ops -> fst (content count ops) = 0 ->
  match counts_ with None => True | Some l => length l = kv_len (run zero norm divide count ops) end ->
  let m := set_counts (run zero norm divide count ops) counts_ in
  let f := snd (content count ops) in
  forall d, d <> 0 -> (forall k v, f k = Some v -> length v = d /\ Forall dom v) ->
  forall prefix limit cnts, text_word prefix -> (forall k v, f k = Some v -> text_word k) ->
  (exists k, f k <> None) -> limit <> Some 0 ->
  exists order, stored_order m order /\ NoDup order /\ (forall k, In k order <-> f k <> None) /\
  (counted cnts (entries_of f prefix order) ->
   exists file m', save_text F m d prefix false = Ok file /\ load_text F file limit true cnts = Ok (d, m') /\
     holds F (R := R) d m' (upto limit (entries_of f prefix order)) (count_in cnts (length (upto limit (entries_of f prefix order)))) 0).
Proof. intros. eapply text_no_header_; eassumption. Qed.
Print Assumptions w2v_text_no_header.

(** The binary file, for every chunk size. *)
Theorem w2v_binary_roundtrip : forall {A R} (F : sfmt A) dom, sfmt_ok F dom -> forall zero (norm : list A -> R) divide count ops counts_,
  Forall well_shaped ops -> tidy count ops -> fst (content count ops) = 0 ->
  match counts_ with None => True | Some l => length l = kv_len (run zero norm divide count ops) end ->
  let m := set_counts (run zero norm divide count ops) counts_ in
  let f := snd (content count ops) in
  forall d, d <> 0 -> (forall k v, f k = Some v -> length v = d /\ Forall dom v) ->
  forall prefix limit cnts chunk_size, chunk_size <> 0 -> (forall k v, f k = Some v -> binary_word (prefix ++ k)) ->
  exists order, stored_order m order /\ NoDup order /\ (forall k, In k order <-> f k <> None) /\
  (counted cnts (entries_of f prefix order) ->
   exists file m', save_binary F m d prefix = Ok file /\ load_binary F file limit cnts chunk_size = Ok (d, m') /\
     holds F (R := R) d m' (upto limit (entries_of f prefix order)) (count_in cnts (length (upto limit (entries_of f prefix order)))) 0).
Proof. intros. eapply binary_roundtrip_; eassumption. Qed.
Print Assumptions w2v_binary_roundtrip.

(** The vocabulary file written beside it gives back the counts, for words without white space. *)
Theorem w2v_vocab_roundtrip : forall {A R} (F : sfmt A) dom, sfmt_ok F dom -> forall zero (norm : list A -> R) divide count ops counts_,
  Forall well_shaped ops -> tidy count ops -> fst (content count ops) = 0 ->
  match counts_ with None => True | Some l => length l = kv_len (run zero norm divide count ops) end ->
  let m := set_counts (run zero norm divide count ops) counts_ in
  let f := snd (content count ops) in
  forall d, (forall k v, f k = Some v -> length v = d /\ Forall dom v) ->
  forall prefix, counts_ <> None -> (forall k v, f k = Some v -> token (prefix ++ k)) ->
  exists file cs, save_vocab m prefix = Ok file /\ load_vocab file = Ok cs /\
    (forall k, f k <> None -> exists z, get_count m (KStr k) = Ok z /\ dget cs (prefix ++ k) = Some z) /\
    (forall w, dget cs w <> None -> exists k, w = prefix ++ k /\ f k <> None).
Proof. intros. eapply vocab_roundtrip_; eassumption. Qed.
Print Assumptions w2v_vocab_roundtrip.

(** ** Examples: integer scalars of 32 bits, little endian *)
Definition le4 (z : Z) : list N := let n := Z.to_N z in [n mod 256; (n / 256) mod 256; (n / 65536) mod 256; n / 16777216]%N.
Definition of_le4 (bs : list N) : Z :=
  match bs with [p; q; r; s] => Z.of_N (p + 256 * (q + 256 * (r + 256 * s))) | _ => 0%Z end.
Definition zs : sfmt Z := {| s_zero := 0%Z; s_repr := show_Z; s_parse := parse_Z; s_pack := le4; s_unpack := of_le4 |}.
Definition zdom (z : Z) : Prop := (0 <= z < 4294967296)%Z.
Theorem zs_ok : sfmt_ok zs zdom.
Proof.
  split; cbn [zs s_repr s_parse s_pack s_unpack].
  - intros z _. split; [apply show_Z_nonempty|]. eapply Forall_impl; [|apply show_Z_nospace]. intros c H. cbv beta in H.
    destruct (is_bspace c) eqn:E; [|reflexivity]. apply is_bspace_space in E. congruence.
  - intros z _. apply parse_show_Z.
  - intros; reflexivity.
  - intros z [H1 H2]. unfold le4, of_le4. set (n := Z.to_N z). assert (Ez : z = Z.of_N n) by (unfold n; lia). rewrite Ez. f_equal.
    assert (Q1 : (n / 65536 = n / 256 / 256)%N) by (rewrite N.div_div by discriminate; reflexivity).
    assert (Q2 : (n / 16777216 = n / 256 / 256 / 256)%N) by (rewrite !N.div_div by discriminate; reflexivity).
    rewrite Q1, Q2.
    rewrite (N.add_comm (_ mod 256) (256 * (n / 256 / 256 / 256))), <- (N.div_mod' (n / 256 / 256) 256).
    rewrite (N.add_comm (_ mod 256) (256 * (n / 256 / 256))), <- (N.div_mod' (n / 256) 256).
    rewrite (N.add_comm (_ mod 256) (256 * (n / 256))), <- (N.div_mod' n 256). reflexivity.
Qed.

Definition zkv := kv (list Z) Z.
Definition ex_ops : list (op (list Z)) :=
  [AddOne (str "b") [10; 32]%Z; AddMany [str "a"; [233; 10; 128512]%N] [[1; 2]; [7; 538976288]]%Z false].
Definition ex_m : zkv := set_counts (run [0; 0]%Z (fun _ => 0%Z) (fun v _ => v) 1 ex_ops) (Some [5; 9; 5]%Z).

(** What a loaded vector set shows: keys, vectors, counts. *)
Definition shown (r : result (nat * zkv)) := rmap (fun p => (fst p, index_to_key (snd p), vectors (snd p), counts (snd p))) r.
Definition text_then (m : zkv) (limit : option nat) := let* f := save_text zs m 2 [] true in load_text zs f limit false None : result (nat * zkv).
Definition binary_then (m : zkv) (limit : option nat) chunk := let* f := save_binary zs m 2 [] in load_binary zs f limit None chunk : result (nat * zkv).

(** Words may contain non-ASCII characters, and the packed vectors spaces and newlines. *)
Example w2v_binary_ex : forall chunk, In chunk [1; 2; 3; 7; 1000] ->
  shown (binary_then ex_m None chunk)
  = Ok (2, [Some (KStr (str "a")); Some (KStr (str "b")); Some (KStr [233; 10; 128512]%N)],
        [[1; 2]; [10; 32]; [7; 538976288]]%Z, Some [3; 2; 1]%Z).
Proof. intros chunk H. repeat (destruct H as [<-|H]; [vm_compute; reflexivity|]). destruct H. Qed.
Example w2v_binary_limit_ex : shown (binary_then ex_m (Some 2) 3)
  = Ok (2, [Some (KStr (str "a")); Some (KStr (str "b"))], [[1; 2]; [10; 32]]%Z, Some [2; 1]%Z).
Proof. vm_compute. reflexivity. Qed.

Definition ex_ops2 : list (op (list Z)) := [AddOne (str "b") [10; 32]%Z; AddMany [[]; [9; 97]%N] [[1; 2]; [7; 5]]%Z false].
Definition ex_m2 : zkv := run [0; 0]%Z (fun _ => 0%Z) (fun v _ => v) 1 ex_ops2.
(** The empty word and words with tabs survive. *)
Example w2v_text_ex : save_text zs ex_m2 2 [] true = Ok (str "3 2
b 10 32
 1 2
" ++ [9]%N ++ str "a 7 5
") /\
  shown (text_then ex_m2 None) = Ok (2, [Some (KStr (str "b")); Some (KStr []); Some (KStr [9; 97]%N)],
        [[10; 32]; [1; 2]; [7; 5]]%Z, Some [3; 2; 1]%Z).
Proof. vm_compute. auto. Qed.
Example w2v_text_tidy_ex : tidy 1 ex_ops2 /\ fst (content 1 ex_ops2) = 0 /\ Forall well_shaped ex_ops2.
Proof.
  split; [|split; [reflexivity | repeat constructor]].
  cbn. split; [right; reflexivity|]. split; [|exact Logic.I]. repeat constructor; cbn; intuition discriminate.
Qed.
Example w2v_text_no_header_ex : shown (let* f := save_text zs ex_m2 2 [] false in load_text zs f None true None)
  = shown (text_then ex_m2 None).
Proof. vm_compute. reflexivity. Qed.
Example load_text_file_ex : (* a duplicate word leaves an empty slot at the end *)
  shown (load_text zs (str "3 2
x 1 2
x 3 4
y 5 6
") None false None) = Ok (2, [Some (KStr (str "x")); Some (KStr (str "y")); None], [[1; 2]; [5; 6]; [0; 0]]%Z, Some [3; 2; 0]%Z).
Proof. vm_compute. reflexivity. Qed.
Example load_binary_file_ex : (* as the original tool writes it, cut in the middle of the second word *)
  shown (load_binary zs (str "2 1
x " ++ le4 5 ++ [10]%N ++ str "y " ++ le4 6) None None 4) = Ok (1, [Some (KStr (str "x")); Some (KStr (str "y"))], [[5]; [6]]%Z, Some [2; 1]%Z) /\
  shown (load_binary zs (str "2 1
x " ++ le4 5 ++ [10]%N ++ str "y " ++ [6; 0; 0]%N) None None 4) = Err EOFErr.
Proof. vm_compute. auto. Qed.
Example w2v_vocab_ex :
  let m : zkv := set_counts ex_m2 (Some [5; 9; 5]%Z) in
  save_vocab m (str "p") = Ok (str "p 9
pb 5
p" ++ [9]%N ++ str "a 5
") /\
  save_vocab (set_counts (run [0; 0]%Z (fun _ => 0%Z) (fun v _ => v) 0 [AddMany [str "a"; str "b"] [[1; 2]; [3; 4]]%Z false] : zkv) (Some [5; 9]%Z)) (str "p")
    = Ok (str "pb 9
pa 5
") /\ load_vocab (str "pb 9
pa 5
") = Ok [(str "pb", 9%Z); (str "pa", 5%Z)].
Proof. vm_compute. auto. Qed.

(** ** Known failures *)

(** With duplicate words and a limit, whether a binary file can be read depends on the size of the read buffer. *)
Definition dup_file : list N := str "4 1
" ++ concat (map (fun p => binary_entry zs (fst p) [snd p]) [(str "a", 1%Z); (str "a", 2%Z); (str "b", 3%Z); (str "c", 4%Z)]).
Theorem w2v_binary_chunk_refuted : exists limit,
  shown (load_binary zs dup_file (Some limit) None 1000) = Ok (1, [Some (KStr (str "a")); Some (KStr (str "b")); None], [[1]; [3]; [0]]%Z, Some [3; 2; 0]%Z) /\
  shown (load_binary zs dup_file (Some limit) None 6) = Ok (1, [Some (KStr (str "a")); Some (KStr (str "b")); None], [[1]; [3]; [0]]%Z, Some [3; 2; 0]%Z) /\
  shown (load_binary zs dup_file (Some limit) None 12) = Err EOFErr.
Proof. exists 3. vm_compute. auto. Qed.
(** Loading a file with a duplicate word and saving the result with counts writes a header larger than the file. *)
Theorem w2v_resave_refuted : exists file m, load_text zs file None false None = Ok (2, m) /\ text_then m None = Err EOFErr.
Proof.
  eexists (str "3 2
x 1 2
x 3 4
y 5 6
"), _. split; vm_compute; reflexivity.
Qed.
(** Integer keys 0..k-1 are written twice, so that the last keys are lost. *)
Theorem w2v_int_keys_refuted : exists m : zkv,
  index_to_key m = [Some (KInt 0); Some (KInt 1); Some (KStr (str "a"))] /\
  shown (text_then m None) = Ok (2, [Some (KStr (str "0")); Some (KStr (str "1")); None], [[1; 1]; [2; 2]; [0; 0]]%Z, Some [3; 2; 0]%Z).
Proof.
  exists (snd (add_vectors (kv_new [0; 0]%Z 0) [KInt 0; KInt 1; KStr (str "a")] [[1; 1]; [2; 2]; [3; 3]]%Z [] false)).
  vm_compute. auto.
Qed.
(** A line with a single value fills the whole vector with it. *)
Theorem w2v_short_line_refuted : exists file, file = str "2 3
x 1 2 3
y 7
" /\ shown (load_text zs file None false None) = Ok (3, [Some (KStr (str "x")); Some (KStr (str "y"))], [[1; 2; 3]; [7; 7; 7]]%Z, Some [2; 1]%Z).
Proof. eexists. split; [reflexivity|]. vm_compute. reflexivity. Qed.
(** A key with a space cannot be read back as text, or is read back as another key with other vectors as binary; a key with a
    leading newline loses it in binary. *)
Definition one_key (k : pystr) : zkv := run [0; 0]%Z (fun _ => 0%Z) (fun v _ => v) 0 [AddMany [k] [[1; 2]]%Z false].
Theorem w2v_space_key_refuted : exists k k',
  text_then (one_key k) None = Err ValueError /\
  (exists k1 v, k1 <> k /\ v <> [1; 2]%Z /\ shown (binary_then (one_key k) None 1000) = Ok (2, [Some (KStr k1)], [v], Some [1]%Z)) /\
  (exists k1, k1 <> k' /\ shown (binary_then (one_key k') None 1000) = Ok (2, [Some (KStr k1)], [[1; 2]]%Z, Some [1]%Z)).
Proof.
  exists (str "a b"), (str "
x"). split; [vm_compute; reflexivity|]. split.
  - eexists _, _. split; [|split; [|vm_compute; reflexivity]]; discriminate.
  - eexists. split; [|vm_compute; reflexivity]. discriminate.
Qed.
(** A limit of 0 reads everything; without header it is a TypeError. *)
Theorem w2v_limit_zero_refuted : exists witness, witness = ex_m2 /\ (shown (text_then witness (Some 0)) = shown (text_then witness None) /\
  shown (let* f := save_text zs witness 2 [] false in load_text zs f (Some 0) true None) = Err TypeError).
Proof. exists ex_m2. split; [reflexivity|]. vm_compute. auto. Qed.
(** A model with counts and a free slot: the header counts the free slot, its line is never written. *)
Theorem w2v_free_slot_refuted : exists m : zkv, counts m <> None /\ text_then m None = Err EOFErr.
Proof.
  exists (set_counts (run [0; 0]%Z (fun _ => 0%Z) (fun v _ => v) 2 [AddOne (str "a") [1; 2]%Z]) (Some [5; 0]%Z)).
  split; [discriminate | vm_compute; reflexivity].
Qed.
