(** C133: segmented articles written as lines of JSON *)
From Coq Require Import ZifyBool ZifyNat ZifyN.
From Verif Require Import Base Str Text_Model Text_Properties Utils_Properties Regex_Model Wiki_Spec Wiki_Model WikiPages_Model WikiPages_Spec WikiPages_Properties SegmentJson_Model SegmentJson_Spec.
Local Open Scope nat_scope.

Lemma unhex_digit : forall n, (n < 16)%N -> unhex (hex_digit n) = Some n.
Proof.
  intros n H. assert (E : exists k, k < 16 /\ n = N.of_nat k) by (exists (N.to_nat n); lia). destruct E as (k & K & ->). do 16 (destruct k as [|k]; [reflexivity|]). lia.
Qed.
Lemma unhex_hex4 : forall n, (n < 65536)%N -> exists a b c d, hex4 n = [a; b; c; d] /\ unhex4 a b c d = Some n.
Proof.
  intros n H. unfold hex4. cbn [map]. do 4 eexists. split; [reflexivity|]. unfold unhex4. rewrite !unhex_digit by (apply N.mod_upper_bound; discriminate). f_equal.
  change 4096%N with (16 * 16 * 16)%N. change 256%N with (16 * 16)%N. rewrite <- !N.div_div by discriminate.
  pose proof (N.div_mod n 16 ltac:(discriminate)). pose proof (N.div_mod (n / 16) 16 ltac:(discriminate)). pose proof (N.div_mod (n / 16 / 16) 16 ltac:(discriminate)). pose proof (N.div_mod (n / 16 / 16 / 16) 16 ltac:(discriminate)).
  assert ((n / 16 / 16 / 16 / 16 = 0)%N). { rewrite !N.div_div by discriminate. apply N.div_small. exact H. }
  lia.
Qed.
Definition utf16 (c : N) : list N := if (c <? 65536)%N then [c] else [(55296 + (c - 65536) / 1024)%N; (56320 + (c - 65536) mod 1024)%N].
Lemma units_uxxxx : forall n s l r, (n < 65536)%N -> units s = Some (l, r) -> units (uxxxx n ++ s) = Some (n :: l, r).
Proof.
  intros n s l r H E. destruct (unhex_hex4 n H) as (a & b & c & d & Eh & U). unfold uxxxx. rewrite Eh. change ((str "\u" ++ [a; b; c; d]) ++ s) with (92%N :: 117%N :: a :: b :: c :: d :: s). cbn [units N.eqb Pos.eqb]. rewrite U, E. reflexivity.
Qed.
Lemma units_escape : forall c s l r, (c < 1114112)%N -> units s = Some (l, r) -> units (escape c ++ s) = Some (utf16 c ++ l, r).
Proof.
  intros c s l r H E. unfold escape.
  assert (S : forall e x, e <> 117%N -> dget short_escapes e = Some x -> units ([92%N; e] ++ s) = Some (x :: l, r)).
  { intros e x Ne D. cbn [app units N.eqb Pos.eqb]. destruct (N.eqb_spec e 117); [contradiction|]. rewrite D, E. reflexivity. }
  destruct (N.eqb_spec c 34) as [->|N1]; [apply (S 34%N); [discriminate | reflexivity]|].
  destruct (N.eqb_spec c 92) as [->|N2]; [apply (S 92%N); [discriminate | reflexivity]|].
  destruct (N.eqb_spec c 10) as [->|N3]; [apply (S 110%N); [discriminate | reflexivity]|].
  destruct (N.eqb_spec c 13) as [->|N4]; [apply (S 114%N); [discriminate | reflexivity]|].
  destruct (N.eqb_spec c 9) as [->|N5]; [apply (S 116%N); [discriminate | reflexivity]|].
  destruct (N.eqb_spec c 12) as [->|N6]; [apply (S 102%N); [discriminate | reflexivity]|].
  destruct (N.eqb_spec c 8) as [->|N7]; [apply (S 98%N); [discriminate | reflexivity]|].
  destruct ((32 <=? c) && (c <=? 126))%N eqn:P.
  - cbn [app units]. destruct (N.eqb_spec c 34); [contradiction|]. destruct (N.eqb_spec c 92); [contradiction|]. destruct (N.ltb_spec c 32); [lia|]. rewrite E. unfold utf16. destruct (N.ltb_spec c 65536); [reflexivity | lia].
  - unfold utf16. destruct (N.ltb_spec c 65536) as [L|L]; [apply units_uxxxx; [exact L | exact E]|].
    assert (D : ((c - 65536) / 1024 < 1024)%N) by (apply N.div_lt_upper_bound; [discriminate | lia]).
    pose proof (N.mod_upper_bound (c - 65536) 1024 ltac:(discriminate)) as M. rewrite (N.mod_small _ _ D). rewrite <- app_assoc. cbn [app]. apply units_uxxxx; [lia|]. apply units_uxxxx; [lia|]. exact E.
Qed.
Lemma chars_utf16 : forall s, plain s -> characters_of (concat (map utf16 s)) = s.
Proof.
  induction s as [|c s IH]; intros P; [reflexivity|]. cbn [plain] in P. destruct P as (L & A & P). specialize (IH P). cbn [map concat]. unfold utf16 at 1. destruct (N.ltb_spec c 65536) as [B|B].
  - cbn [app]. destruct s as [|d s]; [reflexivity|]. cbn [map concat] in IH |- *.
    assert (F : exists u t, utf16 d ++ concat (map utf16 s) = u :: t /\ (u = d \/ high u = true /\ low u = false)).
    { unfold utf16. destruct (N.ltb_spec d 65536); [eexists _, _; split; [reflexivity|]; left; reflexivity|]. eexists _, _. split; [reflexivity|]. right. destruct P as (L' & _).
      assert (((d - 65536) / 1024 < 1024)%N) by (apply N.div_lt_upper_bound; [discriminate | lia]). unfold high, low. lia. }
    destruct F as (u & t & E & F). rewrite E in IH |- *. cbn [characters_of]. cbn [characters_of] in IH.
    assert (Z : high c && low u = false). { destruct F as [->|(_ & F)]; [exact A | rewrite F; apply Bool.andb_false_r]. }
    rewrite Z. f_equal. exact IH.
  - cbn [app characters_of]. assert (D : ((c - 65536) / 1024 < 1024)%N) by (apply N.div_lt_upper_bound; [discriminate | lia]). pose proof (N.mod_upper_bound (c - 65536) 1024 ltac:(discriminate)) as M.
    assert (Z : high (55296 + (c - 65536) / 1024) && low (56320 + (c - 65536) mod 1024) = true) by (unfold high, low; lia). rewrite Z, IH. f_equal. pose proof (N.div_mod (c - 65536) 1024 ltac:(discriminate)). lia.
Qed.
Lemma units_string : forall s r, Forall (fun c => (c < 1114112)%N) s -> units (concat (map escape s) ++ 34%N :: r) = Some (concat (map utf16 s), r).
Proof.
  induction s as [|c s IH]; intros r F; cbn [map concat app]; [reflexivity|]. inversion F; subst. rewrite <- app_assoc. apply units_escape; auto.
Qed.
Lemma plain_points : forall s, plain s -> Forall (fun c => (c < 1114112)%N) s.
Proof. induction s as [|c s IH]; intros P; constructor; cbn in P; [tauto | apply IH; tauto]. Qed.
Lemma read_dump_str : forall s r, plain s -> read_str (dump_str s ++ r) = Some (s, r).
Proof.
  intros s r P. unfold dump_str. rewrite <- !app_assoc. cbn [app read_str N.eqb Pos.eqb]. rewrite units_string by (apply plain_points, P). rewrite chars_utf16 by exact P. reflexivity.
Qed.

(** ** Values *)
Fixpoint depth (j : json) : nat :=
  match j with
  | JNull | JStr _ => 1
  | JList l => S (list_max (map depth l))
  | JObj l => S (list_max (map (fun kv => depth (snd kv)) l))
  end.
Definition starts (s : pystr) : Prop := exists c t, s = c :: t /\ memb c [32; 9; 10; 13; 44; 58; 93; 125]%N = false.
Lemma starts_skip : forall s, starts s -> skip s = s.
Proof.
  intros s (c & t & -> & M). cbn [skip]. destruct (memb c [32; 9; 10; 13]%N) eqn:E; [|reflexivity]. exfalso. apply memb_true in E. apply memb_false in M. apply M. cbn in *. tauto.
Qed.
Lemma starts_app : forall s r, starts s -> starts (s ++ r).
Proof. intros s r (c & t & -> & M). exists c, (t ++ r). split; [reflexivity | exact M]. Qed.
Lemma starts_close : forall s close, In close [93; 125]%N -> starts s -> exists c t, s = c :: t /\ N.eqb c close = false.
Proof.
  intros s close I (c & t & -> & M). exists c, t. split; [reflexivity|]. destruct (N.eqb_spec c close) as [->|]; [|reflexivity]. apply memb_false in M. exfalso. apply M. cbn in *. tauto.
Qed.
Lemma dumps_starts : forall j, starts (dumps j).
Proof. intros [|s|l|l]; eexists _, _; (split; [reflexivity | reflexivity]). Qed.
Lemma dump_str_starts : forall s, starts (dump_str s).
Proof. intros s. eexists _, _. split; reflexivity. Qed.

Section Items.
Context {A B : Type} (show : B -> pystr) (val : B -> A) (item : pystr -> option (A * pystr)) (close : N).
Lemma read_items_join : forall l n r, l <> [] -> In close [93; 125]%N -> length l <= n ->
  (forall x r', In x l -> item (show x ++ r') = Some (val x, r')) -> (forall x, In x l -> starts (show x)) ->
  read_items item close n (join (str ", ") (map show l) ++ close :: r) = Some (map val l, r).
Proof.
  induction l as [|x l IH]; intros n r N0 I L R S; [contradiction|]. destruct n as [|n]; [cbn in L; lia|]. destruct l as [|y l].
  - cbn [map join read_items]. rewrite starts_skip by (apply starts_app, S; left; reflexivity). rewrite R by (left; reflexivity). cbn [skip].
    assert (M : memb close [32; 9; 10; 13]%N = false) by (destruct I as [<-|[<-|[]]]; reflexivity). rewrite M.
    assert (M' : N.eqb close 44 = false) by (destruct I as [<-|[<-|[]]]; reflexivity). rewrite M', N.eqb_refl. reflexivity.
  - change (join (str ", ") (map show (x :: y :: l))) with (show x ++ [44%N; 32%N] ++ join (str ", ") (map show (y :: l))). rewrite <- !app_assoc. cbn [read_items].
    rewrite starts_skip by (apply starts_app, S; left; reflexivity). rewrite R by (left; reflexivity). cbn [app]. cbn [skip memb existsb]. change (memb 44%N [32; 9; 10; 13]%N) with false. cbn iota. change (N.eqb 44 44) with true. cbn iota.
    assert (E : forall t, read_items item close n (32%N :: t) = read_items item close n t) by (intros t; destruct n; reflexivity).
    rewrite E, IH; [reflexivity | discriminate | exact I | cbn in L |- *; lia | intros z r' Hz; apply R; right; exact Hz | intros z Hz; apply S; right; exact Hz].
Qed.
Lemma join_length : forall l, (forall x, In x l -> starts (show x)) -> length l <= length (join (str ", ") (map show l)).
Proof.
  induction l as [|x l IH]; intros S; [cbn; lia|]. assert (L : 1 <= length (show x)) by (destruct (S x (or_introl eq_refl)) as (c & t & -> & _); cbn; lia). destruct l as [|y l]; [cbn in *; lia|].
  change (join (str ", ") (map show (x :: y :: l))) with (show x ++ [44%N; 32%N] ++ join (str ", ") (map show (y :: l))). rewrite !app_length. specialize (IH (fun z Hz => S z (or_intror Hz))). cbn [length] in *. lia.
Qed.
Lemma read_list_join : forall l r, In close [93; 125]%N ->
  (forall x r', In x l -> item (show x ++ r') = Some (val x, r')) -> (forall x, In x l -> starts (show x)) ->
  read_list item close (join (str ", ") (map show l) ++ close :: r) = Some (map val l, r).
Proof.
  intros l r I R S. unfold read_list. destruct l as [|x l].
  - cbn [map join app skip]. assert (M : memb close [32; 9; 10; 13]%N = false) by (destruct I as [<-|[<-|[]]]; reflexivity). rewrite M, N.eqb_refl. reflexivity.
  - assert (ST : starts (join (str ", ") (map show (x :: l)))). { destruct l as [|y l]; [apply S; left; reflexivity|]. change (join (str ", ") (map show (x :: y :: l))) with (show x ++ [44%N; 32%N] ++ join (str ", ") (map show (y :: l))). apply starts_app, S. left. reflexivity. }
    rewrite starts_skip by (apply starts_app, ST). destruct (starts_close _ close I (starts_app _ (close :: r) ST)) as (c & t & E & Z). rewrite E, Z, <- E.
    apply read_items_join; [discriminate | exact I | | exact R | exact S]. rewrite app_length. pose proof (join_length (x :: l) S). lia.
Qed.
End Items.
Lemma plain_items : forall l, fold_right (fun j P => plain_json j /\ P) True l <-> Forall plain_json l.
Proof. induction l as [|j l IH]; cbn [fold_right]; split; intros H; [constructor | exact I | constructor; tauto | inversion H; tauto]. Qed.
Lemma plain_members : forall l, fold_right (fun (kv : pystr * json) P => (plain (fst kv) /\ plain_json (snd kv)) /\ P) True l <-> Forall (fun kv => plain (fst kv) /\ plain_json (snd kv)) l.
Proof. induction l as [|j l IH]; cbn [fold_right]; split; intros H; [constructor | exact I | constructor; tauto | inversion H; tauto]. Qed.
Lemma list_max_in : forall l x, In x l -> x <= list_max l.
Proof. intros l x H. pose proof (proj1 (list_max_le l (list_max l)) (le_n _)) as F. rewrite Forall_forall in F. apply F, H. Qed.
Lemma read_dumps : forall n j r, depth j <= n -> plain_json j -> read_value n (dumps j ++ r) = Some (j, r).
Proof.
  induction n as [|n IH]; intros j r D P; [destruct j; cbn in D; lia|]. destruct j as [|s|l|l].
  - reflexivity.
  - cbn [dumps]. destruct (dump_str_starts s) as (c & t & E & _). pose proof (read_dump_str s r P) as R. assert (C : dump_str s = 34%N :: concat (map escape s) ++ [34%N]) by reflexivity. rewrite C in *. cbn [app read_value]. change (N.eqb 34 34) with true. cbn iota. cbn [app] in R. rewrite R. reflexivity.
  - cbn [dumps]. cbn [plain_json] in P. apply plain_items in P. rewrite Forall_forall in P. rewrite <- !app_assoc. cbn [str app]. change (str "[" ++ ?x) with (91%N :: x). cbn [app read_value].
    change (N.eqb 91 34) with false. change (N.eqb 91 91) with true. cbn iota. change (str "]" ++ r) with (93%N :: r).
    rewrite (read_list_join dumps (fun x => x) (read_value n) 93%N l r); [rewrite map_id; reflexivity | left; reflexivity | | intros x _; apply dumps_starts].
    intros x r' Hx. apply IH; [|apply P, Hx]. cbn [depth] in D. pose proof (list_max_in (map depth l) (depth x) (in_map _ _ _ Hx)). lia.
  - cbn [plain_json] in P. apply plain_members in P. rewrite Forall_forall in P. set (f := fun kv : pystr * json => dump_str (fst kv) ++ str ": " ++ dumps (snd kv)).
    assert (RL : read_list (read_member (read_value n)) 125 (join (str ", ") (map f l) ++ 125%N :: r) = Some (l, r)).
    2:{ change (dumps (JObj l) ++ r) with ((str "{" ++ join (str ", ") (map f l) ++ str "}") ++ r). rewrite <- !app_assoc. generalize dependent (join (str ", ") (map f l)). intros w RL. change (str "{" ++ w ++ str "}" ++ r) with (123%N :: w ++ 125%N :: r). cbn [read_value].
        change (N.eqb 123 34) with false. change (N.eqb 123 91) with false. change (N.eqb 123 123) with true. cbn iota. rewrite RL. reflexivity. }
    pose proof (read_list_join f (fun x => x) (read_member (read_value n)) 125%N l r (or_intror (or_introl eq_refl))) as Q. rewrite map_id in Q. apply Q; clear Q; [|intros x _; apply starts_app, dump_str_starts].
    intros [k v] r' Hx. destruct (P _ Hx) as (Pk & Pv). cbn [fst snd] in *. unfold f, read_member. cbn [fst snd]. rewrite <- !app_assoc. rewrite read_dump_str by exact Pk. change (str ": " ++ ?x) with (58%N :: 32%N :: x). cbn [skip]. change (memb 58%N [32; 9; 10; 13]%N) with false. cbn iota. change (N.eqb 58 58) with true. cbn iota.
    change (skip (32%N :: dumps v ++ r')) with (skip (dumps v ++ r')). rewrite starts_skip by (apply starts_app, dumps_starts). rewrite IH; [reflexivity | | exact Pv]. cbn [depth] in D. pose proof (list_max_in (map (fun kv => depth (snd kv)) l) (depth v) (in_map (fun kv => depth (snd kv)) l (k, v) Hx)). lia.
Qed.
Lemma join_bound : forall (l : list pystr) w, In w l -> length w <= length (join (str ", ") l).
Proof.
  induction l as [|x l IH]; intros w H; [contradiction|]. destruct l as [|y l]; [destruct H as [->|[]]; cbn; lia|]. change (join (str ", ") (x :: y :: l)) with (x ++ [44%N; 32%N] ++ join (str ", ") (y :: l)). rewrite !app_length. destruct H as [->|H]; [lia | specialize (IH w H); lia].
Qed.
Lemma depth_length : forall n j, depth j <= n -> depth j <= length (dumps j).
Proof.
  induction n as [|n IH]; intros j D; [lia|]. destruct j as [|s|l|l].
  - cbn. lia.
  - cbn. lia.
  - cbn [depth dumps] in *. rewrite !app_length. change (length (str "[")) with 1. assert (B : list_max (map depth l) <= length (join (str ", ") (map dumps l))); [|lia]. apply list_max_le. apply Forall_forall. intros d Hd. apply in_map_iff in Hd as (x & <- & Hx).
    pose proof (join_bound (map dumps l) (dumps x) (in_map _ _ _ Hx)). pose proof (list_max_in (map depth l) (depth x) (in_map _ _ _ Hx)). specialize (IH x). lia.
  - cbn [depth dumps] in *. rewrite !app_length. change (length (str "{")) with 1. set (f := fun kv : pystr * json => dump_str (fst kv) ++ str ": " ++ dumps (snd kv)). assert (B : list_max (map (fun kv => depth (snd kv)) l) <= length (join (str ", ") (map f l))); [|lia]. apply list_max_le. apply Forall_forall. intros d Hd. apply in_map_iff in Hd as (x & <- & Hx).
    pose proof (join_bound (map f l) (f x) (in_map _ _ _ Hx)) as J. unfold f in J at 1. rewrite !app_length in J. pose proof (list_max_in (map (fun kv => depth (snd kv)) l) (depth (snd x)) (in_map (fun kv => depth (snd kv)) l x Hx)). specialize (IH (snd x)). lia.
Qed.
(** What is written is read back. *)
Theorem json_read_back : forall (j : json) (before after : pystr), plain_json j -> Forall (fun c => In c [32; 9; 10; 13]%N) before -> Forall (fun c => In c [32; 9; 10; 13]%N) after ->
  read_json (before ++ dumps j ++ after) = Some j.
Proof.
  intros j before after P B A. unfold read_json.
  assert (SK : forall w s, Forall (fun c => In c [32; 9; 10; 13]%N) w -> skip (w ++ s) = skip s).
  { induction w as [|c w IH]; intros s F; [reflexivity|]. inversion F as [|? ? Hc Hw]; subst. cbn [app skip]. apply memb_true in Hc. rewrite Hc. apply IH, Hw. }
  rewrite SK by exact B. rewrite starts_skip by (apply starts_app, dumps_starts). rewrite read_dumps; [|rewrite !app_length; pose proof (depth_length (depth j) j (le_n _)); lia | exact P].
  rewrite <- (app_nil_r after), SK by exact A. reflexivity.
Qed.
Print Assumptions json_read_back.

(** Printable ASCII only, so every article is one line whatever it contains. *)
Definition printable (c : N) : Prop := (32 <= c <= 126)%N.
Lemma hex_printable : forall n, (n < 16)%N -> printable (hex_digit n).
Proof. intros n H. unfold printable, hex_digit. destruct (N.ltb_spec n 10); lia. Qed.
Lemma uxxxx_printable : forall n, Forall printable (uxxxx n).
Proof.
  intros n. unfold uxxxx. apply Forall_app. split; [repeat constructor; discriminate|]. unfold hex4. cbn [map]. repeat (constructor; [apply hex_printable, N.mod_upper_bound; discriminate|]). constructor.
Qed.
Lemma escape_printable : forall c, Forall printable (escape c).
Proof.
  intros c. unfold escape. repeat match goal with |- Forall _ (if N.eqb ?a ?b then _ else _) => destruct (N.eqb a b); [repeat constructor; discriminate|] end.
  destruct ((32 <=? c) && (c <=? 126))%N eqn:E; [constructor; [unfold printable; lia | constructor]|]. destruct (c <? 65536)%N; [apply uxxxx_printable|]. apply Forall_app. split; apply uxxxx_printable.
Qed.
Lemma dump_str_printable : forall s, Forall printable (dump_str s).
Proof.
  intros s. unfold dump_str. apply Forall_app. split; [repeat constructor; discriminate|]. apply Forall_app. split; [|repeat constructor; discriminate].
  apply Forall_forall. intros c H. apply in_concat in H as (l & Hl & Hc). apply in_map_iff in Hl as (d & <- & _). pose proof (escape_printable d) as F. rewrite Forall_forall in F. apply F, Hc.
Qed.
Lemma join_printable : forall l, Forall (Forall printable) l -> Forall printable (join (str ", ") l).
Proof.
  induction l as [|x l IH]; intros F; [constructor|]. inversion F; subst. destruct l as [|y l]; [assumption|]. change (join (str ", ") (x :: y :: l)) with (x ++ [44%N; 32%N] ++ join (str ", ") (y :: l)). apply Forall_app. split; [assumption|]. apply Forall_app. split; [repeat constructor; discriminate | apply IH; assumption].
Qed.
Lemma dumps_printable_n : forall n j, depth j <= n -> Forall printable (dumps j).
Proof.
  induction n as [|n IH]; intros j D; [destruct j; cbn in D; lia|]. destruct j as [|s|l|l].
  - repeat constructor; discriminate.
  - apply dump_str_printable.
  - cbn [dumps depth] in *. apply Forall_app. split; [repeat constructor; discriminate|]. apply Forall_app. split; [|repeat constructor; discriminate]. apply join_printable. apply Forall_forall. intros w Hw. apply in_map_iff in Hw as (x & <- & Hx). apply IH. pose proof (list_max_in (map depth l) (depth x) (in_map _ _ _ Hx)). lia.
  - cbn [dumps depth] in *. apply Forall_app. split; [repeat constructor; discriminate|]. apply Forall_app. split; [|repeat constructor; discriminate]. apply join_printable. apply Forall_forall. intros w Hw. apply in_map_iff in Hw as (x & <- & Hx).
    apply Forall_app. split; [apply dump_str_printable|]. apply Forall_app. split; [repeat constructor; discriminate|]. apply IH. pose proof (list_max_in (map (fun kv => depth (snd kv)) l) (depth (snd x)) (in_map (fun kv => depth (snd kv)) l x Hx)). lia.
Qed.
Theorem json_ascii : forall (j : json) (c : N), In c (dumps j) -> (32 <= c <= 126)%N.
Proof. intros j c H. pose proof (dumps_printable_n (depth j) j (le_n _)) as F. rewrite Forall_forall in F. exact (F c H). Qed.
Print Assumptions json_ascii.

(** ** The file *)
Lemma write_articles_lines : forall include l out js, Forall2 (fun a j => output_data include a = Ok j) l js ->
  rfold (fun out a => let* j := output_data include a in Ok (out ++ dumps j ++ [chr_nl])) l out = Ok (out ++ concat (map (fun w => w ++ [chr_nl]) (map dumps js))).
Proof.
  intros include l out js H. revert out. induction H as [|a j l js E H IH]; intros out; cbn [rfold map concat]; [rewrite app_nil_r; reflexivity|]. rewrite E. cbn [rbind]. rewrite IH, <- !app_assoc. reflexivity.
Qed.
Lemma texts_strings : forall l, texts (Some (strings l)) = Some l.
Proof. induction l as [|s l IH]; [reflexivity|]. cbn in *. rewrite IH. reflexivity. Qed.
Definition links_of (a : article) : option (list (pystr * pystr)) := snd a.
Lemma output_data_ok : forall include a, (include = true -> snd a <> None) -> exists j, output_data include a = Ok j /\ tells include j a /\ (plain_article a -> plain_json j).
Proof.
  intros include [[title sections] links] NL. cbn [snd] in NL. unfold output_data.
  assert (PS : forall l, Forall plain l -> plain_json (strings l)). { intros l F. unfold strings. cbn [plain_json]. apply plain_items. apply Forall_forall. intros x Hx. apply in_map_iff in Hx as (s & <- & Hs). rewrite Forall_forall in F. apply F, Hs. }
  assert (PK : forall k, Forall (fun c => (c < 55296)%N) k -> plain k).
  { induction k as [|c k IH]; intros F; [exact I|]. inversion F as [|? ? Fc Fk]; subst. cbn [plain]. split; [lia|]. split; [|apply IH, Fk]. destruct k; [exact I|]. unfold high. destruct (N.leb_spec 55296 c); [lia | reflexivity]. }
  assert (BASE : plain_article (title, sections, links) -> plain_json (match title with Some t => JStr t | None => JNull end) /\ plain_json (strings (map fst sections)) /\ plain_json (strings (map snd sections))).
  { intros (PT & PX & _). split; [destruct title; [apply PT; reflexivity | exact I]|]. rewrite Forall_forall in PX. split; apply PS; apply Forall_forall; intros s Hs; apply in_map_iff in Hs as (x & <- & Hx); apply PX, Hx. }
  destruct include.
  - destruct links as [ls|]; [|exfalso; apply NL; reflexivity]. cbn [rbind]. eexists. split; [reflexivity|]. split.
    + split; [reflexivity|]. split; [apply texts_strings|]. split; [apply texts_strings|]. exists ls. split; reflexivity.
    + intros PA. destruct (BASE PA) as (B1 & B2 & B3). cbn [plain_json app fold_right fst snd]. repeat split; try assumption; try (apply PK; repeat constructor; reflexivity).
      destruct PA as (_ & _ & PL). apply plain_items. apply Forall_forall. intros x Hx. apply in_map_iff in Hx as (p & <- & Hp). specialize (PL ls eq_refl). rewrite Forall_forall in PL. destruct (PL p Hp). apply PS. repeat constructor; assumption.
  - cbn [rbind]. eexists. split; [reflexivity|]. split.
    + split; [reflexivity|]. split; [apply texts_strings|]. split; [apply texts_strings | reflexivity].
    + intros PA. destruct (BASE PA) as (B1 & B2 & B3). cbn [plain_json app fold_right fst snd]. repeat split; try assumption; apply PK; repeat constructor; reflexivity.
Qed.
(** Line by line, the file tells of the articles. *)
Theorem lines_tell : forall (include : bool) (articles : list article), (include = true -> Forall (fun a => snd a <> None) articles) ->
  exists out, write_articles include articles = Ok out /\ length (file_lines out) = length articles /\
  forall i line a, nth_error (file_lines out) i = Some line -> nth_error articles i = Some a ->
    (exists w, line = w ++ [chr_nl] /\ forall c, In c w -> (32 <= c <= 126)%N) /\
    (plain_article a -> exists j, read_json line = Some j /\ tells include j a).
Proof.
  intros include articles NL.
  assert (J : exists js, Forall2 (fun a j => output_data include a = Ok j /\ tells include j a /\ (plain_article a -> plain_json j)) articles js).
  { induction articles as [|a l IH]; [exists []; constructor|]. destruct IH as (js & F). { intros E. specialize (NL E). inversion NL; assumption. }
    destruct (output_data_ok include a) as (j & H). { intros E. specialize (NL E). inversion NL; assumption. } exists (j :: js). constructor; assumption. }
  destruct J as (js & F). unfold write_articles. eexists. split.
  { apply (write_articles_lines include articles [] js). clear -F. induction F as [|a j l js H F IH]; constructor; [exact (proj1 H) | exact IH]. }
  cbn [app]. rewrite file_lines_concat.
  2:{ apply Forall_forall. intros w Hw K. apply in_map_iff in Hw as (j & <- & _). apply json_ascii in K. unfold chr_nl in K. lia. }
  split. { rewrite !map_length. clear -F. induction F; cbn; congruence. }
  rewrite map_map. intros i line a Hl Ha. clear NL. revert i Hl Ha. induction F as [|a0 j0 l js (E & T & PJ) F IH]; intros i Hl Ha; [destruct i; discriminate Hl|]. destruct i as [|i]; [|apply (IH i); assumption].
  cbn [map nth_error] in Hl, Ha. injection Hl as <-. injection Ha as <-. split; [exists (dumps j0); split; [reflexivity|]; intros c; apply json_ascii|].
  intros PA. exists j0. split; [|exact T]. apply (json_read_back j0 [] [chr_nl]); [apply PJ, PA | constructor | repeat constructor; right; right; left; reflexivity].
Qed.
Print Assumptions lines_tell.

Section Dump.
Context (wordc decimal : N -> bool) (lower : pystr -> pystr) (n2cp : pystr -> option N).
(** From the dump to the file: one line for each article that is long enough, no redirect and no other page, in the order of the dump. *)
Theorem dump_to_lines : forall (ns : pystr) (root : elem) (ps : list page) (min_chars workers : nat) (include : bool), dump ns root ps -> 1 <= workers ->
  exists articles l out, Forall2 (article_of wordc decimal n2cp include) ps articles /\ picks (shown lower min_chars) articles l /\
    segment_and_write wordc decimal lower n2cp root min_chars workers include = Ok out /\ length (file_lines out) = length l /\
    forall i line a, nth_error (file_lines out) i = Some line -> nth_error l i = Some a -> plain_article a -> exists j, read_json line = Some j /\ tells include j a.
Proof.
  intros ns root ps m w include D W.
  destruct (sections_corpus wordc decimal lower n2cp ns root ps (mkS [str "0"] m w include None) D W) as (articles & l & F & P & E). cbn [s_include s_min] in F, P.
  assert (NL : include = true -> Forall (fun a : article => snd a <> None) l).
  { intros ->. assert (FA : Forall (fun a : article => snd a <> None) articles). { clear -F. induction F as [|p a ps l H F IH]; constructor; [|exact IH]. destruct a as [[t s] k]. unfold article_of in H. cbn [snd]. intros K. destruct H as (_ & H1 & H2).
      destruct (p_text p) as [x|]; [|destruct (H2 (or_intror eq_refl)) as (_ & Z); rewrite Z in K; discriminate K].
      destruct (eq_dec (p_ns p) (Some (str "0"))) as [En|En]; [destruct (H1 x En eq_refl) as (_ & Z); rewrite Z in K; discriminate K | destruct (H2 (or_introl En)) as (_ & Z); rewrite Z in K; discriminate K]. }
    clear -P FA. induction P; inversion FA; subst; [constructor | constructor; auto | auto]. }
  destruct (lines_tell include l NL) as (out & EO & L & R). exists articles, l, out. split; [exact F|]. split; [exact P|]. split.
  { unfold segment_and_write. rewrite E. cbn [fst rbind]. exact EO. }
  split; [exact L|]. intros i line a Hl Ha. exact (proj2 (R i line a Hl Ha)).
Qed.
End Dump.
Print Assumptions dump_to_lines.

Example written : segment_and_write ascii_word is_digit ascii_lower (fun _ => None) root1 5 1 true =
  Ok (str "{""title"": ""Graph"", ""section_titles"": [""Introduction"", ""History""], ""section_texts"": [""Graphs have nodes."", ""Euler drew bridges.""], ""interlinks"": [[""node"", ""node""]]}" ++ [chr_nl]).
Proof. vm_compute. reflexivity. Qed.
Example escapes : dumps (JStr [233; 34; 10; 128512; 31]%N) = str """\u00e9\""\n\ud83d\ude00\u001f""" /\ read_json (str " ""\u00e9\""\n\ud83d\ude00\u001f"" ") = Some (JStr [233; 34; 10; 128512; 31]%N).
Proof. split; vm_compute; reflexivity. Qed.
(** The entities "&#55357;&#56832;" become two surrogates in the text (utils.py, [decode_htmlentities]); who reads the line gets one character instead. *)
Theorem surrogates_refuted : exists out line j, write_articles false [(Some (str "A"), [(str "Introduction", [55357; 56832]%N)], None)] = Ok out /\ file_lines out = [line] /\ read_json line = Some j /\ texts (field j "section_texts") = Some [[128512%N]].
Proof. eexists _, _, _. split; [vm_compute; reflexivity|]. split; [vm_compute; reflexivity|]. split; [vm_compute; reflexivity|]. vm_compute. reflexivity. Qed.
Print Assumptions surrogates_refuted.
