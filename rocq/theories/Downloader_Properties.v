(** Properties of the downloader: what is found in gensim-data at any moment. *)
From Verif Require Import Base Str Downloader_Model.
Local Open Scope nat_scope.

(** ** Specification *)

(** The entry of a name among the latest ones *)
Definition listed (i : catalog) (name : pystr) (e : entry) : Prop :=
  dget (filter (fun ne => is_latest (snd ne)) (corpora i)) name = Some e \/
  (dget (filter (fun ne => is_latest (snd ne)) (corpora i)) name = None /\ dget (filter (fun ne => is_latest (snd ne)) (models i)) name = Some e).
(** The data of the directory has the checksums of the list *)
Definition verified (md5 : bytes -> bytes) (i : catalog) (name : pystr) (f : folder) : Prop :=
  exists e n data, listed i name e /\ e_parts e = Some n /\ dget f (gz_of name) = Some data /\
    if Nat.ltb 1 n then exists pieces, data = concat pieces /\ length pieces = n /\ forall p c, nth_error pieces p = Some c -> dget (e_sums e) p = Some (md5 c)
    else e_sum e = Some (md5 data).
(** The list of data sets is the same whenever it can be had, and in the cache *)
Definition served (net : nat -> url -> option bytes) (parse : bytes -> option catalog) (i : catalog) (w : world) : Prop :=
  (forall t b, net t UList = Some b -> parse b = Some i) /\ (forall b, w_cache w = Some b -> parse b = Some i).

(** ** Proofs *)
Definition quiet {A} (m : M A) : Prop := forall w, w_dirs (snd (m w)) = w_dirs w /\ w_seen (snd (m w)) = w_seen w.
Lemma quiet_ret : forall {A} (a : A), quiet (ret a). Proof. intros A a w. split; reflexivity. Qed.
Lemma quiet_raise : forall {A} e, quiet (@raise A e). Proof. intros A e w. split; reflexivity. Qed.
Lemma quiet_bind : forall {A B} (m : M A) (f : A -> M B), quiet m -> (forall a, quiet (f a)) -> quiet (bind m f).
Proof.
  intros A B m f Hm Hf w. unfold bind. destruct (Hm w) as (D & S1). destruct (m w) as [[a|e] w']; cbn [snd] in *; [|split; assumption]. destruct (Hf a w') as (D2 & S2). split; congruence.
Qed.
Lemma quiet_fetch : forall net u, quiet (fetch net u). Proof. intros net u w. split; reflexivity. Qed.
Lemma quiet_cache : forall b, quiet (write_cache b). Proof. intros b w. split; reflexivity. Qed.
Lemma quiet_read : quiet read_cache. Proof. intros w. split; reflexivity. Qed.
Ltac quiet := repeat first [apply quiet_ret | apply quiet_raise | apply quiet_fetch | apply quiet_cache | apply quiet_read | apply quiet_bind; [|intros ?]
  | match goal with |- quiet (match ?x with _ => _ end) => destruct x end].
Lemma quiet_info : forall net parse, quiet (load_info net parse). Proof. intros. unfold load_info. quiet. Qed.
Lemma quiet_lookup : forall net parse name, quiet (lookup net parse name). Proof. intros. unfold lookup, info_latest. repeat (apply quiet_bind; [|intros ?]); quiet. all: apply quiet_info. Qed.
Lemma quiet_field : forall net parse {A} name (f : entry -> option A), quiet (field net parse name f).
Proof. intros. unfold field. apply quiet_bind; [apply quiet_lookup|intros ?]. quiet. Qed.
Lemma quiet_checked : forall net parse md5 name part u, quiet (checked net parse md5 name part u).
Proof. intros. unfold checked, retrieve. apply quiet_bind; [quiet|intros ?]. apply quiet_bind; [apply quiet_field|intros ?]. quiet. Qed.
Lemma quiet_parts : forall net parse md5 name ps, quiet (parts_from net parse md5 name ps).
Proof. intros net parse md5 name ps. induction ps as [|p ps IH]; cbn [parts_from]; [quiet|]. apply quiet_bind; [apply quiet_checked|intros ?]. apply quiet_bind; [exact IH|intros ?]. quiet. Qed.

(** What the steps give when the list is the same *)
Section Served.
Context (net : nat -> url -> option bytes) (parse : bytes -> option catalog) (md5 : bytes -> bytes) (i : catalog).
Notation ok := (served net parse i).
Definition gives {A} (m : M A) (P : A -> Prop) : Prop := forall w, ok w -> ok (snd (m w)) /\ forall a, fst (m w) = Ok a -> P a.
Lemma gives_ret : forall {A} (a : A) (P : A -> Prop), P a -> gives (ret a) P.
Proof. intros A a P H w O. split; [exact O|]. cbn. intros a' E. injection E as <-. exact H. Qed.
Lemma gives_raise : forall {A} e (P : A -> Prop), gives (raise e) P.
Proof. intros A e P w O. split; [exact O|]. cbn. discriminate. Qed.
Lemma gives_bind : forall {A B} (m : M A) (f : A -> M B) P Q, gives m P -> (forall a, P a -> gives (f a) Q) -> gives (bind m f) Q.
Proof.
  intros A B m f P Q Hm Hf w O. unfold bind. destruct (Hm w O) as (O' & Ha). destruct (m w) as [[a|e] w']; cbn [fst snd] in *; [|split; [exact O'|discriminate]].
  apply (Hf a (Ha a eq_refl) w' O').
Qed.
Lemma gives_true : forall {A} (m : M A), (forall w, ok w -> ok (snd (m w))) -> gives m (fun _ => True).
Proof. intros A m H w O. split; [apply H, O|trivial]. Qed.
Lemma gives_fetch : forall u, gives (fetch net u) (fun b => exists t, b = net t u).
Proof. intros u w O. split; [exact O|]. cbn. intros b E. injection E as <-. eexists. reflexivity. Qed.
Lemma gives_info : gives (load_info net parse) (fun c => c = i).
Proof.
  unfold load_info. apply (gives_bind _ _ _ _ (gives_fetch UList)). intros b (t & Hb).
  apply (gives_bind _ _ (fun _ => True)).
  - destruct b as [b|]; [|apply gives_ret; trivial]. intros w (O1 & O2). split; [|trivial]. split; [exact O1|]. cbn. intros b' E. injection E as <-. apply (O1 t). congruence.
  - intros _ _. apply (gives_bind _ _ (fun c => forall b, c = Some b -> parse b = Some i)).
    + intros w O. split; [exact O|]. cbn. intros c E. injection E as <-. apply O.
    + intros c Hc. destruct c as [b'|]; [|apply gives_raise]. rewrite (Hc b' eq_refl). apply gives_ret. reflexivity.
Qed.
Lemma gives_field : forall {A} name (f : entry -> option A), gives (field net parse name f) (fun x => match x with Some x => exists e, listed i name e /\ f e = Some x | None => True end).
Proof.
  intros A name f. unfold field, lookup, info_latest.
  apply (gives_bind _ _ (fun e => match e with Some e => listed i name e | None => True end)).
  - apply (gives_bind _ _ (fun c => c = Catalog (latest (corpora i)) (latest (models i)))).
    + apply (gives_bind _ _ _ _ gives_info). intros c ->. apply gives_ret. reflexivity.
    + intros c ->. apply gives_ret. cbn [corpora models]. unfold listed, latest. destruct (dget (filter _ (corpora i)) name) eqn:E1; [left; reflexivity|].
      destruct (dget (filter _ (models i)) name) eqn:E2; [right; split; reflexivity|trivial].
  - intros [e|] He; [|apply gives_ret; trivial]. destruct (f e) as [x|] eqn:Ef; [|apply gives_raise]. apply gives_ret. exists e. split; assumption.
Qed.
Lemma gives_checked : forall name part u, gives (checked net parse md5 name part u) (fun c => exists e, listed i name e /\ match part with None => e_sum e | Some p => dget (e_sums e) p end = Some (md5 c)).
Proof.
  intros name part u. unfold checked, retrieve.
  apply (gives_bind _ _ (fun _ => True)).
  - apply (gives_bind _ _ _ _ (gives_fetch u)). intros b _. destruct b; [apply gives_ret; trivial|apply gives_raise].
  - intros c _. apply (gives_bind _ _ _ _ (gives_field name _)). intros s Hs. destruct (eqb (Some (md5 c)) s) eqn:E; [|apply gives_raise].
    apply (proj1 (eqb_true _ _)) in E. subst s. apply gives_ret. exact Hs.
Qed.
Lemma listed_unique : forall name e e', listed i name e -> listed i name e' -> e = e'.
Proof. unfold listed. intros name e e' [H|(H1 & H2)] [H'|(H1' & H2')]; congruence. Qed.
Lemma gives_parts : forall name ps, gives (parts_from net parse md5 name ps) (fun cs => Forall2 (fun p c => exists e, listed i name e /\ dget (e_sums e) p = Some (md5 c)) ps cs).
Proof.
  intros name ps. induction ps as [|p ps IH]; cbn [parts_from]; [apply gives_ret; constructor|].
  apply (gives_bind _ _ _ _ (gives_checked name (Some p) _)). intros c Hc. apply (gives_bind _ _ _ _ IH). intros cs Hcs. apply gives_ret. constructor; assumption.
Qed.
End Served.

Lemma Forall2_len : forall {A B} (P : A -> B -> Prop) l l', Forall2 P l l' -> length l = length l'.
Proof. intros A B P l l' H. induction H; cbn; congruence. Qed.
Lemma run_bind : forall {A B} (m : M A) (f : A -> M B) w, bind m f w = match m w with (Ok a, w') => f a w' | (Err e, w') => (Err e, w') end.
Proof. reflexivity. Qed.
Lemma tmp_not : forall name, tmp_of name <> name.
Proof. intros name E. unfold tmp_of in E. apply (f_equal (@length N)) in E. rewrite app_length in E. cbn in E. lia. Qed.
Lemma gz_not_init : forall name, gz_of name <> s_init.
Proof.
  intros name E. unfold gz_of, s_init in E. apply (f_equal (@rev N)) in E. rewrite rev_app_distr in E. vm_compute in E. destruct (rev name); discriminate.
Qed.
Lemma copy_run : forall k cs w, exists w', copy_steps k cs w = (Ok tt, w') /\ (forall k', k' <> k -> w_dirs w' k' = w_dirs w k') /\
  (forall d, In d (w_dirs w' :: w_seen w') -> In d (w_seen w) \/ (forall k', k' <> k -> d k' = w_dirs w k')) /\ w_cache w' = w_cache w /\ w_time w' = w_time w.
Proof.
  intros k cs. induction cs as [|c cs IH]; intros w.
  - exists w. split; [reflexivity|]. split; [reflexivity|]. split; [|split; reflexivity]. intros d [<-|H]; [right; reflexivity|left; exact H].
  - cbn [copy_steps]. unfold bind, dirs, set_dirs. set (w1 := World (w_time w) (w_cache w) (upd (w_dirs w) k (Some c)) (w_dirs w :: w_seen w)).
    destruct (IH w1) as (w' & E & D & Sn & C & T). exists w'. split; [exact E|].
    assert (U : forall k', k' <> k -> w_dirs w1 k' = w_dirs w k'). { intros k' NE. cbn. unfold upd. destruct (eqb k k') eqn:Ek; [apply (proj1 (eqb_true _ _)) in Ek; congruence|reflexivity]. }
    split; [intros k' NE; rewrite D, U by assumption; reflexivity|]. split; [|split; [rewrite C; reflexivity|rewrite T; reflexivity]].
    intros d Hd. destruct (Sn d Hd) as [[<-|H]|H]; [right; reflexivity|left; exact H|right]. intros k' NE. rewrite H, U by assumption. reflexivity.
Qed.
Lemma copy_seen : forall k cs w w' c, copy_steps k cs w = (Ok tt, w') -> In c cs -> exists d, In d (w_dirs w' :: w_seen w') /\ d k = Some c /\ forall k', k' <> k -> d k' = w_dirs w k'.
Proof.
  intros k cs. induction cs as [|c0 cs IH]; intros w w' c E Hc; [destruct Hc|]. cbn [copy_steps] in E. unfold bind, dirs, set_dirs in E.
  set (w1 := World (w_time w) (w_cache w) (upd (w_dirs w) k (Some c0)) (w_dirs w :: w_seen w)) in E.
  assert (U : forall k', k' <> k -> w_dirs w1 k' = w_dirs w k'). { intros k' NE. cbn. unfold upd. destruct (eqb k k') eqn:Ek; [apply (proj1 (eqb_true _ _)) in Ek; congruence|reflexivity]. }
  destruct Hc as [<-|Hc].
  - exists (w_dirs w1). split; [|split; [cbn; unfold upd; rewrite eqb_refl; reflexivity|exact U]].
    assert (K : forall cs w2 w3, copy_steps k cs w2 = (Ok tt, w3) -> In (w_dirs w2) (w_dirs w3 :: w_seen w3) /\ forall d, In d (w_seen w2) -> In d (w_seen w3)).
    { clear. induction cs as [|c cs IH]; intros w2 w3 E; cbn [copy_steps] in E; [injection E as <-; split; [left; reflexivity|trivial]|]. unfold bind, dirs, set_dirs in E. apply IH in E. destruct E as (_ & E). split; [right; apply E; left; reflexivity|intros d Hd; apply E; right; exact Hd]. }
    apply (K cs w1 w' E).
  - destruct (IH w1 w' c E Hc) as (d & H1 & H2 & H3). exists d. split; [exact H1|]. split; [exact H2|]. intros k' NE. rewrite H3, U by assumption. reflexivity.
Qed.

(** ** Theorems *)

(** Whatever happens, and whenever the process is killed, the directory of a data set is the one that was there, or its data has the listed checksums;
    no other directory but the temporary one of this name changes *)
Theorem only_verified : forall net parse md5 copies i name w, served net parse i w ->
  let w' := snd (load net parse md5 copies name w) in
  forall d, In d (w_dirs w' :: w_seen w') -> In d (w_seen w) \/
    forall k, d k = w_dirs w k \/ k = tmp_of name \/ (k = name /\ w_dirs w name = None /\ exists f, d name = Some f /\ verified md5 i name f).
Proof.
  intros net parse md5 copies i name w O.
  assert (Same : forall w', w_dirs w' = w_dirs w /\ w_seen w' = w_seen w -> forall d, In d (w_dirs w' :: w_seen w') -> In d (w_seen w) \/
    forall k, d k = w_dirs w k \/ k = tmp_of name \/ (k = name /\ w_dirs w name = None /\ exists f, d name = Some f /\ verified md5 i name f)).
  { intros w' (D & Sn) d Hd. rewrite D, Sn in Hd. destruct Hd as [<-|Hd]; [right; intros k; left; reflexivity|left; exact Hd]. }
  unfold load. rewrite run_bind.
  pose proof (quiet_field net parse name e_file w) as Q1. pose proof (gives_field net parse i name e_file w O) as G1. fold (get_filename net parse name) in *.
  destruct (get_filename net parse name w) as [[f|e] w1]; cbn [fst snd] in *; [|apply Same, Q1]. destruct G1 as (O1 & _).
  destruct f as [f|]; [|apply Same, Q1]. rewrite run_bind. cbn [dirs]. rewrite run_bind.
  destruct (w_dirs w1 name) as [f0|] eqn:Ed; [apply Same, Q1|].
  unfold download. rewrite run_bind.
  assert (Q2 : quiet (retrieve net (UInit name))) by (unfold retrieve; quiet). specialize (Q2 w1).
  assert (G2 : gives net parse i (retrieve net (UInit name)) (fun _ => True)). { unfold retrieve. apply (gives_bind net parse i _ _ _ _ (gives_fetch net parse i (UInit name))). intros b _. destruct b; [apply gives_ret; trivial|apply gives_raise]. }
  specialize (G2 w1 O1). destruct (retrieve net (UInit name) w1) as [[code|e] w2]; cbn [fst snd] in *; [|apply Same; destruct Q1, Q2; split; congruence]. destruct G2 as (O2 & _).
  rewrite run_bind. pose proof (quiet_field net parse name e_parts w2) as Q3. pose proof (gives_field net parse i name e_parts w2 O2) as G3. fold (get_parts net parse name) in *.
  destruct (get_parts net parse name w2) as [[t|e] w3]; cbn [fst snd] in *; [|apply Same; destruct Q1, Q2, Q3; split; congruence]. destruct G3 as (O3 & G3).
  specialize (G3 _ eq_refl). destruct t as [n|]; [|apply (Same w3); destruct Q1, Q2, Q3; split; congruence]. destruct G3 as (e0 & L0 & P0).
  rewrite run_bind. set (dm := if Nat.ltb 1 n then _ else _).
  assert (Q4 : quiet dm). { unfold dm. destruct (Nat.ltb 1 n); [|apply quiet_checked]. apply quiet_bind; [apply quiet_parts|intros ?; quiet]. }
  assert (G4 : gives net parse i dm (fun data => forall f, dget f (gz_of name) = Some data -> verified md5 i name f)).
  { unfold dm. destruct (Nat.ltb 1 n) eqn:En.
    - apply (gives_bind net parse i _ _ _ _ (gives_parts net parse md5 i name (seq 0 n))). intros cs Hcs. apply gives_ret. intros f1 Hf. exists e0, n, (concat cs). split; [exact L0|]. split; [exact P0|]. split; [exact Hf|]. rewrite En.
      exists cs. split; [reflexivity|]. split; [pose proof (Forall2_len _ _ _ Hcs) as LL; rewrite seq_length in LL; symmetry; exact LL|]. intros p c Hp.
      assert (K : forall a l l', Forall2 (fun p c => exists e, listed i name e /\ dget (e_sums e) p = Some (md5 c)) (seq a l) l' -> forall p c, nth_error l' p = Some c -> dget (e_sums e0) (a + p) = Some (md5 c)).
      { clear - L0. intros a l. revert a. induction l as [|l IH]; intros a l' H p c Hp; inversion H as [|? x ? l'' (e & Le & Hd) H']; subst; [destruct p; discriminate|]. destruct p as [|p]; cbn in Hp.
        - injection Hp as ->. rewrite Nat.add_0_r, (listed_unique i name e0 e L0 Le). exact Hd.
        - rewrite <- Nat.add_succ_comm. apply (IH _ _ H' _ _ Hp). }
      apply (K 0 n cs Hcs p c Hp).
    - intros wx Ox. destruct (gives_checked net parse md5 i name None (UData name) wx Ox) as (Oy & H). split; [exact Oy|]. intros data Ed' f1 Hf. destruct (H data Ed') as (e & Le & Hs). rewrite (listed_unique i name e e0 Le L0) in Hs.
      exists e0, n, data. split; [exact L0|]. split; [exact P0|]. split; [exact Hf|]. rewrite En. exact Hs. }
  specialize (Q4 w3). specialize (G4 w3 O3). destruct (dm w3) as [[data|e] w4]; cbn [fst snd] in *; [|apply Same; destruct Q1, Q2, Q3, Q4; split; congruence]. destruct G4 as (O4 & G4). specialize (G4 _ eq_refl).
  assert (E4 : w_dirs w4 = w_dirs w /\ w_seen w4 = w_seen w) by (destruct Q1, Q2, Q3, Q4; split; congruence).
  assert (En0 : w_dirs w name = None) by (destruct Q1 as (<- & _); exact Ed).
  clear Q1 Q2 Q3 Q4. clearbody dm. rewrite run_bind. cbn [dirs]. destruct (w_dirs w4 (tmp_of name)) eqn:Et; [apply Same, E4|].
  rewrite run_bind. destruct (copy_run (tmp_of name) (copies [(s_init, code); (gz_of name, data)] ++ [[(s_init, code); (gz_of name, data)]]) w4) as (w5 & E5 & D5 & S5 & _). rewrite E5.
  destruct E4 as (E4 & E4').
  assert (Old : forall d, In d (w_dirs w5 :: w_seen w5) -> In d (w_seen w) \/ forall k, d k = w_dirs w k \/ k = tmp_of name \/ (k = name /\ w_dirs w name = None /\ exists f, d name = Some f /\ verified md5 i name f)).
  { intros d Hd. destruct (S5 d Hd) as [H|H]; [left; rewrite <- E4'; exact H|right]. intros k. destruct (list_eq_dec N.eq_dec k (tmp_of name)) as [->|NE]; [right; left; reflexivity|]. left. rewrite H, E4 by exact NE. reflexivity. }
  rewrite run_bind. cbn [dirs]. destruct (w_dirs w5 name) eqn:E6; [exact Old|].
  cbn [set_dirs ret snd w_dirs w_seen]. intros d [<-|Hd]; [right|apply Old; exact Hd]. intros k. unfold upd at 1. destruct (eqb name k) eqn:Ek.
  - apply (proj1 (eqb_true _ _)) in Ek. subst k. right. right. split; [reflexivity|]. split; [exact En0|]. exists [(s_init, code); (gz_of name, data)]. split; [unfold upd; rewrite eqb_refl; reflexivity|]. apply G4.
    cbn [dget]. destruct (eq_dec s_init (gz_of name)) as [E|_]; [exfalso; apply (gz_not_init name); symmetry; exact E|]. destruct (eq_dec (gz_of name) (gz_of name)); [reflexivity|congruence].
  - unfold upd at 1. destruct (eqb (tmp_of name) k) eqn:Ek2; [right; left; apply (proj1 (eqb_true _ _)) in Ek2; congruence|]. left. apply (proj1 (eqb_false _ _)) in Ek2. rewrite D5, E4 by congruence. reflexivity.
Qed.

(** A directory that is there is taken as it is *)
Theorem load_present : forall net parse md5 copies name w f, w_dirs w name = Some f ->
  let (r, w') := load net parse md5 copies name w in w_dirs w' = w_dirs w /\ w_seen w' = w_seen w /\ forall x, r = Ok x -> fst x = name.
Proof.
  intros net parse md5 copies name w f H. unfold load. rewrite run_bind. pose proof (quiet_field net parse name e_file w) as (D & Sn). fold (get_filename net parse name) in *.
  destruct (get_filename net parse name w) as [[g|e] w1]; cbn [snd] in *; [|split; [exact D|split; [exact Sn|discriminate]]].
  destruct g as [g|]; [|split; [exact D|split; [exact Sn|discriminate]]]. rewrite run_bind. cbn [dirs]. rewrite run_bind, D, H. split; [exact D|]. split; [exact Sn|]. cbn. intros x E. injection E as <-. reflexivity.
Qed.
(** ... also without network, from the cached list *)
Theorem load_offline : forall net parse md5 copies name w f b i e g, (forall t u, net t u = None) -> w_cache w = Some b -> parse b = Some i -> listed i name e -> e_file e = Some g -> w_dirs w name = Some f ->
  fst (load net parse md5 copies name w) = Ok (name, g).
Proof.
  intros net parse md5 copies name w f b i e g N0 C P L F D. unfold load, get_filename, field, lookup, info_latest, load_info, fetch, read_cache, bind, ret, dirs. rewrite N0. cbn. rewrite C, P. cbn.
  destruct L as [L|(L1 & L2)].
  - unfold latest. rewrite L. cbn. rewrite F. cbn. rewrite D. reflexivity.
  - unfold latest. rewrite L1, L2. cbn. rewrite F. cbn. rewrite D. reflexivity.
Qed.
(** With a good network and nothing in the way, the data arrives *)
Theorem load_arrives : forall net parse md5 copies name w b i e n g (code : bytes) (pieces : list bytes),
  (forall t, net t UList = Some b) -> parse b = Some i -> listed i name e -> e_file e = Some g -> e_parts e = Some n ->
  (forall t, net t (UInit name) = Some code) -> length pieces = Nat.max n 1 ->
  (if Nat.ltb 1 n then forall p c, nth_error pieces p = Some c -> (forall t, net t (UPart name p) = Some c) /\ dget (e_sums e) p = Some (md5 c)
   else forall t, net t (UData name) = Some (concat pieces) /\ e_sum e = Some (md5 (concat pieces))) ->
  w_dirs w name = None -> w_dirs w (tmp_of name) = None ->
  exists w', load net parse md5 copies name w = (Ok (name, g), w') /\ w_dirs w' name = Some [(s_init, code); (gz_of name, concat pieces)] /\
    forall k, k <> name -> w_dirs w' k = w_dirs w k.
Proof.
  intros net parse md5 copies name w b i e n g code pieces NL P L F PN NI LP ND D Dt.
  assert (FI : forall {A} (f : entry -> option A) x w, f e = Some x -> exists w1, field net parse name f w = (Ok (Some x), w1) /\ w_dirs w1 = w_dirs w).
  { intros A f x w0 Hf. unfold field, lookup, info_latest, load_info, fetch, read_cache, write_cache, bind, ret. rewrite NL. cbn. rewrite P. cbn. unfold latest.
    destruct L as [L|(L1 & L2)]; [rewrite L|rewrite L1, L2]; rewrite Hf; eexists; split; reflexivity. }
  unfold load. rewrite run_bind. unfold get_filename. destruct (FI _ e_file g w F) as (w1 & E1 & D1). rewrite E1. rewrite run_bind. cbn [dirs]. rewrite run_bind, D1, D.
  unfold download. rewrite run_bind. unfold retrieve at 1. rewrite run_bind. cbn [fetch]. rewrite NI. cbn [ret]. set (w2 := World (S (w_time w1)) _ _ _).
  rewrite run_bind. unfold get_parts. destruct (FI _ e_parts n w2 PN) as (w3 & E3 & D3). rewrite E3. rewrite run_bind.
  assert (CK : forall part u c w0, (forall t, net t u = Some c) -> match part with None => e_sum e | Some p => dget (e_sums e) p end = Some (md5 c) -> exists w', checked net parse md5 name part u w0 = (Ok c, w') /\ w_dirs w' = w_dirs w0).
  { intros part u c w0 Hu Hs. unfold checked. rewrite run_bind. unfold retrieve. rewrite run_bind. cbn [fetch]. rewrite Hu. cbn [ret]. rewrite run_bind. unfold get_checksum.
    destruct (FI _ (fun e => match part with None => e_sum e | Some p => dget (e_sums e) p end) (md5 c) (World (S (w_time w0)) (w_cache w0) (w_dirs w0) (w_seen w0)) Hs) as (w' & E' & D'). rewrite E'. rewrite eqb_refl. exists w'. split; [reflexivity|exact D']. }
  assert (DM : exists w4, (if Nat.ltb 1 n then bind (parts_from net parse md5 name (seq 0 n)) (fun cs => ret (concat cs)) else checked net parse md5 name None (UData name)) w3 = (Ok (concat pieces), w4) /\ w_dirs w4 = w_dirs w3).
  { destruct (Nat.ltb 1 n) eqn:En.
    - apply Nat.ltb_lt in En. assert (K : forall l a w0, (forall p c, nth_error l p = Some c -> (forall t, net t (UPart name (a + p)) = Some c) /\ dget (e_sums e) (a + p) = Some (md5 c)) -> exists w', parts_from net parse md5 name (seq a (length l)) w0 = (Ok l, w') /\ w_dirs w' = w_dirs w0).
      { induction l as [|c l IH]; intros a w0 H; [exists w0; split; reflexivity|]. cbn [length seq parts_from]. rewrite run_bind. destruct (H 0 c eq_refl) as (H1 & H2). rewrite Nat.add_0_r in H1, H2. destruct (CK (Some a) (UPart name a) c w0 H1 H2) as (w5 & E5 & D5). rewrite E5, run_bind.
        destruct (IH (S a) w5) as (w6 & E6 & D6). { intros p c' Hp. specialize (H (S p) c' Hp). rewrite <- Nat.add_succ_comm in H. exact H. } rewrite E6. exists w6. split; [reflexivity|congruence]. }
      rewrite run_bind. destruct (K pieces 0 w3 ND) as (w4 & E4 & D4). replace (length pieces) with n in E4 by lia. rewrite E4. exists w4. split; [reflexivity|exact D4].
    - destruct (ND 0) as (_ & HS). apply (CK None (UData name) (concat pieces) w3); [intros t; apply ND|exact HS]. }
  destruct DM as (w4 & E4 & D4). rewrite E4. rewrite run_bind. cbn [dirs].
  assert (DW : w_dirs w4 = w_dirs w) by (rewrite D4, D3; cbn; exact D1). rewrite DW, Dt. rewrite run_bind.
  destruct (copy_run (tmp_of name) (copies [(s_init, code); (gz_of name, concat pieces)] ++ [[(s_init, code); (gz_of name, concat pieces)]]) w4) as (w5 & E5 & D5 & _). rewrite E5, run_bind. cbn [dirs].
  rewrite D5, DW, D by (intros E; apply (tmp_not name); congruence). cbn [set_dirs ret]. eexists. split; [reflexivity|]. cbn [w_dirs]. split.
  - unfold upd. rewrite eqb_refl. reflexivity.
  - intros k NE. unfold upd at 1. destruct (eqb name k) eqn:Ek; [apply (proj1 (eqb_true _ _)) in Ek; congruence|]. unfold upd. destruct (eqb (tmp_of name) k) eqn:Ek2.
    + apply (proj1 (eqb_true _ _)) in Ek2. subst k. symmetry. exact Dt.
    + apply (proj1 (eqb_false _ _)) in Ek2. rewrite D5, DW by congruence. reflexivity.
Qed.
(** A failed load changes nothing *)
Theorem load_failed : forall net parse md5 copies name w e w', load net parse md5 copies name w = (Err e, w') -> w_dirs w' = w_dirs w /\ w_seen w' = w_seen w.
Proof.
  intros net parse md5 copies name w e w'. unfold load. rewrite run_bind. pose proof (quiet_field net parse name e_file w) as (D & Sn). fold (get_filename net parse name) in *.
  destruct (get_filename net parse name w) as [[g|e1] w1]; cbn [snd] in *; [|intros E; injection E as _ <-; split; assumption].
  destruct g as [g|]; [|intros E; injection E as _ <-; split; assumption]. rewrite run_bind. cbn [dirs]. rewrite run_bind. destruct (w_dirs w1 name) eqn:E1; [discriminate|].
  unfold download. rewrite run_bind. assert (Q2 : quiet (retrieve net (UInit name))) by (unfold retrieve; quiet). specialize (Q2 w1). destruct (retrieve net (UInit name) w1) as [[code|e2] w2]; cbn [snd] in *; [|intros E; injection E as _ <-; destruct Q2; split; congruence].
  rewrite run_bind. pose proof (quiet_field net parse name e_parts w2) as Q3. fold (get_parts net parse name) in *. destruct (get_parts net parse name w2) as [[t|e3] w3]; cbn [snd] in *; [|intros E; injection E as _ <-; destruct Q2, Q3; split; congruence].
  destruct t as [n|]; [|intros E; injection E as _ <-; destruct Q2, Q3; split; congruence]. rewrite run_bind. set (dm := if Nat.ltb 1 n then _ else _).
  assert (Q4 : quiet dm). { unfold dm. destruct (Nat.ltb 1 n); [|apply quiet_checked]. apply quiet_bind; [apply quiet_parts|intros ?; quiet]. } clearbody dm. specialize (Q4 w3).
  destruct (dm w3) as [[data|e4] w4]; cbn [snd] in *; [|intros E; injection E as _ <-; destruct Q2, Q3, Q4; split; congruence].
  rewrite run_bind. cbn [dirs]. destruct (w_dirs w4 (tmp_of name)); [intros E; injection E as _ <-; destruct Q2, Q3, Q4; split; congruence|].
  rewrite run_bind. destruct (copy_run (tmp_of name) (copies [(s_init, code); (gz_of name, data)] ++ [[(s_init, code); (gz_of name, data)]]) w4) as (w5 & E5 & D5 & _). rewrite E5, run_bind. cbn [dirs].
  rewrite D5 by (intros E; apply (tmp_not name); congruence). assert (E6 : w_dirs w4 name = None) by (destruct Q2, Q3, Q4; congruence). rewrite E6. discriminate.
Qed.
(** Violation: a process killed while it moves the data leaves the temporary directory.  From then on the data set cannot be loaded, whatever the network. *)
Theorem left_over_stuck : forall net parse md5 copies name w f, w_dirs w name = None -> w_dirs w (tmp_of name) = Some f -> forall x, fst (load net parse md5 copies name w) <> Ok x.
Proof.
  intros net parse md5 copies name w f D Dt x. unfold load. rewrite run_bind. pose proof (quiet_field net parse name e_file w) as (D1 & _). fold (get_filename net parse name) in *.
  destruct (get_filename net parse name w) as [[g|e1] w1]; cbn [snd] in *; [|discriminate]. destruct g as [g|]; [|discriminate]. rewrite run_bind. cbn [dirs]. rewrite run_bind, D1, D.
  unfold download. rewrite run_bind. assert (Q2 : quiet (retrieve net (UInit name))) by (unfold retrieve; quiet). specialize (Q2 w1). destruct (retrieve net (UInit name) w1) as [[code|e2] w2]; cbn [snd] in *; [|discriminate].
  rewrite run_bind. pose proof (quiet_field net parse name e_parts w2) as Q3. fold (get_parts net parse name) in *. destruct (get_parts net parse name w2) as [[t|e3] w3]; cbn [snd] in *; [|discriminate].
  destruct t as [n|]; [|discriminate]. rewrite run_bind. set (dm := if Nat.ltb 1 n then _ else _).
  assert (Q4 : quiet dm). { unfold dm. destruct (Nat.ltb 1 n); [|apply quiet_checked]. apply quiet_bind; [apply quiet_parts|intros ?; quiet]. } clearbody dm. specialize (Q4 w3).
  destruct (dm w3) as [[data|e4] w4]; cbn [snd] in *; [|discriminate]. rewrite run_bind. cbn [dirs].
  assert (E : w_dirs w4 (tmp_of name) = Some f) by (destruct Q2, Q3, Q4; congruence). rewrite E. discriminate.
Qed.

(** ** Concrete networks *)
Definition nm : pystr := str "text8".
Definition the_entry (late : option bool) : entry := Entry (Some 1) (Some (gz_of nm)) (Some [7%N]) [] late.
Definition the_parse (late : option bool) (b : bytes) : option catalog := match b with [1%N] => Some (Catalog [(nm, the_entry late)] []) | _ => None end.
Definition the_net (t : nat) (u : url) : option bytes := match u with UList => Some [1%N] | UInit _ => Some [2%N] | UData _ => Some [7%N] | UPart _ _ => None end.
Definition the_md5 (b : bytes) : bytes := b.
Definition w0 : world := World 0 None (fun _ => None) [].
Theorem interrupted_refuted : exists copies d, let w' := snd (load the_net (the_parse None) the_md5 copies nm w0) in In d (w_seen w') /\
  forall net parse md5 copies' t c x, fst (load net parse md5 copies' nm (World t c d [])) <> Ok x.
Proof.
  exists (fun _ => []). eexists. split; [vm_compute; left; reflexivity|]. intros. eapply left_over_stuck; vm_compute; reflexivity.
Qed.
(** Violation: an answer that is no list (of a hotel's network) replaces the good list in the cache; data sets that are there can then no longer be loaded offline *)
Theorem cache_refuted : exists net w, w_dirs w nm <> None /\ fst (load (fun _ _ => None) (the_parse None) the_md5 (fun _ => []) nm w) = Ok (nm, gz_of nm) /\
  let w' := snd (load net (the_parse None) the_md5 (fun _ => []) nm w) in forall x, fst (load (fun _ _ => None) (the_parse None) the_md5 (fun _ => []) nm w') <> Ok x.
Proof.
  exists (fun _ _ => Some [9%N]), (World 0 (Some [1%N]) (fun k => if eqb k nm then Some [] else None) []). split; [vm_compute; discriminate|]. split; [vm_compute; reflexivity|]. intros w' x. vm_compute. discriminate.
Qed.
(** Violation: an older version of a data set has an entry but cannot be loaded *)
Theorem outdated_refuted : exists witness, witness = nm /\ (fst (info_of the_net (the_parse (Some false)) witness w0) = Ok (the_entry (Some false)) /\ fst (load the_net (the_parse (Some false)) the_md5 (fun _ => []) witness w0) = Err ValueError).
Proof. exists nm. split; [reflexivity|]. vm_compute. split; reflexivity. Qed.
(** Violation: what is in the directory is never checked again *)
Theorem corrupt_refuted : exists w, w_dirs w nm = Some [(gz_of nm, [0%N])] /\ fst (load the_net (the_parse None) the_md5 (fun _ => []) nm w) = Ok (nm, gz_of nm) /\ ~ verified the_md5 (Catalog [(nm, the_entry None)] []) nm [(gz_of nm, [0%N])].
Proof.
  exists (World 0 None (fun k => if eqb k nm then Some [(gz_of nm, [0%N])] else None) []). split; [vm_compute; reflexivity|]. split; [vm_compute; reflexivity|].
  intros (e & n & data & L & P & G & V). destruct L as [L|(L & _)]; [|vm_compute in L; discriminate]. assert (e = the_entry None) as -> by (vm_compute in L; injection L as <-; reflexivity). cbn in P. injection P as <-. cbn in V. vm_compute in G. injection G as <-. discriminate.
Qed.
Example load_x : fst (load the_net (the_parse None) the_md5 (fun _ => []) nm w0) = Ok (nm, gz_of nm) /\
  w_dirs (snd (load the_net (the_parse None) the_md5 (fun _ => []) nm w0)) nm = Some [(s_init, [2%N]); (gz_of nm, [7%N])] /\
  w_dirs (snd (load the_net (the_parse None) the_md5 (fun _ => []) nm w0)) (tmp_of nm) = None /\ length (w_seen (snd (load the_net (the_parse None) the_md5 (fun _ => []) nm w0))) = 2.
Proof. repeat split; vm_compute; reflexivity. Qed.
Example wrong_sum_x : fst (load the_net (the_parse None) (fun b => 0%N :: b) (fun _ => []) nm w0) = Err RuntimeErr.
Proof. reflexivity. Qed.

Print Assumptions only_verified.
Print Assumptions load_present.
Print Assumptions load_offline.
Print Assumptions load_arrives.
Print Assumptions load_failed.
Print Assumptions left_over_stuck.
Print Assumptions interrupted_refuted.
Print Assumptions cache_refuted.
Print Assumptions outdated_refuted.
Print Assumptions corrupt_refuted.
