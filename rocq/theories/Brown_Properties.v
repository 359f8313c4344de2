(** C135: the readers of the Brown corpus *)
From Verif Require Import Base Str Formats_Base LineCorpora_Model LineCorpora_Proofs W2vFormat_Model W2vFormat_Proofs Sentences_Model Sentences_Spec Sentences_Properties Brown_Model.
Local Open Scope nat_scope.

Section Brown.
Context (lower : pystr -> pystr) (alpha : N -> bool).
(** ** What a line ought to give *)
(** A word and its tag, with one "/" between them; the tag begins with letters. *)
Definition word_tag (token w : pystr) : Prop :=
  exists word tag, token = word ++ [47%N] ++ tag /\ ~ In 47%N word /\ ~ In 47%N tag /\ tag <> [] /\ Forall (fun c => alpha c = true) (firstn 2 tag) /\ w = lower word ++ [47%N] ++ firstn 2 tag.
Inductive kept : list pystr -> list pystr -> Prop :=
| kept_nil : kept [] []
| kept_yes : forall t w ts ws, word_tag t w -> kept ts ws -> kept (t :: ts) (w :: ws)
| kept_no : forall t ts ws, (forall w, ~ word_tag t w) -> kept ts ws -> kept (t :: ts) ws.
(** Line [n] of a file gives the words [ws], if there are any. *)
Inductive line_docs {A : Type} (yield : nat -> list pystr -> A) : nat -> list pystr -> list A -> Prop :=
| ld_nil : forall n, line_docs yield n [] []
| ld_none : forall n l ls ds, kept (words is_space l) [] -> line_docs yield (S n) ls ds -> line_docs yield n (l :: ls) ds
| ld_some : forall n l ls ws ds, kept (words is_space l) ws -> ws <> [] -> line_docs yield (S n) ls ds -> line_docs yield n (l :: ls) (yield n ws :: ds).
Inductive dir_docs {A : Type} (yield : pystr -> nat -> list pystr -> A) (dirname : pystr) : list (pystr * option pystr) -> list A -> Prop :=
| dd_nil : dir_docs yield dirname [] []
| dd_other : forall f fs ds, dir_docs yield dirname fs ds -> dir_docs yield dirname ((f, None) :: fs) ds
| dd_file : forall f t fs ds ds', line_docs (yield (os_join dirname f)) 0 (file_lines t) ds -> dir_docs yield dirname fs ds' -> dir_docs yield dirname ((f, Some t) :: fs) (ds ++ ds').
Definition encoded (files : list (pystr * option pystr)) : directory := map (fun f => (fst f, option_map utf8 (snd f))) files.

Lemma split_two : forall t, length (split_on 47%N t) = 2 <-> exists a b, t = a ++ [47%N] ++ b /\ ~ In 47%N a /\ ~ In 47%N b.
Proof.
  intros t. split.
  - intros H. destruct (in_dec eq_dec 47%N t) as [I|I]; [|rewrite split_on_word in H by exact I; discriminate H].
    assert (E : exists a b, t = a ++ 47%N :: b /\ ~ In 47%N a). { clear H. induction t as [|c t IH]; [contradiction|]. destruct (eq_dec c 47%N) as [->|N]; [exists [], t; split; [reflexivity | tauto]|]. destruct I as [->|I]; [congruence|]. destruct (IH I) as (a & b & -> & Ha). exists (c :: a), b. split; [reflexivity|]. intros [K|K]; [congruence | contradiction]. }
    destruct E as (a & b & -> & Ha). rewrite split_on_app in H by exact Ha. exists a, b. split; [reflexivity|]. split; [exact Ha|]. intros K. cbn [length] in H. injection H as H.
    assert (E : exists a b', b = a ++ 47%N :: b' /\ ~ In 47%N a). { clear H. induction b as [|c b IH]; [contradiction|]. destruct (eq_dec c 47%N) as [->|N]; [exists [], b; split; [reflexivity | tauto]|]. destruct K as [->|K]; [congruence|]. destruct IH as (a' & b' & -> & Ha'); [apply in_or_app; right; left; reflexivity | exact K|]. exists (c :: a'), b'. split; [reflexivity|]. intros [Q|Q]; [congruence | contradiction]. }
    destruct E as (a' & b' & -> & Ha'). rewrite split_on_app in H by exact Ha'. cbn [length] in H. injection H as H. pose proof (split_on_nonempty 47%N b') as NE. destruct (split_on 47%N b'); [congruence | discriminate H].
  - intros (a & b & -> & Ha & Hb). cbn [app]. rewrite split_on_app by exact Ha. rewrite split_on_word by exact Hb. reflexivity.
Qed.
Lemma brown_words_kept : forall ts, kept ts (brown_words lower alpha ts).
Proof.
  induction ts as [|t ts IH]; [constructor|]. unfold brown_words. cbn [map filter]. destruct (Nat.eqb_spec (length (split_on 47%N t)) 2) as [E|E].
  - apply split_two in E as (a & b & -> & Ha & Hb). cbn [app]. assert (SP : split_on 47%N (a ++ 47%N :: b) = [a; b]) by (rewrite split_on_app by exact Ha; rewrite split_on_word by exact Hb; reflexivity). rewrite SP. cbn [filter nth].
    destruct (isalpha alpha (firstn 2 b)) eqn:IA.
    + cbn [map nth]. apply kept_yes; [|exact IH]. exists a, b. split; [reflexivity|]. split; [exact Ha|]. split; [exact Hb|]. destruct b as [|c b]; [discriminate IA|]. split; [discriminate|]. split; [|reflexivity]. apply Forall_forall. unfold isalpha in IA. cbn [firstn] in *. rewrite forallb_forall in IA. exact IA.
    + apply kept_no; [|exact IH]. intros w (x & y & Et & Hx & Hy & Ny & Fy & _).
      assert (SQ : split_on 47%N (a ++ 47%N :: b) = [x; y]) by (rewrite Et; cbn [app]; rewrite split_on_app by exact Hx; rewrite split_on_word by exact Hy; reflexivity).
      rewrite SP in SQ. injection SQ as -> ->. destruct y as [|c y]; [congruence|]. cbn [firstn] in *. unfold isalpha in IA. rewrite Forall_forall in Fy. rewrite (proj2 (forallb_forall alpha _) Fy) in IA. discriminate IA.
  - apply kept_no; [|exact IH]. intros w (x & y & -> & Hx & Hy & _). apply E. apply split_two. exists x, y. split; [reflexivity|]. split; assumption.
Qed.
Lemma file_loop_docs : forall {A} (yield : nat -> list pystr -> A) ls n, Forall valid ls -> exists ds, file_loop lower alpha yield n (map utf8 ls) = (ds, Ended) /\ line_docs yield n ls ds.
Proof.
  intros A yield. induction ls as [|l ls IH]; intros n F; [exists []; split; [reflexivity | constructor]|]. inversion F as [|? ? Vl Vls]; subst. destruct (IH (S n) Vls) as (ds & E & D). cbn [map file_loop]. rewrite tokens_of_utf8 by exact Vl. rewrite E.
  pose proof (brown_words_kept (words is_space l)) as K. destruct (brown_words lower alpha (words is_space l)) as [|w ws] eqn:EW.
  - exists ds. split; [reflexivity|]. apply ld_none; assumption.
  - eexists. split; [reflexivity|]. apply ld_some; [exact K | discriminate | exact D].
Qed.
Lemma dir_loop_docs : forall {A} (yield : pystr -> nat -> list pystr -> A) dirname files, Forall (fun f => forall t, snd f = Some t -> valid t) files ->
  exists ds, dir_loop lower alpha yield dirname (encoded files) = (ds, Ended) /\ dir_docs yield dirname files ds.
Proof.
  intros A yield dirname. induction files as [|[f [t|]] files IH]; intros F; [exists []; split; [reflexivity | constructor] | |]; inversion F as [|? ? Hv Fv]; subst; destruct (IH Fv) as (ds & E & D); cbn [encoded map fst snd option_map dir_loop]; fold (encoded files).
  - rewrite file_lines_utf8. destruct (file_loop_docs (yield (os_join dirname f)) (file_lines t) 0) as (ls & E' & D'); [apply valid_lines, Hv; reflexivity|]. rewrite E', E. eexists. split; [reflexivity|]. constructor; assumption.
  - exists ds. split; [exact E | constructor; exact D].
Qed.
(** The sentences are the lines with words, file by file; the tagged documents are the same, each with the path of its file and the number of its line. *)
Theorem brown_sentences : forall (dirname : pystr) (files : list (pystr * option pystr)), Forall (fun f => forall t, snd f = Some t -> valid t) files ->
  exists ss ds, brown lower alpha dirname (encoded files) = (ss, Ended) /\ tagged_brown lower alpha dirname (encoded files) = (ds, Ended) /\ map fst ds = ss /\ Forall (fun s => s <> []) ss /\
    dir_docs (fun path n ws => (ws, path ++ str "_SENT_" ++ show_nat n)) dirname files ds.
Proof.
  intros dirname files F. destruct (dir_loop_docs (fun (path : pystr) n ws => (ws, tag_of path n)) dirname files F) as (ds & E & D).
  exists (map fst ds), ds.
  assert (FL : forall ls n path, file_loop lower alpha (fun _ ws => ws) n ls = (map fst (fst (file_loop lower alpha (fun n ws => (ws, tag_of path n)) n ls)), snd (file_loop lower alpha (fun n ws => (ws, tag_of path n)) n ls))).
  { induction ls as [|l ls IH]; intros n path; [reflexivity|]. cbn [file_loop]. destruct (tokens_of l) as [ts|]; [|reflexivity]. rewrite (IH (S n) path). destruct (file_loop lower alpha (fun n ws => (ws, tag_of path n)) (S n) ls) as [ys e]. cbn [fst snd]. destruct (brown_words lower alpha ts); reflexivity. }
  assert (DL : forall dir, dir_loop lower alpha (fun _ _ ws => ws) dirname dir = (map fst (fst (dir_loop lower alpha (fun path n ws => (ws, tag_of path n)) dirname dir)), snd (dir_loop lower alpha (fun path n ws => (ws, tag_of path n)) dirname dir))).
  { induction dir as [|[f [b|]] dir IH]; [reflexivity | | exact IH]. cbn [dir_loop]. rewrite (FL (file_lines b) 0 (os_join dirname f)). destruct (file_loop lower alpha (fun n ws => (ws, tag_of (os_join dirname f) n)) 0 (file_lines b)) as [ys e]. cbn [fst snd]. destruct e; [|reflexivity..]. rewrite IH. destruct (dir_loop lower alpha (fun path n ws => (ws, tag_of path n)) dirname dir) as [zs e]. cbn [fst snd]. rewrite map_app. reflexivity. }
  split; [unfold brown; rewrite DL; unfold tagged_brown in E; rewrite E; reflexivity|]. split; [exact E|]. split; [reflexivity|]. split; [|exact D].
  clear -D. assert (LN : forall path n ls xs, line_docs (fun n ws => (ws, tag_of path n)) n ls xs -> Forall (fun s => s <> []) (map fst xs)). { intros path n ls xs H. induction H; cbn [map fst]; [constructor | assumption | constructor; assumption]. }
  induction D as [| |f t fs ds ds' H D IH]; [constructor | assumption|]. rewrite map_app. apply Forall_app. split; [exact (LN _ _ _ _ H) | exact IH].
Qed.

(** ** Tags *)
Lemma tag_inj : forall p n p' n', tag_of p n = tag_of p' n' -> p = p' /\ n = n'.
Proof.
  intros p n p' n' E. unfold tag_of in E. change (str "_SENT_") with ((str "_SENT") ++ [95%N]) in E. rewrite <- !app_assoc in E. rewrite !(app_assoc _ (str "_SENT")) in E. cbn [app] in E.
  assert (Q : forall (a b u v : pystr), ~ In 95%N u -> ~ In 95%N v -> a ++ 95%N :: u = b ++ 95%N :: v -> a = b /\ u = v).
  { clear. induction a as [|x a IH]; intros [|y b] u v Hu Hv E; cbn [app] in E.
    - injection E as ->. split; reflexivity.
    - injection E as <- ->. exfalso. apply Hu. apply in_or_app. right. left. reflexivity.
    - injection E as -> <-. exfalso. apply Hv. apply in_or_app. right. left. reflexivity.
    - injection E as -> E. destruct (IH b u v Hu Hv E) as (-> & ->). split; reflexivity. }
  assert (ND : forall k, ~ In 95%N (show_nat k)) by (intros k K; pose proof (show_nat_digits k) as D; rewrite Forall_forall in D; specialize (D _ K); discriminate D).
  destruct (Q _ _ _ _ (ND n) (ND n') E) as (E1 & E2). apply app_inv_tail in E1. split; [exact E1 | apply show_nat_inj, E2].
Qed.
Lemma os_join_inj : forall d f g, os_join d f = os_join d g -> f = g.
Proof.
  intros d f g E. unfold os_join in E. destruct (rev d) as [|c r]; [exact E|]. destruct (N.eqb c 47); [exact (app_inv_head _ _ _ E)|]. rewrite !app_assoc in E. exact (app_inv_head _ _ _ E).
Qed.
Lemma line_tags : forall path ls n ds, line_docs (fun n ws => (ws, tag_of path n)) n ls ds -> NoDup (map snd ds) /\ forall t, In t (map snd ds) -> exists k, n <= k /\ t = tag_of path k.
Proof.
  intros path ls n ds H. induction H as [n|n l ls ds K H IH|n l ls ws ds K NE H IH]; cbn [map snd].
  - split; [constructor | intros t []].
  - destruct IH as (N & T). split; [exact N|]. intros t Ht. destruct (T t Ht) as (k & L & ->). exists k. split; [lia | reflexivity].
  - destruct IH as (N & T). split.
    + constructor; [|exact N]. intros I. destruct (T _ I) as (k & L & E). apply tag_inj in E as (_ & E). lia.
    + intros t [<-|Ht]; [exists n; split; [lia | reflexivity]|]. destruct (T t Ht) as (k & L & ->). exists k. split; [lia | reflexivity].
Qed.
(** Different files of a directory have different names, so no two documents have the same tag. *)
Theorem brown_tags_distinct : forall (dirname : pystr) (files : list (pystr * option pystr)) (ds : list (list pystr * pystr)), Forall (fun f => forall t, snd f = Some t -> valid t) files -> NoDup (map fst files) ->
  tagged_brown lower alpha dirname (encoded files) = (ds, Ended) -> NoDup (map snd ds).
Proof.
  intros dirname files ds F N E. destruct (dir_loop_docs (fun (path : pystr) n ws => (ws, tag_of path n)) dirname files F) as (ds' & E' & D). unfold tagged_brown in E. rewrite E' in E. injection E as ->. clear E' F.
  assert (T : NoDup (map snd ds) /\ forall t, In t (map snd ds) -> exists f k, In f (map fst files) /\ t = tag_of (os_join dirname f) k); [|exact (proj1 T)].
  induction D as [|f fs ds D IH|f t fs ds ds' L D IH]; cbn [map fst] in *.
  - split; [constructor | intros t []].
  - inversion N; subst. destruct IH as (N' & T); [assumption|]. split; [exact N'|]. intros t Ht. destruct (T t Ht) as (g & k & I & E). exists g, k. split; [right; exact I | exact E].
  - inversion N as [|? ? Nf Nfs]; subst. destruct (IH Nfs) as (N' & T). destruct (line_tags _ _ _ _ L) as (N1 & T1). rewrite map_app. split.
    + clear -N1 T1 N' T Nf. induction (map snd ds) as [|x l IHl]; [exact N'|]. cbn [app]. inversion N1; subst. constructor; [|apply IHl; [assumption | intros t Ht; apply T1; right; exact Ht]].
      intros I. apply in_app_or in I as [I|I]; [contradiction|]. destruct (T1 x (or_introl eq_refl)) as (k & _ & ->). destruct (T _ I) as (g & k' & Ig & E). apply tag_inj in E as (E & _). apply os_join_inj in E. subst g. contradiction.
    + intros x Hx. apply in_app_or in Hx as [Hx|Hx]; [destruct (T1 x Hx) as (k & _ & ->); exists f, k; split; [left; reflexivity | reflexivity]|]. destruct (T x Hx) as (g & k & I & E). exists g, k. split; [right; exact I | exact E].
Qed.
(** A line that is not UTF-8: what came before it is given, then an exception. *)
Theorem brown_bad_line : forall (dirname : pystr) (files : list (pystr * option pystr)) (f : pystr) (ls : list pystr) (l : list N) (rest : list (list N)) (more : directory), Forall (fun f => forall t, snd f = Some t -> valid t) files -> Forall valid ls -> utf8_decode l = None ->
  forall bytes, file_lines bytes = map utf8 ls ++ l :: rest ->
  exists ss ss', brown lower alpha dirname (encoded files) = (ss, Ended) /\ line_docs (fun _ ws => ws) 0 ls ss' /\ brown lower alpha dirname (encoded files ++ (f, Some bytes) :: more) = (ss ++ ss', Raised UnicodeErr).
Proof.
  intros dirname files f ls l rest more F V B bytes EB. destruct (dir_loop_docs (fun (_ : pystr) (_ : nat) (ws : list pystr) => ws) dirname files F) as (ss & E & _).
  assert (FL : forall ls n, Forall valid ls -> exists ss', line_docs (fun _ ws => ws) n ls ss' /\ file_loop lower alpha (fun _ ws => ws) n (map utf8 ls ++ l :: rest) = (ss', Raised UnicodeErr)).
  { clear ls V EB. induction ls as [|x ls IH]; intros n V.
    - exists []. split; [constructor|]. cbn [map app file_loop]. unfold tokens_of. rewrite B. reflexivity.
    - inversion V as [|? ? Vx Vl]; subst. destruct (IH (S n) Vl) as (ss' & D & E'). cbn [map app file_loop]. rewrite tokens_of_utf8 by exact Vx. rewrite E'. pose proof (brown_words_kept (words is_space x)) as K. destruct (brown_words lower alpha (words is_space x)) as [|w ws] eqn:EW; [exists ss' | exists ((w :: ws) :: ss')]; (split; [|reflexivity]); [apply ld_none; assumption | apply (ld_some (fun (_ : nat) (ws : list pystr) => ws)); [exact K | discriminate | exact D]]. }
  destruct (FL ls 0 V) as (ss' & D & E'). exists ss, ss'. split; [exact E|]. split; [exact D|]. unfold brown in *.
  revert ss E. induction files as [|[g [t|]] files IH]; intros ss E; cbn [encoded map fst snd option_map app dir_loop] in *.
  - injection E as <-. rewrite EB, E'. reflexivity.
  - fold (encoded files) in *. inversion F; subst. destruct (file_loop lower alpha (fun _ ws => ws) 0 (file_lines (utf8 t))) as [ys e]. destruct e; [|discriminate E..]. destruct (dir_loop lower alpha (fun _ _ ws => ws) dirname (encoded files)) as [zs e] eqn:ED. injection E as <- ->. rewrite (IH H2 zs eq_refl). rewrite app_assoc. reflexivity.
  - fold (encoded files) in *. inversion F; subst. apply IH; assumption.
Qed.
End Brown.
Print Assumptions brown_sentences.
Print Assumptions brown_tags_distinct.
Print Assumptions brown_bad_line.

Definition low (s : pystr) : pystr := map (fun c => if ((65 <=? c) && (c <=? 90))%N then (c + 32)%N else c) s.
Definition letter (c : N) : bool := ((65 <=? c) && (c <=? 90) || (97 <=? c) && (c <=? 122))%N.
Definition ca01 : pystr := str "The/at Jury/nn-tl ,/, said/vbd" ++ [10%N] ++ [10%N] ++ str "./. No/rb" ++ [10%N].
Example brown_ex : tagged_brown low letter (str "brown") [(str "ca01", Some ca01); (str "sub", None); (str "ca02", Some (str "End/nn"))] =
  ([(map str ["the/at"; "jury/nn"; "said/vb"]%string, str "brown/ca01_SENT_0"); (map str ["no/rb"]%string, str "brown/ca01_SENT_2"); (map str ["end/nn"]%string, str "brown/ca02_SENT_0")], Ended).
Proof. vm_compute. reflexivity. Qed.
(** A word with a slash is left out without notice. *)
Theorem brown_slash_refuted : exists witness, witness = str "him/her/ppo saw/vbd" /\ (brown low letter (str "brown") [(str "ca01", Some witness)] = ([[str "saw/vb"]], Ended)).
Proof. exists (str "him/her/ppo saw/vbd"). split; [reflexivity|]. vm_compute. reflexivity. Qed.
(** The order of the sentences is that of [os.listdir], which is arbitrary; [PathLineSentences] sorts. *)
Theorem brown_order_refuted : exists dir dir', Permutation dir dir' /\ brown low letter (str "b") dir <> brown low letter (str "b") dir'.
Proof.
  exists [(str "1", Some (str "A/nn")); (str "2", Some (str "B/nn"))], [(str "2", Some (str "B/nn")); (str "1", Some (str "A/nn"))]. split; [constructor|]. vm_compute. discriminate.
Qed.
(** An empty word before the tag counts as a word. *)
Theorem brown_empty_word_refuted : exists witness, witness = str "/nn" /\ (brown low letter (str "brown") [(str "ca01", Some witness)] = ([[str "/nn"]], Ended)).
Proof. exists (str "/nn"). split; [reflexivity|]. vm_compute. reflexivity. Qed.
Print Assumptions brown_slash_refuted.
Print Assumptions brown_order_refuted.
Print Assumptions brown_empty_word_refuted.
