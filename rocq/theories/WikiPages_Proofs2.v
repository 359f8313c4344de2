(** Dumps of wiki pages. *)
From Coq Require Import ZifyBool ZifyNat ZifyN.
From Verif Require Import Base Str Text_Model Utils_Model Utils_Properties Regex_Model Wiki_Spec Regex_Proofs Wiki_Model Dictionary_Model WikiPages_Model WikiPages_Spec WikiPages_Proofs.
Local Open Scope nat_scope.

Fixpoint elem_ind' (P : elem -> Prop) (H : forall t x ks, Forall P ks -> P (Elem t x ks)) (e : elem) : P e :=
  match e with Elem t x ks => H t x ks ((fix go (l : list elem) : Forall P l := match l with [] => Forall_nil P | k :: l' => Forall_cons k (elem_ind' P H k) (go l') end) ks) end.

(** ** Reading below an element *)
Section Ns.
Context (ns : pystr).
Definition q (n : String.string) : pystr := qualified ns (str n).
Lemma is_tag_q : forall n e, is_tag ns n e <-> e_tag e = q n.
Proof. intros n e. reflexivity. Qed.
Lemma first_some_child : forall {B} (f : elem -> option B) (n : String.string) (e k : elem) y, first_child ns n e k -> f k = Some y -> first_some (fun k => if eqb (e_tag k) (q n) then f k else None) (e_kids e) = Some y.
Proof.
  intros B f n e k y (a & b & E & T & F) Y. rewrite E. clear E. induction F as [|x a X F IH]; cbn [app first_some].
  - unfold eqb at 1. destruct (eq_dec (e_tag k) (q n)) as [_|K]; [rewrite Y; reflexivity | exfalso; apply K; exact T].
  - unfold eqb at 1. destruct (eq_dec (e_tag x) (q n)) as [K|_]; [exfalso; apply X, is_tag_q, K | exact IH].
Qed.
Lemma find1 : forall n e k, first_child ns n e k -> find_text [q n] e = Ok (e_text k).
Proof. intros n e k F. unfold find_text. cbn [find]. rewrite (first_some_child (fun k => Some k) n e k k F eq_refl). reflexivity. Qed.
Lemma find2 : forall n n' e k k', first_child ns n e k -> first_child ns n' k k' -> find_text [q n; q n'] e = Ok (e_text k').
Proof.
  intros n n' e k k' F F'. unfold find_text. cbn [find]. rewrite (first_some_child (fun k => first_some (fun k0 => if eqb (e_tag k0) (q n') then Some k0 else None) (e_kids k)) n e k k' F); [reflexivity|].
  apply (first_some_child (fun k => Some k) n' k k' k' F' eq_refl).
Qed.

(** ** The pages of a dump *)
Let pt : pystr := q "page".
Lemma is_page : forall e, is_tag ns "page" e <-> eqb (e_tag e) pt = true.
Proof. intros e. rewrite is_tag_q. unfold eqb, pt. destruct (eq_dec (e_tag e) (q "page")) as [K|K]; split; intros H; congruence. Qed.
Lemma not_page : forall e, ~ is_tag ns "page" e -> eqb (e_tag e) pt = false.
Proof. intros e H. destruct (eqb (e_tag e) pt) eqn:E; [exfalso; apply H, is_page, E | reflexivity]. Qed.
Lemma prune_id : forall e, (forall x, within x e -> ~ is_tag ns "page" x) -> prune pt e = e.
Proof.
  induction e as [t x ks IH] using elem_ind'. intros H. cbn [prune]. pose proof (not_page _ (H _ (in_self _))) as E. cbn [e_tag] in E. rewrite E. f_equal.
  rewrite <- (map_id ks) at 2. apply map_ext_in. intros k I. rewrite Forall_forall in IH. apply (IH k I). intros y W. apply H. apply (in_kid y (Elem t x ks) k I W).
Qed.
Definition pages (l : list elem) : list elem := filter (fun e => eqb (e_tag e) pt) l.
Lemma pages_app : forall a b, pages (a ++ b) = pages a ++ pages b.
Proof. intros a b. unfold pages. induction a as [|x a IH]; [reflexivity|]. cbn [app filter]. destruct (eqb (e_tag x) pt); rewrite IH; reflexivity. Qed.
Lemma pages_concat_none : forall ks, Forall (fun k => pages (ends pt k) = []) ks -> pages (concat (map (ends pt) ks)) = [].
Proof. intros ks F. induction F as [|k ks H F IH]; [reflexivity|]. cbn [map concat]. rewrite pages_app, H, IH. reflexivity. Qed.
Lemma ends_other : forall e, (forall x, within x e -> ~ is_tag ns "page" x) -> pages (ends pt e) = [].
Proof.
  induction e as [t x ks IH] using elem_ind'. intros H. cbn [ends]. rewrite pages_app. pose proof (not_page _ (H _ (in_self _))) as E. cbn [e_tag] in E. unfold pages at 2. cbn [filter e_tag]. rewrite E, app_nil_r.
  apply pages_concat_none. rewrite Forall_forall in IH |- *. intros k I. apply (IH k I). intros y W. apply H. apply (in_kid y (Elem t x ks) k I W).
Qed.
Lemma ends_page : forall e, is_tag ns "page" e -> (forall k x, In k (e_kids e) -> within x k -> ~ is_tag ns "page" x) -> pages (ends pt e) = [e].
Proof.
  intros [t x ks] T H. cbn [ends e_kids] in *. rewrite pages_app. apply is_page in T. cbn [e_tag] in T. unfold pages at 2. cbn [filter e_tag]. rewrite T.
  rewrite pages_concat_none by (apply Forall_forall; intros k I; apply ends_other; intros y W; apply (H k y I W)). cbn [app]. f_equal. f_equal.
  rewrite <- (map_id ks) at 2. apply map_ext_in. intros k I. apply prune_id. intros y W. apply (H k y I W).
Qed.
Lemma listed_pages : forall es ps, listed ns es ps -> pages (concat (map (ends pt) es)) = map p_elem ps /\ Forall (page_of ns) ps.
Proof.
  intros es ps L. induction L as [|e es ps H L (IH1 & IH2)|p es ps H L (IH1 & IH2)]; [split; [reflexivity | constructor]| |]; cbn [map concat]; rewrite pages_app, IH1.
  - rewrite ends_other by exact H. split; [reflexivity | exact IH2].
  - destruct H as (H1 & H2 & H3 & H4 & H5 & H6). rewrite ends_page by assumption. split; [reflexivity|]. constructor; [|exact IH2]. repeat split; assumption.
Qed.
Lemma leaf_first : forall e x, first_leaf e x -> first_tag e = e_tag x /\ e_kids x = [] /\ exists l, ends pt e = x :: l.
Proof.
  intros e x L. induction L as [[t x ks] K|[t x ks] k ks' y K L (IH1 & IH2 & l & IH3)]; cbn [e_kids] in K; subst ks.
  - split; [reflexivity|]. split; [reflexivity|]. exists []. reflexivity.
  - split; [exact IH1|]. split; [exact IH2|]. cbn [ends map concat]. rewrite IH3. eexists. reflexivity.
Qed.
Lemma namespace_read : forall n e, (exists v, ns = str "http://www.mediawiki.org/xml/export-" ++ v) -> ~ In 125%N ns -> ~ In 10%N ns -> is_tag ns n e -> get_namespace (e_tag e) = Ok ns.
Proof.
  intros n e (v & V) C NL T. unfold get_namespace. assert (M : exists x, m1 RE_NS [] (e_tag e) = Some x /\ group 1 x = ns).
  { unfold is_tag in T. rewrite T. unfold m1, RE_NS. cbn [seq]. rewrite m_cat. cbn [app]. rewrite ch_ok, m_cat. cbn [m]. eexists. split.
    - unfold lazy, dot. apply (lazy_first _ ns (125%N :: str n)).
      + apply Forall_forall. intros z I. destruct (N.eqb_spec z nl) as [->|]; [exfalso; exact (NL I) | reflexivity].
      + intros u1 u2 E NE. destruct u2 as [|z u2]; [congruence|]. cbn [app]. unfold grab. cbn [back ahead caps]. apply ch_fail. cbn [begins]. destruct (N.eqb_spec 125 z) as [<-|]; [|reflexivity]. exfalso. apply C. rewrite E. apply in_or_app. right. left. reflexivity.
      + unfold grab. cbn [back ahead caps]. rewrite ch_ok. reflexivity.
    - unfold group, dget_or. cbn [caps dget]. destruct (eq_dec 1 1); [|congruence]. apply taken_app. reflexivity. }
  destruct M as (x & M & G). rewrite M, G. destruct (begins EXPORT ns) eqn:B; [reflexivity|]. exfalso. assert (B' : begins EXPORT ns = true) by (apply begins_iff; exists v; exact V). congruence.
Qed.
Lemma dump_pages : forall root ps, dump ns root ps -> pages_of root = Ok (ns, map p_elem ps) /\ Forall (page_of ns) ps.
Proof.
  intros root ps (NP & NE & L & (x & n & F & T) & V & C & NL). destruct (listed_pages _ _ L) as (P1 & P2). split; [|exact P2]. destruct (leaf_first _ _ F) as (F1 & F2 & l & F3).
  unfold pages_of. rewrite F1, (namespace_read n x V C NL T). cbn [rbind]. f_equal. f_equal. fold (q "page"). fold pt. fold (pages (tl (ends pt root))).
  assert (A : pages (ends pt root) = map p_elem ps). { destruct root as [t y ks]. cbn [ends e_kids] in *. rewrite pages_app, P1. pose proof (not_page _ NP) as E. cbn [e_tag] in E. unfold pages. cbn [filter e_tag]. rewrite E, app_nil_r. reflexivity. }
  rewrite F3 in A |- *. cbn [tl]. unfold pages in A |- *. cbn [filter] in A. destruct (eqb (e_tag x) pt) eqn:X; [|exact A]. exfalso.
  assert (I : In x (map p_elem ps)) by (rewrite <- A; left; reflexivity). apply in_map_iff in I as (p & <- & I). rewrite Forall_forall in P2. destruct (P2 p I) as (_ & (k & (a & b & K & _) & _) & _). rewrite F2 in K. destruct a; discriminate K.
Qed.

(** ** Entries *)
Definition ns_ok (nss : list pystr) (p : page) : bool := match nss with [] => true | _ => match p_ns p with Some n => memb n nss | None => false end end.
Definition wantedb (nss : list pystr) (f : option article_filter) (p : page) : bool :=
  ns_ok nss p && match f with Some g => g (p_elem p) (Some (p_title p)) (p_text p) | None => true end.
Lemma wantedb_iff : forall nss f p, wantedb nss f p = true <-> wanted nss f p.
Proof.
  intros nss f p. unfold wantedb, wanted. rewrite Bool.andb_true_iff. assert (A : ns_ok nss p = true <-> (nss = [] \/ exists n, p_ns p = Some n /\ In n nss)).
  { unfold ns_ok. destruct nss as [|n0 nss]; [split; [left; reflexivity | reflexivity]|]. destruct (p_ns p) as [n|]; split.
    - intros H. right. exists n. split; [reflexivity | apply memb_true, H].
    - intros [E|(n' & E & I)]; [discriminate E|]. injection E as ->. apply memb_true, I.
    - discriminate.
    - intros [E|(n' & E & _)]; discriminate E. }
  rewrite A. destruct f as [g|]; [tauto|]. split; intros (H1 & H2); split; auto.
Qed.
Definition entry (nss : list pystr) (f : option article_filter) (p : page) : option pystr * pystr * option pystr :=
  (Some (p_title p), if wantedb nss f p then page_text p else [], p_id p).
Lemma extract_entry : forall nss f p, page_of ns p -> extract_page nss f ns (p_elem p) = Ok (entry nss f p).
Proof.
  intros nss f p (_ & (k1 & T1 & E1) & (k2 & T2 & E2) & (k3 & T3 & E3) & (r & k4 & T4 & T5 & E4) & _). unfold extract_page. fold (q "title") (q "revision") (q "text") (q "ns") (q "id").
  rewrite (find1 _ _ _ T1), (find2 _ _ _ _ _ T4 T5), (find1 _ _ _ T2), (find1 _ _ _ T3), E1, E2, E3, E4. cbn [rbind]. unfold entry, wantedb, ns_ok, page_text.
  destruct nss as [|n0 nss]; cbn [rbind]; [destruct f as [g|]; [destruct (g (p_elem p) (Some (p_title p)) (p_text p)); reflexivity | reflexivity]|].
  destruct (p_ns p) as [n|]; cbn [rbind andb]; [destruct (memb n (n0 :: nss)); cbn [andb]|]; destruct f as [g|]; try reflexivity.
  - destruct (g (p_elem p) (Some (p_title p)) (p_text p)); reflexivity.
  - destruct (g (p_elem p) (Some (p_title p)) None); reflexivity.
  - destruct (g (p_elem p) (Some (p_title p)) None); reflexivity.
Qed.
Lemma rmapM_pages : forall {B} (f : elem -> result B) g ps, Forall (page_of ns) ps -> (forall p, page_of ns p -> f (p_elem p) = Ok (g p)) -> rmapM f (map p_elem ps) = Ok (map g ps).
Proof. intros B f g ps F H. induction F as [|p ps P F IH]; [reflexivity|]. cbn [map rmapM]. rewrite (H p P), IH. reflexivity. Qed.
Lemma extract_entries : forall root ps nss f, dump ns root ps -> extract_pages root nss f = Ok (map (entry nss f) ps).
Proof. intros root ps nss f D. destruct (dump_pages root ps D) as (E & F). unfold extract_pages. rewrite E. cbn [rbind]. apply rmapM_pages; [exact F|]. intros p P. apply extract_entry, P. Qed.
End Ns.

Definition no_articleb (t : pystr) : bool := existsb (fun i => begins (i ++ str ":") t) IGNORED_NAMESPACES.
Lemma no_article_iff : forall t, no_articleb t = true <-> no_article t.
Proof.
  intros t. unfold no_articleb, no_article. assert (E : not_articles = map (fun i => i ++ str ":") IGNORED_NAMESPACES) by reflexivity. rewrite E, existsb_exists. split.
  - intros (i & I & B). apply begins_iff in B as (u & ->). exists (i ++ str ":"), u. split; [apply (in_map (fun i => i ++ str ":")), I | reflexivity].
  - intros (j & u & I & ->). apply in_map_iff in I as (i & <- & I). exists i. split; [exact I|]. apply begins_iff. exists u. reflexivity.
Qed.
Lemma rfold_collect : forall {A B} (step : list B -> A -> result (list B)) (keep : A -> bool) (f : A -> B), (forall got a, step got a = Ok (if keep a then got ++ [f a] else got)) ->
  forall l got, rfold step l got = Ok (got ++ map f (filter keep l)).
Proof.
  intros A B step keep f H. induction l as [|a l IH]; intros got; cbn [rfold filter map]; [rewrite app_nil_r; reflexivity|]. rewrite H. cbn [rbind]. destruct (keep a); rewrite IH; [cbn [map]; rewrite <- app_assoc|]; reflexivity.
Qed.
