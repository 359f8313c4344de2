(** Proofs about the Matrix Market model. *)

From Verif Require Import Base Str Matutils_Model Formats_Base MmCorpus_Model.
From Coq Require Import ZifyBool ZifyNat ZifyN.
Local Open Scope Z_scope.

Lemma In_last : forall {A} (l : list A) d, l <> [] -> In (last l d) l.
Proof.
  induction l as [|a l IH]; intros d NE; [congruence|]. destruct l as [|b l]; [left; reflexivity|].
  right. apply (IH d). discriminate.
Qed.

Lemma StronglySorted_last_max : forall {A} (R : A -> A -> Prop) l d x, (forall a, R a a) ->
  StronglySorted R l -> In x l -> R x (last l d).
Proof.
  intros A R l d x Rr. induction l as [|a l IH]; intros S HI; [destruct HI|].
  inversion S; subst. destruct l as [|b l].
  - destruct HI as [<-|[]]. apply Rr.
  - change (last (a :: b :: l) d) with (last (b :: l) d). destruct HI as [<-|HI]; [|auto].
    rewrite Forall_forall in H2. apply H2. apply In_last. discriminate.
Qed.

Lemma zrange_length : forall a b, length (zrange a b) = Z.to_nat (b - a).
Proof. intros. unfold zrange. rewrite map_length, seq_length. reflexivity. Qed.

Lemma zrange_nil : forall a b, b <= a -> zrange a b = [].
Proof. intros. unfold zrange. replace (Z.to_nat (b - a)) with 0%nat by lia. reflexivity. Qed.

Lemma zrange_snoc : forall a b, a <= b -> zrange a (b + 1) = zrange a b ++ [b].
Proof.
  intros. unfold zrange. replace (Z.to_nat (b + 1 - a)) with (S (Z.to_nat (b - a))) by lia.
  rewrite seq_S, map_app. cbn [map]. do 2 f_equal. lia.
Qed.

Lemma zrange_cons : forall a b, a < b -> zrange a b = a :: zrange (a + 1) b.
Proof.
  intros. unfold zrange. replace (Z.to_nat (b - a)) with (S (Z.to_nat (b - (a + 1)))) by lia.
  cbn [seq map]. rewrite <- seq_shift, map_map. f_equal; [lia|]. apply map_ext. intros; lia.
Qed.

Section Mm.
Context {W : Type} (F : wfmt W).
Local Notation doc := (list (Z * W)).

(** The entries a document is stored with. *)
Definition kept (d : doc) : doc := isort (pair_leb F) (filter (fun p => w_keep F (snd p)) d).

Definition id_le (a b : Z * W) : Prop := fst a <= fst b.

Lemma insert_ids : forall x l, StronglySorted id_le l -> StronglySorted id_le (insert (pair_leb F) x l).
Proof.
  induction l as [|y l IH]; cbn [insert]; intros S; [repeat constructor|].
  inversion S; subst. destruct (pair_leb F x y) eqn:E.
  - assert (L : fst x <= fst y) by (unfold pair_leb in E; lia).
    constructor; [assumption|]. constructor; [exact L|].
    eapply Forall_impl; [|eassumption]. intros a Ha; unfold id_le in *; lia.
  - assert (L : fst y <= fst x) by (unfold pair_leb in E; lia).
    constructor; [auto|]. apply Forall_forall. intros a Ha.
    apply Permutation_in with (l' := x :: l) in Ha; [|apply Permutation_sym, Permutation_insert].
    destruct Ha as [<-|Ha]; [exact L|]. rewrite Forall_forall in H2; auto.
Qed.

Lemma kept_sorted : forall d, StronglySorted id_le (kept d).
Proof. intros. unfold kept. induction (filter _ d); cbn [isort]; [constructor | apply insert_ids; auto]. Qed.

Lemma kept_perm : forall d, Permutation (filter (fun p => w_keep F (snd p)) d) (kept d).
Proof. intros. apply Permutation_isort. Qed.

Lemma In_kept : forall d p, In p (kept d) <-> In p d /\ w_keep F (snd p) = true.
Proof. intros. unfold kept. rewrite In_isort. apply filter_In. Qed.

(** ** What the writer produces *)

Definition mm_text (docno : Z) (p : Z * W) : pystr :=
  show_Z (docno + 1) ++ [chr_sp] ++ show_Z (fst p + 1) ++ [chr_sp] ++ w_show F (snd p).

Lemma mm_line_text : forall k p, mm_line F k p = mm_text k p ++ [chr_nl].
Proof. intros. unfold mm_line, mm_text. rewrite !app_assoc. reflexivity. Qed.

Fixpoint mm_texts (k : Z) (ds : list doc) : list pystr :=
  match ds with [] => [] | d :: r => map (mm_text k) d ++ mm_texts (k + 1) r end.

Definition nl_lines (ls : list pystr) : list pystr := map (fun w => w ++ [chr_nl]) ls.
Definition mm_body (k : Z) (ds : list doc) : pystr := concat (nl_lines (mm_texts k ds)).

Lemma mm_texts_app : forall ds k ds', mm_texts k (ds ++ ds') = mm_texts k ds ++ mm_texts (k + Z.of_nat (length ds)) ds'.
Proof.
  induction ds as [|d ds IH]; intros k ds'; cbn [app mm_texts length].
  - f_equal; lia.
  - rewrite IH, app_assoc. do 2 f_equal; lia.
Qed.

Lemma mm_body_app : forall ds k ds', mm_body k (ds ++ ds') = mm_body k ds ++ mm_body (k + Z.of_nat (length ds)) ds'.
Proof. intros. unfold mm_body, nl_lines. rewrite mm_texts_app, map_app, concat_app. reflexivity. Qed.

Lemma mm_body_one : forall k d, mm_body k [d] = concat (map (mm_line F k) d).
Proof.
  intros. unfold mm_body, nl_lines. cbn [mm_texts]. rewrite app_nil_r, map_map. f_equal.
  apply map_ext. intros; rewrite mm_line_text; reflexivity.
Qed.

Lemma mm_body_nil_iff : forall k d, length (mm_body k [d]) = 0%nat <-> d = [].
Proof.
  intros. rewrite mm_body_one. destruct d as [|p d]; split; intros H; try reflexivity; try discriminate.
  cbn [map concat] in H. rewrite app_length, mm_line_text, app_length in H. cbn [length] in H. lia.
Qed.

(** Offsets: position of the document, except [-1] for an empty document that is not the last one. *)
Fixpoint mm_offs (pos : Z) (k : Z) (ds : list doc) : list Z :=
  match ds with
  | [] => []
  | d :: r => (match d, r with [], _ :: _ => -1 | _, _ => pos end)
              :: mm_offs (pos + Z.of_nat (length (mm_body k [d]))) (k + 1) r
  end.

Lemma mm_offs_length : forall ds pos k, length (mm_offs pos k ds) = length ds.
Proof. induction ds; intros; cbn [mm_offs length]; auto. Qed.

Lemma mm_body_cons : forall k d ds, mm_body k (d :: ds) = mm_body k [d] ++ mm_body (k + 1) ds.
Proof. intros. change (d :: ds) with ([d] ++ ds). rewrite mm_body_app. reflexivity. Qed.

Lemma set_last_cons : forall {A} (a : A) l x, l <> [] -> set_last (a :: l) x = a :: set_last l x.
Proof. intros. unfold set_last. destruct l; [congruence|]. reflexivity. Qed.

Lemma mm_offs_snoc : forall ds pos k d,
  mm_offs pos k (ds ++ [d]) =
  (match last ds [] with
   | [] => match ds with [] => [] | _ => set_last (mm_offs pos k ds) (-1) end
   | _ :: _ => mm_offs pos k ds
   end) ++ [pos + Z.of_nat (length (mm_body k ds))].
Proof.
  induction ds as [|d0 ds IH]; intros pos k d.
  - cbn. destruct d; f_equal; lia.
  - destruct ds as [|d1 ds].
    + cbn [app mm_offs last]. destruct d0 as [|p0 d0].
      * cbn [set_last removelast app]. destruct d; reflexivity.
      * cbn [app]. destruct d; reflexivity.
    + assert (E : mm_offs pos k ((d0 :: d1 :: ds) ++ [d]) =
        (match d0 with [] => -1 | _ => pos end) ::
          mm_offs (pos + Z.of_nat (length (mm_body k [d0]))) (k + 1) ((d1 :: ds) ++ [d])).
      { cbn [app mm_offs]. destruct d0; reflexivity. }
      rewrite E, IH. clear E IH.
      assert (E : mm_offs pos k (d0 :: d1 :: ds) =
        (match d0 with [] => -1 | _ => pos end) ::
          mm_offs (pos + Z.of_nat (length (mm_body k [d0]))) (k + 1) (d1 :: ds)).
      { cbn [mm_offs]. destruct d0; reflexivity. }
      rewrite E. clear E.
      change (last (d0 :: d1 :: ds) []) with (last (d1 :: ds) []).
      rewrite (mm_body_cons k d0 (d1 :: ds)), app_length.
      replace (pos + Z.of_nat (length (mm_body k [d0]) + length (mm_body (k + 1) (d1 :: ds))))
        with (pos + Z.of_nat (length (mm_body k [d0])) + Z.of_nat (length (mm_body (k + 1) (d1 :: ds)))) by lia.
      destruct (last (d1 :: ds) []); [|reflexivity].
      rewrite set_last_cons by (cbn [mm_offs]; discriminate). reflexivity.
Qed.

(** Number of stored entries, and "1 + the largest stored id, or 0". *)
Definition stored (ds : list doc) : list (Z * W) := concat ds.
Definition is_num_terms (es : list (Z * W)) (n : Z) : Prop :=
  0 <= n /\ (forall p, In p es -> fst p + 1 <= n) /\ (n = 0 \/ exists p, In p es /\ fst p + 1 = n).

Definition mm_w0 (hdr : pystr) : mm_wstate :=
  {| ws_content := hdr; ws_last := -1; ws_terms := 0; ws_nnz := 0;
     ws_docno := -1; ws_poslast := -1; ws_offsets := [] |}.

Lemma rfold_app : forall {A S} (f : S -> A -> result S) l l' s,
  rfold f (l ++ l') s = rbind (rfold f l s) (rfold f l').
Proof.
  induction l as [|a l IH]; intros; cbn [app rfold]; [reflexivity|].
  destruct (f s a) as [s'|e]; cbn [rbind]; [apply IH | reflexivity].
Qed.

Lemma mm_write_fold : forall hdr corpus, exists s,
  rfold (mm_write_step F) corpus (mm_w0 hdr) = Ok s /\
  ws_content s = hdr ++ mm_body 0 (map kept corpus) /\
  ws_last s = Z.of_nat (length corpus) - 1 /\
  ws_docno s = Z.of_nat (length corpus) - 1 /\
  ws_nnz s = Z.of_nat (length (stored (map kept corpus))) /\
  is_num_terms (stored (map kept corpus)) (ws_terms s) /\
  ws_offsets s = mm_offs (Z.of_nat (length hdr)) 0 (map kept corpus) /\
  ws_poslast s = (match corpus with
                  | [] => -1
                  | _ => Z.of_nat (length (ws_content s))
                         - Z.of_nat (length (mm_body (Z.of_nat (length corpus) - 1) [last (map kept corpus) []]))
                  end).
Proof.
  intros hdr. induction corpus as [|d corpus IH] using rev_ind.
  - exists (mm_w0 hdr). cbn [rfold map length]. repeat split; try reflexivity.
    + cbn. rewrite app_nil_r; reflexivity.
    + intros p [].
    + left; reflexivity.
  - destruct IH as (s & R & C & La & Dn & Nn & Nt & Of & Pl).
    rewrite rfold_app, R. cbn [rbind rfold]. unfold mm_write_step, mm_write_vector at 1.
    rewrite La, Dn.
    replace (negb (Z.of_nat (length corpus) - 1 <? Z.of_nat (length corpus) - 1 + 1)) with false by lia.
    cbn [rbind]. fold (kept d).
    set (mv := match kept d with [] => (-1, 0) | p :: _ => (fst (last (kept d) p), Z.of_nat (length (kept d))) end).
    assert (Hmv : snd mv = Z.of_nat (length (kept d))).
    { subst mv. destruct (kept d); reflexivity. }
    assert (Hmi : (kept d = [] /\ fst mv = -1) \/
                  ((forall p, In p (kept d) -> fst p <= fst mv) /\ exists p, In p (kept d) /\ fst p = fst mv)).
    { subst mv. pose proof (kept_sorted d) as S. destruct (kept d) as [|p l]; [left; auto|]. right. cbn [fst].
      split.
      - intros q Hq. apply (StronglySorted_last_max id_le _ p q); auto. unfold id_le; intros; lia.
      - exists (last (p :: l) p). split; [apply In_last; discriminate | reflexivity]. }
    destruct mv as [max_id veclen]. cbn [fst snd rbind] in *.
    eexists. split; [reflexivity|]. cbn [ws_content ws_last ws_docno ws_nnz ws_terms ws_offsets ws_poslast].
    rewrite map_app, app_length. cbn [map length].
    assert (Hbody : ws_content s ++ concat (map (mm_line F (Z.of_nat (length corpus) - 1 + 1)) (kept d)) =
            hdr ++ mm_body 0 (map kept corpus ++ [kept d])).
    { rewrite C, mm_body_app, mm_body_one, map_length, app_assoc.
      replace (Z.of_nat (length corpus) - 1 + 1) with (0 + Z.of_nat (length corpus)) by lia. reflexivity. }
    repeat split.
    + exact Hbody.
    + lia.
    + lia.
    + rewrite Nn, Hmv. unfold stored. rewrite concat_app. cbn [concat]. rewrite app_nil_r, app_length. lia.
    + destruct Nt as (A & B & D). lia.
    + unfold stored. rewrite concat_app. cbn [concat]. rewrite app_nil_r.
      destruct Nt as (A & B & D). intros p Hp. apply in_app_or in Hp. destruct Hp as [Hp|Hp].
      * specialize (B _ Hp). lia.
      * destruct Hmi as [[E _]|[M _]]; [rewrite E in Hp; destruct Hp|]. specialize (M _ Hp). lia.
    + unfold stored. rewrite concat_app. cbn [concat]. rewrite app_nil_r.
      destruct Nt as (A & B & D). destruct (Z.max_spec (ws_terms s) (1 + max_id)) as [[L ->]|[L ->]].
      * destruct Hmi as [[E M]|[M (p & Hp & Ep)]].
        -- lia.
        -- right. exists p. split; [apply in_or_app; auto | lia].
      * destruct D as [D|(p & Hp & Ep)]; [auto|]. right. exists p. split; [apply in_or_app; auto | auto].
    + rewrite mm_offs_snoc, <- Of. rewrite Pl.
      assert (Hpos : Z.of_nat (length (ws_content s)) =
              Z.of_nat (length hdr) + Z.of_nat (length (mm_body 0 (map kept corpus)))).
      { rewrite C, app_length. lia. }
      rewrite <- Hpos. f_equal.
      destruct corpus as [|d0 corpus].
      * cbn [map last] in *. replace (_ =? _) with false by lia. cbn in Of. exact Of.
      * pose proof (mm_body_nil_iff (Z.of_nat (length (d0 :: corpus)) - 1) (last (map kept (d0 :: corpus)) [])) as N.
        destruct (last (map kept (d0 :: corpus)) []) as [|p0 l0] eqn:El.
        -- replace (_ =? _) with true by (destruct N as [_ N]; rewrite N by reflexivity; lia). reflexivity.
        -- replace (_ =? _) with false; [reflexivity|]. destruct N as [N _].
           destruct (length (mm_body (Z.of_nat (length (d0 :: corpus)) - 1) [p0 :: l0])) eqn:Eb; [|lia].
           specialize (N eq_refl). discriminate.
    + rewrite Hbody.
      assert (Hl : forall l (x : doc), last (l ++ [x]) [] = x) by (intros; apply last_last).
      rewrite Hl. rewrite C, mm_body_app, !app_length, map_length.
      replace (Z.of_nat (length corpus + 1) - 1) with (0 + Z.of_nat (length corpus)) by lia.
      destruct (corpus ++ [d]) eqn:E; [destruct corpus; discriminate|]. lia.
Qed.

(** ** Reading back *)

Context (dom : W -> Prop) (OK : wfmt_ok F dom).

Definition good_entry (p : Z * W) : Prop := dom (snd p) /\ ll_ok (fst p + 1) = true.

Lemma mm_parse_text : forall k p, ll_ok (k + 1) = true -> good_entry p ->
  mm_parse_line F true (mm_text k p ++ [chr_nl]) = Some (k, fst p, snd p).
Proof.
  intros k [i w] Lk [D Li]. cbn [fst snd] in *. unfold mm_parse_line, mm_text. cbn [fst snd].
  rewrite <- !app_assoc. cbn [app].
  rewrite scan_ll_show; [|exact Lk|right; do 2 eexists; split; [reflexivity | reflexivity]].
  rewrite scan_ll_space by reflexivity.
  rewrite scan_ll_show; [|exact Li|right; do 2 eexists; split; [reflexivity | reflexivity]].
  rewrite (wf_scan F dom OK); [|exact D|right; do 2 eexists; split; [reflexivity | reflexivity]].
  do 3 f_equal; lia.
Qed.

Lemma show_Z_no_nl : forall z, ~ In chr_nl (show_Z z).
Proof. intros. apply show_Z_notin; [reflexivity | discriminate]. Qed.

Lemma w_show_no_nl : forall w, dom w -> ~ In chr_nl (w_show F w).
Proof.
  intros w D HI. pose proof (wf_nospace F dom OK w D) as N. rewrite Forall_forall in N.
  apply N in HI. destruct HI as (E & _). discriminate E.
Qed.

Lemma mm_text_nonl : forall k p, good_entry p -> ~ In chr_nl (mm_text k p).
Proof.
  intros k [i w] [D _]. unfold mm_text. cbn [fst snd] in *. rewrite !in_app_iff. cbn [In].
  pose proof (show_Z_no_nl (k + 1)). pose proof (show_Z_no_nl (i + 1)). pose proof (w_show_no_nl w D).
  assert (chr_sp <> chr_nl) by discriminate. intuition.
Qed.

Lemma mm_texts_nonl : forall ds k, (forall d p, In d ds -> In p d -> good_entry p) ->
  Forall (fun w => ~ In chr_nl w) (mm_texts k ds).
Proof.
  induction ds as [|d ds IH]; intros k G; cbn [mm_texts]; [constructor|].
  apply Forall_app. split.
  - apply Forall_forall. intros t Ht. apply in_map_iff in Ht. destruct Ht as (p & <- & Hp).
    apply mm_text_nonl. apply (G d); simpl; auto.
  - apply IH. intros; apply (G d0); simpl; auto.
Qed.

Lemma mm_loop_same : forall d rest k D, 0 <= k -> ll_ok (k + 1) = true -> (forall p, In p d -> good_entry p) ->
  mm_loop F true (nl_lines (map (mm_text k) d) ++ rest) k (Some D) = mm_loop F true rest k (Some (D ++ d)).
Proof.
  induction d as [|p d IH]; intros rest k D K L G; cbn [map nl_lines app mm_loop].
  - rewrite app_nil_r; reflexivity.
  - unfold nl_lines. cbn [map app mm_loop]. rewrite mm_parse_text by (simpl in G; auto).
    replace (k <=? k) with true by lia. replace (k =? k) with true by lia. cbn [negb].
    fold (nl_lines (map (mm_text k) d)). rewrite IH by (simpl in G; auto).
    rewrite <- app_assoc. cbn [app]. destruct p; reflexivity.
Qed.

Definition pend (p : Z) (D : option doc) : list (Z * doc) :=
  if 0 <=? p then match D with Some d => [(p, d)] | None => [] end else [].

Definition mm_finish (n : Z) (x : list (Z * doc) * result (Z * option doc)) : gen (Z * doc) :=
  let (ys, r) := x in
  match r with
  | Err e => (ys, Some e)
  | Ok (previd, document) => (ys ++ pend previd document ++ empties (previd + 1) n, None)
  end.

Lemma mm_finish_app : forall n ys (x : list (Z * doc) * result (Z * option doc)), mm_finish n (let (ys', r) := x in (ys ++ ys', r)) =
  (ys ++ fst (mm_finish n x), snd (mm_finish n x)).
Proof.
  intros. destruct x as [ys' [[p D]|e]]; cbn [mm_finish fst snd]; [rewrite <- app_assoc|]; reflexivity.
Qed.

Lemma empties_snoc : forall a b, a <= b -> @empties W a (b + 1) = empties a b ++ [(b, [])].
Proof. intros. unfold empties. rewrite zrange_snoc, map_app by auto. reflexivity. Qed.

Lemma mm_loop_docs : forall ds k p D,
  -1 <= p < k -> (0 <= p -> exists d, D = Some d) ->
  ll_ok (k + Z.of_nat (length ds)) = true ->
  (forall d e, In d ds -> In e d -> good_entry e) ->
  mm_finish (k + Z.of_nat (length ds)) (mm_loop F true (nl_lines (mm_texts k ds)) p D) =
  (pend p D ++ empties (p + 1) k ++ combine (zrange k (k + Z.of_nat (length ds))) ds, None).
Proof.
  induction ds as [|d ds IH]; intros k p D P PD L G.
  - cbn [mm_texts nl_lines map mm_loop length mm_finish]. rewrite Z.add_0_r, zrange_nil by lia.
    cbn [combine app]. rewrite app_nil_r. reflexivity.
  - assert (Lk : ll_ok (k + 1) = true).
    { cbn [length] in L. unfold ll_ok, ll_min, ll_max in *. lia. }
    assert (G' : forall d0 e, In d0 ds -> In e d0 -> good_entry e) by (intros; eapply G; [right; eassumption | auto]).
    cbn [mm_texts]. cbn [length] in *.
    replace (k + Z.of_nat (S (length ds))) with ((k + 1) + Z.of_nat (length ds)) in * by lia.
    rewrite (zrange_cons k) by lia. cbn [combine].
    destruct d as [|e d].
    + cbn [map app]. rewrite IH; auto; [|lia].
      rewrite empties_snoc by lia. rewrite <- app_assoc. reflexivity.
    + unfold nl_lines at 1. cbn [map app mm_loop]. rewrite map_app.
      fold (nl_lines (map (mm_text k) d)). fold (nl_lines (mm_texts (k + 1) ds)).
      rewrite mm_parse_text by (auto; apply (G (e :: d)); simpl; auto).
      replace (p <=? k) with true by lia. replace (k =? p) with false by lia. cbn [negb].
      rewrite mm_loop_same; [|lia|auto|intros; apply (G (e :: d)); simpl; auto].
      fold (pend p D). rewrite mm_finish_app. rewrite IH; auto; [|lia|intros _; eexists; reflexivity].
      cbn [fst snd].
      unfold pend at 2. replace (0 <=? k) with true by lia.
      unfold empties at 2. rewrite zrange_nil by lia. cbn [map app].
      rewrite <- app_assoc. destruct e. reflexivity.
Qed.

Lemma combine_snd : forall {A B} (a : list A) (b : list B), length a = length b -> map snd (combine a b) = b.
Proof. induction a; intros [|y b] H; simpl in *; try discriminate; auto. f_equal; auto. Qed.

(** The finished file. *)
Definition mm_file (nd nt nn : Z) (ds : list doc) : pystr :=
  mm_header ++ (mm_stats nd nt nn ++ repeat chr_sp (50 - length (mm_stats nd nt nn)) ++ [chr_nl]) ++ mm_body 0 ds.

Lemma mm_fake_headers_file : forall nd nt nn ds content',
  mm_fake_headers (mm_write_headers ++ mm_body 0 ds) nd nt nn = Ok content' -> content' = mm_file nd nt nn ds.
Proof.
  intros nd nt nn ds content'. unfold mm_fake_headers. destruct (50 <? _) eqn:E; intros H; [discriminate|].
  apply Ok_inj in H. rewrite <- H. clear H. unfold mm_file, mm_write_headers.
  set (st := mm_stats nd nt nn) in *.
  replace (repeat chr_sp 50) with (repeat chr_sp (length st) ++ repeat chr_sp (50 - length st))
    by (rewrite <- repeat_app; f_equal; lia).
  rewrite <- !app_assoc.
  rewrite (overwrite_app mm_header (repeat chr_sp (length st)) st) by (rewrite repeat_length; reflexivity).
  reflexivity.
Qed.

Lemma mm_stats_words : forall nd nt nn k,
  words is_space (mm_stats nd nt nn ++ repeat chr_sp k ++ [chr_nl]) = [show_Z nd; show_Z nt; show_Z nn].
Proof.
  intros. change (mm_stats nd nt nn) with (join [chr_sp] [show_Z nd; show_Z nt; show_Z nn]).
  apply words_join; [reflexivity| |].
  - repeat constructor; try apply show_Z_nonempty; apply show_Z_nospace.
  - apply Forall_app. split; [|repeat constructor]. apply Forall_forall. intros x Hx.
    apply repeat_spec in Hx. subst; reflexivity.
Qed.

Lemma mm_stats_nonl : forall nd nt nn k, ~ In chr_nl (mm_stats nd nt nn ++ repeat chr_sp k).
Proof.
  intros nd nt nn k. unfold mm_stats. rewrite !in_app_iff. cbn [In].
  pose proof (show_Z_no_nl nd). pose proof (show_Z_no_nl nt). pose proof (show_Z_no_nl nn).
  assert (chr_sp <> chr_nl) by discriminate.
  assert (~ In chr_nl (repeat chr_sp k)) by (intros X; apply repeat_spec in X; discriminate X).
  intuition.
Qed.

Lemma show_Z_no_percent : forall z s, startswith [37%N] (show_Z z ++ s) = false.
Proof.
  intros. pose proof (show_Z_chars z) as C. pose proof (show_Z_nonempty z).
  destruct (show_Z z) as [|c r]; [congruence|]. cbn [app startswith]. inversion C; subst.
  destruct H2 as [D| ->]; [|reflexivity]. unfold is_digit in D. rewrite andb_true_r. lia.
Qed.

Lemma mm_file_lines : forall nd nt nn ds, (forall d p, In d ds -> In p d -> good_entry p) ->
  file_lines (mm_file nd nt nn ds) =
  mm_header :: (mm_stats nd nt nn ++ repeat chr_sp (50 - length (mm_stats nd nt nn)) ++ [chr_nl])
            :: nl_lines (mm_texts 0 ds).
Proof.
  intros nd nt nn ds G. unfold mm_file.
  unfold mm_header at 1. rewrite <- app_assoc. cbn [app].
  rewrite file_lines_cons by (intros X; vm_compute in X; intuition discriminate).
  fold mm_header. f_equal.
  rewrite (app_assoc (mm_stats nd nt nn)). rewrite <- app_assoc. cbn [app].
  rewrite file_lines_cons by apply mm_stats_nonl. rewrite <- app_assoc. f_equal.
  unfold mm_body, nl_lines. rewrite file_lines_concat by (apply mm_texts_nonl; auto). reflexivity.
Qed.

Lemma mm_init_file : forall nd nt nn ds, (forall d p, In d ds -> In p d -> good_entry p) ->
  ll_ok nd = true -> ll_ok nt = true -> ll_ok nn = true ->
  mm_init true (mm_file nd nt nn ds) = Ok {| num_docs := nd; num_terms := nt; num_nnz := nn |}.
Proof.
  intros nd nt nn ds G A B C. unfold mm_init. rewrite mm_file_lines by auto.
  replace (startswith _ (ascii_lower (strip is_space mm_header))) with true by (vm_compute; reflexivity).
  cbn [mm_read_stats]. unfold mm_stats at 1. rewrite <- app_assoc, show_Z_no_percent.
  rewrite mm_stats_words. cbn [rmapM]. rewrite !parse_show_Z. cbn [of_option rbind].
  rewrite A, B, C. reflexivity.
Qed.

Lemma mm_iter_file : forall nd nt nn ds h, (forall d p, In d ds -> In p d -> good_entry p) ->
  num_docs h = Z.of_nat (length ds) -> ll_ok (Z.of_nat (length ds)) = true ->
  mm_iter_ids F true h (mm_file nd nt nn ds) = (combine (zrange 0 (Z.of_nat (length ds))) ds, None).
Proof.
  intros nd nt nn ds h G N L. unfold mm_iter_ids. rewrite mm_file_lines by auto.
  cbn [mm_skip_headers]. change (startswith [37%N] mm_header) with true.
  unfold mm_stats at 1. rewrite <- app_assoc, show_Z_no_percent.
  pose proof (mm_loop_docs ds 0 (-1) None) as H. rewrite Z.add_0_l in H.
  specialize (H ltac:(lia) ltac:(lia) L G).
  unfold mm_finish in H. rewrite N.
  destruct (mm_loop F true (nl_lines (mm_texts 0 ds)) (-1) None) as [ys [[p D]|e]]; [|exact H].
  exact H.
Qed.

(** ** Random access *)

Lemma mm_doc_loop_same : forall d rest k D, 0 <= k -> ll_ok (k + 1) = true -> (forall p, In p d -> good_entry p) ->
  mm_doc_loop F true (nl_lines (map (mm_text k) d) ++ rest) k D = mm_doc_loop F true rest k (D ++ d).
Proof.
  induction d as [|p d IH]; intros rest k D K L G.
  - cbn. rewrite app_nil_r; reflexivity.
  - unfold nl_lines. cbn [map app mm_doc_loop]. rewrite mm_parse_text by (simpl in G; auto).
    replace (k <=? k) with true by lia. replace (k =? k) with true by lia. cbn [negb].
    fold (nl_lines (map (mm_text k) d)). rewrite IH by (simpl in G; auto).
    rewrite <- app_assoc. cbn [app]. destruct p; reflexivity.
Qed.

Lemma mm_doc_loop_next : forall ds k j D, 0 <= k < j -> ll_ok (j + Z.of_nat (length ds)) = true ->
  (forall d p, In d ds -> In p d -> good_entry p) ->
  mm_doc_loop F true (nl_lines (mm_texts j ds)) k D = Ok D.
Proof.
  induction ds as [|d ds IH]; intros k j D K L G; [reflexivity|].
  cbn [length] in L. cbn [mm_texts]. destruct d as [|e d].
  - cbn [map app]. apply IH; [lia| |intros; eapply G; [right; eassumption | auto]].
    replace (j + 1 + Z.of_nat (length ds)) with (j + Z.of_nat (S (length ds))) by lia. auto.
  - unfold nl_lines. cbn [map app mm_doc_loop].
    rewrite mm_parse_text; [| |apply (G (e :: d)); simpl; auto].
    + replace (k <=? j) with true by lia. replace (j =? k) with false by lia. replace (0 <=? k) with true by lia.
      reflexivity.
    + unfold ll_ok, ll_min, ll_max in *. lia.
Qed.

Lemma mm_doc_loop_first : forall d ds k, d <> [] -> 0 <= k -> ll_ok (k + 1 + Z.of_nat (length ds)) = true ->
  (forall d' p, In d' (d :: ds) -> In p d' -> good_entry p) ->
  mm_doc_loop F true (nl_lines (mm_texts k (d :: ds))) (-1) [] = Ok d.
Proof.
  intros d ds k NE K L G. destruct d as [|e d]; [congruence|].
  cbn [mm_texts]. unfold nl_lines. cbn [map app mm_doc_loop].
  assert (Lk : ll_ok (k + 1) = true) by (unfold ll_ok, ll_min, ll_max in *; lia).
  rewrite mm_parse_text; [|auto|apply (G (e :: d)); simpl; auto].
  replace (-1 <=? k) with true by lia. replace (k =? -1) with false by lia. cbn [negb app].
  change (0 <=? -1) with false. cbv iota.
  rewrite map_app. fold (nl_lines (map (mm_text k) d)). fold (nl_lines (mm_texts (k + 1) ds)).
  rewrite mm_doc_loop_same; [|lia|auto|intros; apply (G (e :: d)); simpl; auto].
  rewrite mm_doc_loop_next; [|lia|auto|intros; eapply G; [right; eassumption | auto]].
  cbn [app]. destruct e; reflexivity.
Qed.

Lemma mm_offs_nth : forall ds pos k i, (i < length ds)%nat ->
  nth i (mm_offs pos k ds) 0 =
  match nth i ds [] with
  | [] => if (S i =? length ds)%nat then pos + Z.of_nat (length (mm_body k (firstn i ds))) else -1
  | _ :: _ => pos + Z.of_nat (length (mm_body k (firstn i ds)))
  end.
Proof.
  induction ds as [|d ds IH]; intros pos k i L; [simpl in L; lia|].
  destruct i as [|i].
  - cbn [mm_offs nth firstn length]. change (mm_body k []) with (@nil N). cbn [length]. rewrite Z.add_0_r.
    destruct d as [|e d]; [|destruct ds; reflexivity].
    destruct ds; reflexivity.
  - cbn [mm_offs nth firstn length]. cbn [length] in L. rewrite IH by lia.
    rewrite (mm_body_cons k d (firstn i ds)), app_length.
    replace (pos + Z.of_nat (length (mm_body k [d]) + length (mm_body (k + 1) (firstn i ds))))
      with (pos + Z.of_nat (length (mm_body k [d])) + Z.of_nat (length (mm_body (k + 1) (firstn i ds)))) by lia.
    destruct (nth i ds []); [|reflexivity].
    change (S (S i) =? S (length ds))%nat with (S i =? length ds)%nat. reflexivity.
Qed.

Lemma mm_split_at : forall hdr ds i,
  skipn (length hdr + length (mm_body 0 (firstn i ds))) (hdr ++ mm_body 0 ds) =
  mm_body (0 + Z.of_nat (length (firstn i ds))) (skipn i ds).
Proof.
  intros hdr ds i.
  rewrite <- (firstn_skipn i ds) at 2. rewrite mm_body_app.
  set (A := mm_body 0 (firstn i ds)). set (B := mm_body _ (skipn i ds)).
  rewrite app_assoc, <- app_length. apply skipn_length_app.
Qed.

Lemma mm_docbyoffset_at : forall hdr ds i,
  ll_ok (Z.of_nat (length ds)) = true ->
  (forall d p, In d ds -> In p d -> good_entry p) -> (i < length ds)%nat ->
  mm_docbyoffset F true (hdr ++ mm_body 0 ds) (nth i (mm_offs (Z.of_nat (length hdr)) 0 ds) 0) =
  Ok (nth i ds []).
Proof.
  intros hdr ds i L G Li.
  assert (Hfi : length (firstn i ds) = i) by (apply firstn_length_le; lia).
  assert (Hsk : exists r, skipn i ds = nth i ds [] :: r /\ length ds = (i + S (length r))%nat).
  { clear - Li. revert i Li. induction ds as [|d ds IH]; intros i Li; [simpl in Li; lia|].
    destruct i; [exists ds; split; [reflexivity | simpl; lia]|]. simpl in Li.
    destruct (IH i) as (r & E & E'); [lia|]. exists r. split; [exact E | simpl; lia]. }
  destruct Hsk as (r & Esk & Elen).
  assert (G' : forall d p, In d (nth i ds [] :: r) -> In p d -> good_entry p).
  { intros d p Hd Hp. apply (G d); auto. rewrite <- (firstn_skipn i ds), Esk. apply in_or_app; right; auto. }
  rewrite mm_offs_nth by auto.
  assert (Hat : forall pos, pos = Z.of_nat (length hdr) + Z.of_nat (length (mm_body 0 (firstn i ds))) ->
     mm_docbyoffset F true (hdr ++ mm_body 0 ds) pos =
     mm_doc_loop F true (nl_lines (mm_texts (Z.of_nat i) (nth i ds [] :: r))) (-1) []).
  { intros pos ->. unfold mm_docbyoffset.
    replace (_ =? -1) with false by lia. replace (_ <? 0) with false by lia.
    replace (Z.to_nat _) with (length hdr + length (mm_body 0 (firstn i ds)))%nat by lia.
    unfold lines_at. rewrite mm_split_at. rewrite Hfi, Z.add_0_l, Esk.
    unfold mm_body. rewrite file_lines_concat by (apply mm_texts_nonl; auto). reflexivity. }
  destruct (nth i ds []) as [|e d] eqn:En.
  - destruct (S i =? length ds)%nat eqn:El; [|reflexivity].
    rewrite Hat by reflexivity. destruct r; [reflexivity | simpl in Elen; lia].
  - rewrite Hat by reflexivity. apply mm_doc_loop_first; [discriminate|lia| |exact G'].
    replace (Z.of_nat i + 1 + Z.of_nat (length r)) with (Z.of_nat (length ds)) by lia. exact L.
Qed.

Lemma mm_docbyoffset_file : forall nd nt nn ds i, (length (mm_stats nd nt nn) <= 50)%nat ->
  ll_ok (Z.of_nat (length ds)) = true ->
  (forall d p, In d ds -> In p d -> good_entry p) -> (i < length ds)%nat ->
  mm_docbyoffset F true (mm_file nd nt nn ds) (nth i (mm_offs (Z.of_nat (length mm_write_headers)) 0 ds) 0) =
  Ok (nth i ds []).
Proof.
  intros nd nt nn ds i Ls L G Li. unfold mm_file. rewrite app_assoc.
  set (hdr := mm_header ++ _). replace (length mm_write_headers) with (length hdr).
  - apply mm_docbyoffset_at; auto.
  - subst hdr. unfold mm_write_headers. rewrite !app_length, !repeat_length. cbn [length]. lia.
Qed.

(** ** Putting it together *)

Definition hdr_terms (nt : option Z) (terms : Z) : Z :=
  match nt with Some n => if n =? 0 then terms else n | None => terms end.

Lemma mm_write_corpus_inv : forall nt corpus content offsets,
  mm_write_corpus F nt corpus = Ok (content, offsets) ->
  exists terms,
    is_num_terms (stored (map kept corpus)) terms /\
    content = mm_file (Z.of_nat (length corpus)) (hdr_terms nt terms)
                      (Z.of_nat (length (stored (map kept corpus)))) (map kept corpus) /\
    (length (mm_stats (Z.of_nat (length corpus)) (hdr_terms nt terms)
                      (Z.of_nat (length (stored (map kept corpus))))) <= 50)%nat /\
    offsets = mm_offs (Z.of_nat (length mm_write_headers)) 0 (map kept corpus).
Proof.
  intros nt corpus content offsets H. unfold mm_write_corpus in H. fold (mm_w0 mm_write_headers) in H.
  destruct (mm_write_fold mm_write_headers corpus) as (s & R & C & _ & Dn & Nn & Nt & Of & _).
  rewrite R in H. cbn [rbind] in H. exists (ws_terms s). split; [exact Nt|].
  rewrite C, Dn, Nn in H.
  replace (Z.of_nat (length corpus) - 1 + 1) with (Z.of_nat (length corpus)) in H by lia.
  destruct (mm_fake_headers _ _ _ _) as [c|e] eqn:E; cbn [rbind] in H; [|discriminate].
  injection H as <- <-. split; [apply mm_fake_headers_file; exact E|]. split; [|exact Of].
  unfold mm_fake_headers in E. destruct (50 <? _) eqn:E'; [discriminate|]. apply Z.ltb_ge in E'. apply Nat2Z.inj_le. exact E'.
Qed.

Lemma mm_write_corpus_ok : forall nt corpus,
  (exists content offsets, mm_write_corpus F nt corpus = Ok (content, offsets)) \/
  (mm_write_corpus F nt corpus = Err ValueError /\
   exists terms, is_num_terms (stored (map kept corpus)) terms /\
    (50 < length (mm_stats (Z.of_nat (length corpus)) (hdr_terms nt terms) (Z.of_nat (length (stored (map kept corpus))))))%nat).
Proof.
  intros nt corpus. unfold mm_write_corpus. fold (mm_w0 mm_write_headers). fold hdr_terms.
  destruct (mm_write_fold mm_write_headers corpus) as (s & R & C & _ & Dn & Nn & Nt & Of & _).
  rewrite R. cbn [rbind]. rewrite C, Dn, Nn.
  replace (Z.of_nat (length corpus) - 1 + 1) with (Z.of_nat (length corpus)) by lia.
  unfold mm_fake_headers. destruct (50 <? _) eqn:E; cbn [rbind]; [right|left; eauto].
  split; [reflexivity|]. exists (ws_terms s). split; [exact Nt|]. apply Z.ltb_lt in E. apply Nat2Z.inj_lt. exact E.
Qed.

Lemma stored_kept_length : forall corpus,
  length (stored (map kept corpus)) = length (filter (fun p => w_keep F (snd p)) (concat corpus)).
Proof.
  induction corpus as [|d corpus IH]; [reflexivity|]. unfold stored in *. cbn [map concat].
  rewrite filter_app, !app_length, IH. f_equal. unfold kept. rewrite length_isort. reflexivity.
Qed.

Lemma In_stored_kept : forall corpus p, In p (stored (map kept corpus)) <-> In p (concat corpus) /\ w_keep F (snd p) = true.
Proof.
  intros. unfold stored. rewrite !in_concat. split.
  - intros (l & Hl & Hp). apply in_map_iff in Hl. destruct Hl as (d & <- & Hd). apply In_kept in Hp.
    split; [exists d|]; tauto.
  - intros [(d & Hd & Hp) K]. exists (kept d). split; [apply in_map; auto | apply In_kept; auto].
Qed.
End Mm.
