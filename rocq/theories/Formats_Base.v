(** Shared parts of the corpus file formats: number scanning, textual weights,
    generators that may fail midway, and byte positions in a file.

    A file is its content ([pystr], one character per byte: every format below
    writes only ASCII apart from words, which are kept as code points and read
    back with the same decoding). *)

From Verif Require Import Base Str Matutils_Model.
From Coq Require DecimalN DecimalFacts.
From Coq Require Import ZifyBool ZifyNat ZifyN.

(** A Python generator run to exhaustion: the yielded items and the exception that ended it, if any. *)
Definition gen (A : Type) : Type := (list A * option exn)%type.

(** [list(generator)]: fails when the generator does. *)
Definition gen_list {A} (g : gen A) : result (list A) :=
  match snd g with None => Ok (fst g) | Some e => Err e end.

(** [f.seek(pos); f.write(s)] over existing bytes. *)
Definition overwrite (content : pystr) (pos : nat) (s : pystr) : pystr :=
  firstn pos content ++ s ++ skipn (pos + length s) content.

(** [f.seek(offset); for line in f] *)
Definition lines_at (content : pystr) (offset : nat) : list pystr := file_lines (skipn offset content).

(** [f.seek(offset); f.readline()] ([b''] at the end of the file). *)
Definition readline_at (content : pystr) (offset : nat) : pystr :=
  match lines_at content offset with [] => [] | l :: _ => l end.

(** C [long long]: [sscanf("%lld")] clamps (glibc strtoll), assignment from a Python int raises OverflowError. *)
Definition ll_min : Z := (- 2 ^ 63)%Z.
Definition ll_max : Z := (2 ^ 63 - 1)%Z.
Definition ll_clamp (z : Z) : Z := Z.max ll_min (Z.min ll_max z).
Definition ll_ok (z : Z) : bool := ((ll_min <=? z) && (z <=? ll_max))%Z.

(** The longest prefix of digits. *)
Fixpoint take_digits (s : pystr) : pystr * pystr :=
  match s with
  | [] => ([], [])
  | c :: s' => if is_digit c then let (d, r) := take_digits s' in (c :: d, r) else ([], s)
  end.

Definition scan_sign (s : pystr) : Z * pystr :=
  match s with
  | 45%N :: s' => ((-1)%Z, s')
  | 43%N :: s' => (1%Z, s')
  | _ => (1%Z, s)
  end.

(** [sscanf(s, "%lld…")]: skip white space, optional sign, digits; the value and the rest of the input. *)
Definition scan_ll (s : pystr) : option (Z * pystr) :=
  let (sgn, s1) := scan_sign (lstrip is_bspace s) in
  let (d, r) := take_digits s1 in
  match parse_N d with
  | Some n => Some (ll_clamp (sgn * Z.of_N n), r)
  | None => None
  end.

(** ** Textual weights

    Python floats are not modelled bit by bit.  A format of weights is given by what the code applies to
    them: ["%s" % w] (or ["%g"]), the [%lg] conversion of [sscanf], [float(s)], the test
    [abs(w) > threshold], and the order used by [sorted] on [(id, w)] pairs. *)
Record wfmt (W : Type) : Type := {
  w_show : W -> pystr;            (* "%s" % w *)
  w_scan : pystr -> option W;     (* sscanf(rest, "%lg") *)
  w_parse : pystr -> option W;    (* float(s) *)
  w_keep : W -> bool;             (* abs(w) > threshold *)
  w_leb : W -> W -> bool          (* w <= w' *)
}.
Arguments w_show {W}. Arguments w_scan {W}. Arguments w_parse {W}. Arguments w_keep {W}. Arguments w_leb {W}.

(** What is assumed of number formatting, on the weights satisfying [dom]:
    Python's [repr] of a float is one token, and both C's [%lg] and Python's [float] read it back exactly. *)
Record wfmt_ok {W : Type} (F : wfmt W) (dom : W -> Prop) : Prop := {
  wf_nonempty : forall w, dom w -> w_show F w <> [];
  wf_nospace : forall w, dom w -> Forall (fun c => is_space c = false /\ c <> 35%N /\ c <> 58%N) (w_show F w);
  wf_scan : forall w rest, dom w -> (rest = [] \/ exists c r, rest = c :: r /\ is_bspace c = true) ->
            w_scan F (chr_sp :: w_show F w ++ rest) = Some w;
  wf_parse : forall w, dom w -> w_parse F (w_show F w) = Some w
}.

(** Integer weights: the instance used in the examples; it also shows that [wfmt_ok] is satisfiable. *)
Definition zfmt : wfmt Z := {|
  w_show := show_Z;
  w_scan := fun s => option_map fst (scan_ll s);
  w_parse := parse_Z;
  w_keep := fun z => negb (z =? 0)%Z;
  w_leb := Z.leb |}.

Lemma Ok_inj : forall {A} (a b : A), Ok a = Ok b -> a = b.
Proof. intros A a b H. injection H; auto. Qed.

(** ** Facts about scanning *)

Lemma is_bspace_space : forall c, is_bspace c = true -> is_space c = true.
Proof. unfold is_bspace, is_space. intros. lia. Qed.

Lemma take_digits_app : forall d r, Forall (fun c => is_digit c = true) d ->
  (r = [] \/ exists c r', r = c :: r' /\ is_digit c = false) -> take_digits (d ++ r) = (d, r).
Proof.
  induction d as [|c d IH]; simpl; intros r F H.
  - destruct H as [->|(c & r' & -> & E)]; [reflexivity|]. simpl. rewrite E. reflexivity.
  - inversion F; subst. rewrite H2, IH by auto. reflexivity.
Qed.

Lemma show_Z_nonneg : forall z, (0 <= z)%Z -> show_Z z = show_N (Z.to_N z).
Proof. intros [|p|p] L; try reflexivity. lia. Qed.

Lemma show_Z_nonempty : forall z, show_Z z <> [].
Proof. intros [|p|p]; unfold show_Z; try apply show_N_nonempty. discriminate. Qed.

Lemma show_Z_chars : forall z, Forall (fun c => is_digit c = true \/ c = 45%N) (show_Z z).
Proof.
  intros z. assert (H : forall n, Forall (fun c => is_digit c = true \/ c = 45%N) (show_N n)).
  { intros n. eapply Forall_impl; [|apply show_N_digits]. simpl; tauto. }
  destruct z as [|p|p]; unfold show_Z; try apply H. constructor; [tauto | apply H].
Qed.

Lemma show_Z_nospace : forall z, Forall (fun c => is_space c = false) (show_Z z).
Proof.
  intros z. eapply Forall_impl; [|apply show_Z_chars]. simpl. intros c [H| ->]; [|reflexivity].
  apply digit_not_space; auto.
Qed.

Lemma show_Z_notin : forall c z, is_digit c = false -> c <> 45%N -> ~ In c (show_Z z).
Proof.
  intros c z D N HI. pose proof (show_Z_chars z) as F. rewrite Forall_forall in F.
  destruct (F _ HI); congruence.
Qed.

Lemma scan_ll_show : forall z rest, ll_ok z = true -> (rest = [] \/ exists c r, rest = c :: r /\ is_bspace c = true) ->
  scan_ll (show_Z z ++ rest) = Some (z, rest).
Proof.
  intros z rest R H.
  assert (Hr : rest = [] \/ exists c r', rest = c :: r' /\ is_digit c = false).
  { destruct H as [->|(c & r & -> & E)]; [auto|]. right. exists c, r. split; auto.
    unfold is_bspace in E; unfold is_digit. lia. }
  assert (Hc : ll_clamp z = z) by (unfold ll_ok, ll_clamp in *; lia).
  assert (P : forall n, scan_ll (show_N n ++ rest) = Some (ll_clamp (Z.of_N n), rest)).
  { intros n. pose proof (show_N_digits n) as D. pose proof (show_N_nonempty n) as NE.
    pose proof (parse_show_N n) as PS.
    unfold scan_ll. destruct (show_N n) as [|c s] eqn:E; [congruence|].
    inversion D; subst.
    cbn [app]. rewrite lstrip_id by (apply digit_not_bspace; auto).
    assert (T : take_digits (c :: s ++ rest) = (c :: s, rest)).
    { change (c :: s ++ rest) with ((c :: s) ++ rest). apply take_digits_app; auto. }
    assert (M : scan_sign (c :: s ++ rest) = (1%Z, c :: s ++ rest)).
    { unfold is_digit in H2. destruct c as [|p]; [reflexivity|].
      do 8 (destruct p; try reflexivity; try (simpl in H2; discriminate H2)). }
    rewrite M, T, PS. rewrite Z.mul_1_l. reflexivity. }
  destruct z as [|p|p].
  - exact (P 0%N).
  - unfold show_Z. rewrite P. rewrite <- Hc at 2. reflexivity.
  - unfold show_Z. unfold scan_ll. cbn [app lstrip]. change (is_bspace 45) with false. cbv iota. cbn [scan_sign].
    rewrite take_digits_app by (auto using show_N_digits). rewrite parse_show_N.
    change (-1 * Z.of_N (N.pos p))%Z with (Zneg p). rewrite Hc. reflexivity.
Qed.

Lemma scan_ll_space : forall s c, is_bspace c = true -> scan_ll (c :: s) = scan_ll s.
Proof. intros. unfold scan_ll. cbn [lstrip]. rewrite H. reflexivity. Qed.

Lemma zfmt_ok : wfmt_ok zfmt (fun z => ll_ok z = true).
Proof.
  split; cbn [w_show w_scan w_parse w_keep w_leb zfmt].
  - intros; apply show_Z_nonempty.
  - intros w _. eapply Forall_impl; [|apply show_Z_chars]. simpl. intros c [H| ->]; [|repeat split; discriminate].
    unfold is_digit in H; unfold is_space. repeat split; lia.
  - intros w rest D H. rewrite scan_ll_space by reflexivity. rewrite scan_ll_show by auto. reflexivity.
  - intros; apply parse_show_Z.
Qed.

(** ** Files as sequences of lines *)

Lemma skipn_length_app : forall {A} (a b : list A), skipn (length a) (a ++ b) = b.
Proof. induction a; simpl; auto. Qed.

Lemma firstn_length_app : forall {A} (a b : list A), firstn (length a) (a ++ b) = a.
Proof. induction a; simpl; intros; [reflexivity|]. f_equal; auto. Qed.

Lemma overwrite_app : forall pre old new post, length new = length old ->
  overwrite (pre ++ old ++ post) (length pre) new = pre ++ new ++ post.
Proof.
  intros. unfold overwrite. rewrite firstn_length_app. do 2 f_equal.
  rewrite app_assoc. rewrite H, <- app_length. apply skipn_length_app.
Qed.

Lemma file_lines_app_lines : forall ls s, Forall (fun w => ~ In chr_nl w) ls ->
  file_lines (concat (map (fun w => w ++ [chr_nl]) ls) ++ s) = map (fun w => w ++ [chr_nl]) ls ++ file_lines s.
Proof.
  induction ls as [|w ls IH]; intros s F; [reflexivity|].
  inversion F; subst. cbn [map concat app]. rewrite <- !app_assoc. cbn [app].
  rewrite file_lines_cons by auto. f_equal. auto.
Qed.

(** ** Length of a printed number *)

Fixpoint uint_len (u : Decimal.uint) : N :=
  match u with
  | Decimal.Nil => 0
  | Decimal.D0 l | Decimal.D1 l | Decimal.D2 l | Decimal.D3 l | Decimal.D4 l | Decimal.D5 l
  | Decimal.D6 l | Decimal.D7 l | Decimal.D8 l | Decimal.D9 l => N.succ (uint_len l)
  end.

Lemma uint_str_len : forall u, N.of_nat (length (uint_str u)) = uint_len u.
Proof. induction u; cbn [uint_str uint_len length]; try rewrite <- IHu; lia. Qed.

Lemma of_uint_acc_ge : forall u acc, (Npos acc * 10 ^ uint_len u <= Npos (Pos.of_uint_acc u acc))%N.
Proof.
  induction u; intros acc; cbn [uint_len Pos.of_uint_acc]; [lia|..];
    rewrite N.pow_succ_r by lia;
    match goal with IH : forall acc, _ |- context [Pos.of_uint_acc _ ?a] => specialize (IH a) end;
    nia.
Qed.

Lemma nzhead_not_D0 : forall u l, Decimal.nzhead u <> Decimal.D0 l.
Proof. induction u; intros l0; cbn [Decimal.nzhead]; try discriminate. auto. Qed.

Lemma show_N_length : forall n k, (n < 10 ^ k)%N -> (0 < k)%N -> (N.of_nat (length (show_N n)) <= k)%N.
Proof.
  intros n k L K. unfold show_N. rewrite uint_str_len.
  assert (H : N.of_uint (N.to_uint n) = n) by apply DecimalN.Unsigned.of_to.
  assert (U : Decimal.unorm (N.to_uint n) = N.to_uint n)
    by (rewrite <- DecimalN.Unsigned.to_of, H; reflexivity).
  destruct (N.to_uint n) as [|l|l|l|l|l|l|l|l|l|l] eqn:E; cbn [uint_len];
    [lia | | | | | | | | | |].
  { (* leading zero: normal form, so the whole number is 0 *)
    unfold Decimal.unorm in U. cbn [Decimal.nzhead] in U. pose proof (nzhead_not_D0 l) as ND.
    destruct (Decimal.nzhead l) eqn:En; try discriminate U.
    - injection U as <-. cbn [uint_len]. lia.
    - exfalso. eapply ND; reflexivity. }
  all: assert (B : (10 ^ uint_len l <= n)%N)
         by (rewrite <- H; cbn [N.of_uint Pos.of_uint];
             match goal with |- context [Pos.of_uint_acc ?u ?a] => pose proof (of_uint_acc_ge u a) end; nia);
       assert (uint_len l < k)%N by (apply (N.pow_lt_mono_r_iff 10); lia); lia.
Qed.
