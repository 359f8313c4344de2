(** Python strings as lists of code points, their order, decimal numerals,
    splitting and joining.  Files are lists of code points; UTF-8 encoding and
    decoding ([utils.to_utf8], [utils.to_unicode]) is treated as the identity
    because it is injective on valid strings and maps '\n', '\t', ' ' and
    digits to themselves. *)

From Coq Require Import DecimalFacts DecimalN Decimal.
From Verif Require Import Base.
From Coq Require Import ZifyBool ZifyNat ZifyN.

Definition pystr : Type := list N.

(** ** Code point order on strings (Python [<=] on [str]) *)

Fixpoint str_leb (a b : pystr) : bool :=
  match a, b with
  | [], _ => true
  | _ :: _, [] => false
  | x :: a', y :: b' => if (x <? y)%N then true else if (y <? x)%N then false else str_leb a' b'
  end.

Lemma str_leb_refl : forall a, str_leb a a = true.
Proof. induction a; simpl; auto. rewrite N.ltb_irrefl; auto. Qed.

Lemma str_leb_total : forall a b, str_leb a b = true \/ str_leb b a = true.
Proof.
  induction a as [|x a IH]; intros [|y b]; simpl; auto.
  destruct (x <? y)%N eqn:E1; auto. destruct (y <? x)%N eqn:E2; auto.
Qed.

Lemma str_leb_antisym : forall a b, str_leb a b = true -> str_leb b a = true -> a = b.
Proof.
  induction a as [|x a IH]; intros [|y b]; simpl; auto; try discriminate.
  destruct (x <? y)%N eqn:E1; destruct (y <? x)%N eqn:E2; try discriminate; try lia.
  intros. assert (x = y) by lia. subst; f_equal; auto.
Qed.

Lemma str_leb_trans : forall a b c, str_leb a b = true -> str_leb b c = true -> str_leb a c = true.
Proof.
  induction a as [|x a IH]; intros [|y b] [|z c]; simpl; auto; try discriminate.
  destruct (x <? y)%N eqn:E1; destruct (y <? x)%N eqn:E2; destruct (y <? z)%N eqn:E3;
    destruct (z <? y)%N eqn:E4; destruct (x <? z)%N eqn:E5; destruct (z <? x)%N eqn:E6;
    try discriminate; try lia; auto.
  eauto.
Qed.

(** ** Characters *)

Definition chr_nl : N := 10.
Definition chr_tab : N := 9.
Definition chr_sp : N := 32.

(** Python's Unicode whitespace ([str.isspace], [str.split()], [str.strip()]). *)
Definition is_space (c : N) : bool :=
  ((9 <=? c) && (c <=? 13) || (28 <=? c) && (c <=? 32) || (c =? 133) || (c =? 160)
   || (c =? 5760) || (8192 <=? c) && (c <=? 8202) || (c =? 8232) || (c =? 8233)
   || (c =? 8239) || (c =? 8287) || (c =? 12288))%N.

(** Whitespace for [bytes.split()] and [bytes.strip()]. *)
Definition is_bspace (c : N) : bool := ((9 <=? c) && (c <=? 13) || (c =? 32))%N.

Definition is_digit (c : N) : bool := ((48 <=? c) && (c <=? 57))%N.

(** ** Decimal numerals *)

Fixpoint uint_str (u : uint) : pystr :=
  match u with
  | Nil => []
  | D0 u => 48%N :: uint_str u | D1 u => 49%N :: uint_str u | D2 u => 50%N :: uint_str u
  | D3 u => 51%N :: uint_str u | D4 u => 52%N :: uint_str u | D5 u => 53%N :: uint_str u
  | D6 u => 54%N :: uint_str u | D7 u => 55%N :: uint_str u | D8 u => 56%N :: uint_str u
  | D9 u => 57%N :: uint_str u
  end.

Definition digit_cons (c : N) (u : uint) : option uint :=
  match c with
  | 48%N => Some (D0 u) | 49%N => Some (D1 u) | 50%N => Some (D2 u) | 51%N => Some (D3 u)
  | 52%N => Some (D4 u) | 53%N => Some (D5 u) | 54%N => Some (D6 u) | 55%N => Some (D7 u)
  | 56%N => Some (D8 u) | 57%N => Some (D9 u) | _ => None
  end.

Fixpoint str_uint (s : pystr) : option uint :=
  match s with
  | [] => Some Nil
  | c :: s' => match str_uint s' with Some u => digit_cons c u | None => None end
  end.

(** ["%i" % n] for a natural number. *)
Definition show_N (n : N) : pystr := uint_str (N.to_uint n).
Definition show_nat (n : nat) : pystr := show_N (N.of_nat n).

(** [int(s)] for a non-empty string of ASCII digits; [None] stands for [ValueError].
    Simplification: Unicode digits and '_' separators are not accepted. *)
Definition parse_N (s : pystr) : option N :=
  match s with [] => None | _ => option_map N.of_uint (str_uint s) end.
Definition parse_nat (s : pystr) : option nat := option_map N.to_nat (parse_N s).

Lemma str_uint_str : forall u, str_uint (uint_str u) = Some u.
Proof. induction u; simpl; try rewrite IHu; reflexivity. Qed.

Lemma to_uint_nonnil : forall n, N.to_uint n <> Nil.
Proof. intros n. rewrite <- (DecimalN.Unsigned.of_to n) at 1. rewrite DecimalN.Unsigned.to_of. apply unorm_nonnil. Qed.

Lemma show_N_nonempty : forall n, show_N n <> [].
Proof.
  intros n. unfold show_N. pose proof (to_uint_nonnil n).
  destruct (N.to_uint n); simpl; congruence.
Qed.

Lemma parse_show_N : forall n, parse_N (show_N n) = Some n.
Proof.
  intros n. unfold parse_N. pose proof (show_N_nonempty n).
  destruct (show_N n) eqn:E; [congruence|]. rewrite <- E.
  unfold show_N. rewrite str_uint_str. simpl. rewrite DecimalN.Unsigned.of_to. reflexivity.
Qed.

Lemma parse_show_nat : forall n, parse_nat (show_nat n) = Some n.
Proof. intros; unfold parse_nat, show_nat; rewrite parse_show_N; simpl; rewrite Nat2N.id; reflexivity. Qed.

Lemma show_nat_nonempty : forall n, show_nat n <> [].
Proof. intros; apply show_N_nonempty. Qed.

Lemma uint_str_digits : forall u, Forall (fun c => is_digit c = true) (uint_str u).
Proof. induction u; simpl; constructor; auto. Qed.

Lemma show_N_digits : forall n, Forall (fun c => is_digit c = true) (show_N n).
Proof. intros; apply uint_str_digits. Qed.
Lemma show_nat_digits : forall n, Forall (fun c => is_digit c = true) (show_nat n).
Proof. intros; apply uint_str_digits. Qed.

Lemma show_N_inj : forall a b, show_N a = show_N b -> a = b.
Proof. intros a b E. pose proof (parse_show_N a). rewrite E, parse_show_N in H. congruence. Qed.
Lemma show_nat_inj : forall a b, show_nat a = show_nat b -> a = b.
Proof. intros a b E. apply show_N_inj in E. lia. Qed.

Lemma digit_not_space : forall c, is_digit c = true -> is_space c = false.
Proof. unfold is_digit, is_space. intros. lia. Qed.
Lemma digit_not_bspace : forall c, is_digit c = true -> is_bspace c = false.
Proof. unfold is_digit, is_bspace. intros. lia. Qed.

(** Signed integers, ["%i" % z] and [int(s)] (optional sign, ASCII digits). *)
Definition show_Z (z : Z) : pystr :=
  match z with Zneg p => 45%N :: show_N (Npos p) | _ => show_N (Z.to_N z) end.

Definition parse_Z (s : pystr) : option Z :=
  match s with
  | 45%N :: s' => option_map (fun n => Z.opp (Z.of_N n)) (parse_N s')
  | 43%N :: s' => option_map Z.of_N (parse_N s')
  | _ => option_map Z.of_N (parse_N s)
  end.

Lemma parse_Z_digits : forall s, Forall (fun c => is_digit c = true) s ->
  parse_Z s = option_map Z.of_N (parse_N s).
Proof.
  intros [|c s] F; [reflexivity|]. inversion F; subst. unfold is_digit in H1.
  unfold parse_Z. destruct c as [|p]; [reflexivity|].
  do 8 (destruct p; try reflexivity; try (simpl in H1; discriminate H1)).
Qed.

Lemma parse_show_Z : forall z, parse_Z (show_Z z) = Some z.
Proof.
  intros z. destruct z as [|p|p]; unfold show_Z.
  - reflexivity.
  - rewrite parse_Z_digits by apply show_N_digits. rewrite parse_show_N. reflexivity.
  - unfold parse_Z. rewrite parse_show_N. reflexivity.
Qed.

(** ** Stripping *)

Section Strip.
  Variable sp : N -> bool.

  Fixpoint lstrip (s : pystr) : pystr :=
    match s with
    | [] => []
    | c :: s' => if sp c then lstrip s' else s
    end.
  Definition rstrip (s : pystr) : pystr := rev (lstrip (rev s)).
  Definition strip (s : pystr) : pystr := rstrip (lstrip s).

  Lemma lstrip_id : forall c s, sp c = false -> lstrip (c :: s) = c :: s.
  Proof. intros; simpl; rewrite H; reflexivity. Qed.

  Lemma lstrip_all : forall s, Forall (fun c => sp c = true) s -> lstrip s = [].
  Proof. induction 1; simpl; auto. rewrite H; auto. Qed.

  Lemma lstrip_app_sp : forall s t, Forall (fun c => sp c = true) s -> lstrip (s ++ t) = lstrip t.
  Proof. induction 1; simpl; auto. rewrite H; auto. Qed.

  Lemma rstrip_app_sp : forall s t, Forall (fun c => sp c = true) t -> rstrip (s ++ t) = rstrip s.
  Proof.
    intros. unfold rstrip. rewrite rev_app_distr, lstrip_app_sp; [reflexivity|].
    apply Forall_rev; auto.
  Qed.

  Lemma rstrip_nosp : forall s, Forall (fun c => sp c = false) s -> rstrip s = s.
  Proof.
    intros s F. unfold rstrip. destruct (rev s) eqn:E.
    - simpl. rewrite <- (rev_involutive s), E; reflexivity.
    - rewrite lstrip_id, <- E, rev_involutive; auto.
      apply Forall_rev in F. rewrite E in F. inversion F; auto.
  Qed.

  Lemma strip_nosp : forall s, Forall (fun c => sp c = false) s -> strip s = s.
  Proof.
    intros s F. unfold strip. destruct s as [|c s]; [reflexivity|].
    rewrite lstrip_id by (inversion F; auto). apply rstrip_nosp; auto.
  Qed.

  Lemma strip_nosp_tail : forall s t, Forall (fun c => sp c = false) s -> s <> [] ->
    Forall (fun c => sp c = true) t -> strip (s ++ t) = s.
  Proof.
    intros s t F NE Ft. unfold strip. destruct s as [|c s]; [congruence|].
    simpl app. rewrite lstrip_id by (inversion F; auto).
    change (c :: s ++ t) with ((c :: s) ++ t). rewrite rstrip_app_sp by auto. apply rstrip_nosp; auto.
  Qed.
End Strip.

(** ** Splitting on one character: [s.split(c)] *)

Fixpoint split_on (sep : N) (s : pystr) : list pystr :=
  match s with
  | [] => [[]]
  | c :: s' =>
    if eq_dec c sep then [] :: split_on sep s'
    else match split_on sep s' with
         | [] => [[c]]
         | w :: ws => (c :: w) :: ws
         end
  end.

(** [sep.join(parts)] *)
Fixpoint join (sep : pystr) (ws : list pystr) : pystr :=
  match ws with
  | [] => []
  | [w] => w
  | w :: ws' => w ++ sep ++ join sep ws'
  end.

Lemma split_on_nonempty : forall sep s, split_on sep s <> [].
Proof.
  destruct s as [|c s]; simpl; [discriminate|].
  destruct (eq_dec c sep); [discriminate|]. destruct (split_on sep s); discriminate.
Qed.

Lemma split_on_word : forall sep w, ~ In sep w -> split_on sep w = [w].
Proof.
  induction w as [|c w IH]; simpl; intros NI; [reflexivity|].
  destruct (eq_dec c sep); [subst; tauto|]. rewrite IH by tauto. reflexivity.
Qed.

Lemma split_on_app : forall sep w s, ~ In sep w -> split_on sep (w ++ sep :: s) = w :: split_on sep s.
Proof.
  induction w as [|c w IH]; simpl; intros s NI.
  - destruct (eq_dec sep sep); congruence.
  - destruct (eq_dec c sep); [subst; tauto|]. rewrite IH by tauto. reflexivity.
Qed.

Lemma split_on_join : forall sep ws, ws <> [] -> Forall (fun w => ~ In sep w) ws ->
  split_on sep (join [sep] ws) = ws.
Proof.
  induction ws as [|w ws IH]; intros NE F; [congruence|].
  inversion F; subst. destruct ws as [|w' ws]; [apply split_on_word; auto|].
  change (join [sep] (w :: w' :: ws)) with (w ++ sep :: join [sep] (w' :: ws)).
  rewrite split_on_app by auto. rewrite IH; auto. discriminate.
Qed.

(** ** Splitting on runs of whitespace: [s.split()] *)

Section Words.
  Variable sp : N -> bool.

  (** [cur] is the word being accumulated, reversed. *)
  Fixpoint words_aux (cur : pystr) (s : pystr) : list pystr :=
    match s with
    | [] => match cur with [] => [] | _ => [rev cur] end
    | c :: s' =>
      if sp c then match cur with [] => words_aux [] s' | _ => rev cur :: words_aux [] s' end
      else words_aux (c :: cur) s'
    end.
  Definition words (s : pystr) : list pystr := words_aux [] s.

  Lemma words_aux_word : forall w cur s, Forall (fun c => sp c = false) w ->
    words_aux cur (w ++ s) = words_aux (rev w ++ cur) s.
  Proof.
    induction w as [|c w IH]; simpl; intros cur s F; [reflexivity|].
    inversion F; subst. rewrite H1, IH by auto. rewrite <- app_assoc; reflexivity.
  Qed.

  Lemma words_word_sep : forall w c s, Forall (fun c => sp c = false) w -> w <> [] -> sp c = true ->
    words (w ++ c :: s) = w :: words s.
  Proof.
    intros. unfold words. rewrite words_aux_word by auto. rewrite app_nil_r.
    simpl. rewrite H1. destruct (rev w) eqn:E.
    - apply (f_equal (@rev N)) in E. rewrite rev_involutive in E. simpl in E; congruence.
    - rewrite <- E, rev_involutive. reflexivity.
  Qed.

  Lemma words_word_end : forall w, Forall (fun c => sp c = false) w -> w <> [] -> words w = [w].
  Proof.
    intros. unfold words. rewrite <- (app_nil_r w) at 1. rewrite words_aux_word by auto. rewrite app_nil_r.
    simpl. destruct (rev w) eqn:E.
    - apply (f_equal (@rev N)) in E. rewrite rev_involutive in E. simpl in E; congruence.
    - rewrite <- E, rev_involutive. reflexivity.
  Qed.

  Lemma words_space : forall c s, sp c = true -> words (c :: s) = words s.
  Proof. intros; unfold words; simpl; rewrite H; reflexivity. Qed.

  Lemma words_spaces : forall t s, Forall (fun c => sp c = true) t -> words (t ++ s) = words s.
  Proof. induction 1; simpl; auto. rewrite words_space; auto. Qed.

  Lemma words_aux_nonempty : forall s cur, Forall (fun w => w <> []) (words_aux cur s).
  Proof.
    induction s as [|c s IH]; simpl; intros cur.
    - destruct cur; constructor; [|constructor]. simpl; intros E. apply app_eq_nil in E; destruct E; discriminate.
    - destruct (sp c); [|apply IH]. destruct cur; [apply IH|]. constructor; [|apply IH].
      simpl; intros E. apply app_eq_nil in E; destruct E; discriminate.
  Qed.

  Lemma words_aux_nosp : forall s cur, Forall (fun c => sp c = false) cur ->
    Forall (Forall (fun c => sp c = false)) (words_aux cur s).
  Proof.
    induction s as [|c s IH]; simpl; intros cur F.
    - destruct cur; constructor; [|constructor]. apply Forall_rev; auto.
    - destruct (sp c) eqn:E.
      + destruct cur; [apply IH; constructor|]. constructor; [apply Forall_rev; auto | apply IH; constructor].
      + apply IH; constructor; auto.
  Qed.

  Lemma words_ok : forall s, Forall (fun w => w <> [] /\ Forall (fun c => sp c = false) w) (words s).
  Proof.
    intros s. apply Forall_forall. intros w HI. split.
    - pose proof (words_aux_nonempty s []) as F. rewrite Forall_forall in F; auto.
    - assert (F : Forall (Forall (fun c => sp c = false)) (words_aux [] s)) by (apply words_aux_nosp; constructor).
      rewrite Forall_forall in F; auto.
  Qed.

  (** Words joined by single separators split back, whatever trailing space follows. *)
  Lemma words_join : forall c ws t, sp c = true ->
    Forall (fun w => w <> [] /\ Forall (fun c => sp c = false) w) ws ->
    Forall (fun c => sp c = true) t ->
    words (join [c] ws ++ t) = ws.
  Proof.
    intros c ws t Hc F Ft. induction ws as [|w ws IH]; simpl.
    - rewrite <- (app_nil_r t). rewrite words_spaces by auto. reflexivity.
    - inversion F as [|? ? [NE NS] F']; subst.
      assert (Hend : words (w ++ t) = [w]).
      { destruct t as [|c' t']; [rewrite app_nil_r; apply words_word_end; auto|].
        inversion Ft; subst. rewrite words_word_sep by auto. f_equal.
        rewrite <- (app_nil_r t'). rewrite words_spaces by auto. reflexivity. }
      destruct ws as [|w' ws]; [exact Hend|].
      rewrite <- app_assoc. cbn [app].
      rewrite words_word_sep by auto. f_equal. apply IH; auto.
  Qed.
End Words.

(** ** Iterating a file opened in binary mode: lines keep their '\n' *)

Fixpoint file_lines_aux (cur : pystr) (s : pystr) : list pystr :=
  match s with
  | [] => match cur with [] => [] | _ => [rev cur] end
  | c :: s' => if eq_dec c chr_nl then rev (c :: cur) :: file_lines_aux [] s'
               else file_lines_aux (c :: cur) s'
  end.
Definition file_lines (s : pystr) : list pystr := file_lines_aux [] s.

Lemma file_lines_aux_nonl : forall w cur s, ~ In chr_nl w ->
  file_lines_aux cur (w ++ s) = file_lines_aux (rev w ++ cur) s.
Proof.
  induction w as [|c w IH]; simpl; intros cur s NI; [reflexivity|].
  destruct (eq_dec c chr_nl); [subst; tauto|].
  rewrite IH by tauto. rewrite <- app_assoc; reflexivity.
Qed.

Lemma file_lines_cons : forall w s, ~ In chr_nl w ->
  file_lines (w ++ chr_nl :: s) = (w ++ [chr_nl]) :: file_lines s.
Proof.
  intros. unfold file_lines. rewrite file_lines_aux_nonl by auto. rewrite app_nil_r.
  cbn [file_lines_aux]. destruct (eq_dec chr_nl chr_nl); [|congruence].
  simpl. rewrite rev_involutive. reflexivity.
Qed.

Lemma file_lines_concat : forall ls, Forall (fun w => ~ In chr_nl w) ls ->
  file_lines (concat (map (fun w => w ++ [chr_nl]) ls)) = map (fun w => w ++ [chr_nl]) ls.
Proof.
  induction ls as [|w ls IH]; simpl; intros F; [reflexivity|].
  inversion F; subst. rewrite <- app_assoc. simpl. rewrite file_lines_cons by auto. f_equal; auto.
Qed.

Lemma file_lines_last : forall w, ~ In chr_nl w -> w <> [] -> file_lines w = [w].
Proof.
  intros w NI NE. unfold file_lines. rewrite <- (app_nil_r w) at 1. rewrite file_lines_aux_nonl by auto.
  rewrite app_nil_r. simpl. destruct (rev w) eqn:E.
  - apply (f_equal (@rev N)) in E. rewrite rev_involutive in E; simpl in E; congruence.
  - rewrite <- E, rev_involutive; reflexivity.
Qed.

Lemma nodigit_notin : forall c s, is_digit c = false -> Forall (fun c => is_digit c = true) s -> ~ In c s.
Proof. intros c s E F HI. rewrite Forall_forall in F. apply F in HI. congruence. Qed.

Lemma show_nat_notin : forall c n, is_digit c = false -> ~ In c (show_nat n).
Proof. intros; eapply nodigit_notin; [eassumption | apply show_nat_digits]. Qed.

(** ["..."] literals for examples. *)
From Coq Require Ascii.
From Coq Require String.
Export (notations) Coq.Strings.String.
Definition str (s : String.string) : pystr := map Ascii.N_of_ascii (String.list_ascii_of_string s).
Arguments str s%string_scope.
