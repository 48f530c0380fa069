From Coq Require Import ZArith List Bool String Ascii Lia DecimalString DecimalZ Decimal DecimalPos.
From Verif Require Import Lib.Base Lib.PyStr.
Import ListNotations.
Open Scope string_scope.
Open Scope Z_scope.

Lemma append_nil_r : forall s : string, s ++ "" = s.
Proof. induction s; cbn; congruence. Qed.

Lemma append_assoc : forall a b c : string, a ++ (b ++ c) = (a ++ b) ++ c.
Proof. induction a; intros; cbn; congruence. Qed.

Lemma append_cancel_l : forall a b c : string, a ++ b = a ++ c -> b = c.
Proof. induction a as [|x a IH]; intros b c H; cbn in H; [exact H|]. injection H; auto. Qed.

Lemma append_length : forall a b, String.length (a ++ b) = (String.length a + String.length b)%nat.
Proof. induction a; intros; cbn; [reflexivity|]. now rewrite IHa. Qed.

(** Characters of a string. *)
Fixpoint all_chars (P : ascii -> bool) (s : string) : bool :=
  match s with
  | EmptyString => true
  | String c r => P c && all_chars P r
  end.

Lemma all_chars_app : forall P a b, all_chars P (a ++ b) = all_chars P a && all_chars P b.
Proof. intros P. induction a as [|c a IH]; intros b; cbn; [reflexivity|]. now rewrite IH, andb_assoc. Qed.

Lemma append_cancel_r : forall a b c : string, a ++ c = b ++ c -> a = b.
Proof.
  induction a as [|x a IH]; intros [|y b] c H.
  - reflexivity.
  - apply (f_equal String.length) in H. cbn in H. rewrite append_length in H. lia.
  - apply (f_equal String.length) in H. cbn in H. rewrite append_length in H. lia.
  - cbn in H. injection H as -> H. f_equal. eapply IH; eauto.
Qed.

Definition is_digit (c : ascii) : bool :=
  match digit_value c with Some _ => true | None => false end.

(** ** Splitting *)

Lemma split_on_none : forall sep s, all_chars (fun c => negb (Ascii.eqb c sep)) s = true ->
  split_on sep s = [s].
Proof.
  intros sep. induction s as [|c s IH]; intros H; cbn in *; [reflexivity|].
  apply andb_prop in H. destruct H as [H1 H2]. destruct (Ascii.eqb c sep); [discriminate|].
  now rewrite IH.
Qed.

Lemma split_on_app : forall sep a b, all_chars (fun c => negb (Ascii.eqb c sep)) a = true ->
  split_on sep (a ++ String sep b) = a :: split_on sep b.
Proof.
  intros sep. induction a as [|c a IH]; intros b H; cbn in *.
  - now rewrite Ascii.eqb_refl.
  - apply andb_prop in H. destruct H as [H1 H2]. destruct (Ascii.eqb c sep); [discriminate|].
    now rewrite IH.
Qed.

Lemma split_on_two : forall sep s a b, split_on sep s = [a; b] -> s = a ++ String sep b.
Proof.
  intros sep s. assert (one : forall s a, split_on sep s = [a] -> s = a).
  { induction s0 as [|c s0 IH]; intros a H; cbn in H; [congruence|].
    destruct (Ascii.eqb c sep).
    - injection H as <- H. destruct s0; cbn in H; [discriminate|].
      destruct (Ascii.eqb a sep); [discriminate|]. destruct (split_on sep s0); discriminate.
    - destruct (split_on sep s0) as [|h t] eqn:E.
      + injection H as <-. destruct s0; cbn in E; [discriminate|].
        destruct (Ascii.eqb a sep); [discriminate|]. destruct (split_on sep s0); discriminate.
      + injection H as <- ->. f_equal. apply IH. reflexivity. }
  induction s as [|c s IH]; intros a b H; cbn in H; [discriminate|].
  destruct (Ascii.eqb_spec c sep) as [->|N].
  - injection H as <- H. cbn. f_equal. apply one. exact H.
  - destruct (split_on sep s) as [|h t] eqn:E; [discriminate|].
    injection H as <- ->. cbn. f_equal. apply IH. reflexivity.
Qed.

Lemma split_on_parts : forall sep s a, In a (split_on sep s) ->
  all_chars (fun c => negb (Ascii.eqb c sep)) a = true.
Proof.
  intros sep. induction s as [|c s IH]; intros a H; cbn in H.
  - destruct H as [<-|[]]. reflexivity.
  - destruct (Ascii.eqb c sep) eqn:E.
    + destruct H as [<-|H]; auto.
    + destruct (split_on sep s) as [|h t] eqn:ES.
      * destruct H as [<-|[]]. cbn. now rewrite E.
      * destruct H as [<-|H].
        -- cbn. rewrite E. cbn. apply IH. left; auto.
        -- apply IH. right; auto.
Qed.

(** ** Decimal notation *)

(** Value of digits read from the left with an accumulator. *)
Fixpoint uval (u : Decimal.uint) (acc : Z) : Z :=
  match u with
  | Decimal.Nil => acc
  | Decimal.D0 u => uval u (acc * 10 + 0)
  | Decimal.D1 u => uval u (acc * 10 + 1)
  | Decimal.D2 u => uval u (acc * 10 + 2)
  | Decimal.D3 u => uval u (acc * 10 + 3)
  | Decimal.D4 u => uval u (acc * 10 + 4)
  | Decimal.D5 u => uval u (acc * 10 + 5)
  | Decimal.D6 u => uval u (acc * 10 + 6)
  | Decimal.D7 u => uval u (acc * 10 + 7)
  | Decimal.D8 u => uval u (acc * 10 + 8)
  | Decimal.D9 u => uval u (acc * 10 + 9)
  end.

Lemma int_digits_string : forall u acc,
  int_digits (NilEmpty.string_of_uint u) acc true = Some (uval u acc).
Proof. induction u; intros acc; cbn -[Z.mul Z.add]; auto; apply IHu. Qed.

Lemma int_digits_string0 : forall u, u <> Decimal.Nil ->
  int_digits (NilEmpty.string_of_uint u) 0 false = Some (uval u 0).
Proof. destruct u; intros H; [congruence|..]; cbn -[Z.mul Z.add]; apply int_digits_string. Qed.

Lemma uval_acc : forall u p, uval u (Z.pos p) = Z.pos (Pos.of_uint_acc u p).
Proof.
  induction u; intros p; [reflexivity|..];
    cbn [uval Pos.of_uint_acc]; rewrite <- IHu; f_equal; lia.
Qed.

Lemma uval_of_uint : forall u, uval u 0 = Z.of_uint u.
Proof.
  unfold Z.of_uint.
  induction u; [reflexivity|..]; cbn [uval Pos.of_uint];
    try (change (0 * 10 + 0) with 0; exact IHu);
    match goal with |- uval _ (0 * 10 + Z.pos ?d) = _ => change (0 * 10 + Z.pos d) with (Z.pos d) end;
    rewrite uval_acc; reflexivity.
Qed.

Lemma string_of_uint_digits : forall u, all_chars is_digit (NilEmpty.string_of_uint u) = true.
Proof. induction u; cbn; auto. Qed.

Lemma rstrip_clean : forall s, all_chars (fun c => negb (is_space c)) s = true -> rstrip s = s.
Proof.
  induction s as [|c s IH]; intros H; cbn in *; [reflexivity|].
  apply andb_prop in H. destruct H as [H1 H2]. rewrite IH by auto.
  destruct s; [|reflexivity]. destruct (is_space c); [discriminate|reflexivity].
Qed.

Lemma lstrip_clean : forall s, all_chars (fun c => negb (is_space c)) s = true -> lstrip s = s.
Proof.
  destruct s as [|c s]; intros H; cbn in *; [reflexivity|].
  apply andb_prop in H. destruct H as [H1 H2]. destruct (is_space c); [discriminate|reflexivity].
Qed.

Lemma lstrip_spaces : forall w s, all_chars is_space w = true -> lstrip (w ++ s) = lstrip s.
Proof.
  induction w as [|c w IH]; intros s H; cbn in *; [reflexivity|].
  apply andb_prop in H. destruct H as [H1 H2]. rewrite H1. auto.
Qed.

Lemma rstrip_spaces : forall w, all_chars is_space w = true -> rstrip w = "".
Proof.
  induction w as [|c w IH]; intros H; cbn in *; [reflexivity|].
  apply andb_prop in H. destruct H as [H1 H2]. rewrite IH, H1; auto.
Qed.

Lemma rstrip_app_spaces : forall s w, all_chars is_space w = true ->
  all_chars (fun c => negb (is_space c)) s = true -> rstrip (s ++ w) = s.
Proof.
  induction s as [|c s IH]; intros w Hw H; cbn in *.
  - apply rstrip_spaces; auto.
  - apply andb_prop in H. destruct H as [H1 H2]. rewrite IH by auto.
    destruct s; [|reflexivity]. destruct (is_space c); [discriminate|reflexivity].
Qed.

Lemma all_chars_impl : forall (P Q : ascii -> bool) s, (forall c, P c = true -> Q c = true) ->
  all_chars P s = true -> all_chars Q s = true.
Proof.
  intros P Q s HPQ. induction s as [|c s IH]; cbn; [auto|]. intros H.
  apply andb_prop in H. destruct H. rewrite HPQ, IH; auto.
Qed.

Lemma digit_not_space : forall c, is_digit c = true -> negb (is_space c) = true.
Proof.
  intros c. unfold is_digit, digit_value, is_space.
  set (n := nat_of_ascii c). destruct ((48 <=? Z.of_nat n) && (Z.of_nat n <=? 57)) eqn:E; [|discriminate].
  intros _. apply andb_prop in E. destruct E as [E1 E2].
  apply Z.leb_le in E1, E2.
  assert (Nat.leb n 13 = false) as -> by (apply Nat.leb_gt; lia).
  assert (Nat.leb n 32 = false) as -> by (apply Nat.leb_gt; lia).
  now rewrite !andb_false_r.
Qed.

(** What [dec] looks like. *)
Lemma dec_shape : forall z, exists u, u <> Decimal.Nil /\
  dec z = (if z <? 0 then "-" else "") ++ NilEmpty.string_of_uint u /\ Z.abs z = uval u 0.
Proof.
  intros z. unfold dec.
  assert (H : forall u, NilZero.string_of_uint u =
    NilEmpty.string_of_uint (match u with Decimal.Nil => Decimal.D0 Decimal.Nil | _ => u end)).
  { destruct u; reflexivity. }
  destruct z as [|p|p]; cbn [Z.to_int NilZero.string_of_int].
  - exists (Decimal.D0 Decimal.Nil). repeat split; discriminate.
  - assert (HN : Pos.to_uint p <> Decimal.Nil).
    { intro E. pose proof (DecimalPos.Unsigned.of_to p) as O. rewrite E in O. discriminate. }
    exists (Pos.to_uint p). split; [exact HN|]. split.
    + rewrite H. destruct (Pos.to_uint p); [congruence|..]; reflexivity.
    + rewrite uval_of_uint. unfold Z.of_uint. rewrite DecimalPos.Unsigned.of_to. reflexivity.
  - assert (HN : Pos.to_uint p <> Decimal.Nil).
    { intro E. pose proof (DecimalPos.Unsigned.of_to p) as O. rewrite E in O. discriminate. }
    exists (Pos.to_uint p). split; [exact HN|]. split.
    + rewrite H. destruct (Pos.to_uint p); [congruence|..]; reflexivity.
    + rewrite uval_of_uint. unfold Z.of_uint. rewrite DecimalPos.Unsigned.of_to. reflexivity.
Qed.

Definition dec_char (c : ascii) : bool := is_digit c || Ascii.eqb c "-".

Lemma dec_chars : forall z, all_chars dec_char (dec z) = true.
Proof.
  intros z. destruct (dec_shape z) as (u & _ & -> & _). rewrite all_chars_app.
  apply andb_true_intro. split.
  - destruct (z <? 0); reflexivity.
  - apply (all_chars_impl is_digit); [|apply string_of_uint_digits].
    intros c H. unfold dec_char. now rewrite H.
Qed.

Lemma dec_nonneg_digits : forall z, 0 <= z -> all_chars is_digit (dec z) = true.
Proof.
  intros z Hz. destruct (dec_shape z) as (u & _ & -> & _).
  replace (z <? 0) with false by (symmetry; apply Z.ltb_ge; lia).
  apply string_of_uint_digits.
Qed.

Lemma dec_char_not_space : forall c, dec_char c = true -> negb (is_space c) = true.
Proof.
  intros c H. unfold dec_char in H. apply orb_prop in H. destruct H as [H|H].
  - apply digit_not_space; auto.
  - apply Ascii.eqb_eq in H. subst. reflexivity.
Qed.

Lemma dec_char_not : forall x, dec_char x = false -> forall c, dec_char c = true ->
  negb (Ascii.eqb c x) = true.
Proof. intros x Hx c Hc. destruct (Ascii.eqb_spec c x) as [->|]; [congruence|reflexivity]. Qed.

(** Parsing is the inverse of printing, also with surrounding white space. *)
Lemma py_int_dec : forall z w1 w2, all_chars is_space w1 = true -> all_chars is_space w2 = true ->
  py_int (w1 ++ dec z ++ w2) = Ok z.
Proof.
  intros z w1 w2 H1 H2. unfold py_int.
  assert (C : all_chars (fun c => negb (is_space c)) (dec z) = true).
  { apply (all_chars_impl dec_char); [exact dec_char_not_space|apply dec_chars]. }
  rewrite lstrip_spaces by auto.
  assert (L : rstrip (lstrip (dec z ++ w2)) = dec z).
  { assert (lstrip (dec z ++ w2) = dec z ++ w2) as ->.
    { destruct (dec_shape z) as (u & Hu & E & _). rewrite E in *.
      destruct (z <? 0); [reflexivity|]. destruct u; [congruence|..]; reflexivity. }
    apply rstrip_app_spaces; auto. }
  rewrite L. clear L C.
  destruct (dec_shape z) as (u & Hu & -> & A).
  destruct (Z.ltb_spec z 0) as [N|N].
  - change ("-" ++ NilEmpty.string_of_uint u) with (String "-" (NilEmpty.string_of_uint u)).
    cbn -[NilEmpty.string_of_uint int_digits].
    rewrite int_digits_string0 by auto. cbn [option_map]. f_equal. lia.
  - change ("" ++ NilEmpty.string_of_uint u) with (NilEmpty.string_of_uint u).
    pose proof (int_digits_string0 u Hu) as D.
    assert (E : forall x, uval u 0 = x -> x = z) by (intros; lia).
    destruct u; [congruence|..];
      cbn -[int_digits uval] in D |- *; rewrite D; f_equal; lia.
Qed.

Lemma py_int_dec0 : forall z, py_int (dec z) = Ok z.
Proof.
  intros z. pose proof (py_int_dec z "" "" eq_refl eq_refl) as H. cbn [append] in H.
  now rewrite append_nil_r in H.
Qed.

Lemma dec_inj : forall a b, dec a = dec b -> a = b.
Proof.
  intros a b H. pose proof (py_int_dec0 a) as Ha. rewrite H, py_int_dec0 in Ha. congruence.
Qed.

Lemma py_int_raise : forall s e, py_int s = Raise e -> e = ValueError.
Proof.
  intros s e H. unfold py_int in H.
  match type of H with match ?b with _ => _ end = _ => destruct b end; congruence.
Qed.
