(** Proofs about sums of flags. *)
From Coq Require Import ZArith List Bool Lia.
From Verif Require Import Lib.Base Lib.Floats Model.SingleSlice Spec.FlagListSpec.
Import ListNotations.
Open Scope Z_scope.

Definition union (l : list Z) : Z := fold_right Z.lor 0 l.

Lemma flag_sum_right l : flag_sum l = fold_right Z.add 0 l.
Proof. unfold flag_sum. apply fold_symmetric; intros; lia. Qed.

Lemma union_nonneg l : Forall (fun f => 0 <= f) l -> 0 <= union l.
Proof.
  induction 1 as [|a l Ha _ IH]; cbn; [lia|]. apply Z.lor_nonneg. split; assumption.
Qed.

Lemma add_lor_land a b : a + b = Z.lor a b + Z.land a b.
Proof.
  assert (H : forall x y, Z.land x y = 0 -> x + y = Z.lor x y).
  { intros x y E. rewrite Z.add_nocarry_lxor by exact E. symmetry. apply Z.bits_inj'. intros n Hn.
    rewrite Z.lor_spec, Z.lxor_spec.
    assert (X : Z.testbit (Z.land x y) n = false) by (rewrite E; apply Z.bits_0).
    rewrite Z.land_spec in X. destruct (Z.testbit x n), (Z.testbit y n); try reflexivity; discriminate. }
  assert (E1 : a = Z.ldiff a b + Z.land a b).
  { rewrite H.
    - apply Z.bits_inj'. intros n Hn. rewrite Z.lor_spec, Z.ldiff_spec, Z.land_spec.
      destruct (Z.testbit a n), (Z.testbit b n); reflexivity.
    - apply Z.bits_inj'. intros n Hn. rewrite Z.land_spec, Z.ldiff_spec, Z.land_spec, Z.bits_0.
      destruct (Z.testbit a n), (Z.testbit b n); reflexivity. }
  assert (E2 : Z.lor a b = Z.ldiff a b + b).
  { rewrite H.
    - apply Z.bits_inj'. intros n Hn. rewrite !Z.lor_spec, Z.ldiff_spec.
      destruct (Z.testbit a n), (Z.testbit b n); reflexivity.
    - apply Z.bits_inj'. intros n Hn. rewrite Z.land_spec, Z.ldiff_spec, Z.bits_0.
      destruct (Z.testbit a n), (Z.testbit b n); reflexivity. }
  lia.
Qed.

Lemma land_union_0 a l : Z.land a (union l) = 0 <-> Forall (fun b => Z.land a b = 0) l.
Proof.
  induction l as [|b l IH]; cbn [union fold_right].
  - rewrite Z.land_0_r. split; [constructor|reflexivity].
  - fold (union l). rewrite Z.land_lor_distr_r, Z.lor_eq_0_iff, IH. split.
    + intros [A B]. constructor; assumption.
    + intros H. inversion H; auto.
Qed.

Lemma sum_is_union l : Forall (fun f => 0 <= f) l ->
  union l <= flag_sum l /\ (flag_sum l = union l <-> no_shared_bits l).
Proof.
  rewrite flag_sum_right. induction 1 as [|a l Ha Hl [IH1 IH2]]; cbn [fold_right union].
  - split; [lia|]. split; [constructor|reflexivity].
  - fold (union l). pose proof (add_lor_land a (union l)) as E.
    assert (P : 0 <= Z.land a (union l)) by (apply Z.land_nonneg; left; exact Ha).
    split; [lia|]. split.
    + intros H. constructor; [apply land_union_0; lia|]. apply IH2. lia.
    + intros H. inversion H as [|x y H1 H2]; subst. apply land_union_0 in H1. apply IH2 in H2. lia.
Qed.

Lemma has_a_flag_union l v : has_a_flag l v <-> Z.land v (union l) <> 0.
Proof.
  rewrite land_union_0. split.
  - intros (f & I & H) K. rewrite Forall_forall in K. exact (H (K f I)).
  - intros H. destruct (existsb (fun f => negb (Z.land v f =? 0)) l) eqn:E.
    + apply existsb_exists in E. destruct E as (f & I & K). exists f. split; [exact I|].
      destruct (Z.eqb_spec (Z.land v f) 0); [discriminate|assumption].
    + exfalso. apply H. apply Forall_forall. intros f I.
      destruct (Z.eqb_spec (Z.land v f) 0) as [|N]; [assumption|].
      assert (existsb (fun f => negb (Z.land v f =? 0)) l = true); [|congruence].
      apply existsb_exists. exists f. split; [exact I|]. destruct (Z.eqb_spec (Z.land v f) 0); [contradiction|reflexivity].
Qed.

Lemma same_selection x y : (forall v, Z.land v x <> 0 <-> Z.land v y <> 0) -> x = y.
Proof.
  intros H. apply Z.bits_inj'. intros n Hn.
  assert (B : forall z, Z.land (2 ^ n) z <> 0 <-> Z.testbit z n = true).
  { intros z. split.
    - intros N. destruct (Z.testbit z n) eqn:T; [reflexivity|]. exfalso. apply N.
      apply Z.bits_inj'. intros m Hm. rewrite Z.land_spec, Z.bits_0, Z.pow2_bits_eqb by lia.
      destruct (Z.eqb_spec n m) as [<-|]; [rewrite T|]; reflexivity.
    - intros T N. assert (X : Z.testbit (Z.land (2 ^ n) z) n = false) by (rewrite N; apply Z.bits_0).
      rewrite Z.land_spec, Z.pow2_bits_true, T in X by lia. discriminate. }
  specialize (H (2 ^ n)). rewrite !B in H.
  destruct (Z.testbit x n), (Z.testbit y n); try reflexivity; [symmetry|]; apply H; reflexivity.
Qed.

Lemma sum_selects l : Forall (fun f => 0 <= f) l ->
  (no_shared_bits l <-> forall v, Z.land v (flag_sum l) <> 0 <-> has_a_flag l v).
Proof.
  intros Hl. destruct (sum_is_union l Hl) as [_ H]. rewrite <- H. split.
  - intros -> v. symmetry. apply has_a_flag_union.
  - intros K. apply same_selection. intros v. rewrite K. apply has_a_flag_union.
Qed.
