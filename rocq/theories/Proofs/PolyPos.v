(** Polynomials with integer coefficients: arithmetic and a certified test that
    a polynomial is not negative on an interval. *)
From Coq Require Import ZArith List Bool Reals Lia Lra.
From Verif Require Import Lib.Base Proofs.BaseFacts.
Import ListNotations.
Open Scope Z_scope.

Fixpoint padd (p q : list Z) : list Z :=
  match p, q with
  | [], _ => q
  | _, [] => p
  | a :: p, b :: q => a + b :: padd p q
  end.

Definition pscal (k : Z) (p : list Z) : list Z := map (Z.mul k) p.

Fixpoint pmul (p q : list Z) : list Z :=
  match p with
  | [] => []
  | a :: p => padd (pscal a q) (0 :: pmul p q)
  end.

(** [p (m + w)]. *)
Fixpoint pshift (m : Z) (p : list Z) : list Z :=
  match p with
  | [] => []
  | a :: p => let r := pshift m p in padd [a] (padd (pscal m r) (0 :: r))
  end.

(** [M ^ length p * p (x / M)]. *)
Fixpoint pdil (M : Z) (p : list Z) : list Z :=
  match p with
  | [] => []
  | a :: q => a * M ^ Z.of_nat (length p) :: pdil M q
  end.

(** Not negative between 0 and 1, by the coefficients of [y ^ n * p (1 / y)] at
    [y = 1 + w] with [w] not negative. *)
Definition unit_pos (p : list Z) : bool :=
  match p with [] => true | a :: _ => (0 <=? a) && forallb (Z.leb 0) (pshift 1 (rev p)) end.

(** Not negative between [lo / M] and [hi / M]. *)
Definition check (M lo hi : Z) (p : list Z) : bool :=
  let q := pdil M p in
  forallb (fun m => unit_pos (pshift m q)) (zrange lo hi).

Open Scope R_scope.

Fixpoint peval (p : list Z) (x : R) : R :=
  match p with [] => 0 | a :: p => IZR a + x * peval p x end.

Lemma peval_add : forall p q x, peval (padd p q) x = peval p x + peval q x.
Proof.
  induction p as [|a p IH]; intros [|b q] x; cbn [padd peval]; try ring.
  rewrite plus_IZR, IH. ring.
Qed.

Lemma peval_scal : forall k p x, peval (pscal k p) x = IZR k * peval p x.
Proof.
  intros k p x. induction p as [|a p IH]; cbn [pscal map peval]; [ring|].
  fold (pscal k p). rewrite IH, mult_IZR. ring.
Qed.

Lemma peval_mul : forall p q x, peval (pmul p q) x = peval p x * peval q x.
Proof.
  induction p as [|a p IH]; intros q x; cbn [pmul peval]; [ring|].
  rewrite peval_add, peval_scal. cbn [peval]. rewrite IH. ring.
Qed.

Lemma peval_shift : forall m p w, peval (pshift m p) w = peval p (IZR m + w).
Proof.
  intros m p w. induction p as [|a p IH]; cbn [pshift peval]; [reflexivity|].
  cbv zeta. rewrite !peval_add, peval_scal. cbn [peval]. rewrite IH. ring.
Qed.

Lemma peval_dil : forall M p x, (M <> 0)%Z ->
  peval (pdil M p) (IZR M * x) = IZR M ^ length p * peval p x.
Proof.
  intros M p x HM. induction p as [|a p IH]; [cbn; ring|].
  change (pdil M (a :: p)) with ((a * M ^ Z.of_nat (length (a :: p)))%Z :: pdil M p).
  cbn [peval]. rewrite IH, mult_IZR, <- pow_IZR. cbn [length]. cbn [pow]. ring.
Qed.

Lemma peval_app : forall p q x, peval (p ++ q) x = peval p x + x ^ length p * peval q x.
Proof.
  intros p q x. induction p as [|a p IH]; cbn [app peval length pow]; [ring|]. rewrite IH. ring.
Qed.

Lemma peval_rev : forall p x, x <> 0 -> x ^ length p * peval (rev p) (/ x) = x * peval p x.
Proof.
  intros p x Hx. induction p as [|a p IH]; [cbn; ring|].
  cbn [rev peval length pow]. rewrite peval_app, rev_length, pow_inv. cbn [peval].
  assert (x ^ length p <> 0) by (apply pow_nonzero; assumption).
  transitivity (x * (x ^ length p * peval (rev p) (/ x)) + x * IZR a); [field; try split; assumption|].
  rewrite IH. ring.
Qed.

Lemma peval_pos : forall p w, forallb (Z.leb 0) p = true -> 0 <= w -> 0 <= peval p w.
Proof.
  intros p w H Hw. induction p as [|a p IH]; cbn [peval]; [lra|].
  cbn [forallb] in H. apply andb_true_iff in H as [Ha H]. apply Z.leb_le, IZR_le in Ha.
  specialize (IH H). pose proof (Rmult_le_pos _ _ Hw IH). lra.
Qed.

Lemma unit_pos_ok : forall p x, unit_pos p = true -> 0 <= x <= 1 -> 0 <= peval p x.
Proof.
  intros [|a p] x H Hx; [cbn; lra|]. cbn [unit_pos] in H.
  apply andb_true_iff in H as [Ha H]. apply Z.leb_le, IZR_le in Ha.
  destruct (Req_dec x 0) as [->|Hx0]; [cbn [peval]; lra|].
  assert (Hy : 1 <= / x).
  { rewrite <- Rinv_1 at 1. apply Rinv_le_contravar; lra. }
  pose proof (peval_pos _ (/ x - 1) H ltac:(lra)) as K. rewrite peval_shift in K.
  replace (IZR 1 + (/ x - 1)) with (/ x) in K by (change (IZR 1) with 1; ring).
  pose proof (peval_rev (a :: p) x Hx0) as E.
  assert (P : 0 < x ^ length (a :: p)) by (apply pow_lt; lra).
  pose proof (Rmult_le_pos _ _ (Rlt_le _ _ P) K) as L. rewrite E in L.
  apply Rmult_le_reg_l with x; lra.
Qed.

Lemma find_cell : forall (lo hi : Z) (y : R), IZR lo <= y <= IZR hi -> (lo < hi)%Z ->
  exists m, (lo <= m < hi)%Z /\ IZR m <= y <= IZR m + 1.
Proof.
  intros lo hi y Hy Hlh.
  destruct (Rle_lt_dec (IZR hi) y) as [H|H].
  - exists (hi - 1)%Z. rewrite minus_IZR. split; [lia|lra].
  - exists (up y - 1)%Z. destruct (archimed y) as [U1 U2]. rewrite minus_IZR.
    assert (A : (lo < up y)%Z) by (apply lt_IZR; lra).
    assert (B : (up y - 1 < hi)%Z) by (apply lt_IZR; rewrite minus_IZR; lra).
    split; [lia|lra].
Qed.

Theorem check_ok : forall (M lo hi : Z) (p : list Z) (x : R),
  (0 < M)%Z -> (lo < hi)%Z -> check M lo hi p = true ->
  IZR lo / IZR M <= x <= IZR hi / IZR M -> 0 <= peval p x.
Proof.
  intros M lo hi p x HM Hlh Hc Hx.
  assert (HMR : 0 < IZR M) by (apply IZR_lt; assumption).
  assert (Hy : IZR lo <= IZR M * x <= IZR hi).
  { destruct Hx as [A B]. split.
    - apply Rmult_le_compat_l with (r := IZR M) in A; [|lra].
      replace (IZR M * (IZR lo / IZR M)) with (IZR lo) in A by (field; lra). lra.
    - apply Rmult_le_compat_l with (r := IZR M) in B; [|lra].
      replace (IZR M * (IZR hi / IZR M)) with (IZR hi) in B by (field; lra). lra. }
  destruct (find_cell lo hi _ Hy Hlh) as (m & Hm & Hym).
  unfold check in Hc. cbv zeta in Hc. rewrite forallb_forall in Hc.
  specialize (Hc m ltac:(apply In_zrange; lia)).
  pose proof (unit_pos_ok _ (IZR M * x - IZR m) Hc ltac:(lra)) as H. rewrite peval_shift in H.
  replace (IZR m + (IZR M * x - IZR m)) with (IZR M * x) in H by ring.
  rewrite peval_dil in H by lia.
  assert (P : 0 < IZR M ^ length p) by (apply pow_lt; assumption).
  apply Rmult_le_reg_l with (IZR M ^ length p); [assumption|]. lra.
Qed.
