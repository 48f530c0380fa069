(** C70 in double arithmetic: slices of the same cell stay together. *)
From Coq Require Import ZArith List Bool Lia Reals Lra SpecFloat.
From Flocq Require Import Core.
From Coq Require Import List.
From Verif Require Import Lib.Base Lib.Floats Model.Order Spec.FloatSpec Spec.OrderSpec
  Proofs.BaseFacts Proofs.F64Facts Proofs.OrderProofs Proofs.OrderF64 Props.PropOrder.
Import ListNotations.
Open Scope Z_scope.

(** C70, double arithmetic: slices of the same cell of an 8 x 8 division of the coadd
    come one after the other. Rounding never moves a position to another cell, on a coadd
    of at most 2^50 rows and columns; positions are at most 2^900. *)
Theorem C70_cells_stay_together_double :
  forall (sky2image : f64 -> f64 -> result (f64 * f64)) distance argsort nrow ncol sky slices out,
  0 < nrow <= 2 ^ 50 -> 0 < ncol <= 2 ^ 50 ->
  (forall ra dec col row, In (ra, dec) sky -> sky2image ra dec = Ok (col, row) ->
     (exists c, f64_is col c /\ (Rabs c <= bpow radix2 900)%R) /\
     (exists r, f64_is row r /\ (Rabs r <= bpow radix2 900)%R)) ->
  (forall s, In s slices -> 0 <= s < Z.of_nat (length sky)) ->
  is_argsort argsort -> is_curve distance ->
  order_slices sky2image distance argsort nrow ncol sky slices = Ok out ->
  forall i j k si sj sk x y, (i <= j <= k)%nat ->
  nth_error out i = Some si -> nth_error out j = Some sj -> nth_error out k = Some sk ->
  in_cell_double sky2image nrow ncol sky si x y -> in_cell_double sky2image nrow ncol sky sk x y ->
  in_cell_double sky2image nrow ncol sky sj x y.
Proof. intros. eapply cells_together_f64; eassumption. Qed.

(** C70, double arithmetic: every slice is in one cell, and no two. *)
Theorem C70_one_cell_double :
  forall (sky2image : f64 -> f64 -> result (f64 * f64)) nrow ncol sky s ra dec col row c r,
  0 < nrow -> 0 < ncol -> 0 <= s -> nth_error sky (Z.to_nat s) = Some (ra, dec) ->
  sky2image ra dec = Ok (col, row) -> f64_is col c -> f64_is row r ->
  exists x y, in_cell_double sky2image nrow ncol sky s x y /\
    forall x' y', in_cell_double sky2image nrow ncol sky s x' y' -> x' = x /\ y' = y.
Proof.
  intros s2i nrow ncol sky s ra dec col row c r Hr Hc Hs E W Hcol Hrow.
  assert (EX : forall n v, 0 < n -> exists k, in_interval n v k).
  { intros n v Hn.
    assert (C : @cell_index R _ v (fdiv (fofZ n) (fofZ ph_order)) = Ok (Z.min (Z.max (Ztrunc (v / (IZR n / IZR ph_order))) 0) (ph_order - 1)))
      by reflexivity.
    apply cell_index_R in C; [|assumption]. eauto. }
  assert (UN : forall n v k k', 0 < n -> in_interval n v k -> in_interval n v k' -> k' = k).
  { intros n v k k' Hn H1 H2. apply (cell_index_R v n k Hn) in H1. apply (cell_index_R v n k' Hn) in H2. congruence. }
  destruct (EX ncol c Hc) as [x Hx]. destruct (EX nrow r Hr) as [y Hy]. exists x, y. split.
  - exists ra, dec, col, row, c, r. auto 10.
  - intros x' y' (ra' & dec' & col' & row' & c' & r' & _ & E' & W' & Hcol' & Hrow' & Hx' & Hy').
    rewrite E in E'. injection E' as <- <-. rewrite W in W'. injection W' as <- <-.
    rewrite (is_unique _ _ _ Hcol' Hcol) in Hx'. rewrite (is_unique _ _ _ Hrow' Hrow) in Hy'. eauto.
Qed.

(** Concrete: four slices of a coadd of 30 x 30 pixels, cells of 3.75 pixels. Slices 0 and
    2 are in the cell of column 2 and row 0, slice 1 is elsewhere. *)
Example C70_example_double :
  let sky := map (fun p => (f64_ofZ (fst p), f64_ofZ (snd p))) [(8, 1); (20, 20); (11, 3); (0, 0)] in
  order_slices (fun ra dec => Ok (ra, dec)) row_curve isort 30 30 sky [0; 1; 2; 3] = Ok [3; 0; 2; 1] /\
  in_cell_double (fun ra dec => Ok (ra, dec)) 30 30 sky 0 2 0 /\
  in_cell_double (fun ra dec => Ok (ra, dec)) 30 30 sky 2 2 0.
Proof.
  split; [vm_compute; reflexivity|].
  assert (G : forall a b, Z.abs a <= 30 -> Z.abs b <= 30 -> f64_is (f64_ofZ a) (IZR a) /\ f64_is (f64_ofZ b) (IZR b))
    by (intros; split; apply f64_ofZ_is; lia).
  split.
  - exists (f64_ofZ 8), (f64_ofZ 1), (f64_ofZ 8), (f64_ofZ 1), 8%R, 1%R. destruct (G 8 1 ltac:(lia) ltac:(lia)).
    repeat (split; [first [assumption|reflexivity|lia]|]). unfold in_interval. repeat split; intros; first [lia|lra].
  - exists (f64_ofZ 11), (f64_ofZ 3), (f64_ofZ 11), (f64_ofZ 3), 11%R, 3%R. destruct (G 11 3 ltac:(lia) ltac:(lia)).
    repeat (split; [first [assumption|reflexivity|lia]|]). unfold in_interval. repeat split; intros; first [lia|lra].
Qed.

Print Assumptions C70_cells_stay_together_double.
Print Assumptions C70_one_cell_double.
