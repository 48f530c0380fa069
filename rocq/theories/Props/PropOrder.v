(** C70: the order of the slices. *)
From Coq Require Import ZArith List Bool Reals Lra Lia Permutation Sorted.
From Verif Require Import Lib.Base Lib.Floats Model.Order Spec.OrderSpec Spec.RunSpec
  Proofs.BaseFacts Proofs.OrderProofs.
Import ListNotations.
Open Scope Z_scope.

(** C70, any arithmetic: the slices are permuted, none is lost or repeated ... *)
Theorem C70_order_permutes :
  forall (F : Type) (FO : FloatOps F) (sky2image : F -> F -> result (F * F)) distance argsort nrow ncol
    sky slices out,
  is_argsort argsort -> order_slices sky2image distance argsort nrow ncol sky slices = Ok out ->
  Permutation slices out.
Proof. intros. eapply order_permutes; eassumption. Qed.

(** ... so that it is one of the orders for which C31, C32 and C33 hold. *)
Theorem C70_order_is_valid :
  forall (F : Type) (FO : FloatOps F) (sky2image : F -> F -> result (F * F)) distance argsort nrow ncol
    sky n_jobs n_chunks cap,
  is_argsort argsort -> 1 <= match n_chunks with None => n_jobs | Some k => k end -> (1 <= cap)%nat ->
  valid_how (mk_how (fun l => match order_slices sky2image distance argsort nrow ncol sky l with
                              | Ok out => out | Raise _ => l end) n_jobs n_chunks cap).
Proof.
  intros F FO s2i distance argsort nrow ncol sky n_jobs n_chunks cap HA Hn Hc.
  split; [|split; [intros _; exact Hn|exact Hc]]. intros l. cbn [h_order].
  destruct (order_slices _ _ _ _ _ _ l) as [out|] eqn:E; [|apply Permutation_refl].
  eapply order_permutes; eassumption.
Qed.

(** C70, exact arithmetic: slices of the same cell of an 8 x 8 division of the
    coadd come one after the other. *)
Theorem C70_cells_stay_together :
  forall (sky2image : R -> R -> result (R * R)) distance argsort nrow ncol sky slices out,
  0 < nrow -> 0 < ncol -> (forall s, In s slices -> 0 <= s < Z.of_nat (length sky)) ->
  is_argsort argsort -> is_curve distance ->
  order_slices sky2image distance argsort nrow ncol sky slices = Ok out ->
  forall i j k si sj sk x y, (i <= j <= k)%nat ->
  nth_error out i = Some si -> nth_error out j = Some sj -> nth_error out k = Some sk ->
  in_cell sky2image nrow ncol sky si x y -> in_cell sky2image nrow ncol sky sk x y ->
  in_cell sky2image nrow ncol sky sj x y.
Proof. intros. eapply cells_together; eassumption. Qed.

(** C70, any arithmetic: it succeeds if the WCS does and no position divided by
    the size of a cell is infinite or a NaN. The curve is only asked for points
    of its square. *)
Theorem C70_order_succeeds :
  forall (F : Type) (FO : FloatOps F) (sky2image : F -> F -> result (F * F)) distance argsort nrow ncol
    sky slices,
  is_argsort argsort -> is_curve distance ->
  (forall ra dec, In (ra, dec) sky -> exists col row, sky2image ra dec = Ok (col, row) /\
     ftrunc (fdiv col (fdiv (fofZ ncol) (fofZ 8))) <> None /\
     ftrunc (fdiv row (fdiv (fofZ nrow) (fofZ 8))) <> None) ->
  (forall s, In s slices -> 0 <= s < Z.of_nat (length sky)) ->
  exists out, order_slices sky2image distance argsort nrow ncol sky slices = Ok out.
Proof. intros. apply order_total; assumption. Qed.

(** C70, any arithmetic: and there are no other reasons to fail: a NaN is a ValueError, an
    infinity an OverflowError. *)
Theorem C70_order_fails_only_for_a_reason :
  forall (F : Type) (FO : FloatOps F) (sky2image : F -> F -> result (F * F)) distance argsort nrow ncol
    sky slices e,
  is_argsort argsort -> is_curve distance ->
  (forall s, In s slices -> 0 <= s < Z.of_nat (length sky)) ->
  order_slices sky2image distance argsort nrow ncol sky slices = Raise e ->
  exists ra dec, In (ra, dec) sky /\
    (sky2image ra dec = Raise e \/
     exists col row q, sky2image ra dec = Ok (col, row) /\
       (q = fdiv col (fdiv (fofZ ncol) (fofZ 8)) \/ q = fdiv row (fdiv (fofZ nrow) (fofZ 8))) /\
       ftrunc q = None /\ e = if fnan q then ValueError else OverflowError).
Proof. intros. eapply order_raises; eassumption. Qed.

(** Concrete: insertion sort of the indices is an argsort, row by row is a
    curve, and four slices are reordered. *)
Fixpoint insert_by (key : Z -> Z) (a : Z) (l : list Z) : list Z :=
  match l with [] => [a] | b :: l' => if key a <=? key b then a :: l else b :: insert_by key a l' end.
Definition isort (l : list Z) : list Z :=
  fold_right (insert_by (fun k => nth (Z.to_nat k) l 0)) [] (zrange 0 (Z.of_nat (length l))).

Lemma insert_perm key a l : Permutation (insert_by key a l) (a :: l).
Proof.
  induction l as [|b l IH]; cbn [insert_by]; [reflexivity|]. destruct (key a <=? key b); [reflexivity|].
  apply (perm_trans (perm_skip b IH)). apply perm_swap.
Qed.

Lemma insert_sorted key a l : StronglySorted Z.le (map key l) -> StronglySorted Z.le (map key (insert_by key a l)).
Proof.
  induction l as [|b l IH]; intros S; cbn [insert_by]; [cbn; repeat constructor|].
  destruct (Z.leb_spec (key a) (key b)) as [L|L].
  - cbn [map] in *. constructor; [exact S|]. constructor; [exact L|]. inversion S; subst.
    eapply Forall_impl; [|eassumption]. intros; lia.
  - cbn [map] in *. inversion S; subst. constructor; [apply IH; assumption|].
    eapply Permutation_Forall; [apply Permutation_map, Permutation_sym, insert_perm|].
    cbn [map]. constructor; [lia|assumption].
Qed.

Example C70_an_argsort : is_argsort isort.
Proof.
  intros l. unfold isort. generalize (zrange 0 (Z.of_nat (length l))). intros ks.
  set (key := fun k => nth (Z.to_nat k) l 0). induction ks as [|k ks [P S]]; cbn [fold_right].
  - split; constructor.
  - split; [apply (perm_trans (insert_perm key k _)); constructor; exact P|apply insert_sorted; exact S].
Qed.

Definition row_curve (x y : Z) : result Z := Ok (8 * y + x).
Example C70_a_curve : is_curve row_curve.
Proof.
  split; [intros; unfold row_curve; eauto|]. intros x y x' y' d H1 H2 H3 H4 E1 E2.
  unfold row_curve in *. assert (8 * y + x = 8 * y' + x') by congruence. lia.
Qed.

Example C70_example :
  order_slices (F := f64) (fun x y => Ok (x, y)) row_curve isort 80 80
    [(fofZ 75, fofZ 75); (fofZ 5, fofZ 5); (fofZ 75, fofZ 5); (fofZ 6, fofZ 7)] [0; 1; 2; 3] = Ok [1; 3; 2; 0].
Proof. vm_compute. reflexivity. Qed.

Print Assumptions C70_order_permutes.
Print Assumptions C70_order_is_valid.
Print Assumptions C70_cells_stay_together.
Print Assumptions C70_order_succeeds.
Print Assumptions C70_order_fails_only_for_a_reason.
