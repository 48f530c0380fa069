(** Proofs about the order of the slices. *)
From Coq Require Import ZArith List Bool Reals Lra Lia Permutation Sorted.
From Flocq Require Import Core.Raux.
From Verif Require Import Lib.Base Lib.Floats Model.Order Spec.OrderSpec Proofs.BaseFacts.
Import ListNotations.
Open Scope Z_scope.

Lemma pynth_in {A} (l : list A) i : 0 <= i < Z.of_nat (length l) ->
  exists a, pynth l i = Ok a /\ nth_error l (Z.to_nat i) = Some a.
Proof.
  intros H. unfold pynth, pyindex.
  destruct (Z.leb_spec 0 i); [|lia]. destruct (Z.ltb_spec i (Z.of_nat (length l))); [|lia]. cbn [andb].
  destruct (nth_error l (Z.to_nat i)) as [a|] eqn:E; [eauto|].
  apply nth_error_None in E. lia.
Qed.

Lemma take_map : forall slices sind, (forall k, In k sind -> 0 <= k < Z.of_nat (length slices)) ->
  take slices sind = Ok (map (fun k => nth (Z.to_nat k) slices 0) sind).
Proof.
  intros slices sind. induction sind as [|k sind IH]; intros H; [reflexivity|]. cbn [take map].
  destruct (pynth_in slices k (H k (or_introl eq_refl))) as (a & -> & E). cbn [bind].
  rewrite IH by (intros; apply H; right; assumption). cbn [bind].
  rewrite (nth_error_nth _ _ 0 E). reflexivity.
Qed.

Lemma map_nth_all (l : list Z) : map (fun k => nth (Z.to_nat k) l 0) (zrange 0 (Z.of_nat (length l))) = l.
Proof.
  apply nth_ext with (d := 0) (d' := 0).
  - rewrite map_length, zrange_length. lia.
  - intros n Hn. rewrite map_length, zrange_length in Hn.
    rewrite (nth_indep _ 0 ((fun k => nth (Z.to_nat k) l 0) 0)) by (rewrite map_length, zrange_length; exact Hn).
    rewrite (map_nth (fun k => nth (Z.to_nat k) l 0)).
    rewrite nth_zrange by lia. f_equal. lia.
Qed.

Section Any.
Context {F : Type} {FO : FloatOps F}.
Variable sky2image : F -> F -> result (F * F).
Variable distance : Z -> Z -> result Z.
Variable argsort : list Z -> list Z.
Variables nrow ncol : Z.
Variable sky : list (F * F).

Lemma cell_index_range v d k : cell_index v d = Ok k -> 0 <= k < 8.
Proof.
  unfold cell_index, ph_order. cbn zeta. destruct (ftrunc (fdiv v d)); [|destruct (fnan _); discriminate].
  intros E. assert (E' : Z.min (Z.max z 0) (8 - 1) = k) by (injection E; auto). lia.
Qed.

Definition cell_of (s : Z) (c : Z * Z) : Prop :=
  exists ra dec, pynth sky s = Ok (ra, dec) /\ slice_cell sky2image nrow ncol ra dec = Ok c.

Lemma slice_cell_range ra dec x y : slice_cell sky2image nrow ncol ra dec = Ok (x, y) -> 0 <= x < 8 /\ 0 <= y < 8.
Proof.
  unfold slice_cell. cbn zeta. destruct (sky2image ra dec) as [[col row]|]; [|discriminate]. cbn [bind].
  destruct (cell_index col _) as [a|] eqn:E1; [|discriminate]. cbn [bind].
  destruct (cell_index row _) as [b|] eqn:E2; [|discriminate]. cbn [bind].
  intros E. injection E as <- <-. split; eapply cell_index_range; eassumption.
Qed.

Lemma distances_spec : forall slices ds, slice_distances sky2image distance nrow ncol sky slices = Ok ds ->
  Forall2 (fun s d => exists x y, cell_of s (x, y) /\ 0 <= x < 8 /\ 0 <= y < 8 /\ distance x y = Ok d) slices ds.
Proof.
  induction slices as [|s slices IH]; intros ds.
  - cbn. intros E. injection E as <-. constructor.
  - cbn [slice_distances]. destruct (pynth sky s) as [[ra dec]|] eqn:E1; [|discriminate]. cbn [bind].
    destruct (slice_cell sky2image nrow ncol ra dec) as [[x y]|] eqn:E2; [|discriminate]. cbn [bind].
    destruct (distance x y) as [d|] eqn:E3; [|discriminate]. cbn [bind].
    destruct (slice_distances _ _ _ _ _ slices) as [rest|] eqn:E4; [|discriminate]. cbn [bind].
    intros E. injection E as <-. constructor; [|auto].
    destruct (slice_cell_range _ _ _ _ E2). exists x, y. repeat split; try lia; try assumption.
    exists ra, dec. auto.
Qed.

Lemma Forall2_length_eq {A B} (P : A -> B -> Prop) l m : Forall2 P l m -> length l = length m.
Proof. induction 1; cbn; congruence. Qed.

Lemma order_spec slices out : is_argsort argsort ->
  order_slices sky2image distance argsort nrow ncol sky slices = Ok out ->
  exists ds, Forall2 (fun s d => exists x y, cell_of s (x, y) /\ 0 <= x < 8 /\ 0 <= y < 8 /\ distance x y = Ok d) slices ds /\
    out = map (fun k => nth (Z.to_nat k) slices 0) (argsort ds) /\
    (forall k, In k (argsort ds) -> 0 <= k < Z.of_nat (length slices)) /\
    Permutation (argsort ds) (zrange 0 (Z.of_nat (length slices))) /\
    StronglySorted Z.le (map (fun k => nth (Z.to_nat k) ds 0) (argsort ds)).
Proof.
  intros HA. unfold order_slices.
  destruct (slice_distances _ _ _ _ _ slices) as [ds|] eqn:E; [|discriminate]. cbn [bind].
  apply distances_spec in E. destruct (HA ds) as [P S]. pose proof (Forall2_length_eq _ _ _ E) as L.
  rewrite <- L in P.
  assert (R : forall k, In k (argsort ds) -> 0 <= k < Z.of_nat (length slices)).
  { intros k Hk. apply (Permutation_in _ P) in Hk. apply In_zrange in Hk. lia. }
  rewrite take_map by exact R. intros Q. injection Q as <-. exists ds. repeat split; auto; apply R; assumption.
Qed.

Theorem order_permutes slices out : is_argsort argsort ->
  order_slices sky2image distance argsort nrow ncol sky slices = Ok out -> Permutation slices out.
Proof.
  intros HA E. destruct (order_spec _ _ HA E) as (ds & _ & -> & _ & P & _).
  apply Permutation_sym.
  exact (Permutation_trans (Permutation_map (fun k => nth (Z.to_nat k) slices 0) P)
           (eq_rect_r (fun l => Permutation l slices) (Permutation_refl slices) (map_nth_all slices))).
Qed.

Lemma sorted_nth : forall l i j, StronglySorted Z.le l -> (i <= j < length l)%nat -> nth i l 0 <= nth j l 0.
Proof.
  intros l i j S. revert i j. induction S as [|a l S IH HF]; intros i j H; [cbn in H; lia|].
  destruct i as [|i], j as [|j]; cbn [nth]; try lia.
  - rewrite Forall_forall in HF. apply HF. apply nth_In. cbn in H. lia.
  - apply IH. cbn in H. lia.
Qed.

Lemma Forall2_nth {A B} (P : A -> B -> Prop) l m a b n : Forall2 P l m -> (n < length l)%nat ->
  P (nth n l a) (nth n m b).
Proof.
  intros H. revert n. induction H as [|x y l m Hxy H IH]; intros n Hn; [cbn in Hn; lia|].
  destruct n; cbn [nth]; [exact Hxy|]. apply IH. cbn in Hn. lia.
Qed.

Theorem same_cell_together slices out c : is_argsort argsort -> is_curve distance ->
  order_slices sky2image distance argsort nrow ncol sky slices = Ok out ->
  forall i j k, (i <= j <= k)%nat -> (k < length out)%nat ->
  cell_of (nth i out 0) c -> cell_of (nth k out 0) c -> cell_of (nth j out 0) c.
Proof.
  intros HA [_ HC] E i j k Hij Hk Ci Ck.
  destruct (order_spec _ _ HA E) as (ds & HF & -> & R & P & S).
  rewrite map_length in Hk.
  set (sind := argsort ds) in *.
  assert (N : forall n, (n < length sind)%nat ->
    nth n (map (fun k => nth (Z.to_nat k) slices 0) sind) 0 = nth (Z.to_nat (nth n sind 0)) slices 0 /\
    nth n (map (fun k => nth (Z.to_nat k) ds 0) sind) 0 = nth (Z.to_nat (nth n sind 0)) ds 0).
  { intros n Hn. split.
    - rewrite (nth_indep _ 0 ((fun k => nth (Z.to_nat k) slices 0) 0)) by (rewrite map_length; exact Hn).
      now rewrite (map_nth (fun k => nth (Z.to_nat k) slices 0)).
    - rewrite (nth_indep _ 0 ((fun k => nth (Z.to_nat k) ds 0) 0)) by (rewrite map_length; exact Hn).
      now rewrite (map_nth (fun k => nth (Z.to_nat k) ds 0)). }
  assert (D : forall n, (n < length sind)%nat -> exists x y,
    cell_of (nth n (map (fun k => nth (Z.to_nat k) slices 0) sind) 0) (x, y) /\ 0 <= x < 8 /\ 0 <= y < 8 /\
    distance x y = Ok (nth n (map (fun k => nth (Z.to_nat k) ds 0) sind) 0)).
  { intros n Hn. destruct (N n Hn) as [-> ->].
    apply (Forall2_nth _ _ _ 0 0 _ HF).
    assert (I : In (nth n sind 0) sind) by (apply nth_In; exact Hn). apply R in I. lia. }
  assert (U : forall s c c', cell_of s c -> cell_of s c' -> c = c').
  { intros s a b (r1 & d1 & A1 & B1) (r2 & d2 & A2 & B2). rewrite A1 in A2. injection A2 as <- <-. congruence. }
  assert (Hi : (i < length sind)%nat) by lia. assert (Hj : (j < length sind)%nat) by lia.
  destruct (D i Hi) as (xi & yi & C1 & X1 & Y1 & D1). destruct (D j Hj) as (xj & yj & C2 & X2 & Y2 & D2).
  destruct (D k Hk) as (xk & yk & C3 & X3 & Y3 & D3).
  pose proof (U _ _ _ Ci C1) as ->. pose proof (U _ _ _ Ck C3) as Q. injection Q as <- <-.
  rewrite D1 in D3. assert (D3' : nth i (map (fun k => nth (Z.to_nat k) ds 0) sind) 0 =
    nth k (map (fun k => nth (Z.to_nat k) ds 0) sind) 0) by congruence.
  assert (A1 : nth i (map (fun k => nth (Z.to_nat k) ds 0) sind) 0 <= nth j (map (fun k => nth (Z.to_nat k) ds 0) sind) 0)
    by (apply sorted_nth; [exact S|rewrite map_length; lia]).
  assert (A2 : nth j (map (fun k => nth (Z.to_nat k) ds 0) sind) 0 <= nth k (map (fun k => nth (Z.to_nat k) ds 0) sind) 0)
    by (apply sorted_nth; [exact S|rewrite map_length; lia]).
  assert (A3 : nth j (map (fun k => nth (Z.to_nat k) ds 0) sind) 0 = nth i (map (fun k => nth (Z.to_nat k) ds 0) sind) 0) by lia.
  rewrite A3 in D2. destruct (HC _ _ _ _ _ X1 Y1 X2 Y2 D1 D2) as [-> ->]. exact C2.
Qed.

(** When it succeeds. *)
Lemma distances_total : is_curve distance ->
  (forall ra dec, In (ra, dec) sky -> exists col row, sky2image ra dec = Ok (col, row) /\
     ftrunc (fdiv col (fdiv (fofZ ncol) (fofZ 8))) <> None /\ ftrunc (fdiv row (fdiv (fofZ nrow) (fofZ 8))) <> None) ->
  forall slices, (forall s, In s slices -> 0 <= s < Z.of_nat (length sky)) ->
  exists ds, slice_distances sky2image distance nrow ncol sky slices = Ok ds.
Proof.
  intros [HC _] HS slices. induction slices as [|s slices IH]; intros H; [cbn; eauto|].
  cbn [slice_distances].
  destruct (pynth_in sky s (H s (or_introl eq_refl))) as ([ra dec] & -> & E). cbn [bind].
  destruct (HS ra dec (nth_error_In _ _ E)) as (col & row & E1 & E2 & E3).
  unfold slice_cell. cbn zeta. unfold ph_order. rewrite E1. cbn [bind].
  destruct (cell_index col (fdiv (fofZ ncol) (fofZ 8))) as [x|] eqn:X1.
  2: { exfalso. apply E2. unfold cell_index in X1. cbn zeta in X1.
       destruct (ftrunc (fdiv col _)); [discriminate|reflexivity]. }
  destruct (cell_index row (fdiv (fofZ nrow) (fofZ 8))) as [y|] eqn:X2.
  2: { exfalso. apply E3. unfold cell_index in X2. cbn zeta in X2.
       destruct (ftrunc (fdiv row _)); [discriminate|reflexivity]. }
  cbn [bind]. destruct (HC x y (cell_index_range _ _ _ X1) (cell_index_range _ _ _ X2)) as [d ->]. cbn [bind].
  destruct IH as [ds ->]; [intros; apply H; right; assumption|]. cbn [bind]. eauto.
Qed.

Theorem order_total : is_argsort argsort -> is_curve distance ->
  (forall ra dec, In (ra, dec) sky -> exists col row, sky2image ra dec = Ok (col, row) /\
     ftrunc (fdiv col (fdiv (fofZ ncol) (fofZ 8))) <> None /\ ftrunc (fdiv row (fdiv (fofZ nrow) (fofZ 8))) <> None) ->
  forall slices, (forall s, In s slices -> 0 <= s < Z.of_nat (length sky)) ->
  exists out, order_slices sky2image distance argsort nrow ncol sky slices = Ok out.
Proof.
  intros HA HC HS slices H. unfold order_slices. destruct (distances_total HC HS slices H) as [ds E]. rewrite E.
  cbn [bind]. apply distances_spec in E. pose proof (Forall2_length_eq _ _ _ E) as L.
  destruct (HA ds) as [P _]. rewrite take_map; [eauto|].
  intros k Hk. apply (Permutation_in _ P) in Hk. apply In_zrange in Hk. lia.
Qed.

Theorem order_raises e slices : is_argsort argsort -> is_curve distance ->
  (forall s, In s slices -> 0 <= s < Z.of_nat (length sky)) ->
  order_slices sky2image distance argsort nrow ncol sky slices = Raise e ->
  exists ra dec, In (ra, dec) sky /\
    (sky2image ra dec = Raise e \/
     exists col row q, sky2image ra dec = Ok (col, row) /\
       (q = fdiv col (fdiv (fofZ ncol) (fofZ 8)) \/ q = fdiv row (fdiv (fofZ nrow) (fofZ 8))) /\
       ftrunc q = None /\ e = if fnan q then ValueError else OverflowError).
Proof.
  intros HA [HC HC'] H. unfold order_slices.
  destruct (slice_distances _ _ _ _ _ slices) as [ds|e'] eqn:E; cbn [bind].
  { apply distances_spec in E. pose proof (Forall2_length_eq _ _ _ E) as L.
    destruct (HA ds) as [P _]. rewrite take_map; [discriminate|].
    intros k Hk. apply (Permutation_in _ P) in Hk. apply In_zrange in Hk. lia. }
  intros Q. injection Q as ->. revert E. induction slices as [|s slices IH]; [discriminate|].
  cbn [slice_distances].
  destruct (pynth_in sky s (H s (or_introl eq_refl))) as ([ra dec] & -> & E). cbn [bind].
  pose proof (nth_error_In _ _ E) as I.
  unfold slice_cell. cbn zeta. unfold ph_order.
  destruct (sky2image ra dec) as [[col row]|e1] eqn:E1; cbn [bind].
  2: { intros Q. injection Q as ->. exists ra, dec. auto. }
  destruct (cell_index col (fdiv (fofZ ncol) (fofZ 8))) as [x|e2] eqn:X1; cbn [bind].
  2: { intros Q. injection Q as ->. exists ra, dec. split; [exact I|]. right. eexists col, row, _.
       split; [exact E1|]. split; [left; reflexivity|].
       unfold cell_index in X1. cbn zeta in X1. destruct (ftrunc (fdiv col _)); [discriminate|].
       split; [reflexivity|]. destruct (fnan _); injection X1 as <-; reflexivity. }
  destruct (cell_index row (fdiv (fofZ nrow) (fofZ 8))) as [y|e2] eqn:X2; cbn [bind].
  2: { intros Q. injection Q as ->. exists ra, dec. split; [exact I|]. right. eexists col, row, _.
       split; [exact E1|]. split; [right; reflexivity|].
       unfold cell_index in X2. cbn zeta in X2. destruct (ftrunc (fdiv row _)); [discriminate|].
       split; [reflexivity|]. destruct (fnan _); injection X2 as <-; reflexivity. }
  destruct (HC x y (cell_index_range _ _ _ X1) (cell_index_range _ _ _ X2)) as [d ->]. cbn [bind].
  destruct (slice_distances _ _ _ _ _ slices) as [rest|e4] eqn:E4; cbn [bind]; [discriminate|].
  intros Q. injection Q as ->. apply IH; [intros; apply H; right; assumption|reflexivity].
Qed.

End Any.

(** Cells in exact arithmetic. *)
Lemma Ztrunc_lt x k : 0 < k -> (Ztrunc x < k <-> (x < IZR k)%R).
Proof.
  intros Hk. split; intros H.
  - destruct (Rlt_le_dec x (IZR k)) as [|L]; [assumption|exfalso].
    pose proof (Ztrunc_le _ _ L) as Q. rewrite Ztrunc_IZR in Q. lia.
  - destruct (Z_lt_le_dec (Ztrunc x) k) as [|L]; [assumption|exfalso].
    destruct (Rle_lt_dec 0 x) as [P|P].
    + rewrite Ztrunc_floor in L by exact P. apply IZR_le in L. pose proof (Zfloor_lb x). lra.
    + rewrite Ztrunc_ceil in L by lra. assert (Zceil x <= 0) by (apply Zceil_glb; lra). lia.
Qed.

Lemma cell_index_R (v : R) (n k : Z) : 0 < n ->
  (cell_index v (fdiv (fofZ n) (fofZ ph_order)) = Ok k <-> in_interval n v k).
Proof.
  intros Hn. unfold cell_index, ph_order. cbn [fdiv fofZ ftrunc ROps].
  set (d := (IZR n / 8)%R). assert (Hd : (0 < d)%R).
  { unfold d. apply Rmult_lt_0_compat; [apply IZR_lt; exact Hn|lra]. }
  set (q := (v / d)%R). assert (Hv : v = (q * d)%R) by (unfold q; field; lra).
  unfold in_interval. fold d. rewrite Hv.
  assert (C1 : forall z, (z * d <= q * d <-> z <= q)%R).
  { intros z. split; intros H; [apply (Rmult_le_reg_r d); assumption|apply Rmult_le_compat_r; lra]. }
  assert (C2 : forall z, (q * d < z * d <-> q < z)%R).
  { intros z. split; intros H; [apply (Rmult_lt_reg_r d); assumption|apply Rmult_lt_compat_r; assumption]. }
  rewrite C1. rewrite <- (plus_IZR k 1). rewrite C2.
  assert (T : forall m, 0 < m -> ((IZR m <= q)%R <-> m <= Ztrunc q)).
  { intros m Hm. pose proof (Ztrunc_lt q m Hm) as W. split; intros H.
    - destruct (Z_lt_le_dec (Ztrunc q) m) as [L|L]; [apply W in L; lra|exact L].
    - destruct (Rlt_le_dec q (IZR m)) as [L|L]; [apply W in L; lia|exact L]. }
  assert (W : 0 <= k -> ((q < IZR (k + 1))%R <-> Ztrunc q < k + 1)).
  { intros Hk. split; apply Ztrunc_lt; lia. }
  split.
  - intros E. assert (E' : Z.min (Z.max (Ztrunc q) 0) (8 - 1) = k) by (injection E; auto).
    split; [lia|]. split; intros Hk; [apply T; lia|apply W; lia].
  - intros (B & H1 & H2). f_equal.
    destruct (Z.eq_dec k 0) as [K0|K0]; destruct (Z.eq_dec k 7) as [K7|K7]; try lia.
    + specialize (H2 K7). apply W in H2; lia.
    + specialize (H1 K0). apply T in H1; lia.
    + specialize (H1 K0). specialize (H2 K7). apply T in H1; [|lia]. apply W in H2; lia.
Qed.

Lemma cell_of_R s2i nrow ncol sky s x y : 0 < nrow -> 0 < ncol -> 0 <= s < Z.of_nat (length sky) ->
  (cell_of (F := R) s2i nrow ncol sky s (x, y) <-> in_cell s2i nrow ncol sky s x y).
Proof.
  intros Hr Hc Hs. destruct (pynth_in sky s Hs) as ([ra dec] & E1 & E2).
  unfold cell_of, in_cell. split.
  - intros (ra' & dec' & A & B). rewrite E1 in A. injection A as <- <-.
    unfold slice_cell in B. cbn zeta in B. destruct (s2i ra dec) as [[col row]|] eqn:W; [|discriminate].
    cbn [bind] in B.
    destruct (cell_index col _) as [a|] eqn:X1; [|discriminate]. cbn [bind] in B.
    destruct (cell_index row _) as [b|] eqn:X2; [|discriminate]. cbn [bind] in B. injection B as <- <-.
    exists ra, dec, col, row. split; [lia|]. split; [exact E2|]. split; [exact W|].
    split; [apply cell_index_R; assumption|apply cell_index_R; assumption].
  - intros (ra' & dec' & col & row & _ & A & W & X1 & X2). rewrite E2 in A. injection A as <- <-.
    exists ra, dec. split; [exact E1|]. unfold slice_cell. cbn zeta. rewrite W. cbn [bind].
    apply cell_index_R in X1; [|assumption]. apply cell_index_R in X2; [|assumption].
    rewrite X1, X2. reflexivity.
Qed.

Theorem cells_together s2i distance argsort nrow ncol sky slices out : 0 < nrow -> 0 < ncol ->
  (forall s, In s slices -> 0 <= s < Z.of_nat (length sky)) ->
  is_argsort argsort -> is_curve distance ->
  order_slices (F := R) s2i distance argsort nrow ncol sky slices = Ok out ->
  forall i j k si sj sk x y, (i <= j <= k)%nat ->
  nth_error out i = Some si -> nth_error out j = Some sj -> nth_error out k = Some sk ->
  in_cell s2i nrow ncol sky si x y -> in_cell s2i nrow ncol sky sk x y -> in_cell s2i nrow ncol sky sj x y.
Proof.
  intros Hr Hc Hs HA HC E i j k si sj sk x y Hij Ei Ej Ek Ci Ck.
  assert (B : forall n s, nth_error out n = Some s -> 0 <= s < Z.of_nat (length sky) /\ nth n out 0 = s).
  { intros n s En. split; [|apply nth_error_nth; exact En]. apply Hs.
    apply (Permutation_in _ (Permutation_sym (order_permutes _ _ _ _ _ _ _ _ HA E))). eapply nth_error_In; eassumption. }
  destruct (B _ _ Ei) as [Bi Ni]. destruct (B _ _ Ej) as [Bj Nj]. destruct (B _ _ Ek) as [Bk Nk].
  apply cell_of_R; [assumption|assumption|assumption|]. rewrite <- Nj.
  apply cell_of_R in Ci; [|assumption|assumption|assumption]. apply cell_of_R in Ck; [|assumption|assumption|assumption].
  rewrite <- Ni in Ci. rewrite <- Nk in Ck.
  refine (same_cell_together _ _ _ _ _ _ _ _ _ HA HC E i j k Hij _ Ci Ck).
  apply nth_error_Some. congruence.
Qed.
