From Coq Require Import ZArith List Bool Reals Permutation Sorted Lia Lra.
From Verif Require Import Lib.Base Lib.Floats Model.PsfImage Model.Piff Spec.PiffSpec Proofs.BaseFacts
  Proofs.SliceInputsProofs.
Import ListNotations.
Open Scope Z_scope.

Lemma or_bit_spec b k flags i : 0 <= k -> 0 <= i ->
  Z.testbit (or_bit b k flags) i = Z.testbit flags i || (b && (i =? k)).
Proof.
  intros Hk Hi. unfold or_bit. destruct b; cbn [andb]; [|now rewrite orb_false_r].
  rewrite Z.lor_spec. f_equal. destruct (Z.eqb_spec i k) as [->|N].
  - apply Z.pow2_bits_true; lia.
  - apply Z.pow2_bits_false; lia.
Qed.

Section Flags.
Context {F : Type} {FO : FloatOps F}.

Lemma piff_flags_spec (p : piff_info (F := F)) c k : 0 <= k ->
  Z.testbit (compute_piff_flags p c) k = true <-> piff_cut_fails p c k.
Proof.
  intros Hk. unfold compute_piff_flags. rewrite !or_bit_spec by lia. rewrite Z.bits_0. cbn [orb].
  unfold piff_cut_fails. rewrite !orb_true_iff, !andb_true_iff, !Z.eqb_eq, negb_true_iff, Z.eqb_neq.
  destruct (max_fwhm_cen c) as [m1|]; destruct (max_ccd_T_std_fac c) as [m2|];
    destruct (min_nstar c) as [m3|]; destruct (max_exp_T_mean_fac c) as [m4|];
    rewrite ?Z.ltb_lt; split;
    (intros [[[[H|H]|H]|H]|H] || intros [H|[H|[H|[H|H]]]]);
    first
    [ left; tauto
    | tauto
    | destruct H as [H1 H2]; try discriminate; subst k;
      (right; left; split; [reflexivity|]; eexists; split; [reflexivity|]; assumption) ||
      (right; right; left; split; [reflexivity|]; eexists; split; [reflexivity|]; assumption) ||
      (right; right; right; left; split; [reflexivity|]; eexists; split; [reflexivity|]; assumption) ||
      (right; right; right; right; split; [reflexivity|]; eexists; split; [reflexivity|]; assumption)
    | destruct H as [H1 (m & H2 & H3)]; try discriminate; injection H2 as ->; tauto ].
Qed.

Lemma piff_flags_nonneg (p : piff_info (F := F)) c : 0 <= compute_piff_flags p c.
Proof.
  unfold compute_piff_flags.
  assert (H : forall b k f, 0 <= k -> 0 <= f -> 0 <= or_bit b k f).
  { intros b k f Hk Hf. unfold or_bit. destruct b; [|assumption]. apply Z.lor_nonneg. split; [assumption|].
    apply Z.pow_nonneg. lia. }
  repeat (apply H; [lia|]). lia.
Qed.

Lemma piff_flags_high (p : piff_info (F := F)) c k : 5 <= k -> Z.testbit (compute_piff_flags p c) k = false.
Proof.
  intros Hk. destruct (Z.testbit _ k) eqn:E; [|reflexivity].
  apply piff_flags_spec in E; [|lia]. unfold piff_cut_fails in E. lia.
Qed.

Lemma lor_keeps f g k : 0 <= k -> Z.testbit f k = true -> Z.testbit (Z.lor f g) k = true.
Proof. intros Hk H. now rewrite Z.lor_spec, H. Qed.

Lemma only_adds_refl (s : src_info (F := F)) : only_adds s s.
Proof. unfold only_adds. destruct (si_flags s); auto. Qed.

Lemma only_adds_trans (a b c : src_info (F := F)) : only_adds a b -> only_adds b c -> only_adds a c.
Proof.
  unfold only_adds. intros (A1 & A2 & A3 & A4) (B1 & B2 & B3 & B4).
  repeat (split; [congruence|]).
  destruct (si_flags a), (si_flags b), (si_flags c); try contradiction; auto.
Qed.

Lemma only_adds_set (s : src_info (F := F)) f g : si_flags s = Some f -> only_adds s (set_flags s (Z.lor f g)).
Proof.
  intros H. unfold only_adds. rewrite H. cbn. repeat (split; [reflexivity|]).
  intros k Hk. now apply lor_keeps.
Qed.

Lemma flag_source_adds cfg (s s' : src_info (F := F)) e : flag_source cfg s = (s', e) -> only_adds s s'.
Proof.
  unfold flag_source. destruct (flag_piff cfg s) as [s1 e1] eqn:E1. intros H.
  assert (A1 : only_adds s s1).
  { clear H. unfold flag_piff in E1. destruct cfg as [c|]; [|inversion E1; apply only_adds_refl].
    destruct (sc_cuts c); [|inversion E1; apply only_adds_refl].
    destruct (si_piff s); [|inversion E1; apply only_adds_refl].
    destruct (si_flags s) as [f|] eqn:Ef; [|inversion E1; subst; apply only_adds_refl].
    destruct (negb _ && negb _); apply pair_equal_spec in E1 as [<- _]; now apply only_adds_set. }
  destruct e1; [apply pair_equal_spec in H as [<- _]; exact A1|].
  apply (only_adds_trans s s1 s' A1). clear -H. unfold flag_ccd in H.
  destruct cfg as [c|]; [|inversion H; apply only_adds_refl].
  destruct (sc_ignored c) as [l|]; [|inversion H; apply only_adds_refl].
  destruct (si_ccdnum s1); [|inversion H; apply only_adds_refl].
  destruct (existsb _ l); [|inversion H; apply only_adds_refl].
  destruct (si_flags s1) as [f|] eqn:Ef; [|inversion H; subst; apply only_adds_refl].
  apply pair_equal_spec in H as [<- _]. now apply only_adds_set.
Qed.

Lemma flag_data_adds cfg : forall (l l' : list (src_info (F := F))) e,
  flag_data_in_info cfg l = (l', e) -> Forall2 only_adds l l'.
Proof.
  induction l as [|s l IH]; intros l' e H; cbn [flag_data_in_info] in H.
  - apply pair_equal_spec in H as [<- _]. constructor.
  - destruct (flag_source cfg s) as [s' [e'|]] eqn:E.
    + apply pair_equal_spec in H as [<- _]. constructor; [exact (flag_source_adds _ _ _ _ E)|].
      clear. induction l; constructor; auto using only_adds_refl.
    + destruct (flag_data_in_info cfg l) as [l1 e1] eqn:El. apply pair_equal_spec in H as [<- _].
      constructor; [exact (flag_source_adds _ _ _ _ E)|]. exact (IH _ _ eq_refl).
Qed.

Lemma existsb_In n l : existsb (Z.eqb n) l = true <-> In n l.
Proof.
  rewrite existsb_exists. split.
  - intros (x & H & E). apply Z.eqb_eq in E. now subst.
  - intros H. exists n. split; [assumption|apply Z.eqb_refl].
Qed.

(** One complete source. *)
Lemma flag_source_spec cfg (s : src_info (F := F)) f : complete_source s -> si_flags s = Some f ->
  exists s' f', flag_source (Some cfg) s = (s', None) /\ si_flags s' = Some f' /\
    si_ccdnum s' = si_ccdnum s /\ si_piff s' = si_piff s /\ si_logged s' = si_logged s /\
    forall k, 0 <= k -> (Z.testbit f' k = true <-> Z.testbit f k = true \/ flag_due cfg s k).
Proof.
  intros (_ & Hc & Hl) Hf. destruct (si_ccdnum s) as [n|] eqn:En; [|congruence].
  set (g1 := match sc_cuts cfg, si_piff s with Some cuts, Some p => compute_piff_flags p cuts | _, _ => 0 end).
  assert (E1 : exists s1, flag_piff (Some cfg) s = (s1, None) /\ si_flags s1 = Some (Z.lor f g1) /\
     si_ccdnum s1 = Some n /\ si_piff s1 = si_piff s /\ si_logged s1 = si_logged s).
  { unfold flag_piff, g1. destruct (sc_cuts cfg) as [cuts|]; [|exists s; rewrite Z.lor_0_r; auto].
    destruct (si_piff s) as [p|] eqn:Ep; [|exists s; rewrite Z.lor_0_r; auto].
    rewrite Hf. cbn [set_flags si_logged]. rewrite Hl, andb_false_r.
    eexists. split; [reflexivity|]. cbn. auto. }
  destruct E1 as (s1 & E1 & F1 & F2 & F3 & F4).
  set (g2 := match sc_ignored cfg with Some l => if existsb (Z.eqb n) l then 2 ^ 30 else 0 | None => 0 end).
  assert (E2 : exists s2, flag_ccd (Some cfg) s1 = (s2, None) /\ si_flags s2 = Some (Z.lor (Z.lor f g1) g2) /\
     si_ccdnum s2 = Some n /\ si_piff s2 = si_piff s /\ si_logged s2 = si_logged s).
  { unfold flag_ccd, g2. destruct (sc_ignored cfg) as [l|]; [|exists s1; rewrite Z.lor_0_r; auto].
    rewrite F2. destruct (existsb _ l); [|exists s1; rewrite Z.lor_0_r; auto].
    rewrite F1. eexists. split; [reflexivity|]. cbn [set_flags si_flags si_ccdnum si_piff si_logged]. auto. }
  destruct E2 as (s2 & E2 & G1 & G2 & G3 & G4).
  exists s2, (Z.lor (Z.lor f g1) g2). unfold flag_source. rewrite E1, E2.
  split; [reflexivity|]. split; [exact G1|]. split; [exact G2|]. split; [exact G3|]. split; [exact G4|].
  intros k Hk. rewrite !Z.lor_spec, !orb_true_iff. unfold flag_due.
  assert (P1 : Z.testbit g1 k = true <->
     exists cuts p, sc_cuts cfg = Some cuts /\ si_piff s = Some p /\ piff_cut_fails p cuts k).
  { unfold g1. destruct (sc_cuts cfg) as [cuts|].
    - destruct (si_piff s) as [p|].
      + rewrite (piff_flags_spec p cuts k Hk). split; [eauto|].
        intros (c' & p' & H1 & H2 & H3). congruence.
      + rewrite Z.bits_0. split; [discriminate|]. intros (c' & p' & _ & H & _). discriminate.
    - rewrite Z.bits_0. split; [discriminate|]. intros (c' & p' & H & _). discriminate. }
  assert (P2 : Z.testbit g2 k = true <->
     k = 30 /\ exists ccds n0, sc_ignored cfg = Some ccds /\ si_ccdnum s = Some n0 /\ In n0 ccds).
  { rewrite En. unfold g2. destruct (sc_ignored cfg) as [l|].
    - destruct (existsb (Z.eqb n) l) eqn:Ex.
      + apply existsb_In in Ex. split.
        * intros H. destruct (Z.eq_dec k 30) as [->|N]; [|rewrite Z.pow2_bits_false in H by lia; discriminate].
          split; [reflexivity|]. eauto.
        * intros [-> _]. apply Z.pow2_bits_true. lia.
      + rewrite Z.bits_0. split; [discriminate|]. intros [_ (l' & n' & H1 & H2 & H3)].
        injection H1 as <-. injection H2 as <-. apply existsb_In in H3. congruence.
    - rewrite Z.bits_0. split; [discriminate|]. intros [_ (l' & n' & H & _)]. discriminate. }
  rewrite P1, P2, En. tauto.
Qed.
End Flags.

(** Medians over the reals. *)
Lemma insert_perm (x : R) l : Permutation (x :: l) (insert x l).
Proof.
  induction l as [|y l IH]; cbn [insert]; [reflexivity|].
  destruct (fleb x y); [reflexivity|]. rewrite perm_swap. now constructor.
Qed.

Lemma fsort_perm (l : list R) : Permutation l (fsort l).
Proof.
  induction l as [|x l IH]; cbn [fsort fold_right]; [constructor|].
  fold (fsort l). rewrite <- insert_perm. now constructor.
Qed.

Lemma fleb_R (x y : R) : fleb x y = true <-> (x <= y)%R.
Proof. cbn [fleb ROps]. unfold Rleb. destruct (Rle_dec x y); split; intros; try discriminate; auto; contradiction. Qed.

Lemma fltb_R (x y : R) : fltb x y = true <-> (x < y)%R.
Proof. cbn [fltb ROps]. unfold Rltb. destruct (Rlt_dec x y); split; intros; try discriminate; auto; contradiction. Qed.

Lemma insert_sorted (x : R) l : StronglySorted Rle l -> StronglySorted Rle (insert x l).
Proof.
  induction l as [|y l IH]; intros H; cbn [insert].
  - constructor; constructor.
  - destruct (fleb x y) eqn:E.
    + apply fleb_R in E. constructor; [exact H|]. constructor; [exact E|].
      apply StronglySorted_inv in H as [_ H]. apply Forall_forall. intros z Hz.
      apply (proj1 (Forall_forall _ _) H) in Hz. lra.
    + assert (Hxy : (y <= x)%R).
      { destruct (Rle_dec x y) as [K|K]; [|lra]. apply fleb_R in K. congruence. }
      apply StronglySorted_inv in H as [H1 H2]. constructor; [exact (IH H1)|].
      apply (Permutation_Forall (insert_perm x l)). now constructor.
Qed.

Lemma fsort_sorted (l : list R) : StronglySorted Rle (fsort l).
Proof.
  induction l as [|x l IH]; cbn [fsort fold_right]; [constructor|]. now apply insert_sorted.
Qed.

Lemma median_R (l : list R) : is_median l (median l).
Proof.
  exists (fsort l). split; [apply fsort_perm|]. split; [apply fsort_sorted|].
  unfold median. set (n := Z.of_nat (length l)).
  assert (E2 : Z.to_nat (n / 2) = Nat.div (length l) 2).
  { unfold n. change 2 with (Z.of_nat 2). rewrite <- Nat2Z.inj_div. apply Nat2Z.id. }
  assert (E1 : Z.to_nat ((n - 1) / 2) = Nat.div (length l - 1) 2).
  { unfold n. destruct (length l) as [|k] eqn:El; [reflexivity|].
    replace (Z.of_nat (S k) - 1) with (Z.of_nat (S k - 1)) by lia.
    change 2 with (Z.of_nat 2). rewrite <- Nat2Z.inj_div. apply Nat2Z.id. }
  rewrite E1, E2. destruct (Z.eqb_spec (n mod 2) 1) as [E|E].
  - assert (Heq : Nat.div (length l - 1) 2 = Nat.div (length l) 2).
    { rewrite <- E1, <- E2. f_equal. pose proof (Z.div_mod n 2 ltac:(lia)) as D. rewrite E in D.
      replace (n - 1) with (n / 2 * 2) by lia. apply Z.div_mul. lia. }
    rewrite Heq. change (@fzero R ROps) with 0%R. lra.
  - reflexivity.
Qed.

Lemma max_R (d : R) ds t : (t < np_max d ds)%R <-> exists v, In v (d :: ds) /\ (t < v)%R.
Proof.
  unfold np_max. revert d. induction ds as [|y ds IH]; intros d; cbn [fold_left].
  - split; [intros H; exists d; split; [left; reflexivity|exact H]|].
    intros (v & [<-|[]] & H). exact H.
  - rewrite IH. destruct (fltb d y) eqn:E.
    + apply fltb_R in E. split.
      * intros (v & H1 & H2). exists v. split; [right; exact H1|exact H2].
      * intros (v & [<-|H1] & H2).
        -- exists y. split; [left; reflexivity|lra].
        -- exists v. split; [exact H1|exact H2].
    + assert (K : (y <= d)%R).
      { destruct (Rle_dec y d) as [K|K]; [exact K|]. assert (K' : (d < y)%R) by lra. apply fltb_R in K'. congruence. }
      split.
      * intros (v & [<-|H1] & H2).
        -- exists d. split; [left; reflexivity|exact H2].
        -- exists v. split; [right; right; exact H1|exact H2].
      * intros (v & [<-|[<-|H1]] & H2).
        -- exists d. split; [left; reflexivity|exact H2].
        -- exists d. split; [left; reflexivity|lra].
        -- exists v. split; [right; exact H1|exact H2].
Qed.

Lemma is_median_unique l m m' : is_median l m -> is_median l m' -> m = m'.
Proof.
  intros (s & P & S & ->) (s' & P' & S' & ->).
  assert (E : s = s'); [|now subst].
  assert (Q : Permutation s s') by (rewrite <- P; exact P'). clear P P' l.
  revert s' S' Q. induction s as [|x s IH]; intros s' S' Q.
  - now apply Permutation_nil in Q.
  - destruct s' as [|y s']; [apply Permutation_sym, Permutation_nil in Q; discriminate|].
    apply StronglySorted_inv in S as [S1 S2]. pose proof S' as S'0. apply StronglySorted_inv in S' as [S1' S2'].
    assert (Hxy : x = y).
    { assert (Hx : In x (y :: s')) by (apply (Permutation_in _ Q); left; reflexivity).
      assert (Hy : In y (x :: s)) by (apply (Permutation_in _ (Permutation_sym Q)); left; reflexivity).
      assert (L1 : (y <= x)%R) by (destruct Hx as [->|Hx]; [lra|exact (proj1 (Forall_forall _ _) S2' _ Hx)]).
      assert (L2 : (x <= y)%R) by (destruct Hy as [->|Hy]; [lra|exact (proj1 (Forall_forall _ _) S2 _ Hy)]).
      lra. }
    subst y. f_equal. apply IH; [exact S1|exact S1'|]. now apply Permutation_cons_inv in Q.
Qed.
