From Coq Require Import ZArith List Bool Reals Lia Lra ZifyBool SpecFloat.
From Flocq Require Import Core BinarySingleNaN.
From Verif Require Import Lib.Base Lib.Floats Model.Flag Spec.FlagSpec Spec.FloatSpec
  Proofs.BaseFacts Proofs.F64Facts.
Import ListNotations.
Open Scope Z_scope.

Lemma flagged_land flags b : negb (Z.land b flags =? 0) = true <-> flagged flags b.
Proof.
  rewrite negb_true_iff, Z.eqb_neq. split.
  - intros Hne. destruct (Z.eq_dec (Z.land b flags) 0) as [|_]; [contradiction|].
    destruct (Z.lt_trichotomy (Z.land b flags) 0) as [Hneg|[?|Hpos]]; [|contradiction|].
    + (* infinitely many high bits are set *)
      set (v := Z.land b flags) in *.
      exists (Z.log2 (Z.pred (- v)) + 1).
      assert (Hk : 0 <= Z.log2 (Z.pred (- v)) + 1)
        by (pose proof (Z.log2_nonneg (Z.pred (- v))); lia).
      split; [assumption|].
      assert (Hb : Z.testbit v (Z.log2 (Z.pred (- v)) + 1) = true).
      { apply Z.bits_above_log2_neg; lia. }
      unfold v in Hb at 1. rewrite Z.land_spec in Hb. apply andb_true_iff in Hb. tauto.
    + exists (Z.log2 (Z.land b flags)). split; [apply Z.log2_nonneg|].
      pose proof (Z.bit_log2 _ Hpos) as Hb. rewrite Z.land_spec in Hb.
      apply andb_true_iff in Hb. tauto.
  - intros (k & Hk & H1 & H2) C.
    assert (Z.testbit (Z.land b flags) k = false) by (rewrite C; apply Z.testbit_0_l).
    rewrite Z.land_spec, H1, H2 in H. discriminate.
Qed.

Section P.
Context {F : Type} `{FO : FloatOps F}.

Lemma forallb_row {A} (p : A -> bool) (a : img A) r :
  forallb p (row_of a r) = true <-> forall c, 0 <= c < ncols a -> p (px a r c) = true.
Proof.
  rewrite forallb_forall. split.
  - intros Hall c Hc. apply Hall. apply In_row_of. eauto.
  - intros Hall x Hx. apply In_row_of in Hx as (c & Hc & <-). auto.
Qed.

Lemma forallb_col {A} (p : A -> bool) (a : img A) c :
  forallb p (col_of a c) = true <-> forall r, 0 <= r < nrows a -> p (px a r c) = true.
Proof.
  rewrite forallb_forall. split.
  - intros Hall r Hr. apply Hall. apply In_col_of. eauto.
  - intros Hall x Hx. apply In_col_of in Hx as (r & Hr & <-). auto.
Qed.

Lemma np_row_first {A} (a : img A) : 1 <= nrows a -> np_row a 0 = Ok (row_of a 0).
Proof.
  intros Hn. unfold np_row. replace (pyindex (nrows a) 0) with (Some 0); [reflexivity|].
  symmetry. apply pyindex_spec. lia.
Qed.
Lemma np_row_last {A} (a : img A) : 1 <= nrows a -> np_row a (-1) = Ok (row_of a (nrows a - 1)).
Proof.
  intros Hn. unfold np_row. replace (pyindex (nrows a) (-1)) with (Some (nrows a - 1)); [reflexivity|].
  symmetry. apply pyindex_spec. lia.
Qed.
Lemma np_col_first {A} (a : img A) : 1 <= ncols a -> np_col a 0 = Ok (col_of a 0).
Proof.
  intros Hn. unfold np_col. replace (pyindex (ncols a) 0) with (Some 0); [reflexivity|].
  symmetry. apply pyindex_spec. lia.
Qed.
Lemma np_col_last {A} (a : img A) : 1 <= ncols a -> np_col a (-1) = Ok (col_of a (ncols a - 1)).
Proof.
  intros Hn. unfold np_col. replace (pyindex (ncols a) (-1)) with (Some (ncols a - 1)); [reflexivity|].
  symmetry. apply pyindex_spec. lia.
Qed.

Lemma edge_test {A} (p : A -> bool) (a : img A) e :
  1 <= nrows a -> 1 <= ncols a ->
  (forallb p (match e with
              | FirstRow => row_of a 0
              | LastRow => row_of a (nrows a - 1)
              | FirstCol => col_of a 0
              | LastCol => col_of a (ncols a - 1)
              end) = true <->
   forall r c, inb a r c -> on_edge (nrows a) (ncols a) e r c -> p (px a r c) = true).
Proof.
  intros Hr Hc. destruct e; cbn [on_edge]; rewrite ?forallb_row, ?forallb_col; split.
  all: try (intros Hall r c [Hin1 Hin2] ->; apply Hall; assumption).
  all: intros Hall x Hx; apply Hall; [unfold inb; lia|reflexivity].
Qed.

Theorem full_edge_spec weight bmask bad :
  1 <= nrows weight -> 1 <= ncols weight ->
  nrows bmask = nrows weight -> ncols bmask = ncols weight ->
  exists b, slice_full_edge_masked weight bmask bad = Ok b /\
  (b = true <->
   exists e,
     (forall r c, inb weight r c -> on_edge (nrows weight) (ncols weight) e r c ->
        no_weight (px weight r c)) \/
     (forall r c, inb weight r c -> on_edge (nrows weight) (ncols weight) e r c ->
        flagged bad (px bmask r c))).
Proof.
  intros Hr Hc Hr2 Hc2. unfold slice_full_edge_masked.
  rewrite !np_row_first, !np_row_last, !np_col_first, !np_col_last by lia. cbn [bind].
  set (pw := fun w : F => fleb w fzero).
  set (pb := fun b => negb (Z.land b bad =? 0)).
  pose proof (fun e => edge_test pw weight e Hr Hc) as Ew.
  pose proof (fun e => edge_test pb bmask e ltac:(lia) ltac:(lia)) as Eb.
  set (W := fun e => forallb pw (match e with
              | FirstRow => row_of weight 0
              | LastRow => row_of weight (nrows weight - 1)
              | FirstCol => col_of weight 0
              | LastCol => col_of weight (ncols weight - 1)
              end)) in *.
  set (B := fun e => forallb pb (match e with
              | FirstRow => row_of bmask 0
              | LastRow => row_of bmask (nrows bmask - 1)
              | FirstCol => col_of bmask 0
              | LastCol => col_of bmask (ncols bmask - 1)
              end)) in *.
  exists (W FirstRow || W LastRow || W FirstCol || W LastCol ||
          B FirstRow || B LastRow || B FirstCol || B LastCol).
  split.
  - unfold W, B.
    destruct (forallb pw (row_of weight 0)); [reflexivity|].
    destruct (forallb pw (row_of weight (nrows weight - 1))); [reflexivity|].
    destruct (forallb pw (col_of weight 0)); [reflexivity|].
    destruct (forallb pw (col_of weight (ncols weight - 1))); [reflexivity|].
    destruct (forallb pb (row_of bmask 0)); [reflexivity|].
    destruct (forallb pb (row_of bmask (nrows bmask - 1))); [reflexivity|].
    destruct (forallb pb (col_of bmask 0)); [reflexivity|].
    destruct (forallb pb (col_of bmask (ncols bmask - 1))); reflexivity.
  - assert (Eb' : forall e, B e = true <-> forall r c, inb weight r c ->
        on_edge (nrows weight) (ncols weight) e r c -> flagged bad (px bmask r c)).
    { intros e. unfold B. rewrite (Eb e), Hr2, Hc2. unfold pb.
      split; intros Hall r c Hin He; apply flagged_land; apply Hall;
        try assumption; unfold inb in *; lia. }
    assert (Hany : (W FirstRow || W LastRow || W FirstCol || W LastCol ||
          B FirstRow || B LastRow || B FirstCol || B LastCol) = true <->
          exists e, W e = true \/ B e = true).
    { rewrite !orb_true_iff. split.
      - intros [[[[[[[?|?]|?]|?]|?]|?]|?]|?].
        + exists FirstRow; auto. + exists LastRow; auto.
        + exists FirstCol; auto. + exists LastCol; auto.
        + exists FirstRow; auto. + exists LastRow; auto.
        + exists FirstCol; auto. + exists LastCol; auto.
      - intros ([] & [?|?]); tauto. }
    rewrite Hany. split; intros (e & [He|He]); exists e.
    + left. now apply Ew. + right. now apply Eb'.
    + left. now apply Ew. + right. now apply Eb'.
Qed.

Theorem full_edge_empty weight bmask bad :
  nrows weight = 0 -> slice_full_edge_masked weight bmask bad = Raise IndexError.
Proof.
  intros Hn. unfold slice_full_edge_masked, np_row at 1.
  replace (pyindex (nrows weight) 0) with (@None Z); [reflexivity|].
  symmetry. apply pyindex_None. lia.
Qed.

Theorem has_flags_spec bmask flags :
  slice_has_flags bmask flags = true <->
  exists r c, inb bmask r c /\ flagged flags (px bmask r c).
Proof.
  unfold slice_has_flags. rewrite np_any_spec. split.
  - intros (r & c & Hin & Hf). exists r, c. split; [assumption|]. now apply flagged_land.
  - intros (r & c & Hin & Hf). exists r, c. split; [assumption|]. now apply flagged_land.
Qed.

(** *** Counting *)

Lemma np_count_counts m (P : Z -> Z -> Prop) :
  (forall r c, inb m r c -> (px m r c = true <-> P r c)) ->
  counts (nrows m) (ncols m) P (np_count m).
Proof.
  intros HP. exists (true_pix m). split; [apply NoDup_true_pix|].
  split; [now rewrite np_count_true_pix|].
  intros r c. rewrite In_true_pix. unfold inb in *. split.
  - intros [Hin Hp]. split; [assumption|]. now apply HP.
  - intros [Hin Hp]. split; [assumption|]. now apply HP.
Qed.

Lemma counts_le nr nc (P Q : Z -> Z -> Prop) p q :
  counts nr nc P p -> counts nr nc Q q ->
  (forall r c, 0 <= r < nr -> 0 <= c < nc -> P r c -> Q r c) -> p <= q.
Proof.
  intros (lp & Np & <- & Ep) (lq & Nq & <- & Eq) HPQ. apply inj_le.
  apply NoDup_incl_length; [assumption|]. intros [r c] Hin.
  apply Ep in Hin as [Hin Hp]. apply Eq. split; [assumption|]. now apply HPQ.
Qed.

Lemma counts_unique nr nc (P : Z -> Z -> Prop) p q :
  counts nr nc P p -> counts nr nc P q -> p = q.
Proof.
  intros Hp Hq. apply Z.le_antisymm; eapply counts_le; eauto.
Qed.

Lemma counts_zero nr nc (P : Z -> Z -> Prop) n :
  counts nr nc P n -> (n = 0 <-> forall r c, 0 <= r < nr -> 0 <= c < nc -> ~ P r c).
Proof.
  intros (l & Hn & <- & E). split.
  - intros H0 r c Hr Hc Hp. assert (Hin : In (r, c) l) by (apply E; auto).
    destruct l; [destruct Hin|cbn in H0; lia].
  - intros Hno. destruct l as [|[r c] l]; [reflexivity|].
    assert (Hin : In (r, c) ((r, c) :: l)) by (left; reflexivity).
    apply E in Hin as [[Hr Hc] Hp]. exfalso. eapply Hno; eauto.
Qed.

Lemma counts_nonneg nr nc P n : counts nr nc P n -> 0 <= n.
Proof. intros (l & _ & <- & _). lia. Qed.

Lemma counts_equal nr nc (P Q : Z -> Z -> Prop) p q :
  counts nr nc P p -> counts nr nc Q q ->
  (forall r c, 0 <= r < nr -> 0 <= c < nc -> P r c -> Q r c) ->
  (p = q <-> forall r c, 0 <= r < nr -> 0 <= c < nc -> Q r c -> P r c).
Proof.
  intros (lp & Np & Lp & Ep) (lq & Nq & Lq & Eq) HPQ. split.
  - intros E r c Hr Hc Hq.
    assert (Hincl : incl lp lq).
    { intros [r' c'] Hin. apply Ep in Hin as [Hin Hp]. apply Eq. split; [assumption|].
      now apply HPQ. }
    assert (Hincl' : incl lq lp).
    { apply NoDup_length_incl; [assumption| lia |assumption]. }
    assert (Hin : In (r, c) lp) by (apply Hincl', Eq; auto).
    apply Ep in Hin. tauto.
  - intros HQP. apply Z.le_antisymm.
    + eapply counts_le; [exists lp|exists lq|]; eauto.
    + eapply counts_le; [exists lq|exists lp|]; eauto.
Qed.

Theorem masked_fraction_quotient weight bmask bad ig :
  nrows bmask = nrows weight -> ncols bmask = ncols weight ->
  match ig with
  | Some m => nrows m = nrows weight /\ ncols m = ncols weight
  | None => True end ->
  (exists r c, inb weight r c /\ counted ig r c) ->
  exists n d,
    counts (nrows weight) (ncols weight)
      (fun r c => unusable weight bmask bad r c /\ counted ig r c) n /\
    counts (nrows weight) (ncols weight) (fun r c => counted ig r c) d /\
    0 < d /\
    compute_masked_fraction weight bmask bad ig = fdiv (fofZ n) (fofZ d).
Proof.
  intros Hr Hc Hig Hex. unfold compute_masked_fraction.
  set (bd := imap2 _ weight bmask).
  assert (Hbd : forall r c, px bd r c = true <-> unusable weight bmask bad r c).
  { intros r c. cbn. rewrite orb_true_iff, flagged_land. reflexivity. }
  destruct ig as [m|].
  - destruct Hig as [Hmr Hmc]. destruct (np_all m) eqn:E.
    + exfalso. destruct Hex as (r & c & Hin & Hk). rewrite np_all_spec in E.
      cbn in Hk. rewrite E in Hk; [discriminate|]. unfold inb in *. lia.
    + assert (Hd : counts (nrows weight) (ncols weight) (fun r c => counted (Some m) r c)
                     (np_count (imap negb m))).
      { rewrite <- Hmr, <- Hmc. apply (np_count_counts (imap negb m)).
        intros r c _. cbn. apply negb_true_iff. }
      exists (np_count (imap2 andb bd (imap negb m))), (np_count (imap negb m)).
      split; [|split; [exact Hd|split; [|reflexivity]]].
      * apply (np_count_counts (imap2 andb bd (imap negb m))).
        intros r c _. change (px (imap2 andb bd (imap negb m)) r c)
          with (px bd r c && negb (px m r c)).
        rewrite andb_true_iff, Hbd, negb_true_iff. reflexivity.
      * pose proof (counts_nonneg _ _ _ _ Hd). pose proof (counts_zero _ _ _ _ Hd) as [Hz _].
        destruct (Z.eq_dec (np_count (imap negb m)) 0) as [H0|]; [|lia].
        destruct Hex as (r & c & [Hi Hj] & Hk). exfalso. exact (Hz H0 r c Hi Hj Hk).
  - assert (Hd : counts (nrows weight) (ncols weight) (fun r c => counted None r c) (isize bd)).
    { exists (allpix (nrows weight) (ncols weight)). split; [apply NoDup_allpix|].
      split.
      - rewrite allpix_length. unfold isize, bd. cbn.
        destruct Hex as (r & c & [Hi Hj] & _). lia.
      - intros r c. rewrite In_allpix. cbn. tauto. }
    exists (np_count bd), (isize bd). split; [|split; [exact Hd|split; [|reflexivity]]].
    + apply (np_count_counts bd). intros r c _. rewrite Hbd. cbn. tauto.
    + destruct Hex as (r & c & [Hi Hj] & _). unfold isize, bd. cbn. nia.
Qed.

Theorem masked_fraction_all_ignored weight bmask bad m :
  (forall r c, inb m r c -> px m r c = true) ->
  compute_masked_fraction weight bmask bad (Some m) = fone.
Proof.
  intros Hall. unfold compute_masked_fraction.
  apply np_all_spec in Hall. now rewrite Hall.
Qed.

Lemma np_count_ext a b : img_eq a b -> np_count a = np_count b.
Proof.
  intros (Hr & Hc & He). rewrite !np_count_true_pix. f_equal. f_equal.
  unfold true_pix. rewrite <- Hr, <- Hc. apply filter_ext_in.
  intros [r c] Hin. apply In_allpix in Hin. cbn. now apply He.
Qed.

Theorem masked_fraction_ignores weight weight' bmask bmask' bad m :
  nrows weight' = nrows weight -> ncols weight' = ncols weight ->
  (forall r c, inb weight r c -> px m r c = false ->
     px weight' r c = px weight r c /\ px bmask' r c = px bmask r c) ->
  compute_masked_fraction weight' bmask' bad (Some m)
  = compute_masked_fraction weight bmask bad (Some m).
Proof.
  intros Hr Hc Heq. unfold compute_masked_fraction. destruct (np_all m); [reflexivity|].
  do 2 f_equal. apply np_count_ext. split; [exact Hr|]. split; [exact Hc|].
  intros r c Hin. cbn. destruct (px m r c) eqn:E; cbn; [now rewrite !andb_false_r|].
  destruct (Heq r c) as [-> ->]; [unfold inb in *; cbn in *; lia|assumption|reflexivity].
Qed.

End P.

(** *** In double arithmetic *)

Lemma quotient_is n d :
  0 <= n <= d -> 0 < d <= 2 ^ 53 ->
  f64_is (SFdiv 53 1024 (f64_ofZ n) (f64_ofZ d)) (rnd64 (IZR n / IZR d)).
Proof.
  intros Hn Hd. assert (0 < IZR d)%R by (apply IZR_lt; lia).
  apply f64_div_is.
  - apply f64_ofZ_is. lia.
  - apply f64_ofZ_is. lia.
  - lra.
  - rewrite Rabs_pos_eq.
    + apply Rle_trans with 1%R.
      * apply Rmult_le_reg_r with (IZR d); [assumption|].
        unfold Rdiv. rewrite Rmult_assoc, Rinv_l, Rmult_1_r, Rmult_1_l by lra.
        apply IZR_le. lia.
      * change (bpow radix2 60) with (IZR (2 ^ 60)). apply IZR_le. lia.
    + apply Rmult_le_pos; [apply IZR_le; lia|]. apply Rlt_le, Rinv_0_lt_compat. assumption.
Qed.

Lemma rnd64_fraction n d :
  0 <= n <= d -> 0 < d <= 2 ^ 52 ->
  (0 <= rnd64 (IZR n / IZR d) <= 1)%R /\
  (rnd64 (IZR n / IZR d) = 0%R <-> n = 0) /\
  (rnd64 (IZR n / IZR d) = 1%R <-> n = d).
Proof.
  intros Hn Hd. assert (Hdp : (0 < IZR d)%R) by (apply IZR_lt; lia).
  assert (Hq0 : (0 <= IZR n / IZR d)%R).
  { apply Rmult_le_pos; [apply IZR_le; lia|]. apply Rlt_le, Rinv_0_lt_compat. assumption. }
  assert (Hq1 : (IZR n / IZR d <= 1)%R).
  { apply Rmult_le_reg_r with (IZR d); [assumption|].
    unfold Rdiv. rewrite Rmult_assoc, Rinv_l, Rmult_1_r, Rmult_1_l by lra.
    apply IZR_le. lia. }
  assert (F0 : generic_format radix2 (SpecFloat.fexp 53 1024) 0) by apply generic_format_0.
  assert (F1 : generic_format radix2 (SpecFloat.fexp 53 1024) 1)
    by (apply (int_format 1); cbn; lia).
  unfold rnd64. split; [|split].
  - split.
    + apply round_ge_generic; [apply fexp_correct; reflexivity|typeclasses eauto|assumption..].
    + apply round_le_generic; [apply fexp_correct; reflexivity|typeclasses eauto|assumption..].
  - split.
    + intros E. apply (rnd_quotient_integer n d 0) in E; lia.
    + intros ->. unfold Rdiv. rewrite Rmult_0_l. apply round_0. typeclasses eauto.
  - split.
    + intros E. apply (rnd_quotient_integer n d 1) in E; lia.
    + intros ->. unfold Rdiv. rewrite Rinv_r by lra. apply rnd_id. assumption.
Qed.

Lemma rnd64_fraction_mono n n' d :
  n <= n' -> 0 < d -> (rnd64 (IZR n / IZR d) <= rnd64 (IZR n' / IZR d))%R.
Proof.
  intros Hn Hd. unfold rnd64.
  apply round_le; [apply fexp_correct; reflexivity|typeclasses eauto|].
  apply Rmult_le_compat_r; [|now apply IZR_le].
  apply Rlt_le, Rinv_0_lt_compat. apply IZR_lt. lia.
Qed.

Lemma counts_area nr nc P n : 0 <= nr -> 0 <= nc -> counts nr nc P n -> n <= nr * nc.
Proof.
  intros Hr Hc H. apply (counts_le nr nc P (fun _ _ => True)); [assumption| |auto].
  exists (allpix nr nc). split; [apply NoDup_allpix|]. split; [rewrite allpix_length; lia|].
  intros r c. rewrite In_allpix. tauto.
Qed.

Theorem masked_fraction_f64 weight bmask bad ig :
  nrows bmask = nrows weight -> ncols bmask = ncols weight ->
  match ig with
  | Some m => nrows m = nrows weight /\ ncols m = ncols weight
  | None => True end ->
  nrows weight * ncols weight <= 2 ^ 52 ->
  (exists r c, inb weight r c /\ counted ig r c) ->
  exists n d,
    counts (nrows weight) (ncols weight)
      (fun r c => unusable weight bmask bad r c /\ counted ig r c) n /\
    counts (nrows weight) (ncols weight) (fun r c => counted ig r c) d /\
    0 < d /\
    let v := rnd64 (IZR n / IZR d) in
    f64_is (compute_masked_fraction (F := f64) weight bmask bad ig) v /\
    (0 <= v <= 1)%R /\
    (v = 0%R <-> forall r c, inb weight r c -> counted ig r c ->
                   ~ unusable weight bmask bad r c) /\
    (v = 1%R <-> forall r c, inb weight r c -> counted ig r c ->
                   unusable weight bmask bad r c).
Proof.
  intros Hr Hc Hig Hsz Hex.
  destruct (masked_fraction_quotient weight bmask bad ig Hr Hc Hig Hex)
    as (n & d & Hn & Hd & Hpos & E).
  exists n, d. split; [assumption|]. split; [assumption|]. split; [assumption|].
  assert (Hwf : 0 <= nrows weight /\ 0 <= ncols weight).
  { destruct Hex as (r & c & [Hi Hj] & _). lia. }
  assert (Hnd : 0 <= n <= d).
  { split; [eapply counts_nonneg; eassumption|].
    eapply counts_le; [exact Hn|exact Hd|]. cbn. tauto. }
  assert (Hdb : 0 < d <= 2 ^ 52).
  { split; [assumption|]. pose proof (counts_area _ _ _ _ (proj1 Hwf) (proj2 Hwf) Hd). lia. }
  cbv zeta. rewrite E. cbn [fdiv fofZ F64Ops].
  split; [apply quotient_is; lia|].
  destruct (rnd64_fraction n d Hnd Hdb) as (H1 & H2 & H3).
  split; [assumption|]. split.
  - rewrite H2, (counts_zero _ _ _ _ Hn). unfold inb. split.
    + intros Hno r c [Hi Hj] Hk Hu. exact (Hno r c Hi Hj (conj Hu Hk)).
    + intros Hno r c Hi Hj [Hu Hk]. exact (Hno r c (conj Hi Hj) Hk Hu).
  - rewrite H3. rewrite (counts_equal _ _ _ _ _ _ Hn Hd) by tauto. unfold inb. split.
    + intros Hall r c [Hi Hj] Hk. exact (proj1 (Hall r c Hi Hj Hk)).
    + intros Hall r c Hi Hj Hk. split; [now apply Hall|assumption].
Qed.

Lemma flagged_mono bad bad' b :
  Z.land bad bad' = bad -> flagged bad b -> flagged bad' b.
Proof.
  intros Hsub (k & Hk & H1 & H2). exists k. split; [assumption|]. split; [|assumption].
  rewrite <- Hsub, Z.land_spec in H1. apply andb_true_iff in H1. tauto.
Qed.

Theorem masked_fraction_mono weight bmask bad bad' ig :
  nrows bmask = nrows weight -> ncols bmask = ncols weight ->
  match ig with
  | Some m => nrows m = nrows weight /\ ncols m = ncols weight
  | None => True end ->
  nrows weight * ncols weight <= 2 ^ 52 ->
  (exists r c, inb weight r c /\ counted ig r c) ->
  Z.land bad bad' = bad ->
  exists v v',
    f64_is (compute_masked_fraction (F := f64) weight bmask bad ig) v /\
    f64_is (compute_masked_fraction (F := f64) weight bmask bad' ig) v' /\
    (v <= v')%R.
Proof.
  intros Hr Hc Hig Hsz Hex Hsub.
  destruct (masked_fraction_f64 weight bmask bad ig Hr Hc Hig Hsz Hex)
    as (n & d & Hn & Hd & Hpos & E & _).
  destruct (masked_fraction_f64 weight bmask bad' ig Hr Hc Hig Hsz Hex)
    as (n' & d' & Hn' & Hd' & _ & E' & _).
  pose proof (counts_unique _ _ _ _ _ Hd Hd') as <-.
  exists (rnd64 (IZR n / IZR d)), (rnd64 (IZR n' / IZR d)).
  split; [assumption|]. split; [assumption|].
  apply rnd64_fraction_mono; [|assumption].
  eapply counts_le; [exact Hn|exact Hn'|]. cbn.
  intros r c _ _ [[Hu|Hu] Hk]; (split; [|assumption]); [now left|right].
  eapply flagged_mono; eassumption.
Qed.
