(** C48, C49, C62: PSF quality cuts. *)
From Coq Require Import ZArith List Bool Reals Permutation Lia Lra SpecFloat.
From Verif Require Import Lib.Base Lib.Floats Model.PsfImage Model.Piff Spec.PiffSpec Proofs.BaseFacts
  Proofs.SliceInputsProofs Proofs.PiffProofs.
Import ListNotations.
Open Scope Z_scope.

(** C48: bit [k] is set iff its condition holds; no other bits are. *)
Theorem C48_bits_of_the_flags :
  forall (F : Type) (FO : FloatOps F) (p : piff_info) (c : piff_cuts) (k : Z), 0 <= k ->
  Z.testbit (compute_piff_flags p c) k = true <-> piff_cut_fails p c k.
Proof. intros F FO p c k Hk. exact (piff_flags_spec p c k Hk). Qed.

Theorem C48_range :
  forall (F : Type) (FO : FloatOps F) (p : piff_info) (c : piff_cuts),
  0 <= compute_piff_flags p c < 32.
Proof.
  intros F FO p c. pose proof (piff_flags_nonneg p c) as Hn. split; [exact Hn|].
  destruct (Z.eq_dec (compute_piff_flags p c) 0) as [->|N]; [lia|].
  change 32 with (2 ^ 5). apply Z.log2_lt_pow2; [lia|].
  destruct (Z_lt_le_dec (Z.log2 (compute_piff_flags p c)) 5) as [H|H]; [exact H|].
  assert (Hp : 0 < compute_piff_flags p c) by lia. pose proof (Z.bit_log2 _ Hp) as B.
  rewrite (piff_flags_high p c _ H) in B. discriminate.
Qed.

(** C48: an image without DESDM flags passes if all cuts are off. *)
Theorem C48_cuts_can_be_switched_off :
  forall (F : Type) (FO : FloatOps F) (p : piff_info),
  compute_piff_flags p (mkcuts None None None None) = if pi_desdm_flags p =? 0 then 0 else 1.
Proof. intros F FO p. unfold compute_piff_flags. cbn. destruct (pi_desdm_flags p =? 0); reflexivity. Qed.

(** Not a number, in double arithmetic. *)
Definition nan64 : f64 := S754_nan.

(** C48: statistics that are NaN pass all cuts, except the number of stars. *)
Theorem C48_nan_statistics_pass :
  forall c : piff_cuts (F := f64), min_nstar c = None ->
  compute_piff_flags (mkpi 0 nan64 nan64 nan64 0 nan64 nan64) c = 0.
Proof.
  intros [m1 m2 m3 m4] H. cbn in H. subst m2. unfold compute_piff_flags.
  cbn [pi_desdm_flags pi_fwhm_cen pi_star_t_std pi_star_t_mean pi_nstar pi_exp_star_t_mean pi_exp_star_t_std
       max_fwhm_cen min_nstar max_exp_T_mean_fac max_ccd_T_std_fac].
  assert (L1 : forall x : f64, fleb x nan64 = false) by (intros [[]|[]| |[] m e]; reflexivity).
  assert (L2 : forall x : f64, fmul x nan64 = nan64) by (intros [[]|[]| |[] m e]; reflexivity).
  assert (L3 : fabs (fsub nan64 nan64 : f64) = nan64) by reflexivity.
  rewrite L3. destruct m1, m3, m4; rewrite ?L2, ?L1; reflexivity.
Qed.

(** Concrete: every condition but the first and the fourth fires. *)
Example C48_example :
  compute_piff_flags (F := f64) (mkpi 0 (fdec 36 10) (f64_ofZ 1) (f64_ofZ 2) 25 (f64_ofZ 1) (fdec 1 4))
    (mkcuts (Some (fdec 36 10)) (Some 25) (Some (f64_ofZ 4)) (Some (fdec 3 10))) = 2 + 4 + 16.
Proof. vm_compute. reflexivity. Qed.

(** C49: flags are only added, nothing else changes, for every input, whether
    or not there is an exception on the way. *)
Theorem C49_flags_are_only_added :
  forall (F : Type) (FO : FloatOps F) (config : option se_config) (srcs srcs' : list src_info) e,
  flag_data_in_info config srcs = (srcs', e) -> Forall2 only_adds srcs srcs'.
Proof. intros F FO config srcs srcs' e. apply flag_data_adds. Qed.

(** C49: for sources with all keys it succeeds and adds exactly the flags that
    are due. *)
Theorem C49_flags_that_are_due :
  forall (F : Type) (FO : FloatOps F) (cfg : se_config) (srcs : list src_info),
  Forall complete_source srcs ->
  exists srcs', flag_data_in_info (Some cfg) srcs = (srcs', None) /\
    Forall2 (fun s s' => exists f f', si_flags s = Some f /\ si_flags s' = Some f' /\
      forall k, 0 <= k -> (Z.testbit f' k = true <-> Z.testbit f k = true \/ flag_due cfg s k)) srcs srcs'.
Proof.
  intros F FO cfg srcs H. induction H as [|s srcs Hs H IH].
  - exists []. split; [reflexivity|constructor].
  - destruct IH as (srcs' & E & IH). destruct (si_flags s) as [f|] eqn:Ef; [|destruct Hs; congruence].
    destruct (flag_source_spec cfg s f Hs Ef) as (s' & f' & E1 & E2 & _ & _ & _ & E3).
    exists (s' :: srcs'). cbn [flag_data_in_info]. rewrite E1, E. split; [reflexivity|].
    constructor; [|exact IH]. exists f, f'. auto.
Qed.

(** C49: doing it again changes nothing. *)
Theorem C49_idempotent :
  forall (F : Type) (FO : FloatOps F) (cfg : se_config) (srcs srcs1 srcs2 : list src_info),
  Forall complete_source srcs ->
  flag_data_in_info (Some cfg) srcs = (srcs1, None) ->
  flag_data_in_info (Some cfg) srcs1 = (srcs2, None) ->
  Forall2 (fun s1 s2 => exists f1 f2, si_flags s1 = Some f1 /\ si_flags s2 = Some f2 /\
     forall k, 0 <= k -> Z.testbit f2 k = Z.testbit f1 k) srcs1 srcs2.
Proof.
  intros F FO cfg srcs srcs1 srcs2 H. revert srcs1 srcs2.
  induction H as [|s srcs Hs H IH]; intros srcs1 srcs2 H1 H2; cbn [flag_data_in_info] in H1.
  - apply pair_equal_spec in H1 as [<- _]. cbn in H2. apply pair_equal_spec in H2 as [<- _]. constructor.
  - destruct (si_flags s) as [f|] eqn:Ef; [|destruct Hs; congruence].
    destruct (flag_source_spec cfg s f Hs Ef) as (s1 & f1 & E1 & E2 & E3 & E4 & E5 & E6).
    rewrite E1 in H1. destruct (flag_data_in_info (Some cfg) srcs) as [l1 e1] eqn:El.
    apply pair_equal_spec in H1 as [<- ->].
    assert (Hs1 : complete_source s1).
    { destruct Hs as (_ & Hc & Hl). split; [congruence|]. split; [congruence|congruence]. }
    destruct (flag_source_spec cfg s1 f1 Hs1 E2) as (s2 & f2 & G1 & G2 & G3 & G4 & G5 & G6).
    cbn [flag_data_in_info] in H2. rewrite G1 in H2.
    destruct (flag_data_in_info (Some cfg) l1) as [l2 e2] eqn:El2.
    apply pair_equal_spec in H2 as [<- ->].
    constructor; [|exact (IH _ _ eq_refl El2)].
    exists f1, f2. split; [exact E2|]. split; [exact G2|]. intros k Hk.
    assert (D : flag_due cfg s1 k <-> flag_due cfg s k) by (unfold flag_due; now rewrite E3, E4).
    specialize (E6 k Hk). specialize (G6 k Hk). rewrite D in G6.
    destruct (Z.testbit f2 k), (Z.testbit f1 k); tauto || (exfalso; intuition discriminate).
Qed.

(** C49: the section 'single_epoch' is tested for but needed: without it the
    first source raises and nothing is flagged. *)
Theorem C49_section_is_needed :
  forall (F : Type) (FO : FloatOps F) (s : src_info) (srcs : list src_info),
  flag_data_in_info (F := F) None (s :: srcs) = (s :: srcs, Some KeyError).
Proof. reflexivity. Qed.

(** Concrete: two sources, the cut fires for the first one and the CCD of the
    second one is ignored. *)
Example C49_example :
  let p n := mkpi 0 (f64_ofZ 1) (f64_ofZ 1) (f64_ofZ 1) n (f64_ofZ 1) (f64_ofZ 1) in
  let srcs := [mksi (Some 64) (Some 3) (Some (p 10)) true; mksi (Some 0) (Some 31) (Some (p 30)) true] in
  Forall complete_source srcs /\
  map si_flags (fst (flag_data_in_info (Some (mksec (Some (mkcuts None (Some 25) None None)) (Some [2; 31]))) srcs))
  = [Some 72; Some (2 ^ 30)].
Proof.
  cbv zeta. split; [|vm_compute; reflexivity].
  repeat constructor; discriminate.
Qed.

(** C62: a statistic that is not finite flags the model, in any arithmetic. *)
Theorem C62_not_finite_is_bad :
  forall (F : Type) (FO : FloatOps F) (res : list F) (max_abs_t_diff v : F),
  In v res -> ffinite v = false -> bad_piff_model res max_abs_t_diff = Ok true.
Proof.
  intros F FO res t v Hin Hv. unfold bad_piff_model. destruct res as [|r res]; [destruct Hin|].
  assert (E : existsb (fun v => negb (ffinite v)) (r :: res) = true).
  { apply existsb_exists. exists v. split; [exact Hin|]. now rewrite Hv. }
  rewrite E. reflexivity.
Qed.

(** C62: for finite statistics the model is bad iff one of them differs from the
    median by more than the limit. *)
Theorem C62_far_from_the_median_is_bad :
  forall (res : list R) (max_abs_t_diff m : R),
  res <> [] -> is_median res m ->
  exists b, bad_piff_model res max_abs_t_diff = Ok b /\
    (b = true <-> exists v, In v res /\ (Rabs (v - m) > max_abs_t_diff)%R).
Proof.
  intros res t m Hne Hm. unfold bad_piff_model. destruct res as [|r res]; [congruence|].
  assert (E : existsb (fun v => negb (@ffinite R ROps v)) (r :: res) = false).
  { destruct (existsb _ _) eqn:X; [|reflexivity]. apply existsb_exists in X as (v & _ & X). discriminate. }
  rewrite E. rewrite <- (is_median_unique _ _ _ (median_R (r :: res)) Hm) in *. clear E Hm m.
  set (m := median (r :: res)). cbn [map].
  eexists. split; [reflexivity|]. rewrite fltb_R, max_R.
  change (fabs (fsub r m) :: map (fun v => fabs (fsub v m)) res)
    with (map (fun v : R => fabs (fsub v m)) (r :: res)).
  split.
  - intros (d & Hd & Ht). apply in_map_iff in Hd as (v & <- & Hv). exists v. split; [exact Hv|exact Ht].
  - intros (v & Hv & Ht). exists (Rabs (v - m)). split; [|exact Ht].
    apply in_map_iff. exists v. split; [reflexivity|exact Hv].
Qed.

(** C62: the order of the samples does not matter. *)
Theorem C62_order_does_not_matter :
  forall (res res' : list R) (max_abs_t_diff : R),
  Permutation res res' -> bad_piff_model res max_abs_t_diff = bad_piff_model res' max_abs_t_diff.
Proof.
  intros res res' t P. destruct res as [|r res].
  - apply Permutation_nil in P. now subst.
  - assert (N' : res' <> []) by (intros ->; apply Permutation_sym, Permutation_nil in P; discriminate).
    destruct (median_R (r :: res)) as (s & Q & S & Hm).
    assert (M' : is_median res' (median (r :: res))).
    { exists s. split; [rewrite <- P; exact Q|]. split; [exact S|]. rewrite <- (Permutation_length P). exact Hm. }
    destruct (C62_far_from_the_median_is_bad (r :: res) t _ ltac:(discriminate) (median_R _)) as (b & E & H).
    destruct (C62_far_from_the_median_is_bad res' t _ N' M') as (b' & E' & H').
    rewrite E, E'. f_equal.
    assert (K : (exists v, In v (r :: res) /\ (Rabs (v - median (r :: res)) > t)%R) <->
                (exists v, In v res' /\ (Rabs (v - median (r :: res)) > t)%R)).
    { split; intros (v & Hv & Hd); exists v; (split; [|exact Hd]).
      - exact (Permutation_in _ P Hv).
      - exact (Permutation_in _ (Permutation_sym P) Hv). }
    rewrite K in H. destruct b, b'; try reflexivity; exfalso; intuition discriminate.
Qed.

(** C62: no samples at all is an error, not a pass. *)
Theorem C62_no_samples :
  forall (F : Type) (FO : FloatOps F) (t : F), bad_piff_model [] t = Raise ValueError.
Proof. reflexivity. Qed.

(** C62: the flag returned by set_psf is that of the model, and False for other
    kinds of PSF or when the test is not configured. *)
Theorem C62_flag_of_set_psf :
  forall (F : Type) (FO : FloatOps F) draw kind galsim_n off (x y : F) max_abs_t_diff sample pf flag,
  set_psf_flagged draw kind galsim_n off x y max_abs_t_diff sample = Ok (pf, flag) ->
  set_psf draw kind galsim_n off x y = Ok pf /\
  match max_abs_t_diff, kind with
  | Some m, Piff => exists res, sample = Ok res /\ bad_piff_model res m = Ok flag
  | _, _ => flag = false
  end.
Proof.
  intros F FO draw kind gn off x y mx sample pf flag H. unfold set_psf_flagged in H.
  apply bind_ok in H as (b & Hb & H). apply bind_ok in H as (pf' & Hp & H). apply Ok_inj in H.
  apply pair_equal_spec in H as [<- <-]. split; [exact Hp|].
  destruct mx as [m|].
  - destruct kind; try (apply Ok_inj in Hb; now symmetry).
    apply bind_ok in Hb as (res & Hr & Hb). eauto.
  - destruct kind; apply Ok_inj in Hb; now symmetry.
Qed.

(** Concrete: five samples with median 2. *)
Example C62_example :
  is_median [3; 1; 2; 2; 7]%R 2%R /\
  map (bad_piff_model [f64_ofZ 3; f64_ofZ 1; f64_ofZ 2; f64_ofZ 2; f64_ofZ 7]) [f64_ofZ 4; f64_ofZ 5]
  = [Ok true; Ok false] /\
  bad_piff_model [f64_ofZ 3; nan64] (f64_ofZ 9) = Ok true.
Proof.
  split; [|vm_compute; split; reflexivity].
  exists [1; 2; 2; 3; 7]%R. split; [|split].
  - apply (perm_trans (l' := [1; 3; 2; 2; 7]%R)); [apply perm_swap|]. apply perm_skip.
    apply (perm_trans (l' := [2; 3; 2; 7]%R)); [apply perm_swap|]. apply perm_skip. apply perm_swap.
  - repeat (constructor; [|repeat constructor; lra]). constructor.
  - cbn. lra.
Qed.

Print Assumptions C48_bits_of_the_flags.
Print Assumptions C49_flags_that_are_due.
Print Assumptions C62_far_from_the_median_is_bad.
