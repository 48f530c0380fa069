From Coq Require Import ZArith List Bool String Lia Permutation.
From Coq Require Import List.
From Verif Require Import Lib.Base Lib.Floats Model.Flag Model.Symmetrize Model.Interp
  Model.SliceInputs Spec.FlagSpec Spec.InterpSpec Spec.SymSpec
  Proofs.BaseFacts Proofs.FlagProofs Proofs.InterpProofs Proofs.EdgeCopyProofs
  Proofs.SymmetrizeProofs Spec.SliceInputsSpec.
Import ListNotations.
Open Scope list_scope.
Open Scope Z_scope.

Lemma bind_ok {A B} (m : result A) (k : A -> result B) b :
  bind m k = Ok b -> exists a, m = Ok a /\ k a = Ok b.
Proof. destruct m; cbn; [eauto|discriminate]. Qed.

Lemma Ok_inj {A} (a b : A) : Ok a = Ok b -> a = b.
Proof. congruence. Qed.

Section P.
Context {F : Type} `{FO : FloatOps F} {RNG : Type}.
Context (rotate : F -> img F -> img F).
Context (normal : RNG -> nat -> F -> list F * RNG).
Context (normal2 : RNG -> Z -> Z -> (Z -> Z -> F) * RNG).
Context (interpolator : list (Z * Z) -> list F -> result (Z * Z -> F)).
Context (median : list F -> F).
Context (measure_fwhm : img F -> F).
Context (outliers : list (img F) -> list (img F) -> nat -> (Z -> Z -> F) * (Z -> Z -> F)).

Implicit Types s : se_slice (F := F).
Implicit Types cf : config (F := F).

(** ** Fractions *)
Lemma fraction_spec nr nc (g : option (img bool)) (P : Z -> Z -> Prop) (f mx : F) :
  1 <= nr -> 1 <= nc -> 
  ((forall r c, 0 <= r < nr -> 0 <= c < nc -> ~ counted g r c) -> f = fone) ->
  ((exists r c, (0 <= r < nr /\ 0 <= c < nc) /\ counted g r c) ->
   exists n d, counts nr nc (fun r c => P r c /\ counted g r c) n /\
     counts nr nc (fun r c => counted g r c) d /\ 0 < d /\ f = fdiv (fofZ n) (fofZ d)) ->
  (exists r c, (0 <= r < nr /\ 0 <= c < nc) /\ counted g r c) \/
  (forall r c, 0 <= r < nr -> 0 <= c < nc -> ~ counted g r c) ->
  (fleb mx f = true <-> fraction_at_least nr nc g P mx).
Proof.
  intros Hr Hc Hall Hsome [Hex|Hno]; unfold fraction_at_least.
  - destruct (Hsome Hex) as (n & d & Hn & Hd & Hp & ->). split.
    + intros E. right. exists n, d. auto.
    + intros [[Hno _]|(n' & d' & Hn' & Hd' & _ & E)].
      * destruct Hex as (r & c & [Hr' Hc'] & Hk). destruct (Hno r c Hr' Hc' Hk).
      * now rewrite (counts_unique _ _ _ _ _ Hn Hn'), (counts_unique _ _ _ _ _ Hd Hd').
  - rewrite (Hall Hno). split.
    + intros E. left. auto.
    + intros [[_ E]|(n' & d' & Hn' & Hd' & Hp & E)]; [assumption|].
      apply counts_zero with (n := d') in Hd'. exfalso.
      assert (d' = 0) by (apply Hd'; intros; now apply Hno). lia.
Qed.

Lemma counted_dec nr nc (g : option (img bool)) :
  1 <= nr -> 1 <= nc -> opt_shape_is nr nc g ->
  (exists r c, (0 <= r < nr /\ 0 <= c < nc) /\ counted g r c) \/
  (forall r c, 0 <= r < nr -> 0 <= c < nc -> ~ counted g r c).
Proof.
  intros Hr Hc Hg. destruct g as [g|]; cbn.
  - destruct Hg as [Hg1 Hg2]. destruct (np_all g) eqn:E.
    + right. intros r c H1 H2. rewrite (proj1 (np_all_spec g) E); [discriminate|].
      unfold inb. lia.
    + left. apply np_all_false in E as (r & c & Hin & Hp). exists r, c.
      unfold inb in Hin. split; [lia|assumption].
  - left. exists 0, 0. split; [lia|exact I].
Qed.

Lemma masked_fraction_at_least w b flags g mx nr nc :
  1 <= nr -> 1 <= nc -> shape_is nr nc w -> shape_is nr nc b -> opt_shape_is nr nc g ->
  (fleb mx (compute_masked_fraction w b flags g) = true <->
   fraction_at_least nr nc g (unusable w b flags) mx).
Proof.
  intros Hr Hc [W1 W2] [B1 B2] Hg. apply fraction_spec; try assumption.
  - intros Hno. destruct g as [g|].
    + apply masked_fraction_all_ignored. intros r c Hin. destruct Hg as [G1 G2].
      unfold inb in Hin. specialize (Hno r c ltac:(lia) ltac:(lia)). cbn in Hno.
      now destruct (px g r c).
    + exfalso. apply (Hno 0 0); [lia|lia|exact I].
  - intros Hex. rewrite <- W1, <- W2.
    apply masked_fraction_quotient; [lia|lia| |].
    + destruct g as [g|]; [|exact I]. destruct Hg. lia.
    + destruct Hex as (r & c & Hin & Hk). exists r, c. unfold inb. split; [lia|assumption].
  - now apply counted_dec.
Qed.

Lemma pmask_fraction_at_least pm g mx nr nc :
  1 <= nr -> 1 <= nc -> shape_is nr nc pm -> opt_shape_is nr nc g ->
  (fleb mx (pmask_fraction (F := F) g pm) = true <->
   fraction_at_least nr nc g (fun r c => px pm r c <> 0) mx).
Proof.
  intros Hr Hc [P1 P2] Hg. apply fraction_spec; try assumption.
  - intros Hno. destruct g as [g|].
    + unfold pmask_fraction. replace (np_all g) with true; [reflexivity|]. symmetry.
      apply np_all_spec. intros r c Hin. destruct Hg as [G1 G2].
      unfold inb in Hin. specialize (Hno r c ltac:(lia) ltac:(lia)). cbn in Hno.
      now destruct (px g r c).
    + exfalso. apply (Hno 0 0); [lia|lia|exact I].
  - intros Hex. unfold pmask_fraction. destruct g as [g|].
    + destruct Hg as [G1 G2].
      replace (np_all g) with false.
      2:{ symmetry. apply np_all_false. destruct Hex as (r & c & Hin & Hk). exists r, c.
          unfold inb. split; [lia|assumption]. }
      eexists _, _. split; [|split; [|split; [|reflexivity]]].
      * rewrite <- P1, <- P2.
        apply (np_count_counts (imap2 andb (imap (fun p => negb (p =? 0)) pm) (imap negb g))).
        intros r c _. cbn. rewrite andb_true_iff, !negb_true_iff, Z.eqb_neq. reflexivity.
      * rewrite <- G1, <- G2. apply (np_count_counts (imap negb g)).
        intros r c _. cbn. now rewrite negb_true_iff.
      * assert (Hcc : counts nr nc (fun r c => counted (Some g) r c) (np_count (imap negb g))).
        { rewrite <- G1, <- G2. apply (np_count_counts (imap negb g)).
          intros r c _. cbn. now rewrite negb_true_iff. }
        pose proof (counts_nonneg _ _ _ _ Hcc). pose proof (counts_zero _ _ _ _ Hcc) as Hz.
        destruct (Z.eq_dec (np_count (imap negb g)) 0) as [e|]; [|lia].
        exfalso. destruct Hex as (r & c & [] & Hk). exact (proj1 Hz e r c H0 H1 Hk).
    + eexists _, _. split; [|split; [|split; [|reflexivity]]].
      * rewrite <- P1, <- P2.
        apply (np_count_counts (imap (fun p => negb (p =? 0)) pm)).
        intros r c _. cbn. rewrite negb_true_iff, Z.eqb_neq. tauto.
      * exists (allpix nr nc). split; [apply NoDup_allpix|]. split.
        -- rewrite allpix_length. unfold isize. cbn. rewrite P1, P2. lia.
        -- intros r c. rewrite In_allpix. cbn. tauto.
      * unfold isize. cbn. rewrite P1, P2. lia.
  - now apply counted_dec.
Qed.

(** ** Pixel masks *)
Lemma or_changed_spec (l new : list (img F)) : forall m m',
  or_changed m l new = Ok m' ->
  nrows m' = nrows m /\ ncols m' = ncols m /\
  forall r c, px m' r c = true <-> px m r c = true \/ noise_changed l new r c.
Proof.
  revert new. induction l as [|a l IH]; intros new m m' E.
  - cbn in E. assert (m' = m) as -> by (destruct new; congruence).
    do 2 (split; [reflexivity|]). intros r c. split; [auto|].
    intros [|(k & a & b & Hk & _)]; [assumption|]. destruct k; discriminate.
  - destruct new as [|b new]; [discriminate|]. cbn in E.
    apply IH in E as (H1 & H2 & H3). cbn in H1, H2. split; [assumption|]. split; [assumption|].
    intros r c. rewrite H3. cbn. rewrite orb_true_iff, negb_true_iff. split.
    + intros [[Hm|Hd]|(k & x & y & Hx & Hy & Hd)].
      * now left.
      * right. exists 0%nat, a, b. auto.
      * right. exists (S k), x, y. auto.
    + intros [Hm|(k & x & y & Hx & Hy & Hd)].
      * auto.
      * destruct k as [|k]; cbn in Hx, Hy.
        -- injection Hx as ->. injection Hy as ->. auto.
        -- right. exists k, x, y. auto.
Qed.

Lemma or_changed_ok (l new : list (img F)) : forall m,
  length l = length new -> exists m', or_changed m l new = Ok m'.
Proof.
  revert new. induction l as [|a l IH]; intros [|b new] m Hl; try discriminate.
  - now exists m.
  - cbn. apply IH. cbn in Hl. lia.
Qed.

(** ** Noise interpolation *)
Lemma fill_one_spec w b mx flags (a : img F) rng a' rng' :
  shape_is (nrows w) (ncols w) a ->
  noise_fill_one normal2
    (imap2 (fun (x : F) (z : bool) => fadd (fmul x (b2f (negb z))) (fmul mx (b2f z))) w
       (imap (fun x => fleb x fzero) w))
    (imap (fun b => negb (Z.land b flags =? 0)) b) a rng = (a', rng') ->
  filled_one normal2 mx flags w b a a' rng rng'.
Proof.
  intros [A1 A2]. unfold noise_fill_one. cbn [nrows ncols imap2 imap].
  destruct (normal2 rng (nrows w) (ncols w)) as [draw rng1] eqn:E. intros [= <- <-].
  exists draw. split; [exact E|]. do 2 (split; [reflexivity|]).
  intros r c Hin. cbn [px imap imap2]. split; intros Hf.
  - apply flagged_land in Hf. rewrite Hf. do 3 f_equal. unfold fill_weight.
    destruct (fleb (px w r c) fzero); reflexivity.
  - destruct (negb (Z.land (px b r c) flags =? 0)) eqn:E2; [|reflexivity].
    apply flagged_land in E2. contradiction.
Qed.

Lemma fill_all_spec w b mx flags (l : list (img F)) : forall rng l' rng',
  Forall (shape_is (nrows w) (ncols w)) l ->
  noise_fill_all normal2
    (imap2 (fun (x : F) (z : bool) => fadd (fmul x (b2f (negb z))) (fmul mx (b2f z))) w
       (imap (fun x => fleb x fzero) w))
    (imap (fun b => negb (Z.land b flags =? 0)) b) l rng = (l', rng') ->
  filled_all normal2 mx flags w b l l' rng rng'.
Proof.
  induction l as [|a l IH]; intros rng l' rng' Hs E; cbn [noise_fill_all] in E.
  - injection E as <- <-. constructor.
  - destruct (noise_fill_one _ _ _ a rng) as [a1 rng1] eqn:E1.
    destruct (noise_fill_all _ _ _ l rng1) as [l1 rng2] eqn:E2. injection E as <- <-.
    inversion Hs; subst. econstructor; [eapply fill_one_spec; eassumption|].
    apply IH; assumption.
Qed.

Lemma filled_all_shape w b mx flags l l' rng rng' nr nc :
  filled_all normal2 mx flags w b l l' rng rng' ->
  Forall (shape_is nr nc) l -> Forall (shape_is nr nc) l'.
Proof.
  induction 1 as [|a a' l l' rng r1 r2 (d & _ & S1 & S2 & _) _ IH]; intros Hs; [constructor|].
  inversion Hs as [|? ? [X1 X2] Hl]; subst. constructor; [|now apply IH].
  split; congruence.
Qed.

Lemma noise_interp_spec cf s rng nr nc im ns pm rng' :
  shaped nr nc s ->
  noise_interp normal2 cf s rng = Ok (im, ns, pm, rng') ->
  noise_filled normal2 cf s rng im ns rng' /\
  shape_is nr nc im /\ Forall (shape_is nr nc) ns /\
  shape_is nr nc pm /\
  forall r c, inb pm r c ->
    (flagged (cf_noise_flags cf) (px (sl_bmask s) r c) -> px pm r c = BMASK_NOISE_INTERP) /\
    (~ flagged (cf_noise_flags cf) (px (sl_bmask s) r c) -> px pm r c = 0).
Proof.
  intros (H1 & H2 & [I1 I2] & [W1 W2] & [B1 B2] & Hns). unfold noise_interp.
  set (msk := imap _ (sl_bmask s)). cbv zeta.
  destruct (np_any msk) eqn:Em.
  - intros E. apply bind_ok in E as (mx & Emx & E).
    destruct (noise_fill_one _ _ _ (sl_image s) rng) as [a1 r1] eqn:E1.
    destruct (noise_fill_all _ _ _ (sl_noises s) r1) as [l1 r2] eqn:E2.
    injection E as <- <- <- <-.
    assert (Hall : filled_all normal2 mx (cf_noise_flags cf) (sl_weight s) (sl_bmask s)
                     (sl_image s :: sl_noises s) (a1 :: l1) rng r2).
    { econstructor.
      - eapply fill_one_spec; [|exact E1]. split; congruence.
      - eapply fill_all_spec; [|exact E2]. rewrite W1, W2. exact Hns. }
    pose proof (filled_all_shape _ _ _ _ _ _ _ _ nr nc Hall
                  (Forall_cons _ (conj I1 I2) Hns)) as Hsh.
    inversion Hsh as [|? ? Ha Hl]; subst.
    split; [|split; [assumption|split; [assumption|]]].
    + right. split.
      * apply np_any_spec in Em as (r & c & Hin & Hp). exists r, c. split; [exact Hin|].
        now apply flagged_land.
      * eexists _, mx. split; [|split; [exact Emx|exact Hall]].
        pose proof (true_pix_where (imap negb (imap (fun x : F => fleb x fzero) (sl_weight s))))
          as [Ts Ti]. split; [exact Ts|]. intros r c. rewrite Ti. cbn.
        now rewrite negb_true_iff.
    + split; [split; cbn; assumption|]. intros r c Hin. cbn. split; intros Hf.
      * apply flagged_land in Hf. now rewrite Hf.
      * destruct (negb _) eqn:E; [|reflexivity]. apply flagged_land in E. contradiction.
  - intros [= <- <- <- <-].
    assert (Hno : ~ some_pixel_flagged (sl_bmask s) (cf_noise_flags cf)).
    { intros (r & c & Hin & Hf). apply flagged_land in Hf.
      pose proof (proj1 (np_any_false msk) Em r c Hin) as C. cbn in C. congruence. }
    split; [|split; [split; assumption|split; [assumption|]]].
    + left. auto.
    + split; [split; cbn; assumption|]. intros r c Hin. cbn. split; intros Hf; [|reflexivity].
      exfalso. apply Hno. exists r, c. split; [|assumption].
      unfold inb in *. cbn in Hin. exact Hin.
Qed.

(** ** Interpolation keeps shapes *)
Lemma interp_shapes im ns w b flags rng mf bf fill ib im' ns' rng' nr nc :
  (forall r n x, length (fst (normal r n x)) = n) ->
  shape_is nr nc im -> Forall (shape_is nr nc) ns -> shape_is nr nc w ->
  interpolate_image_and_noise normal interpolator median im ns w b flags rng mf bf fill ib
    = Ok (Some (im', ns'), rng') ->
  shape_is nr nc im' /\ Forall (shape_is nr nc) ns' /\ length ns' = length ns.
Proof.
  intros Hn [I1 I2] Hns [W1 W2] E.
  destruct (np_any (bad_pixels w b flags)) eqn:Ea.
  - apply np_any_spec in Ea as (r & c & Hin & Hp).
    destruct (and_noise_spec normal interpolator median Hn im ns w b flags rng mf bf fill ib im' ns' rng')
      as (fl & su & gl & _ & _ & _ & Hall); try congruence.
    { intros n Hn'. rewrite Forall_forall in Hns. destruct (Hns n Hn'). lia. }
    { exists r, c. now split. }
    cbv zeta in Hall.
    assert (Hgen : forall bs afs r1 r2,
      interpolated_all interpolator normal
        (fdiv fone (fsqrt (median (map (fun p => px w (fst p) (snd p)) gl)))) fl
        (to_interpolate (bad_pixels w b flags) fill ib) su bs afs r1 r2 ->
      Forall (shape_is nr nc) bs -> Forall (shape_is nr nc) afs /\ length afs = length bs).
    { clear. induction 1 as [|b0 a0 bs afs r r1 r2 dr Hd Hi _ IH]; intros Hs; [auto|].
      inversion Hs as [|? ? [X1 X2] Hl]; subst. destruct (IH Hl) as [Y1 Y2].
      destruct Hi as [[Z1 Z2] _ _ _]. split; [|cbn; congruence].
      constructor; [split; congruence|assumption]. }
    destruct (Hgen _ _ _ _ Hall (Forall_cons _ (conj I1 I2) Hns)) as [Hs Hl].
    inversion Hs; subst. cbn in Hl. split; [assumption|]. split; [assumption|lia].
  - rewrite (and_noise_nothing_bad normal interpolator median) in E.
    + injection E as <- <- <-. split; [now split|]. split; [assumption|reflexivity].
    + intros r c Hin. apply (proj1 (np_any_false _) Ea). exact Hin.
Qed.

(** ** Symmetrisation keeps shapes *)
Lemma sym_weight_shape w a g w' :
  symmetrize_weight rotate w a g = Ok w' -> nrows w' = nrows w /\ ncols w' = ncols w.
Proof.
  unfold symmetrize_weight. destruct (negb _); [discriminate|]. destruct a.
  - destruct (np_any _); [|intros [= <-]; auto]. destruct (np_any _); intros [= <-]; auto.
  - destruct (np_any _); intros [= <-]; auto.
Qed.

Lemma sym_bmask_shape b a g sf b' :
  symmetrize_bmask rotate b a g sf = Ok b' -> nrows b' = nrows b /\ ncols b' = ncols b.
Proof.
  unfold symmetrize_bmask. destruct (negb _); [discriminate|]. destruct a as [a|].
  - intros E. apply Ok_inj in E. subst b'.
    assert (G : forall l b, nrows (fold_left (sym_bit rotate a g sf) l b) = nrows b /\
                            ncols (fold_left (sym_bit rotate a g sf) l b) = ncols b).
    { clear. induction l as [|i l IH]; intros b; [auto|]. cbn [fold_left].
      destruct (IH (sym_bit rotate a g sf b i)) as [-> ->]. apply sym_bit_shape. }
    apply G.
  - destruct sf; intros [= <-]; auto.
Qed.

Lemma sym_angles_shape wo bo bf g l : forall w b w' b',
  sym_angles rotate wo bo bf g l w b = Ok (w', b') ->
  nrows w' = nrows w /\ ncols w' = ncols w /\ nrows b' = nrows b /\ ncols b' = ncols b.
Proof.
  induction l as [|a l IH]; intros w b w' b' E; cbn [sym_angles] in E.
  - injection E as <- <-. auto.
  - apply bind_ok in E as (wr & _ & E). apply bind_ok in E as (br & _ & E).
    apply IH in E. exact E.
Qed.

Lemma symmetrize_slice_shape cf g s s' nr nc :
  symmetrize_slice rotate cf g s = Ok s' -> shaped nr nc s -> shaped nr nc s'.
Proof.
  intros E (H1 & H2 & HI & [W1 W2] & [B1 B2] & Hns). unfold symmetrize_slice in E.
  destruct (cf_symmetrize cf).
  - injection E as <-. repeat split; try assumption; apply HI.
  - apply bind_ok in E as (b & Eb & E). apply bind_ok in E as (w & Ew & E). injection E as <-.
    apply sym_bmask_shape in Eb as [X1 X2]. apply sym_weight_shape in Ew as [X3 X4].
    unfold shaped, shape_is in *. cbn. repeat split; try assumption; try congruence; apply HI.
  - apply bind_ok in E as ([w b] & Ea & E). injection E as <-.
    apply sym_angles_shape in Ea as (X1 & X2 & X3 & X4).
    unfold shaped, shape_is in *. cbn. repeat split; try assumption; try congruence; apply HI.
Qed.

(** The fields other than the masks are untouched. *)
Lemma symmetrize_slice_fields cf g s s' :
  symmetrize_slice rotate cf g s = Ok s' ->
  s' = set_masks s (sl_weight s') (sl_bmask s').
Proof.
  unfold symmetrize_slice. destruct (cf_symmetrize cf).
  - intros [= <-]. destruct s; reflexivity.
  - intros E. apply bind_ok in E as (b & Eb & E). apply bind_ok in E as (w & Ew & E).
    injection E as <-. reflexivity.
  - intros E. apply bind_ok in E as ([w b] & Ea & E). injection E as <-. reflexivity.
Qed.

Lemma full_edge_iff w b flags nr nc x :
  1 <= nr -> 1 <= nc -> shape_is nr nc w -> shape_is nr nc b ->
  slice_full_edge_masked w b flags = Ok x ->
  (x = true <-> full_edge_unusable w b flags).
Proof.
  intros Hr Hc [W1 W2] [B1 B2] E.
  destruct (full_edge_spec w b flags) as (y & Ey & Hy); try lia.
  rewrite E in Ey. injection Ey as <-. exact Hy.
Qed.

(** ** Flags of the first checks *)
Lemma first_flags (e h m p : bool) k : 0 <= k ->
  let flags := 0 in
  let flags := if e then Z.lor flags FULL_EDGE_MASKED else flags in
  let flags := if h then Z.lor flags SLICE_HAS_FLAGS else flags in
  let flags := if m then Z.lor flags HIGH_MASKED_FRAC else flags in
  let flags := if p then Z.lor flags BAD_PSF_MODEL else flags in
  Z.testbit flags k = (e && (k =? 0)) || (h && (k =? 1)) || (m && (k =? 2)) || (p && (k =? 5)).
Proof.
  intros Hk. cbv zeta. unfold FULL_EDGE_MASKED, SLICE_HAS_FLAGS, HIGH_MASKED_FRAC, BAD_PSF_MODEL.
  rewrite (Z.eqb_sym k 0), (Z.eqb_sym k 1), (Z.eqb_sym k 2), (Z.eqb_sym k 5).
  destruct e, h, m, p; rewrite ?Z.lor_spec, ?Z.pow2_bits_eqb, ?Z.bits_0 by lia;
    cbn [andb orb]; rewrite ?orb_false_r; reflexivity.
Qed.

Lemma failed_dec cf g s p (e h m : bool) k :
  (e = true <-> cf_copy_masked_edges cf = false /\
     full_edge_unusable (sl_weight s) (sl_bmask s) (cf_spline_flags cf)) ->
  (h = true <-> some_pixel_flagged (sl_bmask s) (cf_bad_image_flags cf)) ->
  (m = true <-> fraction_at_least (nrows (sl_weight s)) (ncols (sl_weight s)) g
     (unusable (sl_weight s) (sl_bmask s) (Z.lor (cf_spline_flags cf) (cf_noise_flags cf)))
     (cf_max_masked_fraction cf)) ->
  ((e && (k =? 0)) || (h && (k =? 1)) || (m && (k =? 2)) || (p && (k =? 5)) = true <->
   failed cf g s p k).
Proof.
  intros He Hh Hm. unfold failed. rewrite !orb_true_iff, !andb_true_iff, !Z.eqb_eq.
  rewrite He, Hh, Hm. tauto.
Qed.

(** ** The verdict on one image *)
Theorem process_slice_judged cf g s p rng v rng' nr nc :
  (forall r n x, length (fst (normal r n x)) = n) ->
  shaped nr nc s -> opt_shape_is nr nc g ->
  forall map_gaia s0,
  match map_gaia with
  | Some f => exists g', f s0 = Ok g' /\ g = Some g'
  | None => g = None
  end ->
  symmetrize_slice rotate cf g s0 = Ok s ->
  process_slice rotate normal normal2 interpolator median measure_fwhm cf map_gaia s0 p rng
    = Ok (v, rng') ->
  judged normal normal2 interpolator median measure_fwhm cf g s p rng v rng'.
Proof.
  intros Hn Hs Hg map_gaia s0 Hmap Hsym E.
  pose proof Hs as (H1 & H2 & [I1 I2] & [W1 W2] & [B1 B2] & Hns).
  unfold process_slice in E.
  apply bind_ok in E as (g1 & Eg & E).
  assert (g1 = g) as ->.
  { destruct map_gaia as [f|].
    - destruct Hmap as (g' & Ef & ->). rewrite Ef in Eg. cbn in Eg. congruence.
    - congruence. }
  rewrite Hsym in E. cbn [bind] in E.
  apply bind_ok in E as (e & Ee & E). cbv zeta in E.
  assert (He : e = true <-> cf_copy_masked_edges cf = false /\
     full_edge_unusable (sl_weight s) (sl_bmask s) (cf_spline_flags cf)).
  { destruct (cf_copy_masked_edges cf); cbn [negb] in Ee.
    - injection Ee as <-. split; [discriminate|intros [C _]; discriminate].
    - rewrite (full_edge_iff _ _ _ nr nc _ H1 H2 (conj W1 W2) (conj B1 B2) Ee). tauto. }
  set (h := slice_has_flags (sl_bmask s) (cf_bad_image_flags cf)) in E.
  assert (Hh : h = true <-> some_pixel_flagged (sl_bmask s) (cf_bad_image_flags cf))
    by apply has_flags_spec.
  set (m := fleb (cf_max_masked_fraction cf) _) in E.
  assert (Hm : m = true <-> fraction_at_least (nrows (sl_weight s)) (ncols (sl_weight s)) g
     (unusable (sl_weight s) (sl_bmask s) (Z.lor (cf_spline_flags cf) (cf_noise_flags cf)))
     (cf_max_masked_fraction cf)).
  { rewrite W1, W2. apply masked_fraction_at_least; try assumption; split; assumption. }
  clearbody h m.
  assert (Hfd := fun k => failed_dec cf g s p e h m k He Hh Hm).
  destruct (e || h || m || p) eqn:Es.
  - apply Ok_inj in E. apply pair_equal_spec in E as [<- <-]. apply rejected_first.
    + destruct e; [exists 0; apply Hfd; reflexivity|].
      destruct h; [exists 1; apply Hfd; reflexivity|].
      destruct m; [exists 2; apply Hfd; reflexivity|].
      destruct p; [exists 5; apply Hfd; reflexivity|discriminate].
    + intros k Hk. rewrite <- Hfd. pose proof (first_flags e h m p k Hk) as Hf. cbv zeta in Hf.
      rewrite Hf. reflexivity.
  - assert (Hok : forall k, ~ failed cf g s p k).
    { intros k Hf. apply Hfd in Hf. destruct e, h, m, p; try discriminate Es. discriminate Hf. }
    apply bind_ok in E as ([[[im ns] pm] rng1] & Eni & E).
    destruct (noise_interp_spec _ _ _ _ _ _ _ _ _ Hs Eni) as (Hfill & Sim & Sns & Spm & Hpm).
    apply bind_ok in E as ([[[[[im2 ns2] w2] b2] pm2] skip] & Ecp & E).
    assert (Hprep : prepared cf s im ns im2 ns2 w2 b2 /\
      shape_is nr nc im2 /\ Forall (shape_is nr nc) ns2 /\ shape_is nr nc w2 /\
      shape_is nr nc b2 /\ shape_is nr nc pm2 /\
      (skip = true <-> cf_copy_masked_edges cf = true /\
         full_edge_unusable w2 b2 (cf_spline_flags cf)) /\
      (cf_copy_masked_edges cf = false -> ~ full_edge_unusable w2 b2 (cf_spline_flags cf)) /\
      forall r c, inb pm2 r c ->
        px pm2 r c =
        (if cf_copy_masked_edges cf then
           (fun (q : Z) (mk : bool) => if mk then Z.lor q BMASK_SPLINE_INTERP else q)
             (px pm r c)
             (px (match or_changed (img_neq im im2) ns ns2 with Ok x => x | _ => full 0 0 false end) r c)
         else px pm r c)).
    { unfold prepared. destruct (cf_copy_masked_edges cf) eqn:Ecm.
      - apply bind_ok in Ecp as (es & Ees & Ecp). apply bind_ok in Ecp as (mk & Emk & Ecp).
        apply bind_ok in Ecp as (sk & Esk & Ecp). injection Ecp as <- <- <- <- <- <-.
        assert (D : 2 <= nr /\ 2 <= nc).
        { destruct (Z_lt_le_dec nr 2) as [Hlt|Hle].
          - rewrite copy_edges_too_small in Ees; [discriminate|lia|lia|lia].
          - destruct (Z_lt_le_dec nc 2) as [Hlt'|]; [|lia].
            rewrite copy_edges_too_small in Ees; [discriminate|lia|lia|lia]. }
        destruct D as [D1 D2].
        destruct (copy_edges_spec (sl_weight s) (sl_bmask s) (cf_spline_flags cf)
                    ltac:(congruence) ltac:(congruence) im ns) as
          (es' & Ees' & (X1 & X2 & _) & Xns & (X3 & X4 & _) & (X5 & X6 & _)).
        { lia. } { lia. } { destruct Sim; congruence. } { destruct Sim; congruence. }
        { intros n Hin. rewrite Forall_forall in Sns. destruct (Sns n Hin). split; congruence. }
        rewrite Ees in Ees'. injection Ees' as <-.
        assert (S2 : shape_is nr nc (es_weight es)) by (split; congruence).
        assert (S3 : shape_is nr nc (es_bmask es)) by (split; congruence).
        split; [rewrite Ees; destruct es; reflexivity|].
        split; [destruct Sim; split; congruence|].
        split.
        { clear - Xns Sns. induction Xns as [|a b l l' (Y1 & Y2 & _) _ IH]; [constructor|].
          inversion Sns as [|? ? [Z1 Z2] Hl]; subst. constructor; [split; congruence|auto]. }
        split; [assumption|]. split; [assumption|].
        split; [destruct Spm; split; cbn; assumption|].
        split; [|split; [discriminate|]].
        { rewrite (full_edge_iff _ _ _ nr nc _ H1 H2 S2 S3 Esk). tauto. }
        intros r c _. rewrite Emk. reflexivity.
      - injection Ecp as <- <- <- <- <- <-.
        split; [auto|]. do 2 (split; [assumption|]). do 2 (split; [split; assumption|]).
        split; [assumption|]. split; [split; [discriminate|intros [C _]; discriminate]|].
        split; [|reflexivity].
        intros _ C. apply (Hok 0). left. auto. }
    destruct Hprep as (Hprep & S1 & S2 & S3 & S4 & S5 & Hskip & Hnof & Hpm2).
    destruct skip.
    + injection E as <- <-. destruct (proj1 Hskip eq_refl) as [Hc Hfe].
      exact (rejected_edges _ _ _ _ _ _ _ _ _ _ _ _ _ _ _ _ _ Hok Hfill Hc Hprep Hfe).
    + assert (Hnfe : ~ full_edge_unusable w2 b2 (cf_spline_flags cf)).
      { destruct (cf_copy_masked_edges cf); [|auto].
        intros C. assert (false = true) by (apply Hskip; auto). discriminate. }
      apply bind_ok in E as ([out x] & Eint & E).
      destruct out as [[im3 ns3]|].
      2:{ injection E as <- <-.
          apply (rejected_interp normal normal2 interpolator median measure_fwhm
                   cf g s p rng im ns rng1 im2 ns2 w2 b2 Hok Hfill Hprep Hnfe).
          exists x. exact Eint. }
      destruct (interp_shapes _ _ _ _ _ _ _ _ _ _ _ _ _ _ _ Hn S1 S2 S3 Eint) as (T1 & T2 & T3).
      cbv zeta in E. apply bind_ok in E as (mk & Emk & E).
      set (pm3 := mark_spline pm2 mk) in E.
      assert (Hpmask : pmask_is (nrows (sl_bmask s)) (ncols (sl_bmask s)) pm3
                (marked cf s im ns im2 ns2 w2 b2 im3 ns3)).
      { split; [destruct S5; split; cbn; congruence|].
        intros r c Hin. assert (Hin2 : inb pm2 r c) by exact Hin.
        assert (Hinp : inb pm r c).
        { destruct S5 as [Q1 Q2], Spm as [Q3 Q4]. unfold inb in *. rewrite Q3, Q4.
          rewrite <- Q1, <- Q2. exact Hin2. }
        apply or_changed_spec in Emk as (_ & _ & Hmk).
        assert (Hmk' : px mk r c = true <->
          unequal (px im3 r c) (px im2 r c) \/ noise_changed ns2 ns3 r c \/
          fltb (px w2 r c) fzero = true \/ flagged (cf_spline_flags cf) (px b2 r c)).
        { rewrite Hmk. cbn. rewrite !orb_true_iff, flagged_land, negb_true_iff.
          unfold unequal. tauto. }
        destruct (Hpm r c Hinp) as [Hp1 Hp0].
        assert (Hnf : {flagged (cf_noise_flags cf) (px (sl_bmask s) r c)} +
                      {~ flagged (cf_noise_flags cf) (px (sl_bmask s) r c)}).
        { destruct (negb (Z.land (px (sl_bmask s) r c) (cf_noise_flags cf) =? 0)) eqn:Ef.
          - left. now apply flagged_land.
          - right. intros C. apply flagged_land in C. congruence. }
        set (cm := match or_changed (img_neq im im2) ns ns2 with
                   | Ok x => x | _ => full 0 0 false end) in *.
        assert (Hcm : cf_copy_masked_edges cf = true ->
           (px cm r c = true <-> unequal (px im r c) (px im2 r c) \/ noise_changed ns ns2 r c)).
        { intros Hc. subst cm. unfold prepared in Hprep. rewrite Hc in Ecp, Hprep.
          rewrite Hprep in Ecp. cbn [bind es_image es_noises es_weight es_bmask] in Ecp.
          apply bind_ok in Ecp as (mk2 & Emk2 & _). rewrite Emk2.
          apply or_changed_spec in Emk2 as (_ & _ & Hm2). rewrite Hm2. cbn.
          rewrite negb_true_iff. reflexivity. }
        pose proof (Hpm2 r c Hin2) as Hv. cbv beta in Hv.
        change (px pm3 r c) with
          (if px mk r c then Z.lor (px pm2 r c) BMASK_SPLINE_INTERP else px pm2 r c).
        set (N := px pm r c) in *.
        assert (HN : (N = BMASK_NOISE_INTERP /\ flagged (cf_noise_flags cf) (px (sl_bmask s) r c))
                  \/ (N = 0 /\ ~ flagged (cf_noise_flags cf) (px (sl_bmask s) r c))).
        { destruct Hnf; [left|right]; auto. }
        assert (HNb : 0 <= N /\ forall k, 0 <= k -> (Z.testbit N k = true <-> k = 28 /\
                   flagged (cf_noise_flags cf) (px (sl_bmask s) r c))).
        { destruct HN as [[-> Hf]|[-> Hf]]; (split; [unfold BMASK_NOISE_INTERP; lia|]);
            intros k Hk.
          - unfold BMASK_NOISE_INTERP. rewrite Z.pow2_bits_eqb by lia. rewrite Z.eqb_eq.
            split; [intros <-; auto|intros [-> _]; reflexivity].
          - rewrite Z.bits_0. split; [discriminate|tauto]. }
        assert (Hor : forall (q : Z) (b : bool) (Q : Prop), 0 <= q -> (b = true <-> Q) ->
           0 <= (if b then Z.lor q BMASK_SPLINE_INTERP else q) /\
           forall k, 0 <= k ->
             (Z.testbit (if b then Z.lor q BMASK_SPLINE_INTERP else q) k = true <->
              Z.testbit q k = true \/ (k = 27 /\ Q))).
        { intros q b Q Hq HQ. destruct b.
          - split; [apply Z.lor_nonneg; split; [assumption|unfold BMASK_SPLINE_INTERP; lia]|].
            intros k Hk. rewrite Z.lor_spec, orb_true_iff. unfold BMASK_SPLINE_INTERP.
            rewrite Z.pow2_bits_eqb, Z.eqb_eq by lia. split.
            + intros [|<-]; [now left|right]. tauto.
            + intros [|[-> _]]; auto.
          - split; [assumption|]. intros k Hk. split; [auto|]. intros [|[_ C]]; [assumption|].
            apply HQ in C. discriminate. }
        assert (H2nd : 0 <= px pm2 r c /\ forall k, 0 <= k ->
           (Z.testbit (px pm2 r c) k = true <->
            (k = 28 /\ flagged (cf_noise_flags cf) (px (sl_bmask s) r c)) \/
            (k = 27 /\ (cf_copy_masked_edges cf = true /\
               (unequal (px im r c) (px im2 r c) \/ noise_changed ns ns2 r c))))).
        { rewrite Hv. destruct (cf_copy_masked_edges cf).
          - destruct (Hor N (px cm r c) _ (proj1 HNb) (Hcm eq_refl)) as [Q1 Q2].
            split; [exact Q1|]. intros k Hk. rewrite (Q2 k Hk), (proj2 HNb k Hk). tauto.
          - split; [apply HNb|]. intros k Hk. rewrite (proj2 HNb k Hk).
            split; [auto|]. intros [|[_ [C _]]]; [assumption|discriminate]. }
        destruct (Hor (px pm2 r c) (px mk r c) _ (proj1 H2nd) Hmk') as [Q1 Q2].
        split; [exact Q1|]. intros k Hk. rewrite (Q2 k Hk), (proj2 H2nd k Hk).
        unfold marked. tauto. }
      assert (Hfr : fleb (cf_max_masked_fraction cf) (pmask_fraction g pm3) = true <->
        fraction_at_least (nrows (sl_weight s)) (ncols (sl_weight s)) g
          (fun r c => px pm3 r c <> 0) (cf_max_masked_fraction cf)).
      { rewrite W1, W2. apply pmask_fraction_at_least; try assumption. }
      destruct (fleb (cf_max_masked_fraction cf) (pmask_fraction g pm3)) eqn:Ef.
      * injection E as <- <-.
        exact (rejected_fraction normal normal2 interpolator median measure_fwhm cf g s p rng
                 im ns rng1 im2 ns2 w2 b2 im3 ns3 pm3 Hok Hfill Hprep Hnfe
                 (ex_intro _ x Eint) Hpmask (proj1 Hfr eq_refl)).
      * apply bind_ok in E as (wt & Ewt & E). injection E as <- <-.
        apply (accepted normal normal2 interpolator median measure_fwhm cf g s p rng
                 im ns rng1 im2 ns2 w2 b2 im3 ns3 pm3 _ wt Hok Hfill Hprep Hnfe
                 (ex_intro _ x Eint) Hpmask); [|clear|exact Ewt].
        -- intros C. apply Hfr in C. discriminate.
        -- constructor; try reflexivity; [split; reflexivity| |split; reflexivity|];
             intros r c; clearbody pm3; cbn; destruct (px pm3 r c =? 0); reflexivity.
Qed.

Theorem process_all_judged cf map_gaia l : forall rng vs rng',
  (forall r n x, length (fst (normal r n x)) = n) ->
  (forall s p, In (s, p) l -> exists nr nc, shaped nr nc s /\
     forall f g, map_gaia = Some f -> f s = Ok g -> shape_is nr nc g) ->
  process_all rotate normal normal2 interpolator median measure_fwhm cf map_gaia l rng
    = Ok (vs, rng') ->
  judged_all normal normal2 interpolator median measure_fwhm rotate cf map_gaia l rng vs rng'.
Proof.
  induction l as [|[s p] l IH]; intros rng vs rng' Hn Hs E; cbn [process_all] in E.
  - injection E as <- <-. constructor.
  - apply bind_ok in E as ([v r1] & Ev & E). apply bind_ok in E as ([vs1 r2] & Evs & E).
    injection E as <- <-.
    destruct (Hs s p (or_introl eq_refl)) as (nr & nc & Hsh & Hg).
    pose proof Ev as Ev0. unfold process_slice in Ev0.
    apply bind_ok in Ev0 as (g & Eg & Ev0). apply bind_ok in Ev0 as (s' & Es' & _).
    assert (Hmap : match map_gaia with
                   | Some f => exists g', f s = Ok g' /\ g = Some g'
                   | None => g = None end).
    { destruct map_gaia as [f|]; [|congruence]. apply bind_ok in Eg as (g' & Ef & Eg).
      exists g'. split; congruence. }
    assert (Hgs : opt_shape_is nr nc g).
    { destruct map_gaia as [f|].
      - destruct Hmap as (g' & Ef & ->). apply (Hg f g' eq_refl Ef).
      - rewrite Hmap. exact I. }
    econstructor.
    + exact Hmap.
    + exact Es'.
    + exact (process_slice_judged cf g s' p rng v r1 nr nc Hn
               (symmetrize_slice_shape _ _ _ _ _ _ Es' Hsh) Hgs map_gaia s Hmap Es' Ev).
    + apply IH; [exact Hn| |exact Evs]. intros s1 p1 Hin. apply (Hs s1 p1). now right.
Qed.
End P.
