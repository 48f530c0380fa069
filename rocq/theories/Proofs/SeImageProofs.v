From Coq Require Import ZArith List Bool Reals Lia Lra.
From Flocq Require Import Core.Raux.
From Verif Require Import Lib.Base Lib.Floats Model.TapeBumps Model.Cache Model.Noise Model.SeImage
  Spec.SeImageSpec Proofs.BaseFacts Proofs.SliceInputsProofs Proofs.NoiseProofs.
Import ListNotations.
Open Scope Z_scope.

(** ** Bounds *)

Lemma Zfloor_spec (x : R) : (IZR (Zfloor x) <= x < IZR (Zfloor x) + 1)%R.
Proof. split; [apply Zfloor_lb|apply Zfloor_ub]. Qed.

Lemma slice_bounds_R (frac : R) (box : Z) (col row : R) :
  exists b n, compute_slice_bounds frac box col row = Ok b /\ square_of b n /\
    n mod 2 = box mod 2 /\
    (n = Ztrunc (frac * IZR box) \/ n = Ztrunc (frac * IZR box) + 1) /\
    (- / 2 <= row - (IZR (zrowmin b) + IZR (zrowmax b)) / 2 < / 2)%R /\
    (- / 2 <= col - (IZR (zcolmin b) + IZR (zcolmax b)) / 2 < / 2)%R.
Proof.
  unfold compute_slice_bounds. cbn [ftrunc ffloor fmul fofZ fdiv fadd fsub ROps].
  set (t := Ztrunc (frac * IZR box)).
  set (n := if negb (t mod 2 =? box mod 2) then t + 1 else t).
  unfold fhalf, fdec. cbn [fofZ fdiv ROps].
  exists (mkzb (Zfloor (row - IZR (n - 1) / 2 + 1 / 2)) (Zfloor (row - IZR (n - 1) / 2 + 1 / 2) + n - 1)
             (Zfloor (col - IZR (n - 1) / 2 + 1 / 2)) (Zfloor (col - IZR (n - 1) / 2 + 1 / 2) + n - 1)), n.
  split; [reflexivity|]. split; [split; cbn; lia|].
  split.
  { subst n. destruct (Z.eqb_spec (t mod 2) (box mod 2)) as [E|E]; cbn [negb]; [exact E|].
    pose proof (Z.mod_pos_bound t 2 ltac:(lia)). pose proof (Z.mod_pos_bound box 2 ltac:(lia)).
    rewrite Z.add_mod by lia. change (1 mod 2) with 1.
    assert (Ht : t mod 2 = 0 \/ t mod 2 = 1) by lia.
    destruct Ht as [Ht|Ht]; rewrite Ht in *; [change ((0 + 1) mod 2) with 1|change ((1 + 1) mod 2) with 0]; lia. }
  split.
  { subst n. destruct (negb _); lia. }
  cbn [zrowmin zrowmax zcolmin zcolmax].
  assert (H : forall v : R, (- / 2 <= v - (IZR (Zfloor (v - IZR (n - 1) / 2 + 1 / 2)) +
             IZR (Zfloor (v - IZR (n - 1) / 2 + 1 / 2) + n - 1)) / 2 < / 2)%R).
  { intros v. pose proof (Zfloor_spec (v - IZR (n - 1) / 2 + 1 / 2)) as [A B].
    set (k := Zfloor _) in *. rewrite !minus_IZR, !plus_IZR in *. lra. }
  split; apply H.
Qed.

(** The result is the only bounds object with these properties. *)
Lemma slice_bounds_unique (t : Z) (box : Z) (col row : R) b n b' n' :
  square_of b n -> square_of b' n' -> n mod 2 = box mod 2 -> n' mod 2 = box mod 2 ->
  (n = t \/ n = t + 1) -> (n' = t \/ n' = t + 1) ->
  (- / 2 <= row - (IZR (zrowmin b) + IZR (zrowmax b)) / 2 < / 2)%R ->
  (- / 2 <= col - (IZR (zcolmin b) + IZR (zcolmax b)) / 2 < / 2)%R ->
  (- / 2 <= row - (IZR (zrowmin b') + IZR (zrowmax b')) / 2 < / 2)%R ->
  (- / 2 <= col - (IZR (zcolmin b') + IZR (zcolmax b')) / 2 < / 2)%R ->
  b = b' /\ n = n'.
Proof.
  intros S S' P P' T T' R1 C1 R2 C2.
  assert (E : n = n').
  { assert (D : forall z, (z + 1) mod 2 <> z mod 2).
    { intros z. pose proof (Z.mod_pos_bound z 2 ltac:(lia)).
      rewrite Z.add_mod by lia. change (1 mod 2) with 1.
      assert (Hz : z mod 2 = 0 \/ z mod 2 = 1) by lia. destruct Hz as [-> | ->]; cbn; lia. }
    destruct T, T'; subst; try reflexivity; exfalso; apply (D t); congruence. }
  split; [|exact E]. subst n'.
  destruct b as [r1 r2 c1 c2], b' as [r1' r2' c1' c2']. destruct S as [S1 S2], S' as [S3 S4].
  cbn in *.
  assert (K : forall a a' m : Z, forall v : R,
             (- / 2 <= v - (IZR a + IZR (a + m)) / 2 < / 2)%R ->
             (- / 2 <= v - (IZR a' + IZR (a' + m)) / 2 < / 2)%R -> a = a').
  { intros a a' m v H1 H2. rewrite !plus_IZR in *.
    assert (IZR (a - a') < 1)%R by (rewrite minus_IZR; lra).
    assert (IZR (a' - a) < 1)%R by (rewrite minus_IZR; lra).
    apply (lt_IZR _ 1) in H. apply (lt_IZR _ 1) in H0. lia. }
  assert (r1 = r1').
  { apply (K r1 r1' (n - 1) row).
    - replace (r1 + (n - 1)) with r2 by lia. exact R1.
    - replace (r1' + (n - 1)) with r2' by lia. exact R2. }
  assert (c1 = c1').
  { apply (K c1 c1' (n - 1) col).
    - replace (c1 + (n - 1)) with c2 by lia. exact C1.
    - replace (c1' + (n - 1)) with c2' by lia. exact C2. }
  f_equal; lia.
Qed.

Lemma contains_spec (shape : Z * Z) (b : zbounds) (buffer : Z) :
  zrowmin b <= zrowmax b -> zcolmin b <= zcolmax b ->
  ccd_contains_bounds shape b buffer = true <->
  forall r c, in_zbounds b r c ->
    Z.max 0 buffer <= r < fst shape - Z.max 0 buffer /\
    Z.max 0 buffer <= c < snd shape - Z.max 0 buffer.
Proof.
  intros Hr Hc. unfold ccd_contains_bounds, contains_bounds, ccd_bounds, in_zbounds.
  assert (E : forall o, (zrowmin o = Z.max 0 buffer /\ zrowmax o = fst shape - 1 - Z.max 0 buffer /\
               zcolmin o = Z.max 0 buffer /\ zcolmax o = snd shape - 1 - Z.max 0 buffer) ->
    ((zrowmin o <=? zrowmin b) && (zrowmax b <=? zrowmax o) && (zcolmin o <=? zcolmin b) &&
     (zcolmax b <=? zcolmax o) = true <->
     forall r c, zrowmin b <= r <= zrowmax b /\ zcolmin b <= c <= zcolmax b ->
       Z.max 0 buffer <= r < fst shape - Z.max 0 buffer /\
       Z.max 0 buffer <= c < snd shape - Z.max 0 buffer)).
  { intros o (-> & -> & -> & ->). rewrite !andb_true_iff, !Z.leb_le. split.
    - intros; lia.
    - intros H. pose proof (H (zrowmin b) (zcolmin b) ltac:(lia)).
      pose proof (H (zrowmax b) (zcolmax b) ltac:(lia)). lia. }
  apply E. destruct (Z.gtb_spec buffer 0); cbn [zrowmin zrowmax zcolmin zcolmax]; lia.
Qed.

(** ** Windows *)

Lemma np_slice2_window {A} (a : img A) y x n :
  0 <= n -> 0 <= y -> y + n <= nrows a -> 0 <= x -> x + n <= ncols a ->
  window_of (px a) y x n (np_slice2 a y (y + n) x (x + n)).
Proof.
  intros Hn Hy Hy' Hx Hx'. unfold np_slice2, pyslice.
  destruct (Z.ltb_spec y 0); [lia|]. destruct (Z.ltb_spec (y + n) 0); [lia|].
  destruct (Z.ltb_spec x 0); [lia|]. destruct (Z.ltb_spec (x + n) 0); [lia|].
  split; [|split]; cbn [nrows ncols px]; [lia|lia|].
  intros i j Hi Hj. f_equal; lia.
Qed.

Lemma window_imap {A B} (f : A -> B) (src : Z -> Z -> A) y x n a :
  window_of src y x n a -> window_of (fun r c => f (src r c)) y x n (imap f a).
Proof.
  intros (H1 & H2 & H3). split; [exact H1|]. split; [exact H2|].
  intros i j Hi Hj. cbn. now rewrite H3.
Qed.

(** ** Tape bumps *)

Lemma slice_update_px {A} (a : img A) r1 r2 c1 c2 f r c :
  inb a r c -> 0 <= r1 -> 0 <= r2 -> 0 <= c1 -> 0 <= c2 ->
  px (slice_update a r1 r2 c1 c2 f) r c =
  if (r1 <=? r) && (r <? r2) && (c1 <=? c) && (c <? c2) then f (px a r c) else px a r c.
Proof.
  intros [Hr Hc] H1 H2 H3 H4. unfold slice_update, pyslice.
  destruct (Z.ltb_spec r1 0); [lia|]. destruct (Z.ltb_spec r2 0); [lia|].
  destruct (Z.ltb_spec c1 0); [lia|]. destruct (Z.ltb_spec c2 0); [lia|]. cbn [px].
  replace (Z.min r1 (nrows a) <=? r) with (r1 <=? r)
    by (apply eq_true_iff_eq; rewrite !Z.leb_le; lia).
  replace (r <? Z.min r2 (nrows a)) with (r <? r2)
    by (apply eq_true_iff_eq; rewrite !Z.ltb_lt; lia).
  replace (Z.min c1 (ncols a) <=? c) with (c1 <=? c)
    by (apply eq_true_iff_eq; rewrite !Z.leb_le; lia).
  replace (c <? Z.min c2 (ncols a)) with (c <? c2)
    by (apply eq_true_iff_eq; rewrite !Z.ltb_lt; lia).
  reflexivity.
Qed.

Lemma slice_update_shape {A} (a : img A) r1 r2 c1 c2 f :
  nrows (slice_update a r1 r2 c1 c2 f) = nrows a /\ ncols (slice_update a r1 r2 c1 c2 f) = ncols a.
Proof. unfold slice_update. destruct (pyslice _ _ _), (pyslice _ _ _). auto. Qed.

(** Every entry of the table is usable. *)
Definition bump_ok (b : bump) : bool :=
  (1 <=? row1 b) && (row1 b <=? row2 b) && (row2 b <=? 4096) &&
  (1 <=? col1 b) && (col1 b <=? col2 b) && (col2 b <=? 2048) && (bflag b =? 16384).

Lemma table_ok : forallb (fun e => forallb bump_ok (snd e)) tape_bumps = true.
Proof. vm_compute. reflexivity. Qed.

Lemma table_keys : map fst tape_bumps = zrange 1 63.
Proof. vm_compute. reflexivity. Qed.

Lemma table_bump e b : In e tape_bumps -> In b (snd e) ->
  1 <= row1 b <= row2 b /\ row2 b <= 4096 /\ 1 <= col1 b <= col2 b /\ col2 b <= 2048 /\
  bflag b = 16384.
Proof.
  intros He Hb. pose proof table_ok as H. rewrite forallb_forall in H.
  specialize (H e He). rewrite forallb_forall in H. specialize (H b Hb).
  unfold bump_ok in H. rewrite !andb_true_iff, !Z.leb_le, Z.eqb_eq in H. lia.
Qed.

Definition in_rect (b : bump) (r c : Z) : bool :=
  (row1 b <=? r) && (r <? row2 b + 1) && (col1 b <=? c) && (c <? col2 b + 1).

Definition bumpv (v : Z) : Z := Z.land (Z.lor v 16384) (Z.lnot suspect).

Lemma bumpv_bumped v : bumped v (bumpv v).
Proof.
  intros k Hk. unfold bumpv, suspect, TAPEBUMP_BIT, SUSPECT_BIT.
  rewrite Z.land_spec, Z.lor_spec, Z.lnot_spec by assumption.
  change 16384 with (2 ^ 14). change 2048 with (2 ^ 11).
  rewrite !Z.pow2_bits_eqb by lia.
  destruct (Z.eqb_spec k 14) as [->|]; [cbn; now rewrite orb_true_r|].
  replace (14 =? k) with false by (symmetry; apply Z.eqb_neq; lia).
  rewrite orb_false_r, (Z.eqb_sym 11 k).
  destruct (k =? 11); cbn; [apply andb_false_r|apply andb_true_r].
Qed.

Lemma bumped_unique v w w' : bumped v w -> bumped v w' -> w = w'.
Proof.
  intros H H'. apply Z.bits_inj'. intros k Hk. now rewrite (H k Hk), (H' k Hk).
Qed.

Lemma bumpv_idem v : bumpv (bumpv v) = bumpv v.
Proof.
  apply (bumped_unique (bumpv v)); [apply bumpv_bumped|].
  intros k Hk. rewrite (bumpv_bumped v k Hk).
  destruct (k =? TAPEBUMP_BIT); [reflexivity|]. destruct (k =? SUSPECT_BIT); reflexivity.
Qed.

Lemma mask_bump_shape m b : nrows (mask_bump m b) = nrows m /\ ncols (mask_bump m b) = ncols m.
Proof.
  unfold mask_bump.
  destruct (slice_update_shape (slice_update m (row1 b) (row2 b + 1) (col1 b) (col2 b + 1)
    (fun x => Z.lor x (bflag b))) (row1 b) (row2 b + 1) (col1 b) (col2 b + 1)
    (fun x => Z.land x (Z.lnot suspect))) as [-> ->].
  apply slice_update_shape.
Qed.

Lemma mask_bump_px m b r c : inb m r c ->
  1 <= row1 b <= row2 b -> 1 <= col1 b <= col2 b -> bflag b = 16384 ->
  px (mask_bump m b) r c = if in_rect b r c then bumpv (px m r c) else px m r c.
Proof.
  intros Hin Hr Hc Hf. unfold mask_bump.
  set (m1 := slice_update m (row1 b) (row2 b + 1) (col1 b) (col2 b + 1) (fun x => Z.lor x (bflag b))).
  assert (Hin1 : inb m1 r c).
  { unfold inb, m1.
    destruct (slice_update_shape m (row1 b) (row2 b + 1) (col1 b) (col2 b + 1)
                (fun x => Z.lor x (bflag b))) as [-> ->]. exact Hin. }
  rewrite slice_update_px by (assumption || lia). unfold m1.
  rewrite slice_update_px by (assumption || lia). rewrite Hf. fold (in_rect b r c).
  destruct (in_rect b r c); reflexivity.
Qed.

Lemma mask_bumps_shape bumps m :
  nrows (fold_left mask_bump bumps m) = nrows m /\ ncols (fold_left mask_bump bumps m) = ncols m.
Proof.
  revert m. induction bumps as [|b bumps IH]; intros m; cbn [fold_left]; [auto|].
  destruct (IH (mask_bump m b)) as [-> ->]. apply mask_bump_shape.
Qed.

Lemma mask_bumps_px bumps : (forall b, In b bumps ->
    1 <= row1 b <= row2 b /\ 1 <= col1 b <= col2 b /\ bflag b = 16384) ->
  forall m r c, inb m r c ->
  px (fold_left mask_bump bumps m) r c =
  if existsb (fun b => in_rect b r c) bumps then bumpv (px m r c) else px m r c.
Proof.
  induction bumps as [|b bumps IH]; intros Hok m r c Hin; cbn [fold_left existsb]; [reflexivity|].
  rewrite IH; [|intros b' Hb'; apply Hok; now right|].
  2:{ unfold inb in *. destruct (mask_bump_shape m b) as [-> ->]. exact Hin. }
  destruct (Hok b ltac:(now left)) as (H1 & H2 & H3).
  rewrite mask_bump_px by assumption.
  destruct (in_rect b r c); cbn [orb]; [|reflexivity].
  destruct (existsb _ bumps); [apply bumpv_idem|reflexivity].
Qed.

Lemma lookup_ccd_spec l ccd :
  match lookup_ccd l ccd with
  | Ok bumps => In (ccd, bumps) l
  | Raise e => e = KeyError /\ ~ In ccd (map fst l)
  end.
Proof.
  induction l as [|[k bs] l IH]; cbn; [tauto|].
  destruct (Z.eqb_spec ccd k) as [->|Hn]; [now left|].
  destruct (lookup_ccd l ccd); [now right|]. destruct IH as [-> IH]. split; [reflexivity|].
  intros [E|E]; [congruence|tauto].
Qed.

Lemma table_functional ccd b1 b2 :
  In (ccd, b1) tape_bumps -> In (ccd, b2) tape_bumps -> b1 = b2.
Proof.
  assert (Hn : NoDup (map fst tape_bumps)) by (rewrite table_keys; apply NoDup_zrange).
  generalize dependent tape_bumps. intros l Hn.
  induction l as [|[k bs] l IH]; cbn in *; [tauto|].
  inversion Hn as [|? ? N1 N2]; subst.
  intros [E1|E1] [E2|E2].
  - congruence.
  - exfalso. apply N1. injection E1 as -> ->. apply in_map_iff. exists (ccd, b2). auto.
  - exfalso. apply N1. injection E2 as -> ->. apply in_map_iff. exists (ccd, b1). auto.
  - auto.
Qed.

Lemma tape_mask_spec ccd m :
  (1 <= ccd <= 62 -> exists m', set_tape_bump_mask ccd m = Ok m') /\
  (~ 1 <= ccd <= 62 -> set_tape_bump_mask ccd m = Raise KeyError) /\
  forall m', set_tape_bump_mask ccd m = Ok m' ->
    1 <= ccd <= 62 /\ nrows m' = nrows m /\ ncols m' = ncols m /\
    forall r c, inb m r c ->
      (in_tape_bump ccd r c -> px m' r c = bumpv (px m r c)) /\
      (~ in_tape_bump ccd r c -> px m' r c = px m r c).
Proof.
  unfold set_tape_bump_mask. pose proof (lookup_ccd_spec tape_bumps ccd) as L.
  assert (Hk : forall bs, In (ccd, bs) tape_bumps -> 1 <= ccd <= 62).
  { intros bs H. apply (in_map fst) in H. rewrite table_keys, In_zrange in H. cbn in H. lia. }
  destruct (lookup_ccd tape_bumps ccd) as [bumps|e]; cbn [bind].
  - split; [eauto|]. split; [intros H; exfalso; apply H; eauto|].
    intros m' E. apply Ok_inj in E as <-. split; [eauto|].
    destruct (mask_bumps_shape bumps m) as [-> ->]. split; [reflexivity|]. split; [reflexivity|].
    intros r c Hin. rewrite mask_bumps_px; [|intros b Hb; pose proof (table_bump _ b L Hb); lia|assumption].
    destruct (existsb (fun b => in_rect b r c) bumps) eqn:E.
    + split; [reflexivity|]. intros N. exfalso. apply N.
      apply existsb_exists in E as (b & Hb & Hr). unfold in_rect in Hr.
      rewrite !andb_true_iff, !Z.leb_le, !Z.ltb_lt in Hr. exists bumps, b. repeat split; (assumption || lia).
    + split; [|reflexivity]. intros (bs & b & H1 & H2 & H3 & H4). exfalso.
      rewrite (table_functional _ _ _ H1 L) in H2.
      assert (T : existsb (fun b => in_rect b r c) bumps = true).
      { apply existsb_exists. exists b. split; [assumption|]. unfold in_rect.
        rewrite !andb_true_iff, !Z.leb_le, !Z.ltb_lt. lia. }
      congruence.
  - destruct L as [-> L]. split.
    { intros H. exfalso. apply L. rewrite table_keys, In_zrange. lia. }
    split; [reflexivity|]. discriminate.
Qed.

(** ** Reading a slice *)

Section Reading.
Context {F : Type} {FO : FloatOps F}.
Variables (pow10 : F -> F) (normal : Z -> Z -> F) (store : F -> F).

Lemma get_noise_image_ok (wgt : img F) scale seed :
  wf wgt ->
  ((exists r c, inb wgt r c /\ fleb (px wgt r c) fzero = false) ->
   exists im, get_noise_image normal store wgt scale seed = Ok im /\
     nrows im = nrows wgt /\ ncols im = ncols wgt) /\
  ((forall r c, inb wgt r c -> fleb (px wgt r c) fzero = true) ->
   get_noise_image normal store wgt scale seed = Raise ValueError).
Proof.
  intros Hwf. unfold get_noise_image. split.
  - intros (r & c & Hin & Hw).
    destruct (filter (fun w => negb (fleb w fzero)) (ravel wgt)) as [|w0 l] eqn:E.
    + exfalso.
      assert (Hi : In (px wgt r c) (filter (fun w => negb (fleb w fzero)) (ravel wgt))).
      { apply filter_In. split; [|now rewrite Hw]. unfold ravel. apply in_map_iff.
        exists (r, c). split; [reflexivity|]. now apply In_allpix. }
      rewrite E in Hi. destruct Hi.
    + cbn [np_max bind].
      match goal with |- exists im, bind (noise_image _ _ _ ?w _ _ _) _ = _ /\ _ =>
        assert (Hwf' : wf w) by exact Hwf;
        destruct (noise_image_spec normal store seed w None 1024 1024 ltac:(lia) ltac:(lia) Hwf')
          as (im & E1 & E2 & E3 & _) end.
      rewrite E1. cbn [bind]. exists im. auto.
  - intros H. destruct (filter (fun w => negb (fleb w fzero)) (ravel wgt)) as [|w0 l] eqn:E.
    + reflexivity.
    + exfalso. assert (Hi : In w0 (filter (fun w => negb (fleb w fzero)) (ravel wgt)))
        by (rewrite E; now left).
      apply filter_In in Hi as [H1 H2]. unfold ravel in H1. apply in_map_iff in H1 as ([r c] & <- & Hp).
      apply In_allpix in Hp. cbn in H2. rewrite (H r c Hp) in H2. discriminate.
Qed.

Lemma read_noises_spec (wgt : img F) scale y x n seeds :
  wf wgt -> 0 <= n -> 0 <= y -> y + n <= nrows wgt -> 0 <= x -> x + n <= ncols wgt ->
  (forall l, read_noises normal store wgt scale y x n seeds = Ok l ->
     Forall2 (fun seed nz => exists nse, get_noise_image normal store wgt scale seed = Ok nse /\
                window_of (px nse) y x n nz) seeds l) /\
  (seeds = [] \/ (exists r c, inb wgt r c /\ fleb (px wgt r c) fzero = false) ->
     exists l, read_noises normal store wgt scale y x n seeds = Ok l) /\
  (seeds <> [] -> (forall r c, inb wgt r c -> fleb (px wgt r c) fzero = true) ->
     read_noises normal store wgt scale y x n seeds = Raise ValueError).
Proof.
  intros Hwf Hn Hy Hy' Hx Hx'. induction seeds as [|seed seeds IH]; cbn [read_noises].
  - split; [intros l E; apply Ok_inj in E as <-; constructor|].
    split; [intros _; eauto|]. congruence.
  - destruct IH as (I1 & I2 & _).
    destruct (get_noise_image_ok wgt scale seed Hwf) as [G1 G2].
    split; [|split].
    + intros l E. apply bind_ok in E as (nse & E1 & E). apply bind_ok in E as (rest & E2 & E).
      apply Ok_inj in E as <-. constructor; [|auto]. exists nse. split; [assumption|].
      assert (Hs : nrows nse = nrows wgt /\ ncols nse = ncols wgt).
      { destruct (np_any (imap (fun w => negb (fleb w fzero)) wgt)) eqn:A.
        - apply np_any_spec in A as (r & c & Hb & Hp). cbn in Hp.
          destruct G1 as (im & Ei & S1 & S2).
          { exists r, c. split; [exact Hb|]. now apply negb_true_iff in Hp. }
          rewrite E1 in Ei. apply Ok_inj in Ei as <-. auto.
        - assert (G : forall r c, inb wgt r c -> fleb (px wgt r c) fzero = true).
          { intros r c Hb. pose proof (proj1 (np_any_false _) A r c Hb) as Hp. cbn in Hp.
            now apply negb_false_iff in Hp. }
          rewrite (G2 G) in E1. discriminate. }
      apply np_slice2_window; lia.
    + intros [D|Hp]; [discriminate|]. destruct (G1 Hp) as (im & -> & _). cbn [bind].
      destruct (I2 (or_intror Hp)) as (l & ->). cbn [bind]. eauto.
    + intros _ H. now rewrite (G2 H).
Qed.

Lemma set_slice_spec (s : source (F := F)) tape seeds (bmask : img Z) b shape buffer n :
  shaped (so_image s) shape -> shaped (so_bkg s) shape -> shaped (so_weight s) shape ->
  shaped bmask shape ->
  1 <= n -> square_of b n -> ccd_contains_bounds shape b buffer = true ->
  (forall sl bm, set_slice pow10 normal store s tape seeds bmask b = Ok (sl, bm) ->
   sl_x_start sl = zcolmin b /\ sl_y_start sl = zrowmin b /\ sl_box_size sl = n /\
   window_of (fun r c => fmul (fsub (px (so_image s) r c) (px (so_bkg s) r c)) (zp_scale pow10 (so_magzp s)))
     (zrowmin b) (zcolmin b) n (sl_image sl) /\
   window_of (fun r c => fdiv (px (so_weight s) r c)
                (fmul (zp_scale pow10 (so_magzp s)) (zp_scale pow10 (so_magzp s))))
     (zrowmin b) (zcolmin b) n (sl_weight sl) /\
   window_of (px bm) (zrowmin b) (zcolmin b) n (sl_bmask sl) /\
   (if tape then set_tape_bump_mask (so_ccdnum s) bmask = Ok bm else bm = bmask) /\
   Forall2 (fun seed nz => exists nse,
      get_noise_image normal store (so_weight s) (zp_scale pow10 (so_magzp s)) seed = Ok nse /\
      window_of (px nse) (zrowmin b) (zcolmin b) n nz) seeds (sl_noises sl)) /\
  ((tape = true -> 1 <= so_ccdnum s <= 62) ->
   (seeds = [] \/ exists r c, inb (so_weight s) r c /\ fleb (px (so_weight s) r c) fzero = false) ->
   exists sl bm, set_slice pow10 normal store s tape seeds bmask b = Ok (sl, bm)).
Proof.
  intros [Si1 Si2] [Sb1 Sb2] [Sw1 Sw2] [Sm1 Sm2] Hn [Hq1 Hq2] Hc.
  pose proof (proj1 (contains_spec shape b buffer ltac:(lia) ltac:(lia)) Hc) as Hin.
  pose proof (Hin (zrowmin b) (zcolmin b) ltac:(unfold in_zbounds; lia)) as [L1 L2].
  pose proof (Hin (zrowmax b) (zcolmax b) ltac:(unfold in_zbounds; lia)) as [U1 U2].
  assert (Hwf : wf (so_weight s)) by (split; lia).
  unfold set_slice. rewrite Hq1, Hq2, Z.eqb_refl. cbn [negb].
  assert (Ess : same_shape (so_image s) (so_bkg s) = true).
  { unfold same_shape. apply andb_true_iff. rewrite !Z.eqb_eq. lia. }
  rewrite Ess. cbn [negb].
  destruct (read_noises_spec (so_weight s) (zp_scale pow10 (so_magzp s)) (zrowmin b) (zcolmin b) n seeds
             Hwf ltac:(lia) ltac:(lia) ltac:(lia) ltac:(lia) ltac:(lia)) as (N1 & N2 & _).
  split.
  - intros sl bm E. apply bind_ok in E as (bm1 & E1 & E). apply bind_ok in E as (nz & E2 & E).
    apply Ok_inj in E. apply pair_equal_spec in E as [<- <-].
    cbn [sl_x_start sl_y_start sl_box_size sl_image sl_weight sl_bmask sl_noises].
    split; [reflexivity|]. split; [reflexivity|]. split; [reflexivity|].
    split; [|split; [|split; [|split]]].
    + apply (window_imap (fun v => fmul v (zp_scale pow10 (so_magzp s)))
               (fun r c => fsub (px (so_image s) r c) (px (so_bkg s) r c))).
      apply (np_slice2_window (imap2 fsub (so_image s) (so_bkg s))); cbn [imap2 nrows ncols]; lia.
    + apply (window_imap (fun w => fdiv w (fmul (zp_scale pow10 (so_magzp s)) (zp_scale pow10 (so_magzp s))))
               (px (so_weight s))).
      apply np_slice2_window; lia.
    + assert (Hs : nrows bm1 = nrows bmask /\ ncols bm1 = ncols bmask).
      { destruct tape.
        - destruct (tape_mask_spec (so_ccdnum s) bmask) as (_ & _ & T).
          destruct (T _ E1) as (_ & T1 & T2 & _). auto.
        - apply Ok_inj in E1 as <-. auto. }
      apply np_slice2_window; lia.
    + destruct tape; [assumption|]. now apply Ok_inj in E1.
    + apply N1, E2.
  - intros Ht Hs. destruct (N2 Hs) as (nz & ->).
    assert (Hm : exists bm1, (if tape then set_tape_bump_mask (so_ccdnum s) bmask else Ok bmask) = Ok bm1).
    { destruct tape; [|eauto]. apply (tape_mask_spec (so_ccdnum s) bmask). auto. }
    destruct Hm as (bm1 & ->). cbn [bind]. eauto.
Qed.
End Reading.

(** ** Caches *)

Section Caches.
Context {K V : Type} (eqb : K -> K -> bool) (f : K -> result V).
Notation cache := (@cache K V).

Definition consistent (st : cache) : Prop := Forall (fun e => f (fst e) = Ok (snd e)) st.

Lemma find_key_spec k (st : cache) e :
  find_key eqb k st = Some e -> In e st /\ eqb k (fst e) = true.
Proof.
  induction st as [|[k' v] st IH]; cbn; [discriminate|].
  destruct (eqb k k') eqn:E.
  - intros H. injection H as <-. auto.
  - intros H. destruct (IH H). auto.
Qed.

Lemma drop_key_In k (st : cache) e : In e (drop_key eqb k st) -> In e st.
Proof.
  induction st as [|[k' v] st IH]; cbn; [auto|].
  destruct (eqb k k'); cbn; [auto|]. intros [H|H]; auto.
Qed.

Lemma firstn_In {A} n (l : list A) x : In x (firstn n l) -> In x l.
Proof.
  revert n. induction l as [|a l IH]; intros [|n]; cbn; try tauto.
  intros [H|H]; eauto.
Qed.

Hypothesis eqb_sound : forall k k', eqb k k' = true -> f k = f k'.

Lemma cached_call_spec n st k : consistent st ->
  fst (cached_call eqb n f st k) = f k /\ consistent (snd (cached_call eqb n f st k)).
Proof.
  intros Hc. unfold cached_call. destruct (find_key eqb k st) as [[k' v]|] eqn:E.
  - apply find_key_spec in E as [Hi He]. cbn [fst snd] in *.
    unfold consistent in Hc. rewrite Forall_forall in Hc. pose proof (Hc _ Hi) as Hv. cbn in Hv.
    split; [now rewrite (eqb_sound _ _ He)|].
    unfold consistent. rewrite Forall_forall. intros e [<-|He']; [exact Hv|].
    apply Hc. eapply drop_key_In, He'.
  - destruct (f k) as [v|e] eqn:Ef; cbn [fst snd]; [|auto]. split; [reflexivity|].
    unfold consistent in *. rewrite Forall_forall in *. intros x Hx.
    apply firstn_In in Hx as [<-|Hx]; [exact Ef|auto].
Qed.

Lemma run_cached_spec n ops : forall st, consistent st ->
  fst (run_cached eqb n f ops st) = map f (calls ops).
Proof.
  induction ops as [|[k|] ops IH]; intros st Hc; cbn [run_cached calls flat_map app map].
  - reflexivity.
  - destruct (cached_call_spec n st k Hc) as [H1 H2].
    destruct (cached_call eqb n f st k) as [r st'] eqn:E. cbn [fst snd] in *. subst r.
    specialize (IH st' H2). destruct (run_cached eqb n f ops st') as [rs st'']. cbn [fst] in *.
    now rewrite IH.
  - apply IH. constructor.
Qed.
End Caches.

Lemma drop_key_length {K V} (eqb : K -> K -> bool) k (st : @cache K V) e :
  find_key eqb k st = Some e -> S (length (drop_key eqb k st)) = length st.
Proof.
  induction st as [|[k' v] st IH]; cbn; [discriminate|].
  destruct (eqb k k'); cbn; [reflexivity|]. intros H. now rewrite IH.
Qed.

Lemma cache_bounded {K V} (eqb : K -> K -> bool) (f : K -> result V) n ops : forall st,
  (length st <= n)%nat -> (length (snd (run_cached eqb n f ops st)) <= n)%nat.
Proof.
  induction ops as [|[k|] ops IH]; intros st Hl; cbn [run_cached].
  - exact Hl.
  - assert (H : (length (snd (cached_call eqb n f st k)) <= n)%nat).
    { unfold cached_call. destruct (find_key eqb k st) as [[k' v]|] eqn:E.
      - cbn [snd length]. rewrite (drop_key_length _ _ _ _ E). exact Hl.
      - destruct (f k); cbn [snd]; [|exact Hl]. rewrite firstn_length. lia. }
    destruct (cached_call eqb n f st k) as [r st']. cbn [snd] in H. specialize (IH st' H).
    destruct (run_cached eqb n f ops st') as [rs st'']. exact IH.
  - apply IH. cbn. lia.
Qed.

(** ** Histories of cached reads *)

Lemma img_eq_refl {A} (a : img A) : img_eq a a.
Proof. split; [|split]; auto. Qed.

Lemma img_eq_sym {A} (a b : img A) : img_eq a b -> img_eq b a.
Proof.
  intros (H1 & H2 & H3). split; [|split]; auto. intros r c Hin. symmetry. apply H3.
  unfold inb in *. now rewrite H1, H2.
Qed.

Lemma img_eq_trans {A} (a b c : img A) : img_eq a b -> img_eq b c -> img_eq a c.
Proof.
  intros (H1 & H2 & H3) (K1 & K2 & K3). split; [|split]; try congruence.
  intros r x Hin. rewrite H3 by assumption. apply K3. unfold inb in *. now rewrite <- H1, <- H2.
Qed.

Lemma pyslice_bounds n a b rs re : 0 <= n -> pyslice n a b = (rs, re) -> 0 <= rs /\ re <= n.
Proof.
  intros Hn. unfold pyslice. intros E. apply pair_equal_spec in E as [<- <-].
  destruct (Z.ltb_spec a 0), (Z.ltb_spec b 0); lia.
Qed.

Lemma np_slice2_eq {A} (a b : img A) r1 r2 c1 c2 :
  wf a -> img_eq a b -> img_eq (np_slice2 a r1 r2 c1 c2) (np_slice2 b r1 r2 c1 c2).
Proof.
  intros [W1 W2] (H1 & H2 & H3). unfold np_slice2. rewrite <- H1, <- H2.
  destruct (pyslice (nrows a) r1 r2) as [rs re] eqn:Er.
  destruct (pyslice (ncols a) c1 c2) as [cs ce] eqn:Ec.
  apply pyslice_bounds in Er; [|assumption]. apply pyslice_bounds in Ec; [|assumption].
  split; [reflexivity|]. split; [reflexivity|].
  intros r c [Hr Hc]. cbn [px nrows ncols] in *. apply H3. unfold inb. lia.
Qed.

Lemma tape_again ccd m m1 v :
  set_tape_bump_mask ccd m = Ok m1 -> img_eq v m \/ img_eq v m1 ->
  exists m2, set_tape_bump_mask ccd v = Ok m2 /\ img_eq m2 m1.
Proof.
  intros E Hv. destruct (tape_mask_spec ccd m) as (_ & _ & T). destruct (T m1 E) as (Hk & S1 & S2 & P).
  destruct (tape_mask_spec ccd v) as (T1 & _ & T'). destruct (T1 Hk) as (m2 & E2).
  exists m2. split; [assumption|]. destruct (T' m2 E2) as (_ & S1' & S2' & P').
  assert (Sv : nrows v = nrows m /\ ncols v = ncols m)
    by (destruct Hv as [(A & B & _)|(A & B & _)]; split; congruence).
  destruct Sv as [V1 V2].
  split; [congruence|]. split; [congruence|]. intros r c Hin.
  assert (Hiv : inb v r c) by (unfold inb in *; now rewrite <- S1', <- S2').
  assert (Him : inb m r c) by (unfold inb in *; now rewrite <- V1, <- V2).
  destruct (P r c Him) as [Pa Pb]. destruct (P' r c Hiv) as [Pa' Pb'].
  assert (Dec : in_tape_bump ccd r c \/ ~ in_tape_bump ccd r c).
  { destruct (existsb (fun e => (fst e =? ccd) && existsb (fun b => in_rect b r c) (snd e)) tape_bumps) eqn:D.
    - left. apply existsb_exists in D as ([k bs] & H1 & H2). cbn [fst snd] in H2.
      apply andb_true_iff in H2 as [H2 H3]. apply Z.eqb_eq in H2 as ->.
      apply existsb_exists in H3 as (b & H3 & H4). unfold in_rect in H4.
      rewrite !andb_true_iff, !Z.leb_le, !Z.ltb_lt in H4. exists bs, b. repeat split; (assumption || lia).
    - right. intros (bs & b & H1 & H2 & H3 & H4).
      assert (D' : existsb (fun e => (fst e =? ccd) && existsb (fun b => in_rect b r c) (snd e)) tape_bumps = true).
      { apply existsb_exists. exists (ccd, bs). split; [assumption|]. cbn [fst snd].
        rewrite Z.eqb_refl. cbn [andb]. apply existsb_exists. exists b. split; [assumption|].
        unfold in_rect. rewrite !andb_true_iff, !Z.leb_le, !Z.ltb_lt. lia. }
      congruence. }
  destruct Dec as [D|D].
  - rewrite (Pa' D), (Pa D). destruct Hv as [(_ & _ & Hv)|(_ & _ & Hv)]; rewrite Hv by assumption.
    + reflexivity.
    + rewrite (Pa D). apply bumpv_idem.
  - rewrite (Pb' D), (Pb D). destruct Hv as [(_ & _ & Hv)|(_ & _ & Hv)]; rewrite Hv by assumption.
    + reflexivity.
    + apply (Pb D).
Qed.

Section Histories.
Context {F : Type} {FO : FloatOps F}.
Variables (pow10 : F -> F) (normal : Z -> Z -> F) (store : F -> F).

Notation read_fresh := (read_fresh pow10 normal store).

Lemma set_slice_mask (s : source (F := F)) tape seeds m m' b sl bm bm' :
  wf bm' ->
  set_slice pow10 normal store s tape seeds m b = Ok (sl, bm) ->
  (if tape then set_tape_bump_mask (so_ccdnum s) m' else Ok m') = Ok bm' -> img_eq bm' bm ->
  exists sl', set_slice pow10 normal store s tape seeds m' b = Ok (sl', bm') /\ same_slice sl' sl.
Proof.
  intros Hwf H Hm' He. unfold set_slice in *.
  destruct (negb (_ =? _)); [discriminate|]. destruct (negb (same_shape _ _)); [discriminate|].
  apply bind_ok in H as (bm1 & E1 & E). apply bind_ok in E as (nz & E2 & E).
  apply Ok_inj in E. apply pair_equal_spec in E as [<- <-].
  rewrite Hm'. cbn [bind]. rewrite E2. cbn [bind]. eexists. split; [reflexivity|].
  unfold same_slice. cbn [sl_x_start sl_y_start sl_box_size sl_image sl_weight sl_bmask sl_noises].
  repeat split; try reflexivity; apply np_slice2_eq; assumption.
Qed.

Variables (maxsize : nat) (disk : Z -> img Z) (ccd_of : Z -> Z) (tape_of : Z -> bool).

Definition entry_ok (e : Z * img Z) : Prop :=
  img_eq (snd e) (disk (fst e)) \/
  tape_of (fst e) = true /\
  exists m, set_tape_bump_mask (ccd_of (fst e)) (disk (fst e)) = Ok m /\ img_eq (snd e) m.

Lemma modify_entry_ok k g (st : @cache Z (img Z)) :
  (forall v, entry_ok (k, g v)) -> Forall entry_ok st -> Forall entry_ok (modify_entry Z.eqb k g st).
Proof.
  intros Hg H. induction H as [|[k' v] st H1 H2 IH]; cbn; [constructor|].
  destruct (Z.eqb_spec k k') as [->|]; constructor; auto.
Qed.

Lemma run_reads_spec : (forall k, wf (disk k)) -> forall qs,
  (forall q, In q qs -> rq_tape q = tape_of (rq_mask q) /\
     so_ccdnum (rq_source q) = ccd_of (rq_mask q) /\
     exists sl bm, read_fresh disk q = Ok (sl, bm)) ->
  forall st, Forall entry_ok st ->
  exists sls, run_reads pow10 normal store maxsize disk st qs = Ok sls /\
    Forall2 (fun q sl => exists sl0 bm, read_fresh disk q = Ok (sl0, bm) /\ same_slice sl sl0) qs sls.
Proof.
  intros Hwf. induction qs as [|q qs IH]; intros Hq st Hst; cbn [run_reads].
  - exists []. split; [reflexivity|constructor].
  - destruct (Hq q ltac:(now left)) as (Ht & Hk & sl0 & bm0 & Hf).
    unfold set_slice_cached.
    assert (C : exists v st', cached_call Z.eqb maxsize (fun k => Ok (disk k)) st (rq_mask q) = (Ok v, st') /\
                entry_ok (rq_mask q, v) /\ Forall entry_ok st').
    { unfold cached_call. destruct (find_key Z.eqb (rq_mask q) st) as [[k' v]|] eqn:E.
      - apply find_key_spec in E as [Hi He]. cbn [fst] in He. apply Z.eqb_eq in He as <-.
        pose proof Hst as Hst'. rewrite Forall_forall in Hst'.
        exists v, ((rq_mask q, v) :: drop_key Z.eqb (rq_mask q) st).
        split; [reflexivity|]. split; [apply Hst'; assumption|]. constructor; [apply Hst'; assumption|].
        apply Forall_forall. intros e He. apply Hst'. eapply drop_key_In, He.
      - exists (disk (rq_mask q)), (firstn maxsize ((rq_mask q, disk (rq_mask q)) :: st)).
        split; [reflexivity|]. assert (Ho : entry_ok (rq_mask q, disk (rq_mask q)))
          by (left; apply img_eq_refl).
        split; [exact Ho|]. apply Forall_forall. intros e He. apply firstn_In in He.
        rewrite Forall_forall in Hst. destruct He as [<-|He]; auto. }
    destruct C as (v & st' & -> & Hv & Hst').
    assert (D : exists bm', (if rq_tape q then set_tape_bump_mask (so_ccdnum (rq_source q)) v else Ok v) = Ok bm' /\
                img_eq bm' bm0 /\ entry_ok (rq_mask q, bm')).
    { pose proof Hf as Hf'. unfold SeImageSpec.read_fresh, set_slice in Hf'.
      destruct (negb (_ =? _)); [discriminate|]. destruct (negb (same_shape _ _)); [discriminate|].
      apply bind_ok in Hf' as (bm1 & E1 & E). apply bind_ok in E as (nz & E2 & E).
      apply Ok_inj in E. apply pair_equal_spec in E as [_ <-]. clear E2.
      unfold entry_ok in *. cbn [fst snd] in *. rewrite <- Ht, <- Hk in *.
      destruct (rq_tape q).
      - assert (Hv' : img_eq v (disk (rq_mask q)) \/ img_eq v bm1).
        { destruct Hv as [Hv|(_ & m & Em & Hv)]; [now left|right].
          rewrite E1 in Em. now apply Ok_inj in Em as <-. }
        destruct (tape_again _ _ _ _ E1 Hv') as (m2 & E2 & E3).
        exists m2. split; [assumption|]. split; [assumption|]. right. split; [reflexivity|].
        exists bm1. auto.
      - apply Ok_inj in E1 as <-. destruct Hv as [Hv|(Hv & _)]; [|discriminate].
        exists v. auto. }
    destruct D as (bm' & D1 & D2 & D3).
    assert (Wb : wf bm').
    { assert (Hv' : wf v).
      { destruct Hv as [(A & B & _)|(_ & m & Em & (A & B & _))]; cbn [fst snd] in *.
        - unfold wf. rewrite A, B. apply Hwf.
        - destruct (tape_mask_spec (ccd_of (rq_mask q)) (disk (rq_mask q))) as (_ & _ & T).
          destruct (T _ Em) as (_ & T1 & T2 & _). unfold wf. rewrite A, B, T1, T2. apply Hwf. }
      destruct (rq_tape q).
      - destruct (tape_mask_spec (so_ccdnum (rq_source q)) v) as (_ & _ & T).
        destruct (T _ D1) as (_ & T1 & T2 & _). unfold wf. rewrite T1, T2. exact Hv'.
      - now apply Ok_inj in D1 as <-. }
    destruct (set_slice_mask _ _ _ _ v _ _ _ bm' Wb Hf D1 D2) as (sl' & -> & Hs). cbn [bind].
    destruct (IH (fun q' H' => Hq q' (or_intror H')) (modify_entry Z.eqb (rq_mask q) (fun _ => bm') st'))
      as (sls & -> & Hr).
    { apply modify_entry_ok; auto. }
    exists (sl' :: sls). split; [reflexivity|]. constructor; [|exact Hr]. eauto.
Qed.
End Histories.
