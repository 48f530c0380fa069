From Coq Require Import ZArith List Bool Lia Reals Lra Permutation.
From Verif Require Import Lib.Base Lib.Floats Model.Coadd Spec.CoaddSpec Proofs.BaseFacts
  Proofs.SliceInputsProofs Proofs.SelectProofs Proofs.NpSum.
Import ListNotations.
Open Scope Z_scope.

Section Gen.
Context {F : Type} `{FO : FloatOps F} {S : Type}.

Lemma add_noises_spec (acc data : list (img F)) w out :
  add_noises acc data w = Ok out ->
  length out = length acc /\ (length acc <= length data)%nat /\
  forall k a, nth_error acc k = Some a ->
    exists d, nth_error data k = Some d /\ nth_error out k = Some (add_scaled a d w).
Proof.
  revert data out. induction acc as [|a acc IH]; intros data out E; cbn [add_noises] in E.
  - apply Ok_inj in E. subst out. split; [reflexivity|]. split; [cbn; lia|].
    intros [|k] x Hx; discriminate.
  - destruct data as [|d data]; [discriminate|]. apply bind_ok in E as (rest & Er & E).
    apply Ok_inj in E. subst out. destruct (IH _ _ Er) as (I1 & I2 & I3).
    split; [cbn; lia|]. split; [cbn; lia|]. intros [|k] x Hx; cbn in *.
    + injection Hx as <-. eauto.
    + apply I3. exact Hx.
Qed.

Lemma add_noises_ok (acc data : list (img F)) w :
  (length acc <= length data)%nat -> exists out, add_noises acc data w = Ok out.
Proof.
  revert data. induction acc as [|a acc IH]; intros data L; cbn [add_noises]; [eauto|].
  destruct data as [|d data]; [cbn in L; lia|]. destruct (IH data ltac:(cbn in L; lia)) as (o & ->).
  cbn [bind]. eauto.
Qed.

Lemma add_noises_short (acc data : list (img F)) w :
  (length data < length acc)%nat -> add_noises acc data w = Raise IndexError.
Proof.
  revert data. induction acc as [|a acc IH]; intros data L; [cbn in L; lia|].
  destruct data as [|d data]; [reflexivity|]. cbn [add_noises]. rewrite IH by (cbn in L; lia).
  reflexivity.
Qed.

Definition acc_sum (a0 : F) (l : list (F * F)) : F :=
  fold_left (fun acc p => fadd acc (fmul (fst p) (snd p))) l a0.

(** What the loop leaves behind. *)
Lemma coadd_loop_spec (resample : S -> result (resampled (F := F))) l : forall (acc out : coadd (F := F)) datas,
  coadd_loop resample l acc = Ok (out, datas) ->
  Forall2 (fun sw res => resample (fst sw) = Ok res) l datas /\
  nrows (co_image out) = nrows (co_image acc) /\ ncols (co_image out) = ncols (co_image acc) /\
  nrows (co_bmask out) = nrows (co_bmask acc) /\ ncols (co_bmask out) = ncols (co_bmask acc) /\
  nrows (co_ormask out) = nrows (co_ormask acc) /\ ncols (co_ormask out) = ncols (co_ormask acc) /\
  nrows (co_psf out) = nrows (co_psf acc) /\ ncols (co_psf out) = ncols (co_psf acc) /\
  nrows (co_mfrac out) = nrows (co_mfrac acc) /\ ncols (co_mfrac out) = ncols (co_mfrac acc) /\
  length (co_noises out) = length (co_noises acc) /\
  Forall (fun res => (length (co_noises acc) <= length (rs_noises res))%nat) datas /\
  forall r c,
    px (co_image out) r c = acc_sum (px (co_image acc) r c)
      (combine (map (fun d => px (rs_image d) r c) datas) (map snd l)) /\
    px (co_psf out) r c = acc_sum (px (co_psf acc) r c)
      (combine (map (fun d => finite_or_zero (px (rs_psf d) r c)) datas) (map snd l)) /\
    px (co_mfrac out) r c = acc_sum (px (co_mfrac acc) r c)
      (combine (map (fun d => clip01 (px (rs_interp_frac d) r c)) datas) (map snd l)) /\
    (forall k, Z.testbit (px (co_bmask out) r c) k = true <->
       Z.testbit (px (co_bmask acc) r c) k = true \/
       exists d, In d datas /\ Z.testbit (px (rs_pmask d) r c) k = true) /\
    (forall k, Z.testbit (px (co_ormask out) r c) k = true <->
       Z.testbit (px (co_ormask acc) r c) k = true \/
       exists d, In d datas /\ Z.testbit (px (rs_bmask d) r c) k = true) /\
    (forall i a, nth_error (co_noises acc) i = Some a ->
       exists a' ds, nth_error (co_noises out) i = Some a' /\
         nrows a' = nrows a /\ ncols a' = ncols a /\
         Forall2 (fun d n => nth_error (rs_noises d) i = Some n) datas ds /\
         px a' r c = acc_sum (px a r c) (combine (map (fun n => px n r c) ds) (map snd l))).
Proof.
  induction l as [|[s w] l IH]; intros acc out datas E; cbn [coadd_loop] in E.
  - apply Ok_inj in E. apply pair_equal_spec in E as [<- <-].
    split; [constructor|]. do 11 (split; [reflexivity|]). split; [constructor|].
    intros r c. cbn. do 3 (split; [reflexivity|]).
    split; [intros k; split; [auto|intros [|(d & [] & _)]; assumption]|].
    split; [intros k; split; [auto|intros [|(d & [] & _)]; assumption]|].
    intros i a Ha. exists a, []. split; [assumption|]. do 2 (split; [reflexivity|]).
    split; [constructor|reflexivity].
  - apply bind_ok in E as (res & Eres & E). apply bind_ok in E as (acc1 & Est & E).
    apply bind_ok in E as ([out1 rest] & Erec & E). apply Ok_inj in E.
    apply pair_equal_spec in E as [<- <-].
    unfold coadd_step in Est. apply bind_ok in Est as (ns & Ens & Est). apply Ok_inj in Est.
    destruct (add_noises_spec _ _ _ _ Ens) as (N1 & N2 & N3).
    destruct (IH _ _ _ Erec) as (D & S1 & S2 & S3 & S4 & S5 & S6 & S7 & S8 & S9 & S10 & S11 & S12 & Hpx).
    subst acc1. cbn [co_image co_bmask co_ormask co_psf co_mfrac co_noises] in *.
    split; [constructor; assumption|].
    do 10 (split; [assumption|]). split; [lia|].
    split; [constructor; [exact N2|]; eapply Forall_impl; [|exact S12]; cbn; intros; lia|].
    intros r c. destruct (Hpx r c) as (P1 & P2 & P3 & P4 & P5 & P6).
    split; [exact P1|]. split; [exact P2|]. split; [exact P3|].
    split; [|split].
    + intros k. rewrite P4. cbn [imap2 px]. rewrite Z.lor_spec, orb_true_iff. split.
      * intros [[|]|(d & Hd & Ht)]; [auto|right; exists res; split; [now left|assumption]|].
        right. exists d. split; [now right|assumption].
      * intros [|(d & [->|Hd] & Ht)]; [auto|auto|right; exists d; auto].
    + intros k. rewrite P5. cbn [imap2 px]. rewrite Z.lor_spec, orb_true_iff. split.
      * intros [[|]|(d & Hd & Ht)]; [auto|right; exists res; split; [now left|assumption]|].
        right. exists d. split; [now right|assumption].
      * intros [|(d & [->|Hd] & Ht)]; [auto|auto|right; exists d; auto].
    + intros i a Ha. destruct (N3 i a Ha) as (d & Hd & Ho).
      destruct (P6 i _ Ho) as (a' & ds & Q1 & Q2 & Q3 & Q4 & Q5).
      exists a', (d :: ds). split; [assumption|]. split; [exact Q2|]. split; [exact Q3|].
      split; [constructor; assumption|]. exact Q5.
Qed.

Lemma coadd_loop_ok (resample : S -> result (resampled (F := F))) l : forall (acc : coadd (F := F)),
  (forall s w, In (s, w) l -> exists res, resample s = Ok res /\
     (length (co_noises acc) <= length (rs_noises res))%nat) ->
  exists out datas, coadd_loop resample l acc = Ok (out, datas).
Proof.
  induction l as [|[s w] l IH]; intros acc Hl; cbn [coadd_loop]; [eauto|].
  destruct (Hl s w (or_introl eq_refl)) as (res & -> & Hn). cbn [bind]. unfold coadd_step.
  destruct (add_noises_ok (co_noises acc) (rs_noises res) w Hn) as (ns & En). rewrite En. cbn [bind].
  match goal with |- context [coadd_loop resample l ?a] => destruct (IH a) as (out & datas & ->) end.
  - intros s0 w0 Hin. destruct (Hl s0 w0 (or_intror Hin)) as (r0 & E0 & H0). exists r0.
    split; [assumption|]. cbn [co_noises]. destruct (add_noises_spec _ _ _ _ En) as (N1 & _). lia.
  - cbn [bind]. eauto.
Qed.

Lemma map_snd_combine {A B} (l : list A) (m : list B) : length l = length m ->
  map snd (combine l m) = m.
Proof.
  revert m. induction l as [|a l IH]; intros [|b m] E; try discriminate; [reflexivity|].
  cbn. f_equal. apply IH. cbn in E. lia.
Qed.

Theorem coadd_spec (resample : S -> result (resampled (F := F))) box pbox slices weights nextra
  out weight datas :
  coadd_slice_inputs resample box pbox slices weights nextra = Ok (out, weight, datas) ->
  let ws := map (fun w => fdiv w (fsum weights)) weights in
  length slices = length weights /\ slices <> [] /\
  Forall2 (fun s res => resample s = Ok res) slices datas /\
  nrows (co_image out) = box /\ ncols (co_image out) = box /\
  nrows (co_bmask out) = box /\ ncols (co_bmask out) = box /\
  nrows (co_ormask out) = box /\ ncols (co_ormask out) = box /\
  nrows (co_psf out) = pbox /\ ncols (co_psf out) = pbox /\
  nrows (co_mfrac out) = box /\ ncols (co_mfrac out) = box /\
  length (co_noises out) = Datatypes.S nextra /\
  Forall (fun res => (Datatypes.S nextra <= length (rs_noises res))%nat) datas /\
  nrows weight = box /\ ncols weight = box /\
  (exists n0, nth_error (co_noises out) 0 = Some n0 /\
     forall r c, px weight r c = fdiv fone (variance (ravel n0))) /\
  forall r c,
    px (co_image out) r c = running_sum (combine (map (fun d => px (rs_image d) r c) datas) ws) /\
    px (co_psf out) r c =
      running_sum (combine (map (fun d => finite_or_zero (px (rs_psf d) r c)) datas) ws) /\
    px (co_mfrac out) r c =
      running_sum (combine (map (fun d => clip01 (px (rs_interp_frac d) r c)) datas) ws) /\
    (forall k, Z.testbit (px (co_bmask out) r c) k = true <->
       exists d, In d datas /\ Z.testbit (px (rs_pmask d) r c) k = true) /\
    (forall k, Z.testbit (px (co_ormask out) r c) k = true <->
       exists d, In d datas /\ Z.testbit (px (rs_bmask d) r c) k = true) /\
    (forall i, (i < Datatypes.S nextra)%nat ->
       exists a ds, nth_error (co_noises out) i = Some a /\
         nrows a = box /\ ncols a = box /\
         Forall2 (fun d n => nth_error (rs_noises d) i = Some n) datas ds /\
         px a r c = running_sum (combine (map (fun n => px n r c) ds) ws)).
Proof.
  intros E ws. unfold coadd_slice_inputs in E. rewrite map_length in E.
  destruct (Nat.eqb (length slices) (length weights)) eqn:El; [|discriminate].
  apply Nat.eqb_eq in El. cbn [negb] in E.
  assert (Hne : slices <> []) by (destruct slices; [discriminate|congruence]).
  assert (E' : ('(out, datas) <- coadd_loop resample (combine slices ws)
       (mkcoadd (full box box fzero) (full box box 0) (full box box 0)
          (repeat (full box box fzero) (Datatypes.S nextra)) (full pbox pbox fzero)
          (full box box fzero)) ;;
      match co_noises out with
      | [] => Raise IndexError
      | n0 :: _ => Ok (out, full (nrows n0) (ncols n0) (fdiv fone (variance (ravel n0))), datas)
      end) = Ok (out, weight, datas)) by (destruct slices; [congruence|exact E]).
  clear E. apply bind_ok in E' as ([out1 d1] & Eloop & E).
  destruct (co_noises out1) as [|n0 nr] eqn:En; [discriminate|]. apply Ok_inj in E.
  apply pair_equal_spec in E as [E <-]. apply pair_equal_spec in E as [<- <-].
  assert (Lw : length slices = length ws) by (unfold ws; rewrite map_length; exact El).
  destruct (coadd_loop_spec _ _ _ _ _ Eloop) as (D & S1 & S2 & S3 & S4 & S5 & S6 & S7 & S8 & S9 & S10 & S11 & S12 & Hpx).
  cbn [co_image co_bmask co_ormask co_psf co_mfrac co_noises full nrows ncols px] in *.
  rewrite repeat_length in *.
  rewrite map_snd_combine in Hpx by exact Lw.
  assert (Hrep : forall i, (i < Datatypes.S nextra)%nat ->
            nth_error (repeat (full box box (fzero (F := F))) (Datatypes.S nextra)) i = Some (full box box fzero)).
  { clear. induction (Datatypes.S nextra) as [|n IH]; intros [|i] Hi; cbn; try lia; [reflexivity|].
    apply IH. lia. }
  split; [exact El|]. split; [exact Hne|].
  split.
  { clear - D Lw. clearbody ws. revert ws d1 D Lw.
    induction slices as [|s sl IH]; intros ws d1 D L.
    - inversion D. constructor.
    - destruct ws as [|w ws]; [discriminate|]. cbn in D. inversion D; subst. constructor; [assumption|].
      eapply IH; [eassumption|]. cbn in L. lia. }
  do 10 (split; [assumption|]). split; [exact S11|]. split; [exact S12|].
  destruct (Hpx 0 0) as (_ & _ & _ & _ & _ & Hn0).
  destruct (Hn0 0%nat _ (Hrep 0%nat ltac:(lia))) as (a' & ds & Ha' & R1 & R2 & _).
  rewrite En in Ha'. injection Ha' as <-. cbn [full nrows ncols] in R1, R2.
  split; [exact R1|]. split; [exact R2|].
  split; [exists n0; split; [rewrite En; reflexivity|reflexivity]|].
  intros r c. destruct (Hpx r c) as (P1 & P2 & P3 & P4 & P5 & P6).
  split; [exact P1|]. split; [exact P2|]. split; [exact P3|].
  split; [intros k; rewrite P4, Z.bits_0; intuition discriminate|].
  split; [intros k; rewrite P5, Z.bits_0; intuition discriminate|].
  intros i Hi. destruct (P6 i _ (Hrep i Hi)) as (a & ds1 & Q1 & Q2 & Q3 & Q4 & Q5).
  exists a, ds1. split; [exact Q1|]. split; [exact Q2|]. split; [exact Q3|]. split; [exact Q4|exact Q5].
Qed.

Theorem coadd_ok (resample : S -> result (resampled (F := F))) box pbox slices weights nextra :
  length slices = length weights -> slices <> [] ->
  (forall s, In s slices -> exists res, resample s = Ok res /\
     (Datatypes.S nextra <= length (rs_noises res))%nat) ->
  exists out, coadd_slice_inputs resample box pbox slices weights nextra = Ok out.
Proof.
  intros L Hne Hs. unfold coadd_slice_inputs. rewrite map_length, (proj2 (Nat.eqb_eq _ _) L).
  cbn [negb]. destruct slices as [|s0 sl] eqn:Es; [congruence|]. rewrite <- Es in *.
  match goal with |- context [coadd_loop resample ?l ?a] =>
    destruct (coadd_loop_ok resample l a) as (out & datas & E) end.
  - intros s w Hin. apply in_combine_l in Hin. cbn [co_noises]. rewrite repeat_length. auto.
  - rewrite E. cbn [bind].
    destruct (coadd_loop_spec _ _ _ _ _ E) as (_ & _ & _ & _ & _ & _ & _ & _ & _ & _ & _ & S11 & _).
    cbn [co_noises] in S11. rewrite repeat_length in S11.
    destruct (co_noises out); [discriminate|]. eauto.
Qed.

Theorem coadd_mismatch (resample : S -> result (resampled (F := F))) box pbox slices weights nextra :
  length slices <> length weights ->
  coadd_slice_inputs resample box pbox slices weights nextra = Raise AssertionError.
Proof.
  intros L. unfold coadd_slice_inputs. rewrite map_length, (proj2 (Nat.eqb_neq _ _) L). reflexivity.
Qed.
End Gen.

(** ** Exact arithmetic *)
Open Scope R_scope.

Lemma running_weighted (l : list (R * R)) : running_sum l = weighted_sum l.
Proof.
  unfold running_sum, fzero. cbn [fofZ ROps fadd fmul].
  assert (H : forall a, fold_left (fun (acc : R) (p : R * R) => acc + fst p * snd p) l a = a + weighted_sum l).
  { unfold weighted_sum. induction l as [|p l IH]; intros a; cbn; [ring|]. rewrite IH. ring. }
  rewrite H. unfold weighted_sum. ring.
Qed.

Lemma R_fsum_total (l : list R) : fsum l = total l.
Proof. apply adds_R, adds_fsum. Qed.

Lemma weighted_normalised (xs ws : list R) t :
  weighted_sum (combine xs (map (fun w => w / t) ws)) = weighted_sum (combine xs ws) / t.
Proof.
  revert ws. induction xs as [|x xs IH]; intros [|w ws]; cbn; try (unfold Rdiv; ring).
  unfold weighted_sum in IH. rewrite IH. unfold Rdiv. ring.
Qed.

Lemma weighted_const (xs ws : list R) v : length xs = length ws -> (forall x, In x xs -> x = v) ->
  weighted_sum (combine xs ws) = v * total ws.
Proof.
  revert ws. induction xs as [|x xs IH]; intros [|w ws] L Hv; try discriminate; cbn; [ring|].
  unfold weighted_sum in IH. rewrite IH; [|cbn in L; lia|intros; apply Hv; now right].
  rewrite (Hv x (or_introl eq_refl)). unfold total. ring.
Qed.

Lemma weighted_bounds (xs ws : list R) lo hi : length xs = length ws ->
  (forall x, In x xs -> lo <= x <= hi) -> (forall w, In w ws -> 0 <= w) ->
  lo * total ws <= weighted_sum (combine xs ws) <= hi * total ws.
Proof.
  revert ws. induction xs as [|x xs IH]; intros [|w ws] L Hx Hw; try discriminate; cbn; [lra|].
  destruct (IH ws) as [I1 I2]; [cbn in L; lia|intros; apply Hx; now right|intros; apply Hw; now right|].
  unfold weighted_sum, total in *. cbn in *.
  pose proof (Hx x (or_introl eq_refl)). pose proof (Hw w (or_introl eq_refl)). nra.
Qed.

Lemma weighted_perm (l l' : list (R * R)) : Permutation l l' -> weighted_sum l = weighted_sum l'.
Proof. unfold weighted_sum. induction 1; cbn in *; lra. Qed.

Lemma total_perm (l l' : list R) : Permutation l l' -> total l = total l'.
Proof. unfold total. induction 1; cbn in *; lra. Qed.

Lemma total_nonneg (l : list R) : (forall x, In x l -> 0 <= x) -> 0 <= total l.
Proof.
  induction l as [|x l IH]; intros H; cbn; [lra|].
  pose proof (H x (or_introl eq_refl)). pose proof (IH (fun y Hy => H y (or_intror Hy))).
  unfold total in *. lra.
Qed.

Lemma clip01_bounds (x : R) : 0 <= clip01 x <= 1.
Proof.
  unfold clip01, fzero, fone. cbn. unfold Rltb.
  destruct (Rlt_dec (Rabs x) 0); [lra|]. destruct (Rlt_dec 1 (Rabs x)); lra.
Qed.

Lemma finite_or_zero_part {F} {FO : FloatOps F} (x : F) : finite_or_zero x = finite_part x.
Proof. unfold finite_or_zero, finite_part. destruct (ffinite x); reflexivity. Qed.

Lemma variance_deviation {F} {FO : FloatOps F} (l : list F) : variance l = squared_deviation l.
Proof. unfold variance, mean, squared_deviation. rewrite map_length. reflexivity. Qed.


Lemma clip01_value (x : R) : clip01 x = Rmin (Rabs x) 1.
Proof.
  unfold clip01, fzero, fone. cbn. unfold Rltb. pose proof (Rabs_pos x).
  destruct (Rlt_dec (Rabs x) 0); [lra|]. unfold Rmin.
  destruct (Rlt_dec 1 (Rabs x)), (Rle_dec (Rabs x) 1); lra.
Qed.

Lemma variance_spread (l : list R) : variance l = spread l.
Proof.
  unfold variance, spread, mean. rewrite !R_fsum_total. cbn [fdiv fsub fmul fofZ ROps].
  rewrite map_length. rewrite <- !INR_IZR_INZ.
  f_equal. f_equal. apply map_ext. intros x. ring.
Qed.

(** Permuting slices and weights alike. *)
Lemma combine_map_l {A B C} (f : A -> C) (l : list A) (m : list B) :
  combine (map f l) m = map (fun p => (f (fst p), snd p)) (combine l m).
Proof. revert m. induction l as [|a l IH]; intros [|b m]; cbn; [reflexivity..|]. now rewrite IH. Qed.

Lemma Permutation_combine_r {A B} (l l' : list A) (m m' : list B) :
  length l = length m -> length l' = length m' ->
  Permutation (combine l m) (combine l' m') -> Permutation m m'.
Proof.
  intros L L' P. rewrite <- (map_snd_combine l m L), <- (map_snd_combine l' m' L').
  now apply Permutation_map.
Qed.

Section Perm.
Context {S : Type} (resample : S -> result (resampled (F := R))).

Definition value_of (g : resampled (F := R) -> R) (s : S) : R :=
  match resample s with Ok d => g d | Raise _ => 0 end.

Lemma datas_pairs slices datas (g : resampled (F := R) -> R) (ws : list R) :
  Forall2 (fun s res => resample s = Ok res) slices datas ->
  combine (map g datas) ws = map (fun p => (value_of g (fst p), snd p)) (combine slices ws).
Proof.
  intros D. revert ws. induction D as [|s d sl dl Hd _ IH]; intros [|w ws]; cbn; [reflexivity..|].
  rewrite IH. unfold value_of at 2. rewrite Hd. reflexivity.
Qed.

Lemma noises_pairs slices datas i ds r c (ws : list R) :
  Forall2 (fun s res => resample s = Ok res) slices datas ->
  Forall2 (fun d n => nth_error (rs_noises d) i = Some n) datas ds ->
  combine (map (fun n : img R => px n r c) ds) ws =
  map (fun p => (value_of (fun d => match nth_error (rs_noises d) i with
                                    | Some n => px n r c | None => 0 end) (fst p), snd p))
      (combine slices ws).
Proof.
  intros D N. rewrite <- (datas_pairs slices datas) by exact D. f_equal.
  clear D. induction N as [|d n dl nl Hn _ IH]; cbn; [reflexivity|]. rewrite Hn. now f_equal.
Qed.

Lemma datas_In slices datas d :
  Forall2 (fun s res => resample s = Ok res) slices datas ->
  (In d datas <-> exists s, In s slices /\ resample s = Ok d).
Proof.
  induction 1 as [|s x sl dl Hd _ IH]; cbn.
  - split; [intros []|intros (s & [] & _)].
  - rewrite IH. split.
    + intros [->|(s' & Hs & Hr)]; [exists s; auto|exists s'; auto].
    + intros (s' & [->|Hs] & Hr); [left; congruence|right; eauto].
Qed.

Theorem coadd_permutation box pbox slices weights slices' weights' nextra out weight datas :
  length slices' = length weights' ->
  Permutation (combine slices weights) (combine slices' weights') ->
  coadd_slice_inputs resample box pbox slices weights nextra = Ok (out, weight, datas) ->
  exists out' weight' datas',
    coadd_slice_inputs resample box pbox slices' weights' nextra = Ok (out', weight', datas') /\
    img_eq (co_image out') (co_image out) /\ img_eq (co_bmask out') (co_bmask out) /\
    img_eq (co_ormask out') (co_ormask out) /\ img_eq (co_psf out') (co_psf out) /\
    img_eq (co_mfrac out') (co_mfrac out) /\
    Forall2 img_eq (co_noises out') (co_noises out) /\ img_eq weight' weight.
Proof.
  intros L' P E.
  destruct (coadd_spec _ _ _ _ _ _ _ _ _ E) as (L & Hne & D & A1 & A2 & A3 & A4 & A5 & A6 & A7 & A8 & A9 & A10 & A11 & A12 & A13 & A14 & (n0 & An0 & Aw) & Apx).
  assert (Hin : forall s, In s slices <-> In s slices').
  { intros s.
    assert (Hm : forall (l : list S) (w : list R), length l = length w -> map fst (combine l w) = l).
    { clear. induction l as [|a l IH]; intros [|b w] H; try discriminate; [reflexivity|].
      cbn. f_equal. apply IH. cbn in H. lia. }
    rewrite <- (Hm slices weights L), <- (Hm slices' weights' L').
    split; apply Permutation_in; [|symmetry]; now apply Permutation_map. }
  assert (Hne' : slices' <> []).
  { intros ->. destruct slices as [|s sl]; [congruence|]. apply (Hin s). now left. }
  assert (Hok : forall s, In s slices' -> exists res, resample s = Ok res /\
             (Datatypes.S nextra <= length (rs_noises res))%nat).
  { intros s Hs. apply Hin in Hs. rewrite Forall_forall in A12.
    assert (Hd : exists d, In d datas /\ resample s = Ok d).
    { clear - D Hs. induction D as [|x d sl dl Hd _ IH]; [destruct Hs|].
      destruct Hs as [->|Hs]; [exists d; split; [now left|assumption]|].
      destruct (IH Hs) as (d' & H1 & H2). exists d'. split; [now right|assumption]. }
    destruct Hd as (d & Hd1 & Hd2). exists d. split; [assumption|]. now apply A12. }
  destruct (coadd_ok resample box pbox slices' weights' nextra L' Hne' Hok) as ([[out' weight'] datas'] & E').
  exists out', weight', datas'. split; [exact E'|].
  destruct (coadd_spec _ _ _ _ _ _ _ _ _ E') as (_ & _ & D' & B1 & B2 & B3 & B4 & B5 & B6 & B7 & B8 & B9 & B10 & B11 & B12 & B13 & B14 & (n0' & Bn0 & Bw) & Bpx).
  assert (Htot : fsum weights' = fsum weights).
  { rewrite !R_fsum_total. apply total_perm. symmetry.
    exact (Permutation_combine_r slices slices' weights weights' L L' P). }
  assert (Hsum : forall h : S -> R,
     weighted_sum (map (fun p => (h (fst p), snd p))
        (combine slices' (map (fun w => w / fsum weights') weights'))) =
     weighted_sum (map (fun p => (h (fst p), snd p))
        (combine slices (map (fun w => w / fsum weights) weights)))).
  { intros h. rewrite Htot.
    assert (Hc : forall (l : list S) (w : list R), combine l (map (fun w => w / fsum weights) w) =
              map (fun p => (fst p, snd p / fsum weights)) (combine l w)).
    { clear. induction l as [|a l IH]; intros [|b w]; cbn; [reflexivity..|]. now rewrite IH. }
    rewrite !Hc, !map_map. apply weighted_perm. symmetry. now apply Permutation_map. }
  assert (Hd : forall d, In d datas' <-> In d datas).
  { intros d. rewrite (datas_In _ _ _ D), (datas_In _ _ _ D').
    split; intros (s & Hs & Hr); exists s; (split; [now apply Hin|assumption]). }
  assert (Himg : forall r c, px (co_image out') r c = px (co_image out) r c).
  { intros r c. destruct (Apx r c) as (Q & _). destruct (Bpx r c) as (Q' & _). rewrite Q, Q'.
    rewrite !running_weighted, (datas_pairs _ _ _ _ D), (datas_pairs _ _ _ _ D'). apply Hsum. }
  assert (Hpsf : forall r c, px (co_psf out') r c = px (co_psf out) r c).
  { intros r c. destruct (Apx r c) as (_ & Q & _). destruct (Bpx r c) as (_ & Q' & _). rewrite Q, Q'.
    rewrite !running_weighted, (datas_pairs _ _ (fun d => finite_or_zero (px (rs_psf d) r c)) _ D), (datas_pairs _ _ (fun d => finite_or_zero (px (rs_psf d) r c)) _ D'). apply Hsum. }
  assert (Hmf : forall r c, px (co_mfrac out') r c = px (co_mfrac out) r c).
  { intros r c. destruct (Apx r c) as (_ & _ & Q & _). destruct (Bpx r c) as (_ & _ & Q' & _). rewrite Q, Q'.
    rewrite !running_weighted, (datas_pairs _ _ (fun d => clip01 (px (rs_interp_frac d) r c)) _ D), (datas_pairs _ _ (fun d => clip01 (px (rs_interp_frac d) r c)) _ D'). apply Hsum. }
  assert (Hbm : forall r c, px (co_bmask out') r c = px (co_bmask out) r c).
  { intros r c. destruct (Apx r c) as (_ & _ & _ & Q & _). destruct (Bpx r c) as (_ & _ & _ & Q' & _).
    apply Z.bits_inj. intros k. apply Bool.eq_iff_eq_true. rewrite Q, Q'.
    split; intros (d & H1 & H2); exists d; (split; [now apply Hd|assumption]). }
  assert (Hom : forall r c, px (co_ormask out') r c = px (co_ormask out) r c).
  { intros r c. destruct (Apx r c) as (_ & _ & _ & _ & Q & _). destruct (Bpx r c) as (_ & _ & _ & _ & Q' & _).
    apply Z.bits_inj. intros k. apply Bool.eq_iff_eq_true. rewrite Q, Q'.
    split; intros (d & H1 & H2); exists d; (split; [now apply Hd|assumption]). }
  assert (Hns : forall i a b, nth_error (co_noises out') i = Some a -> nth_error (co_noises out) i = Some b ->
             nrows a = box /\ ncols a = box /\ nrows b = box /\ ncols b = box /\
             forall r c, px a r c = px b r c).
  { intros i a b Ha Hb.
    assert (Hi : (i < Datatypes.S nextra)%nat).
    { rewrite <- A11. apply nth_error_Some. congruence. }
    destruct (Apx 0%Z 0%Z) as (_ & _ & _ & _ & _ & Q). destruct (Bpx 0%Z 0%Z) as (_ & _ & _ & _ & _ & Q').
    destruct (Q i Hi) as (b0 & _ & Eb & Y1 & Y2 & _). destruct (Q' i Hi) as (a0 & _ & Ea & Y3 & Y4 & _).
    assert (b0 = b) by congruence. assert (a0 = a) by congruence. subst a0 b0.
    repeat (split; [assumption|]). clear Q Q'. intros r c.
    destruct (Apx r c) as (_ & _ & _ & _ & _ & Q). destruct (Bpx r c) as (_ & _ & _ & _ & _ & Q').
    destruct (Q i Hi) as (b0 & ds & Eb' & _ & _ & Y5 & Y6). destruct (Q' i Hi) as (a0 & ds' & Ea' & _ & _ & Y7 & Y8).
    assert (b0 = b) by congruence. assert (a0 = a) by congruence. subst a0 b0.
    rewrite Y6, Y8, !running_weighted, (noises_pairs _ _ _ _ r c _ D Y5), (noises_pairs _ _ _ _ r c _ D' Y7).
    apply Hsum. }
  assert (Heq : forall (X : Type) (a b : img X), nrows a = nrows b -> ncols a = ncols b ->
            (forall r c, px a r c = px b r c) -> img_eq a b).
  { intros X a b H1 H2 H3. unfold img_eq. split; [assumption|]. split; [assumption|]. intros; apply H3. }
  do 5 (split; [apply Heq; [congruence..|assumption]|]).
  split.
  - assert (Hl : length (co_noises out') = length (co_noises out)) by congruence.
    revert Hl Hns. clear - Heq. generalize (co_noises out) as m. generalize (co_noises out') as l.
    induction l as [|a l IH]; intros [|b m] Hl Hns; try discriminate; constructor.
    + destruct (Hns 0%nat a b eq_refl eq_refl) as (H1 & H2 & H3 & H4 & H5).
      apply Heq; [congruence..|assumption].
    + apply IH; [cbn in Hl; lia|]. intros i x y Hx Hy. exact (Hns (Datatypes.S i) x y Hx Hy).
  - destruct (Hns 0%nat n0' n0 Bn0 An0) as (H1 & H2 & H3 & H4 & H5).
    apply Heq; [congruence..|]. intros r c. rewrite Aw, Bw. do 2 f_equal. unfold ravel.
    rewrite H1, H2, H3, H4. apply map_ext. intros. apply H5.
Qed.
End Perm.

(** ** Effective number of epochs *)
Lemma total_le_max (l : list R) m : (forall x, In x l -> x <= m) -> total l <= INR (length l) * m.
Proof.
  induction l as [|x l IH]; intros H; [cbn; lra|].
  cbn [length total fold_right]. rewrite S_INR.
  pose proof (H x (or_introl eq_refl)). specialize (IH (fun y Hy => H y (or_intror Hy))).
  unfold total in IH. lra.
Qed.

Lemma total_ge_member (l : list R) m : (forall x, In x l -> 0 <= x) -> In m l -> m <= total l.
Proof.
  induction l as [|x l IH]; intros H Hm; [destruct Hm|].
  cbn [total fold_right]. pose proof (H x (or_introl eq_refl)).
  assert (Hl : forall y, In y l -> 0 <= y) by (intros; apply H; now right).
  pose proof (total_nonneg l Hl). destruct Hm as [->|Hm]; unfold total in *; [lra|].
  specialize (IH Hl Hm). lra.
Qed.

Lemma total_eq_max (l : list R) m : (forall x, In x l -> x <= m) ->
  (total l = INR (length l) * m <-> forall x, In x l -> x = m).
Proof.
  intros H. split.
  - intros E x Hx. apply in_split in Hx as (l1 & l2 & ->).
    assert (T : forall a b, total (a ++ b) = total a + total b).
    { clear. intros a b. unfold total. induction a as [|y a IH]; cbn; [ring|]. rewrite IH. ring. }
    rewrite T, app_length, plus_INR in E. cbn [length] in E. rewrite S_INR in E.
    change (total (x :: l2)) with (x + total l2) in E.
    assert (H1 : forall y, In y l1 -> y <= m) by (intros; apply H; apply in_or_app; now left).
    assert (H2 : forall y, In y l2 -> y <= m) by (intros; apply H; apply in_or_app; right; now right).
    pose proof (total_le_max l1 m H1). pose proof (total_le_max l2 m H2).
    pose proof (H x ltac:(apply in_or_app; right; now left)). nra.
  - clear H. induction l as [|x l IH]; intros Hall; [cbn; ring|].
    cbn [length]. rewrite S_INR. change (total (x :: l)) with (x + total l).
    rewrite IH by (intros; apply Hall; now right). rewrite (Hall x (or_introl eq_refl)). ring.
Qed.

Lemma amax_largest (l : list R) : l <> [] -> largest l (amax l).
Proof.
  destruct l as [|x l]; [congruence|]. intros _. unfold largest. cbn [amax]. revert x.
  induction l as [|y l IH]; intros x; cbn [fold_left].
  - split; [now left|]. intros z [->|[]]. lra.
  - destruct (IH (fmax x y)) as [I1 I2].
    assert (Hx : x <= fmax x y /\ y <= fmax x y /\ (fmax x y = x \/ fmax x y = y)).
    { unfold fmax. cbn. unfold Rltb. destruct (Rlt_dec x y); lra. }
    pose proof (I2 _ (or_introl eq_refl)). split.
    + destruct I1 as [I1|I1]; [|right; right; exact I1]. rewrite <- I1.
      destruct Hx as (_ & _ & [->| ->]); [now left|right; now left].
    + intros z [->|[->|Hz]]; [lra|lra|]. apply I2. now right.
Qed.
