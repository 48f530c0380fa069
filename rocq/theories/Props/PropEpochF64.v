(** C81: which single-epoch images contribute to a slice, in double arithmetic. *)
From Coq Require Import ZArith List Bool String Reals Lia Lra SpecFloat.
From Coq Require Import List.
From Flocq Require Import Core.Raux Core.Zaux.
From Verif Require Import Lib.Base Lib.Floats Model.Affine Model.Noise Model.SeWcs Model.TapeBumps Model.SeImage
  Model.PsfImage Model.Piff Model.SliceInputs Model.Epoch
  Spec.FloatSpec Spec.SeImageSpec Spec.SeWcsSpec Spec.PsfSpec Spec.SliceInputsSpec Spec.EpochSpec Spec.EpochF64Spec
  Proofs.F64Facts Proofs.SliceInputsProofs Proofs.SeWcsProofs Proofs.EpochProofs Proofs.EpochF64.
Import ListNotations.
Open Scope list_scope.
Open Scope Z_scope.

(** C81: the images are split in those that are kept, in their order, and those that
    have flags, do not have the position within their rough bounds or cannot hold
    the box, computed in double arithmetic. What is kept is described by
    [kept_from_double]. *)
Theorem C81_kept_images_double :
  forall (P : Type) (w : world f64 P) (op : options f64 P) (frac : R) (ra dec ra_psf dec_psf : f64) box_size l kept,
  f64_is (op_frac_buffer op) frac ->
  (1 <= frac * IZR box_size <= bpow radix2 30)%R -> Z.abs box_size <= 2 ^ 30 ->
  (forall e, In e l -> files_agree w op e) ->
  (forall e, In e l -> e_image_flags e = 0 -> ordinary_image w op ra dec ra_psf dec_psf e) ->
  find_slices w op ra dec ra_psf dec_psf box_size l = Ok kept ->
  exists marks, length marks = length l /\
  Forall2 (fun e sp => exists W m shape, image_of w op e W m shape /\
             kept_from_double w op frac ra dec ra_psf dec_psf box_size e W m shape (fst sp) (snd sp))
    (pick true marks l) kept /\
  Forall (fun e => e_image_flags e <> 0 \/ (exists o, off_the_image w op ra dec e o) \/
            exists W m shape, image_of w op e W m shape /\ no_box_fits_double op frac ra dec box_size e W shape)
    (pick false marks l).
Proof.
  intros P w op frac ra dec rp dp box l kept Hf [Hb1 Hb2] Hbox Hfiles Hord H.
  assert (Bf : (Rabs (frac * IZR box) <= bpow radix2 30)%R) by (rewrite Rabs_pos_eq; lra).
  apply find_slices_inv in H as (ms & Hm & ->).
  exists (map (fun a : option (SliceInputs.se_slice (F := f64) * bool) => match a with Some _ => true | None => false end) ms).
  induction Hm as [|e a l ms He Hm IH]; [split; [reflexivity|split; constructor]|].
  destruct IH as (I1 & I2 & I3); [intros e' He'; apply Hfiles; now right|intros e' He'; apply Hord; now right|].
  apply (examine_decides_double w op frac ra dec rp dp box e a Hf Hb1 Bf Hbox (Hfiles e (or_introl eq_refl))
           (Hord e (or_introl eq_refl))) in He.
  split; [cbn [map length]; lia|].
  destruct a as [[s flag]|]; cbn [map]; unfold pick; cbn [combine filter fst Bool.eqb map snd flat_map app].
  - split; [|exact I3]. constructor; [exact He|exact I2].
  - split; [exact I2|]. constructor; [exact He|exact I3].
Qed.

(** C81: the slices that are kept have complete arrays of one and the same size. *)
Theorem C81_kept_slices_are_complete_double :
  forall (P : Type) (w : world f64 P) (op : options f64 P) (frac : R) (ra dec ra_psf dec_psf : f64) box_size l kept n,
  f64_is (op_frac_buffer op) frac ->
  (1 <= frac * IZR box_size <= bpow radix2 30)%R -> Z.abs box_size <= 2 ^ 30 ->
  (forall e, In e l -> files_agree w op e) ->
  (forall e, In e l -> e_image_flags e = 0 -> ordinary_image w op ra dec ra_psf dec_psf e) ->
  find_slices w op ra dec ra_psf dec_psf box_size l = Ok kept ->
  box_of_double (rnd64 (frac * IZR box_size)) box_size n ->
  forall s flag, In (s, flag) kept -> SliceInputs.sl_box_size s = n /\ SliceInputsSpec.shaped n n s.
Proof.
  intros P w op frac ra dec rp dp box l kept n Hf Hb Hbox Hfiles Hord H Hn s flag Hin.
  destruct (C81_kept_images_double P w op frac ra dec rp dp box l kept Hf Hb Hbox Hfiles Hord H) as (marks & _ & K & _).
  assert (K' : exists e W m shape, kept_from_double w op frac ra dec rp dp box e W m shape s flag).
  { clear -K Hin. induction K as [|e sp l0 ks (W & m & shape & _ & K1) K IH]; [destruct Hin|].
    destruct Hin as [->|Hin]; [eauto|exact (IH Hin)]. }
  destruct K' as (e & W & m & shape & K'). destruct K' as [_ _ B _ _ Px _ _].
  assert (En : SliceInputs.sl_box_size s = n).
  { clear -B Hn. destruct B as [B1 B2], Hn as [N1 N2].
    pose proof (Z.div_mod (SliceInputs.sl_box_size s) 2 ltac:(lia)).
    pose proof (Z.div_mod n 2 ltac:(lia)). rewrite B1 in *. rewrite N1 in *. lia. }
  split; [exact En|].
  destruct Px as (pixels & bmask & bm & _ & _ & _ & (I1 & I2 & _) & (W1 & W2 & _) & (M1 & M2 & _) & N).
  pose proof (box_positive_double frac box n (proj1 Hb) Hn).
  rewrite En in *. unfold SliceInputsSpec.shaped, shape_is.
  repeat (split; [first [assumption|split; assumption]|]).
  clear -N. induction N as [|a b l l' (nse & _ & N1 & N2 & _) N IH]; constructor; [split; assumption|exact IH].
Qed.

(** ** Concrete case: three images of 9 x 9 pixels; one has flags and no files at
    all, one is far away. *)
Definition one : f64 := fofZ 1.
Definition exd_wcs (shift : Z) : affine f64 := mk_affine one (fofZ 0) (fofZ 0) one (fofZ shift) (fofZ 0) one.
Definition exd_info (shift : Z) : SeWcs.source (F := f64) (P := nat) :=
  SeWcs.mksrc None None None None None None (Some (exd_wcs shift)) (Some 5%nat) (Some (9, 9)).
Definition exd_pixels : SeImage.source (F := f64) :=
  SeImage.mksrc 7 (fofZ 30) (full 9 9 (fofZ 3)) (full 9 9 one) (full 9 9 (fofZ 2)).
Definition exd_entry (id flags : Z) (shift : Z) : entry f64 nat :=
  mkentry id flags 1 (exd_info shift) (Ok exd_pixels) (Ok (full 9 9 0)) [11; 12] 0.
Definition exd_flagged : entry f64 nat :=
  mkentry 2 4 1 (SeWcs.mksrc None None None None None None None None None) (Raise IOError) (Raise IOError) [] 0.
Definition exd_world : world f64 nat :=
  mkworld (fun _ _ => Raise IOError) (fun _ _ _ => Raise IOError) (fun _ _ => Raise IOError)
    (fun _ => Raise IOError) (fun _ _ => Raise IOError) (fun _ _ _ _ => (fofZ 0, fofZ 0)) (fun _ => one)
    (fun _ => one) (fun _ _ => fofZ 0) (fun x => x) (fun _ => PsfImage.Galsim) (fun _ => 1)
    (fun _ _ _ => Ok (full 3 3 one)) (fun _ _ _ => Ok []).
Definition exd_options : options f64 nat :=
  mkoptions (Name "galsim") (Name "affine") (fofZ 0) one 1 true None.
Definition exd_list := [exd_entry 1 0 1; exd_flagged; exd_entry 3 0 (-1000)].

Lemma exd_ordinary id shift : shift = 1 \/ shift = -1000 ->
  ordinary_image exd_world exd_options (fofZ 4) (fofZ 4) (fofZ 4) (fofZ 4) (exd_entry id 0 shift).
Proof.
  intros Hs. split; [cbn; lia|]. intros W m shape (Hw & _ & _).
  assert (EW : W = AffineW (exd_wcs shift)).
  { eapply choose_wcs_det; [exact Hw|]. constructor; reflexivity. }
  assert (O : ordinary_position exd_options (exd_entry id 0 shift) W (fofZ 4) (fofZ 4)).
  { subst W. intros a b H.
    assert (E : exists x, Z.abs x <= 2 ^ 29 /\ a = fofZ x /\ b = fofZ 4).
    { destruct Hs as [->| ->]; [exists 5|exists (-996)]; (split; [lia|]);
        vm_compute in H; apply Ok_inj, pair_equal_spec in H as [<- <-]; split; vm_compute; reflexivity. }
    destruct E as (x & Hx & -> & ->). exists (IZR x), (IZR 4).
    split; [apply f64_ofZ_is; lia|]. split; [apply f64_ofZ_is; lia|].
    change (bpow radix2 29) with (IZR (2 ^ 29)). rewrite <- !abs_IZR. split; apply IZR_le; lia. }
  split; [exact O|]. split; [exact O|]. intros s q raw H. apply Ok_inj in H. subst raw. cbn. lia.
Qed.

Lemma exd_files e : In e exd_list -> files_agree exd_world exd_options e.
Proof.
  intros Hin W m shape pixels bmask (_ & _ & Hs) Hp Hm.
  destruct Hin as [<-|[<-|[<-|[]]]]; cbn in Hp, Hm; try discriminate;
    apply Ok_inj in Hp, Hm; subst pixels bmask; inversion Hs; subst; cbn in *;
    try discriminate; injection H as <-; repeat split.
Qed.

Example C81_example_double :
  exists s, find_slices exd_world exd_options (fofZ 4) (fofZ 4) (fofZ 4) (fofZ 4) 3 exd_list = Ok [(s, false)] /\
    SliceInputs.sl_image_id s = 1 /\ SliceInputs.sl_x_start s = 3 /\ SliceInputs.sl_y_start s = 2 /\
    exists W m shape, image_of exd_world exd_options (exd_entry 1 0 1) W m shape /\
      kept_from_double exd_world exd_options 1 (fofZ 4) (fofZ 4) (fofZ 4) (fofZ 4) 3 (exd_entry 1 0 1) W m shape s false.
Proof.
  assert (K : match find_slices exd_world exd_options (fofZ 4) (fofZ 4) (fofZ 4) (fofZ 4) 3 exd_list with
              | Ok k => map (fun p => (SliceInputs.sl_image_id (fst p), SliceInputs.sl_x_start (fst p),
                                       SliceInputs.sl_y_start (fst p), snd p)) k
              | Raise _ => []
              end = [(1, 3, 2, false)]) by (vm_compute; reflexivity).
  destruct (find_slices exd_world exd_options (fofZ 4) (fofZ 4) (fofZ 4) (fofZ 4) 3 exd_list) as [kept|] eqn:E;
    [|discriminate K].
  assert (Ek : exists s, kept = [(s, false)] /\ SliceInputs.sl_image_id s = 1 /\ SliceInputs.sl_x_start s = 3 /\
                 SliceInputs.sl_y_start s = 2).
  { clear E. destruct kept as [|[s flag] [|]]; try discriminate K. cbn [map fst snd] in K. injection K as E1 E2 E3 E4.
    exists s. subst flag. auto. }
  clear K. destruct Ek as (s & -> & I1 & I2 & I3). exists s. repeat (split; [first [reflexivity|assumption]|]).
  destruct (C81_kept_images_double nat exd_world exd_options 1%R (fofZ 4) (fofZ 4) (fofZ 4) (fofZ 4) 3 exd_list [(s, false)])
    as (marks & Hl & K & _); [apply (f64_ofZ_is 1); lia| |lia|exact exd_files| |exact E|].
  - change (bpow radix2 30) with (IZR (2 ^ 30)). rewrite Rmult_1_l. split; apply IZR_le; lia.
  - intros e [<-|[<-|[<-|[]]]] Hfl; [apply exd_ordinary; now left|discriminate|apply exd_ordinary; now right].
  - clear E. destruct marks as [|m1 [|m2 [|m3 [|]]]]; try discriminate Hl.
    destruct m1, m2, m3; cbn [pick exd_list combine filter fst snd Bool.eqb map] in K; inversion K as [|? ? ? ? (W & m & shape & Him & K1) K2]; subst;
      try (inversion K2; fail);
      [exists W, m, shape; split; assumption|exfalso|exfalso];
      pose proof (kd_id _ _ _ _ _ _ _ _ _ _ _ _ _ _ K1) as Hid; cbn [fst exd_entry exd_flagged e_image_id] in Hid; clear -Hid I1; rewrite I1 in Hid; discriminate Hid.
Qed.

Print Assumptions C81_kept_images_double.
Print Assumptions C81_kept_slices_are_complete_double.
