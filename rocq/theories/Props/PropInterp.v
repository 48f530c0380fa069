(** C09-C14: interpolation over bad pixels. *)
From Coq Require Import ZArith List Bool Sorted Lia.
From Verif Require Import Lib.Base Lib.Floats Model.Interp Spec.InterpSpec Spec.FlagSpec
  Proofs.BaseFacts Proofs.FlagProofs Proofs.InterpProofs Proofs.EdgeCopyProofs.
Import ListNotations.
Open Scope Z_scope.

(** C09: the bad pixels, their isolation flags and the supporting good pixels. *)
Theorem C09_support_is_nearby_good_pixels :
  forall (bad : img bool) (buff iso_buff : Z),
  exists bad_list iso good_list,
    find_support bad buff iso_buff = Ok (bad_list, iso, good_list) /\
    pixels_where (nrows bad) (ncols bad) (fun r c => px bad r c = true) bad_list /\
    length iso = length bad_list /\
    (forall k r c v, nth_error bad_list k = Some (r, c) -> nth_error iso k = Some v ->
       (v = 1 /\ isolated bad iso_buff r c) \/ (v = 0 /\ ~ isolated bad iso_buff r c)) /\
    pixels_where (nrows bad) (ncols bad)
      (fun r c => px bad r c = false /\
                  exists r' c', is_bad bad r' c' /\ within buff r' c' r c) good_list.
Proof. exact find_support_spec. Qed.

(** C10. *)
Theorem C10_work_arrays_suffice :
  forall (bad : img bool) (buff iso_buff nbad : Z),
  counts (nrows bad) (ncols bad) (fun r c => px bad r c = true) nbad ->
  exists st, get_nearby_good_pixels bad nbad buff iso_buff = Ok st /\
    Z.of_nat (length (ns_bad st)) = nbad /\
    Z.of_nat (length (ns_iso st)) = nbad /\
    nbad <= nbad * (2 * buff + 1) ^ 2 /\
    Z.of_nat (length (ns_good st)) <= nbad * (2 * buff + 1) ^ 2.
Proof. exact search_capacity. Qed.

(** C10: the bound is what is needed: a bad pixel in the middle of a good
    (2*buff+1)-square needs all but one entry. *)
Example C10_example :
  get_nearby_good_pixels (of_rows false [[false; false; false]; [false; true; false];
                                         [false; false; false]]) 1 1 1
  = Ok (mkns [4] [0] [0; 1; 2; 3; 5; 6; 7; 8]).
Proof. reflexivity. Qed.

(** C10: with a wrong (too small) count the search does fail. *)
Example C10_wrong_count :
  get_nearby_good_pixels (of_rows false [[true; false]; [false; true]]) 0 1 1
  = Raise OtherError.
Proof. reflexivity. Qed.

(** C11: one image. *)
Theorem C11_interpolation_keeps_good_pixels :
  forall (F : Type) (FO : FloatOps F) (RNG : Type)
         (normal : RNG -> nat -> F -> list F * RNG)
         (interpolator : list (Z * Z) -> list F -> result (Z * Z -> F)),
  (forall r n s, length (fst (normal r n s)) = n) ->
  forall (image : img F) (bad : img bool) (maxfrac : F) (buff : Z) (fill : bool)
         (weight : option F) (rng : option RNG) (iso_buff : Z) (out : img F) (rng' : option RNG),
  nrows image = nrows bad -> ncols image = ncols bad ->
  interpolate_image_at_mask normal interpolator image bad maxfrac buff fill weight rng iso_buff
    = Ok (Some out, rng') ->
  exists filled draws support,
    pixels_where (nrows bad) (ncols bad)
      (fun r c => px bad r c = true /\ (fill = true /\ isolated bad iso_buff r c)) filled /\
    pixels_where (nrows bad) (ncols bad)
      (fun r c => ~ to_interpolate bad fill iso_buff r c /\
         exists r' c', inb bad r' c' /\ to_interpolate bad fill iso_buff r' c' /\
           within buff r' c' r c) support /\
    (fill = true -> rng <> None /\ weight <> None) /\
    (forall w, weight = Some w -> drawn normal (fdiv fone (fsqrt w)) filled rng draws rng') /\
    (weight = None -> draws = [] /\ rng' = rng) /\
    interpolated interpolator image out filled draws
      (to_interpolate bad fill iso_buff) support.
Proof. intros F FO RNG normal interpolator Hn. exact (at_mask_spec normal interpolator (fun _ => fzero) Hn). Qed.

(** C11: image and noise fields. *)
Theorem C11_image_and_noises_interpolated_alike :
  forall (F : Type) (FO : FloatOps F) (RNG : Type)
         (normal : RNG -> nat -> F -> list F * RNG)
         (interpolator : list (Z * Z) -> list F -> result (Z * Z -> F)) (median : list F -> F),
  (forall r n s, length (fst (normal r n s)) = n) ->
  forall (image : img F) (noises : list (img F)) (weight : img F) (bmask : img Z) (flags : Z)
         (rng : option RNG) (maxfrac : F) (buff : Z) (fill : bool) (iso_buff : Z)
         (out : img F) (outs : list (img F)) (rng' : option RNG),
  nrows image = nrows weight -> ncols image = ncols weight ->
  (forall n, In n noises -> nrows n = nrows weight /\ ncols n = ncols weight) ->
  let bad := bad_pixels weight bmask flags in
  (exists r c, is_bad bad r c) ->
  interpolate_image_and_noise normal interpolator median image noises weight bmask flags rng
    maxfrac buff fill iso_buff = Ok (Some (out, outs), rng') ->
  exists filled support good_list,
    pixels_where (nrows bad) (ncols bad)
      (fun r c => px bad r c = true /\ (fill = true /\ isolated bad iso_buff r c)) filled /\
    pixels_where (nrows bad) (ncols bad)
      (fun r c => ~ to_interpolate bad fill iso_buff r c /\
         exists r' c', inb bad r' c' /\ to_interpolate bad fill iso_buff r' c' /\
           within buff r' c' r c) support /\
    pixels_where (nrows bad) (ncols bad) (fun r c => px bad r c = false) good_list /\
    let scale := fdiv fone (fsqrt (median (map (fun p => px weight (fst p) (snd p)) good_list))) in
    interpolated_all interpolator normal scale filled (to_interpolate bad fill iso_buff) support
      (image :: noises) (out :: outs) rng rng'.
Proof. intros F FO RNG normal interpolator median Hn. exact (and_noise_spec normal interpolator median Hn). Qed.

(** C12: one image. *)
Theorem C12_bad_values_ignored_one_image :
  forall (F : Type) (FO : FloatOps F) (RNG : Type)
         (normal : RNG -> nat -> F -> list F * RNG)
         (interpolator : list (Z * Z) -> list F -> result (Z * Z -> F)),
  (forall r n s, length (fst (normal r n s)) = n) ->
  forall (bad : img bool) (image1 image2 : img F) (maxfrac : F) (buff : Z) (fill : bool)
         (weight : option F) (rng : option RNG) (iso_buff : Z),
  nrows image1 = nrows bad -> ncols image1 = ncols bad ->
  nrows image2 = nrows image1 -> ncols image2 = ncols image1 ->
  (forall r c, is_good bad r c -> px image2 r c = px image1 r c) ->
  same_outcome (fun x y => opt_rel img_eq (fst x) (fst y) /\ snd x = snd y)
    (interpolate_image_at_mask normal interpolator image1 bad maxfrac buff fill weight rng iso_buff)
    (interpolate_image_at_mask normal interpolator image2 bad maxfrac buff fill weight rng iso_buff).
Proof.
  intros F FO RNG normal interpolator Hn bad i1 i2 mf bf fill w rng ib H1 H2 H3 H4 H5.
  apply at_mask_two; try assumption. split; [assumption|]. split; [assumption|].
  intros r c Hi Hp. apply H5. split; assumption.
Qed.

(** C12: image and noise fields. *)
Theorem C12_bad_values_ignored_image_and_noises :
  forall (F : Type) (FO : FloatOps F) (RNG : Type)
         (normal : RNG -> nat -> F -> list F * RNG)
         (interpolator : list (Z * Z) -> list F -> result (Z * Z -> F)) (median : list F -> F),
  (forall r n s, length (fst (normal r n s)) = n) ->
  forall (image1 image2 : img F) (noises1 noises2 : list (img F)) (weight : img F)
         (bmask : img Z) (flags : Z) (rng : option RNG) (maxfrac : F) (buff : Z) (fill : bool)
         (iso_buff : Z),
  let bad := bad_pixels weight bmask flags in
  let agree := fun a b => nrows a = nrows weight /\ ncols a = ncols weight /\
     nrows b = nrows a /\ ncols b = ncols a /\
     forall r c, is_good bad r c -> px b r c = px a r c in
  agree image1 image2 -> Forall2 agree noises1 noises2 ->
  same_outcome
    (fun x y => opt_rel (fun p q => img_eq (fst p) (fst q) /\ Forall2 img_eq (snd p) (snd q))
                  (fst x) (fst y) /\ snd x = snd y)
    (interpolate_image_and_noise normal interpolator median image1 noises1 weight bmask flags rng
       maxfrac buff fill iso_buff)
    (interpolate_image_and_noise normal interpolator median image2 noises2 weight bmask flags rng
       maxfrac buff fill iso_buff).
Proof.
  intros F FO RNG normal interpolator median Hn i1 i2 n1 n2 weight bmask flags rng mf bf fill ib
    bad agree (H1 & H2 & H3 & H4 & H5) H6.
  apply and_noise_two; try assumption.
  - split; [assumption|]. split; [assumption|]. intros r c Hi Hp. apply H5. split; assumption.
  - induction H6 as [|a b l l' (G1 & G2 & G3 & G4 & G5) _ IH]; constructor; [|exact IH].
    split; [assumption|]. split; [assumption|].
    split; [assumption|]. split; [assumption|]. intros r c Hi Hp. apply G5. split; assumption.
Qed.

(** C13: refusal, one image. [n] is the number of bad pixels. *)
Theorem C13_refuses_exactly_hopeless_one_image :
  forall (F : Type) (FO : FloatOps F) (RNG : Type)
         (normal : RNG -> nat -> F -> list F * RNG)
         (interpolator : list (Z * Z) -> list F -> result (Z * Z -> F))
         (image : img F) (bad : img bool) (maxfrac : F) (buff : Z) (fill : bool)
         (weight : option F) (rng : option RNG) (iso_buff n : Z),
  0 <= nrows bad -> 0 <= ncols bad ->
  counts (nrows bad) (ncols bad) (fun r c => px bad r c = true) n ->
  (interpolate_image_at_mask normal interpolator image bad maxfrac buff fill weight rng iso_buff
     = Ok (None, rng) <->
   fleb (fdiv (fofZ n) (fofZ (nrows bad * ncols bad))) maxfrac = false \/
   forall r c, inb bad r c -> px bad r c = true).
Proof.
  intros F FO RNG normal interpolator image bad mf bf fill w rng ib n H1 H2 Hn.
  rewrite (counts_unique _ _ _ _ _ Hn (np_count_counts bad _ (fun r c _ => iff_refl _))).
  now apply at_mask_none.
Qed.

(** C13: refusal, image and noise fields. *)
Theorem C13_refuses_exactly_hopeless_image_and_noises :
  forall (F : Type) (FO : FloatOps F) (RNG : Type)
         (normal : RNG -> nat -> F -> list F * RNG)
         (interpolator : list (Z * Z) -> list F -> result (Z * Z -> F)) (median : list F -> F)
         (image : img F) (noises : list (img F)) (weight : img F) (bmask : img Z) (flags : Z)
         (rng : option RNG) (maxfrac : F) (buff : Z) (fill : bool) (iso_buff n : Z),
  let bad := bad_pixels weight bmask flags in
  counts (nrows bad) (ncols bad) (fun r c => px bad r c = true) n ->
  (exists r c, is_bad bad r c) ->
  (interpolate_image_and_noise normal interpolator median image noises weight bmask flags rng
     maxfrac buff fill iso_buff = Ok (None, rng) <->
   fltb maxfrac (fdiv (fofZ n) (fofZ (nrows weight * ncols weight))) = true \/
   forall r c, inb bad r c -> px bad r c = true).
Proof.
  intros F FO RNG normal interpolator median image noises weight bmask flags rng mf bf fill ib n bad
    Hn Hany.
  rewrite (counts_unique _ _ _ _ _ Hn (np_count_counts bad _ (fun r c _ => iff_refl _))).
  now apply and_noise_none.
Qed.

(** C13: nothing is changed when nothing is bad. *)
Theorem C13_nothing_bad :
  forall (F : Type) (FO : FloatOps F) (RNG : Type)
         (normal : RNG -> nat -> F -> list F * RNG)
         (interpolator : list (Z * Z) -> list F -> result (Z * Z -> F)) (median : list F -> F)
         (image : img F) (noises : list (img F)) (weight : img F) (bmask : img Z) (flags : Z)
         (rng : option RNG) (maxfrac : F) (buff : Z) (fill : bool) (iso_buff : Z),
  (forall r c, inb weight r c -> ~ unusable weight bmask flags r c) ->
  interpolate_image_and_noise normal interpolator median image noises weight bmask flags rng
     maxfrac buff fill iso_buff = Ok (Some (image, noises), rng).
Proof.
  intros F FO RNG normal interpolator median image noises weight bmask flags rng mf bf fill ib Hno.
  apply and_noise_nothing_bad. intros r c Hi. cbn [bad_pixels px]. apply not_true_iff_false.
  rewrite orb_true_iff. intros [C|C]; apply (Hno r c Hi); [left; exact C|right].
  now apply flagged_land.
Qed.

(** C13: the options that make it fail. *)
Theorem C13_fill_without_isolated_pixels_fails :
  forall (F : Type) (FO : FloatOps F) (RNG : Type)
         (normal : RNG -> nat -> F -> list F * RNG)
         (interpolator : list (Z * Z) -> list F -> result (Z * Z -> F)) (median : list F -> F)
         (image : img F) (noises : list (img F)) (weight : img F) (bmask : img Z) (flags : Z)
         (rng : RNG) (maxfrac : F) (buff iso_buff n : Z),
  let bad := bad_pixels weight bmask flags in
  counts (nrows bad) (ncols bad) (fun r c => px bad r c = true) n ->
  (exists r c, is_bad bad r c) ->
  (exists r c, is_good bad r c) ->
  fltb maxfrac (fdiv (fofZ n) (fofZ (nrows weight * ncols weight))) = false ->
  (forall r c, is_bad bad r c -> ~ isolated bad iso_buff r c) ->
  interpolate_image_and_noise normal interpolator median image noises weight bmask flags (Some rng)
     maxfrac buff true iso_buff = Raise UnboundLocalError.
Proof.
  intros F FO RNG normal interpolator median image noises weight bmask flags rng mf bf ib n bad
    Hn Hany Hgood Hf Hiso.
  apply and_noise_unbound; try assumption.
  rewrite (counts_unique _ _ _ _ _ Hn (np_count_counts bad _ (fun r c _ => iff_refl _))) in Hf.
  exact Hf.
Qed.

(** C13: nothing else fails, if the interpolant can be built. *)
Theorem C13_otherwise_returns_one_image :
  forall (F : Type) (FO : FloatOps F) (RNG : Type)
         (normal : RNG -> nat -> F -> list F * RNG)
         (interpolator : list (Z * Z) -> list F -> result (Z * Z -> F))
         (image : img F) (bad : img bool) (maxfrac : F) (buff : Z) (fill : bool)
         (weight : option F) (rng : option RNG) (iso_buff : Z),
  (forall ps vs, exists f, interpolator ps vs = Ok f) ->
  (fill = true -> rng <> None /\ weight <> None) ->
  exists o rng',
  interpolate_image_at_mask normal interpolator image bad maxfrac buff fill weight rng iso_buff
    = Ok (o, rng').
Proof. intros. now apply at_mask_succeeds. Qed.

Theorem C13_otherwise_returns_image_and_noises :
  forall (F : Type) (FO : FloatOps F) (RNG : Type)
         (normal : RNG -> nat -> F -> list F * RNG)
         (interpolator : list (Z * Z) -> list F -> result (Z * Z -> F)) (median : list F -> F)
         (image : img F) (noises : list (img F)) (weight : img F) (bmask : img Z) (flags : Z)
         (rng : option RNG) (maxfrac : F) (buff : Z) (fill : bool) (iso_buff : Z),
  let bad := bad_pixels weight bmask flags in
  (forall ps vs, exists f, interpolator ps vs = Ok f) ->
  (fill = true -> rng <> None /\ exists r c, is_bad bad r c /\ isolated bad iso_buff r c) ->
  exists o rng',
  interpolate_image_and_noise normal interpolator median image noises weight bmask flags rng
    maxfrac buff fill iso_buff = Ok (o, rng').
Proof. intros. now apply and_noise_succeeds. Qed.

(** C14. *)
Theorem C14_edge_copy_consistent :
  forall (F : Type) (FO : FloatOps F) (weight : img F) (bmask : img Z) (flags : Z)
         (image : img F) (noises : list (img F)),
  nrows bmask = nrows weight -> ncols bmask = ncols weight ->
  2 <= nrows weight -> 2 <= ncols weight ->
  nrows image = nrows weight -> ncols image = ncols weight ->
  (forall n, In n noises -> nrows n = nrows weight /\ ncols n = ncols weight) ->
  let bad := bad_pixels weight bmask flags in
  exists out,
    copy_masked_edges_image_and_noise image noises weight bmask flags = Ok out /\
    donated bad image (es_image out) /\
    Forall2 (donated bad) noises (es_noises out) /\
    donated bad bmask (es_bmask out) /\
    donated bad weight (es_weight out).
Proof.
  intros F FO weight bmask flags image noises H1 H2 H3 H4 H5 H6 H7. now apply copy_edges_spec.
Qed.

Theorem C14_too_small_fails :
  forall (F : Type) (FO : FloatOps F) (weight : img F) (bmask : img Z) (flags : Z)
         (image : img F) (noises : list (img F)),
  nrows bmask = nrows weight -> ncols bmask = ncols weight ->
  nrows weight < 2 \/ (2 <= nrows weight /\ ncols weight < 2) ->
  copy_masked_edges_image_and_noise image noises weight bmask flags = Raise IndexError.
Proof.
  intros F FO weight bmask flags image noises H1 H2 H3. now apply copy_edges_too_small.
Qed.

(** Concrete cases. The interpolator returns the first support value
    everywhere, the random generator counts upwards. *)
Definition ex_normal (r : Z) (n : nat) (s : f64) : list f64 * Z :=
  (map (fun k => f64_ofZ (r + Z.of_nat k)) (seq 0 n), r + Z.of_nat n).
Definition ex_interp (ps : list (Z * Z)) (vs : list f64) : result (Z * Z -> f64) :=
  Ok (fun _ => hd (f64_ofZ 0) vs).
Definition z2 (rows : list (list Z)) : img f64 := imap f64_ofZ (of_rows 0 rows).

Example C11_hypotheses_met : forall r n s, length (fst (ex_normal r n s)) = n.
Proof. intros. unfold ex_normal. cbn. now rewrite map_length, seq_length. Qed.

(** One row, five columns; columns 0 and 4 bad, column 4 isolated with
    iso_buff = 0 (as is every bad pixel). *)
Example C11_example :
  match interpolate_image_at_mask ex_normal ex_interp (z2 [[7; 1; 2; 3; 9]])
          (of_rows false [[true; false; false; false; true]]) (f64_ofZ 1) 1 false
          None None 1 with
  | Ok (Some out, None) => ravel out = map f64_ofZ [1; 1; 2; 3; 1]
  | _ => False
  end.
Proof. vm_compute. reflexivity. Qed.

Example C11_fill_example :
  match interpolate_image_at_mask ex_normal ex_interp (z2 [[7; 8; 1; 2; 3; 9]])
          (of_rows false [[true; true; false; false; false; true]]) (f64_ofZ 1) 1 true
          (Some (f64_ofZ 4)) (Some 100) 1 with
  | Ok (Some out, Some 101) => ravel out = map f64_ofZ [100; 100; 1; 2; 3; 100]
  | _ => False
  end.
Proof. vm_compute. reflexivity. Qed.

Example C13_unbound_example :
  interpolate_image_and_noise ex_normal ex_interp (fun _ => f64_ofZ 1)
    (z2 [[7; 1; 2; 3]]) [] (z2 [[0; 1; 1; 1]]) (of_rows 0 [[0; 0; 0; 0]]) 1 (Some 5)
    (f64_ofZ 1) 2 true 2 = Raise UnboundLocalError.
Proof. vm_compute. reflexivity. Qed.

(** The first row is unusable; its first two pixels have usable neighbours. *)
Example C14_example :
  match copy_masked_edges_image_and_noise (z2 [[1; 2; 3]; [4; 5; 6]; [7; 8; 9]]) []
          (z2 [[0; 0; 1]; [1; 1; 0]; [1; 1; 1]]) (of_rows 0 [[0; 0; 4]; [0; 2; 4]; [0; 0; 0]]) 4 with
  | Ok out => ravel (es_image out) = map f64_ofZ [4; 5; 3; 4; 5; 6; 7; 8; 9]
           /\ ravel (es_bmask out) = [0; 2; 4; 0; 2; 4; 0; 0; 0]
  | _ => False
  end.
Proof. vm_compute. split; reflexivity. Qed.

Print Assumptions C09_support_is_nearby_good_pixels.
Print Assumptions C10_work_arrays_suffice.
Print Assumptions C11_interpolation_keeps_good_pixels.
Print Assumptions C11_image_and_noises_interpolated_alike.
Print Assumptions C12_bad_values_ignored_one_image.
Print Assumptions C12_bad_values_ignored_image_and_noises.
Print Assumptions C13_refuses_exactly_hopeless_one_image.
Print Assumptions C13_refuses_exactly_hopeless_image_and_noises.
Print Assumptions C13_nothing_bad.
Print Assumptions C13_fill_without_isolated_pixels_fails.
Print Assumptions C13_otherwise_returns_one_image.
Print Assumptions C13_otherwise_returns_image_and_noises.
Print Assumptions C14_edge_copy_consistent.
Print Assumptions C14_too_small_fails.
