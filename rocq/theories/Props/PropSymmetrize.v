(** C04, C05, C06: symmetrization of weights and bit masks. They hold for any
    arithmetic and any result of the image rotation routine. *)
From Coq Require Import ZArith List Bool Lia.
From Verif Require Import Lib.Base Lib.Floats Model.Symmetrize Spec.SymSpec
  Proofs.SymmetrizeProofs.
Import ListNotations.
Open Scope Z_scope.

(** C04, no angle. *)
Theorem C04_symmetrize_weight_exact :
  forall (F : Type) (FO : FloatOps F) (rotate : F -> img F -> img F)
         (weight : img F) (no_sym : option (img bool)),
  nrows weight = ncols weight -> fits no_sym weight ->
  exists w', symmetrize_weight rotate weight None no_sym = Ok w' /\
  nrows w' = nrows weight /\ ncols w' = ncols weight /\
  forall i j, inb weight i j ->
    px w' i j =
    let '(r, c) := rot_source (nrows weight) i j in
    if zero_weight_at weight no_sym r c then fzero else px weight i j.
Proof. intros F FO rotate. exact (sym_weight_none rotate). Qed.

(** C04, with an angle: nothing happens if no pixel takes part; otherwise a
    pixel is zeroed exactly where the rotated indicator is positive. *)
Theorem C04_symmetrize_weight_angle :
  forall (F : Type) (FO : FloatOps F) (rotate : F -> img F -> img F)
         (weight : img F) (angle : F) (no_sym : option (img bool)),
  nrows weight = ncols weight -> fits no_sym weight ->
  exists w', symmetrize_weight rotate weight (Some angle) no_sym = Ok w' /\
  nrows w' = nrows weight /\ ncols w' = ncols weight /\
  let rotated := rotate angle (indicator (nrows weight) (ncols weight)
                                 (zero_weight_at weight no_sym)) in
  ((forall r c, inb weight r c -> zero_weight_at weight no_sym r c = false) ->
     w' = weight) /\
  ((exists r c, inb weight r c /\ zero_weight_at weight no_sym r c = true) ->
   forall i j, inb weight i j ->
     px w' i j = if fltb fzero (px rotated i j) then fzero else px weight i j).
Proof. intros F FO rotate. exact (sym_weight_angle rotate). Qed.

Theorem C04_symmetrize_weight_nonsquare :
  forall (F : Type) (FO : FloatOps F) (rotate : F -> img F -> img F)
         (weight : img F) angle no_sym,
  nrows weight <> ncols weight ->
  symmetrize_weight rotate weight angle no_sym = Raise ValueError.
Proof. intros F FO rotate. exact (sym_weight_nonsquare rotate). Qed.

(** C05, no angle: bit by bit. *)
Theorem C05_symmetrize_bmask_exact :
  forall (F : Type) (FO : FloatOps F) (rotate : F -> img F -> img F)
         (bmask : img Z) (no_sym : option (img bool)) (sym_flags : option Z),
  nrows bmask = ncols bmask -> fits no_sym bmask ->
  exists b', symmetrize_bmask rotate bmask None no_sym sym_flags = Ok b' /\
  nrows b' = nrows bmask /\ ncols b' = ncols bmask /\
  forall i j, inb bmask i j -> forall k, 0 <= k ->
    Z.testbit (px b' i j) k =
    let '(r, c) := rot_source (nrows bmask) i j in
    Z.testbit (px bmask i j) k || (bit_at bmask no_sym k r c && selected sym_flags k).
Proof. intros F FO rotate. exact (sym_bmask_none rotate). Qed.

(** C05, with an angle. *)
Theorem C05_symmetrize_bmask_angle :
  forall (F : Type) (FO : FloatOps F) (rotate : F -> img F -> img F),
  (forall a, array_function (rotate a)) ->
  forall (bmask : img Z) (angle : F) (no_sym : option (img bool)) (sym_flags : option Z),
  nrows bmask = ncols bmask -> fits no_sym bmask ->
  exists b', symmetrize_bmask rotate bmask (Some angle) no_sym sym_flags = Ok b' /\
  nrows b' = nrows bmask /\ ncols b' = ncols bmask /\
  forall i j, inb bmask i j -> forall k,
    (Z.testbit (px b' i j) k = true <->
     Z.testbit (px bmask i j) k = true \/
     (0 <= k < 32 /\ selected sym_flags k = true /\
      (exists r c, inb bmask r c /\ bit_at bmask no_sym k r c = true) /\
      fltb fzero (px (rotate angle
        (indicator (nrows bmask) (ncols bmask) (bit_at bmask no_sym k))) i j) = true)).
Proof. intros F FO rotate. exact (sym_bmask_angle rotate). Qed.

(** C05: in both modes no bit is cleared and no unselected bit is added. *)
Theorem C05_symmetrize_bmask_monotone :
  forall (F : Type) (FO : FloatOps F) (rotate : F -> img F -> img F),
  (forall a, array_function (rotate a)) ->
  forall (bmask b' : img Z) angle no_sym sym_flags,
  fits no_sym bmask ->
  symmetrize_bmask rotate bmask angle no_sym sym_flags = Ok b' ->
  forall i j k, inb bmask i j -> 0 <= k ->
    (Z.testbit (px bmask i j) k = true -> Z.testbit (px b' i j) k = true) /\
    (selected sym_flags k = false ->
       Z.testbit (px b' i j) k = Z.testbit (px bmask i j) k).
Proof.
  intros F FO rotate Harr b b' angle nsm s Hfit E i j k Hin Hk.
  assert (Hsq : nrows b = ncols b).
  { destruct (Z.eq_dec (nrows b) (ncols b)) as [|ne]; [assumption|].
    rewrite (sym_bmask_nonsquare rotate b angle nsm s ne) in E. discriminate. }
  destruct angle as [a|].
  - destruct (sym_bmask_angle rotate Harr b a nsm s Hsq Hfit) as (b'' & E' & _ & _ & Hb).
    rewrite E in E'. injection E' as <-. specialize (Hb i j Hin k). split.
    + intros. now apply Hb; left.
    + intros Hs. apply eq_true_iff_eq. rewrite Hb. rewrite Hs.
      split; [intros [?|(_ & C & _)]; [assumption|discriminate]|auto].
  - destruct (sym_bmask_none rotate b nsm s Hsq Hfit) as (b'' & E' & _ & _ & Hb).
    rewrite E in E'. injection E' as <-. specialize (Hb i j Hin k Hk).
    unfold rot_source in Hb. rewrite Hb. split.
    + intros ->. reflexivity.
    + intros ->. now rewrite andb_false_r, orb_false_r.
Qed.

Theorem C05_symmetrize_bmask_nonsquare :
  forall (F : Type) (FO : FloatOps F) (rotate : F -> img F -> img F)
         (bmask : img Z) angle no_sym sym_flags,
  nrows bmask <> ncols bmask ->
  symmetrize_bmask rotate bmask angle no_sym sym_flags = Raise ValueError.
Proof. intros F FO rotate. exact (sym_bmask_nonsquare rotate). Qed.

(** C06: three applications reach the rotationally symmetric closure: every
    pixel holds the union of its four-fold orbit; a fourth changes nothing. *)
Theorem C06_three_applications_symmetric :
  forall (F : Type) (FO : FloatOps F) (rotate : F -> img F -> img F)
         (bmask : img Z) (sym_flags : option Z),
  nrows bmask = ncols bmask ->
  let sym b := symmetrize_bmask rotate b None None sym_flags in
  exists b3 b4,
    (b1 <- sym bmask ;; b2 <- sym b1 ;; sym b2) = Ok b3 /\
    sym b3 = Ok b4 /\
    nrows b3 = nrows bmask /\ ncols b3 = ncols bmask /\
    (forall i j k, inb bmask i j -> 0 <= k ->
       let n := nrows bmask in
       Z.testbit (px b3 i j) k =
         Z.testbit (px bmask i j) k ||
         (selected sym_flags k &&
           (Z.testbit (px bmask j (n - 1 - i)) k ||
            Z.testbit (px bmask (n - 1 - i) (n - 1 - j)) k ||
            Z.testbit (px bmask (n - 1 - j) i) k))) /\
    img_eq b3 b4 /\
    (sym_flags = None -> rot_symmetric b3).
Proof. intros F FO rotate. exact (sym_three_times rotate). Qed.

Definition corner_mask : img Z := of_rows 0 [[1; 0; 0]; [0; 0; 0]; [0; 0; 2]].

(** C06: one application is not enough in general. *)
Theorem C06_one_application_not_symmetric :
  exists b b', nrows b = ncols b /\
    symmetrize_bmask (F := f64) (fun _ x => x) b None None None = Ok b' /\
    ~ rot_symmetric b'.
Proof.
  exists corner_mask. eexists. split; [reflexivity|]. split; [reflexivity|].
  intros [_ C]. specialize (C 0 0). unfold inb in C. cbn in C.
  assert (H : 0 <= 0 < 3 /\ 0 <= 0 < 3) by lia. specialize (C H). discriminate C.
Qed.

(** A concrete run: a 3 x 3 mask with two different flags. *)
Example C05_example :
  exists b', symmetrize_bmask (F := f64) (fun _ x => x) corner_mask None None (Some 1) = Ok b'
  /\ px b' 2 0 = 1 /\ px b' 0 2 = 0 /\ px b' 0 0 = 1 /\ px b' 2 2 = 2.
Proof. eexists. split; [reflexivity|]. vm_compute. auto. Qed.

Definition small_weight : img f64 :=
  of_rows (f64_ofZ 1) [[f64_ofZ 0; f64_ofZ 1]; [f64_ofZ 1; f64_ofZ 5]].

Example C04_example :
  exists w', symmetrize_weight (F := f64) (fun _ x => x) small_weight None None = Ok w'
  /\ px w' 1 0 = f64_ofZ 0 /\ px w' 0 1 = f64_ofZ 1 /\ px w' 1 1 = f64_ofZ 5.
Proof. eexists. split; [reflexivity|]. vm_compute. auto. Qed.

(** The rotation hypothesis is met, for instance by the identity. *)
Example array_function_example : forall a : f64, array_function ((fun _ x => x) a : img f64 -> img f64).
Proof. intros a x y (Hr & Hc & He) i j Hin. now apply He. Qed.

Print Assumptions C04_symmetrize_weight_exact.
Print Assumptions C04_symmetrize_weight_angle.
Print Assumptions C04_symmetrize_weight_nonsquare.
Print Assumptions C05_symmetrize_bmask_exact.
Print Assumptions C05_symmetrize_bmask_angle.
Print Assumptions C05_symmetrize_bmask_monotone.
Print Assumptions C05_symmetrize_bmask_nonsquare.
Print Assumptions C06_three_applications_symmetric.
Print Assumptions C06_one_application_not_symmetric.
