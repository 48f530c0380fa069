(** C07, C08: edge and mask-fraction tests. *)
From Coq Require Import ZArith List Bool Reals Lia.
From Verif Require Import Lib.Base Lib.Floats Model.Flag Spec.FlagSpec Spec.FloatSpec
  Proofs.FlagProofs.
Import ListNotations.
Open Scope Z_scope.

(** C07. *)
Theorem C07_full_edge_detected :
  forall (F : Type) (FO : FloatOps F) (weight : img F) (bmask : img Z) (bad_flags : Z),
  1 <= nrows weight -> 1 <= ncols weight ->
  nrows bmask = nrows weight -> ncols bmask = ncols weight ->
  exists b, slice_full_edge_masked weight bmask bad_flags = Ok b /\
  (b = true <->
   exists e,
     (forall r c, inb weight r c -> on_edge (nrows weight) (ncols weight) e r c ->
        no_weight (px weight r c)) \/
     (forall r c, inb weight r c -> on_edge (nrows weight) (ncols weight) e r c ->
        flagged bad_flags (px bmask r c))).
Proof. intros F FO. exact full_edge_spec. Qed.

(** C07: an edge made unusable by a mixture is not reported. *)
Definition mixed_weight : img f64 :=
  of_rows (f64_ofZ 1) [[f64_ofZ 0; f64_ofZ 1]; [f64_ofZ 1; f64_ofZ 1]].
Definition mixed_bmask : img Z := of_rows 0 [[0; 1]; [0; 0]].

Theorem C07_mixed_edge_not_detected :
  exists (weight : img f64) (bmask : img Z) (bad_flags : Z),
    nrows weight = 2 /\ ncols weight = 2 /\ nrows bmask = 2 /\ ncols bmask = 2 /\
    (forall r c, inb weight r c -> on_edge 2 2 FirstRow r c ->
       unusable weight bmask bad_flags r c) /\
    slice_full_edge_masked weight bmask bad_flags = Ok false.
Proof.
  exists mixed_weight, mixed_bmask, 1.
  do 4 (split; [reflexivity|]). split; [|vm_compute; reflexivity].
  intros r c [Hr Hc] ->. cbn in Hc.
  assert (c = 0 \/ c = 1) as [-> | ->] by lia.
  - left. vm_compute. reflexivity.
  - right. exists 0. split; [lia|]. vm_compute. auto.
Qed.

Theorem C07_slice_has_flags :
  forall (bmask : img Z) (flags : Z),
  slice_has_flags bmask flags = true <->
  exists r c, inb bmask r c /\ flagged flags (px bmask r c).
Proof. exact has_flags_spec. Qed.

(** C08, in double arithmetic. *)
Theorem C08_masked_fraction :
  forall (weight : img f64) (bmask : img Z) (bad_flags : Z) (ignore : option (img bool)),
  nrows bmask = nrows weight -> ncols bmask = ncols weight ->
  match ignore with
  | Some m => nrows m = nrows weight /\ ncols m = ncols weight
  | None => True end ->
  nrows weight * ncols weight <= 2 ^ 52 ->
  (exists r c, inb weight r c /\ counted ignore r c) ->
  exists n d,
    counts (nrows weight) (ncols weight)
      (fun r c => unusable weight bmask bad_flags r c /\ counted ignore r c) n /\
    counts (nrows weight) (ncols weight) (fun r c => counted ignore r c) d /\
    0 < d /\
    let v := rnd64 (IZR n / IZR d) in
    f64_is (compute_masked_fraction weight bmask bad_flags ignore) v /\
    (0 <= v <= 1)%R /\
    (v = 0%R <-> forall r c, inb weight r c -> counted ignore r c ->
                   ~ unusable weight bmask bad_flags r c) /\
    (v = 1%R <-> forall r c, inb weight r c -> counted ignore r c ->
                   unusable weight bmask bad_flags r c).
Proof. exact masked_fraction_f64. Qed.

Theorem C08_masked_fraction_grows_with_flags :
  forall (weight : img f64) (bmask : img Z) (flags flags' : Z) (ignore : option (img bool)),
  nrows bmask = nrows weight -> ncols bmask = ncols weight ->
  match ignore with
  | Some m => nrows m = nrows weight /\ ncols m = ncols weight
  | None => True end ->
  nrows weight * ncols weight <= 2 ^ 52 ->
  (exists r c, inb weight r c /\ counted ignore r c) ->
  Z.land flags flags' = flags ->
  exists v v',
    f64_is (compute_masked_fraction weight bmask flags ignore) v /\
    f64_is (compute_masked_fraction weight bmask flags' ignore) v' /\
    (v <= v')%R.
Proof. exact masked_fraction_mono. Qed.

Theorem C08_masked_fraction_ignores_ignored :
  forall (F : Type) (FO : FloatOps F) (weight weight' : img F) (bmask bmask' : img Z)
         (bad_flags : Z) (m : img bool),
  nrows weight' = nrows weight -> ncols weight' = ncols weight ->
  (forall r c, inb weight r c -> px m r c = false ->
     px weight' r c = px weight r c /\ px bmask' r c = px bmask r c) ->
  compute_masked_fraction weight' bmask' bad_flags (Some m)
  = compute_masked_fraction weight bmask bad_flags (Some m).
Proof. intros F FO. exact masked_fraction_ignores. Qed.

Theorem C08_masked_fraction_everything_ignored :
  forall (F : Type) (FO : FloatOps F) (weight : img F) (bmask : img Z) (bad_flags : Z)
         (m : img bool),
  (forall r c, inb m r c -> px m r c = true) ->
  compute_masked_fraction weight bmask bad_flags (Some m) = fone.
Proof. intros F FO. exact masked_fraction_all_ignored. Qed.

(** Concrete: two of four pixels are unusable; one of the three not ignored. *)
Example C08_example :
  compute_masked_fraction (F := f64) mixed_weight mixed_bmask 1 None = fdec 1 2
  /\ compute_masked_fraction (F := f64) mixed_weight mixed_bmask 1
       (Some (of_rows false [[true; false]; [false; false]])) = fdec 1 3.
Proof. vm_compute. auto. Qed.

Example C07_example :
  slice_full_edge_masked (F := f64) mixed_weight (of_rows 0 [[0; 1]; [0; 3]]) 1 = Ok true.
Proof. vm_compute. reflexivity. Qed.

Print Assumptions C07_full_edge_detected.
Print Assumptions C07_mixed_edge_not_detected.
Print Assumptions C07_slice_has_flags.
Print Assumptions C08_masked_fraction.
Print Assumptions C08_masked_fraction_grows_with_flags.
Print Assumptions C08_masked_fraction_ignores_ignored.
Print Assumptions C08_masked_fraction_everything_ignored.
