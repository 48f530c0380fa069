(** C71: lists of flags in the configuration. *)
From Coq Require Import ZArith List Bool Lia.
From Verif Require Import Lib.Base Lib.Floats Model.Flag Model.SliceInputs Model.SingleSlice Spec.FlagSpec Spec.FlagListSpec
  Proofs.FlagProofs Proofs.FlagListProofs.
Import ListNotations.
Open Scope Z_scope.

(** C71: the list of flags selects exactly the mask values with one of its flags
    if, and only if, no two entries share a bit. *)
Theorem C71_lists_of_flags :
  forall l, Forall (fun f => 0 <= f) l ->
  (no_shared_bits l <-> forall v, Z.land v (flag_sum l) <> 0 <-> has_a_flag l v).
Proof. exact sum_selects. Qed.

(** C71: so an image is rejected for its flags exactly if one of its pixels has
    one of the flags of the list. *)
Theorem C71_images_rejected_by_list :
  forall (F : Type) (sc : @se_config F) w (bmask : img Z),
  Forall (fun f => 0 <= f) (sc_bad_image_flags sc) -> no_shared_bits (sc_bad_image_flags sc) ->
  (slice_has_flags bmask (cf_bad_image_flags (slice_config sc w)) = true <->
   exists r c, inb bmask r c /\ has_a_flag (sc_bad_image_flags sc) (px bmask r c)).
Proof.
  intros F sc w bmask Hl Hd. cbn [slice_config cf_bad_image_flags]. rewrite has_flags_spec.
  assert (X : forall v, flagged (flag_sum (sc_bad_image_flags sc)) v <-> has_a_flag (sc_bad_image_flags sc) v).
  { intros v. rewrite <- flagged_land, negb_true_iff, Z.eqb_neq. apply (proj1 (sum_selects _ Hl) Hd). }
  split; intros (r & c & B & H); exists r, c; (split; [exact B|]); apply X; exact H.
Qed.

(** C71: in particular a flag that is written twice selects another flag and no
    longer itself. *)
Theorem C71_repeated_flag_refuted :
  ~ (forall l, Forall (fun f => 0 <= f) l -> forall v, Z.land v (flag_sum l) <> 0 <-> has_a_flag l v).
Proof.
  intros H. specialize (H [1; 1] ltac:(repeat constructor; lia) 1).
  assert (X : Z.land 1 (flag_sum [1; 1]) = 0) by reflexivity.
  apply (proj2 H); [|exact X]. exists 1. split; [left; reflexivity|discriminate].
Qed.

(** Concrete: the flags used for DES. *)
Example C71_example : no_shared_bits [1; 2; 4; 8; 16; 64; 256; 512] /\
  flag_sum [1; 2; 4; 8; 16; 64; 256; 512] = 863.
Proof. split; [repeat constructor|reflexivity]. Qed.

Print Assumptions C71_lists_of_flags.
Print Assumptions C71_images_rejected_by_list.
Print Assumptions C71_repeated_flag_refuted.
