(** C80: the seeds of a run. *)
From Coq Require Import ZArith List Bool Lia.
From Verif Require Import Lib.Base Model.Jobs Spec.SeedSpec Proofs.SeedProofs.
Import ListNotations.
Open Scope Z_scope.

(** C80: how many seeds there are, and that they are drawn one after the other. *)
Theorem C80_seeds_drawn_in_order :
  forall rng init randint seed num nsrc n_extra,
  let '(slices, images) := all_seeds rng init randint seed num nsrc n_extra in
  length slices = Z.to_nat num /\ length images = Z.to_nat nsrc /\
  Forall (fun s => length (fst s) = Z.to_nat (n_extra + 1)) images /\
  slices ++ concat (map (fun s => fst s ++ [snd s]) images)
  = draws rng randint (init seed) (seed_bounds (Z.to_nat num) (Z.to_nat nsrc) (Z.to_nat (n_extra + 1))).
Proof. exact all_seeds_spec. Qed.

(** C80: all seeds are in their range, for a generator that keeps to it. *)
Theorem C80_seeds_in_range :
  forall rng init randint,
  (forall g low high, low < high -> low <= fst (randint g low high) < high) ->
  forall seed num nsrc n_extra,
  let '(slices, images) := all_seeds rng init randint seed num nsrc n_extra in
  Forall (fun x => 1 <= x < 2 ^ 32 - 1) slices /\
  Forall (fun s => Forall (fun x => 1 <= x < 2 ^ 30) (fst s) /\ 1 <= snd s < 2 ^ 30) images.
Proof.
  intros rng init randint H seed num nsrc n_extra.
  pose proof (all_seeds_spec rng init randint seed num nsrc n_extra) as A.
  destruct (all_seeds rng init randint seed num nsrc n_extra) as [slices images].
  destruct A as (L1 & L2 & FA & D).
  assert (B : Forall (fun b : Z * Z => fst b < snd b) (seed_bounds (Z.to_nat num) (Z.to_nat nsrc) (Z.to_nat (n_extra + 1)))).
  { unfold seed_bounds. apply Forall_app. split; [apply Forall_forall; intros b Hb; apply repeat_spec in Hb; subst; reflexivity|].
    apply Forall_concat. apply Forall_forall. intros l Hl. apply repeat_spec in Hl. subst l.
    apply Forall_app. split; [|repeat constructor]. apply Forall_forall. intros b Hb. apply repeat_spec in Hb. subst. reflexivity. }
  pose proof (draws_in_range rng randint H _ (init seed) B) as R. rewrite <- D in R. unfold seed_bounds in R.
  apply Forall2_app_inv_l in R as (l1 & l2 & R1 & R2 & E).
  assert (length l1 = length slices).
  { rewrite L1. clear - R1. remember (repeat _ _) as b eqn:Eb. assert (length b = Z.to_nat num) by (subst b; apply repeat_length).
    clear Eb. revert H. generalize (Z.to_nat num). induction R1; intros n Hn; cbn in *; subst; [reflexivity|].
    f_equal. apply IHR1. reflexivity. }
  assert (slices = l1 /\ concat (map (fun s => fst s ++ [snd s]) images) = l2) as [-> <-].
  { clear - E H0. revert slices H0 E. induction l1 as [|x l1 IH]; intros [|y sl] L E; try discriminate; cbn in *.
    - split; [reflexivity|exact E].
    - injection E as -> E. destruct (IH sl ltac:(lia) E) as [-> E']. split; [reflexivity|exact E']. }
  split.
  - clear - R1. revert R1. generalize (Z.to_nat num). induction l1 as [|x l1 IH]; intros n R1; [constructor|].
    destruct n as [|n]; cbn [repeat] in R1; inversion R1; subst. constructor; [assumption|]. eapply IH. eassumption.
  - assert (G : forall b l, Forall2 (fun b x => fst b <= x < snd b) b l -> Forall (eq (1, 2 ^ 30)) b ->
              Forall (fun x => 1 <= x < 2 ^ 30) l).
    { intros b l HF. induction HF as [|b x bs xs Hb _ IH]; intros HE; [constructor|]. inversion HE; subst.
      constructor; [exact Hb|apply IH; assumption]. }
    apply G in R2.
    + clear - R2. induction images as [|[ns m] im IH]; [constructor|]. cbn [map concat fst snd] in R2.
      apply Forall_app in R2 as [R2 R3]. apply Forall_app in R2 as [R2 R4]. inversion R4; subst.
      constructor; [split; assumption|apply IH; exact R3].
    + apply Forall_concat. apply Forall_forall. intros l Hl. apply repeat_spec in Hl. subst l.
      apply Forall_app. split; [|repeat constructor]. apply Forall_forall. intros b Hb. apply repeat_spec in Hb. congruence.
Qed.

(** C80: the seeds of the slices do not depend on the images, and those of an
    image not on the images after it. *)
Theorem C80_seeds_are_stable :
  forall rng init randint seed num nsrc more n_extra, 0 <= nsrc -> 0 <= more ->
  fst (all_seeds rng init randint seed num (nsrc + more) n_extra) = fst (all_seeds rng init randint seed num nsrc n_extra) /\
  firstn (Z.to_nat nsrc) (snd (all_seeds rng init randint seed num (nsrc + more) n_extra))
  = snd (all_seeds rng init randint seed num nsrc n_extra).
Proof.
  intros rng init randint seed num nsrc more n_extra H H'. unfold all_seeds.
  destruct (randints rng randint (Z.to_nat num) (init seed) 1 (2 ^ 32 - 1)) as [xs g].
  pose proof (src_seeds_prefix rng randint n_extra (Z.to_nat nsrc) (Z.to_nat more) g) as P.
  rewrite Z2Nat.inj_add by lia.
  destruct (draw_src_seeds rng randint (Z.to_nat nsrc + Z.to_nat more) n_extra g) as [a ga].
  destruct (draw_src_seeds rng randint (Z.to_nat nsrc) n_extra g) as [b gb].
  cbn [fst snd] in *. split; [reflexivity|exact P].
Qed.

(** ** A concrete case: a counter as generator *)
Example C80_example :
  all_seeds Z (fun s => s) (fun g low _ => (low + g, g + 1)) 5 2 2 1
  = ([6; 7], [([8; 9], 10); ([11; 12], 13)]).
Proof. reflexivity. Qed.

Print Assumptions C80_seeds_drawn_in_order.
Print Assumptions C80_seeds_in_range.
Print Assumptions C80_seeds_are_stable.
