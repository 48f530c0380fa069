(** Proofs about wrap_ra_diff and the Jacobian. *)
From Coq Require Import ZArith List Bool Reals Lia Lra.
From Flocq Require Import Core BinarySingleNaN Relative.
From Verif Require Import Lib.Base Lib.Floats Model.Wrap Spec.WrapSpec Spec.FloatSpec
  Proofs.F64Facts.
Import ListNotations.
Open Scope Z_scope.

(** *** Loops *)

Lemma while_mono {A} cond (step : A -> A) n : forall m x y, (n <= m)%nat ->
  while_loop cond step n x = Some y -> while_loop cond step m x = Some y.
Proof.
  induction n as [|n IH]; intros m x y Hm; destruct m as [|m]; cbn; try lia;
    destruct (cond x); try discriminate; auto.
  apply IH. lia.
Qed.

Lemma while_det {A} cond (step : A -> A) n m x y z :
  while_loop cond step n x = Some y -> while_loop cond step m x = Some z -> y = z.
Proof.
  intros H1 H2. pose proof (while_mono cond step n (max n m) x y ltac:(lia) H1).
  pose proof (while_mono cond step m (max n m) x z ltac:(lia) H2). congruence.
Qed.

Lemma while_inv {A} (P : A -> Prop) cond (step : A -> A) n : forall x y,
  while_loop cond step n x = Some y ->
  (forall a, P a -> cond a = true -> P (step a)) -> P x ->
  P y /\ cond y = false.
Proof.
  induction n as [|n IH]; intros x y H Hs Hx; revert H; cbn; destruct (cond x) eqn:E; try discriminate.
  - intros [= <-]. auto.
  - intros H. eapply IH; eauto.
  - intros [= <-]. auto.
Qed.

(** A loop that makes progress on a measure stops. *)
Lemma while_stops {A} (P : A -> Prop) (mu : A -> nat) cond (step : A -> A) :
  (forall a, P a -> cond a = true -> P (step a) /\ (mu (step a) < mu a)%nat) ->
  forall n x, P x -> (mu x <= n)%nat -> exists y, while_loop cond step n x = Some y.
Proof.
  intros Hs. induction n as [|n IH]; intros x Hx Hm; cbn; destruct (cond x) eqn:E; eauto.
  - destruct (Hs x Hx E). lia.
  - destruct (Hs x Hx E). apply IH; [assumption|lia].
Qed.

Lemma while_diverges {A} (P : A -> Prop) cond (step : A -> A) :
  (forall a, P a -> cond a = true /\ P (step a)) ->
  forall n x, P x -> while_loop cond step n x = None.
Proof.
  intros Hs. induction n as [|n IH]; intros x Hx; cbn; destruct (Hs x Hx) as [-> H]; auto.
Qed.

(** *** Arrays *)
Section Arr.
Context {F : Type} `{FloatOps F}.

Definition pcond (c : F -> bool) (p : F * bool) : bool := c (fst p) && snd p.
Definition pstep (s : F -> F) (p : F * bool) : F * bool := (s (fst p), snd p).

Lemma existsb_mask c l : existsb (fun b => b) (mask_of c l) = existsb (pcond c) l.
Proof. unfold mask_of, pcond. induction l; cbn; congruence. Qed.

Lemma wrap_loop_elements c s n : forall l l',
  wrap_loop c s n l = Some l' <->
  Forall2 (fun p q => while_loop (pcond c) (pstep s) n p = Some q) l l'.
Proof.
  unfold wrap_loop. induction n as [|n IH]; intros l l'; cbn [while_loop].
  - rewrite existsb_mask. destruct (existsb (pcond c) l) eqn:E.
    + split; [discriminate|]. intros Hf. exfalso.
      induction Hf as [|p q l l' Hp Hf IHf]; [discriminate|].
      cbn in E. destruct (pcond c p); [discriminate|]. auto.
    + split.
      * intros [= <-]. induction l as [|p l IHl]; constructor.
        -- cbn in E. apply orb_false_iff in E as [-> _]. reflexivity.
        -- apply IHl. cbn in E. now apply orb_false_iff in E.
      * intros Hf. f_equal. clear E.
        induction Hf as [|p q l l' Hp Hf IHf]; [reflexivity|].
        destruct (pcond c p); [discriminate|]. injection Hp as ->. now f_equal.
  - rewrite existsb_mask. destruct (existsb (pcond c) l) eqn:E.
    + rewrite IH. clear IH E. unfold update_masked.
      split; intros Hf.
      * revert l' Hf. induction l as [|p l IHl]; intros l' Hf; cbn [map] in Hf; inversion Hf; subst; constructor.
        -- fold (pcond c p) in *. destruct (pcond c p) eqn:Ep; [assumption|].
           destruct n; cbn in *; rewrite Ep in *; assumption.
        -- apply IHl. assumption.
      * induction Hf as [|p q l l' Hp Hf IHf]; cbn [map]; constructor; [|assumption].
        fold (pcond c p). destruct (pcond c p) eqn:Ep; [assumption|].
        injection Hp as <-. destruct n; cbn; now rewrite Ep.
    + split.
      * intros [= <-]. induction l as [|p l IHl]; constructor.
        -- cbn in E. apply orb_false_iff in E as [-> _]. reflexivity.
        -- apply IHl. cbn in E. now apply orb_false_iff in E.
      * intros Hf. f_equal. 
        induction Hf as [|p q l l' Hp Hf IHf]; [reflexivity|].
        cbn in E. apply orb_false_iff in E as [E1 E2]. rewrite E1 in Hp.
        injection Hp as ->. f_equal. auto.
Qed.

Lemma ploop_true c s n : forall x,
  while_loop (pcond c) (pstep s) n (x, true) = option_map (fun y => (y, true)) (while_loop c s n x).
Proof.
  induction n as [|n IH]; intros x; cbn [while_loop]; unfold pcond at 1; cbn [fst snd];
    rewrite andb_true_r; destruct (c x); try reflexivity. apply IH.
Qed.
Lemma ploop_false c s n x : while_loop (pcond c) (pstep s) n (x, false) = Some (x, false).
Proof. destruct n; cbn; unfold pcond; cbn [fst snd]; now rewrite andb_false_r. Qed.

Theorem wrap_array_elements n (l l' : list F) :
  wrap_ra_diff_array n l = Some l' <->
  Forall2 (fun x y => wrap_ra_diff n x = Some y) l l'.
Proof.
  unfold wrap_ra_diff_array.
  set (c1 := fun x => fltb x (fofZ (-180))). set (s1 := fun x => fadd x (fofZ 360)).
  set (c2 := fun x => fltb (fofZ 180) x). set (s2 := fun x => fsub x (fofZ 360)).
  assert (Hel : forall x y, wrap_ra_diff n x = Some y <->
    exists p q, while_loop (pcond c1) (pstep s1) n (x, ffinite x) = Some p /\
                while_loop (pcond c2) (pstep s2) n p = Some q /\ y = fst q).
  { intros x y. unfold wrap_ra_diff. fold c1 s1 c2 s2.
    destruct (ffinite x) eqn:Ef; cbn [negb].
    - rewrite ploop_true. destruct (while_loop c1 s1 n x) as [a|]; cbn [option_map].
      + destruct (while_loop c2 s2 n a) as [b|] eqn:E2.
        * split.
          -- intros [= <-]. exists (a, true), (b, true). rewrite ploop_true, E2. auto.
          -- intros (p & q & [= <-] & Hq & ->). rewrite ploop_true, E2 in Hq.
             cbn in Hq. injection Hq as <-. reflexivity.
        * split; [discriminate|]. intros (p & q & [= <-] & Hq & ->).
          rewrite ploop_true, E2 in Hq. discriminate.
      + split; [discriminate|]. intros (p & q & C & _). discriminate.
    - rewrite ploop_false. split.
      + intros [= <-]. exists (x, false), (x, false). rewrite ploop_false. auto.
      + intros (p & q & [= <-] & Hq & ->). rewrite ploop_false in Hq. injection Hq as <-. reflexivity. }
  split.
  - destruct (wrap_loop c1 s1 n _) as [l1|] eqn:E1; [|discriminate].
    destruct (wrap_loop c2 s2 n l1) as [l2|] eqn:E2; [|discriminate].
    intros [= <-]. rewrite wrap_loop_elements in E1, E2.
    revert l E1. induction E2 as [|p q l1 l2 Hp Hf IH]; intros l E1; destruct l as [|x l];
      cbn [map] in E1; inversion E1; subst; constructor.
    + apply Hel. eauto.
    + apply IH. assumption.
  - intros Hf.
    assert (exists l1 l2, wrap_loop c1 s1 n (map (fun x => (x, ffinite x)) l) = Some l1 /\
              wrap_loop c2 s2 n l1 = Some l2 /\ l' = map fst l2) as (l1 & l2 & -> & -> & ->);
      [|reflexivity].
    induction Hf as [|x y l l' Hx Hf (l1 & l2 & E1 & E2 & ->)].
    + exists [], []. rewrite !wrap_loop_elements. repeat constructor.
    + apply Hel in Hx as (p & q & Hp & Hq & ->). exists (p :: l1), (q :: l2).
      rewrite wrap_loop_elements in E1, E2. rewrite !wrap_loop_elements. cbn [map].
      split; [|split]; [constructor; assumption..|reflexivity].
Qed.

Lemma wrap_det n m (x y z : F) :
  wrap_ra_diff n x = Some y -> wrap_ra_diff m x = Some z -> y = z.
Proof.
  unfold wrap_ra_diff. destruct (negb _); [congruence|].
  destruct (while_loop _ _ n x) as [a|] eqn:E1; [|discriminate].
  destruct (while_loop _ _ m x) as [b|] eqn:E2; [|discriminate].
  rewrite (while_det _ _ _ _ _ _ _ E1 E2). apply while_det.
Qed.

Lemma wrap_nonfinite n (x : F) : ffinite x = false -> wrap_ra_diff n x = Some x.
Proof. intros E. unfold wrap_ra_diff. now rewrite E. Qed.
End Arr.

(** *** Exact arithmetic *)
Open Scope R_scope.

Lemma Rltb_true x y : Rltb x y = true <-> x < y.
Proof. unfold Rltb. destruct (Rlt_dec x y); split; (congruence || lra). Qed.
Lemma Rltb_false x y : Rltb x y = false <-> y <= x.
Proof. unfold Rltb. destruct (Rlt_dec x y); split; (congruence || lra). Qed.

(** Number of steps of 360 degrees needed for a distance [d]. *)
Definition steps (d : R) : nat := Z.to_nat (Zceil (d / 100)).

Lemma steps_decrease d d' : 0 < d -> d' <= d - 100 -> (steps d' < steps d)%nat.
Proof.
  intros H H'. unfold steps.
  assert (0 < Zceil (d / 100))%Z.
  { apply lt_IZR. apply Rlt_le_trans with (d / 100); [lra|apply Zceil_ub]. }
  assert (Zceil (d' / 100) <= Zceil (d / 100) - 1)%Z.
  { apply Zceil_glb. rewrite minus_IZR. pose proof (Zceil_ub (d / 100)). lra. }
  lia.
Qed.

Lemma up_loop_R x : exists n y, while_loop (fun x => Rltb x (-180)) (fun x => x + 360) n x = Some y
  /\ same_angle x y /\ -180 <= y /\ (-180 <= x -> y = x) /\ (x < -180 -> y < 180).
Proof.
  destruct (while_stops (fun _ : R => True) (fun x => steps (-180 - x))
    (fun x => Rltb x (-180)) (fun x => x + 360)) with (n := steps (-180 - x)) (x := x) as [y Hy]; auto.
  { intros a _ Ha. apply Rltb_true in Ha. split; [trivial|]. apply steps_decrease; lra. }
  exists (steps (-180 - x)), y. split; [exact Hy|].
  assert (K := while_inv (fun y => same_angle x y /\ (-180 <= x -> y = x) /\ (x < -180 -> y < 180)) _ _ _ _ _ Hy).
  cbv beta in K. destruct K as [(H1 & H2 & H3) H4].
  - intros a ((k & ->) & H2 & H3) Ha. apply Rltb_true in Ha. split; [|split].
    + exists (k + 1)%Z. rewrite plus_IZR. ring.
    + intros Hx. rewrite (H2 Hx) in Ha. lra.
    + intros. lra.
  - split; [exists 0%Z; ring|]. split; intros; lra.
  - apply Rltb_false in H4. auto.
Qed.

Lemma down_loop_R x : exists n y, while_loop (fun x => Rltb 180 x) (fun x => x - 360) n x = Some y
  /\ same_angle x y /\ y <= 180 /\ (x <= 180 -> y = x) /\ (180 < x -> -180 < y).
Proof.
  destruct (while_stops (fun _ : R => True) (fun x => steps (x - 180))
    (fun x => Rltb 180 x) (fun x => x - 360)) with (n := steps (x - 180)) (x := x) as [y Hy]; auto.
  { intros a _ Ha. apply Rltb_true in Ha. split; [trivial|]. apply steps_decrease; lra. }
  exists (steps (x - 180)), y. split; [exact Hy|].
  assert (K := while_inv (fun y => same_angle x y /\ (x <= 180 -> y = x) /\ (180 < x -> -180 < y)) _ _ _ _ _ Hy).
  cbv beta in K. destruct K as [(H1 & H2 & H3) H4].
  - intros a ((k & ->) & H2 & H3) Ha. apply Rltb_true in Ha. split; [|split].
    + exists (k - 1)%Z. rewrite minus_IZR. ring.
    + intros Hx. rewrite (H2 Hx) in Ha. lra.
    + intros. lra.
  - split; [exists 0%Z; ring|]. split; intros; lra.
  - apply Rltb_false in H4. auto.
Qed.

Theorem wrap_exact (x : R) : exists n y, wrap_ra_diff n x = Some y /\ wrapped x y.
Proof.
  destruct (up_loop_R x) as (n & y & Hy & A1 & B1 & C1 & D1).
  destruct (down_loop_R y) as (m & z & Hz & A2 & B2 & C2 & D2).
  exists (max n m), z. split.
  - unfold wrap_ra_diff. cbn [ffinite ROps negb fltb fofZ fadd fsub].
    rewrite (while_mono _ _ n (max n m) _ y ltac:(lia) Hy).
    exact (while_mono _ _ m (max n m) _ z ltac:(lia) Hz).
  - destruct A1 as [k1 E1], A2 as [k2 E2].
    assert (Hr : -180 <= z).
    { destruct (Rle_or_lt y 180) as [H|H]; [rewrite (C2 H); lra|specialize (D2 H); lra]. }
    constructor.
    + exists (k1 + k2)%Z. rewrite plus_IZR. lra.
    + lra.
    + intros Hx. rewrite C2 by (rewrite C1; lra). apply C1. lra.
    + intros Hx. specialize (D1 Hx). rewrite C2; lra.
    + intros Hx. apply D2. rewrite C1; lra.
Qed.

Lemma wrapped_unique x y z : wrapped x y -> wrapped x z -> y = z.
Proof.
  intros [(k & Ek) R1 I1 B1 A1] [(l & El) R2 I2 B2 A2].
  destruct (Rlt_or_le x (-180)) as [H|H].
  - specialize (B1 H). specialize (B2 H).
    assert (E : k = l).
    { assert (Hk : (IZR k - IZR l < 1)) by lra. assert (Hl : IZR l - IZR k < 1) by lra.
      rewrite <- minus_IZR in Hk, Hl. apply lt_IZR in Hk. apply lt_IZR in Hl. lia. }
    subst. reflexivity.
  - destruct (Rlt_or_le 180 x) as [H'|H'].
    + specialize (A1 H'). specialize (A2 H').
      assert (E : k = l).
      { assert (Hk : (IZR k - IZR l < 1)) by lra. assert (Hl : IZR l - IZR k < 1) by lra.
        rewrite <- minus_IZR in Hk, Hl. apply lt_IZR in Hk. apply lt_IZR in Hl. lia. }
      subst. reflexivity.
    + rewrite I1, I2 by lra. reflexivity.
Qed.

Lemma wrap_exact_iff (x y : R) : (exists n, wrap_ra_diff n x = Some y) <-> wrapped x y.
Proof.
  destruct (wrap_exact x) as (n & z & Hz & Hw). split.
  - intros [m Hm]. rewrite (wrap_det _ _ _ _ _ Hm Hz). assumption.
  - intros H. rewrite (wrapped_unique _ _ _ H Hw). eauto.
Qed.

(** *** The Jacobian *)

Lemma wrapped_small d k : Rabs d < 180 -> wrapped (d + 360 * IZR k) d.
Proof.
  intros H. apply Rabs_def2 in H as [H1 H2]. constructor.
  - exists (- k)%Z. rewrite opp_IZR. ring.
  - lra.
  - intros Hx.
    assert (k = 0)%Z.
    { assert (Ha : IZR k < 1) by lra. assert (Hb : -1 < IZR k) by lra.
      apply lt_IZR in Ha. apply lt_IZR in Hb. lia. }
    subst k. lra.
  - lra.
  - lra.
Qed.

Lemma wrap_small d k : Rabs d < 180 -> exists n, forall m, (n <= m)%nat ->
  wrap_ra_diff m (d + 360 * IZR k) = Some d.
Proof.
  intros H. destruct (proj2 (wrap_exact_iff _ _) (wrapped_small d k H)) as [n Hn].
  exists n. intros m Hm. revert Hn. unfold wrap_ra_diff. cbn [ffinite ROps negb].
  destruct (while_loop _ _ n _) as [a|] eqn:E; [|discriminate].
  rewrite (while_mono _ _ n m _ a Hm E). apply while_mono. assumption.
Qed.

Theorem jacobian_branch (ra dec : R -> R -> R) (branch : R -> R -> Z) (cos : R -> R) (d2r x y step : R) :
  Rabs (ra (x + step) y - ra (x - step) y) < 180 ->
  Rabs (ra x (y + step) - ra x (y - step)) < 180 ->
  exists n, forall m, (n <= m)%nat ->
    get_jacobian (fun a b => (ra a b + 360 * IZR (branch a b), dec a b)) cos d2r m x y step
    = Some ((1 / (2 * step) * 3600 * (ra (x + step) y - ra (x - step) y)) * - cos (dec x y * d2r),
            (1 / (2 * step) * 3600 * (ra x (y + step) - ra x (y - step))) * - cos (dec x y * d2r),
            1 / (2 * step) * 3600 * (dec (x + step) y - dec (x - step) y),
            1 / (2 * step) * 3600 * (dec x (y + step) - dec x (y - step))).
Proof.
  intros Hx Hy.
  destruct (wrap_small _ (branch (x + step) y - branch (x - step) y) Hx) as [n Hn].
  destruct (wrap_small _ (branch x (y + step) - branch x (y - step)) Hy) as [m Hm].
  exists (max n m). intros k Hk. unfold get_jacobian.
  cbn [fadd fsub fmul fdiv fofZ ROps fneg fzero fone fst snd].
  specialize (Hn k ltac:(lia)). specialize (Hm k ltac:(lia)).
  rewrite minus_IZR in Hn, Hm.
  replace (ra (x + step) y + 360 * IZR (branch (x + step) y) -
    (ra (x - step) y + 360 * IZR (branch (x - step) y))) with
    (ra (x + step) y - ra (x - step) y + 360 * (IZR (branch (x + step) y) - IZR (branch (x - step) y))) by ring.
  replace (ra x (y + step) + 360 * IZR (branch x (y + step)) -
    (ra x (y - step) + 360 * IZR (branch x (y - step)))) with
    (ra x (y + step) - ra x (y - step) + 360 * (IZR (branch x (y + step)) - IZR (branch x (y - step)))) by ring.
  rewrite Hn, Hm. f_equal. unfold fneg, fzero, fone. cbn [fsub fofZ ROps]. 
  replace (0 - cos (dec x y * d2r)) with (- cos (dec x y * d2r)) by ring. reflexivity.
Qed.

Theorem lonlat_branch (lon lat : R) (answer : R * R) (k : Z) (sky : R -> R -> R * R) (x y : R) :
  sky x y = (lon + 360 * IZR k, lat) ->
  Rabs (lon - fst answer) < 180 ->
  exists n, forall m, (n <= m)%nat ->
    lonlatdiff sky m answer x y = Some (lon - fst answer, lat - snd answer).
Proof.
  intros E H. destruct (wrap_small _ k H) as [n Hn]. exists n. intros m Hm.
  unfold lonlatdiff. rewrite E. cbn [fsub ROps].
  replace (lon + 360 * IZR k - fst answer) with (lon - fst answer + 360 * IZR k) by ring.
  now rewrite Hn.
Qed.

Theorem lonlat_zero (lon lat : R) (answer : R * R) (sky : R -> R -> R * R) (x y : R) n d :
  sky x y = (lon, lat) ->
  lonlatdiff sky n answer x y = Some d ->
  (d = (0, 0) <-> same_angle (fst answer) lon /\ lat = snd answer).
Proof.
  intros E. unfold lonlatdiff. rewrite E. cbn [fsub ROps].
  destruct (wrap_ra_diff n (lon - fst answer)) as [e|] eqn:Ee; [|discriminate].
  intros [= <-].
  assert (Hw : wrapped (lon - fst answer) e) by (apply wrap_exact_iff; eauto).
  split.
  - intros [= -> Hl]. split; [|lra]. destruct (w_angle _ _ Hw) as [k Hk].
    exists (- k)%Z. rewrite opp_IZR. lra.
  - intros [[k Hk] Hl]. f_equal; [|lra].
    apply (wrapped_unique _ _ _ Hw). replace (lon - fst answer) with (0 + 360 * IZR k) by lra.
    apply wrapped_small. rewrite Rabs_R0. lra.
Qed.
