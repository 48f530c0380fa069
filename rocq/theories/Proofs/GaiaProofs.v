(** Proofs about the star masks. *)
From Coq Require Import ZArith List Bool Reals Lra Lia.
From Verif Require Import Lib.Base Lib.Floats Model.Gaia Spec.GaiaSpec Proofs.BaseFacts.
Import ListNotations.
Open Scope Z_scope.

Section Any.
Context {F : Type} {FO : FloatOps F}.
Variable sky2image : F -> F -> result (F * F).

Lemma read_ok : forall off data out, read_gaia_stars sky2image off data = Ok out ->
  Forall2 (fun s p => pl_star p = s /\ exists x y, sky2image (st_ra s) (st_dec s) = Ok (x, y) /\
             pl_x p = fsub x (fofZ off) /\ pl_y p = fsub y (fofZ off)) data out.
Proof.
  intros off data. induction data as [|s data IH]; intros out.
  - cbn. intros E. injection E as <-. constructor.
  - cbn [read_gaia_stars]. destruct (sky2image (st_ra s) (st_dec s)) as [[x y]|] eqn:E1; [|discriminate].
    cbn [bind]. destruct (read_gaia_stars sky2image off data) as [rest|] eqn:E2; [|discriminate].
    cbn [bind]. intros E. injection E as <-. constructor; [|auto]. cbn. eauto 10.
Qed.

Lemma read_total : forall off data, (forall s, In s data -> exists p, sky2image (st_ra s) (st_dec s) = Ok p) ->
  exists out, read_gaia_stars sky2image off data = Ok out.
Proof.
  intros off data. induction data as [|s data IH]; intros H; [cbn; eauto|].
  cbn [read_gaia_stars]. destruct (H s (or_introl eq_refl)) as [[x y] ->].
  destruct IH as [out E]; [intros; apply H; right; assumption|]. cbn [bind]. rewrite E. cbn [bind]. eauto.
Qed.

Lemma read_raises : forall off data e, read_gaia_stars sky2image off data = Raise e ->
  exists s, In s data /\ sky2image (st_ra s) (st_dec s) = Raise e.
Proof.
  intros off data e. induction data as [|s data IH]; [discriminate|].
  cbn [read_gaia_stars]. destruct (sky2image (st_ra s) (st_dec s)) as [[x y]|e1] eqn:E1; cbn [bind].
  - destruct (read_gaia_stars sky2image off data) as [rest|e2] eqn:E2; cbn [bind]; [discriminate|].
    intros E. injection E as <-. destruct (IH eq_refl) as (s' & A & B). exists s'. split; [right; exact A|exact B].
  - intros E. injection E as <-. exists s. split; [left; reflexivity|exact E1].
Qed.

Variables (pow10 to_f4 : F -> F).
Variable draw : list (F * F * F) -> Z -> bool -> result (img Z).

Lemma faint_ignored : forall stars mx coeffs sc sr n sym,
  build_gaia_star_mask pow10 to_f4 draw stars mx coeffs sc sr n sym =
  build_gaia_star_mask pow10 to_f4 draw
    (filter (fun p => fleb (st_mag (pl_star p)) mx) stars) mx coeffs sc sr n sym.
Proof.
  intros. unfold build_gaia_star_mask, add_gaia_radius.
  assert (K : filter (fun p => fleb (st_mag (pl_star p)) mx) (filter (fun p => fleb (st_mag (pl_star p)) mx) stars)
              = filter (fun p => fleb (st_mag (pl_star p)) mx) stars).
  { induction stars as [|p l IH]; [reflexivity|]. cbn [filter].
    destruct (fleb (st_mag (pl_star p)) mx) eqn:E; cbn [filter]; [rewrite E; f_equal; exact IH|exact IH]. }
  rewrite K. reflexivity.
Qed.

End Any.

Open Scope R_scope.

Lemma Rleb_le x y : Rleb x y = true <-> x <= y.
Proof. unfold Rleb. destruct (Rle_dec x y); split; intros; first [assumption|reflexivity|discriminate|contradiction]. Qed.

Lemma polyval_R : forall coeffs x, polyval coeffs x = poly_value coeffs x.
Proof.
  assert (K : forall coeffs x y, fold_left (fun y c => y * x + c) coeffs y =
     y * x ^ length coeffs + poly_value coeffs x).
  { induction coeffs as [|c l IH]; intros x y; cbn [fold_left length poly_value pow]; [lra|].
    rewrite IH. ring. }
  intros coeffs x. unfold polyval. cbn [fadd fmul ROps]. rewrite K.
  change (@fzero R _) with 0. ring.
Qed.

Theorem mask_spec inside draw s2i pow10 to_f4 off cat mx coeffs sr sc n stars :
  draws inside draw -> read_gaia_stars (F := R) s2i off cat = Ok stars ->
  exists m, build_gaia_star_mask pow10 to_f4 draw stars mx coeffs sc sr n false = Ok m /\
    nrows m = n /\ ncols m = n /\
    forall r c, inb m r c ->
      (px m r c = true <->
       pixel_in_a_star inside s2i (fun mag => to_f4 (pow10 (poly_value coeffs mag))) mx off cat
         (sr + IZR r) (sc + IZR c)).
Proof.
  intros Hd Hr. apply read_ok in Hr. unfold build_gaia_star_mask.
  destruct (Hd (map (fun p => (fsub (pl_x (fst p)) sc, fsub (pl_y (fst p)) sr, snd p))
                 (add_gaia_radius pow10 to_f4 stars mx coeffs)) n) as (m & E & N1 & N2 & H).
  rewrite E. cbn [bind]. eexists. split; [reflexivity|]. split; [exact N1|]. split; [exact N2|].
  intros r c Hrc. cbn [imap px]. rewrite negb_true_iff, Z.eqb_neq, (H r c Hrc).
  unfold pixel_in_a_star, add_gaia_radius. cbn [fsub ROps] in *.
  assert (L : forall s, In s cat -> exists p, In p stars /\ pl_star p = s /\
     exists x y, s2i (st_ra s) (st_dec s) = Ok (x, y) /\ pl_x p = x - IZR off /\ pl_y p = y - IZR off).
  { clear - Hr. induction Hr as [|s p l m (A & x & y & B) HF IH]; [intros s []|].
    intros s' [<-|I]; [exists p; split; [left; reflexivity|]; split; [exact A|]; exists x, y; exact B|].
    destruct (IH s' I) as (p' & C & D). exists p'. split; [right; exact C|exact D]. }
  assert (L2 : forall p, In p stars -> In (pl_star p) cat /\
     exists x y, s2i (st_ra (pl_star p)) (st_dec (pl_star p)) = Ok (x, y) /\ pl_x p = x - IZR off /\ pl_y p = y - IZR off).
  { clear - Hr. induction Hr as [|s p l m (A & x & y & B) HF IH]; [intros s []|].
    intros p' [<-|I]; [rewrite A; split; [left; reflexivity|]; exists x, y; exact B|].
    destruct (IH p' I) as (C & D). split; [right; exact C|exact D]. }
  split.
  - intros (x & y & rad & I & P). apply in_map_iff in I. destruct I as ([p q] & Q & I).
    cbn [fst snd] in Q. injection Q as <- <- <-.
    apply in_map_iff in I. destruct I as (p0 & Q & I). injection Q as -> <-.
    apply filter_In in I. destruct I as [I M].
    destruct (L2 p I) as (I2 & x & y & B & X & Y).
    exists (pl_star p), x, y. split; [exact I2|]. split; [exact B|].
    split; [apply Rleb_le; exact M|].
    + rewrite X, Y in P. rewrite polyval_R in P.
      replace (x - IZR off - (sc + IZR c)) with (x - IZR off - sc - IZR c) by ring.
      replace (y - IZR off - (sr + IZR r)) with (y - IZR off - sr - IZR r) by ring. exact P.
  - intros (s & x & y & I & B & M & P). destruct (L s I) as (p & Ip & <- & x' & y' & B' & X & Y).
    rewrite B in B'. injection B' as <- <-.
    exists (pl_x p - sc), (pl_y p - sr), (to_f4 (pow10 (polyval coeffs (st_mag (pl_star p))))).
    split.
    + apply in_map_iff. exists (p, to_f4 (pow10 (polyval coeffs (st_mag (pl_star p))))). split; [reflexivity|].
      apply in_map_iff. exists p. split; [reflexivity|]. apply filter_In. split; [exact Ip|].
      apply Rleb_le. exact M.
    + rewrite polyval_R, X, Y.
      replace (x - IZR off - sc - IZR c) with (x - IZR off - (sc + IZR c)) by ring.
      replace (y - IZR off - sr - IZR r) with (y - IZR off - (sr + IZR r)) by ring. exact P.
Qed.
