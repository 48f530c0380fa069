(** Proofs about the sinc approximant and Lanczos resampling. *)
From Coq Require Import ZArith List Bool Reals Lia Lra Permutation.
From Flocq Require Import Core.
From Verif Require Import Lib.Base Lib.Floats Model.Lanczos Spec.LanczosSpec Proofs.BaseFacts.
Import ListNotations.
Open Scope Z_scope.

(** ** The loops as one sum over a list of pixels (any arithmetic) *)

Definition axis_pix (n f a : Z) : list Z :=
  filter (fun i => negb ((i <? 0) || (i >? n - 1))) (zrange (f - a + 1) (f + a + 1)).

Definition window_pix (ny nx fy fx a : Z) : list (Z * Z) :=
  flat_map (fun r => map (fun c => (r, c)) (axis_pix nx fx a)) (axis_pix ny fy a).

Lemma fold_skip : forall (A B : Type) (skip : B -> bool) (g : A -> B -> A) (l : list B) (v : A),
  fold_left (fun v b => if skip b then v else g v b) l v
  = fold_left g (filter (fun b => negb (skip b)) l) v.
Proof.
  intros A B skip g l. induction l as [|b l IH]; intros v; [reflexivity|].
  cbn [fold_left filter]. destruct (skip b); cbn [negb]; [apply IH|]. cbn [fold_left]. apply IH.
Qed.

Lemma fold_flat : forall (A B C : Type) (h : A -> C -> A) (f : B -> list C) (l : list B) (v : A),
  fold_left (fun v b => fold_left h (f b) v) l v = fold_left h (flat_map f l) v.
Proof.
  intros A B C h f l. induction l as [|b l IH]; intros v; [reflexivity|].
  cbn [fold_left flat_map]. rewrite fold_left_app. apply IH.
Qed.

Lemma fold_ext : forall (A B : Type) (g h : A -> B -> A) (l : list B) (v : A),
  (forall v b, g v b = h v b) -> fold_left g l v = fold_left h l v.
Proof.
  intros A B g h l. induction l as [|b l IH]; intros v H; [reflexivity|].
  cbn [fold_left]. rewrite H. apply IH, H.
Qed.

Lemma fold_map : forall (A B C : Type) (h : A -> C -> A) (f : B -> C) (l : list B) (v : A),
  fold_left h (map f l) v = fold_left (fun v b => h v (f b)) l v.
Proof.
  intros A B C h f l. induction l as [|b l IH]; intros v; [reflexivity|].
  cbn [fold_left map]. apply IH.
Qed.

Definition oob_flag (ny nx fy fx a : Z) : bool :=
  (fx + a <? 0) || (fx - a + 1 >? nx - 1) || (fy + a <? 0) || (fy - a + 1 >? ny - 1).

Section Any.
Context {F : Type} {FO : FloatOps F}.

Definition kern2 (a : Z) (y x : F) (p : Z * Z) : F :=
  fmul (lanczos_kernel a (fsub x (fofZ (snd p)))) (lanczos_kernel a (fsub y (fofZ (fst p)))).

Lemma nested_fold : forall (A : Type) (h : A -> Z * Z -> A) (ny nx fy fx a : Z) (v : A),
  fold_left (fun v y_pix =>
    if (y_pix <? 0) || (y_pix >? ny - 1) then v
    else fold_left (fun v x_pix => if (x_pix <? 0) || (x_pix >? nx - 1) then v
                                   else h v (y_pix, x_pix))
           (zrange (fx - a + 1) (fx + a + 1)) v)
    (zrange (fy - a + 1) (fy + a + 1)) v
  = fold_left h (window_pix ny nx fy fx a) v.
Proof.
  intros. unfold window_pix. rewrite <- fold_flat.
  rewrite (fold_skip _ _ (fun y_pix => (y_pix <? 0) || (y_pix >? ny - 1))
    (fun v y_pix => fold_left (fun v x_pix => if (x_pix <? 0) || (x_pix >? nx - 1) then v
                                   else h v (y_pix, x_pix))
           (zrange (fx - a + 1) (fx + a + 1)) v)).
  fold (axis_pix ny fy a). apply fold_ext. clear v. intros v r.
  rewrite (fold_skip _ _ (fun x_pix => (x_pix <? 0) || (x_pix >? nx - 1))
    (fun v x_pix => h v (r, x_pix))).
  fold (axis_pix nx fx a). rewrite fold_map. reflexivity.
Qed.

Lemma point_sum : forall (im : img F) (a : Z) (y x : F),
  lanczos_point im a y x =
  match ffloor x, ffloor y with
  | Some fx, Some fy =>
      Ok (fold_left (fun v p => fadd v (fmul (px im (fst p) (snd p)) (kern2 a y x p)))
            (window_pix (nrows im) (ncols im) fy fx a) fzero,
          oob_flag (nrows im) (ncols im) fy fx a)
  | _, _ => Raise OtherError
  end.
Proof.
  intros. unfold lanczos_point. destruct (ffloor x) as [fx|]; [|reflexivity].
  destruct (ffloor y) as [fy|]; [|reflexivity]. cbv zeta. f_equal. f_equal.
  rewrite <- nested_fold. reflexivity.
Qed.

Lemma point_flag : forall (im : img F) (a : Z) (y x v : F) (e : bool) (fy fx : Z),
  ffloor y = Some fy -> ffloor x = Some fx -> lanczos_point im a y x = Ok (v, e) ->
  e = oob_flag (nrows im) (ncols im) fy fx a.
Proof.
  intros im a y x v e fy fx Hy Hx. rewrite point_sum, Hy, Hx.
  generalize (fold_left (fun v p => fadd v (fmul (px im (fst p) (snd p)) (kern2 a y x p)))
            (window_pix (nrows im) (ncols im) fy fx a) fzero).
  intros w H. inversion H. reflexivity.
Qed.

Lemma point_two_sum : forall (im1 im2 : img F) (a : Z) (y x : F),
  lanczos_point_two im1 im2 a y x =
  match ffloor x, ffloor y with
  | Some fx, Some fy =>
      let ps := window_pix (nrows im1) (ncols im1) fy fx a in
      Ok (fold_left (fun v p => fadd v (fmul (px im1 (fst p) (snd p)) (kern2 a y x p))) ps fzero,
          fold_left (fun v p => fadd v (fmul (px im2 (fst p) (snd p)) (kern2 a y x p))) ps fzero,
          oob_flag (nrows im1) (ncols im1) fy fx a)
  | _, _ => Raise OtherError
  end.
Proof.
  intros. unfold lanczos_point_two. destruct (ffloor x) as [fx|]; [|reflexivity].
  destruct (ffloor y) as [fy|]; [|reflexivity]. cbv zeta. f_equal. f_equal.
  transitivity (fold_left (fun v p =>
     (fadd (fst v) (fmul (px im1 (fst p) (snd p)) (kern2 a y x p)),
      fadd (snd v) (fmul (px im2 (fst p) (snd p)) (kern2 a y x p))))
     (window_pix (nrows im1) (ncols im1) fy fx a) (fzero, fzero)).
  { rewrite <- nested_fold. reflexivity. }
  generalize (window_pix (nrows im1) (ncols im1) fy fx a) as ps.
  generalize (@fzero F FO) at 1 3 as v1. generalize (@fzero F FO) as v2.
  intros v2 v1 ps. revert v1 v2. induction ps as [|p ps IH]; intros v1 v2; [reflexivity|].
  cbn [fold_left fst snd]. apply IH.
Qed.

Lemma point_two_eq : forall (im1 im2 : img F) (a : Z) (y x : F),
  nrows im1 = nrows im2 -> ncols im1 = ncols im2 ->
  lanczos_point_two im1 im2 a y x =
  (' (v1, e) <- lanczos_point im1 a y x ;; ' (v2, _) <- lanczos_point im2 a y x ;; Ok (v1, v2, e)).
Proof.
  intros im1 im2 a y x Hr Hc. rewrite point_two_sum, !point_sum.
  destruct (ffloor x) as [fx|]; [|reflexivity]. destruct (ffloor y) as [fy|]; [|reflexivity].
  cbn [bind]. rewrite Hr, Hc. reflexivity.
Qed.

Lemma two_eq : forall (im1 im2 : img F) (rows cols : list F) (a : Z),
  nrows im1 = nrows im2 -> ncols im1 = ncols im2 ->
  match lanczos_resample_two im1 im2 rows cols a with
  | Ok (v1, v2, e) => lanczos_loop im1 a rows cols = Ok (v1, e) /\
                      lanczos_loop im2 a rows cols = Ok (v2, e)
  | Raise ex => lanczos_loop im1 a rows cols = Raise ex /\
                lanczos_loop im2 a rows cols = Raise ex
  end.
Proof.
  intros im1 im2 rows. induction rows as [|y rows IH]; intros cols a Hr Hc; [cbn; tauto|].
  destruct cols as [|x cols]; [cbn; tauto|]. cbn [lanczos_resample_two lanczos_loop].
  specialize (IH cols a Hr Hc). rewrite point_two_sum, !point_sum.
  destruct (ffloor x) as [fx|]; [|cbn; tauto]. destruct (ffloor y) as [fy|]; [|cbn; tauto].
  cbv zeta. cbn [bind]. rewrite <- Hr, <- Hc.
  destruct (lanczos_resample_two im1 im2 rows cols a) as [[[v1 v2] e]|ex];
    destruct IH as [-> ->]; cbn [bind]; tauto.
Qed.

(** The loop is the map of the point function. *)
Lemma loop_pointwise : forall (im : img F) (a : Z) (rows cols vs : list F) (es : list bool),
  length rows = length cols ->
  lanczos_loop im a rows cols = Ok (vs, es) <->
  (length vs = length rows /\ length es = length rows /\
   forall i y x, nth_error rows i = Some y -> nth_error cols i = Some x ->
     exists v e, nth_error vs i = Some v /\ nth_error es i = Some e /\
       lanczos_point im a y x = Ok (v, e)).
Proof.
  intros im a rows. induction rows as [|y rows IH]; intros [|x cols] vs es Hl; try discriminate.
  - cbn. split.
    + intros H. inversion H; subst. split; [reflexivity|]. split; [reflexivity|].
      intros i y x Hi. destruct i; discriminate.
    + intros (H1 & H2 & _). destruct vs; [|discriminate]. destruct es; [|discriminate]. reflexivity.
  - cbn [lanczos_loop length]. split.
    + intros H. destruct (lanczos_point im a y x) as [[v e]|] eqn:E; [|discriminate].
      cbn [bind] in H. destruct (lanczos_loop im a rows cols) as [[vs' es']|] eqn:E'; [|discriminate].
      cbn [bind] in H. inversion H; subst. apply IH in E'; [|now inversion Hl].
      destruct E' as (L1 & L2 & E'). cbn [length]. split; [lia|]. split; [lia|].
      intros [|i] y' x' Hy Hx.
      * cbn in *. inversion Hy; inversion Hx; subst. eauto.
      * cbn in *. eapply E'; eassumption.
    + intros (L1 & L2 & E). destruct vs as [|v vs]; [discriminate|]. destruct es as [|e es]; [discriminate|].
      destruct (E 0%nat y x eq_refl eq_refl) as (v' & e' & Hv & He & Hp). cbn in Hv, He.
      inversion Hv; inversion He; subst. rewrite Hp. cbn [bind].
      assert (K : lanczos_loop im a rows cols = Ok (vs, es)).
      { apply IH; [now inversion Hl|]. cbn in L1, L2. split; [lia|]. split; [lia|].
        intros i y' x' Hy Hx. apply (E (S i) y' x'); assumption. }
      rewrite K. reflexivity.
Qed.

Lemma loop_total : forall (im : img F) (a : Z) (rows cols : list F),
  length rows = length cols ->
  (forall t, In t rows \/ In t cols -> exists k, ffloor t = Some k) ->
  exists vs es, lanczos_loop im a rows cols = Ok (vs, es).
Proof.
  intros im a rows. induction rows as [|y rows IH]; intros [|x cols] Hl Hf; try discriminate.
  - cbn. eauto.
  - cbn [lanczos_loop]. destruct (Hf y ltac:(left; left; reflexivity)) as (fy & Ey).
    destruct (Hf x ltac:(right; left; reflexivity)) as (fx & Ex).
    rewrite point_sum, Ex, Ey. cbn [bind].
    destruct (IH cols) as (vs & es & ->); [now inversion Hl| |cbn [bind]; eauto].
    intros t [H|H]; apply Hf; [left|right]; right; assumption.
Qed.

End Any.

(** ** The pixels of the window *)

Lemma In_axis_pix : forall n f a i, In i (axis_pix n f a) <-> 0 <= i < n /\ f - a + 1 <= i <= f + a.
Proof.
  intros. unfold axis_pix. rewrite filter_In, In_zrange. destruct (Z.ltb_spec i 0); destruct (Z.gtb_spec i (n - 1));
    cbn; intuition (try lia; try discriminate).
Qed.

Lemma In_window_pix : forall ny nx fy fx a r c, In (r, c) (window_pix ny nx fy fx a) <->
  (0 <= r < ny /\ fy - a + 1 <= r <= fy + a) /\ (0 <= c < nx /\ fx - a + 1 <= c <= fx + a).
Proof.
  intros. unfold window_pix. rewrite in_flat_map. rewrite <- !In_axis_pix. split.
  - intros (r' & Hr & H). apply in_map_iff in H. destruct H as (c' & E & Hc).
    inversion E; subst. tauto.
  - intros [Hr Hc]. exists r. split; [assumption|]. apply in_map_iff. eauto.
Qed.

Lemma NoDup_axis_pix : forall n f a, NoDup (axis_pix n f a).
Proof. intros. apply NoDup_filter, NoDup_zrange. Qed.

Lemma NoDup_window_pix : forall ny nx fy fx a, NoDup (window_pix ny nx fy fx a).
Proof.
  intros. apply NoDup_flat_map.
  - apply NoDup_axis_pix.
  - intros r _. apply FinFun.Injective_map_NoDup; [|apply NoDup_axis_pix].
    intros x y E. now inversion E.
  - intros r r' [p q] _ _ H1 H2. apply in_map_iff in H1, H2.
    destruct H1 as (? & E1 & _), H2 as (? & E2 & _). congruence.
Qed.

(** ** The sinc approximant over R *)

Open Scope R_scope.

(** Numerator cofactor (times 10^21) and denominator (times 10^22), with
    integer coefficients. *)
Definition pnum (x : R) : R :=
  (-166666666666666000000) + x * ((-289176685343373000000) + x * ((-109757669089546000000) + x * (35093108057559600000 + x * (22994758464333600000 + x * ((-893639582019350000) + x * ((-1627221929657220000) + x * ((-30068914607562600) + x * (51386446977429400 + x * (1235615633822140 + x * ((-637392253619041))))))))))).
Definition pden (x : R) : R :=
  10000000000000000000000 + x * ((-982732212730775000000) + x * (1225365426084030000000 + x * ((-111525324680647000000) + x * (72470751283301900000 + x * ((-5847744456534040000) + x * (2625280482965790000 + x * ((-171596576734417000) + x * (59194541166080400 + x * ((-2441748185794910) + x * (674473938075399)))))))))).

Lemma sinc_R : forall x : R,
  sinc_pade x = 10 * pnum (Rabs x) * (Rabs x - 1) * (Rabs x - 2) * (Rabs x - 3) / pden (Rabs x).
Proof.
  intros x0. set (x := Rabs x0).
  change (sinc_pade x0) with
    (((-166666666666666) / 1000000000000000 + x * ((-289176685343373) / 1000000000000000 + x * ((-109757669089546) / 1000000000000000 + x * (350931080575596 / 10000000000000000 + x * (229947584643336 / 10000000000000000 + x * ((-89363958201935) / 100000000000000000 + x * ((-162722192965722) / 100000000000000000 + x * ((-300689146075626) / 10000000000000000000 + x * (513864469774294 / 10000000000000000000 + x * (123561563382214 / 100000000000000000000 + x * ((-637392253619041) / 1000000000000000000000))))))))))) * (x - 1) * (x - 2) * (x - 3) /
     (1 + x * ((-982732212730775) / 10000000000000000 + x * (122536542608403 / 1000000000000000 + x * ((-111525324680647) / 10000000000000000 + x * (724707512833019 / 100000000000000000 + x * ((-584774445653404) / 1000000000000000000 + x * (262528048296579 / 1000000000000000000 + x * ((-171596576734417) / 10000000000000000000 + x * (591945411660804 / 100000000000000000000 + x * ((-244174818579491) / 1000000000000000000000 + x * (674473938075399 / 10000000000000000000000)))))))))))).
  match goal with |- ?a * _ * _ * _ / ?b = _ => set (A := a); set (B := b) end.
  assert (EA : A = pnum x / 10 ^ 21) by (unfold A, pnum; field).
  assert (EB : B = pden x / 10 ^ 22) by (unfold B, pden; field).
  rewrite EA, EB. unfold Rdiv. rewrite Rinv_mult, Rinv_inv.
  replace (10 ^ 22) with (10 * 10 ^ 21) by ring.
  assert (10 ^ 21 <> 0) by (apply pow_nonzero; lra).
  generalize (/ pden x). intros q. field; try assumption.
Qed.

Lemma quad_pos : forall a b c x, 0 < a -> b * b < 4 * a * c -> 0 < a + b * x + c * (x * x).
Proof.
  intros a b c x Ha Hd.
  assert (E : 4 * a * (a + b * x + c * (x * x)) = (2 * a + b * x) ^ 2 + (4 * a * c - b * b) * (x * x)) by ring.
  assert (0 < 4 * a * (a + b * x + c * (x * x))).
  { rewrite E. destruct (Req_dec x 0) as [->|Hx].
    - replace ((2 * a + b * 0) ^ 2 + (4 * a * c - b * b) * (0 * 0)) with ((2 * a) * (2 * a)) by ring.
      apply Rmult_lt_0_compat; lra.
    - assert (0 < x * x) by (apply Rsqr_pos_lt in Hx; exact Hx).
      assert (0 < (4 * a * c - b * b) * (x * x)) by (apply Rmult_lt_0_compat; lra).
      assert (0 <= (2 * a + b * x) ^ 2) by apply pow2_ge_0. lra. }
  apply (Rmult_lt_reg_l (4 * a)); lra.
Qed.

Lemma pden_pos : forall x, 0 < pden x.
Proof.
  intros x.
  pose proof (quad_pos 10000000000000000000000 (-982732212730775000000) 612682713042015000000 x ltac:(lra) ltac:(lra)) as Q0.
  pose proof (quad_pos 612682713042015000000 (-111525324680647000000) 36235375641650950000 x ltac:(lra) ltac:(lra)) as Q2.
  pose proof (quad_pos 36235375641650950000 (-5847744456534040000) 1312640241482895000 x ltac:(lra) ltac:(lra)) as Q4.
  pose proof (quad_pos 1312640241482895000 (-171596576734417000) 29597270583040200 x ltac:(lra) ltac:(lra)) as Q6.
  pose proof (quad_pos 29597270583040200 (-2441748185794910) 674473938075399 x ltac:(lra) ltac:(lra)) as Q8.
  replace (pden x) with (
    x ^ 0 * (10000000000000000000000 + (-982732212730775000000) * x + 612682713042015000000 * (x * x))
    + x ^ 2 * (612682713042015000000 + (-111525324680647000000) * x + 36235375641650950000 * (x * x))
    + x ^ 4 * (36235375641650950000 + (-5847744456534040000) * x + 1312640241482895000 * (x * x))
    + x ^ 6 * (1312640241482895000 + (-171596576734417000) * x + 29597270583040200 * (x * x))
    + x ^ 8 * (29597270583040200 + (-2441748185794910) * x + 674473938075399 * (x * x))) by (unfold pden; field).
  assert (E : forall k q, 0 < q -> 0 <= x ^ (2 * k) * q).
  { intros k q Hq. rewrite pow_mult. apply Rmult_le_pos; [apply pow_le, pow2_ge_0|lra]. }
  pose proof (E 1%nat _ Q2). pose proof (E 2%nat _ Q4). pose proof (E 3%nat _ Q6). pose proof (E 4%nat _ Q8).
  cbn [Nat.mul Nat.add] in *. rewrite pow_O, Rmult_1_l. lra.
Qed.

Lemma pnum_neg : forall x, 0 <= x <= 3 -> pnum x < 0.
Proof.
  intros x Hx. set (y := 3 - x). assert (Hy : 0 <= y) by (unfold y; lra).
  assert (E : 3 ^ 10 * pnum x = - (
    166666666666666000000 * (x ^ 0 * y ^ 10)
    + 2534196722696779000000 * (x ^ 1 * y ^ 9)
    + 16295589526076955000000 * (x ^ 2 * y ^ 8)
    + 58186120273977406800000 * (x ^ 3 * y ^ 7)
    + 127036284458605662000000 * (x ^ 4 * y ^ 6)
    + 175770561817054289250000 * (x ^ 5 * y ^ 5)
    + 154626516816523311630000 * (x ^ 6 * y ^ 4)
    + 84758178148481059426200 * (x ^ 7 * y ^ 3)
    + 27702739399597233505200 * (x ^ 8 * y ^ 2)
    + 4898359116855981220180 * (x ^ 9 * y ^ 1)
    + 357256586779638313189 * (x ^ 10 * y ^ 0))).
  { unfold y, pnum. ring. }
  assert (P : forall i j, 0 <= x ^ i * y ^ j).
  { intros i j. apply Rmult_le_pos; apply pow_le; lra. }
  pose proof (P 0%nat 10%nat).
  pose proof (P 1%nat 9%nat).
  pose proof (P 2%nat 8%nat).
  pose proof (P 3%nat 7%nat).
  pose proof (P 4%nat 6%nat).
  pose proof (P 5%nat 5%nat).
  pose proof (P 6%nat 4%nat).
  pose proof (P 7%nat 3%nat).
  pose proof (P 8%nat 2%nat).
  pose proof (P 9%nat 1%nat).
  pose proof (P 10%nat 0%nat).
  assert (S : 0 < x ^ 10 * y ^ 0 + x ^ 0 * y ^ 10).
  { rewrite !pow_O, Rmult_1_l, Rmult_1_r. destruct (Rlt_or_le 0 x) as [K|K].
    - pose proof (pow_lt x 10 K). pose proof (pow_le y 10 Hy). lra.
    - pose proof (pow_lt y 10 ltac:(unfold y; lra)). pose proof (pow_le x 10 ltac:(lra)). lra. }
  assert (0 < 3 ^ 10) by (apply pow_lt; lra).
  apply (Rmult_lt_reg_l (3 ^ 10)); [assumption|]. rewrite Rmult_0_r, E. lra.
Qed.

Lemma sinc_even : forall x : R, sinc_pade (- x) = sinc_pade x.
Proof. intros x. rewrite !sinc_R, Rabs_Ropp. reflexivity. Qed.

Lemma sinc_zeros : forall x : R, Rabs x <= 3 ->
  (sinc_pade x = 0 <-> Rabs x = 1 \/ Rabs x = 2 \/ Rabs x = 3).
Proof.
  intros x Hx. rewrite sinc_R. pose proof (pden_pos (Rabs x)) as Hd.
  pose proof (pnum_neg (Rabs x) (conj (Rabs_pos x) Hx)) as Hn. split.
  - intros H. apply Rmult_integral in H. destruct H as [H|H].
    + apply Rmult_integral in H. destruct H as [H|H]; [|lra].
      apply Rmult_integral in H. destruct H as [H|H]; [|lra].
      apply Rmult_integral in H. destruct H as [H|H]; lra.
    + apply Rinv_neq_0_compat in H; [contradiction|lra].
  - intros [-> | [-> | ->]]; unfold Rdiv; ring.
Qed.

(** [-0.166666666666666 * (-1) * (-2) * (-3)]. *)
Definition s0 : R := 999999999999996 / 10 ^ 15.

Lemma sinc_at_0 : sinc_pade (0 : R) = s0.
Proof. rewrite sinc_R, Rabs_R0. unfold pnum, pden, s0. field. Qed.

Lemma sinc_int : forall k : Z, (Z.abs k <= 3)%Z -> sinc_pade (IZR k) = if Z.eq_dec k 0 then s0 else 0.
Proof.
  intros k Hk. destruct (Z.eq_dec k 0) as [->|Hn].
  - apply sinc_at_0.
  - apply sinc_zeros; rewrite <- abs_IZR.
    + apply (IZR_le _ 3). assumption.
    + assert (Z.abs k = 1 \/ Z.abs k = 2 \/ Z.abs k = 3)%Z as [-> | [-> | ->]] by lia; tauto.
Qed.

(** Sign: within one pixel the approximant is positive. *)
Lemma sinc_pos : forall x : R, Rabs x < 1 -> 0 < sinc_pade x.
Proof.
  intros x Hx. rewrite sinc_R. pose proof (pden_pos (Rabs x)) as Hd. pose proof (Rabs_pos x) as H0.
  pose proof (pnum_neg (Rabs x) ltac:(lra)) as Hn.
  apply Rdiv_lt_0_compat; [|assumption].
  replace (10 * pnum (Rabs x) * (Rabs x - 1) * (Rabs x - 2) * (Rabs x - 3))
    with ((10 * - pnum (Rabs x)) * ((1 - Rabs x) * ((2 - Rabs x) * (3 - Rabs x)))) by ring.
  repeat apply Rmult_lt_0_compat; lra.
Qed.

(** ** Sums *)

Lemma fold_rsum : forall (B : Type) (f : B -> R) (l : list B) (v : R),
  fold_left (fun v b => v + f b) l v = v + rsum (map f l).
Proof.
  intros B f l. induction l as [|b l IH]; intros v; cbn; [ring|]. rewrite IH. ring.
Qed.

Lemma rsum_app : forall l m, rsum (l ++ m) = rsum l + rsum m.
Proof. intros l m. induction l as [|x l IH]; cbn; [ring|]. rewrite IH. ring. Qed.

Lemma rsum_perm : forall l m, Permutation l m -> rsum l = rsum m.
Proof. intros l m H. induction H; cbn; try lra. Qed.

Lemma rsum_linear : forall (B : Type) (f g : B -> R) (al be : R) (l : list B),
  rsum (map (fun b => al * f b + be * g b) l) = al * rsum (map f l) + be * rsum (map g l).
Proof. intros B f g al be l. induction l as [|b l IH]; cbn; [ring|]. rewrite IH. ring. Qed.

Lemma rsum_zero : forall (B : Type) (f : B -> R) (l : list B),
  (forall b, In b l -> f b = 0) -> rsum (map f l) = 0.
Proof.
  intros B f l. induction l as [|b l IH]; intros H; cbn; [ring|].
  rewrite (H b ltac:(left; reflexivity)), IH; [ring|]. intros b' Hb. apply H. right. assumption.
Qed.

Lemma rsum_single : forall (B : Type) (f : B -> R) (l : list B) (b : B),
  NoDup l -> In b l -> (forall b', In b' l -> b' <> b -> f b' = 0) -> rsum (map f l) = f b.
Proof.
  intros B f l b Hn Hin Hz. apply in_split in Hin. destruct Hin as (l1 & l2 & ->).
  rewrite map_app, rsum_app. cbn. apply NoDup_remove_2 in Hn.
  rewrite !rsum_zero; [ring| |]; intros b' Hb'; apply Hz.
  - apply in_or_app. right. right. assumption.
  - intros ->. apply Hn, in_or_app. tauto.
  - apply in_or_app. left. assumption.
  - intros ->. apply Hn, in_or_app. tauto.
Qed.

Lemma window_floor : forall a t i, in_window a t i <-> (Zfloor t - a + 1 <= i <= Zfloor t + a)%Z.
Proof.
  intros a t i. unfold in_window. pose proof (Zfloor_lb t). pose proof (Zfloor_ub t). split.
  - intros [H1 H2]. split.
    + assert (Zfloor t - a < i)%Z; [|lia]. apply lt_IZR. rewrite minus_IZR. lra.
    + assert (i - a <= Zfloor t)%Z; [|lia]. apply Zfloor_lub. rewrite minus_IZR. lra.
  - intros [H1 H2]. split.
    + assert (IZR (Zfloor t - a + 1) <= IZR i) by (apply IZR_le; lia).
      rewrite plus_IZR, minus_IZR in *. lra.
    + assert (IZR i <= IZR (Zfloor t + a)) by (apply IZR_le; lia). rewrite plus_IZR in *. lra.
Qed.

Lemma window_pix_spec : forall ny nx a (y x : R) r c,
  In (r, c) (window_pix ny nx (Zfloor y) (Zfloor x) a) <->
  (0 <= r < ny)%Z /\ (0 <= c < nx)%Z /\ in_window a y r /\ in_window a x c.
Proof. intros. rewrite In_window_pix, !window_floor. tauto. Qed.

Lemma window_sum_unique : forall nr nc a y x f S S',
  window_sum nr nc a y x f S -> window_sum nr nc a y x f S' -> S = S'.
Proof.
  intros nr nc a y x f S S' (ps & Hn & Hi & ->) (qs & Hn' & Hi' & ->).
  apply rsum_perm, Permutation_map, NoDup_Permutation; try assumption.
  intros [r c]. rewrite Hi, Hi'. tauto.
Qed.

Lemma point_value : forall (im : img R) a y x v e,
  lanczos_point im a y x = Ok (v, e) ->
  window_sum (nrows im) (ncols im) a y x
    (fun r c => px im r c * (lanczos_kernel a (x - IZR c) * lanczos_kernel a (y - IZR r))) v.
Proof.
  intros im a y x v e. rewrite point_sum. cbn [ffloor ROps]. intros H. inversion H; subst. clear H.
  exists (window_pix (nrows im) (ncols im) (Zfloor y) (Zfloor x) a). split; [apply NoDup_window_pix|].
  split; [intros; apply window_pix_spec|].
  change (@fzero R ROps) with 0. cbn [fadd ROps]. rewrite fold_rsum, Rplus_0_l. reflexivity.
Qed.

Lemma point_ok : forall (im : img R) a y x, exists v,
  lanczos_point im a y x = Ok (v, oob_flag (nrows im) (ncols im) (Zfloor y) (Zfloor x) a).
Proof. intros. rewrite point_sum. cbn [ffloor ROps]. eauto. Qed.

Lemma window_sum_ext : forall nr nc a y x f g S,
  (forall r c, (0 <= r < nr)%Z -> (0 <= c < nc)%Z -> in_window a y r -> in_window a x c -> f r c = g r c) ->
  window_sum nr nc a y x f S -> window_sum nr nc a y x g S.
Proof.
  intros nr nc a y x f g S H (ps & Hn & Hi & ->). exists ps. split; [assumption|]. split; [assumption|].
  f_equal. apply map_ext_in. intros [r c] Hin. apply Hi in Hin. apply H; tauto.
Qed.

Lemma window_sum_linear : forall nr nc a y x f g al be S T,
  window_sum nr nc a y x f S -> window_sum nr nc a y x g T ->
  window_sum nr nc a y x (fun r c => al * f r c + be * g r c) (al * S + be * T).
Proof.
  intros nr nc a y x f g al be S T HS HT.
  destruct HS as (ps & Hn & Hi & ->).
  assert (ET : T = rsum (map (fun p => g (fst p) (snd p)) ps)).
  { eapply window_sum_unique; [exact HT|]. exists ps. auto. }
  exists ps. split; [assumption|]. split; [assumption|]. rewrite ET.
  symmetry. apply (rsum_linear _ (fun p => f (fst p) (snd p)) (fun p => g (fst p) (snd p))).
Qed.

Lemma in_window_shift : forall a t i k, in_window a (t + IZR k) (i + k) <-> in_window a t i.
Proof. intros. unfold in_window. rewrite plus_IZR. lra. Qed.

Lemma window_sum_shift : forall nr nc nr' nc' a y x f g S i j,
  (forall r c, in_window a y r -> in_window a x c ->
     ((0 <= r < nr)%Z /\ (0 <= c < nc)%Z <-> (0 <= r + i < nr')%Z /\ (0 <= c + j < nc')%Z)) ->
  (forall r c, in_window a y r -> in_window a x c -> g (r + i)%Z (c + j)%Z = f r c) ->
  window_sum nr nc a y x f S ->
  window_sum nr' nc' a (y + IZR i) (x + IZR j) g S.
Proof.
  intros nr nc nr' nc' a y x f g S i j Hb Hg (ps & Hn & Hi & ->).
  exists (map (fun p => (fst p + i, snd p + j)%Z) ps). split; [|split].
  - apply FinFun.Injective_map_NoDup; [|assumption].
    intros [r c] [r' c'] E. inversion E. f_equal; lia.
  - intros r c. rewrite in_map_iff. split.
    + intros ([r' c'] & E & Hin). inversion E; subst. clear E. cbn [fst snd]. apply Hi in Hin.
      destruct Hin as (H1 & H2 & H3 & H4). rewrite !in_window_shift.
      pose proof (proj1 (Hb r' c' H3 H4) (conj H1 H2)). tauto.
    + intros (H1 & H2 & H3 & H4). exists (r - i, c - j)%Z. cbn [fst snd].
      split; [f_equal; lia|]. apply Hi.
      replace r with ((r - i) + i)%Z in H1, H3 by lia. replace c with ((c - j) + j)%Z in H2, H4 by lia.
      apply in_window_shift in H3. apply in_window_shift in H4.
      pose proof (proj2 (Hb _ _ H3 H4) (conj H1 H2)). tauto.
  - f_equal. rewrite map_map. apply map_ext_in. intros [r c] Hin. cbn [fst snd]. apply Hi in Hin.
    symmetry. apply Hg; tauto.
Qed.

(** ** Integer positions *)

Lemma kernel_int : forall a k : Z, (1 <= a <= 3)%Z -> (Z.abs k <= a)%Z ->
  lanczos_kernel a (IZR k : R) = if Z.eq_dec k 0 then s0 * s0 else 0.
Proof.
  intros a k Ha Hk. unfold lanczos_kernel. cbn [fmul fdiv fofZ ROps].
  rewrite sinc_int by lia. destruct (Z.eq_dec k 0) as [->|Hn]; [|ring].
  replace (0 / IZR a) with 0 by (unfold Rdiv; ring). rewrite sinc_at_0. reflexivity.
Qed.

Lemma point_integer : forall (im : img R) a (r c : Z) v e,
  (1 <= a <= 3)%Z -> lanczos_point im a (IZR r) (IZR c) = Ok (v, e) ->
  (inb im r c -> v = px im r c * s0 ^ 4) /\ (~ inb im r c -> v = 0).
Proof.
  intros im a r c v e Ha H. apply point_value in H. destruct H as (ps & Hn & Hi & ->).
  assert (Hw : forall r' c', In (r', c') ps -> (Z.abs (r - r') <= a)%Z /\ (Z.abs (c - c') <= a)%Z).
  { intros r' c' Hin. apply Hi in Hin. rewrite !window_floor, !Zfloor_IZR in Hin. lia. }
  assert (Hz : forall p, In p ps -> p <> (r, c) ->
     px im (fst p) (snd p) * (lanczos_kernel a (IZR c - IZR (snd p)) * lanczos_kernel a (IZR r - IZR (fst p))) = 0).
  { intros [r' c'] Hin Hne. destruct (Hw _ _ Hin) as [W1 W2]. cbn [fst snd]. rewrite <- !minus_IZR.
    rewrite !kernel_int by assumption.
    destruct (Z.eq_dec (c - c') 0) as [E1|E1]; [|ring].
    destruct (Z.eq_dec (r - r') 0) as [E2|E2]; [|ring].
    exfalso. apply Hne. f_equal; lia. }
  split.
  - intros Hb. rewrite (rsum_single _ _ ps (r, c)); [|assumption| |exact Hz].
    + cbn [fst snd]. rewrite <- !minus_IZR, !Z.sub_diag, !kernel_int by lia. cbn. ring.
    + apply Hi. rewrite !window_floor, !Zfloor_IZR. unfold inb in Hb. lia.
  - intros Hb. apply rsum_zero. intros p Hin. apply Hz; [assumption|]. intros ->.
    apply Hb. apply Hi in Hin. unfold inb. tauto.
Qed.

(** ** The edge flag *)

Lemma oob_iff : forall ny nx fy fx a, (1 <= ny)%Z -> (1 <= nx)%Z -> (1 <= a)%Z ->
  (oob_flag ny nx fy fx a = true <-> forall r c, ~ In (r, c) (window_pix ny nx fy fx a)).
Proof.
  intros ny nx fy fx a Hy Hx Ha. unfold oob_flag. rewrite !orb_true_iff, !Z.ltb_lt, !Z.gtb_lt. split.
  - intros H r c Hin. apply In_window_pix in Hin. lia.
  - intros H.
    destruct (Z_lt_dec (fx + a) 0) as [|N1]; [tauto|].
    destruct (Z_lt_dec (nx - 1) (fx - a + 1)) as [|N2]; [tauto|].
    destruct (Z_lt_dec (fy + a) 0) as [|N3]; [tauto|].
    destruct (Z_lt_dec (ny - 1) (fy - a + 1)) as [|N4]; [tauto|].
    exfalso. apply (H (Z.max 0 (fy - a + 1)) (Z.max 0 (fx - a + 1)))%Z.
    apply In_window_pix. lia.
Qed.

Lemma oob_zero : forall (F : Type) (FO : FloatOps F) (im : img F) a y x v,
  (1 <= nrows im)%Z -> (1 <= ncols im)%Z -> (1 <= a)%Z ->
  lanczos_point im a y x = Ok (v, true) -> v = fzero.
Proof.
  intros F FO im a y x v Hr Hc Ha. rewrite point_sum.
  destruct (ffloor x) as [fx|]; [|discriminate]. destruct (ffloor y) as [fy|]; [|discriminate].
  intros H. inversion H as [[H1 H2]]. clear H. rewrite (oob_iff _ _ _ _ _ Hr Hc Ha) in H2.
  destruct (window_pix (nrows im) (ncols im) fy fx a) as [|[r c] ps] eqn:E; [reflexivity|].
  exfalso. apply (H2 r c). left. reflexivity.
Qed.
