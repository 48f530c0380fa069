From Coq Require Import ZArith List Bool Reals Lra Lia ZifyBool SpecFloat.
From Flocq Require Import Core BinarySingleNaN.
From Verif Require Import Lib.Base Lib.Floats Model.Locate Spec.LocateSpec
  Proofs.BaseFacts Proofs.F64Facts.
Import ListNotations.
Open Scope Z_scope.

Notation build := (build_slice_locations (F := f64)).

(** *** The divisibility test *)

Lemma nobj_is c a :
  0 < c <= 2 ^ 51 -> Z.abs a < 2 ^ 53 ->
  f64_is (SFdiv 53 1024 (f64_ofZ a) (f64_ofZ c)) (rnd (IZR a / IZR c)).
Proof.
  intros Hc Ha. apply f64_div_is.
  - apply f64_ofZ_is. lia.
  - apply f64_ofZ_is. lia.
  - apply IZR_neq. lia.
  - assert (0 < IZR c)%R by (apply IZR_lt; lia).
    assert (1 <= IZR c)%R by (apply IZR_le; lia).
    unfold Rdiv. rewrite Rabs_mult, (Rabs_pos_eq (/ IZR c))
      by (apply Rlt_le, Rinv_0_lt_compat; assumption).
    apply Rle_trans with (Rabs (IZR a) * 1)%R.
    + apply Rmult_le_compat_l; [apply Rabs_pos|].
      rewrite <- Rinv_1. apply Rinv_le; lra.
    + rewrite Rmult_1_r, <- abs_IZR. change (bpow radix2 60) with (IZR (2 ^ 60)).
      apply IZR_le. lia.
Qed.

Lemma nobj_bound c a :
  0 < c -> Z.abs a < 2 ^ 53 -> (Rabs (rnd (IZR a / IZR c)) <= IZR (2 ^ 53))%R.
Proof.
  intros Hc Ha.
  apply abs_round_le_generic; [apply fexp_correct; reflexivity | typeclasses eauto | | ].
  - apply int_format. cbn. lia.
  - assert (1 <= IZR c)%R by (apply IZR_le; lia).
    unfold Rdiv. rewrite Rabs_mult, (Rabs_pos_eq (/ IZR c))
      by (apply Rlt_le, Rinv_0_lt_compat; lra).
    apply Rle_trans with (Rabs (IZR a) * 1)%R.
    + apply Rmult_le_compat_l; [apply Rabs_pos|].
      rewrite <- Rinv_1. apply Rinv_le; lra.
    + rewrite Rmult_1_r, <- abs_IZR. apply IZR_le. lia.
Qed.

Lemma trunc_bound v : (Rabs v <= IZR (2 ^ 53))%R -> Z.abs (Ztrunc v) <= 2 ^ 53.
Proof.
  intros H. apply le_IZR. rewrite <- Ztrunc_abs.
  rewrite Ztrunc_floor by apply Rabs_pos.
  apply Rle_trans with (2 := H). apply Zfloor_lb.
Qed.

Lemma divides_test c a :
  0 < c <= 2 ^ 51 -> Z.abs a < 2 ^ 53 ->
  let nobj := SFdiv 53 1024 (f64_ofZ a) (f64_ofZ c) in
  exists n, f64_trunc nobj = Some n /\
    (SFeqb (f64_ofZ n) nobj = true <-> a = n * c) /\
    ((c | a) -> a = n * c).
Proof.
  intros Hc Ha nobj. pose proof (nobj_is c a Hc Ha) as Hn. fold nobj in Hn.
  exists (Ztrunc (rnd (IZR a / IZR c))).
  split; [exact (f64_trunc_is _ _ Hn)|].
  assert (Hb : Z.abs (Ztrunc (rnd (IZR a / IZR c))) <= 2 ^ 53).
  { apply trunc_bound, nobj_bound; lia. }
  assert (Hdiv : forall k, a = k * c -> rnd (IZR a / IZR c) = IZR k).
  { intros k ->. rewrite mult_IZR. replace (IZR k * IZR c / IZR c)%R with (IZR k).
    - apply rnd_id, int_format. nia.
    - field. apply IZR_neq. lia. }
  split.
  - rewrite (f64_eqb_is _ _ _ _ (f64_ofZ_is _ Hb) Hn). split.
    + intros E. eapply rnd_quotient_integer; [assumption|lia|symmetry; exact E].
    + intros E. symmetry. now apply Hdiv.
  - intros [k Hk]. rewrite (Hdiv k Hk) at 1. rewrite Ztrunc_IZR. assumption.
Qed.

(** *** Exactness of the location arithmetic *)

Lemma half_is_sum x y a b :
  f64_is x (IZR a / 2) -> f64_is y (IZR b / 2) -> Z.abs (a + b) <= 2 ^ 53 ->
  f64_is (SFadd 53 1024 x y) (IZR (a + b) / 2).
Proof.
  intros Hx Hy Hb.
  replace (IZR (a + b) / 2)%R with (rnd (IZR a / 2 + IZR b / 2)).
  - apply f64_add_is; [assumption..|].
    replace (IZR a / 2 + IZR b / 2)%R with (IZR (a + b) / 2)%R by (rewrite plus_IZR; field).
    unfold Rdiv. rewrite Rabs_mult, (Rabs_pos_eq (/ 2)) by lra. rewrite <- abs_IZR.
    assert (IZR (Z.abs (a + b)) <= IZR (2 ^ 53))%R by (apply IZR_le; lia).
    assert (0 <= IZR (Z.abs (a + b)))%R by (apply IZR_le; lia).
    change (bpow radix2 60) with (IZR (2 ^ 60)).
    assert (IZR (2 ^ 53) <= IZR (2 ^ 60))%R by (apply IZR_le; lia). lra.
  - replace (IZR a / 2 + IZR b / 2)%R with (IZR (a + b) / 2)%R by (rewrite plus_IZR; field).
    apply rnd_id. now apply half_format.
Qed.

Lemma half_is_diff x y a b :
  f64_is x (IZR a / 2) -> f64_is y (IZR b / 2) -> Z.abs (a - b) <= 2 ^ 53 ->
  f64_is (SFsub 53 1024 x y) (IZR (a - b) / 2).
Proof.
  intros Hx Hy Hb.
  replace (IZR (a - b) / 2)%R with (rnd (IZR a / 2 - IZR b / 2)).
  - apply f64_sub_is; [assumption..|].
    replace (IZR a / 2 - IZR b / 2)%R with (IZR (a - b) / 2)%R by (rewrite minus_IZR; field).
    unfold Rdiv. rewrite Rabs_mult, (Rabs_pos_eq (/ 2)) by lra. rewrite <- abs_IZR.
    assert (IZR (Z.abs (a - b)) <= IZR (2 ^ 53))%R by (apply IZR_le; lia).
    assert (0 <= IZR (Z.abs (a - b)))%R by (apply IZR_le; lia).
    change (bpow radix2 60) with (IZR (2 ^ 60)).
    assert (IZR (2 ^ 53) <= IZR (2 ^ 60))%R by (apply IZR_le; lia). lra.
  - replace (IZR a / 2 - IZR b / 2)%R with (IZR (a - b) / 2)%R by (rewrite minus_IZR; field).
    apply rnd_id. now apply half_format.
Qed.

Lemma ofZ_is_half n : Z.abs n <= 2 ^ 53 -> f64_is (f64_ofZ n) (IZR (2 * n) / 2).
Proof.
  intros H. replace (IZR (2 * n) / 2)%R with (IZR n) by (rewrite mult_IZR; field).
  now apply f64_ofZ_is.
Qed.

Lemma cen_offset_is c :
  0 < c <= 2 ^ 51 ->
  f64_is (SFdiv 53 1024 (f64_ofZ (c - 1)) (f64_ofZ 2)) (IZR (c - 1) / 2).
Proof.
  intros Hc. rewrite <- (rnd_id (IZR (c - 1) / 2)) by (apply half_format; lia).
  apply f64_div_is.
  - apply f64_ofZ_is. lia.
  - apply f64_ofZ_is. cbn. lia.
  - lra.
  - unfold Rdiv. rewrite Rabs_mult, (Rabs_pos_eq (/ 2)) by lra. rewrite <- abs_IZR.
    assert (IZR (Z.abs (c - 1)) <= IZR (2 ^ 53))%R by (apply IZR_le; lia).
    assert (0 <= IZR (Z.abs (c - 1)))%R by (apply IZR_le; lia).
    change (bpow radix2 60) with (IZR (2 ^ 60)).
    assert (IZR (2 ^ 53) <= IZR (2 ^ 60))%R by (apply IZR_le; lia). lra.
Qed.

Definition loc_f (c b k : Z) : f64 :=
  SFadd 53 1024 (f64_ofZ (k * c + b)) (SFdiv 53 1024 (f64_ofZ (c - 1)) (f64_ofZ 2)).
Definition start_f (c b : Z) (v : f64) : f64 :=
  SFsub 53 1024 (SFsub 53 1024 v (f64_ofZ b)) (SFdiv 53 1024 (f64_ofZ (c - 1)) (f64_ofZ 2)).

Lemma loc_f_is c b n k :
  0 < c <= 2 ^ 51 -> 0 <= b <= 2 ^ 51 -> 0 <= k < n -> n * c <= 2 ^ 51 ->
  f64_is (loc_f c b k) (IZR (2 * (k * c + b) + (c - 1)) / 2).
Proof.
  intros Hc Hb Hk Hn. unfold loc_f. apply half_is_sum.
  - apply ofZ_is_half. nia.
  - now apply cen_offset_is.
  - nia.
Qed.

Lemma start_f_is c b n k :
  0 < c <= 2 ^ 51 -> 0 <= b <= 2 ^ 51 -> 0 <= k < n -> n * c <= 2 ^ 51 ->
  f64_is (start_f c b (loc_f c b k)) (IZR (k * c)).
Proof.
  intros Hc Hb Hk Hn. unfold start_f.
  replace (IZR (k * c)) with (IZR ((2 * (k * c + b) + (c - 1) - 2 * b) - (c - 1)) / 2)%R.
  - apply half_is_diff.
    + apply half_is_diff.
      * eapply loc_f_is; eassumption.
      * apply ofZ_is_half. lia.
      * nia.
    + now apply cen_offset_is.
    + nia.
  - replace (2 * (k * c + b) + (c - 1) - 2 * b - (c - 1)) with (2 * (k * c)) by ring.
    rewrite mult_IZR. field.
Qed.

(** *** Shape of the result *)

Lemma meshgrid_rows {A} (f : Z -> A) n :
  flat_map (fun l => map (fun _ => l) (map f (zrange 0 n))) (map f (zrange 0 n))
  = map (fun p => f (fst p)) (allpix n n).
Proof.
  unfold allpix. rewrite flat_map_concat_map, map_map, <- flat_map_concat_map.
  rewrite <- (map_id (zrange 0 n)) at 1. generalize (zrange 0 n) at 2 4. intros l.
  rewrite map_id. induction l as [|x l IH]; cbn; [reflexivity|].
  rewrite map_app, IH. f_equal. now rewrite !map_map.
Qed.

Lemma meshgrid_cols {A} (f : Z -> A) n :
  flat_map (fun _ => map f (zrange 0 n)) (map f (zrange 0 n))
  = map (fun p => f (snd p)) (allpix n n).
Proof.
  unfold allpix. rewrite flat_map_concat_map, map_map, <- flat_map_concat_map.
  rewrite <- (map_id (zrange 0 n)) at 2. generalize (zrange 0 n) at 2 4. intros l.
  induction l as [|x l IH]; cbn; [reflexivity|].
  rewrite map_app. rewrite <- IH. f_equal. now rewrite !map_map.
Qed.

Definition starts_of (c n : Z) : list (Z * Z) :=
  map (fun p => (fst p * c, snd p * c)) (allpix n n).

Lemma build_cases c b W :
  0 < c <= 2 ^ 51 -> 0 <= b <= 2 ^ 51 -> 0 <= W <= 2 ^ 51 ->
  (~ (c | W - 2 * b) /\ build c b W = Raise ValueError) \/
  (exists n, W - 2 * b = n * c /\
     build c b W = Ok (map (fun p => loc_f c b (fst p)) (allpix n n),
                       map (fun p => loc_f c b (snd p)) (allpix n n),
                       map (fun p => start_f c b (loc_f c b (fst p))) (allpix n n),
                       map (fun p => start_f c b (loc_f c b (snd p))) (allpix n n))).
Proof.
  intros Hc Hb HW. unfold build_slice_locations.
  replace (c =? 0) with false by lia. cbn [fofZ fdiv ftrunc feqb F64Ops].
  destruct (divides_test c (W - 2 * b)) as (n & Ht & Heq & Hdiv); [lia..|].
  rewrite Ht. destruct (SFeqb (f64_ofZ n) _) eqn:E; cbn [negb].
  - right. exists n. split; [now apply Heq|].
    rewrite meshgrid_rows, meshgrid_cols, !map_map. reflexivity.
  - left. split; [|reflexivity]. intros Hd. apply Hdiv in Hd.
    rewrite <- Heq in Hd. congruence.
Qed.

(** *** Tiling by Euclidean division *)

Lemma length_starts c n : length (starts_of c n) = (Z.to_nat n * Z.to_nat n)%nat.
Proof. unfold starts_of. now rewrite map_length, allpix_length. Qed.

Lemma allpix_nth_error n m i :
  (i < Z.to_nat n * Z.to_nat m)%nat ->
  nth_error (allpix n m) i = Some (Z.of_nat i / m, Z.of_nat i mod m).
Proof.
  unfold allpix. intros Hi.
  assert (Hm : 0 < m) by nia. assert (Hn : 0 < n) by nia.
  assert (G : forall k a, (i < k * Z.to_nat m)%nat ->
    nth_error (flat_map (fun r => map (fun c => (r, c)) (zrange 0 m))
      (map (fun j => a + Z.of_nat j) (seq 0 k))) i =
      Some (a + Z.of_nat i / m, Z.of_nat i mod m)).
  { clear Hi. revert i. intros i k. revert i.
    induction k as [|k IH]; intros i a Hi; [lia|].
    cbn [seq map flat_map].
    destruct (Nat.lt_ge_cases i (Z.to_nat m)) as [Hlt|Hge].
    - rewrite nth_error_app1 by (rewrite map_length, zrange_length; lia).
      rewrite nth_error_map, nth_error_zrange by lia. cbn.
      rewrite Z.div_small, Z.mod_small by lia. reflexivity.
    - rewrite nth_error_app2 by (rewrite map_length, zrange_length; lia).
      rewrite map_length, zrange_length.
      rewrite <- seq_shift, map_map.
      rewrite (map_ext _ (fun j => (a + 1) + Z.of_nat j)) by (intros; lia).
      rewrite IH by lia.
      replace (Z.of_nat (i - Z.to_nat (m - 0))) with (Z.of_nat i + (-1) * m) by lia.
      rewrite Z.div_add, Z_mod_plus_full by lia. f_equal. f_equal. lia. }
  change (zrange 0 n) with (map (fun j => 0 + Z.of_nat j) (seq 0 (Z.to_nat (n - 0)))).
  rewrite G by (rewrite Z.sub_0_r; assumption). f_equal.
Qed.

Lemma nth_starts c n i d :
  (i < length (starts_of c n))%nat ->
  nth i (starts_of c n) d = ((Z.of_nat i / n) * c, (Z.of_nat i mod n) * c).
Proof.
  intros Hi. rewrite length_starts in Hi.
  apply nth_error_nth. unfold starts_of.
  rewrite nth_error_map, allpix_nth_error by assumption. reflexivity.
Qed.

Lemma tiling c b W n :
  0 < c -> W - 2 * b = n * c -> tiles_exactly c b W (starts_of c n).
Proof.
  intros Hc HW. split.
  - intros r q Hr Hq.
    assert (Hn : 0 < n) by nia.
    set (i := (r - b) / c). set (j := (q - b) / c).
    assert (Hi : 0 <= i < n).
    { unfold i. split; [apply Z.div_pos; lia|]. apply Z.div_lt_upper_bound; nia. }
    assert (Hj : 0 <= j < n).
    { unfold j. split; [apply Z.div_pos; lia|]. apply Z.div_lt_upper_bound; nia. }
    assert (Hr' : i * c <= r - b < i * c + c).
    { unfold i. pose proof (Z.div_mod (r - b) c). pose proof (Z.mod_pos_bound (r - b) c). nia. }
    assert (Hq' : j * c <= q - b < j * c + c).
    { unfold j. pose proof (Z.div_mod (q - b) c). pose proof (Z.mod_pos_bound (q - b) c). nia. }
    exists (Z.to_nat (i * n + j)).
    assert (Hlen : (Z.to_nat (i * n + j) < length (starts_of c n))%nat).
    { rewrite length_starts. rewrite <- Z2Nat.inj_mul by lia. apply Z2Nat.inj_lt; nia. }
    split.
    + split; [assumption|]. rewrite nth_starts by assumption.
      rewrite Z2Nat.id by nia.
      replace ((i * n + j) / n) with i
        by (rewrite Z.add_comm, Z.div_add, Z.div_small by lia; lia).
      replace ((i * n + j) mod n) with j
        by (rewrite Z.add_comm, Z_mod_plus_full, Z.mod_small by lia; lia).
      unfold in_central. cbn. lia.
    + intros k [Hk Hin]. rewrite nth_starts in Hin by assumption.
      unfold in_central in Hin. cbn in Hin.
      set (ki := Z.of_nat k / n) in *. set (kj := Z.of_nat k mod n) in *.
      assert (ki = i) by nia. assert (kj = j) by nia.
      pose proof (Z.div_mod (Z.of_nat k) n). nia.
  - intros i r q Hi Hin. rewrite nth_starts in Hin by assumption.
    rewrite length_starts in Hi.
    assert (Hn : 0 < n) by nia.
    unfold in_central in Hin. cbn in Hin.
    assert (0 <= Z.of_nat i / n < n).
    { split; [apply Z.div_pos; lia|]. apply Z.div_lt_upper_bound; nia. }
    pose proof (Z.mod_pos_bound (Z.of_nat i) n). nia.
Qed.

Lemma row_major_starts c n : 0 < c -> row_major (starts_of c n).
Proof.
  intros Hc i j [Hij Hj]. rewrite !nth_starts by lia.
  rewrite length_starts in Hj. assert (Hn : 0 < n) by nia. cbn.
  pose proof (Z.div_mod (Z.of_nat i) n). pose proof (Z.div_mod (Z.of_nat j) n).
  pose proof (Z.mod_pos_bound (Z.of_nat i) n). pose proof (Z.mod_pos_bound (Z.of_nat j) n).
  set (a := Z.of_nat i / n) in *. set (a' := Z.of_nat j / n) in *.
  set (m := Z.of_nat i mod n) in *. set (m' := Z.of_nat j mod n) in *.
  assert (a <= a') by (apply Z.div_le_mono; lia).
  destruct (Z.eq_dec a a') as [e|ne].
  - right. split; [now rewrite e|]. apply Z.mul_lt_mono_pos_r; [assumption|].
    rewrite <- e in *. lia.
  - left. apply Z.mul_lt_mono_pos_r; lia.
Qed.

Lemma stamps_inside c b W n :
  0 < c -> 0 <= b -> W - 2 * b = n * c ->
  forall i, (i < length (starts_of c n))%nat ->
    stamp_inside c b W (nth i (starts_of c n) (0, 0)).
Proof.
  intros Hc Hb HW i Hi. rewrite nth_starts by assumption. rewrite length_starts in Hi.
  assert (Hn : 0 < n) by nia.
  assert (0 <= Z.of_nat i / n < n).
  { split; [apply Z.div_pos; lia|]. apply Z.div_lt_upper_bound; nia. }
  pose proof (Z.mod_pos_bound (Z.of_nat i) n) as Hm.
  set (p := Z.of_nat i / n) in *. set (q := Z.of_nat i mod n) in *.
  assert (0 <= p * c /\ p * c + c <= n * c) by nia.
  assert (0 <= q * c /\ q * c + c <= n * c) by (specialize (Hm Hn); nia).
  unfold stamp_inside. cbn [fst snd]. lia.
Qed.

(** *** The assembled results *)

Lemma Forall2_map2 {A B C} (P : B -> C -> Prop) (f : A -> B) (g : A -> C) l :
  (forall x, In x l -> P (f x) (g x)) -> Forall2 P (map f l) (map g l).
Proof. induction l; cbn; intros Hall; constructor; auto. Qed.

Theorem build_ok c b W rows cols srows scols :
  0 < c <= 2 ^ 51 -> 0 <= b <= 2 ^ 51 -> 0 <= W <= 2 ^ 51 ->
  build c b W = Ok (rows, cols, srows, scols) ->
  exists starts,
    Forall2 f64_is srows (map (fun s => IZR (fst s)) starts) /\
    Forall2 f64_is scols (map (fun s => IZR (snd s)) starts) /\
    Forall2 f64_is rows (map (fun s => stamp_centre c b (fst s)) starts) /\
    Forall2 f64_is cols (map (fun s => stamp_centre c b (snd s)) starts) /\
    tiles_exactly c b W starts /\
    row_major starts /\
    (forall s, In s starts -> stamp_inside c b W s).
Proof.
  intros Hc Hb HW E.
  destruct (build_cases c b W Hc Hb HW) as [[_ E']|(n & Hn & E')]; [congruence|].
  rewrite E in E'. injection E' as -> -> -> ->.
  exists (starts_of c n).
  assert (Hcent : forall k, stamp_centre c b (k * c) = (IZR (2 * (k * c + b) + (c - 1)) / 2)%R).
  { intros k. unfold stamp_centre. rewrite <- plus_IZR. f_equal. f_equal. lia. }
  assert (Hnc : n * c <= 2 ^ 51) by lia.
  split; [|split; [|split; [|split; [|split; [|split]]]]].
  - unfold starts_of. rewrite map_map. apply Forall2_map2. intros [i j] Hin.
    apply In_allpix in Hin. cbn. apply (start_f_is c b n); lia.
  - unfold starts_of. rewrite map_map. apply Forall2_map2. intros [i j] Hin.
    apply In_allpix in Hin. cbn. apply (start_f_is c b n); lia.
  - unfold starts_of. rewrite map_map. apply Forall2_map2. intros [i j] Hin.
    apply In_allpix in Hin. cbn. rewrite Hcent. apply (loc_f_is c b n); lia.
  - unfold starts_of. rewrite map_map. apply Forall2_map2. intros [i j] Hin.
    apply In_allpix in Hin. cbn. rewrite Hcent. apply (loc_f_is c b n); lia.
  - apply tiling; lia.
  - apply row_major_starts. lia.
  - intros s Hin. apply In_nth with (d := (0, 0)) in Hin as (i & Hi & <-).
    apply stamps_inside; lia.
Qed.

Theorem build_raises c b W :
  0 < c <= 2 ^ 51 -> 0 <= b <= 2 ^ 51 -> 0 <= W <= 2 ^ 51 ->
  (build c b W = Raise ValueError <-> ~ (c | W - 2 * b)) /\
  ((c | W - 2 * b) -> exists r, build c b W = Ok r).
Proof.
  intros Hc Hb HW.
  destruct (build_cases c b W Hc Hb HW) as [[Hd E]|(n & Hn & E)]; rewrite E.
  - split; [tauto|]. tauto.
  - assert ((c | W - 2 * b)) by (exists n; assumption).
    split; [split; [discriminate|tauto]|]. eauto.
Qed.
