From Coq Require Import ZArith Bool String Ascii Lia List Sorting.Permutation Sorted.
From Verif Require Import Lib.Base Lib.PyStr Model.SliceRange Model.Jobs
  Proofs.BaseFacts Proofs.PyStrProofs.
From Verif Require Import Spec.RunSpec.
Import ListNotations.
Open Scope list_scope.
Open Scope Z_scope.

(** ** Slice ranges *)

Lemma range_list_In : forall r x, In x (range_list r) <->
  exists k, 0 <= k < range_len r /\ x = rg_start r + k * rg_step r.
Proof.
  intros r x. unfold range_list. rewrite in_map_iff. split.
  - intros (k & <- & Hk). apply In_zrange in Hk. eauto.
  - intros (k & Hk & ->). exists k. split; auto. apply In_zrange. auto.
Qed.

Lemma range_len_pos : forall r k, 0 < rg_step r ->
  (0 <= k < range_len r <-> 0 <= k /\ rg_start r + k * rg_step r < rg_stop r).
Proof.
  intros r k Hs. unfold range_len. rewrite (proj2 (Z.ltb_lt _ _) Hs).
  set (a := rg_start r). set (b := rg_stop r). set (s := rg_step r) in *.
  pose proof (Z.div_mod (b - a + s - 1) s ltac:(lia)) as D.
  pose proof (Z.mod_pos_bound (b - a + s - 1) s Hs) as M.
  set (q := (b - a + s - 1) / s) in *. set (m := (b - a + s - 1) mod s) in *.
  split.
  - intros [H1 H2]. split; [lia|]. assert (Hk : k <= q - 1) by lia.
    pose proof (Z.mul_le_mono_nonneg_r k (q - 1) s ltac:(lia) Hk). lia.
  - intros [H1 H2]. split; [lia|]. destruct (Z.lt_ge_cases k q) as [|G]; [lia|].
    pose proof (Z.mul_le_mono_nonneg_r q k s ltac:(lia) G). lia.
Qed.

Lemma range_len_neg : forall r k, rg_step r < 0 ->
  (0 <= k < range_len r <-> 0 <= k /\ rg_stop r < rg_start r + k * rg_step r).
Proof.
  intros r k Hs. unfold range_len. replace (0 <? rg_step r) with false by (symmetry; apply Z.ltb_ge; lia).
  set (a := rg_start r). set (b := rg_stop r). set (s := - rg_step r) in *.
  replace (rg_step r) with (- s) by lia.
  assert (Hs' : 0 < s) by lia.
  replace (a - b - - s - 1) with (a - b + s - 1) by lia.
  pose proof (Z.div_mod (a - b + s - 1) s ltac:(lia)) as D.
  pose proof (Z.mod_pos_bound (a - b + s - 1) s Hs') as M.
  set (q := (a - b + s - 1) / s) in *. set (m := (a - b + s - 1) mod s) in *.
  split.
  - intros [H1 H2]. split; [lia|]. assert (Hk : k <= q - 1) by lia.
    pose proof (Z.mul_le_mono_nonneg_r k (q - 1) s ltac:(lia) Hk). lia.
  - intros [H1 H2]. split; [lia|]. destruct (Z.lt_ge_cases k q) as [|G]; [lia|].
    pose proof (Z.mul_le_mono_nonneg_r q k s ltac:(lia) G). lia.
Qed.

Lemma range_list_sorted : forall r, 0 < rg_step r -> StronglySorted Z.lt (range_list r).
Proof.
  intros r Hs. unfold range_list, zrange. rewrite map_map.
  generalize 0%nat as m. generalize (Z.to_nat (range_len r - 0)) as n.
  induction n as [|n IH]; intros m; cbn [seq map]; constructor.
  - apply IH.
  - apply Forall_forall. intros y Hy. apply in_map_iff in Hy. destruct Hy as (k & <- & Hk).
    apply in_seq in Hk. nia.
Qed.

Lemma range_list_NoDup : forall r, rg_step r <> 0 -> NoDup (range_list r).
Proof.
  intros r Hs. unfold range_list. apply FinFun.Injective_map_NoDup; [|apply NoDup_zrange].
  intros x y H. nia.
Qed.

Lemma range_list_default : forall a b, range_list (mk_range a b 1) = zrange a b.
Proof.
  intros a b. unfold range_list, range_len. cbn [rg_start rg_stop rg_step].
  change (0 <? 1) with true. cbn iota. rewrite Z.div_1_r. unfold zrange. rewrite map_map.
  replace (Z.to_nat (Z.max 0 (b - a + 1 - 1) - 0)) with (Z.to_nat (b - a)) by lia.
  apply map_ext. intros k. lia.
Qed.

(** ** Chunks *)

Lemma chunk_size_spec : forall n nc, 0 <= n -> 1 <= nc -> exists nsub,
  chunk_size n nc = Ok nsub /\ n <= nsub * nc < n + nc /\ 0 <= nsub.
Proof.
  intros n nc Hn Hc. unfold chunk_size. destruct (Z.eqb_spec nc 0); [lia|].
  eexists. split; [reflexivity|].
  pose proof (Z.div_mod n nc ltac:(lia)). pose proof (Z.mod_pos_bound n nc ltac:(lia)).
  pose proof (Z.div_pos n nc Hn ltac:(lia)).
  destruct (Z.ltb_spec (n / nc * nc) n); nia.
Qed.

Lemma pynth_nonneg : forall (A : Type) (l : list A) i a,
  0 <= i -> nth_error l (Z.to_nat i) = Some a -> pynth l i = Ok a.
Proof.
  intros A l i a Hi H. unfold pynth, pyindex.
  assert (Z.to_nat i < length l)%nat by (apply nth_error_Some; congruence).
  destruct (Z.leb_spec 0 i); [|lia]. destruct (Z.ltb_spec i (Z.of_nat (length l))); [|lia].
  cbn [andb]. now rewrite H.
Qed.

Lemma pynth_in_range : forall (A : Type) (l : list A) i d, 0 <= i < Z.of_nat (length l) ->
  pynth l i = Ok (nth (Z.to_nat i) l d).
Proof.
  intros A l i d Hi. apply pynth_nonneg; [lia|].
  apply nth_error_nth'. lia.
Qed.

Lemma pynth_last : forall (A : Type) (l : list A) a, pynth (l ++ [a]) (-1) = Ok a.
Proof.
  intros A l a. unfold pynth, pyindex. rewrite app_length. cbn [length].
  destruct (Z.leb_spec 0 (-1)); [lia|]. cbn [andb].
  destruct (Z.leb_spec 0 (Z.of_nat (length l + 1) + -1)); [|lia].
  change (-1 <? 0) with true. cbn [andb].
  replace (Z.to_nat (Z.of_nat (length l + 1) + -1)) with (length l) by lia.
  rewrite nth_error_app2 by lia. rewrite Nat.sub_diag. reflexivity.
Qed.

(** Part of a list between two positions. *)
Definition sub {A} (l : list A) (a b : Z) : list A :=
  firstn (Z.to_nat (b - a)) (skipn (Z.to_nat a) l).

Lemma sub_snoc : forall (A : Type) (l : list A) a b x, 0 <= a <= b ->
  nth_error l (Z.to_nat b) = Some x -> sub l a (b + 1) = sub l a b ++ [x].
Proof.
  intros A l a b x H Hx. unfold sub.
  replace (Z.to_nat (b + 1 - a)) with (S (Z.to_nat (b - a))) by lia.
  assert (E : nth_error (skipn (Z.to_nat a) l) (Z.to_nat (b - a)) = Some x).
  { rewrite <- Hx. replace (Z.to_nat b) with (Z.to_nat a + Z.to_nat (b - a))%nat by lia.
    generalize (Z.to_nat (b - a)) as m. generalize (Z.to_nat a) as n. clear. intros n.
    revert l. induction n as [|n IH]; intros [|y l] m; cbn; auto.
    destruct m; reflexivity. }
  revert E. generalize (Z.to_nat (b - a)) as m. generalize (skipn (Z.to_nat a) l) as k. clear.
  intros k m. revert k. induction m as [|m IH]; intros [|y k] E; cbn in *; try discriminate.
  - congruence.
  - f_equal. apply IH. exact E.
Qed.

Lemma sub_past : forall (A : Type) (l : list A) a b, 0 <= a -> Z.of_nat (length l) <= b ->
  sub l a (b + 1) = sub l a b.
Proof.
  intros A l a b Ha H. unfold sub.
  rewrite !firstn_all2; auto; rewrite skipn_length; lia.
Qed.

Lemma sub_empty : forall (A : Type) (l : list A) a, sub l a a = [].
Proof. intros. unfold sub. now rewrite Z.sub_diag. Qed.

Lemma sub_app : forall (A : Type) (l : list A) a b c, 0 <= a <= b -> b <= c ->
  sub l a b ++ sub l b c = sub l a c.
Proof.
  intros A l a b c H1 H2. unfold sub.
  replace (Z.to_nat (c - a)) with (Z.to_nat (b - a) + Z.to_nat (c - b))%nat by lia.
  replace (Z.to_nat b) with (Z.to_nat (b - a) + Z.to_nat a)%nat by lia.
  assert (SK : forall m n (k : list A), skipn (m + n) k = skipn m (skipn n k)).
  { clear. intros m n. revert m. induction n as [|n IH]; intros m k.
    - now rewrite Nat.add_0_r.
    - rewrite Nat.add_succ_r. destruct k; cbn [skipn]; [now rewrite skipn_nil|apply IH]. }
  rewrite SK. clear SK.
  generalize (skipn (Z.to_nat a) l) as k. generalize (Z.to_nat (c - b)) as n.
  generalize (Z.to_nat (b - a)) as m. clear. intros m n k. revert k.
  induction m as [|m IH]; intros k; cbn [firstn skipn Nat.add app]; [reflexivity|].
  destruct k as [|x k]; cbn [app].
  - rewrite !firstn_nil. reflexivity.
  - now rewrite IH.
Qed.

Lemma sub_all : forall (A : Type) (l : list A) b, Z.of_nat (length l) <= b -> sub l 0 b = l.
Proof. intros A l b H. unfold sub. cbn [Z.to_nat skipn]. apply firstn_all2. lia. Qed.

Definition seed_of (seeds : list Z) (i : Z) : Z := nth (Z.to_nat i) seeds 0.

Lemma one_job_spec : forall slices seeds nsub w, 0 <= nsub -> 0 <= w ->
  (forall i, In i slices -> 0 <= i < Z.of_nat (length seeds)) ->
  one_job slices seeds nsub w =
  Ok (sub slices (w * nsub) (w * nsub + nsub),
      map (seed_of seeds) (sub slices (w * nsub) (w * nsub + nsub))).
Proof.
  intros slices seeds nsub w Hs Hw Hin. unfold one_job.
  assert (K : forall k r, k = nsub -> r = w * nsub ->
    fold_left (fun acc s =>
      ' (job, sds) <- acc ;;
      let loc := r + s in
      if loc <? Z.of_nat (length slices)
      then i <- pynth slices loc ;;
           let job := job ++ [i] in
           last <- pynth job (-1) ;;
           sd <- pynth seeds last ;;
           Ok (job, sds ++ [sd])
      else Ok (job, sds)) (zrange 0 k) (Ok ([], [])) =
    Ok (sub slices r (r + k), map (seed_of seeds) (sub slices r (r + k)))).
  2: { apply K; reflexivity. }
  intros k r -> Hr.
  apply (zrange_fold_ind (fun k acc =>
    acc = Ok (sub slices r (r + k), map (seed_of seeds) (sub slices r (r + k))))); auto.
  - rewrite Z.add_0_r, sub_empty. reflexivity.
  - intros i s Hi ->. cbn [bind]. cbn zeta.
    assert (0 <= r) by nia.
    replace (r + (i + 1)) with (r + i + 1) by lia.
    destruct (Z.ltb_spec (r + i) (Z.of_nat (length slices))) as [L|L].
    + destruct (nth_error slices (Z.to_nat (r + i))) as [x|] eqn:E.
      2: { apply nth_error_None in E. lia. }
      rewrite (pynth_nonneg _ _ _ x) by (auto; lia). cbn [bind].
      rewrite pynth_last. cbn [bind].
      assert (Hx : 0 <= x < Z.of_nat (length seeds)) by (apply Hin; eapply nth_error_In; eauto).
      rewrite (pynth_in_range _ _ _ 0) by auto. cbn [bind].
      rewrite (sub_snoc _ _ _ _ x) by (auto; lia).
      rewrite map_app. reflexivity.
    + rewrite sub_past by lia. reflexivity.
Qed.

Lemma combine_map_r : forall (A B : Type) (f : A -> B) l,
  combine l (map f l) = map (fun x => (x, f x)) l.
Proof. induction l; cbn; congruence. Qed.

(** The chunk of worker [w]. *)
Definition chunk_of (slices seeds : list Z) (nsub w : Z) : list (Z * Z) :=
  map (fun i => (i, seed_of seeds i)) (sub slices (w * nsub) (w * nsub + nsub)).

Lemma make_jobs_eq : forall slices seeds nc, 1 <= nc ->
  (forall i, In i slices -> 0 <= i < Z.of_nat (length seeds)) ->
  exists nsub, 0 <= nsub /\
    Z.of_nat (length slices) <= nsub * nc < Z.of_nat (length slices) + nc /\
    make_jobs slices seeds nc = Ok (map (chunk_of slices seeds nsub) (zrange 0 nc)).
Proof.
  intros slices seeds nc Hc Hin.
  destruct (chunk_size_spec (Z.of_nat (length slices)) nc ltac:(lia) Hc) as (nsub & E & H1 & H2).
  exists nsub. split; [auto|]. split; [auto|]. unfold make_jobs. rewrite E. cbn [bind].
  apply (zrange_fold_ind (fun k acc => acc = Ok (map (chunk_of slices seeds nsub) (zrange 0 k)))).
  - lia.
  - rewrite zrange_nil by lia. reflexivity.
  - intros i s Hi ->. cbn [bind]. rewrite one_job_spec by (auto; lia). cbn [bind].
    rewrite zrange_snoc by lia. rewrite map_app. cbn [map]. unfold chunk_of at 3.
    rewrite combine_map_r. reflexivity.
Qed.

Lemma concat_chunks : forall slices seeds nsub nc, 0 <= nsub -> 0 <= nc ->
  concat (map (chunk_of slices seeds nsub) (zrange 0 nc)) =
  map (fun i => (i, seed_of seeds i)) (sub slices 0 (nsub * nc)).
Proof.
  intros slices seeds nsub nc Hs Hc. revert nc Hc.
  apply (natlike_ind (fun nc => concat (map (chunk_of slices seeds nsub) (zrange 0 nc)) =
    map (fun i => (i, seed_of seeds i)) (sub slices 0 (nsub * nc)))).
  - rewrite zrange_nil by lia. rewrite Z.mul_0_r, sub_empty. reflexivity.
  - intros k Hk IH. replace (Z.succ k) with (k + 1) by lia. rewrite zrange_snoc by lia.
    rewrite map_app, concat_app, IH. cbn [map concat]. rewrite app_nil_r. unfold chunk_of.
    rewrite <- map_app. f_equal. rewrite (Z.mul_comm k nsub).
    replace (nsub * k + nsub) with (nsub * (k + 1)) by lia. apply sub_app; nia.
Qed.

Lemma make_jobs_spec : forall slices seeds nc, 1 <= nc ->
  (forall i, In i slices -> 0 <= i < Z.of_nat (length seeds)) ->
  exists chunks, make_jobs slices seeds nc = Ok chunks /\
    Z.of_nat (length chunks) = nc /\
    concat chunks = map (fun i => (i, seed_of seeds i)) slices /\
    forall c, In c chunks -> (Z.of_nat (length c) - 1) * nc < Z.of_nat (length slices).
Proof.
  intros slices seeds nc Hc Hin.
  destruct (make_jobs_eq slices seeds nc Hc Hin) as (nsub & H0 & H1 & E).
  eexists. split; [exact E|]. split; [|split].
  - rewrite map_length, zrange_length. lia.
  - rewrite concat_chunks by lia. now rewrite sub_all by lia.
  - intros c H. apply in_map_iff in H. destruct H as (w & <- & _). unfold chunk_of.
    rewrite map_length. unfold sub. rewrite firstn_length. nia.
Qed.

Lemma make_jobs_zero : forall slices seeds, make_jobs slices seeds 0 = Raise ZeroDivisionError.
Proof. reflexivity. Qed.

Lemma make_jobs_neg : forall slices seeds nc, nc < 0 -> make_jobs slices seeds nc = Ok [].
Proof.
  intros slices seeds nc H. unfold make_jobs, chunk_size. destruct (Z.eqb_spec nc 0); [lia|].
  cbn [bind]. rewrite zrange_nil by lia. reflexivity.
Qed.

(** ** Seeds *)

Lemma serial_items_spec : forall slices seeds,
  (forall i, In i slices -> 0 <= i < Z.of_nat (length seeds)) ->
  serial_items slices seeds = Ok (map (fun i => (i, seed_of seeds i)) slices).
Proof.
  induction slices as [|i l IH]; intros seeds H; cbn [serial_items map]; [reflexivity|].
  rewrite (pynth_in_range _ _ _ 0) by (apply H; left; auto). cbn [bind].
  rewrite IH by (intros; apply H; right; auto). reflexivity.
Qed.

Lemma randints_length : forall rng (randint : rng -> Z -> Z -> Z * rng) n g a b,
  length (fst (randints rng randint n g a b)) = n.
Proof.
  intros rng randint. induction n as [|n IH]; intros g a b; cbn [randints]; [reflexivity|].
  destruct (randint g a b) as [x g1]. specialize (IH g1 a b).
  destruct (randints rng randint n g1 a b). cbn in *. congruence.
Qed.

Lemma all_seeds_length : forall rng init randint seed num nsrc n_extra,
  length (fst (all_seeds rng init randint seed num nsrc n_extra)) = Z.to_nat num.
Proof.
  intros. unfold all_seeds.
  pose proof (randints_length rng randint (Z.to_nat num) (init seed) 1 (2 ^ 32 - 1)) as H.
  destruct (randints _ _ _ _ _ _). destruct (draw_src_seeds _ _ _ _ _). exact H.
Qed.

Lemma only_valid_slices :
  forall arg num l, 0 <= num -> forward arg -> slices_of arg num = Ok l ->
  (forall i, In i l -> 0 <= i < num) /\ StronglySorted Z.lt l.
Proof.
  intros arg num l Hn Hf H. unfold slices_of, extract_slice_range in H.
  assert (G : forall r, 0 < rg_step r -> check_range r num = Ok r ->
    (forall i, In i (range_list r) -> 0 <= i < num) /\ StronglySorted Z.lt (range_list r)).
  { intros r Hs Hr. split; [|apply range_list_sorted; auto]. intros i Hi.
    apply range_list_In in Hi. destruct Hi as (k & Hk & ->). apply range_len_pos in Hk; auto.
    unfold check_range in Hr. destruct (Z.ltb_spec (rg_start r) 0); [discriminate|].
    destruct (Z.ltb_spec num (rg_stop r)); [discriminate|]. nia. }
  destruct arg as [|s|r|sl|]; cbn [bind] in H; try discriminate.
  - injection H as <-. apply G; [reflexivity|].
    unfold check_range. cbn [rg_start rg_stop]. rewrite (proj2 (Z.ltb_ge _ _) (Z.le_refl num)). reflexivity.
  - destruct (split_on _ s) as [|a [|b [|c t]]]; try discriminate.
    destruct (py_int a) as [x|]; [|discriminate]. destruct (py_int b) as [y|]; [|discriminate].
    cbn [bind] in H. destruct (check_range (mk_range x y 1) num) as [r|] eqn:E; [|discriminate].
    cbn [bind] in H. injection H as <-.
    assert (r = mk_range x y 1) as ->.
    { unfold check_range in E. destruct (_ || _); [discriminate|]. congruence. }
    apply G; [reflexivity|exact E].
  - destruct (maxsize <? range_len r); [discriminate|].
    destruct (check_range r num) as [r'|] eqn:E; [|discriminate]. cbn [bind] in H. injection H as <-.
    assert (r = r').
    { unfold check_range in E. destruct (_ || _); [discriminate|]. congruence. }
    subst. apply G; auto.
Qed.

Lemma make_plan_spec : forall rng init randint order arg num seed nsrc n_extra n_jobs n_chunks l,
  (forall k, Permutation k (order k)) ->
  slices_of arg num = Ok l -> (forall i, In i l -> 0 <= i < num) ->
  (1 < n_jobs -> 1 <= match n_chunks with None => n_jobs | Some k => k end) ->
  exists p, make_plan rng init randint order arg num seed nsrc n_extra n_jobs n_chunks =
    Ok (p, snd (all_seeds rng init randint seed num nsrc n_extra)) /\
    plan_items p =
    map (fun i => (i, seed_of (fst (all_seeds rng init randint seed num nsrc n_extra)) i)) (order l) /\
    ((exists todo, p = Serial todo /\ n_jobs <= 1) \/
     (exists chunks, p = Parallel n_jobs (length (concat chunks)) chunks /\ 1 < n_jobs)).
Proof.
  intros rng init randint order arg num seed nsrc n_extra n_jobs n_chunks l Hord Hl Hin Hc.
  unfold slices_of in Hl. unfold make_plan.
  destruct (extract_slice_range arg num) as [rg|e]; [|discriminate].
  cbn [bind] in *. injection Hl as <-.
  assert (forallb (fun i => match pyindex num i with Some _ => true | None => false end)
            (range_list rg) = true) as ->.
  { apply forallb_forall. intros i Hi. apply Hin in Hi. unfold pyindex.
    destruct (Z.leb_spec 0 i); [|lia]. destruct (Z.ltb_spec i num); [|lia]. reflexivity. }
  assert (Hin' : forall i, In i (order (range_list rg)) ->
    0 <= i < Z.of_nat (length (fst (all_seeds rng init randint seed num nsrc n_extra)))).
  { intros i Hi. rewrite all_seeds_length.
    apply (Permutation_in _ (Permutation_sym (Hord _))) in Hi. apply Hin in Hi. lia. }
  destruct (all_seeds rng init randint seed num nsrc n_extra) as [sds ss].
  cbn [fst snd] in *.
  destruct (Z.ltb_spec 1 n_jobs) as [J|J].
  - destruct (make_jobs_spec _ _ _ (Hc J) Hin') as (chunks & E & _ & Q & _).
    rewrite E. cbn [bind]. eexists. split; [reflexivity|]. split; [exact Q|]. right.
    exists chunks. split; [|exact J]. rewrite Q, map_length. reflexivity.
  - rewrite serial_items_spec by auto. cbn [bind].
    eexists. split; [reflexivity|]. split; [reflexivity|]. left. eauto.
Qed.
