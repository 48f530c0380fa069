(** General lemmas about [Lib.Base]. *)
From Coq Require Import ZArith List Bool Lia ZifyBool Permutation.
From Verif Require Import Lib.Base.
Import ListNotations.
Open Scope Z_scope.

Lemma In_zrange a b x : In x (zrange a b) <-> a <= x < b.
Proof.
  unfold zrange. rewrite in_map_iff. split.
  - intros (k & <- & Hk). apply in_seq in Hk. lia.
  - intros H. exists (Z.to_nat (x - a)). split; [lia|]. apply in_seq. lia.
Qed.

Lemma zrange_length a b : length (zrange a b) = Z.to_nat (b - a).
Proof. unfold zrange. now rewrite map_length, seq_length. Qed.

Lemma NoDup_zrange a b : NoDup (zrange a b).
Proof.
  unfold zrange. apply FinFun.Injective_map_NoDup; [|apply seq_NoDup].
  intros x y H. lia.
Qed.

Lemma nth_zrange a b k d :
  (k < Z.to_nat (b - a))%nat -> nth k (zrange a b) d = a + Z.of_nat k.
Proof.
  intros Hk. unfold zrange.
  rewrite nth_indep with (d' := a + Z.of_nat 0) by now rewrite map_length, seq_length.
  rewrite (map_nth (fun k => a + Z.of_nat k)), seq_nth by assumption. lia.
Qed.

Lemma nth_error_zrange a b k :
  (k < Z.to_nat (b - a))%nat -> nth_error (zrange a b) k = Some (a + Z.of_nat k).
Proof.
  intros Hk. rewrite (nth_error_nth' _ 0) by now rewrite zrange_length.
  now rewrite nth_zrange.
Qed.

Lemma zrange_nil a b : b <= a -> zrange a b = [].
Proof. intros H. unfold zrange. replace (Z.to_nat (b - a)) with 0%nat by lia. reflexivity. Qed.

Lemma zrange_cons a b : a < b -> zrange a b = a :: zrange (a + 1) b.
Proof.
  intros H. unfold zrange.
  replace (Z.to_nat (b - a)) with (S (Z.to_nat (b - (a + 1)))) by lia.
  cbn [seq map]. f_equal; [lia|].
  rewrite <- seq_shift, map_map. apply map_ext. intros; lia.
Qed.

Lemma seq_shift_plus k n : forall s, seq (s + k) n = map (fun i => (i + k)%nat) (seq s n).
Proof.
  induction n; intros s; cbn; [reflexivity|]. f_equal.
  rewrite <- IHn. reflexivity.
Qed.

Lemma zrange_app a b c : a <= b <= c -> zrange a c = zrange a b ++ zrange b c.
Proof.
  intros H. unfold zrange.
  replace (Z.to_nat (c - a)) with (Z.to_nat (b - a) + Z.to_nat (c - b))%nat by lia.
  rewrite seq_app, map_app. f_equal.
  rewrite seq_shift_plus, map_map. apply map_ext. intros; lia.
Qed.

Lemma zrange_snoc a b : a <= b -> zrange a (b + 1) = zrange a b ++ [b].
Proof.
  intros H. rewrite (zrange_app a b (b + 1)) by lia. f_equal.
  rewrite zrange_cons, zrange_nil by lia. reflexivity.
Qed.

Lemma In_allpix nr nc r c :
  In (r, c) (allpix nr nc) <-> 0 <= r < nr /\ 0 <= c < nc.
Proof.
  unfold allpix. rewrite in_flat_map. split.
  - intros (x & Hx & H). apply in_map_iff in H as (y & E & Hy).
    injection E as -> ->. rewrite In_zrange in *. tauto.
  - intros [H1 H2]. exists r. rewrite In_zrange. split; [assumption|].
    apply in_map_iff. exists c. now rewrite In_zrange.
Qed.

Lemma NoDup_flat_map {A B} (f : A -> list B) (l : list A) :
  NoDup l ->
  (forall x, In x l -> NoDup (f x)) ->
  (forall x y b, In x l -> In y l -> In b (f x) -> In b (f y) -> x = y) ->
  NoDup (flat_map f l).
Proof.
  induction l as [|a l IH]; cbn; intros Hn Hf Hd; [constructor|].
  inversion Hn as [|? ? Ha Hl]; subst.
  assert (IH' : NoDup (flat_map f l)) by (apply IH; eauto).
  assert (Hfa : NoDup (f a)) by auto.
  assert (Hdis : forall b, In b (f a) -> ~ In b (flat_map f l)).
  { intros b Hb Hin. apply in_flat_map in Hin as (y & Hy & Hby).
    assert (a = y) by eauto. subst. tauto. }
  clear -IH' Hfa Hdis. induction (f a) as [|b bs IHb]; cbn; [assumption|].
  inversion Hfa; subst. constructor.
  - rewrite in_app_iff. intros [H|H]; [tauto|]. eapply Hdis; [left; reflexivity|eassumption].
  - apply IHb; [assumption|]. intros x Hx. apply Hdis. now right.
Qed.

Lemma NoDup_allpix nr nc : NoDup (allpix nr nc).
Proof.
  unfold allpix. apply NoDup_flat_map.
  - apply NoDup_zrange.
  - intros r _. apply FinFun.Injective_map_NoDup; [|apply NoDup_zrange].
    intros x y H. now injection H.
  - intros x y [r c] _ _ H1 H2.
    apply in_map_iff in H1 as (? & E1 & _). apply in_map_iff in H2 as (? & E2 & _).
    congruence.
Qed.

Lemma flat_map_length_const {A B} (f : A -> list B) n l :
  (forall x, In x l -> length (f x) = n) -> length (flat_map f l) = (length l * n)%nat.
Proof.
  induction l as [|a l IH]; cbn; intros H; [reflexivity|].
  rewrite app_length, H, IH by auto. reflexivity.
Qed.

Lemma allpix_length nr nc : length (allpix nr nc) = (Z.to_nat nr * Z.to_nat nc)%nat.
Proof.
  unfold allpix. rewrite (flat_map_length_const _ (Z.to_nat nc)).
  - rewrite zrange_length. f_equal. lia.
  - intros r _. rewrite map_length, zrange_length. f_equal. lia.
Qed.

Lemma np_any_spec m :
  np_any m = true <-> exists r c, inb m r c /\ px m r c = true.
Proof.
  unfold np_any, ravel. rewrite existsb_exists. split.
  - intros (b & Hin & Hb). apply in_map_iff in Hin as ((r & c) & E & Hin).
    apply In_allpix in Hin. exists r, c. cbn in E. split; [exact Hin|congruence].
  - intros (r & c & Hin & Hb). exists true. split; [|reflexivity].
    apply in_map_iff. exists (r, c). cbn. split; [assumption|]. now apply In_allpix.
Qed.

Lemma np_any_false m :
  np_any m = false <-> forall r c, inb m r c -> px m r c = false.
Proof.
  split.
  - intros H r c Hin. destruct (px m r c) eqn:E; [|reflexivity].
    assert (np_any m = true) by (apply np_any_spec; eauto). congruence.
  - intros H. destruct (np_any m) eqn:E; [|reflexivity].
    apply np_any_spec in E as (r & c & Hin & E). rewrite H in E by assumption. discriminate.
Qed.

Lemma np_all_spec m :
  np_all m = true <-> forall r c, inb m r c -> px m r c = true.
Proof.
  unfold np_all, ravel. rewrite forallb_forall. split.
  - intros H r c Hin. apply H. apply in_map_iff. exists (r, c). split; [reflexivity|].
    now apply In_allpix.
  - intros H b Hb. apply in_map_iff in Hb as ((r & c) & E & Hin). cbn in E.
    apply In_allpix in Hin. rewrite <- E. now apply H.
Qed.

Lemma np_all_false m :
  np_all m = false <-> exists r c, inb m r c /\ px m r c = false.
Proof.
  split.
  - intros H.
    assert (Hx : existsb negb (ravel m) = true).
    { unfold np_all in H. induction (ravel m) as [|b l IH]; cbn in *; [discriminate|].
      destruct b; cbn in *; auto. }
    apply existsb_exists in Hx as (b & Hin & Hb). unfold ravel in Hin.
    apply in_map_iff in Hin as ((r & c) & E & Hin). apply In_allpix in Hin.
    exists r, c. split; [exact Hin|]. cbn in E. rewrite E. now destruct b.
  - intros (r & c & Hin & E). destruct (np_all m) eqn:Ea; [|reflexivity].
    rewrite np_all_spec in Ea. rewrite Ea in E by assumption. discriminate.
Qed.

Lemma In_row_of {A} (a : img A) r x :
  In x (row_of a r) <-> exists c, 0 <= c < ncols a /\ px a r c = x.
Proof.
  unfold row_of. rewrite in_map_iff. split; intros (c & H1 & H2); exists c;
    rewrite In_zrange in *; tauto.
Qed.

Lemma In_col_of {A} (a : img A) c x :
  In x (col_of a c) <-> exists r, 0 <= r < nrows a /\ px a r c = x.
Proof.
  unfold col_of. rewrite in_map_iff. split; intros (r & H1 & H2); exists r;
    rewrite In_zrange in *; tauto.
Qed.

Lemma In_true_pix m r c :
  In (r, c) (true_pix m) <-> inb m r c /\ px m r c = true.
Proof.
  unfold true_pix. rewrite filter_In, In_allpix. reflexivity.
Qed.

Lemma NoDup_true_pix m : NoDup (true_pix m).
Proof. apply NoDup_filter, NoDup_allpix. Qed.

Lemma np_count_true_pix m : np_count m = Z.of_nat (length (true_pix m)).
Proof.
  unfold np_count, true_pix, ravel. f_equal.
  induction (allpix (nrows m) (ncols m)) as [|p l IH]; cbn; [reflexivity|].
  destruct (px m (fst p) (snd p)); cbn; congruence.
Qed.

(** Lookup in association lists keyed by pixels. *)

Lemma pix_lookup_In {A} (l : list ((Z * Z) * A)) r c a :
  pix_lookup l r c = Some a -> In ((r, c), a) l.
Proof.
  induction l as [|[[r' c'] a'] l IH]; cbn; [discriminate|].
  destruct ((r =? r') && (c =? c')) eqn:E; intros H.
  - left. assert (r = r' /\ c = c') as [-> ->] by lia. congruence.
  - right. auto.
Qed.

Lemma pix_lookup_None {A} (l : list ((Z * Z) * A)) r c :
  pix_lookup l r c = None <-> ~ In (r, c) (map fst l).
Proof.
  induction l as [|[[r' c'] a'] l IH]; cbn; [tauto|].
  destruct ((r =? r') && (c =? c')) eqn:E.
  - split; [discriminate|]. intros H. exfalso. apply H. left. f_equal; lia.
  - rewrite IH. split.
    + intros H [H'|H']; [|tauto]. injection H' as -> ->. lia.
    + tauto.
Qed.

Lemma pix_lookup_NoDup {A} (l : list ((Z * Z) * A)) r c a :
  NoDup (map fst l) -> (pix_lookup l r c = Some a <-> In ((r, c), a) l).
Proof.
  intros Hn. split; [apply pix_lookup_In|]. intros Hin.
  induction l as [|[[r' c'] a'] l IH]; cbn in *; [tauto|].
  inversion Hn as [|? ? H1 H2]; subst.
  destruct ((r =? r') && (c =? c')) eqn:E.
  - assert (r = r' /\ c = c') as [-> ->] by lia.
    destruct Hin as [H|H]; [congruence|].
    exfalso. apply H1. apply in_map_iff. exists ((r', c'), a). auto.
  - destruct Hin as [H|H]; [|auto]. injection H as -> -> ->. lia.
Qed.

Lemma map_fst_combine {A B} (l : list A) (l' : list B) :
  length l = length l' -> map fst (combine l l') = l.
Proof.
  revert l'. induction l as [|a l IH]; intros [|b l']; cbn; intros H;
    try discriminate; [reflexivity|]. f_equal. auto.
Qed.

Lemma map_snd_combine {A B} (l : list A) (l' : list B) :
  length l = length l' -> map snd (combine l l') = l'.
Proof.
  revert l'. induction l as [|a l IH]; intros [|b l']; cbn; intros H;
    try discriminate; [reflexivity|]. f_equal. auto.
Qed.

Lemma nth_error_combine {A B} (l : list A) (l' : list B) k a b :
  nth_error l k = Some a -> nth_error l' k = Some b ->
  nth_error (combine l l') k = Some (a, b).
Proof.
  revert l' k. induction l as [|x l IH]; intros [|y l'] [|k]; cbn; try discriminate.
  - congruence.
  - apply IH.
Qed.

Lemma mask_assign_shape {A} (a b : img A) m vals :
  mask_assign a m vals = Ok b -> nrows b = nrows a /\ ncols b = ncols a.
Proof.
  unfold mask_assign. destruct (Nat.eqb _ _); [|discriminate].
  intros H. injection H as <-. auto.
Qed.

Lemma mask_assign_false {A} (a b : img A) m vals r c :
  mask_assign a m vals = Ok b -> ~ (inb m r c /\ px m r c = true) ->
  px b r c = px a r c.
Proof.
  unfold mask_assign. destruct (Nat.eqb _ _) eqn:E; [|discriminate].
  apply PeanoNat.Nat.eqb_eq in E.
  intros H Hf. injection H as <-. cbn.
  destruct (pix_lookup _ r c) eqn:El; [|reflexivity].
  exfalso. apply Hf. apply In_true_pix.
  apply pix_lookup_In, (in_map fst) in El. now rewrite map_fst_combine in El.
Qed.

Lemma mask_assign_nth {A} (a b : img A) m vals k r c v :
  mask_assign a m vals = Ok b ->
  nth_error (true_pix m) k = Some (r, c) -> nth_error vals k = Some v ->
  px b r c = v.
Proof.
  unfold mask_assign. destruct (Nat.eqb _ _) eqn:E; [|discriminate].
  apply PeanoNat.Nat.eqb_eq in E.
  intros H H1 H2. injection H as <-. cbn.
  replace (pix_lookup (combine (true_pix m) vals) r c) with (Some v); [reflexivity|].
  symmetry. apply pix_lookup_NoDup.
  - rewrite map_fst_combine by assumption. apply NoDup_true_pix.
  - eapply nth_error_In with (n := k). now apply nth_error_combine.
Qed.

Lemma pyindex_spec n i k :
  pyindex n i = Some k <->
  (0 <= i < n /\ k = i) \/ (- n <= i < 0 /\ k = n + i).
Proof.
  unfold pyindex.
  destruct ((0 <=? i) && (i <? n)) eqn:E1.
  - split; [intros H; injection H as <-; left; lia|].
    intros [[H ->]|[H ->]]; [reflexivity|lia].
  - destruct ((i <? 0) && (0 <=? n + i)) eqn:E2.
    + split; [intros H; injection H as <-; right; lia|].
      intros [[H ->]|[H ->]]; [lia|reflexivity].
    + split; [discriminate|]. lia.
Qed.

Lemma pyindex_None n i : pyindex n i = None <-> ~ (- n <= i < n).
Proof.
  unfold pyindex.
  destruct ((0 <=? i) && (i <? n)) eqn:E1; [split; [discriminate|lia]|].
  destruct ((i <? 0) && (0 <=? n + i)) eqn:E2; [split; [discriminate|lia]|].
  split; [|reflexivity]. intros _. lia.
Qed.

Lemma forallb_map {A B} (f : A -> B) p l : forallb p (map f l) = forallb (fun x => p (f x)) l.
Proof. induction l; cbn; congruence. Qed.

Lemma existsb_map {A B} (f : A -> B) p l : existsb p (map f l) = existsb (fun x => p (f x)) l.
Proof. induction l; cbn; congruence. Qed.

Lemma img_eq_refl {A} (a : img A) : img_eq a a.
Proof. repeat split. Qed.

(** Induction along a loop [for i in range(n)]. *)
Lemma zrange_fold_ind {A} (P : Z -> A -> Prop) (f : A -> Z -> A) (n : Z) (a : A) :
  0 <= n -> P 0 a -> (forall i s, 0 <= i < n -> P i s -> P (i + 1) (f s i)) ->
  P n (fold_left f (zrange 0 n) a).
Proof.
  intros Hn H0 Hs.
  assert (H : forall k, 0 <= k -> k <= n -> P k (fold_left f (zrange 0 k) a)).
  { apply (natlike_ind (fun k => k <= n -> P k (fold_left f (zrange 0 k) a))).
    - intros _. rewrite zrange_nil by lia. exact H0.
    - intros k Hk IH Hkn. replace (Z.succ k) with (k + 1) in * by lia.
      rewrite zrange_snoc by lia. rewrite fold_left_app. cbn [fold_left].
      apply Hs; [lia|]. apply IH. lia. }
  apply H; lia.
Qed.
