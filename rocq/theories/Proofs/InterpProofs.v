From Coq Require Import ZArith List Bool Lia ZifyBool Sorted RelationClasses.
From Verif Require Import Lib.Base Lib.Floats Model.Interp Spec.InterpSpec Proofs.BaseFacts Spec.FlagSpec Proofs.FlagProofs.
Import ListNotations.
Open Scope Z_scope.

Lemma pix_eq_dec (x y : Z * Z) : {x = y} + {x <> y}.
Proof. decide equality; apply Z.eq_dec. Defined.

(** *** Windows *)

Lemma In_window nr nc row col w r c :
  0 <= row < nr -> 0 <= col < nc ->
  (In (r, c) (window_pix nr nc row col w) <->
   (0 <= r < nr /\ 0 <= c < nc) /\ within w row col r c).
Proof.
  intros Hrow Hcol. unfold window_pix, clip_window, within. rewrite in_flat_map. split.
  - intros (x & Hx & Hin). apply in_map_iff in Hin as (y & [= <- <-] & Hy).
    rewrite In_zrange in *.
    destruct (row - w <? 0) eqn:E1, (nr - 1 <? row + w) eqn:E2,
      (col - w <? 0) eqn:E3, (nc - 1 <? col + w) eqn:E4; lia.
  - intros [[Hr Hc] [H1 H2]]. exists r. rewrite In_zrange. split.
    + destruct (row - w <? 0) eqn:E1, (nr - 1 <? row + w) eqn:E2; lia.
    + apply in_map_iff. exists c. split; [reflexivity|]. rewrite In_zrange.
      destruct (col - w <? 0) eqn:E3, (nc - 1 <? col + w) eqn:E4; lia.
Qed.

Lemma window_length nr nc row col w :
  0 <= row < nr -> 0 <= col < nc ->
  Z.of_nat (length (window_pix nr nc row col w)) <= (2 * w + 1) ^ 2.
Proof.
  intros Hrow Hcol. unfold window_pix, clip_window.
  set (rs := if row - w <? 0 then _ else _). set (re := if nr - 1 <? row + w then _ else _).
  set (cs := if col - w <? 0 then _ else _). set (ce := if nc - 1 <? col + w then _ else _).
  rewrite (flat_map_length_const _ (Z.to_nat (ce + 1 - cs))).
  - rewrite zrange_length.
    assert (H1 : re + 1 - rs <= 2 * w + 1).
    { unfold re, rs. destruct (row - w <? 0) eqn:E1, (nr - 1 <? row + w) eqn:E2; lia. }
    assert (H2 : ce + 1 - cs <= 2 * w + 1).
    { unfold ce, cs. destruct (col - w <? 0) eqn:E1, (nc - 1 <? col + w) eqn:E2; lia. }
    rewrite Z.pow_2_r. rewrite Nat2Z.inj_mul.
    destruct (Z_le_gt_dec 0 (2 * w + 1)) as [Hw|Hw]; [nia|].
    replace (Z.to_nat (re + 1 - rs)) with 0%nat by lia. nia.
  - intros x _. now rewrite map_length, zrange_length.
Qed.

(** *** The search *)

Section Search.
Context (m : img bool) (buff iso_buff : Z).
Let nr := nrows m.
Let nc := ncols m.
Let K := (2 * buff + 1) ^ 2.

Definition goods_of (p : Z * Z) : list Z :=
  map (fun q => fst q * nc + snd q)
    (filter (fun q => negb (px m (fst q) (snd q))) (window_pix nr nc (fst p) (snd p) buff)).
Definition iso_of (p : Z * Z) : Z :=
  if forallb (fun q => px m (fst q) (snd q)) (window_pix nr nc (fst p) (snd p) iso_buff)
  then 1 else 0.

Lemma push_fold ngood : forall win g,
  Z.of_nat (length g + length win) <= ngood ->
  fold_left (push_good m ngood) win (Ok g) =
  Ok (g ++ map (fun q => fst q * nc + snd q)
             (filter (fun q => negb (px m (fst q) (snd q))) win)).
Proof.
  induction win as [|[r c] win IH]; intros g Hlen; cbn [fold_left].
  - cbn. now rewrite app_nil_r.
  - cbn [push_good bind filter fst snd]. cbn [length] in Hlen.
    destruct (px m r c); cbn [negb].
    + apply IH. lia.
    + replace (Z.of_nat (length g) =? ngood) with false by lia.
      rewrite IH by (rewrite app_length; cbn; lia).
      cbn [map fst snd]. now rewrite <- app_assoc.
Qed.

Lemma filter_length_le {A} (f : A -> bool) l : (length (filter f l) <= length l)%nat.
Proof. induction l; cbn; [lia|]. destruct (f a); cbn; lia. Qed.

Lemma K_pos : 1 <= K.
Proof. unfold K. rewrite Z.pow_2_r. nia. Qed.

Lemma goods_of_length p : 0 <= fst p < nr -> 0 <= snd p < nc ->
  Z.of_nat (length (goods_of p)) <= K.
Proof.
  intros Hr Hc. unfold goods_of. rewrite map_length.
  pose proof (filter_length_le (fun q => negb (px m (fst q) (snd q)))
                (window_pix nr nc (fst p) (snd p) buff)).
  pose proof (window_length nr nc (fst p) (snd p) buff Hr Hc). fold K in H0. lia.
Qed.

Lemma search_fold ngood : forall ps st,
  (forall p, In p ps -> 0 <= fst p < nr /\ 0 <= snd p < nc) ->
  let bads := filter (fun p => px m (fst p) (snd p)) ps in
  Z.of_nat (length (ns_good st)) <= K * Z.of_nat (length (ns_bad st)) ->
  K * Z.of_nat (length (ns_bad st) + length bads) <= ngood ->
  fold_left (nearby_step m ngood buff iso_buff) ps (Ok st) =
  Ok (mkns (ns_bad st ++ map (fun p => fst p * nc + snd p) bads)
           (ns_iso st ++ map iso_of bads)
           (ns_good st ++ flat_map goods_of bads)).
Proof.
  pose proof K_pos as HK.
  induction ps as [|[row col] ps IH]; intros st Hin bads Hg Hcap.
  - cbn. rewrite !app_nil_r. now destruct st.
  - cbn [fold_left]. unfold bads in *. cbn [filter fst snd] in *.
    destruct (Hin (row, col) (or_introl eq_refl)) as [Hrow Hcol]. cbn [fst snd] in Hrow, Hcol.
    unfold nearby_step at 2. cbn [bind].
    destruct (px m row col) eqn:E.
    + cbn [length] in Hcap.
      replace (ngood <=? Z.of_nat (length (ns_bad st))) with false by nia.
      set (win := if buff =? iso_buff then _ else _).
      assert (Hwin : win = window_pix nr nc row col buff).
      { unfold win. destruct (Z.eqb_spec buff iso_buff) as [->|]; reflexivity. }
      rewrite Hwin. rewrite push_fold.
      * cbn [bind]. change (map _ (filter _ (window_pix nr nc row col buff)))
          with (goods_of (row, col)).
        change (if forallb _ _ then 1 else 0) with (iso_of (row, col)).
        fold nc. rewrite IH.
        -- cbn [ns_bad ns_iso ns_good map flat_map fst snd].
           now rewrite <- !app_assoc.
        -- intros p Hp. apply Hin. now right.
        -- cbn [ns_bad ns_good]. rewrite !app_length. cbn [length].
           pose proof (goods_of_length (row, col) Hrow Hcol). nia.
        -- cbn [ns_bad]. rewrite app_length. cbn [length].
           replace (length (ns_bad st) + 1 + _)%nat
             with (length (ns_bad st) + S (length (filter (fun p => px m (fst p) (snd p)) ps)))%nat
             by lia. exact Hcap.
      * pose proof (window_length nr nc row col buff Hrow Hcol) as Hw. fold K in Hw. nia.
    + apply IH; [|assumption..]. intros p Hp. apply Hin. now right.
Qed.

Theorem search_result :
  get_nearby_good_pixels m (np_count m) buff iso_buff =
  Ok (mkns (map (fun p => fst p * nc + snd p) (true_pix m))
           (map iso_of (true_pix m))
           (flat_map goods_of (true_pix m))).
Proof.
  unfold get_nearby_good_pixels. rewrite search_fold; cbn [ns_bad ns_iso ns_good app length].
  - reflexivity.
  - intros [r c] Hin. now apply In_allpix in Hin.
  - lia.
  - rewrite np_count_true_pix. unfold true_pix. cbn [Nat.add]. fold K. lia.
Qed.
End Search.

Theorem search_capacity bad buff iso_buff nbad :
  counts (nrows bad) (ncols bad) (fun r c => px bad r c = true) nbad ->
  exists st, get_nearby_good_pixels bad nbad buff iso_buff = Ok st /\
    Z.of_nat (length (ns_bad st)) = nbad /\
    Z.of_nat (length (ns_iso st)) = nbad /\
    nbad <= nbad * (2 * buff + 1) ^ 2 /\
    Z.of_nat (length (ns_good st)) <= nbad * (2 * buff + 1) ^ 2.
Proof.
  intros Hn.
  rewrite (counts_unique _ _ _ _ _ Hn (np_count_counts bad _ (fun r c _ => iff_refl _))).
  eexists. split; [apply search_result|]. cbn [ns_bad ns_iso ns_good].
  rewrite !map_length, np_count_true_pix. split; [reflexivity|]. split; [reflexivity|].
  split; [pose proof (K_pos bad buff) as HK; nia|].
  assert (G : forall l, (forall p, In p l -> 0 <= fst p < nrows bad /\ 0 <= snd p < ncols bad) ->
    Z.of_nat (length (flat_map (goods_of bad buff) l)) <= Z.of_nat (length l) * (2 * buff + 1) ^ 2).
  { induction l as [|p l IH]; intros Hl; [cbn [flat_map length]; lia|].
    cbn [flat_map length]. rewrite app_length.
    destruct (Hl p (or_introl eq_refl)) as [H1 H2].
    pose proof (goods_of_length bad buff p H1 H2) as H3.
    specialize (IH (fun q Hq => Hl q (or_intror Hq))). nia. }
  apply G. intros [r c] Hp. now apply In_true_pix in Hp as [? _].
Qed.

(** *** unique and unravel *)

Lemma In_insert x y l : In y (insert_unique x l) <-> y = x \/ In y l.
Proof.
  induction l as [|z l IH]; cbn; [intuition|].
  destruct (x <? z) eqn:E1; [cbn; intuition|].
  destruct (x =? z) eqn:E2.
  - assert (x = z) by lia. subst. cbn. intuition.
  - cbn. rewrite IH. intuition.
Qed.

Lemma In_unique y l : In y (np_unique l) <-> In y l.
Proof.
  induction l as [|x l IH]; cbn; [tauto|]. rewrite In_insert, IH. intuition.
Qed.

Lemma insert_sorted x l : StronglySorted Z.lt l -> StronglySorted Z.lt (insert_unique x l).
Proof.
  induction l as [|z l IH]; cbn; intros Hs; [repeat constructor|].
  inversion Hs as [|? ? Hs' Hall]; subst.
  destruct (x <? z) eqn:E1.
  - constructor; [assumption|]. constructor; [lia|].
    eapply Forall_impl; [|exact Hall]. intros; lia.
  - destruct (x =? z) eqn:E2; [assumption|]. constructor; [now apply IH|].
    apply Forall_forall. intros y Hy. apply In_insert in Hy as [->|Hy]; [lia|].
    rewrite Forall_forall in Hall. now apply Hall.
Qed.

Lemma unique_sorted l : StronglySorted Z.lt (np_unique l).
Proof. induction l; cbn; [constructor|]. now apply insert_sorted. Qed.

Lemma unravel_ravel nc r c : 0 <= c < nc -> unravel nc (r * nc + c) = (r, c).
Proof.
  intros Hc. unfold unravel.
  rewrite Z.div_add_l, Z.div_small, Z.add_0_r by lia.
  rewrite Z.add_comm, Z_mod_plus_full, Z.mod_small by lia. reflexivity.
Qed.

Lemma unravel_mono nc i j : 0 < nc -> i < j -> pix_lt (unravel nc i) (unravel nc j).
Proof.
  intros Hnc Hij. unfold pix_lt, unravel. cbn [fst snd].
  pose proof (Z.div_le_mono i j nc Hnc ltac:(lia)).
  pose proof (Z.div_mod i nc ltac:(lia)). pose proof (Z.div_mod j nc ltac:(lia)).
  destruct (Z.eq_dec (i / nc) (j / nc)) as [e|ne]; [right|left; lia].
  split; [assumption|]. rewrite e in *. lia.
Qed.

Lemma map_sorted {A B} (R : A -> A -> Prop) (S : B -> B -> Prop) (f : A -> B) l :
  (forall x y, R x y -> S (f x) (f y)) -> StronglySorted R l -> StronglySorted S (map f l).
Proof.
  intros Hf. induction 1 as [|a l Hs IH Hall]; cbn; constructor; [assumption|].
  apply Forall_forall. intros y Hy. apply in_map_iff in Hy as (x & <- & Hx).
  rewrite Forall_forall in Hall. auto.
Qed.

Lemma filter_sorted {A} (R : A -> A -> Prop) (f : A -> bool) l :
  StronglySorted R l -> StronglySorted R (filter f l).
Proof.
  induction 1 as [|a l Hs IH Hall]; cbn; [constructor|].
  destruct (f a); [|assumption]. constructor; [assumption|].
  apply Forall_forall. intros x Hx. apply filter_In in Hx as [Hx _].
  rewrite Forall_forall in Hall. auto.
Qed.

Lemma app_sorted {A} (R : A -> A -> Prop) l1 l2 :
  StronglySorted R l1 -> StronglySorted R l2 ->
  (forall x y, In x l1 -> In y l2 -> R x y) -> StronglySorted R (l1 ++ l2).
Proof.
  induction 1 as [|a l Hs IH Hall]; cbn; intros Hs2 Hx; [assumption|].
  constructor; [apply IH; auto|]. apply Forall_forall. intros x Hin.
  apply in_app_iff in Hin as [Hin|Hin]; [|auto].
  rewrite Forall_forall in Hall. auto.
Qed.

Lemma zrange_sorted a b : StronglySorted Z.lt (zrange a b).
Proof.
  unfold zrange. generalize (Z.to_nat (b - a)). intros n. generalize 0%nat.
  induction n; intros s; cbn; constructor; [apply IHn|].
  apply Forall_forall. intros x Hx. apply in_map_iff in Hx as (k & <- & Hk).
  apply in_seq in Hk. lia.
Qed.

Lemma allpix_sorted nr nc : StronglySorted pix_lt (allpix nr nc).
Proof.
  unfold allpix. pose proof (zrange_sorted 0 nr) as Hs.
  induction Hs as [|a l Hs IH Hall]; cbn; [constructor|].
  apply app_sorted; [|assumption|].
  - apply map_sorted with (R := Z.lt); [|apply zrange_sorted].
    intros x y Hxy. right. auto.
  - intros x y Hx Hy. apply in_map_iff in Hx as (c & <- & _).
    apply in_flat_map in Hy as (r & Hr & Hy). apply in_map_iff in Hy as (c' & <- & _).
    left. cbn. rewrite Forall_forall in Hall. auto.
Qed.

Lemma true_pix_where m : pixels_where (nrows m) (ncols m) (fun r c => px m r c = true) (true_pix m).
Proof.
  split; [apply filter_sorted, allpix_sorted|]. intros r c. apply In_true_pix.
Qed.

#[global] Instance pix_lt_irrefl : Irreflexive pix_lt.
Proof. intros [r c]. unfold complement, pix_lt. cbn. lia. Qed.
#[global] Instance pix_lt_trans : Transitive pix_lt.
Proof. intros [r c] [r' c'] [r'' c'']. unfold pix_lt. cbn. lia. Qed.

(** A row-major listing is determined by its members. *)
Lemma sorted_unique {A} (R : A -> A -> Prop) :
  (forall x, ~ R x x) -> (forall x y z, R x y -> R y z -> R x z) ->
  forall l1 l2, StronglySorted R l1 -> StronglySorted R l2 ->
  (forall x, In x l1 <-> In x l2) -> l1 = l2.
Proof.
  intros Hirr Htr. induction l1 as [|a l1 IH]; intros l2 H1 H2 Heq.
  - destruct l2 as [|b l2]; [reflexivity|]. exfalso. apply (Heq b). now left.
  - destruct l2 as [|b l2]; [exfalso; apply (Heq a); now left|].
    inversion H1 as [|? ? H1' A1]; subst. inversion H2 as [|? ? H2' A2]; subst.
    rewrite Forall_forall in A1, A2.
    assert (a = b) as <-.
    { destruct (proj1 (Heq a) (or_introl eq_refl)) as [|Ha]; [congruence|].
      destruct (proj2 (Heq b) (or_introl eq_refl)) as [|Hb]; [congruence|].
      exfalso. apply (Hirr a). eapply Htr; [apply A1; exact Hb|now apply A2]. }
    f_equal. apply IH; [assumption..|]. intros x. split; intros Hx.
    + destruct (proj1 (Heq x) (or_intror Hx)) as [->|]; [|assumption].
      exfalso. apply (Hirr x). now apply A1.
    + destruct (proj2 (Heq x) (or_intror Hx)) as [->|]; [|assumption].
      exfalso. apply (Hirr x). now apply A2.
Qed.

Lemma pixels_where_unique nr nc P l1 l2 :
  pixels_where nr nc P l1 -> pixels_where nr nc P l2 -> l1 = l2.
Proof.
  intros [S1 E1] [S2 E2]. apply (sorted_unique pix_lt); auto.
  - apply pix_lt_irrefl.
  - apply pix_lt_trans.
  - intros [r c]. now rewrite E1, E2.
Qed.

(** *** find_support *)

Theorem find_support_spec m buff iso_buff :
  exists bad iso good,
    find_support m buff iso_buff = Ok (bad, iso, good) /\
    pixels_where (nrows m) (ncols m) (fun r c => px m r c = true) bad /\
    length iso = length bad /\
    (forall k r c v, nth_error bad k = Some (r, c) -> nth_error iso k = Some v ->
       (v = 1 /\ isolated m iso_buff r c) \/ (v = 0 /\ ~ isolated m iso_buff r c)) /\
    pixels_where (nrows m) (ncols m)
      (fun r c => px m r c = false /\
                  exists r' c', is_bad m r' c' /\ within buff r' c' r c) good.
Proof.
  unfold find_support. rewrite search_result. cbn [bind ns_bad ns_iso ns_good].
  eexists _, _, _. split; [reflexivity|].
  assert (Hbad : map (unravel (ncols m)) (map (fun p => fst p * ncols m + snd p) (true_pix m))
                 = true_pix m).
  { rewrite map_map. rewrite <- (map_id (true_pix m)) at 2. apply map_ext_in.
    intros [r c] Hin. apply In_true_pix in Hin as [[_ Hc] _]. cbn. now apply unravel_ravel. }
  rewrite Hbad. split; [apply true_pix_where|]. split; [now rewrite map_length|]. split.
  - intros k r c v Hb Hi. rewrite nth_error_map, Hb in Hi. cbn in Hi. injection Hi as <-.
    apply nth_error_In in Hb. apply In_true_pix in Hb as [[Hr Hc] Hb].
    unfold iso_of. cbn [fst snd].
    destruct (forallb _ _) eqn:E; [left|right]; (split; [reflexivity|]).
    + intros r' c' [Hin' Hg] Hw. rewrite forallb_forall in E.
      specialize (E (r', c')). rewrite In_window in E by assumption.
      cbn in E. rewrite Hg in E. assert (false = true) by (apply E; auto). discriminate.
    + intros Hiso. apply not_true_iff_false in E. apply E. apply forallb_forall.
      intros [r' c'] Hin. apply In_window in Hin as [Hin' Hw]; [|assumption..]. cbn.
      destruct (px m r' c') eqn:Eg; [reflexivity|]. exfalso.
      exact (Hiso r' c' (conj Hin' Eg) Hw).
  - destruct (Z_lt_le_dec 0 (ncols m)) as [Hnc|Hnc].
    + split.
      * apply map_sorted with (R := Z.lt); [|apply unique_sorted].
        intros; now apply unravel_mono.
      * assert (Hgood : forall g, In g (flat_map (goods_of m buff) (true_pix m)) <->
            exists r c, g = r * ncols m + c /\ inb m r c /\ px m r c = false /\
              exists r' c', is_bad m r' c' /\ within buff r' c' r c).
        { intros g. rewrite in_flat_map. split.
          - intros ([r' c'] & Hb & Hg). apply In_true_pix in Hb as [[Hr' Hc'] Hb].
            unfold goods_of in Hg. apply in_map_iff in Hg as ([r c] & <- & Hg).
            apply filter_In in Hg as [Hw Hn]. cbn [fst snd] in *.
            apply In_window in Hw as [Hin Hw]; [|assumption..].
            exists r, c. split; [reflexivity|]. split; [exact Hin|].
            split; [now apply negb_true_iff|]. exists r', c'.
            split; [|assumption]. repeat split; assumption || lia.
          - intros (r & c & -> & Hin & Hg & r' & c' & [[Hr' Hc'] Hb] & Hw).
            exists (r', c'). split; [apply In_true_pix; repeat split; assumption || lia|].
            unfold goods_of. apply in_map_iff. exists (r, c). split; [reflexivity|].
            apply filter_In. cbn [fst snd]. split; [|now rewrite Hg].
            apply In_window; [assumption..|]. split; [exact Hin|assumption]. }
        intros r c. rewrite in_map_iff. split.
        -- intros (g & Eg & Hg). rewrite In_unique, Hgood in Hg.
           destruct Hg as (r1 & c1 & -> & Hin & H1 & H2).
           rewrite unravel_ravel in Eg by (destruct Hin; lia). injection Eg as <- <-.
           split; [exact Hin|]. auto.
        -- intros (Hin & H1 & H2). exists (r * ncols m + c).
           split; [apply unravel_ravel; tauto|]. rewrite In_unique, Hgood.
           exists r, c. auto.
    + assert (Hnil : true_pix m = []).
      { destruct (true_pix m) as [|[r c] l] eqn:E; [reflexivity|].
        assert (Hin : In (r, c) (true_pix m)) by (rewrite E; now left).
        apply In_true_pix in Hin as [[_ Hc] _]. lia. }
      rewrite Hnil. cbn. split; [constructor|]. intros r c. split; [intros []|].
      intros [[_ Hc] _]. lia.
Qed.

(** *** Assignments *)

Lemma pix_lookup_rev {A} (l : list ((Z * Z) * A)) r c :
  NoDup (map fst l) -> pix_lookup (rev l) r c = pix_lookup l r c.
Proof.
  intros Hn.
  assert (Hn' : NoDup (map fst (rev l))).
  { rewrite map_rev. now apply NoDup_rev. }
  destruct (pix_lookup l r c) as [a|] eqn:E.
  - apply pix_lookup_NoDup; [assumption|]. rewrite <- in_rev.
    now apply pix_lookup_NoDup.
  - apply pix_lookup_None. rewrite map_rev, <- in_rev. now apply pix_lookup_None.
Qed.

Lemma idx_assign_shape {A} (a : img A) ps vals :
  nrows (idx_assign a ps vals) = nrows a /\ ncols (idx_assign a ps vals) = ncols a.
Proof. split; reflexivity. Qed.

Lemma idx_assign_nth {A} (a : img A) ps vals k r c v :
  NoDup ps -> length vals = length ps ->
  nth_error ps k = Some (r, c) -> nth_error vals k = Some v ->
  px (idx_assign a ps vals) r c = v.
Proof.
  intros Hn Hl Hp Hv. unfold idx_assign. cbn [px].
  assert (Hn' : NoDup (map fst (combine ps vals)))
    by (rewrite map_fst_combine by (symmetry; assumption); assumption).
  rewrite pix_lookup_rev by assumption.
  replace (pix_lookup _ r c) with (Some v); [reflexivity|]. symmetry.
  apply pix_lookup_NoDup; [assumption|].
  eapply nth_error_In. apply nth_error_combine; eassumption.
Qed.

Lemma In_map_fst_combine {A B} (l : list A) (l' : list B) x :
  In x (map fst (combine l l')) -> In x l.
Proof.
  intros H. apply in_map_iff in H as ([a b] & <- & H). eapply in_combine_l. eassumption.
Qed.

Lemma idx_assign_other {A} (a : img A) ps vals r c :
  ~ In (r, c) ps -> px (idx_assign a ps vals) r c = px a r c.
Proof.
  intros Hn. unfold idx_assign. cbn [px].
  replace (pix_lookup _ r c) with (@None A); [reflexivity|]. symmetry.
  apply pix_lookup_None. rewrite map_rev, <- in_rev.
  intros C. apply In_map_fst_combine in C. contradiction.
Qed.

Lemma pixels_where_NoDup nr nc P l : pixels_where nr nc P l -> NoDup l.
Proof.
  intros [Hs _]. induction Hs as [|a l Hs IH Hall]; constructor; [|assumption].
  intros Hin. rewrite Forall_forall in Hall. exact (pix_lt_irrefl a (Hall a Hin)).
Qed.

Lemma unmark_px m ps r c :
  NoDup ps ->
  px (unmark m ps) r c = true <-> px m r c = true /\ ~ In (r, c) ps.
Proof.
  intros Hnd. unfold unmark. destruct (in_dec pix_eq_dec (r, c) ps)
    as [Hin|Hnin].
  - apply In_nth_error in Hin as Hk. destruct Hk as (k & Hk).
    rewrite (idx_assign_nth m ps (map (fun _ => false) ps) k r c false); auto.
    + split; [discriminate|tauto].
    + now rewrite map_length.
    + now rewrite nth_error_map, Hk.
  - rewrite idx_assign_other by assumption. tauto.
Qed.

Lemma where_one_spec nr nc (P Q : Z -> Z -> Prop) bad iso :
  pixels_where nr nc P bad -> length iso = length bad ->
  (forall k r c v, nth_error bad k = Some (r, c) -> nth_error iso k = Some v ->
     (v = 1 /\ Q r c) \/ (v = 0 /\ ~ Q r c)) ->
  pixels_where nr nc (fun r c => P r c /\ Q r c) (where_one bad iso) /\
  (existsb (fun f => f =? 1) iso = true <-> where_one bad iso <> []).
Proof.
  intros [Hs He] Hlen Hiso.
  assert (Hin : forall p, In p (where_one bad iso) <->
      exists k, nth_error bad k = Some p /\ nth_error iso k = Some 1).
  { intros p. unfold where_one. rewrite in_map_iff. split.
    - intros ([p' v] & <- & Hp). apply filter_In in Hp as [Hp Hv]. cbn in Hv.
      apply In_nth_error in Hp as (k & Hk).
      assert (Hb : nth_error bad k = Some p' /\ nth_error iso k = Some v).
      { clear -Hk. revert iso k Hk. induction bad as [|x l IH]; intros [|y l'] [|k] Hk; cbn in *;
          try discriminate.
        - injection Hk as -> ->. auto.
        - now apply IH. }
      exists k. cbn. destruct Hb as [-> ->]. split; [reflexivity|]. f_equal. lia.
    - intros (k & Hb & Hi). exists (p, 1). split; [reflexivity|]. apply filter_In.
      split; [|reflexivity]. eapply nth_error_In. apply nth_error_combine; eassumption. }
  split.
  - split.
    + unfold where_one. clear -Hs. revert iso.
      induction Hs as [|a l Hs IH Hall]; intros [|v iso]; cbn; try constructor.
      destruct (v =? 1); [|apply IH]. constructor; [apply IH|].
      apply Forall_forall. intros x Hx. apply in_map_iff in Hx as ([y z] & <- & Hy).
      apply filter_In in Hy as [Hy _]. apply in_combine_l in Hy.
      rewrite Forall_forall in Hall. now apply Hall.
    + intros r c. rewrite Hin. split.
      * intros (k & Hb & Hi). destruct (Hiso k r c 1 Hb Hi) as [[_ HQ]|[C _]]; [|discriminate].
        apply nth_error_In in Hb. apply He in Hb. tauto.
      * intros (Hrc & HP & HQ). assert (Hb : In (r, c) bad) by (apply He; auto).
        apply In_nth_error in Hb as (k & Hk). exists k. split; [assumption|].
        destruct (nth_error iso k) as [v|] eqn:Ev.
        -- destruct (Hiso k r c v Hk Ev) as [[-> _]|[_ C]]; [reflexivity|contradiction].
        -- apply nth_error_None in Ev. assert (nth_error bad k <> None) by congruence.
           apply nth_error_Some in H. lia.
  - rewrite existsb_exists. split.
    + intros (v & Hv & E). assert (v = 1) by lia. subst v.
      apply In_nth_error in Hv as (k & Hk).
      destruct (nth_error bad k) as [p|] eqn:Eb.
      * intros C. assert (Hp : In p (where_one bad iso)) by (apply Hin; eauto).
        rewrite C in Hp. destruct Hp.
      * apply nth_error_None in Eb. assert (nth_error iso k <> None) by congruence.
        apply nth_error_Some in H. lia.
    + intros Hne. destruct (where_one bad iso) as [|p l] eqn:E; [contradiction|].
      assert (Hp : In p (p :: l)) by now left. rewrite Hin in Hp.
      destruct Hp as (k & _ & Hi). exists 1. split; [|reflexivity].
      eapply nth_error_In. eassumption.
Qed.

Section Core.
Context {F : Type} `{FO : FloatOps F}.
Context {RNG : Type} (normal : RNG -> nat -> F -> list F * RNG).
Context (interpolator : list (Z * Z) -> list F -> result (Z * Z -> F)).
Context (median : list F -> F).
Context (normal_length : forall r n s, length (fst (normal r n s)) = n).

(** Interpolating over the mask [m] whose bad pixels are listed. *)
Lemma mask_assign_bad (im : img F) m bad f :
  pixels_where (nrows m) (ncols m) (fun r c => px m r c = true) bad ->
  exists out, mask_assign im m (map f bad) = Ok out /\
    nrows out = nrows im /\ ncols out = ncols im /\
    forall r c, px out r c = if inbb (nrows m) (ncols m) r c && px m r c then f (r, c) else px im r c.
Proof.
  intros Hbad. pose proof (pixels_where_unique _ _ _ _ _ Hbad (true_pix_where m)) as ->.
  unfold mask_assign. rewrite map_length, Nat.eqb_refl. eexists. split; [reflexivity|].
  split; [reflexivity|]. split; [reflexivity|]. intros r c. cbn [px].
  assert (Hnd : NoDup (map fst (combine (true_pix m) (map f (true_pix m))))).
  { rewrite map_fst_combine by now rewrite map_length. apply NoDup_true_pix. }
  destruct (inbb (nrows m) (ncols m) r c && px m r c) eqn:E.
  - assert (Hin : In (r, c) (true_pix m)).
    { apply In_true_pix. unfold inbb, inb in *. lia. }
    replace (pix_lookup _ r c) with (Some (f (r, c))); [reflexivity|]. symmetry.
    apply pix_lookup_NoDup; [assumption|].
    apply In_nth_error in Hin as (k & Hk). eapply nth_error_In with (n := k).
    apply nth_error_combine; [assumption|]. now rewrite nth_error_map, Hk.
  - replace (pix_lookup _ r c) with (@None F); [reflexivity|]. symmetry.
    apply pix_lookup_None. rewrite map_fst_combine by now rewrite map_length.
    rewrite In_true_pix. unfold inbb, inb in *. lia.
Qed.

(** What is known before the interpolant is built. *)
Record prepared (bad : img bool) (fill : bool) (buff iso_buff : Z)
  (bad2 : img bool) (bad_yx good_yx filled : list (Z * Z)) : Prop := {
  pr_shape : nrows bad2 = nrows bad /\ ncols bad2 = ncols bad;
  pr_filled : pixels_where (nrows bad) (ncols bad)
    (fun r c => px bad r c = true /\ (fill = true /\ isolated bad iso_buff r c)) filled;
  pr_todo : forall r c, inb bad r c ->
    (px bad2 r c = true <-> to_interpolate bad fill iso_buff r c);
  pr_bad : pixels_where (nrows bad2) (ncols bad2) (fun r c => px bad2 r c = true) bad_yx;
  pr_good : pixels_where (nrows bad) (ncols bad)
    (fun r c => ~ to_interpolate bad fill iso_buff r c /\
       exists r' c', inb bad r' c' /\ to_interpolate bad fill iso_buff r' c' /\
         within buff r' c' r c) good_yx
}.

Lemma prepared_fill bad buff iso_buff bad_yx bad_iso good_yx :
  find_support bad buff iso_buff = Ok (bad_yx, bad_iso, good_yx) ->
  let filled := where_one bad_yx bad_iso in
  (existsb (fun f => f =? 1) bad_iso = true <-> filled <> []) /\
  exists bad_yx2 iso2 good_yx2,
    find_support (unmark bad filled) buff iso_buff = Ok (bad_yx2, iso2, good_yx2) /\
    prepared bad true buff iso_buff (unmark bad filled) bad_yx2 good_yx2 filled.
Proof.
  intros E filled.
  destruct (find_support_spec bad buff iso_buff) as (b & i & g & E' & Hb & Hl & Hi & _).
  rewrite E in E'. injection E' as <- <- <-.
  destruct (where_one_spec _ _ _ _ _ _ Hb Hl Hi) as [Hw Hex]. fold filled in Hw, Hex.
  split; [exact Hex|].
  destruct (find_support_spec (unmark bad filled) buff iso_buff)
    as (b2 & i2 & g2 & E2 & Hb2 & _ & _ & Hg2).
  exists b2, i2, g2. split; [assumption|].
  pose proof (pixels_where_NoDup _ _ _ _ Hw) as Hnd.
  assert (Htodo : forall r c, inb bad r c ->
    (px (unmark bad filled) r c = true <-> to_interpolate bad true iso_buff r c)).
  { intros r c Hin. rewrite unmark_px by assumption. unfold to_interpolate.
    destruct Hw as [_ Hw]. rewrite Hw. unfold inb in Hin. tauto. }
  constructor.
  - split; reflexivity.
  - destruct Hw as [Hs Hw]. split; [assumption|]. intros r c. rewrite Hw. intuition.
  - exact Htodo.
  - exact Hb2.
  - destruct Hg2 as [Hs Hg2]. split; [assumption|]. intros r c. rewrite Hg2.
    change (nrows (unmark bad filled)) with (nrows bad).
    change (ncols (unmark bad filled)) with (ncols bad).
    split; intros [Hin [H1 (r' & c' & H2 & H3)]]; (split; [exact Hin|]).
    + split; [rewrite <- Htodo by exact Hin; now rewrite H1|].
      destruct H2 as [H2 H2']. exists r', c'.
      split; [exact H2|]. split; [|assumption]. now apply Htodo.
    + split.
      * rewrite <- Htodo in H1 by exact Hin. now apply not_true_iff_false.
      * destruct H3 as [H3 H3']. exists r', c'. split; [|assumption].
        split; [exact H2|]. now apply Htodo.
Qed.

Lemma prepared_nofill bad buff iso_buff bad_yx bad_iso good_yx :
  find_support bad buff iso_buff = Ok (bad_yx, bad_iso, good_yx) ->
  prepared bad false buff iso_buff bad bad_yx good_yx [].
Proof.
  intros E. destruct (find_support_spec bad buff iso_buff) as (b & i & g & E' & Hb & _ & _ & Hg).
  rewrite E in E'. injection E' as <- <- <-.
  assert (Htodo : forall r c, to_interpolate bad false iso_buff r c <-> px bad r c = true).
  { intros r c. unfold to_interpolate. intuition discriminate. }
  constructor.
  - auto.
  - split; [constructor|]. intros r c. split; [intros []|]. intros (_ & _ & C & _). discriminate.
  - intros r c _. now rewrite Htodo.
  - exact Hb.
  - destruct Hg as [Hs Hg]. split; [assumption|]. intros r c. rewrite Hg, Htodo.
    split; intros [Hin [H1 (r' & c' & H2 & H3)]]; (split; [exact Hin|]).
    + split; [now rewrite H1|]. destruct H2 as [H2 H2'].
      exists r', c'. rewrite Htodo. auto.
    + rewrite Htodo in H3. split; [now apply not_true_iff_false|].
      destruct H3. exists r', c'. split; [split|]; assumption.
Qed.

(** If nothing is isolated, filling changes nothing. *)
Lemma prepared_fill_none bad buff iso_buff bad_yx bad_iso good_yx :
  find_support bad buff iso_buff = Ok (bad_yx, bad_iso, good_yx) ->
  existsb (fun f => f =? 1) bad_iso = false ->
  prepared bad true buff iso_buff bad bad_yx good_yx [].
Proof.
  intros E Hex. destruct (find_support_spec bad buff iso_buff) as (b & i & g & E' & Hb & Hl & Hi & Hg).
  rewrite E in E'. injection E' as <- <- <-.
  destruct (where_one_spec _ _ _ _ _ _ Hb Hl Hi) as [Hw Hex'].
  assert (Hnil : where_one bad_yx bad_iso = []).
  { destruct (where_one bad_yx bad_iso); [reflexivity|].
    assert (existsb (fun f => f =? 1) bad_iso = true) by (apply Hex'; discriminate). congruence. }
  rewrite Hnil in Hw.
  assert (Hno : forall r c, inb bad r c -> px bad r c = true -> ~ isolated bad iso_buff r c).
  { intros r c Hin Hpx Hiso. destruct Hw as [_ Hw]. apply (Hw r c). auto. }
  assert (Htodo : forall r c, inb bad r c ->
            (to_interpolate bad true iso_buff r c <-> px bad r c = true)).
  { intros r c Hin. unfold to_interpolate. specialize (Hno r c Hin). intuition. }
  constructor.
  - auto.
  - destruct Hw as [Hs Hw]. split; [assumption|]. intros r c. rewrite Hw. intuition.
  - intros r c Hin. now rewrite Htodo.
  - exact Hb.
  - destruct Hg as [Hs Hg]. split; [assumption|]. intros r c. rewrite Hg.
    split; intros [Hin [H1 (r' & c' & H2 & H3)]]; (split; [exact Hin|]).
    + rewrite Htodo by exact Hin. split; [now rewrite H1|]. destruct H2 as [H2 H2'].
      exists r', c'. rewrite Htodo by exact H2. auto.
    + rewrite Htodo in H1 by exact Hin. rewrite Htodo in H3 by exact H2.
      split; [now apply not_true_iff_false|].
      destruct H3. exists r', c'. split; [split|]; assumption.
Qed.

(** Filling and interpolating one array. *)
Lemma core_spec bad fill buff iso_buff bad2 bad_yx good_yx filled draws image f out :
  prepared bad fill buff iso_buff bad2 bad_yx good_yx filled ->
  nrows image = nrows bad -> ncols image = ncols bad ->
  length draws = length filled ->
  interpolator good_yx (gather (idx_assign image filled draws) good_yx) = Ok f ->
  mask_assign (idx_assign image filled draws) bad2 (map f bad_yx) = Ok out ->
  interpolated interpolator image out filled draws
    (to_interpolate bad fill iso_buff) good_yx.
Proof.
  intros [Hsh Hfill Htodo Hbad Hgood] Hr Hc Hlen Ef Eout.
  destruct (mask_assign_bad (idx_assign image filled draws) bad2 bad_yx f Hbad)
    as (out' & E' & Hr' & Hc' & Hpx).
  rewrite Eout in E'. injection E' as <-.
  assert (Hin2 : forall r c, inbb (nrows bad2) (ncols bad2) r c = true <-> inb bad r c).
  { intros r c. unfold inbb, inb. lia. }
  assert (Hnt : forall r c, inb bad r c -> ~ to_interpolate bad fill iso_buff r c ->
             px out r c = px (idx_assign image filled draws) r c).
  { intros r c Hin Hn. rewrite Hpx. rewrite <- Htodo in Hn by assumption.
    apply not_true_iff_false in Hn. now rewrite Hn, andb_false_r. }
  constructor.
  - auto.
  - exists f. split.
    + rewrite <- Ef. f_equal. unfold gather. apply map_ext_in. intros [r c] Hin.
      apply Hgood in Hin as [Hin [Hn _]]. cbn. now apply Hnt.
    + intros r c Hin Ht. rewrite Hpx.
      assert (Hin' : inb bad r c) by (unfold inb in *; lia).
      rewrite (proj2 (Hin2 r c) Hin'). rewrite (proj2 (Htodo r c Hin') Ht). reflexivity.
  - split; [assumption|]. intros k r c v Hk Hv.
    pose proof (nth_error_In _ _ Hk) as Hin. apply Hfill in Hin as [Hin [Hpb Hiso]].
    rewrite Hnt; [|exact Hin|unfold to_interpolate; tauto].
    eapply idx_assign_nth; eauto. eapply pixels_where_NoDup. eassumption.
  - intros r c Hin Hn Hnf.
    rewrite Hnt by (assumption || (unfold inb in *; lia)). now apply idx_assign_other.
Qed.

Lemma idx_assign_nil {A} (a : img A) vals : idx_assign a [] vals = a.
Proof. unfold idx_assign. cbn. now destruct a. Qed.

Theorem at_mask_spec image bad maxfrac buff fill weight rng iso_buff out rng' :
  nrows image = nrows bad -> ncols image = ncols bad ->
  interpolate_image_at_mask normal interpolator image bad maxfrac buff fill weight rng iso_buff
    = Ok (Some out, rng') ->
  exists filled draws support,
    pixels_where (nrows bad) (ncols bad)
      (fun r c => px bad r c = true /\ (fill = true /\ isolated bad iso_buff r c)) filled /\
    pixels_where (nrows bad) (ncols bad)
      (fun r c => ~ to_interpolate bad fill iso_buff r c /\
         exists r' c', inb bad r' c' /\ to_interpolate bad fill iso_buff r' c' /\
           within buff r' c' r c) support /\
    (fill = true -> rng <> None /\ weight <> None) /\
    (forall w, weight = Some w ->
       drawn normal (fdiv fone (fsqrt w)) filled rng draws rng') /\
    (weight = None -> draws = [] /\ rng' = rng) /\
    interpolated interpolator image out filled draws
      (to_interpolate bad fill iso_buff) support.
Proof.
  intros Hr Hc. unfold interpolate_image_at_mask.
  destruct (fleb _ _ && _); [|discriminate].
  destruct (find_support bad buff iso_buff) as [[[bad_yx bad_iso] good_yx]|] eqn:Es;
    cbn [bind]; [|discriminate].
  destruct fill.
  - destruct rng as [r|]; [|discriminate]. destruct weight as [w|]; [|discriminate].
    destruct (prepared_fill bad buff iso_buff bad_yx bad_iso good_yx Es) as
      (Hex & b2 & i2 & g2 & E2 & Hprep).
    destruct (existsb _ bad_iso) eqn:Ex.
    + rewrite E2. cbn [bind].
      destruct (normal r _ _) as [draws r'] eqn:En. cbn [bind].
      destruct (interpolator g2 _) as [f|] eqn:Ef; cbn [bind]; [|discriminate].
      destruct (mask_assign _ _ _) as [o|] eqn:Eo; cbn [bind]; [|discriminate].
      intros [= <- <-].
      assert (Hlen : length draws = length (where_one bad_yx bad_iso)).
      { pose proof (normal_length r (length (where_one bad_yx bad_iso)) (fdiv fone (fsqrt w))).
        now rewrite En in H. }
      exists (where_one bad_yx bad_iso), draws, g2.
      split; [exact (pr_filled _ _ _ _ _ _ _ _ Hprep)|].
      split; [exact (pr_good _ _ _ _ _ _ _ _ Hprep)|].
      split; [split; discriminate|]. split; [|split; [discriminate|]].
      * intros w' [= <-]. right. split; [now apply Hex|]. exists r, r'. auto.
      * eapply core_spec; eauto.
    + cbn [bind].
      destruct (interpolator good_yx _) as [f|] eqn:Ef; cbn [bind]; [|discriminate].
      destruct (mask_assign _ _ _) as [o|] eqn:Eo; cbn [bind]; [|discriminate].
      intros [= <- <-].
      pose proof (prepared_fill_none _ _ _ _ _ _ Es Ex) as Hp.
      exists [], [], good_yx.
      split; [exact (pr_filled _ _ _ _ _ _ _ _ Hp)|].
      split; [exact (pr_good _ _ _ _ _ _ _ _ Hp)|].
      split; [split; discriminate|]. split; [|split; [discriminate|]].
      * intros w' _. left. auto.
      * eapply core_spec; eauto; rewrite idx_assign_nil; eassumption.
  - cbn [bind].
    destruct (interpolator good_yx _) as [f|] eqn:Ef; cbn [bind]; [|discriminate].
    destruct (mask_assign _ _ _) as [o|] eqn:Eo; cbn [bind]; [|discriminate].
    intros [= <- <-].
    pose proof (prepared_nofill _ _ _ _ _ _ Es) as Hp.
    exists [], [], good_yx.
    split; [exact (pr_filled _ _ _ _ _ _ _ _ Hp)|].
    split; [exact (pr_good _ _ _ _ _ _ _ _ Hp)|].
    split; [discriminate|]. split; [|split; [auto|]].
    + intros w' _. left. auto.
    + eapply core_spec; eauto; rewrite idx_assign_nil; eassumption.
Qed.


(** *** Image and noise fields *)

Lemma interp_one_spec bad fill buff iso_buff bad2 bad_yx good_yx filled nf med rng image out rng' :
  prepared bad fill buff iso_buff bad2 bad_yx good_yx filled ->
  nrows image = nrows bad -> ncols image = ncols bad ->
  (nf = None /\ filled = [] \/ nf = Some filled /\ filled <> []) ->
  interp_one normal interpolator image bad_yx good_yx bad2 nf med rng = Ok (out, rng') ->
  exists draws,
    drawn normal (fdiv fone (fsqrt med)) filled rng draws rng' /\
    interpolated interpolator image out filled draws
      (to_interpolate bad fill iso_buff) good_yx.
Proof.
  intros Hp Hr Hc Hnf. unfold interp_one.
  destruct Hnf as [[-> ->]|[-> Hne]].
  - cbn [bind].
    destruct (interpolator good_yx _) as [f|] eqn:Ef; cbn [bind]; [|discriminate].
    destruct (mask_assign _ _ _) as [o|] eqn:Eo; cbn [bind]; [|discriminate].
    intros [= <- <-]. exists []. split; [left; auto|].
    eapply core_spec; eauto; rewrite idx_assign_nil; eassumption.
  - destruct rng as [r|]; [|discriminate].
    destruct (normal r _ _) as [draws r'] eqn:En. cbn [bind].
    destruct (interpolator good_yx _) as [f|] eqn:Ef; cbn [bind]; [|discriminate].
    destruct (mask_assign _ _ _) as [o|] eqn:Eo; cbn [bind]; [|discriminate].
    intros [= <- <-]. exists draws. split.
    + right. split; [assumption|]. exists r, r'. auto.
    + eapply core_spec; eauto.
      pose proof (normal_length r (length filled) (fdiv fone (fsqrt med))). now rewrite En in H.
Qed.

Lemma interp_noises_spec bad fill buff iso_buff bad2 bad_yx good_yx filled nf med :
  prepared bad fill buff iso_buff bad2 bad_yx good_yx filled ->
  (nf = None /\ filled = [] \/ nf = Some filled /\ filled <> []) ->
  forall noises rng outs rng',
  (forall n, In n noises -> nrows n = nrows bad /\ ncols n = ncols bad) ->
  interp_noises normal interpolator noises bad_yx good_yx bad2 nf med rng = Ok (outs, rng') ->
  interpolated_all interpolator normal (fdiv fone (fsqrt med)) filled
    (to_interpolate bad fill iso_buff) good_yx noises outs rng rng'.
Proof.
  intros Hp Hnf. induction noises as [|n noises IH]; intros rng outs rng' Hsh; cbn [interp_noises].
  - intros [= <- <-]. constructor.
  - destruct (interp_one _ _ _ _ _ _ _ _ _) as [[o rng1]|] eqn:E1; cbn [bind]; [|discriminate].
    destruct (interp_noises _ _ _ _ _ _ _ _ _) as [[os rng2]|] eqn:E2; cbn [bind]; [|discriminate].
    intros [= <- <-].
    destruct (Hsh n (or_introl eq_refl)) as [Hr Hc].
    destruct (interp_one_spec _ _ _ _ _ _ _ _ _ _ _ _ _ _ Hp Hr Hc Hnf E1) as (draws & Hd & Hi).
    econstructor; [exact Hd|exact Hi|]. apply IH; [|assumption]. intros; apply Hsh; now right.
Qed.

Theorem and_noise_spec image noises weight bmask flags rng maxfrac buff fill iso_buff out outs rng' :
  nrows image = nrows weight -> ncols image = ncols weight ->
  (forall n, In n noises -> nrows n = nrows weight /\ ncols n = ncols weight) ->
  let bad := bad_pixels weight bmask flags in
  (exists r c, is_bad bad r c) ->
  interpolate_image_and_noise normal interpolator median image noises weight bmask flags rng
    maxfrac buff fill iso_buff = Ok (Some (out, outs), rng') ->
  exists filled support good_list,
    pixels_where (nrows bad) (ncols bad)
      (fun r c => px bad r c = true /\ (fill = true /\ isolated bad iso_buff r c)) filled /\
    pixels_where (nrows bad) (ncols bad)
      (fun r c => ~ to_interpolate bad fill iso_buff r c /\
         exists r' c', inb bad r' c' /\ to_interpolate bad fill iso_buff r' c' /\
           within buff r' c' r c) support /\
    pixels_where (nrows bad) (ncols bad) (fun r c => px bad r c = false) good_list /\
    let scale := fdiv fone (fsqrt (median (map (fun p => px weight (fst p) (snd p)) good_list))) in
    interpolated_all interpolator normal scale filled (to_interpolate bad fill iso_buff) support
      (image :: noises) (out :: outs) rng rng'.
Proof.
  intros Hr Hc Hns bad Hany. unfold interpolate_image_and_noise.
  change (imap2 _ weight bmask) with bad.
  replace (np_any bad) with true by (symmetry; now apply np_any_spec).
  destruct (fltb _ _ || np_all bad); [discriminate|].
  set (good_list := true_pix (imap negb bad)).
  assert (Hgl : pixels_where (nrows bad) (ncols bad) (fun r c => px bad r c = false) good_list).
  { destruct (true_pix_where (imap negb bad)) as [Hs He]. split; [exact Hs|].
    intros r c. unfold good_list. rewrite He. cbn. now rewrite negb_true_iff. }
  set (med := median (gather weight good_list)).
  destruct (find_support bad buff iso_buff) as [[[bad_yx bad_iso] good_yx]|] eqn:Es;
    cbn [bind]; [|discriminate].
  assert (Hfin : forall bad2 b2 g2 nf filled,
    prepared bad fill buff iso_buff bad2 b2 g2 filled ->
    (nf = None /\ filled = [] \/ nf = Some filled /\ filled <> []) ->
    ('(im, rng1) <- interp_one normal interpolator image b2 g2 bad2 nf med rng ;;
     '(ns, rng2) <- interp_noises normal interpolator noises b2 g2 bad2 nf med rng1 ;;
     Ok (Some (im, ns), rng2)) = Ok (Some (out, outs), rng') ->
    exists filled support good_list,
    pixels_where (nrows bad) (ncols bad)
      (fun r c => px bad r c = true /\ (fill = true /\ isolated bad iso_buff r c)) filled /\
    pixels_where (nrows bad) (ncols bad)
      (fun r c => ~ to_interpolate bad fill iso_buff r c /\
         exists r' c', inb bad r' c' /\ to_interpolate bad fill iso_buff r' c' /\
           within buff r' c' r c) support /\
    pixels_where (nrows bad) (ncols bad) (fun r c => px bad r c = false) good_list /\
    let scale := fdiv fone (fsqrt (median (map (fun p => px weight (fst p) (snd p)) good_list))) in
    interpolated_all interpolator normal scale filled (to_interpolate bad fill iso_buff) support
      (image :: noises) (out :: outs) rng rng').
  { intros bad2 b2 g2 nf filled Hp Hnf.
    destruct (interp_one _ _ _ _ _ _ _ _ _) as [[o rng1]|] eqn:E1; cbn [bind]; [|discriminate].
    destruct (interp_noises _ _ _ _ _ _ _ _ _) as [[os rng2]|] eqn:E2; cbn [bind]; [|discriminate].
    intros [= <- <- <-]. exists filled, g2, good_list.
    split; [exact (pr_filled _ _ _ _ _ _ _ _ Hp)|].
    split; [exact (pr_good _ _ _ _ _ _ _ _ Hp)|].
    split; [exact Hgl|]. cbv zeta.
    change (map _ good_list) with (gather weight good_list). fold med.
    destruct (interp_one_spec _ _ _ _ _ _ _ _ _ _ _ _ _ _ Hp Hr Hc Hnf E1) as (draws & Hd & Hi).
    econstructor; [exact Hd|exact Hi|].
    eapply interp_noises_spec; eauto. }
  destruct fill.
  - destruct rng as [r|]; [|discriminate].
    destruct (prepared_fill bad buff iso_buff bad_yx bad_iso good_yx Es) as
      (Hex & b2 & i2 & g2 & E2 & Hprep).
    destruct (existsb _ bad_iso) eqn:Ex; [|discriminate].
    rewrite E2. cbn [bind]. apply (Hfin _ _ _ _ _ Hprep). right. split; [reflexivity|]. now apply Hex.
  - cbn [bind]. apply (Hfin _ _ _ _ []); [|left; auto].
    eapply prepared_nofill; eassumption.
Qed.

(** *** Two runs on images that agree on the good pixels *)

Definition agree_good (bad : img bool) (a b : img F) : Prop :=
  nrows b = nrows a /\ ncols b = ncols a /\
  forall r c, inb bad r c -> px bad r c = false -> px b r c = px a r c.

Lemma core_two bad fill buff iso_buff bad2 bad_yx good_yx filled draws im1 im2 :
  prepared bad fill buff iso_buff bad2 bad_yx good_yx filled ->
  nrows im1 = nrows bad -> ncols im1 = ncols bad ->
  agree_good bad im1 im2 ->
  length draws = length filled ->
  same_outcome img_eq
    (f <- interpolator good_yx (gather (idx_assign im1 filled draws) good_yx) ;;
     mask_assign (idx_assign im1 filled draws) bad2 (map f bad_yx))
    (f <- interpolator good_yx (gather (idx_assign im2 filled draws) good_yx) ;;
     mask_assign (idx_assign im2 filled draws) bad2 (map f bad_yx)).
Proof.
  intros Hp Hr Hc (Hr2 & Hc2 & Hag) Hlen.
  pose proof (pixels_where_NoDup _ _ _ _ (pr_filled _ _ _ _ _ _ _ _ Hp)) as Hnd.
  assert (Heq : forall r c, inb bad r c -> px bad2 r c = false ->
     px (idx_assign im2 filled draws) r c = px (idx_assign im1 filled draws) r c).
  { intros r c Hin Hb2.
    destruct (in_dec pix_eq_dec (r, c) filled) as [Hf|Hf].
    - apply In_nth_error in Hf as (k & Hk).
      destruct (nth_error draws k) as [v|] eqn:Ev.
      + rewrite (idx_assign_nth im1 filled draws k r c v) by auto.
        now rewrite (idx_assign_nth im2 filled draws k r c v) by auto.
      + apply nth_error_None in Ev. assert (nth_error filled k <> None) by congruence.
        apply nth_error_Some in H. lia.
    - rewrite !idx_assign_other by assumption. apply Hag; [assumption|].
      destruct (px bad r c) eqn:E; [|reflexivity]. exfalso. apply Hf.
      apply (pr_filled _ _ _ _ _ _ _ _ Hp). split; [exact Hin|].
      split; [exact E|].
      assert (Hnt : ~ to_interpolate bad fill iso_buff r c).
      { rewrite <- (pr_todo _ _ _ _ _ _ _ _ Hp) by assumption. congruence. }
      unfold to_interpolate in Hnt.
      (* isolation is decided by the search *)
      destruct fill.
      + split; [reflexivity|]. intros r' c' Hg Hw.
        apply Hnt. split; [assumption|]. intros [_ Hiso]. exact (Hiso r' c' Hg Hw).
      + exfalso. apply Hnt. split; [assumption|]. intros [C _]. discriminate. }
  assert (Hg : gather (idx_assign im2 filled draws) good_yx = gather (idx_assign im1 filled draws) good_yx).
  { unfold gather. apply map_ext_in. intros [r c] Hin. cbn [fst snd].
    apply (pr_good _ _ _ _ _ _ _ _ Hp) in Hin as [Hin [Hn _]]. apply Heq; [exact Hin|].
    rewrite <- (pr_todo _ _ _ _ _ _ _ _ Hp) in Hn by exact Hin. now apply not_true_iff_false. }
  rewrite Hg.
  destruct (interpolator good_yx _) as [f|e]; cbn [bind]; [|reflexivity].
  destruct (mask_assign_bad (idx_assign im1 filled draws) bad2 bad_yx f (pr_bad _ _ _ _ _ _ _ _ Hp))
    as (o1 & -> & R1 & C1 & P1).
  destruct (mask_assign_bad (idx_assign im2 filled draws) bad2 bad_yx f (pr_bad _ _ _ _ _ _ _ _ Hp))
    as (o2 & -> & R2 & C2 & P2).
  cbn. split; [rewrite R1, R2; cbn; congruence|]. split; [rewrite C1, C2; cbn; congruence|].
  intros r c Hin. rewrite P1, P2.
  assert (Hinb : inb bad r c).
  { unfold inb in *. rewrite R1, C1 in Hin. cbn in Hin. lia. }
  destruct (px bad2 r c) eqn:E.
  - replace (inbb (nrows bad2) (ncols bad2) r c) with true; [reflexivity|].
    destruct (pr_shape _ _ _ _ _ _ _ _ Hp) as [-> ->]. unfold inbb, inb in *. lia.
  - rewrite andb_false_r. symmetry. now apply Heq.
Qed.

Theorem at_mask_two bad im1 im2 maxfrac buff fill weight rng iso_buff :
  nrows im1 = nrows bad -> ncols im1 = ncols bad -> agree_good bad im1 im2 ->
  same_outcome (fun x y => opt_rel img_eq (fst x) (fst y) /\ snd x = snd y)
    (interpolate_image_at_mask normal interpolator im1 bad maxfrac buff fill weight rng iso_buff)
    (interpolate_image_at_mask normal interpolator im2 bad maxfrac buff fill weight rng iso_buff).
Proof.
  intros Hr Hc Hag. unfold interpolate_image_at_mask.
  destruct (fleb _ _ && _); [|split; reflexivity].
  destruct (find_support bad buff iso_buff) as [[[bad_yx bad_iso] good_yx]|] eqn:Es;
    cbn [bind]; [|reflexivity].
  assert (Hgen : forall bad2 b2 g2 filled draws rng',
    prepared bad fill buff iso_buff bad2 b2 g2 filled -> length draws = length filled ->
    same_outcome (fun x y => opt_rel img_eq (fst x) (fst y) /\ snd x = snd y)
      (f <- interpolator g2 (gather (idx_assign im1 filled draws) g2) ;;
       out <- mask_assign (idx_assign im1 filled draws) bad2 (map f b2) ;; Ok (Some out, rng'))
      (f <- interpolator g2 (gather (idx_assign im2 filled draws) g2) ;;
       out <- mask_assign (idx_assign im2 filled draws) bad2 (map f b2) ;;
       Ok (Some out, rng' : option RNG))).
  { intros bad2 b2 g2 filled draws rng' Hp Hlen.
    pose proof (core_two _ _ _ _ _ _ _ _ _ _ _ Hp Hr Hc Hag Hlen) as H2.
    destruct (interpolator g2 (gather (idx_assign im1 filled draws) g2)) as [f1|e1],
      (interpolator g2 (gather (idx_assign im2 filled draws) g2)) as [f2|e2]; cbn [bind] in *.
    - destruct (mask_assign (idx_assign im1 filled draws) _ _) as [o1|], 
        (mask_assign (idx_assign im2 filled draws) _ _) as [o2|]; cbn in *; auto.
    - destruct (mask_assign (idx_assign im1 filled draws) _ _); cbn in *; auto.
    - destruct (mask_assign (idx_assign im2 filled draws) _ _); cbn in *; auto.
    - cbn in *. assumption. }
  destruct fill.
  - destruct rng as [r|]; [|reflexivity]. destruct weight as [w|]; [|reflexivity].
    destruct (prepared_fill bad buff iso_buff bad_yx bad_iso good_yx Es) as
      (Hex & b2 & i2 & g2 & E2 & Hprep).
    destruct (existsb _ bad_iso) eqn:Ex.
    + rewrite E2. cbn [bind].
      destruct (normal r _ _) as [draws r'] eqn:En. cbn [bind].
      apply Hgen; [assumption|].
      pose proof (normal_length r (length (where_one bad_yx bad_iso)) (fdiv fone (fsqrt w))).
      now rewrite En in H.
    + cbn [bind]. pose proof (Hgen _ _ _ [] [] (Some r) (prepared_fill_none _ _ _ _ _ _ Es Ex) eq_refl) as H2.
      rewrite !idx_assign_nil in H2. exact H2.
  - cbn [bind]. pose proof (Hgen _ _ _ [] [] rng (prepared_nofill _ _ _ _ _ _ Es) eq_refl) as H2.
    rewrite !idx_assign_nil in H2. exact H2.
Qed.

Lemma interp_one_two bad fill buff iso_buff bad2 bad_yx good_yx filled nf med rng im1 im2 :
  prepared bad fill buff iso_buff bad2 bad_yx good_yx filled ->
  nrows im1 = nrows bad -> ncols im1 = ncols bad -> agree_good bad im1 im2 ->
  (nf = None /\ filled = [] \/ nf = Some filled /\ filled <> []) ->
  same_outcome (fun x y => img_eq (fst x) (fst y) /\ snd x = snd y)
    (interp_one normal interpolator im1 bad_yx good_yx bad2 nf med rng)
    (interp_one normal interpolator im2 bad_yx good_yx bad2 nf med rng).
Proof.
  intros Hp Hr Hc Hag Hnf. unfold interp_one.
  assert (Hgen : forall draws rng', length draws = length filled ->
    same_outcome (fun x y => img_eq (fst x) (fst y) /\ snd x = snd y)
      (f <- interpolator good_yx (gather (idx_assign im1 filled draws) good_yx) ;;
       out <- mask_assign (idx_assign im1 filled draws) bad2 (map f bad_yx) ;; Ok (out, rng'))
      (f <- interpolator good_yx (gather (idx_assign im2 filled draws) good_yx) ;;
       out <- mask_assign (idx_assign im2 filled draws) bad2 (map f bad_yx) ;;
       Ok (out, rng' : option RNG))).
  { intros draws rng' Hlen.
    pose proof (core_two _ _ _ _ _ _ _ _ _ _ _ Hp Hr Hc Hag Hlen) as H2.
    destruct (interpolator good_yx (gather (idx_assign im1 filled draws) good_yx)) as [f1|e1],
      (interpolator good_yx (gather (idx_assign im2 filled draws) good_yx)) as [f2|e2]; cbn [bind] in *.
    - destruct (mask_assign (idx_assign im1 filled draws) _ _) as [o1|], 
        (mask_assign (idx_assign im2 filled draws) _ _) as [o2|]; cbn in *; auto.
    - destruct (mask_assign (idx_assign im1 filled draws) _ _); cbn in *; auto.
    - destruct (mask_assign (idx_assign im2 filled draws) _ _); cbn in *; auto.
    - cbn in *. assumption. }
  destruct Hnf as [[-> ->]|[-> Hne]].
  - cbn [bind]. specialize (Hgen [] rng eq_refl). rewrite !idx_assign_nil in Hgen. exact Hgen.
  - destruct rng as [r|]; [|reflexivity].
    destruct (normal r _ _) as [draws r'] eqn:En. cbn [bind]. apply Hgen.
    pose proof (normal_length r (length filled) (fdiv fone (fsqrt med))). now rewrite En in H.
Qed.

Lemma interp_noises_two bad fill buff iso_buff bad2 bad_yx good_yx filled nf med :
  prepared bad fill buff iso_buff bad2 bad_yx good_yx filled ->
  (nf = None /\ filled = [] \/ nf = Some filled /\ filled <> []) ->
  forall ns1 ns2 rng,
  Forall2 (fun a b => nrows a = nrows bad /\ ncols a = ncols bad /\ agree_good bad a b) ns1 ns2 ->
  same_outcome (fun x y => Forall2 img_eq (fst x) (fst y) /\ snd x = snd y)
    (interp_noises normal interpolator ns1 bad_yx good_yx bad2 nf med rng)
    (interp_noises normal interpolator ns2 bad_yx good_yx bad2 nf med rng).
Proof.
  intros Hp Hnf ns1 ns2 rng Hall. revert rng.
  induction Hall as [|a b ns1 ns2 (Hr & Hc & Hag) Hall IH]; intros rng; cbn [interp_noises].
  - cbn. auto.
  - pose proof (interp_one_two _ _ _ _ _ _ _ _ _ med rng _ _ Hp Hr Hc Hag Hnf) as H1.
    destruct (interp_one _ _ a _ _ _ _ _ _) as [[o1 r1]|e1],
      (interp_one _ _ b _ _ _ _ _ _) as [[o2 r2]|e2]; cbn in H1; try contradiction;
      cbn [bind]; [|assumption].
    destruct H1 as [Ho ->]. specialize (IH r2).
    destruct (interp_noises _ _ ns1 _ _ _ _ _ _) as [[os1 s1]|e1],
      (interp_noises _ _ ns2 _ _ _ _ _ _) as [[os2 s2]|e2]; cbn in IH; try contradiction;
      cbn; [|assumption].
    destruct IH as [Hos ->]. split; [constructor; assumption|reflexivity].
Qed.

Theorem and_noise_two im1 im2 ns1 ns2 weight bmask flags rng maxfrac buff fill iso_buff :
  let bad := bad_pixels weight bmask flags in
  nrows im1 = nrows weight -> ncols im1 = ncols weight -> agree_good bad im1 im2 ->
  Forall2 (fun a b => nrows a = nrows weight /\ ncols a = ncols weight /\ agree_good bad a b) ns1 ns2 ->
  same_outcome
    (fun x y => opt_rel (fun p q => img_eq (fst p) (fst q) /\ Forall2 img_eq (snd p) (snd q))
                  (fst x) (fst y) /\ snd x = snd y)
    (interpolate_image_and_noise normal interpolator median im1 ns1 weight bmask flags rng
       maxfrac buff fill iso_buff)
    (interpolate_image_and_noise normal interpolator median im2 ns2 weight bmask flags rng
       maxfrac buff fill iso_buff).
Proof.
  intros bad Hr Hc Hag Hns. unfold interpolate_image_and_noise.
  change (imap2 _ weight bmask) with bad.
  destruct (np_any bad) eqn:Eany.
  - destruct (fltb _ _ || np_all bad); [split; reflexivity|].
    set (med := median _).
    destruct (find_support bad buff iso_buff) as [[[bad_yx bad_iso] good_yx]|] eqn:Es;
      cbn [bind]; [|reflexivity].
    assert (Hgen : forall bad2 b2 g2 nf filled,
      prepared bad fill buff iso_buff bad2 b2 g2 filled ->
      (nf = None /\ filled = [] \/ nf = Some filled /\ filled <> []) ->
      same_outcome
        (fun x y => opt_rel (fun p q => img_eq (fst p) (fst q) /\ Forall2 img_eq (snd p) (snd q))
                  (fst x) (fst y) /\ snd x = snd y)
        ('(im, rng1) <- interp_one normal interpolator im1 b2 g2 bad2 nf med rng ;;
         '(ns, rng2) <- interp_noises normal interpolator ns1 b2 g2 bad2 nf med rng1 ;;
         Ok (Some (im, ns), rng2))
        ('(im, rng1) <- interp_one normal interpolator im2 b2 g2 bad2 nf med rng ;;
         '(ns, rng2) <- interp_noises normal interpolator ns2 b2 g2 bad2 nf med rng1 ;;
         Ok (Some (im, ns), rng2))).
    { intros bad2 b2 g2 nf filled Hp Hnf.
      pose proof (interp_one_two _ _ _ _ _ _ _ _ _ med rng _ _ Hp Hr Hc Hag Hnf) as H1.
      destruct (interp_one _ _ im1 _ _ _ _ _ _) as [[o1 r1]|e1],
        (interp_one _ _ im2 _ _ _ _ _ _) as [[o2 r2]|e2]; cbn in H1; try contradiction;
        cbn [bind]; [|assumption].
      destruct H1 as [Ho ->].
      pose proof (interp_noises_two _ _ _ _ _ _ _ _ _ med Hp Hnf ns1 ns2 r2 Hns) as H2.
      destruct (interp_noises _ _ ns1 _ _ _ _ _ _) as [[os1 s1]|e1],
        (interp_noises _ _ ns2 _ _ _ _ _ _) as [[os2 s2]|e2]; cbn in H2; try contradiction;
        cbn; [|assumption].
      destruct H2 as [Hos ->]. auto. }
    destruct fill.
    + destruct rng as [r|]; [|reflexivity].
      destruct (prepared_fill bad buff iso_buff bad_yx bad_iso good_yx Es) as
        (Hex & b2 & i2 & g2 & E2 & Hprep).
      destruct (existsb _ bad_iso) eqn:Ex; [|reflexivity].
      rewrite E2. cbn [bind]. apply (Hgen _ _ _ _ _ Hprep). right. split; [reflexivity|]. now apply Hex.
    + cbn [bind]. apply (Hgen _ _ _ _ []); [|left; auto].
      eapply prepared_nofill; eassumption.
  - cbn. split; [|reflexivity].
    assert (Hsame : forall a b, nrows a = nrows weight -> ncols a = ncols weight ->
               agree_good bad a b -> img_eq a b).
    { intros a b Ha Hb (H1 & H2 & H3). split; [congruence|]. split; [congruence|].
      intros r c Hin. symmetry.
      assert (Hinb : inb bad r c) by (unfold inb, bad in *; cbn; lia).
      apply H3; [assumption|]. rewrite np_any_false in Eany. now apply Eany. }
    split; [now apply Hsame|]. clear -Hns Hsame.
    induction Hns as [|a b l l' (Ha & Hb & H) _ IH]; constructor; auto.
Qed.

(** *** When interpolation is refused *)

Theorem at_mask_none image bad maxfrac buff fill weight rng iso_buff :
  let frac := fdiv (fofZ (np_count bad)) (fofZ (isize bad)) in
  0 <= nrows bad -> 0 <= ncols bad ->
  (interpolate_image_at_mask normal interpolator image bad maxfrac buff fill weight rng iso_buff
     = Ok (None, rng) <->
   fleb frac maxfrac = false \/ forall r c, inb bad r c -> px bad r c = true).
Proof.
  intros frac Hnr Hnc. unfold interpolate_image_at_mask. fold frac.
  assert (Hall : np_count bad <? isize bad = false <->
     forall r c, inb bad r c -> px bad r c = true).
  { rewrite np_count_true_pix.
    assert (Hsz : isize bad = Z.of_nat (length (allpix (nrows bad) (ncols bad)))).
    { rewrite allpix_length. unfold isize. lia. }
    rewrite Hsz. unfold true_pix. split.
    - intros Hlt r c Hin.
      assert (Hincl : incl (allpix (nrows bad) (ncols bad))
                (filter (fun rc => px bad (fst rc) (snd rc)) (allpix (nrows bad) (ncols bad)))).
      { apply NoDup_length_incl; [apply NoDup_filter, NoDup_allpix|lia|].
        intros p Hp. now apply filter_In in Hp. }
      specialize (Hincl (r, c)). rewrite filter_In in Hincl.
      apply Hincl. apply In_allpix. exact Hin.
    - intros H. apply Z.ltb_ge. apply inj_le.
      apply NoDup_incl_length; [apply NoDup_allpix|].
      intros [r c] Hp. apply filter_In. split; [assumption|]. apply H.
      apply In_allpix in Hp. exact Hp. }
  destruct (fleb frac maxfrac) eqn:Ef; cbn [andb].
  - destruct (np_count bad <? isize bad) eqn:El.
    + split.
      * destruct (find_support bad buff iso_buff) as [[[bad_yx bad_iso] good_yx]|]; cbn [bind]; [|discriminate].
        destruct fill.
        -- destruct rng as [r|]; [|discriminate]. destruct weight as [w|]; [|discriminate].
           destruct (existsb _ _).
           ++ destruct (find_support _ _ _) as [[[? ?] ?]|]; cbn [bind]; [|discriminate].
              destruct (normal _ _ _). cbn [bind].
              destruct (interpolator _ _); cbn [bind]; [|discriminate].
              destruct (mask_assign _ _ _); cbn [bind]; discriminate.
           ++ cbn [bind]. destruct (interpolator _ _); cbn [bind]; [|discriminate].
              destruct (mask_assign _ _ _); cbn [bind]; discriminate.
        -- cbn [bind]. destruct (interpolator _ _); cbn [bind]; [|discriminate].
              destruct (mask_assign _ _ _); cbn [bind]; discriminate.
      * intros [?|Ha]; [discriminate|]. apply Hall in Ha. discriminate.
    + split; [|auto]. intros _. right. now apply Hall.
  - split; auto.
Qed.

Theorem and_noise_none image noises weight bmask flags rng maxfrac buff fill iso_buff :
  let bad := bad_pixels weight bmask flags in
  let frac := fdiv (fofZ (np_count bad)) (fofZ (isize bad)) in
  (exists r c, is_bad bad r c) ->
  (interpolate_image_and_noise normal interpolator median image noises weight bmask flags rng
     maxfrac buff fill iso_buff = Ok (None, rng) <->
   fltb maxfrac frac = true \/ forall r c, inb bad r c -> px bad r c = true).
Proof.
  intros bad frac Hany. unfold interpolate_image_and_noise.
  change (imap2 _ weight bmask) with bad. fold frac.
  replace (np_any bad) with true by (symmetry; now apply np_any_spec).
  rewrite <- np_all_spec.
  destruct (fltb maxfrac frac) eqn:Ef; cbn [orb]; [split; auto|].
  destruct (np_all bad) eqn:Ea; [split; auto|].
  split; [|intros [?|?]; discriminate].
  destruct (find_support bad buff iso_buff) as [[[bad_yx bad_iso] good_yx]|]; cbn [bind]; [|discriminate].
  assert (Hne : forall b2 g2 bad2 nf med,
    ('(im, rng1) <- interp_one normal interpolator image b2 g2 bad2 nf med rng ;;
     '(ns, rng2) <- interp_noises normal interpolator noises b2 g2 bad2 nf med rng1 ;;
     Ok (Some (im, ns), rng2)) <> Ok (None, rng)).
  { intros. destruct (interp_one _ _ _ _ _ _ _ _ _) as [[o1 r1]|e1]; cbn [bind]; [|discriminate].
    destruct (interp_noises _ _ _ _ _ _ _ _ _) as [[o2 r2]|e2]; cbn [bind]; discriminate. }
  destruct fill.
  - destruct rng as [r|]; [|discriminate].
    destruct (existsb _ _); [|discriminate].
    destruct (find_support _ _ _) as [[[? ?] ?]|]; cbn [bind]; [|discriminate].
    intros C. exfalso. exact (Hne _ _ _ _ _ C).
  - cbn [bind]. intros C. exfalso. exact (Hne _ _ _ _ _ C).
Qed.

Theorem and_noise_nothing_bad image noises weight bmask flags rng maxfrac buff fill iso_buff :
  let bad := bad_pixels weight bmask flags in
  (forall r c, inb bad r c -> px bad r c = false) ->
  interpolate_image_and_noise normal interpolator median image noises weight bmask flags rng
     maxfrac buff fill iso_buff = Ok (Some (image, noises), rng).
Proof.
  intros bad Hno. unfold interpolate_image_and_noise.
  change (imap2 _ weight bmask) with bad.
  replace (np_any bad) with false by (symmetry; now apply np_any_false). reflexivity.
Qed.

Theorem and_noise_unbound image noises weight bmask flags r maxfrac buff iso_buff :
  let bad := bad_pixels weight bmask flags in
  let frac := fdiv (fofZ (np_count bad)) (fofZ (isize bad)) in
  (exists r c, is_bad bad r c) ->
  fltb maxfrac frac = false ->
  (exists r c, is_good bad r c) ->
  (forall r c, is_bad bad r c -> ~ isolated bad iso_buff r c) ->
  interpolate_image_and_noise normal interpolator median image noises weight bmask flags (Some r)
     maxfrac buff true iso_buff = Raise UnboundLocalError.
Proof.
  intros bad frac Hany Hfrac (r0 & c0 & Hin0 & Hg0) Hiso. unfold interpolate_image_and_noise.
  change (imap2 _ weight bmask) with bad. fold frac.
  replace (np_any bad) with true by (symmetry; now apply np_any_spec).
  rewrite Hfrac. cbn [orb].
  replace (np_all bad) with false by (symmetry; apply np_all_false; eauto).
  destruct (find_support_spec bad buff iso_buff) as (b & i & g & E & Hb & Hl & Hi & _).
  rewrite E. cbn [bind].
  replace (existsb (fun f => f =? 1) i) with false; [reflexivity|].
  symmetry. apply not_true_iff_false. rewrite existsb_exists. intros (v & Hv & Ev).
  apply In_nth_error in Hv as (k & Hk).
  destruct (nth_error b k) as [[rr cc]|] eqn:Eb.
  - destruct (Hi k rr cc v Eb Hk) as [[_ HI]|[-> _]]; [|discriminate].
    apply nth_error_In in Eb. apply Hb in Eb as [Hin Hpx]. exact (Hiso rr cc (conj Hin Hpx) HI).
  - apply nth_error_None in Eb. assert (nth_error i k <> None) by congruence.
    apply nth_error_Some in H. lia.
Qed.

(** *** Success *)

Theorem at_mask_succeeds image bad maxfrac buff fill weight rng iso_buff :
  (forall ps vs, exists f, interpolator ps vs = Ok f) ->
  (fill = true -> rng <> None /\ weight <> None) ->
  exists o rng',
  interpolate_image_at_mask normal interpolator image bad maxfrac buff fill weight rng iso_buff
    = Ok (o, rng').
Proof.
  intros Hint Hopt. unfold interpolate_image_at_mask.
  destruct (fleb _ _ && _); [|eauto].
  destruct (find_support_spec bad buff iso_buff) as (b & i & g & E & Hb & _). rewrite E. cbn [bind].
  assert (Hgen : forall im bad2 b2 g2 (rng' : option RNG),
    pixels_where (nrows bad2) (ncols bad2) (fun r c => px bad2 r c = true) b2 ->
    exists o rng'',
      (f <- interpolator g2 (gather im g2) ;;
       out <- mask_assign im bad2 (map f b2) ;; Ok (Some out, rng')) = Ok (o, rng'')).
  { intros im bad2 b2 g2 rng' Hp.
    destruct (Hint g2 (gather im g2)) as (f & ->). cbn [bind].
    destruct (mask_assign_bad im bad2 b2 f Hp) as (o & -> & _). cbn [bind]. eauto. }
  destruct fill.
  - destruct Hopt as [H1 H2]; [reflexivity|].
    destruct rng as [r|]; [|congruence]. destruct weight as [w|]; [|congruence].
    destruct (existsb _ i).
    + destruct (find_support_spec (unmark bad (where_one b i)) buff iso_buff)
        as (b2 & i2 & g2 & E2 & Hb2 & _). rewrite E2. cbn [bind].
      destruct (normal r _ _) as [draws r']. cbn [bind]. now apply Hgen.
    + cbn [bind]. now apply Hgen.
  - cbn [bind]. now apply Hgen.
Qed.

Lemma interp_one_ok bad2 b2 g2 nf med image rng :
  (forall ps vs, exists f, interpolator ps vs = Ok f) ->
  pixels_where (nrows bad2) (ncols bad2) (fun r c => px bad2 r c = true) b2 ->
  (nf = None \/ rng <> None) ->
  exists o rng', interp_one normal interpolator image b2 g2 bad2 nf med rng = Ok (o, rng') /\
    (nf = None \/ rng' <> None).
Proof.
  intros Hint Hp Hopt. unfold interp_one. destruct nf as [ps|].
  - destruct rng as [r|]; [|destruct Hopt; congruence].
    destruct (normal r _ _) as [draws r']. cbn [bind].
    destruct (Hint g2 (gather (idx_assign image ps draws) g2)) as (f & ->). cbn [bind].
    destruct (mask_assign_bad (idx_assign image ps draws) bad2 b2 f Hp) as (o & -> & _). cbn [bind].
    eexists _, _. split; [reflexivity|]. right. discriminate.
  - cbn [bind]. destruct (Hint g2 (gather image g2)) as (f & ->). cbn [bind].
    destruct (mask_assign_bad image bad2 b2 f Hp) as (o & -> & _). cbn [bind]. eauto.
Qed.

Lemma interp_noises_ok bad2 b2 g2 nf med :
  (forall ps vs, exists f, interpolator ps vs = Ok f) ->
  pixels_where (nrows bad2) (ncols bad2) (fun r c => px bad2 r c = true) b2 ->
  forall noises rng, (nf = None \/ rng <> None) ->
  exists o rng', interp_noises normal interpolator noises b2 g2 bad2 nf med rng = Ok (o, rng').
Proof.
  intros Hint Hp. induction noises as [|n ns IH]; intros rng Hopt; cbn [interp_noises]; [eauto|].
  destruct (interp_one_ok bad2 b2 g2 nf med n rng Hint Hp Hopt) as (o & r' & -> & Ho). cbn [bind].
  destruct (IH r' Ho) as (os & r'' & ->). cbn [bind]. eauto.
Qed.

Theorem and_noise_succeeds image noises weight bmask flags rng maxfrac buff fill iso_buff :
  let bad := bad_pixels weight bmask flags in
  (forall ps vs, exists f, interpolator ps vs = Ok f) ->
  (fill = true -> rng <> None /\ exists r c, is_bad bad r c /\ isolated bad iso_buff r c) ->
  exists o rng',
  interpolate_image_and_noise normal interpolator median image noises weight bmask flags rng
    maxfrac buff fill iso_buff = Ok (o, rng').
Proof.
  intros bad Hint Hopt. unfold interpolate_image_and_noise.
  change (imap2 _ weight bmask) with bad.
  destruct (np_any bad); [|eauto].
  destruct (fltb _ _ || np_all bad); [eauto|].
  set (med := median _).
  destruct (find_support_spec bad buff iso_buff) as (b & i & g & E & Hb & Hl & Hi & _).
  rewrite E. cbn [bind].
  assert (Hgen : forall bad2 b2 g2 nf,
    pixels_where (nrows bad2) (ncols bad2) (fun r c => px bad2 r c = true) b2 ->
    (nf = None \/ rng <> None) ->
    exists o rng',
    ('(im, rng1) <- interp_one normal interpolator image b2 g2 bad2 nf med rng ;;
     '(ns, rng2) <- interp_noises normal interpolator noises b2 g2 bad2 nf med rng1 ;;
     Ok (Some (im, ns), rng2)) = Ok (o, rng')).
  { intros bad2 b2 g2 nf Hp Ho.
    destruct (interp_one_ok bad2 b2 g2 nf med image rng Hint Hp Ho) as (o & r' & -> & Ho'). cbn [bind].
    destruct (interp_noises_ok bad2 b2 g2 nf med Hint Hp noises r' Ho') as (os & r'' & ->).
    cbn [bind]. eauto. }
  destruct fill.
  - destruct Hopt as [H1 (r0 & c0 & Hbad & Hiso)]; [reflexivity|].
    destruct rng as [r|]; [|congruence].
    destruct (where_one_spec _ _ _ _ _ _ Hb Hl Hi) as [[_ Hw] Hex].
    replace (existsb (fun f => f =? 1) i) with true.
    + destruct (find_support_spec (unmark bad (where_one b i)) buff iso_buff)
        as (b2 & i2 & g2 & E2 & Hb2 & _). rewrite E2. cbn [bind]. apply Hgen; [assumption|].
      right. discriminate.
    + symmetry. apply Hex. intros C. assert (In (r0, c0) (where_one b i)) as Hin.
      { apply Hw. destruct Hbad. split; [assumption|]. split; assumption. }
      rewrite C in Hin. destruct Hin.
  - cbn [bind]. apply Hgen; auto.
Qed.

End Core.
