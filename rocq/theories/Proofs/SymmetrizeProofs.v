From Coq Require Import ZArith List Bool Lia ZifyBool.
From Verif Require Import Lib.Base Lib.Floats Model.Symmetrize Spec.SymSpec Proofs.BaseFacts.
Import ListNotations.
Open Scope Z_scope.

(** *** Bits *)

Lemma land_pow2 b i : 0 <= i -> (Z.land b (2 ^ i) =? 0) = negb (Z.testbit b i).
Proof.
  intros Hi. destruct (Z.testbit b i) eqn:E; cbn.
  - apply Z.eqb_neq. intros C.
    assert (Z.testbit (Z.land b (2 ^ i)) i = false) by (rewrite C; apply Z.testbit_0_l).
    rewrite Z.land_spec, E, Z.pow2_bits_true in H by lia. discriminate.
  - apply Z.eqb_eq. apply Z.bits_inj'. intros n Hn.
    rewrite Z.land_spec, Z.testbit_0_l.
    destruct (Z.eq_dec n i) as [->|ne].
    + now rewrite E.
    + rewrite (Z.pow2_bits_false i n) by lia. apply andb_false_r.
Qed.

Lemma lor_pow2_bits b i k : 0 <= i ->
  Z.testbit (Z.lor b (2 ^ i)) k = Z.testbit b k || (k =? i).
Proof.
  intros Hi. rewrite Z.lor_spec. f_equal.
  destruct (Z.eqb_spec k i) as [->|ne].
  - now apply Z.pow2_bits_true.
  - apply Z.pow2_bits_false. lia.
Qed.

Section P.
Context {F : Type} `{FO : FloatOps F}.
Context (rotate : F -> img F -> img F).

Lemma np_any_guard {A} (w : img A) (msk : img bool) (v : A) :
  nrows msk = nrows w -> ncols msk = ncols w ->
  forall i j, inb w i j ->
    px (if np_any msk then where_set w msk v else w) i j
    = if px msk i j then v else px w i j.
Proof.
  intros Hr Hc i j [Hi Hj]. destruct (np_any msk) eqn:E; [reflexivity|].
  rewrite np_any_false in E. rewrite E; [reflexivity|]. unfold inb. lia.
Qed.

(** *** Weights *)

Theorem sym_weight_none weight nsm :
  nrows weight = ncols weight -> fits nsm weight ->
  exists w', symmetrize_weight rotate weight None nsm = Ok w' /\
  nrows w' = nrows weight /\ ncols w' = ncols weight /\
  forall i j, inb weight i j ->
    px w' i j =
    let '(r, c) := rot_source (nrows weight) i j in
    if zero_weight_at weight nsm r c then fzero else px weight i j.
Proof.
  intros Hsq Hfit. unfold symmetrize_weight.
  replace (nrows weight =? ncols weight) with true by lia.
  cbn [negb]. eexists. split; [reflexivity|].
  split; [now destruct (np_any _)|]. split; [now destruct (np_any _)|].
  intros i j Hin. rewrite np_any_guard; [|cbn; lia..|assumption].
  unfold zero_weight_at. cbn -[Z.sub]. rewrite Hsq.
  destruct nsm as [m|]; cbn -[Z.sub] in *; [|reflexivity].
  destruct Hfit as [_ ->]. reflexivity.
Qed.

Theorem sym_weight_angle weight a nsm :
  nrows weight = ncols weight -> fits nsm weight ->
  exists w', symmetrize_weight rotate weight (Some a) nsm = Ok w' /\
  nrows w' = nrows weight /\ ncols w' = ncols weight /\
  let rotated := rotate a (indicator (nrows weight) (ncols weight)
                             (zero_weight_at weight nsm)) in
  ((forall r c, inb weight r c -> zero_weight_at weight nsm r c = false) -> w' = weight) /\
  ((exists r c, inb weight r c /\ zero_weight_at weight nsm r c = true) ->
   forall i j, inb weight i j ->
     px w' i j = if fltb fzero (px rotated i j) then fzero else px weight i j).
Proof.
  intros Hsq Hfit. unfold symmetrize_weight.
  replace (nrows weight =? ncols weight) with true by lia.
  cbn [negb]. eexists. split; [reflexivity|].
  set (msk := imap2 _ weight _).
  assert (Hmsk : forall r c, px msk r c = zero_weight_at weight nsm r c).
  { intros r c. unfold msk, zero_weight_at. destruct nsm; reflexivity. }
  assert (Hrot : where_set (full (nrows weight) (ncols weight) fzero) msk fone
                 = indicator (nrows weight) (ncols weight) (zero_weight_at weight nsm)).
  { unfold msk, where_set, indicator, zero_weight_at. destruct nsm; reflexivity. }
  rewrite Hrot. clear Hrot.
  set (rotated := rotate a _).
  set (pos := mkimg (nrows weight) (ncols weight) (fun r c => fltb fzero (px rotated r c))).
  split; [destruct (np_any msk), (np_any pos); reflexivity|].
  split; [destruct (np_any msk), (np_any pos); reflexivity|].
  split.
  - intros Hno. destruct (np_any msk) eqn:E; [|reflexivity].
    apply np_any_spec in E as (r & c & Hin & E).
    rewrite Hmsk, Hno in E; [discriminate|assumption].
  - intros (r & c & Hin & E) i j Hij.
    replace (np_any msk) with true.
    + rewrite np_any_guard; [|reflexivity..|assumption]. reflexivity.
    + symmetry. apply np_any_spec. exists r, c. split; [exact Hin|]. now rewrite Hmsk.
Qed.

Theorem sym_weight_nonsquare weight angle nsm :
  nrows weight <> ncols weight ->
  symmetrize_weight rotate weight angle nsm = Raise ValueError.
Proof.
  intros Hne. unfold symmetrize_weight.
  replace (nrows weight =? ncols weight) with false by lia. reflexivity.
Qed.

(** *** Bit masks, no angle *)

Theorem sym_bmask_none b nsm s :
  nrows b = ncols b -> fits nsm b ->
  exists b', symmetrize_bmask rotate b None nsm s = Ok b' /\
  nrows b' = nrows b /\ ncols b' = ncols b /\
  forall i j, inb b i j -> forall k, 0 <= k ->
    Z.testbit (px b' i j) k =
    let '(r, c) := rot_source (nrows b) i j in
    Z.testbit (px b i j) k || (bit_at b nsm k r c && selected s k).
Proof.
  intros Hsq Hfit. unfold symmetrize_bmask.
  replace (nrows b =? ncols b) with true by lia. cbn [negb].
  eexists. split; [reflexivity|].
  split; [now destruct s|]. split; [now destruct s|].
  intros i j Hin k Hk. unfold bit_at. rewrite Hsq.
  destruct s as [s|], nsm as [m|]; cbn -[Z.sub]; rewrite Z.lor_spec; f_equal;
    rewrite ?Z.land_spec; rewrite ?andb_true_r; try reflexivity.
  - destruct (px m _ _); cbn; [|now rewrite andb_true_r].
    now rewrite Z.testbit_0_l, andb_false_r.
  - destruct (px m _ _); cbn; [|now rewrite andb_true_r].
    now rewrite Z.testbit_0_l, andb_false_r.
Qed.

Theorem sym_bmask_nonsquare b angle nsm s :
  nrows b <> ncols b -> symmetrize_bmask rotate b angle nsm s = Raise ValueError.
Proof.
  intros Hne. unfold symmetrize_bmask.
  replace (nrows b =? ncols b) with false by lia. reflexivity.
Qed.

(** *** Bit masks, with an angle *)

Context (rotate_array : forall a, array_function (rotate a)).

Definition added (a : F) (b : img Z) nsm s k i j : Prop :=
  selected s k = true /\
  (exists r c, inb b r c /\ bit_at b nsm k r c = true) /\
  fltb fzero (px (rotate a (indicator (nrows b) (ncols b) (bit_at b nsm k))) i j) = true.

Lemma land_sel s i : 0 <= i ->
  match s with Some s => Z.land (2 ^ i) s =? 0 | None => false end = negb (selected s i).
Proof.
  intros Hi. destruct s as [s|]; [|reflexivity]. cbn.
  rewrite Z.land_comm. now apply land_pow2.
Qed.

Lemma sym_bit_shape a nsm s b i :
  nrows (sym_bit rotate a nsm s b i) = nrows b /\
  ncols (sym_bit rotate a nsm s b i) = ncols b.
Proof.
  unfold sym_bit. destruct (match s with Some _ => _ | None => _ end); [auto|].
  destruct (np_any _); auto.
Qed.

Lemma sym_bit_spec a nsm s b i : 0 <= i -> fits nsm b ->
  forall r c k, inb b r c ->
    (Z.testbit (px (sym_bit rotate a nsm s b i) r c) k = true <->
     Z.testbit (px b r c) k = true \/ (k = i /\ added a b nsm s i r c)).
Proof.
  intros Hi Hfit r c k Hin. unfold sym_bit. rewrite land_sel by assumption.
  unfold added.
  destruct (selected s i) eqn:Es; cbn [negb];
    [|split; [auto|intros [?|(_ & C & _)]; [assumption|discriminate]]].
  set (msk := match nsm with Some m => _ | None => _ end).
  assert (Hmsk : forall r c, px msk r c = bit_at b nsm i r c).
  { intros r' c'. unfold msk, bit_at. destruct nsm; cbn;
      rewrite land_pow2, negb_involutive by assumption; [reflexivity|].
    now rewrite andb_true_r. }
  assert (Hsh : nrows msk = nrows b /\ ncols msk = ncols b)
    by (unfold msk; destruct nsm; auto).
  assert (Heq : img_eq (where_set (full (nrows b) (ncols b) fzero) msk fone)
                  (indicator (nrows b) (ncols b) (bit_at b nsm i))).
  { repeat split. intros r' c' _. cbn. now rewrite Hmsk. }
  destruct (np_any msk) eqn:E.
  - cbn [px]. rewrite (rotate_array a _ _ Heq r c Hin).
    apply np_any_spec in E as (r' & c' & Hin' & E').
    assert (Hex : exists r c, inb b r c /\ bit_at b nsm i r c = true).
    { exists r', c'. rewrite Hmsk in E'. split; [|assumption].
      unfold inb in *. lia. }
    destruct (fltb fzero _) eqn:Ef.
    + rewrite lor_pow2_bits by assumption. rewrite orb_true_iff, Z.eqb_eq.
      split; [intros [?| ->]; auto 10|intros [?|[-> _]]; auto].
    + split; [auto|]. intros [?|(_ & _ & _ & C)]; [assumption|discriminate].
  - split; [auto|]. intros [?|(_ & _ & (r' & c' & Hin' & E') & _)]; [assumption|].
    rewrite np_any_false in E. specialize (E r' c'). rewrite Hmsk, E' in E.
    assert (true = false) by (apply E; unfold inb in *; lia). discriminate.
Qed.

Lemma added_ext a b b2 nsm s i r c :
  nrows b2 = nrows b -> ncols b2 = ncols b ->
  (forall r c, inb b r c -> Z.testbit (px b2 r c) i = Z.testbit (px b r c) i) ->
  inb b r c ->
  (added a b2 nsm s i r c <-> added a b nsm s i r c).
Proof.
  intros Hr Hc Hb Hin. unfold added.
  assert (Hbit : forall r c, inb b r c -> bit_at b2 nsm i r c = bit_at b nsm i r c).
  { intros r' c' Hin'. unfold bit_at. now rewrite Hb. }
  assert (Hinb : forall r c, inb b2 r c <-> inb b r c) by (unfold inb; intros; lia).
  assert (Heq : img_eq (indicator (F := F) (nrows b2) (ncols b2) (bit_at b2 nsm i))
                  (indicator (nrows b) (ncols b) (bit_at b nsm i))).
  { repeat split; cbn; [assumption..|]. intros r' c' Hin'. cbn. rewrite Hbit; [reflexivity|].
    unfold inb in *. cbn in *. lia. }
  rewrite (rotate_array a _ _ Heq r c) by (unfold inb in *; cbn; lia).
  split; intros (H1 & (r' & c' & H2 & H3) & H4); repeat split; auto;
    exists r', c'; split.
  - now apply Hinb.
  - now rewrite <- Hbit by now apply Hinb.
  - now apply Hinb.
  - now rewrite Hbit.
Qed.

Lemma fold_sym_bit a nsm s l : NoDup l -> (forall i, In i l -> 0 <= i) ->
  forall b, fits nsm b ->
  let b' := fold_left (sym_bit rotate a nsm s) l b in
  nrows b' = nrows b /\ ncols b' = ncols b /\
  forall r c k, inb b r c ->
    (Z.testbit (px b' r c) k = true <->
     Z.testbit (px b r c) k = true \/ (In k l /\ added a b nsm s k r c)).
Proof.
  induction l as [|i l IH]; intros Hnd Hpos b Hfit.
  - cbn. repeat split; auto. intros [?|[[] _]]; assumption.
  - cbn [fold_left]. inversion Hnd as [|? ? Hni Hnd']; subst.
    pose proof (sym_bit_shape a nsm s b i) as [Hr Hc].
    assert (Hi : 0 <= i) by (apply Hpos; left; reflexivity).
    set (b1 := sym_bit rotate a nsm s b i) in *.
    assert (Hfit1 : fits nsm b1) by (unfold fits in *; destruct nsm; [lia|exact I]).
    destruct (IH Hnd' (fun j Hj => Hpos j (or_intror Hj)) b1 Hfit1) as (Hr' & Hc' & IHb).
    split; [congruence|]. split; [congruence|].
    intros r c k Hin. rewrite IHb by (unfold inb in *; lia).
    pose proof (sym_bit_spec a nsm s b i Hi Hfit r c k Hin) as Hstep. fold b1 in Hstep.
    rewrite Hstep. clear IHb.
    assert (Hext : In k l -> (added a b1 nsm s k r c <-> added a b nsm s k r c)).
    { intros Hk. apply added_ext; auto. intros r' c' Hin'.
      pose proof (sym_bit_spec a nsm s b i Hi Hfit r' c' k Hin') as Hs. fold b1 in Hs.
      assert (k <> i) by (intros ->; contradiction).
      apply eq_true_iff_eq. rewrite Hs. tauto. }
    split.
    + intros [[Hb|[-> Ha]]|[Hk Ha]].
      * now left.
      * right. split; [now left|assumption].
      * right. split; [now right|]. now apply Hext.
    + intros [Hb|[[->|Hk] Ha]]; auto.
      right. split; [assumption|]. now apply Hext.
Qed.

Theorem sym_bmask_angle b a nsm s :
  nrows b = ncols b -> fits nsm b ->
  exists b', symmetrize_bmask rotate b (Some a) nsm s = Ok b' /\
  nrows b' = nrows b /\ ncols b' = ncols b /\
  forall i j, inb b i j -> forall k,
    (Z.testbit (px b' i j) k = true <->
     Z.testbit (px b i j) k = true \/
     (0 <= k < 32 /\ selected s k = true /\
      (exists r c, inb b r c /\ bit_at b nsm k r c = true) /\
      fltb fzero (px (rotate a (indicator (nrows b) (ncols b) (bit_at b nsm k))) i j) = true)).
Proof.
  intros Hsq Hfit. unfold symmetrize_bmask.
  replace (nrows b =? ncols b) with true by lia. cbn [negb].
  eexists. split; [reflexivity|].
  destruct (fold_sym_bit a nsm s (zrange 0 32) (NoDup_zrange 0 32)
              (fun i Hi => proj1 (proj1 (In_zrange 0 32 i) Hi)) b Hfit) as (Hr & Hc & Hb).
  split; [assumption|]. split; [assumption|].
  intros i j Hin k. rewrite (Hb i j k Hin), In_zrange. unfold added. tauto.
Qed.

(** *** Rotational symmetry *)

Definition sel (s : option Z) (v : Z) : Z :=
  match s with Some s => Z.land v s | None => v end.

Lemma sel_bits s v k : 0 <= k -> Z.testbit (sel s v) k = Z.testbit v k && selected s k.
Proof.
  intros Hk. destruct s; cbn; [apply Z.land_spec|now rewrite andb_true_r].
Qed.

Definition sym_once (b : img Z) (s : option Z) : img Z :=
  mkimg (nrows b) (ncols b)
    (fun i j => Z.lor (px b i j) (sel s (px b j (ncols b - 1 - i)))).

Lemma sym_once_eq b s : nrows b = ncols b ->
  exists b', symmetrize_bmask rotate b None None s = Ok b' /\
    nrows b' = nrows b /\ ncols b' = ncols b /\
    forall i j, px b' i j = px (sym_once b s) i j.
Proof.
  intros Hsq. unfold symmetrize_bmask.
  replace (nrows b =? ncols b) with true by lia. cbn [negb].
  eexists. split; [reflexivity|]. destruct s; cbn; auto.
Qed.

Theorem sym_three_times b s : nrows b = ncols b ->
  let sym b := symmetrize_bmask rotate b None None s in
  exists b3 b4,
    (b1 <- sym b ;; b2 <- sym b1 ;; sym b2) = Ok b3 /\
    sym b3 = Ok b4 /\
    nrows b3 = nrows b /\ ncols b3 = ncols b /\
    (forall i j k, inb b i j -> 0 <= k ->
       let n := nrows b in
       Z.testbit (px b3 i j) k =
         Z.testbit (px b i j) k ||
         (selected s k &&
           (Z.testbit (px b j (n - 1 - i)) k ||
            Z.testbit (px b (n - 1 - i) (n - 1 - j)) k ||
            Z.testbit (px b (n - 1 - j) i) k))) /\
    img_eq b3 b4 /\
    (s = None -> rot_symmetric b3).
Proof.
  intros Hsq sym. unfold sym. clear sym.
  destruct (sym_once_eq b s Hsq) as (b1 & E1 & R1 & C1 & P1).
  destruct (sym_once_eq b1 s ltac:(lia)) as (b2 & E2 & R2 & C2 & P2).
  destruct (sym_once_eq b2 s ltac:(lia)) as (b3 & E3 & R3 & C3 & P3).
  destruct (sym_once_eq b3 s ltac:(lia)) as (b4 & E4 & R4 & C4 & P4).
  exists b3, b4. rewrite E1. cbn [bind]. rewrite E2. cbn [bind]. rewrite E3.
  split; [reflexivity|]. split; [assumption|]. split; [lia|]. split; [lia|].
  assert (Hbits : forall i j k, 0 <= k ->
       let n := nrows b in
       Z.testbit (px b3 i j) k =
         Z.testbit (px b i j) k ||
         (selected s k &&
           (Z.testbit (px b j (n - 1 - i)) k ||
            Z.testbit (px b (n - 1 - i) (n - 1 - j)) k ||
            Z.testbit (px b (n - 1 - j) i) k))).
  { intros i j k Hk n.
    rewrite P3. cbn [sym_once px]. rewrite !P2. cbn [sym_once px]. rewrite !P1.
    cbn [sym_once px].
    rewrite C1, C2. rewrite C1. fold n. replace (ncols b) with n by (unfold n; lia).
    repeat rewrite ?Z.lor_spec, ?sel_bits by assumption.
    replace (n - 1 - (n - 1 - i)) with i by lia.
    replace (n - 1 - (n - 1 - j)) with j by lia.
    destruct (selected s k), (Z.testbit (px b i j) k), (Z.testbit (px b j (n - 1 - i)) k),
      (Z.testbit (px b (n - 1 - i) (n - 1 - j)) k), (Z.testbit (px b (n - 1 - j) i) k);
      reflexivity. }
  split; [intros; now apply Hbits|]. split.
  - split; [lia|]. split; [lia|]. intros i j _. rewrite P4. cbn [sym_once px].
    apply Z.bits_inj'. intros k Hk.
    rewrite Z.lor_spec, sel_bits by assumption. rewrite !Hbits by assumption.
    rewrite C3, C2, C1, <- Hsq. set (n := nrows b). cbv zeta.
    replace (n - 1 - (n - 1 - i)) with i by lia.
    replace (n - 1 - (n - 1 - j)) with j by lia.
    destruct (selected s k), (Z.testbit (px b i j) k), (Z.testbit (px b j (n - 1 - i)) k),
      (Z.testbit (px b (n - 1 - i) (n - 1 - j)) k), (Z.testbit (px b (n - 1 - j) i) k);
      reflexivity.
  - intros ->. split; [lia|]. intros i j _. cbn [rot_source fst snd].
    apply Z.bits_inj'. intros k Hk. rewrite !Hbits by assumption.
    rewrite R3, R2, R1. set (n := nrows b). cbv zeta. cbn [selected].
    replace (n - 1 - (n - 1 - i)) with i by lia.
    replace (n - 1 - (n - 1 - j)) with j by lia.
    destruct (Z.testbit (px b i j) k), (Z.testbit (px b j (n - 1 - i)) k),
      (Z.testbit (px b (n - 1 - i) (n - 1 - j)) k), (Z.testbit (px b (n - 1 - j) i) k);
      reflexivity.
Qed.

End P.
