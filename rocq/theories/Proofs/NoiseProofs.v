(** Proofs about the noise images. *)
From Coq Require Import ZArith List Bool Reals Lia Lra.
From Verif Require Import Lib.Base Lib.Floats Model.Noise Spec.NoiseSpec Proofs.BaseFacts.
Import ListNotations.
Open Scope Z_scope.

(** ** Chunk arithmetic *)

Lemma n_chunks_spec : forall n s, 0 <= n -> 1 <= s ->
  0 <= n_chunks n s /\ n <= n_chunks n s * s /\ (forall i, 0 <= i < n_chunks n s -> i * s < n).
Proof.
  intros n s Hn Hs. unfold n_chunks. pose proof (Z.div_pos n s Hn ltac:(lia)).
  pose proof (Z.mul_div_le n s ltac:(lia)). pose proof (Z.mul_succ_div_gt n s ltac:(lia)).
  destruct (Z.ltb_spec (n / s * s) n) as [H2|H2]; (split; [lia|]); (split; [nia|]); intros i Hi.
  - assert (i * s <= n / s * s) by nia. lia.
  - assert (i * s <= (n / s - 1) * s) by nia. nia.
Qed.

(** First pixel of the chunk that contains [r], and one past its last. *)
Definition lo (s r : Z) : Z := r / s * s.
Definition hi (s n r : Z) : Z := Z.min (r / s * s + s) n.

Lemma lo_hi : forall s n r, 1 <= s -> 0 <= r < n -> 0 <= lo s r <= r /\ r < hi s n r <= n /\
  hi s n r - lo s r <= s.
Proof.
  intros s n r Hs Hr. unfold lo, hi. pose proof (Z.mul_div_le r s ltac:(lia)).
  pose proof (Z.mul_succ_div_gt r s ltac:(lia)). pose proof (Z.div_pos r s ltac:(lia) ltac:(lia)). nia.
Qed.

(** Number of the draw used for pixel [(r, c)]. *)
Definition draw_pos (nx ny sx sy r c : Z) : Z :=
  lo sx r * ny + lo sy c * (hi sx nx r - lo sx r)
  + (r - lo sx r) * (hi sy ny c - lo sy c) + (c - lo sy c).

Definition draw_inv (nx ny sx sy k : Z) : Z * Z :=
  let i := k / (sx * ny) in
  let xl := i * sx in
  let h := Z.min (xl + sx) nx - xl in
  let k1 := k - xl * ny in
  let j := k1 / (sy * h) in
  let yl := j * sy in
  let w := Z.min (yl + sy) ny - yl in
  let k2 := k1 - yl * h in
  (xl + k2 / w, yl + k2 mod w).

Lemma draw_range : forall nx ny sx sy r c, 1 <= sx -> 1 <= sy -> 0 <= r < nx -> 0 <= c < ny ->
  0 <= draw_pos nx ny sx sy r c < nx * ny.
Proof.
  intros nx ny sx sy r c Hsx Hsy Hr Hc. unfold draw_pos.
  pose proof (lo_hi sx nx r Hsx Hr) as (A1 & A2 & _). pose proof (lo_hi sy ny c Hsy Hc) as (B1 & B2 & _).
  set (a := lo sx r) in *. set (b := hi sx nx r) in *. set (d := lo sy c) in *. set (e := hi sy ny c) in *.
  split; [nia|].
  assert ((r - a) * (e - d) + (c - d) < (b - a) * (e - d)) by nia.
  assert (d * (b - a) + (b - a) * (e - d) = e * (b - a)) by ring.
  assert (e * (b - a) <= ny * (b - a)) by nia. assert (b * ny <= nx * ny) by nia. nia.
Qed.

Lemma draw_inv_pos : forall nx ny sx sy r c, 1 <= sx -> 1 <= sy -> 0 <= r < nx -> 0 <= c < ny ->
  draw_inv nx ny sx sy (draw_pos nx ny sx sy r c) = (r, c).
Proof.
  intros nx ny sx sy r c Hsx Hsy Hr Hc.
  pose proof (lo_hi sx nx r Hsx Hr) as (A1 & A2 & A3). pose proof (lo_hi sy ny c Hsy Hc) as (B1 & B2 & B3).
  unfold draw_inv, draw_pos.
  set (a := lo sx r) in *. set (b := hi sx nx r) in *. set (d := lo sy c) in *. set (e := hi sy ny c) in *.
  assert (K2 : 0 <= (r - a) * (e - d) + (c - d) < (b - a) * (e - d)) by nia.
  assert (K1 : 0 <= d * (b - a) + (r - a) * (e - d) + (c - d) < ny * (b - a)).
  { split; [nia|]. assert (d * (b - a) + (b - a) * (e - d) = e * (b - a)) by ring.
    assert (e * (b - a) <= ny * (b - a)) by nia. lia. }
  assert (E1 : (a * ny + d * (b - a) + (r - a) * (e - d) + (c - d)) / (sx * ny) = r / sx).
  { symmetry. apply (Z.div_unique_pos _ _ _ (d * (b - a) + (r - a) * (e - d) + (c - d))).
    - split; [lia|]. nia.
    - unfold a, lo. ring. }
  rewrite E1. cbv zeta. change (r / sx * sx) with a. change (Z.min (a + sx) nx) with b.
  replace (a * ny + d * (b - a) + (r - a) * (e - d) + (c - d) - a * ny)
    with (d * (b - a) + (r - a) * (e - d) + (c - d)) by ring.
  assert (E2 : (d * (b - a) + (r - a) * (e - d) + (c - d)) / (sy * (b - a)) = c / sy).
  { symmetry. apply (Z.div_unique_pos _ _ _ ((r - a) * (e - d) + (c - d))).
    - split; [lia|]. nia.
    - unfold d, lo. ring. }
  rewrite E2. change (c / sy * sy) with d. change (Z.min (d + sy) ny) with e.
  replace (d * (b - a) + (r - a) * (e - d) + (c - d) - d * (b - a)) with ((r - a) * (e - d) + (c - d)) by ring.
  assert (E3 : ((r - a) * (e - d) + (c - d)) / (e - d) = r - a).
  { symmetry. apply (Z.div_unique_pos _ _ _ (c - d)); [lia|ring]. }
  assert (E4 : ((r - a) * (e - d) + (c - d)) mod (e - d) = c - d).
  { symmetry. apply (Z.mod_unique_pos _ _ (r - a)); [lia|ring]. }
  rewrite E3, E4. f_equal; lia.
Qed.

Lemma draw_pos_inv : forall nx ny sx sy k, 1 <= sx -> 1 <= sy -> 0 <= k < nx * ny -> 0 < ny ->
  let '(r, c) := draw_inv nx ny sx sy k in
  0 <= r < nx /\ 0 <= c < ny /\ draw_pos nx ny sx sy r c = k.
Proof.
  intros nx ny sx sy k Hsx Hsy Hk Hny. unfold draw_inv.
  set (i := k / (sx * ny)). cbv zeta.
  pose proof (Z.div_pos k (sx * ny) ltac:(lia) ltac:(nia)) as I0. fold i in I0.
  pose proof (Z.mul_div_le k (sx * ny) ltac:(nia)) as I1. fold i in I1.
  pose proof (Z.mul_succ_div_gt k (sx * ny) ltac:(nia)) as I2. fold i in I2.
  set (a := i * sx) in *. set (b := Z.min (a + sx) nx).
  assert (Ha : a < nx) by nia.
  assert (Hb : a < b <= nx /\ b - a <= sx) by lia.
  set (k1 := k - a * ny) in *.
  assert (K1 : 0 <= k1 < ny * (b - a)).
  { unfold k1, b. split; [nia|]. destruct (Z.min_spec (a + sx) nx) as [[_ ->]|[_ ->]]; nia. }
  set (j := k1 / (sy * (b - a))).
  pose proof (Z.div_pos k1 (sy * (b - a)) ltac:(lia) ltac:(nia)) as J0. fold j in J0.
  pose proof (Z.mul_div_le k1 (sy * (b - a)) ltac:(nia)) as J1. fold j in J1.
  pose proof (Z.mul_succ_div_gt k1 (sy * (b - a)) ltac:(nia)) as J2. fold j in J2.
  set (d := j * sy) in *. set (e := Z.min (d + sy) ny).
  assert (Hd : d < ny) by nia.
  assert (He : d < e <= ny /\ e - d <= sy) by lia.
  set (k2 := k1 - d * (b - a)) in *.
  assert (K2 : 0 <= k2 < (b - a) * (e - d)).
  { unfold k2, e. split; [nia|]. destruct (Z.min_spec (d + sy) ny) as [[_ ->]|[_ ->]]; nia. }
  pose proof (Z.mod_pos_bound k2 (e - d) ltac:(lia)) as M.
  pose proof (Z.div_mod k2 (e - d) ltac:(lia)) as D.
  pose proof (Z.div_pos k2 (e - d) ltac:(lia) ltac:(lia)) as Q0.
  assert (Q : k2 / (e - d) < b - a) by (apply Z.div_lt_upper_bound; lia).
  set (q := k2 / (e - d)) in *. set (m := k2 mod (e - d)) in *.
  split; [lia|]. split; [lia|]. unfold draw_pos, lo, hi.
  assert (Er : (a + q) / sx = i).
  { symmetry. apply (Z.div_unique_pos _ _ _ q); [lia|]. unfold a. ring. }
  assert (Ec : (d + m) / sy = j).
  { symmetry. apply (Z.div_unique_pos _ _ _ m); [lia|]. unfold d. ring. }
  rewrite Er, Ec. fold a d. fold b e. unfold k2, k1 in D. lia.
Qed.

Lemma draw_numbering : forall nx ny sx sy, 1 <= sx -> 1 <= sy -> 0 <= nx -> 0 <= ny ->
  numbering nx ny (draw_pos nx ny sx sy).
Proof.
  intros nx ny sx sy Hsx Hsy Hnx Hny. split; [|split].
  - intros r c Hr Hc. apply draw_range; assumption.
  - intros r c r' c' Hr Hc Hr' Hc' E.
    pose proof (draw_inv_pos nx ny sx sy r c Hsx Hsy Hr Hc) as E1.
    pose proof (draw_inv_pos nx ny sx sy r' c' Hsx Hsy Hr' Hc') as E2.
    rewrite E, E2 in E1. inversion E1. auto.
  - intros k Hk. destruct (Z.eq_dec ny 0) as [->|Hn]; [lia|].
    pose proof (draw_pos_inv nx ny sx sy k Hsx Hsy Hk ltac:(lia)) as H.
    destruct (draw_inv nx ny sx sy k) as [r c]. eauto.
Qed.

(** ** The loops *)

Section Loops.
Context {F : Type} {FO : FloatOps F}.
Variable normal : Z -> Z -> F.
Variable store : F -> F.
Variable seed : Z.
Variable weight : img F.
Variable fw : option F.
Variables sx sy : Z.
Hypothesis Hsx : 1 <= sx.
Hypothesis Hsy : 1 <= sy.
Hypothesis Hwf : wf weight.

Definition noise_px (r c : Z) : F :=
  store (fmul (normal seed (draw_pos (nrows weight) (ncols weight) sx sy r c))
              (fsqrt (fdiv fone (zwgt fw (px weight r c))))).

(** After [i] full bands and [j] chunks of the next one. *)
Definition inv_ij (i j : Z) (st : @noise_state F) : Prop :=
  let nx := nrows weight in let ny := ncols weight in
  let xl := i * sx in let xu := Z.min (xl + sx) nx in let yd := Z.min (j * sy) ny in
  nrows (fst st) = nx /\ ncols (fst st) = ny /\
  snd st = xl * ny + yd * (xu - xl) /\
  forall r c, 0 <= r < nx -> 0 <= c < ny ->
    px (fst st) r c = if (r <? xl) || ((r <? xu) && (c <? yd)) then noise_px r c else fzero.

(** After [i] full bands. *)
Definition inv_i (i : Z) (st : @noise_state F) : Prop :=
  let nx := nrows weight in let ny := ncols weight in
  let xd := Z.min (i * sx) nx in
  nrows (fst st) = nx /\ ncols (fst st) = ny /\
  snd st = xd * ny /\
  forall r c, 0 <= r < nx -> 0 <= c < ny ->
    px (fst st) r c = if r <? xd then noise_px r c else fzero.

Lemma chunk_step : forall i j st,
  0 <= i < n_chunks (nrows weight) sx -> 0 <= j < n_chunks (ncols weight) sy ->
  inv_ij i j st -> inv_ij i (j + 1) (fill_chunk normal store seed weight fw sx sy i j st).
Proof.
  intros i j [noise k] Hi Hj (H1 & H2 & H3 & H4). cbn [fst snd] in *. destruct Hwf as [W1 W2].
  pose proof (n_chunks_spec _ _ W1 Hsx) as (_ & _ & Ni). specialize (Ni i Hi).
  pose proof (n_chunks_spec _ _ W2 Hsy) as (_ & _ & Nj). specialize (Nj j Hj).
  unfold inv_ij, fill_chunk. cbn [fst snd nrows ncols px].
  set (nx := nrows weight) in *. set (ny := ncols weight) in *.
  set (xl := i * sx) in *. set (xu := Z.min (xl + sx) nx) in *.
  set (yl := j * sy) in *. replace ((j + 1) * sy) with (yl + sy) by (unfold yl; ring).
  set (yu := Z.min (yl + sy) ny) in *.
  assert (Ey : Z.min yl ny = yl) by lia. rewrite Ey in *.
  split; [assumption|]. split; [assumption|]. split; [rewrite H3; ring|].
  intros r c Hr Hc. rewrite (H4 r c Hr Hc).
  destruct (Z.leb_spec xl r) as [Lx|Lx].
  - destruct (Z.ltb_spec r xl); [lia|]. destruct (Z.ltb_spec r xu) as [Ux|Ux]; cbn [andb orb]; [|reflexivity].
    destruct (Z.leb_spec yl c) as [Ly|Ly].
    + destruct (Z.ltb_spec c yl); [lia|]. destruct (Z.ltb_spec c yu) as [Uy|Uy]; cbn [andb]; [|reflexivity].
      unfold noise_px, draw_pos. f_equal. f_equal. f_equal.
      assert (Qr : r / sx = i).
      { symmetry. apply (Z.div_unique_pos _ _ _ (r - xl)); [lia|]. unfold xl. ring. }
      assert (Qc : c / sy = j).
      { symmetry. apply (Z.div_unique_pos _ _ _ (c - yl)); [lia|]. unfold yl. ring. }
      unfold lo, hi. rewrite Qr, Qc. fold xl yl nx ny. fold xu yu. rewrite H3. ring.
    + destruct (Z.ltb_spec c yl); [|lia]. destruct (Z.ltb_spec c yu); [|lia]. reflexivity.
  - destruct (Z.ltb_spec r xl); [|lia]. reflexivity.
Qed.

Lemma band_step : forall i st, 0 <= i < n_chunks (nrows weight) sx -> inv_i i st ->
  inv_i (i + 1) (fold_left (fun st isy => fill_chunk normal store seed weight fw sx sy i isy st)
                   (zrange 0 (n_chunks (ncols weight) sy)) st).
Proof.
  intros i st Hi (H1 & H2 & H3 & H4). destruct Hwf as [W1 W2].
  pose proof (n_chunks_spec _ _ W1 Hsx) as (_ & _ & Ni). specialize (Ni i Hi).
  pose proof (n_chunks_spec _ _ W2 Hsy) as (N0 & N1 & _).
  assert (K : inv_ij i (n_chunks (ncols weight) sy)
    (fold_left (fun st isy => fill_chunk normal store seed weight fw sx sy i isy st)
                   (zrange 0 (n_chunks (ncols weight) sy)) st)).
  { apply (zrange_fold_ind (inv_ij i)); [assumption| |].
    - assert (E : Z.min (i * sx) (nrows weight) = i * sx) by lia. rewrite E in *.
      unfold inv_ij. rewrite Z.mul_0_l, (Z.min_l 0) by lia.
      split; [assumption|]. split; [assumption|]. split; [rewrite H3; ring|].
      intros r c Hr Hc. rewrite (H4 r c Hr Hc).
      destruct (Z.ltb_spec c 0); [lia|]. rewrite andb_false_r, orb_false_r. reflexivity.
    - intros j s Hj. apply chunk_step; assumption. }
  destruct K as (K1 & K2 & K3 & K4). unfold inv_i.
  replace ((i + 1) * sx) with (i * sx + sx) by ring.
  assert (E : Z.min (n_chunks (ncols weight) sy * sy) (ncols weight) = ncols weight) by lia.
  rewrite E in *. split; [assumption|]. split; [assumption|]. split; [rewrite K3; ring|].
  intros r c Hr Hc. rewrite (K4 r c Hr Hc).
  destruct (Z.ltb_spec c (ncols weight)); [|lia]. rewrite andb_true_r.
  destruct (Z.ltb_spec r (i * sx)), (Z.ltb_spec r (Z.min (i * sx + sx) (nrows weight))); try reflexivity; lia.
Qed.

Lemma noise_image_spec : exists im,
  noise_image normal store seed weight fw sx sy = Ok (im, nrows weight * ncols weight) /\
  nrows im = nrows weight /\ ncols im = ncols weight /\
  forall r c, inb weight r c -> px im r c = noise_px r c.
Proof.
  unfold noise_image. destruct (Z.eqb_spec sx 0); [lia|]. destruct (Z.eqb_spec sy 0); [lia|]. cbn [orb].
  destruct Hwf as [W1 W2]. pose proof (n_chunks_spec _ _ W1 Hsx) as (N0 & N1 & _).
  set (st := fold_left _ _ _).
  assert (K : inv_i (n_chunks (nrows weight) sx) st).
  { apply (zrange_fold_ind inv_i); [assumption| |].
    - unfold inv_i. rewrite Z.mul_0_l, (Z.min_l 0) by lia. cbn [fst snd].
      split; [reflexivity|]. split; [reflexivity|]. split; [reflexivity|].
      intros r c Hr Hc. destruct (Z.ltb_spec r 0); [lia|reflexivity].
    - intros i s Hi. apply band_step. assumption. }
  destruct K as (K1 & K2 & K3 & K4). rewrite Z.min_r in * by lia.
  exists (fst st). split; [rewrite <- K3; destruct st; reflexivity|].
  split; [assumption|]. split; [assumption|]. intros r c [Hr Hc]. rewrite (K4 r c Hr Hc).
  destruct (Z.ltb_spec r (nrows weight)); [reflexivity|lia].
Qed.

End Loops.

(** ** One band: the draws are in plain row-major order *)

Lemma draw_row_major : forall nx ny sx sy r c, 1 <= sx -> ny <= sy -> 0 <= r < nx -> 0 <= c < ny ->
  draw_pos nx ny sx sy r c = r * ny + c.
Proof.
  intros nx ny sx sy r c Hsx Hsy Hr Hc. unfold draw_pos.
  assert (E : c / sy = 0) by (apply Z.div_small; lia).
  assert (Elo : lo sy c = 0) by (unfold lo; rewrite E; ring).
  assert (Ehi : hi sy ny c = ny) by (unfold hi; rewrite E; lia).
  rewrite Elo, Ehi. ring.
Qed.

(** ** Weights *)

Open Scope R_scope.

Lemma zwgt_R : forall fw w : R, zwgt (Some fw) w = if Rle_dec w 0 then fw else w.
Proof.
  intros. unfold zwgt, fofb, fzero. cbn. unfold Rleb. destruct (Rle_dec w 0); cbn; ring.
Qed.

Lemma fold_fmax_R : forall (l : list R) (a : R),
  In (fold_left fmax l a) (a :: l) /\ (forall x, In x (a :: l) -> x <= fold_left fmax l a).
Proof.
  induction l as [|b l IH]; intros a.
  - split; [left; reflexivity|]. intros x [->|[]]. cbn. lra.
  - cbn [fold_left]. destruct (IH (fmax a b)) as [Hin Hle].
    assert (Hf : (fmax a b = a \/ fmax a b = b) /\ a <= fmax a b /\ b <= fmax a b).
    { unfold fmax. cbn. unfold Rltb. destruct (Rlt_dec a b); lra. }
    destruct Hf as (Hf & Ha & Hb). split.
    + destruct Hin as [H|H]; [|right; right; exact H].
      rewrite <- H. destruct Hf as [-> | ->]; cbn; tauto.
    + assert (H0 : fmax a b <= fold_left fmax l (fmax a b)) by (apply Hle; left; reflexivity).
      intros x [->|[->|H]]; [lra|lra|]. apply Hle. right. exact H.
Qed.

Lemma np_max_R : forall l : list R,
  match np_max l with
  | Ok m => In m l /\ forall x, In x l -> x <= m
  | Raise e => l = [] /\ e = ValueError
  end.
Proof. intros [|a l]; cbn; [tauto|]. apply fold_fmax_R. Qed.

Lemma In_ravel : forall (A : Type) (im : img A) x,
  In x (ravel im) <-> exists r c, inb im r c /\ px im r c = x.
Proof.
  intros A im x. unfold ravel. rewrite in_map_iff. split.
  - intros ([r c] & <- & H). apply In_allpix in H. exists r, c. split; [exact H|reflexivity].
  - intros (r & c & Hb & <-). exists (r, c). split; [reflexivity|]. apply In_allpix. exact Hb.
Qed.

Lemma get_noise_image_spec : forall normal store (wgt : img R) (scale : R) seed,
  wf wgt -> scale > 0 ->
  ((forall r c, inb wgt r c -> px wgt r c <= 0) ->
   get_noise_image normal store wgt scale seed = Raise ValueError) /\
  (forall r0 c0, inb wgt r0 c0 -> px wgt r0 c0 > 0 ->
   exists im m,
   get_noise_image normal store wgt scale seed = Ok im /\
   nrows im = nrows wgt /\ ncols im = ncols wgt /\
   (exists r c, inb wgt r c /\ px wgt r c = m) /\ 0 < m /\
   (forall r c, inb wgt r c -> px wgt r c <= m) /\
   forall r c, inb wgt r c ->
     px im r c = store (normal seed (draw_pos (nrows wgt) (ncols wgt) 1024 1024 r c)
                        * (scale / sqrt (if Rle_dec (px wgt r c) 0 then m else px wgt r c)))).
Proof.
  intros normal store wgt scale seed Hwf Hs. unfold get_noise_image.
  set (l := filter _ (ravel wgt)).
  assert (Hl : forall x, In x l <-> (exists r c, inb wgt r c /\ px wgt r c = x) /\ 0 < x).
  { intros x. unfold l. rewrite filter_In, In_ravel. cbn. unfold Rleb, fzero. cbn.
    destruct (Rle_dec x 0); cbn; intuition (try discriminate; try lra). }
  pose proof (np_max_R l) as Hm. split.
  - intros Hz. destruct (np_max l) as [m|e].
    + destruct Hm as [Hin _]. apply Hl in Hin. destruct Hin as ((r & c & Hb & <-) & Hp).
      pose proof (Hz r c Hb). lra.
    + destruct Hm as [_ ->]. reflexivity.
  - intros r0 c0 Hb0 Hp0.
    assert (Hin0 : In (px wgt r0 c0) l) by (apply Hl; eauto).
    destruct (np_max l) as [m|e]; [|destruct Hm as [E _]; rewrite E in Hin0; destruct Hin0].
    destruct Hm as [Hin Hmax]. apply Hl in Hin as (Hat & Hpos). cbn [bind].
    set (weight := imap2 _ wgt _).
    destruct (noise_image_spec normal store seed weight None 1024 1024 ltac:(lia) ltac:(lia) Hwf)
      as (im & E & E1 & E2 & E3).
    rewrite E. cbn [bind]. exists im, m.
    split; [reflexivity|]. split; [exact E1|]. split; [exact E2|]. split; [exact Hat|].
    split; [exact Hpos|]. split.
    { intros r c Hb. destruct (Rle_or_lt (px wgt r c) 0) as [K|K]; [lra|].
      apply Hmax. apply Hl. split; [eauto|assumption]. }
    intros r c Hb. rewrite E3 by exact Hb. unfold noise_px. f_equal. cbn [fmul ROps].
    change (nrows weight) with (nrows wgt). change (ncols weight) with (ncols wgt). f_equal.
    cbn [fsqrt fdiv ROps zwgt]. unfold fone. cbn [fofZ ROps].
    set (w := if Rle_dec (px wgt r c) 0 then m else px wgt r c).
    assert (Hw : 0 < w) by (unfold w; destruct (Rle_dec (px wgt r c) 0); lra).
    assert (Ew : px weight r c = w / (scale * scale)).
    { unfold weight, w, imap2, imap, fofb, fzero. cbn. unfold Rleb.
      destruct (Rle_dec (px wgt r c) 0); cbn; field; lra. }
    rewrite Ew. replace (1 / (w / (scale * scale))) with (scale * scale * / w) by (field; lra).
    rewrite sqrt_mult by (try nra; apply Rlt_le, Rinv_0_lt_compat; assumption).
    rewrite sqrt_square by lra. rewrite sqrt_inv. reflexivity.
Qed.
