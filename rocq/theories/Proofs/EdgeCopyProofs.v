(** Proofs about copy_masked_edges_image_and_noise. *)
From Coq Require Import ZArith List Bool Lia.
From Verif Require Import Lib.Base Lib.Floats Model.Interp Spec.InterpSpec Proofs.BaseFacts
  Proofs.FlagProofs.
Import ListNotations.
Open Scope Z_scope.

Section Edge.
Context {F : Type} `{FloatOps F}.
Context (weight : img F) (bmask : img Z) (flags : Z).
Context (Hr : nrows bmask = nrows weight) (Hc : ncols bmask = ncols weight).
Let bad := bad_pixels weight bmask flags.

Definition rowbad (k : Z) : list bool := map (fun c => px bad k c) (zrange 0 (ncols bad)).
Definition colbad (k : Z) : list bool := map (fun r => px bad r k) (zrange 0 (nrows bad)).

Lemma combine_map {A B C} (f : A -> B) (g : A -> C) l :
  combine (map f l) (map g l) = map (fun x => (f x, g x)) l.
Proof. induction l; cbn; congruence. Qed.

Lemma bad_list_row k : bad_list flags (row_of weight k) (row_of bmask k) = rowbad k.
Proof.
  unfold bad_list, row_of, rowbad. rewrite Hc, combine_map, map_map. reflexivity.
Qed.

Lemma bad_list_col k : bad_list flags (col_of weight k) (col_of bmask k) = colbad k.
Proof.
  unfold bad_list, col_of, colbad. rewrite Hr, combine_map, map_map. reflexivity.
Qed.

Lemma nth_rowbad k c : 0 <= c -> nth (Z.to_nat c) (rowbad k) true
  = if c <? ncols bad then px bad k c else true.
Proof.
  intros Hp. unfold rowbad. destruct (c <? ncols bad) eqn:E.
  - rewrite (nth_indep _ true (px bad k 0)) by (rewrite map_length, zrange_length; lia).
    rewrite (map_nth (fun c => px bad k c)), nth_zrange by lia. f_equal. lia.
  - apply nth_overflow. rewrite map_length, zrange_length. lia.
Qed.

Lemma nth_colbad k r : 0 <= r -> nth (Z.to_nat r) (colbad k) true
  = if r <? nrows bad then px bad r k else true.
Proof.
  intros Hp. unfold colbad. destruct (r <? nrows bad) eqn:E.
  - rewrite (nth_indep _ true (px bad 0 k)) by (rewrite map_length, zrange_length; lia).
    rewrite (map_nth (fun r => px bad r k)), nth_zrange by lia. f_equal. lia.
  - apply nth_overflow. rewrite map_length, zrange_length. lia.
Qed.

Lemma all_rowbad k : all_true (rowbad k) = true <-> forall c, 0 <= c < ncols bad -> px bad k c = true.
Proof.
  unfold all_true, rowbad. rewrite forallb_map, forallb_forall. split; intros Hx c Hi; apply Hx.
  - now apply In_zrange.
  - now apply In_zrange in Hi.
Qed.

Lemma all_colbad k : all_true (colbad k) = true <-> forall r, 0 <= r < nrows bad -> px bad r k = true.
Proof.
  unfold all_true, colbad. rewrite forallb_map, forallb_forall. split; intros Hx c Hi; apply Hx.
  - now apply In_zrange.
  - now apply In_zrange in Hi.
Qed.

(** Where the value of a pixel comes from, one copy at a time. *)
Definition row_src (k kk : Z) (p : Z * Z) : Z * Z :=
  if (fst p =? k) && all_true (rowbad k) && negb (px bad kk (snd p)) then (kk, snd p) else p.
Definition col_src (k kk : Z) (p : Z * Z) : Z * Z :=
  if (snd p =? k) && all_true (colbad k) && negb (px bad (fst p) kk) then (fst p, kk) else p.

Definition row_step (k kk : Z) (A : Type) (a : img A) : img A :=
  if all_true (rowbad k) && negb (all_true (rowbad kk)) then copy_row a k kk (rowbad kk) else a.
Definition col_step (k kk : Z) (A : Type) (a : img A) : img A :=
  if all_true (colbad k) && negb (all_true (colbad kk)) then copy_col a k kk (colbad kk) else a.

Lemma row_step_px k kk A (a : img A) r c :
  0 <= c < ncols bad ->
  px (row_step k kk A a) r c = px a (fst (row_src k kk (r, c))) (snd (row_src k kk (r, c))).
Proof.
  intros Hin. unfold row_step, row_src. cbn [fst snd].
  destruct (all_true (rowbad k)) eqn:E1; [|now rewrite andb_false_r].
  rewrite andb_true_r, andb_true_l.
  destruct (all_true (rowbad kk)) eqn:E2; cbn [negb].
  - rewrite (proj1 (all_rowbad kk) E2) by assumption. cbn. now rewrite andb_false_r.
  - cbn [copy_row px]. rewrite nth_rowbad by lia.
    replace (0 <=? c) with true by lia. replace (c <? ncols bad) with true by lia.
    rewrite andb_true_r. destruct ((r =? k) && negb (px bad kk c)); reflexivity.
Qed.

Lemma col_step_px k kk A (a : img A) r c :
  0 <= r < nrows bad ->
  px (col_step k kk A a) r c = px a (fst (col_src k kk (r, c))) (snd (col_src k kk (r, c))).
Proof.
  intros Hin. unfold col_step, col_src. cbn [fst snd].
  destruct (all_true (colbad k)) eqn:E1; [|now rewrite andb_false_r].
  rewrite andb_true_r, andb_true_l.
  destruct (all_true (colbad kk)) eqn:E2; cbn [negb].
  - rewrite (proj1 (all_colbad kk) E2) by assumption. cbn. now rewrite andb_false_r.
  - cbn [copy_col px]. rewrite nth_colbad by lia.
    replace (0 <=? r) with true by lia. replace (r <? nrows bad) with true by lia.
    rewrite andb_true_r. destruct ((c =? k) && negb (px bad r kk)); reflexivity.
Qed.

Lemma row_step_shape k kk A (a : img A) :
  nrows (row_step k kk A a) = nrows a /\ ncols (row_step k kk A a) = ncols a.
Proof. unfold row_step. destruct (_ && _); split; reflexivity. Qed.
Lemma col_step_shape k kk A (a : img A) :
  nrows (col_step k kk A a) = nrows a /\ ncols (col_step k kk A a) = ncols a.
Proof. unfold col_step. destruct (_ && _); split; reflexivity. Qed.

Lemma es_map_id (st : edge_state F) : es_map (fun A a => a) st = st.
Proof. destruct st. unfold es_map. cbn. f_equal. apply map_id. Qed.

Lemma es_map_comp f g (st : edge_state F) :
  es_map g (es_map f st) = es_map (fun A a => g A (f A a)) st.
Proof. destruct st. unfold es_map. cbn. f_equal. now rewrite map_map. Qed.

Lemma edge_pass_eq st i ii k kk j jj :
  pyindex (nrows weight) i = Some k -> pyindex (nrows weight) ii = Some kk ->
  pyindex (ncols weight) i = Some j -> pyindex (ncols weight) ii = Some jj ->
  edge_pass weight bmask flags st i ii
  = Ok (es_map (fun A a => col_step j jj A (row_step k kk A a)) st).
Proof.
  intros E1 E2 E3 E4. unfold edge_pass, np_row, np_col.
  rewrite Hr, Hc, E1, E2, E3, E4. cbn [bind].
  rewrite !bad_list_row, !bad_list_col.
  unfold col_step, row_step.
  destruct (all_true (rowbad k) && _); cbn [bind];
    destruct (all_true (colbad j) && _);
    rewrite ?es_map_comp; try reflexivity; now rewrite es_map_id.
Qed.

Definition final_step (A : Type) (a : img A) : img A :=
  col_step (ncols bad - 1) (ncols bad - 2) A
    (row_step (nrows bad - 1) (nrows bad - 2) A (col_step 0 1 A (row_step 0 1 A a))).

Definition final_src (p : Z * Z) : Z * Z :=
  row_src 0 1 (col_src 0 1 (row_src (nrows bad - 1) (nrows bad - 2)
    (col_src (ncols bad - 1) (ncols bad - 2) p))).

Definition inside (p : Z * Z) : Prop := 0 <= fst p < nrows bad /\ 0 <= snd p < ncols bad.

Lemma row_src_inside k kk p : 0 <= kk < nrows bad -> inside p -> inside (row_src k kk p).
Proof. unfold inside, row_src. intros. destruct (_ && _); cbn [fst snd]; lia. Qed.
Lemma col_src_inside k kk p : 0 <= kk < ncols bad -> inside p -> inside (col_src k kk p).
Proof. unfold inside, col_src. intros. destruct (_ && _); cbn [fst snd]; lia. Qed.

Lemma final_px A (a : img A) r c : 2 <= nrows bad -> 2 <= ncols bad ->
  inside (r, c) ->
  px (final_step A a) r c = px a (fst (final_src (r, c))) (snd (final_src (r, c))).
Proof.
  intros H2 H3 Hin. unfold final_step, final_src.
  rewrite col_step_px by apply Hin.
  pose proof (col_src_inside (ncols bad - 1) (ncols bad - 2) (r, c) ltac:(lia) Hin) as I1.
  destruct (col_src (ncols bad - 1) (ncols bad - 2) (r, c)) as [r1 c1]. cbn [fst snd] in *.
  rewrite row_step_px by apply I1.
  pose proof (row_src_inside (nrows bad - 1) (nrows bad - 2) (r1, c1) ltac:(lia) I1) as I2.
  destruct (row_src (nrows bad - 1) (nrows bad - 2) (r1, c1)) as [r2 c2]. cbn [fst snd] in *.
  rewrite col_step_px by apply I2.
  pose proof (col_src_inside 0 1 (r2, c2) ltac:(lia) I2) as I3.
  destruct (col_src 0 1 (r2, c2)) as [r3 c3]. cbn [fst snd] in *.
  now rewrite row_step_px by apply I3.
Qed.

(** A copy leaves good pixels alone and brings in a good pixel. *)
Lemma row_src_cases k kk p : inside p -> 
  row_src k kk p = p \/
  (fst p = k /\ (forall c, 0 <= c < ncols bad -> px bad k c = true) /\
   px bad kk (snd p) = false /\ row_src k kk p = (kk, snd p)).
Proof.
  intros Hin. unfold row_src. destruct (_ && _) eqn:E; [right|auto].
  apply andb_true_iff in E as [E E3]. apply andb_true_iff in E as [E1 E2].
  apply negb_true_iff in E3. rewrite all_rowbad in E2. split; [lia|]. auto.
Qed.
Lemma col_src_cases k kk p : inside p -> 
  col_src k kk p = p \/
  (snd p = k /\ (forall r, 0 <= r < nrows bad -> px bad r k = true) /\
   px bad (fst p) kk = false /\ col_src k kk p = (fst p, kk)).
Proof.
  intros Hin. unfold col_src. destruct (_ && _) eqn:E; [right|auto].
  apply andb_true_iff in E as [E E3]. apply andb_true_iff in E as [E1 E2].
  apply negb_true_iff in E3. rewrite all_colbad in E2. split; [lia|]. auto.
Qed.

Lemma row_src_good k kk p : inside p -> px bad (fst p) (snd p) = false -> row_src k kk p = p.
Proof.
  intros Hin Hg. destruct (row_src_cases k kk p Hin) as [?|(E & Ha & _)]; [assumption|].
  rewrite E, Ha in Hg by apply Hin. discriminate.
Qed.
Lemma col_src_good k kk p : inside p -> px bad (fst p) (snd p) = false -> col_src k kk p = p.
Proof.
  intros Hin Hg. destruct (col_src_cases k kk p Hin) as [?|(E & Ha & _)]; [assumption|].
  rewrite E, Ha in Hg by apply Hin. discriminate.
Qed.

Lemma row_src_fire k kk c : 
  (forall c, 0 <= c < ncols bad -> px bad k c = true) -> px bad kk c = false ->
  row_src k kk (k, c) = (kk, c).
Proof.
  intros Ha Hg. unfold row_src. cbn [fst snd].
  rewrite (proj2 (all_rowbad k) Ha), Hg, Z.eqb_refl. reflexivity.
Qed.
Lemma col_src_fire k kk r : 
  (forall r, 0 <= r < nrows bad -> px bad r k = true) -> px bad r kk = false ->
  col_src k kk (r, k) = (r, kk).
Proof.
  intros Ha Hg. unfold col_src. cbn [fst snd].
  rewrite (proj2 (all_colbad k) Ha), Hg, Z.eqb_refl. reflexivity.
Qed.

Lemma final_src_cases p : 2 <= nrows bad -> 2 <= ncols bad -> inside p ->
  edge_donor bad p (final_src p) \/
  (final_src p = p /\ col_src (ncols bad - 1) (ncols bad - 2) p = p /\
   row_src (nrows bad - 1) (nrows bad - 2) p = p /\ col_src 0 1 p = p /\ row_src 0 1 p = p).
Proof.
  intros H2 H3 Hin. unfold final_src. destruct p as [r c].
  assert (Hin' := Hin). destruct Hin' as [Hin1 Hin2]. cbn [fst snd] in Hin1, Hin2.
  destruct (col_src_cases (ncols bad - 1) (ncols bad - 2) (r, c) Hin) as [E|(E1 & E2 & E3 & E)]; rewrite E.
  2:{ cbn [fst snd] in *.
      assert (Hi : inside (r, ncols bad - 2)) by (unfold inside; cbn [fst snd]; lia).
      rewrite (row_src_good _ _ _ Hi E3), (col_src_good _ _ _ Hi E3), (row_src_good _ _ _ Hi E3).
      left. rewrite E1. apply donor_last_col; auto. }
  destruct (row_src_cases (nrows bad - 1) (nrows bad - 2) (r, c) Hin) as [E'|(E1 & E2 & E3 & E')]; rewrite E'.
  2:{ cbn [fst snd] in *.
      assert (Hi : inside (nrows bad - 2, c)) by (unfold inside; cbn [fst snd]; lia).
      rewrite (col_src_good _ _ _ Hi E3), (row_src_good _ _ _ Hi E3).
      left. rewrite E1. apply donor_last_row; auto. }
  destruct (col_src_cases 0 1 (r, c) Hin) as [E2|(E1 & E2 & E3 & E4)].
  2:{ rewrite E4. cbn [fst snd] in *.
      assert (Hi : inside (r, 1)) by (unfold inside; cbn [fst snd]; lia).
      rewrite (row_src_good _ _ _ Hi E3).
      left. rewrite E1. apply donor_first_col; auto. }
  rewrite E2.
  destruct (row_src_cases 0 1 (r, c) Hin) as [E3|(E1 & E4 & E3 & E5)]; [right; auto|].
  rewrite E5. cbn [fst snd] in *. left. rewrite E1. apply donor_first_row; auto.
Qed.

Lemma edge_donor_unique p q q' : 2 <= nrows bad -> 2 <= ncols bad -> inside p ->
  edge_donor bad p q -> edge_donor bad p q' -> q = q'.
Proof.
  clearbody bad. intros H2 H3 Hin D D'.
  assert (K : forall a b, px bad a b = true -> px bad a b = false -> False) by congruence.
  inversion D as [c A B C X1 X2|c A B C X1 X2|r A B C X1 X2|r A B C X1 X2]; subst p q;
    inversion D' as [c' A' B' C' E1 E2|c' A' B' C' E1 E2|r' A' B' C' E1 E2|r' A' B' C' E1 E2];
    subst q'; unfold inside in Hin; cbn [fst snd] in Hin; try (f_equal; lia); exfalso.
  all: try lia.
  all: try (subst; eapply K; [|exact C]; apply A'; lia).
  all: try (subst; eapply K; [|exact C']; apply A; lia).
Qed.

Theorem copy_edges_spec (image : img F) (noises : list (img F)) :
  2 <= nrows weight -> 2 <= ncols weight ->
  nrows image = nrows weight -> ncols image = ncols weight ->
  (forall n, In n noises -> nrows n = nrows weight /\ ncols n = ncols weight) ->
  exists out,
    copy_masked_edges_image_and_noise image noises weight bmask flags = Ok out /\
    donated bad image (es_image out) /\
    Forall2 (donated bad) noises (es_noises out) /\
    donated bad bmask (es_bmask out) /\
    donated bad weight (es_weight out).
Proof.
  intros H2 H3 Hi1 Hi2 Hns. unfold copy_masked_edges_image_and_noise.
  assert (P0 : forall n, 2 <= n -> pyindex n 0 = Some 0).
  { intros n ?. unfold pyindex. replace (0 <? n) with true by lia. reflexivity. }
  assert (P1 : forall n, 2 <= n -> pyindex n 1 = Some 1).
  { intros n ?. unfold pyindex. replace (1 <? n) with true by lia. reflexivity. }
  assert (P2 : forall n, 2 <= n -> pyindex n (-1) = Some (n - 1)).
  { intros n ?. unfold pyindex. cbn. replace (0 <=? n + -1) with true by lia. reflexivity. }
  assert (P3 : forall n, 2 <= n -> pyindex n (-2) = Some (n - 2)).
  { intros n ?. unfold pyindex. cbn. replace (0 <=? n + -2) with true by lia. reflexivity. }
  rewrite (edge_pass_eq _ 0 1 0 1 0 1) by auto. cbn [bind].
  rewrite (edge_pass_eq _ (-1) (-2) (nrows weight - 1) (nrows weight - 2) (ncols weight - 1) (ncols weight - 2)) by auto.
  eexists. split; [reflexivity|]. rewrite es_map_comp.
  assert (Hd : forall A (a : img A), nrows a = nrows weight -> ncols a = ncols weight ->
    donated bad a (final_step A a)).
  { intros A a Ha Hb. unfold donated. split; [|split].
    - unfold final_step.
      repeat (rewrite (proj1 (col_step_shape _ _ _ _)) || rewrite (proj1 (row_step_shape _ _ _ _))).
      reflexivity.
    - unfold final_step.
      repeat (rewrite (proj2 (col_step_shape _ _ _ _)) || rewrite (proj2 (row_step_shape _ _ _ _))).
      reflexivity.
    - intros r c Hin.
      assert (Hin' : inside (r, c)) by (unfold inside, inb in *; cbn; lia).
      assert (2 <= nrows bad) by exact H2. assert (2 <= ncols bad) by exact H3.
      rewrite final_px by assumption.
      destruct (final_src_cases (r, c)) as [D|(E & E1 & E2 & E3 & E4)]; try assumption.
      + split.
        * intros r' c' D'. now rewrite (edge_donor_unique _ _ _ ltac:(assumption) ltac:(assumption) Hin' D D').
        * intros Hno. exfalso. exact (Hno _ D).
      + rewrite E. split; [|reflexivity]. intros r' c' D'. exfalso.
        inversion D' as [c0 A0 B C X1 X2|c0 A0 B C X1 X2|r0 A0 B C X1 X2|r0 A0 B C X1 X2]; subst.
        * rewrite row_src_fire in E4 by assumption. discriminate.
        * rewrite row_src_fire in E2 by assumption. injection E2. lia.
        * rewrite col_src_fire in E3 by assumption. discriminate.
        * rewrite col_src_fire in E1 by assumption. injection E1. lia. }
  cbn [es_map es_image es_noises es_bmask es_weight].
  split; [apply (Hd F); assumption|]. split; [|split; [apply (Hd Z)|apply (Hd F)]; auto].
  clear -Hd Hns. induction noises as [|n ns IH]; cbn [map]; constructor.
  - apply (Hd F); now apply Hns; left.
  - apply IH. intros; apply Hns; now right.
Qed.

Theorem copy_edges_too_small (image : img F) (noises : list (img F)) :
  nrows weight < 2 \/ (2 <= nrows weight /\ ncols weight < 2) ->
  copy_masked_edges_image_and_noise image noises weight bmask flags = Raise IndexError.
Proof.
  intros Hs. unfold copy_masked_edges_image_and_noise, edge_pass, np_row, np_col.
  rewrite Hr, Hc.
  assert (P1 : forall n, n < 2 -> pyindex n 1 = None).
  { intros n ?. apply pyindex_None. lia. }
  destruct Hs as [Hs|[Hs1 Hs2]].
  - rewrite (P1 _ Hs). destruct (pyindex (nrows weight) 0); reflexivity.
  - rewrite (P1 _ Hs2).
    replace (pyindex (nrows weight) 0) with (Some 0) by (unfold pyindex; now replace (0 <? nrows weight) with true by lia).
    replace (pyindex (nrows weight) 1) with (Some 1) by (unfold pyindex; now replace (1 <? nrows weight) with true by lia).
    cbn [bind]. destruct (_ && _); cbn [bind]; destruct (pyindex (ncols weight) 0); reflexivity.
Qed.
End Edge.
