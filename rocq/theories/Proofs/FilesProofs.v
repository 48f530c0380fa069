From Coq Require Import ZArith List Bool String Lia.
From Verif Require Import Lib.Base Model.Files Spec.FilesSpec.
Import ListNotations.

Lemma path_eqb_spec : forall p q, reflect (p = q) (path_eqb p q).
Proof.
  intros [a b] [c d]. unfold path_eqb. cbn [fst snd].
  destruct (String.eqb_spec a c) as [->|H]; cbn [andb].
  - destruct (String.eqb_spec b d) as [->|H']; constructor; congruence.
  - constructor. congruence.
Qed.

Lemma path_eq_dec : forall p q : path, {p = q} + {p <> q}.
Proof. intros p q. destruct (path_eqb_spec p q); auto. Qed.

Lemma path_eqb_refl : forall p, path_eqb p p = true.
Proof. intro p. destruct (path_eqb_spec p p); congruence. Qed.

Lemma path_eqb_ne : forall p q, p <> q -> path_eqb p q = false.
Proof. intros p q H. destruct (path_eqb_spec p q); congruence. Qed.

Lemma append_fz_ne : forall b : string, (b ++ ".fz")%string <> b.
Proof.
  intros b H. apply (f_equal String.length) in H.
  assert (L : forall a c, String.length (a ++ c)%string = (String.length a + String.length c)%nat).
  { induction a; intros c; cbn; [reflexivity|]. now rewrite IHa. }
  rewrite L in H. cbn in H. lia.
Qed.

Section FilesProofs.
Context {C : Type}.
Implicit Types s : fsys C.

Lemma set_same : forall (f : path -> option C) p v, set_file f p v p = v.
Proof. intros. unfold set_file. now rewrite path_eqb_refl. Qed.

Lemma set_other : forall (f : path -> option C) p v q, p <> q -> set_file f p v q = f q.
Proof. intros. unfold set_file. now rewrite path_eqb_ne. Qed.

Lemma run_app : forall s a b, run s (a ++ b)%list = run (run s a) b.
Proof. intros. unfold run. apply fold_left_app. Qed.

(** Paths an operation may change. *)
Definition touches (o : op C) : list path :=
  match o with
  | Remove p => [p]
  | Mkdir _ => []
  | Rename p q => [p; q]
  | Put p _ => [p]
  end.

Lemma apply_frame : forall s o q, ~ In q (touches o) -> file (apply s o) q = file s q.
Proof.
  intros s o q H. destruct o as [p|d|p r|p c]; cbn [apply file touches] in *.
  - apply set_other. intros ->. apply H. left; auto.
  - reflexivity.
  - rewrite set_other by (intros ->; apply H; left; auto).
    apply set_other. intros ->. apply H. right; left; auto.
  - apply set_other. intros ->. apply H. left; auto.
Qed.

Lemma run_frame : forall ops s q, (forall o, In o ops -> ~ In q (touches o)) ->
  file (run s ops) q = file s q.
Proof.
  induction ops as [|o ops IH]; intros s q H; [reflexivity|].
  change (run s (o :: ops)) with (run (apply s o) ops).
  rewrite IH by (intros; apply H; right; auto).
  apply apply_frame. apply H. left; auto.
Qed.

Lemma crash_frame : forall s ops s' q, crash_state s ops s' ->
  (forall o, In o ops -> ~ In q (touches o)) -> file s' q = file s q.
Proof.
  intros s ops s' q (a & b & -> & ->) H. apply run_frame. intros o Ho.
  apply H. apply in_or_app. left; auto.
Qed.

Lemma crash_full : forall s ops, crash_state s ops (run s ops).
Proof. intros s ops. exists ops, []. split; [now rewrite app_nil_r|reflexivity]. Qed.

Lemma crash_nil : forall s s', crash_state s [] s' -> s' = s.
Proof.
  intros s s' (a & b & E & ->). destruct a; [reflexivity|discriminate].
Qed.

(** A prefix of an append. *)
Lemma prefix_app : forall (A : Type) (a b x y : list A), (a ++ b = x ++ y)%list ->
  (exists z, a = x ++ z)%list \/ (exists z, x = a ++ z /\ b = z ++ y)%list.
Proof.
  induction a as [|h a IH]; intros b x y E.
  - right. exists x. split; auto.
  - destruct x as [|k x].
    + left. exists (h :: a). reflexivity.
    + cbn in E. injection E as -> E. destruct (IH _ _ _ E) as [[z ->]|(z & -> & ->)].
      * left. exists z. reflexivity.
      * right. exists z. split; reflexivity.
Qed.

Lemma crash_app : forall s a b s', crash_state s (a ++ b)%list s' ->
  crash_state s a s' \/ crash_state (run s a) b s'.
Proof.
  intros s a b s' (x & y & E & ->). destruct (prefix_app _ _ _ _ _ E) as [[z ->]|(z & -> & ->)].
  - left. exists x, z. split; reflexivity.
  - right. exists z, y. split; [reflexivity|]. now rewrite run_app.
Qed.

Lemma crash_app_l : forall s a b s', crash_state s a s' -> crash_state s (a ++ b)%list s'.
Proof. intros s a b s' (x & y & -> & ->). exists x, (y ++ b)%list. rewrite app_assoc. split; reflexivity. Qed.

Lemma crash_app_r : forall s a b s', crash_state (run s a) b s' -> crash_state s (a ++ b)%list s'.
Proof.
  intros s a b s' (x & y & -> & ->). exists (a ++ x)%list, y. rewrite <- app_assoc, run_app.
  split; reflexivity.
Qed.

Lemma crash_one : forall s o s', crash_state s [o] s' -> s' = s \/ s' = apply s o.
Proof.
  intros s o s' (a & b & E & ->). destruct a as [|x [|y a]].
  - left; reflexivity.
  - injection E as -> <-. right; reflexivity.
  - discriminate.
Qed.

Lemma copy_touches : forall s p q partial o, In o (copy_ops s p q partial) -> touches o = [q].
Proof.
  intros s p q partial o H. unfold copy_ops in H. destruct (file s p); [|contradiction].
  apply in_app_or in H. destruct H as [H|[<-|[]]]; [|reflexivity].
  apply in_map_iff in H. destruct H as (c0 & <- & _). reflexivity.
Qed.

Lemma move_touches : forall s dev p q o r, In o (move_ops s dev p q) ->
  In r (touches o) -> r = p \/ r = q.
Proof.
  intros s dev p q o r H Hr. destruct dev as [|partial]; cbn [move_ops] in H.
  - destruct H as [<-|[]]. cbn in Hr. intuition.
  - apply in_app_or in H. destruct H as [H|[<-|[]]].
    + rewrite (copy_touches _ _ _ _ _ H) in Hr. cbn in Hr. intuition.
    + cbn in Hr. intuition.
Qed.

Lemma mk_touches : forall s d o r, In o (try_makedir s d) -> ~ In r (touches o).
Proof.
  intros s d o r H. unfold try_makedir in H. destruct (isdir s d); [contradiction|].
  destruct H as [<-|[]]. intros [].
Qed.

Lemma copy_run : forall s s0 p q partial c, file s0 p = Some c ->
  file (run s (copy_ops s0 p q partial)) q = Some c.
Proof.
  intros s s0 p q partial c H. unfold copy_ops. rewrite H, run_app. cbn. apply set_same.
Qed.

Lemma move_final : forall s s0 dev p q c, p <> q -> file s0 p = Some c -> file s p = Some c ->
  file (run s (move_ops s0 dev p q)) q = Some c /\ file (run s (move_ops s0 dev p q)) p = None.
Proof.
  intros s s0 dev p q c Hne H0 H. destruct dev as [|partial]; cbn [move_ops].
  - unfold run. cbn [fold_left apply file]. rewrite set_other by auto. rewrite !set_same. auto.
  - rewrite run_app. unfold run at 1. cbn [fold_left apply file]. rewrite set_other by auto.
    rewrite (copy_run _ _ _ _ _ _ H0). split; [reflexivity|].
    unfold run at 1. cbn [fold_left apply file]. apply set_same.
Qed.

Lemma move_no_loss : forall s s0 dev p q c s', p <> q -> file s0 p = Some c -> file s p = Some c ->
  crash_state s (move_ops s0 dev p q) s' -> file s' p = Some c \/ file s' q = Some c.
Proof.
  intros s s0 dev p q c s' Hne H0 H Hc. destruct dev as [|partial]; cbn [move_ops] in Hc.
  - apply crash_one in Hc. destruct Hc as [-> | ->]; [left; auto|right].
    cbn [apply file]. rewrite set_other by auto. rewrite set_same. auto.
  - apply crash_app in Hc. destruct Hc as [Hc|Hc].
    + left. rewrite (crash_frame _ _ _ p Hc); [auto|]. intros o Ho.
      rewrite (copy_touches _ _ _ _ _ Ho). intros [E|[]]. congruence.
    + right. apply crash_one in Hc. destruct Hc as [-> | ->].
      * apply copy_run; auto.
      * cbn [apply file]. rewrite set_other by auto. apply copy_run; auto.
Qed.

(** ** StagedOutFile *)

Lemma so_init_inv : forall s fname tmpdir must ops st,
  so_init s fname tmpdir must = (ops, st) ->
  so_final st = fname /\ so_must_exist st = must /\ so_was_staged_out st = false /\
  so_path st = match tmpdir with None => fname | Some d => in_dir d fname end /\
  (so_is_temp st = true <-> so_path st <> fname).
Proof.
  intros s fname tmpdir must ops st H. unfold so_init in H. destruct tmpdir as [d|];
    inversion H; subst; clear H; cbn [so_final so_path so_is_temp so_must_exist so_was_staged_out].
  - repeat split; auto.
    + intros E. destruct (String.eqb_spec d (fst fname)); [discriminate|].
      intro E'. apply (f_equal fst) in E'. cbn in E'. congruence.
    + intros E. destruct (String.eqb_spec d (fst fname)) as [->|]; [|reflexivity].
      exfalso. apply E. destruct fname; reflexivity.
  - repeat split; auto; intros; congruence.
Qed.

Lemma stage_out_fields : forall s dev st ops st',
  stage_out s dev st = (ops, Ok st') ->
  st' = st \/ st' = staged st.
Proof.
  intros s dev st ops st' H. unfold stage_out in H.
  destruct (so_is_temp st && negb (so_was_staged_out st)).
  - destruct (negb (exists_file s (so_path st))).
    + destruct (so_must_exist st); inversion H; auto.
    + inversion H; auto.
  - inversion H; auto.
Qed.

Lemma so_reach_inv : forall fname tmpdir must st,
  so_reach C fname tmpdir must st ->
  so_final st = fname /\ so_must_exist st = must /\
  so_path st = match tmpdir with None => fname | Some d => in_dir d fname end /\
  (so_is_temp st = true <-> so_path st <> fname).
Proof.
  intros fname tmpdir must st H. induction H as [s ops st H|st s dev ops st' H IH H1].
  - destruct (so_init_inv _ _ _ _ _ _ H) as (A & B & _ & D & E). auto.
  - destruct (stage_out_fields _ _ _ _ _ H1) as [-> | ->]; auto.
Qed.

Lemma stage_out_touches : forall s dev st ops r o q,
  stage_out s dev st = (ops, r) -> In o ops -> In q (touches o) ->
  q = so_path st \/ q = so_final st.
Proof.
  intros s dev st ops r o q H Ho Hq. unfold stage_out in H.
  destruct (so_is_temp st && negb (so_was_staged_out st)); [|inversion H; subst; contradiction].
  destruct (negb (exists_file s (so_path st))).
  { destruct (so_must_exist st); inversion H; subst; contradiction. }
  inversion H; subst; clear H.
  apply in_app_or in Ho. destruct Ho as [Ho|Ho].
  { destruct (exists_file s (so_final st)); [|contradiction]. destruct Ho as [<-|[]].
    cbn in Hq. intuition. }
  apply in_app_or in Ho. destruct Ho as [Ho|Ho].
  { exfalso. exact (mk_touches _ _ _ _ Ho Hq). }
  destruct (move_touches _ _ _ _ _ _ Ho Hq); auto.
Qed.

(** The operations of an effective stage_out. *)
Lemma stage_out_effective : forall s dev st c,
  so_is_temp st = true -> so_was_staged_out st = false -> file s (so_path st) = Some c ->
  stage_out s dev st =
    (((if exists_file s (so_final st) then [Remove (so_final st)] else []) ++
      try_makedir s (fst (so_final st)) ++ move_ops s dev (so_path st) (so_final st))%list,
     Ok (staged st)).
Proof.
  intros s dev st c Ht Hw Hf. unfold stage_out. rewrite Ht, Hw. cbn [andb negb].
  unfold exists_file at 1. rewrite Hf. reflexivity.
Qed.

Lemma prelude_run : forall s p q, p <> q ->
  let pre := ((if exists_file s q then [Remove q] else []) ++ try_makedir s (fst q))%list in
  file (run s pre) p = file s p.
Proof.
  intros s p q Hne pre. apply run_frame. intros o Ho. unfold pre in Ho.
  apply in_app_or in Ho. destruct Ho as [Ho|Ho].
  - destruct (exists_file s q); [|contradiction]. destruct Ho as [<-|[]].
    intros [E|[]]. congruence.
  - exact (mk_touches _ _ _ _ Ho).
Qed.

Lemma stage_out_no_loss : forall fname tmpdir must st,
  so_reach C fname tmpdir must st ->
  forall s dev ops r c s',
    stage_out s dev st = (ops, r) -> file s (so_path st) = Some c ->
    crash_state s ops s' ->
    file s' (so_path st) = Some c \/ file s' fname = Some c.
Proof.
  intros fname tmpdir must st HR s dev ops r c s' H Hc Hs.
  destruct (so_reach_inv _ _ _ _ HR) as (Hf & _ & _ & Ht).
  destruct (so_is_temp st) eqn:ET.
  - pose proof (proj1 Ht eq_refl) as Hne.
    destruct (so_was_staged_out st) eqn:EW.
    { unfold stage_out in H. rewrite ET, EW in H. inversion H; subst.
      apply crash_nil in Hs. subst. auto. }
    rewrite (stage_out_effective _ _ _ _ ET EW Hc) in H. inversion H; subst ops r; clear H.
    rewrite Hf in Hs. rewrite app_assoc in Hs. apply crash_app in Hs. destruct Hs as [Hs|Hs].
    + left. rewrite (crash_frame _ _ _ (so_path st) Hs); auto.
      intros o Ho. apply in_app_or in Ho. destruct Ho as [Ho|Ho].
      * destruct (exists_file s fname); [|contradiction]. destruct Ho as [<-|[]].
        intros [E|[]]. congruence.
      * exact (mk_touches _ _ _ _ Ho).
    + eapply (move_no_loss _ s dev _ _ c s' Hne Hc); [|exact Hs].
      rewrite prelude_run; auto.
  - unfold stage_out in H. rewrite ET in H. inversion H; subst.
    apply crash_nil in Hs. subst. auto.
Qed.

Lemma stage_out_arrives : forall fname tmpdir must st,
  so_reach C fname tmpdir must st -> so_was_staged_out st = false ->
  forall s dev c, file s (so_path st) = Some c ->
  exists ops st', stage_out s dev st = (ops, Ok st') /\
    so_was_staged_out st' = true /\
    file (run s ops) fname = Some c /\
    (so_path st <> fname -> file (run s ops) (so_path st) = None).
Proof.
  intros fname tmpdir must st HR EW s dev c Hc.
  destruct (so_reach_inv _ _ _ _ HR) as (Hf & _ & _ & Ht).
  destruct (so_is_temp st) eqn:ET.
  - pose proof (proj1 Ht eq_refl) as Hne.
    rewrite (stage_out_effective _ _ _ _ ET EW Hc). eexists. eexists. split; [reflexivity|].
    split; [reflexivity|]. rewrite Hf, app_assoc, run_app.
    pose proof (prelude_run s (so_path st) fname Hne) as HP. cbn zeta in HP. rewrite Hc in HP.
    destruct (move_final _ s dev _ _ c Hne Hc HP) as [A B]. split; auto.
  - exists [], (staged st). split; [unfold stage_out; rewrite ET; reflexivity|].
    assert (E : so_path st = fname).
    { destruct (path_eq_dec (so_path st) fname) as [|N]; auto.
      pose proof (proj2 Ht N). discriminate. }
    split; [reflexivity|]. cbn. rewrite <- E. split; [auto|congruence].
Qed.

Lemma stage_out_frame : forall fname tmpdir must st,
  so_reach C fname tmpdir must st ->
  forall s dev ops r s' q,
    stage_out s dev st = (ops, r) -> crash_state s ops s' ->
    q <> so_path st -> q <> fname -> file s' q = file s q.
Proof.
  intros fname tmpdir must st HR s dev ops r s' q H Hs H1 H2.
  destruct (so_reach_inv _ _ _ _ HR) as (Hf & _ & _ & Ht).
  apply (crash_frame _ _ _ q Hs). intros o Ho Hq.
  destruct (stage_out_touches _ _ _ _ _ _ _ H Ho Hq); subst; auto.
Qed.

Lemma stage_out_done_forever : forall st st',
  so_was_staged_out st = true -> so_later C st st' ->
  so_was_staged_out st' = true /\
  forall s dev, stage_out s dev st' = ([], Ok st').
Proof.
  intros st st' H HL. induction HL as [|st1 s dev ops st' HL IH H1].
  - split; auto. intros s dev. unfold stage_out. rewrite H, andb_false_r. unfold staged.
    destruct st; cbn in *. subst. reflexivity.
  - destruct IH as [A B]. rewrite B in H1. inversion H1; subst. auto.
Qed.

Lemma stage_out_missing : forall fname d must st,
  so_reach C fname (Some d) must st -> d <> fst fname -> so_was_staged_out st = false ->
  forall s dev, file s (in_dir d fname) = None ->
  stage_out s dev st = ([], if must then Raise IOError else Ok st).
Proof.
  intros fname d must st HR Hd EW s dev Hm.
  destruct (so_reach_inv _ _ _ _ HR) as (Hf & Hmu & Hp & Ht).
  assert (Hne : so_path st <> fname).
  { rewrite Hp. intro E. apply (f_equal fst) in E. cbn in E. congruence. }
  unfold stage_out. rewrite (proj2 Ht Hne), EW. cbn [andb negb]. unfold exists_file.
  rewrite Hp, Hm, Hmu. cbn [negb]. destruct must; reflexivity.
Qed.

Lemma stage_out_gap : forall fname d must st,
  so_reach C fname (Some d) must st -> d <> fst fname -> so_was_staged_out st = false ->
  forall s dev old c, file s fname = Some old -> file s (in_dir d fname) = Some c ->
  exists ops st' s', stage_out s dev st = (ops, Ok st') /\ crash_state s ops s' /\
    file s' fname = None.
Proof.
  intros fname d must st HR Hd EW s dev old c Ho Hc.
  destruct (so_reach_inv _ _ _ _ HR) as (Hf & Hmu & Hp & Ht).
  assert (Hne : so_path st <> fname).
  { rewrite Hp. intro E. apply (f_equal fst) in E. cbn in E. congruence. }
  rewrite <- Hp in Hc. rewrite (stage_out_effective _ _ _ _ (proj2 Ht Hne) EW Hc).
  rewrite Hf. unfold exists_file. rewrite Ho. eexists. eexists. exists (apply s (Remove fname)).
  split; [reflexivity|]. split.
  - apply crash_app_l. exists [Remove fname], []. split; reflexivity.
  - cbn [apply file]. apply set_same.
Qed.

Lemma stage_out_incomplete : forall fname d must st,
  so_reach C fname (Some d) must st -> d <> fst fname -> so_was_staged_out st = false ->
  forall s partial c x, In x partial -> file s (in_dir d fname) = Some c ->
  exists ops st' s', stage_out s (OtherDevice partial) st = (ops, Ok st') /\
    crash_state s ops s' /\ file s' fname = Some x.
Proof.
  intros fname d must st HR Hd EW s partial c x Hx Hc.
  destruct (so_reach_inv _ _ _ _ HR) as (Hf & Hmu & Hp & Ht).
  assert (Hne : so_path st <> fname).
  { rewrite Hp. intro E. apply (f_equal fst) in E. cbn in E. congruence. }
  rewrite <- Hp in Hc. rewrite (stage_out_effective _ _ _ _ (proj2 Ht Hne) EW Hc).
  rewrite Hf. apply in_split in Hx. destruct Hx as (l1 & l2 & ->).
  eexists. eexists. eexists. split; [reflexivity|].
  cbn [move_ops]. unfold copy_ops. rewrite Hc. rewrite app_assoc.
  split.
  - apply crash_app_r. apply crash_app_l. apply crash_app_l.
    exists (map (Put fname) l1 ++ [Put fname x])%list, (map (Put fname) l2).
    split; [rewrite map_app; cbn [map]; rewrite <- app_assoc; reflexivity|reflexivity].
  - rewrite run_app. cbn. apply set_same.
Qed.

(** ** StagedInFile *)

Lemma si_reach_inv : forall fname tmpdir st, si_reach C fname tmpdir st ->
  si_original st = fname /\
  si_path st = match tmpdir with None => fname | Some d => in_dir d fname end /\
  (si_stage_in st = true <-> si_path st <> fname) /\
  (si_was_staged_in st = true -> si_stage_in st = true).
Proof.
  intros fname tmpdir st H. induction H as [|st s partial ops st' H IH H1|st s ops st' H IH H1].
  - destruct tmpdir as [d|]; cbn [si_set_paths si_original si_path si_stage_in si_was_staged_in].
    + repeat split; auto; try discriminate.
      * intros E. destruct (String.eqb_spec d (fst fname)); [discriminate|].
        intro E'. apply (f_equal fst) in E'. cbn in E'. congruence.
      * intros E. destruct (String.eqb_spec d (fst fname)) as [->|]; [|reflexivity].
        exfalso. apply E. destruct fname; reflexivity.
    + repeat split; auto; intros; congruence.
  - unfold stage_in in H1. destruct (si_stage_in st) eqn:ES.
    + destruct (negb (exists_file s (si_original st))); inversion H1; subst; clear H1.
      cbn [si_original si_path si_stage_in si_was_staged_in]. tauto.
    + inversion H1; subst. rewrite ES. tauto.
  - unfold cleanup in H1. destruct (si_was_staged_in st && exists_file s (si_path st)).
    + inversion H1; subst. cbn [si_original si_path si_stage_in si_was_staged_in].
      destruct IH as (A & B & D & E). repeat split; auto; try apply D. discriminate.
    + inversion H1; subst. exact IH.
Qed.

Lemma stage_in_touches : forall s partial st ops r o q,
  stage_in s partial st = (ops, r) -> In o ops -> In q (touches o) ->
  q = si_path st /\ si_stage_in st = true.
Proof.
  intros s partial st ops r o q H Ho Hq. unfold stage_in in H.
  destruct (si_stage_in st); [|inversion H; subst; contradiction].
  destruct (negb (exists_file s (si_original st))); [inversion H; subst; contradiction|].
  inversion H; subst; clear H. split; [|reflexivity].
  apply in_app_or in Ho. destruct Ho as [Ho|Ho].
  - destruct (exists_file s (si_path st)).
    + destruct Ho as [<-|[]]. cbn in Hq. intuition.
    + exfalso. exact (mk_touches _ _ _ _ Ho Hq).
  - rewrite (copy_touches _ _ _ _ _ Ho) in Hq. cbn in Hq. intuition.
Qed.

Lemma cleanup_touches : forall s st ops st' o q,
  cleanup s st = (ops, st') -> In o ops -> In q (touches o) ->
  q = si_path st /\ si_was_staged_in st = true.
Proof.
  intros s st ops st' o q H Ho Hq. unfold cleanup in H.
  destruct (si_was_staged_in st) eqn:E; [|inversion H; subst; contradiction].
  destruct (exists_file s (si_path st)); inversion H; subst; [|contradiction].
  destruct Ho as [<-|[]]. cbn in Hq. intuition.
Qed.

Lemma stage_in_frame : forall fname tmpdir st, si_reach C fname tmpdir st ->
  forall s partial ops r s' q,
    stage_in s partial st = (ops, r) -> crash_state s ops s' ->
    (q = fname \/ q <> si_path st) -> file s' q = file s q.
Proof.
  intros fname tmpdir st HR s partial ops r s' q H Hs Hq.
  destruct (si_reach_inv _ _ _ HR) as (A & B & D & E).
  apply (crash_frame _ _ _ q Hs). intros o Ho Hq'.
  destruct (stage_in_touches _ _ _ _ _ _ _ H Ho Hq') as [E1 E2].
  destruct Hq as [->|Hq]; [|congruence]. apply (proj1 D E2). congruence.
Qed.

Lemma cleanup_frame : forall fname tmpdir st, si_reach C fname tmpdir st ->
  forall s ops st' s' q,
    cleanup s st = (ops, st') -> crash_state s ops s' ->
    (q = fname \/ q <> si_path st) -> file s' q = file s q.
Proof.
  intros fname tmpdir st HR s ops st' s' q H Hs Hq.
  destruct (si_reach_inv _ _ _ HR) as (A & B & D & E).
  apply (crash_frame _ _ _ q Hs). intros o Ho Hq'.
  destruct (cleanup_touches _ _ _ _ _ _ H Ho Hq') as [E1 E2].
  destruct Hq as [->|Hq]; [|congruence]. apply (proj1 D (E E2)). congruence.
Qed.

Lemma stage_in_copies : forall fname tmpdir st, si_reach C fname tmpdir st ->
  forall s partial c, file s fname = Some c ->
  exists ops st', stage_in s partial st = (ops, Ok st') /\
    file (run s ops) (si_path st') = Some c /\ si_path st' = si_path st /\
    (si_path st <> fname -> si_was_staged_in st' = true).
Proof.
  intros fname tmpdir st HR s partial c Hc.
  destruct (si_reach_inv _ _ _ HR) as (A & B & D & E).
  unfold stage_in. destruct (si_stage_in st) eqn:ES.
  - rewrite A. unfold exists_file at 1. rewrite Hc. cbn [negb].
    eexists. eexists. split; [reflexivity|]. cbn [si_path si_was_staged_in].
    split; [|auto]. rewrite run_app. apply copy_run. exact Hc.
  - exists [], st. split; [reflexivity|]. cbn.
    assert (EP : si_path st = fname).
    { destruct (path_eq_dec (si_path st) fname) as [|N]; auto.
      pose proof (proj2 D N). congruence. }
    rewrite EP. repeat split; auto; congruence.
Qed.

Lemma stage_in_missing : forall fname d st, si_reach C fname (Some d) st -> d <> fst fname ->
  forall s partial, file s fname = None -> stage_in s partial st = ([], Raise IOError).
Proof.
  intros fname d st HR Hd s partial Hm.
  destruct (si_reach_inv _ _ _ HR) as (A & B & D & E).
  assert (Hne : si_path st <> fname).
  { rewrite B. intro E'. apply (f_equal fst) in E'. cbn in E'. congruence. }
  unfold stage_in. rewrite (proj2 D Hne), A. unfold exists_file. rewrite Hm. reflexivity.
Qed.

Lemma cleanup_removes : forall fname tmpdir st, si_reach C fname tmpdir st ->
  si_was_staged_in st = true ->
  forall s c, file s (si_path st) = Some c ->
  exists ops st', cleanup s st = (ops, st') /\ file (run s ops) (si_path st) = None /\
    si_was_staged_in st' = false.
Proof.
  intros fname tmpdir st HR HW s c Hc. unfold cleanup. rewrite HW. cbn [andb].
  unfold exists_file. rewrite Hc. eexists. eexists. split; [reflexivity|].
  split; [|reflexivity]. cbn. apply set_same.
Qed.

Lemma cleanup_idle : forall s (st : staged_in), si_was_staged_in st = false ->
  cleanup s st = ([], st).
Proof. intros s st H. unfold cleanup. rewrite H. reflexivity. Qed.

Lemma si_no_staging : forall fname tmpdir st, si_reach C fname tmpdir st ->
  match tmpdir with None => True | Some d => d = fst fname end ->
  si_path st = fname /\
  (forall s partial, stage_in s partial st = ([], Ok st)) /\ (forall s, cleanup s st = ([], st)).
Proof.
  intros fname tmpdir st HR Hd.
  destruct (si_reach_inv _ _ _ HR) as (A & B & D & E).
  assert (EP : si_path st = fname).
  { rewrite B. destruct tmpdir as [d|]; auto. subst d. destruct fname; reflexivity. }
  assert (ES : si_stage_in st = false).
  { destruct (si_stage_in st); auto. exfalso. apply (proj1 D eq_refl EP). }
  split; [auto|]. split.
  - intros. unfold stage_in. rewrite ES. reflexivity.
  - intros. apply cleanup_idle. destruct (si_was_staged_in st); auto.
    specialize (E eq_refl). congruence.
Qed.

(** ** make_des_pizza_slices *)

Definition own_output (w : world C) (c : C) : Prop := w_fpack_out w = Some c.

Lemma mk_file : forall s d, file (run s (try_makedir s d)) = file s.
Proof. intros s d. unfold try_makedir. destruct (isdir s d); reflexivity. Qed.

Lemma so_init_file : forall s fname tmpdir must ops st, so_init s fname tmpdir must = (ops, st) ->
  file (run s ops) = file s.
Proof.
  intros s fname tmpdir must ops st H. unfold so_init in H. destruct tmpdir as [d|].
  - destruct (isdir s d); inversion H; subst; reflexivity.
  - inversion H; reflexivity.
Qed.

(** Full characterisation of what a run without an exception leaves at the
    final path and returns. *)
Lemma make_slices_files_spec : forall s w meds_path tmpdir remove_fits s' r c0,
  make_slices_files s w meds_path tmpdir remove_fits = (s', r) ->
  w_fits w = Ok c0 ->
  let temp := match tmpdir with Some d => negb (d =? fst meds_path)%string | None => false end in
  let final :=
    match w_fpack_out w with
    | Some c => Some c
    | None => if temp then file s (add_fz meds_path) else None
    end in
  file s' (add_fz meds_path) = final /\
  r = match final with
      | Some c => if w_valid w c then Ok tt else Raise OtherError
      | None => Raise IOError
      end.
Proof.
  intros s w meds_path tmpdir remove_fits s' r c0 H Hw.
  unfold make_slices_files in H. fold (add_fz meds_path) in H.
  set (s1 := run s (try_makedir s (fst meds_path))) in *.
  assert (F1 : file s1 = file s) by apply mk_file.
  destruct (so_init s1 (add_fz meds_path) tmpdir false) as [ops st] eqn:EI.
  assert (F2 : file (run s1 ops) = file s) by (rewrite (so_init_file _ _ _ _ _ _ EI); auto).
  set (s2 := run s1 ops) in *.
  destruct (so_init_inv _ _ _ _ _ _ EI) as (Hf & Hm & Hws & Hp & Ht).
  rewrite Hw in H.
  set (fits := (fst (so_path st), snd meds_path)) in *.
  assert (Hff : fits <> so_path st).
  { unfold fits. intro E. apply (f_equal snd) in E. cbn in E. rewrite Hp in E.
    destruct tmpdir as [d|]; unfold in_dir, add_fz in E; cbn in E;
      symmetry in E; exact (append_fz_ne _ E). }
  assert (Hff2 : fits <> add_fz meds_path).
  { unfold fits, add_fz. intro E. apply (f_equal snd) in E. cbn in E.
    symmetry in E. exact (append_fz_ne _ E). }
  set (s3 := apply s2 (Put fits c0)) in *.
  set (s4 := if exists_file s3 (so_path st) then apply s3 (Remove (so_path st)) else s3) in *.
  assert (G4 : file s4 (so_path st) = None).
  { unfold s4. destruct (exists_file s3 (so_path st)) eqn:E.
    - cbn [apply file]. apply set_same.
    - unfold exists_file in E. destruct (file s3 (so_path st)); [discriminate|reflexivity]. }
  assert (K4 : add_fz meds_path <> so_path st -> file s4 (add_fz meds_path) = file s (add_fz meds_path)).
  { intro N. unfold s4.
    assert (K3 : file s3 (add_fz meds_path) = file s (add_fz meds_path)).
    { unfold s3. cbn [apply file]. rewrite set_other by auto. rewrite F2. reflexivity. }
    destruct (exists_file s3 (so_path st)); auto.
    cbn [apply file]. rewrite set_other by auto. exact K3. }
  set (s5 := match w_fpack_out w with Some d => apply s4 (Put (so_path st) d) | None => s4 end) in *.
  assert (G5 : file s5 (so_path st) = w_fpack_out w).
  { unfold s5. destruct (w_fpack_out w); auto. cbn [apply file]. apply set_same. }
  assert (K5 : add_fz meds_path <> so_path st -> file s5 (add_fz meds_path) = file s (add_fz meds_path)).
  { intro N. unfold s5. destruct (w_fpack_out w); auto. cbn [apply file].
    rewrite set_other by auto. auto. }
  set (s6 := if w_fpack_ok w && remove_fits then apply s5 (Remove fits) else s5) in *.
  assert (G6 : file s6 (so_path st) = w_fpack_out w).
  { unfold s6. destruct (w_fpack_ok w && remove_fits); auto. cbn [apply file].
    rewrite set_other by auto. auto. }
  assert (K6 : add_fz meds_path <> so_path st -> file s6 (add_fz meds_path) = file s (add_fz meds_path)).
  { intro N. unfold s6. destruct (w_fpack_ok w && remove_fits); auto. cbn [apply file].
    rewrite set_other by auto. auto. }
  clearbody s6. clear s5 s4 s3 G4 K4 G5 K5.
  assert (HR : so_reach C (add_fz meds_path) tmpdir false st) by (econstructor; exact EI).
  assert (ETemp : so_is_temp st = match tmpdir with Some d => negb (d =? fst meds_path)%string | None => false end).
  { unfold so_init in EI. destruct tmpdir; inversion EI; reflexivity. }
  intros temp final. unfold final, temp. rewrite <- ETemp. clear temp final ETemp.
  destruct (stage_out s6 (w_device w) st) as [ops' r'] eqn:ES.
  assert (key : file (run s6 ops') (add_fz meds_path) =
                match w_fpack_out w with
                | Some c => Some c
                | None => if so_is_temp st then file s (add_fz meds_path) else None
                end /\ exists st', r' = Ok st').
  { destruct (w_fpack_out w) as [c|] eqn:EO.
    - destruct (stage_out_arrives _ _ _ _ HR Hws s6 (w_device w) c G6) as (o & st' & E & _ & A & _).
      rewrite ES in E. inversion E; subst. split; [exact A|eauto].
    - destruct (so_is_temp st) eqn:ET.
      + unfold stage_out in ES. rewrite ET, Hws in ES. cbn [andb negb] in ES.
        unfold exists_file at 1 in ES. rewrite G6, Hm in ES. cbn [negb] in ES. inversion ES; subst.
        split; [|eauto]. cbn. apply K6. intro E. apply (proj1 Ht eq_refl). auto.
      + unfold stage_out in ES. rewrite ET in ES. cbn [andb] in ES. inversion ES; subst.
        split; [|eauto]. cbn. rewrite <- G6. f_equal.
        destruct (path_eq_dec (so_path st) (add_fz meds_path)) as [E|N]; auto.
        pose proof (proj2 Ht N). discriminate. }
  destruct key as [K (st' & ->)].
  destruct (file (run s6 ops') (add_fz meds_path)) as [d|] eqn:EF.
  - inversion H; subst; clear H. rewrite EF. rewrite <- K. split; reflexivity.
  - inversion H; subst; clear H. rewrite EF. rewrite <- K. split; reflexivity.
Qed.

Lemma make_slices_files_raise : forall s w meds_path tmpdir remove_fits s' r e,
  make_slices_files s w meds_path tmpdir remove_fits = (s', r) -> w_fits w = Raise e -> r = Raise e.
Proof.
  intros s w meds_path tmpdir remove_fits s' r e H Hw. unfold make_slices_files in H.
  destruct (so_init _ _ _ _) as [ops st] eqn:EI. rewrite Hw in H.
  destruct (so_init_inv _ _ _ _ _ _ EI) as (Hf & Hm & Hws & Hp & Ht).
  match type of H with context [stage_out ?a ?b ?c] =>
    destruct (stage_out a b c) as [o r'] eqn:ES end.
  inversion H; subst; clear H. destruct r' as [|e']; auto.
  exfalso. unfold stage_out in ES. rewrite Hws, Hm in ES.
  destruct (so_is_temp st); cbn [andb negb] in ES; [|inversion ES].
  match type of ES with context [if ?b then _ else _] => destruct b end; inversion ES.
Qed.

(** The uncompressed file. *)
Lemma make_slices_files_fits : forall s w meds_path tmpdir remove_fits s' r c0,
  make_slices_files s w meds_path tmpdir remove_fits = (s', r) ->
  w_fits w = Ok c0 ->
  file s' (match tmpdir with Some d => in_dir d meds_path | None => meds_path end) =
  if w_fpack_ok w && remove_fits then None else Some c0.
Proof.
  intros s w meds_path tmpdir remove_fits s' r c0 H Hw.
  unfold make_slices_files in H. fold (add_fz meds_path) in H.
  set (s1 := run s (try_makedir s (fst meds_path))) in *.
  destruct (so_init s1 (add_fz meds_path) tmpdir false) as [ops st] eqn:EI.
  set (s2 := run s1 ops) in *.
  destruct (so_init_inv _ _ _ _ _ _ EI) as (Hf & Hm & Hws & Hp & Ht).
  rewrite Hw in H.
  set (fits := (fst (so_path st), snd meds_path)) in *.
  assert (EF : match tmpdir with Some d => in_dir d meds_path | None => meds_path end = fits).
  { unfold fits. rewrite Hp. destruct tmpdir; [reflexivity|]. destruct meds_path; reflexivity. }
  rewrite EF.
  assert (Hff : fits <> so_path st).
  { unfold fits. intro E. apply (f_equal snd) in E. cbn in E. rewrite Hp in E.
    destruct tmpdir as [d|]; unfold in_dir, add_fz in E; cbn in E;
      symmetry in E; exact (append_fz_ne _ E). }
  assert (Hff2 : fits <> add_fz meds_path).
  { unfold fits, add_fz. intro E. apply (f_equal snd) in E. cbn in E.
    symmetry in E. exact (append_fz_ne _ E). }
  set (s3 := apply s2 (Put fits c0)) in *.
  assert (G3 : file s3 fits = Some c0) by (unfold s3; cbn [apply file]; apply set_same).
  set (s4 := if exists_file s3 (so_path st) then apply s3 (Remove (so_path st)) else s3) in *.
  assert (G4 : file s4 fits = Some c0).
  { unfold s4. destruct (exists_file s3 (so_path st)); auto. cbn [apply file].
    rewrite set_other by auto. auto. }
  set (s5 := match w_fpack_out w with Some d => apply s4 (Put (so_path st) d) | None => s4 end) in *.
  assert (G5 : file s5 fits = Some c0).
  { unfold s5. destruct (w_fpack_out w); auto. cbn [apply file]. rewrite set_other by auto. auto. }
  set (s6 := if w_fpack_ok w && remove_fits then apply s5 (Remove fits) else s5) in *.
  assert (G6 : file s6 fits = if w_fpack_ok w && remove_fits then None else Some c0).
  { unfold s6. destruct (w_fpack_ok w && remove_fits); auto. cbn [apply file]. apply set_same. }
  rewrite <- G6. clearbody s6.
  assert (HR : so_reach C (add_fz meds_path) tmpdir false st) by (econstructor; exact EI).
  destruct (stage_out s6 (w_device w) st) as [ops' r'] eqn:ES.
  assert (F : file (run s6 ops') fits = file s6 fits).
  { apply (stage_out_frame _ _ _ _ HR _ _ _ _ _ fits ES (crash_full _ _) Hff Hff2). }
  rewrite <- F.
  destruct r' as [st'|e]; [|now inversion H].
  destruct (file (run s6 ops') (add_fz meds_path)); now inversion H.
Qed.

End FilesProofs.
