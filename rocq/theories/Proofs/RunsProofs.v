(** Proofs about several runs on one file system. *)
From Coq Require Import ZArith List Bool Arith Lia String.
From Verif Require Import Lib.Base Model.Files Model.Runs Spec.RunsSpec.
Import ListNotations.
Open Scope string_scope.

Section Runs.
Context {C : Type}.
Implicit Types (s : fsys C) (k : prog C).

Lemma path_eqb_eq p q : path_eqb p q = true <-> p = q.
Proof.
  unfold path_eqb. rewrite andb_true_iff, !String.eqb_eq. destruct p, q; cbn. split; [intros [-> ->]; reflexivity|].
  intros E. injection E as -> ->. auto.
Qed.

Lemma path_eqb_neq p q : p <> q -> path_eqb p q = false.
Proof. intros H. destruct (path_eqb p q) eqn:E; [|reflexivity]. apply path_eqb_eq in E. contradiction. Qed.

(** One run alone, from where it is to its end. *)
Fixpoint sem (k : prog C) (s : fsys C) : fsys C * result unit :=
  match k with
  | Return r => (s, r)
  | Do o k => sem k (apply s o)
  | Read p k => sem (k (file s p)) s
  | IsDir d k => sem (k (isdir s d)) s
  | NewDir d k => if isdir s d then sem (k false) s else sem (k true) (apply s (Mkdir d))
  end.

Definition op_in (P : path -> Prop) (o : op C) : Prop :=
  match o with
  | Remove p => P p
  | Mkdir _ => True
  | Rename p q => P p /\ P q
  | Put p _ => P p
  end.

Fixpoint within (P : path -> Prop) (D : string -> Prop) (k : prog C) : Prop :=
  match k with
  | Return _ => True
  | Do o k => op_in P o /\ within P D k
  | Read p k => P p /\ forall c, within P D (k c)
  | IsDir d k => D d /\ within P D (k true)
  | NewDir _ _ => False
  end.

Lemma apply_same P s s' o : op_in P o -> (forall p, P p -> file s p = file s' p) ->
  forall p, P p -> file (apply s o) p = file (apply s' o) p.
Proof.
  intros H E p Hp. destruct o; cbn in *; unfold set_file.
  - destruct (path_eqb p0 p); auto.
  - auto.
  - destruct H as [H1 H2]. destruct (path_eqb p0 p); [reflexivity|]. destruct (path_eqb q p); auto.
  - destruct (path_eqb p0 p); auto.
Qed.

Lemma apply_other P s o p : op_in P o -> ~ P p -> file (apply s o) p = file s p.
Proof.
  intros H N. destruct o; cbn in *; unfold set_file; try reflexivity.
  - rewrite path_eqb_neq; [reflexivity|]. intros ->. contradiction.
  - destruct H as [H1 H2]. rewrite path_eqb_neq by (intros ->; contradiction).
    rewrite path_eqb_neq by (intros ->; contradiction). reflexivity.
  - rewrite path_eqb_neq; [reflexivity|]. intros ->. contradiction.
Qed.

Lemma apply_dirs s o d : isdir s d = true -> isdir (apply s o) d = true.
Proof. intros H. destruct o; cbn; rewrite ?H, ?orb_true_r; reflexivity. Qed.

(** [Q] holds now and at all later moments of a run that is alone. *)
Fixpoint always (Q : fsys C -> Prop) (k : prog C) (s : fsys C) : Prop :=
  Q s /\
  match k with
  | Return _ => True
  | Do o k => always Q k (apply s o)
  | Read p k => always Q (k (file s p)) s
  | IsDir d k => always Q (k (isdir s d)) s
  | NewDir d k => if isdir s d then always Q (k false) s else always Q (k true) (apply s (Mkdir d))
  end.

Lemma always_now Q k s : always Q k s -> Q s.
Proof. destruct k; intros [H _]; exact H. Qed.

(** ** Runs do not disturb each other *)
Section Many.
Variable P : nat -> path -> Prop.
Variable D : string -> Prop.
Hypothesis apart : forall i j p, i <> j -> P i p -> ~ P j p.
Variable goal : nat -> fsys C * result unit.
Variable s0 : fsys C.
Variable Q : nat -> fsys C -> Prop.

Definition good (st : state C) : Prop :=
  (forall d, D d -> isdir (fs st) d = true) /\
  (forall p, (forall i, ~ P i p) -> file (fs st) p = file s0 p) /\
  forall i, within (P i) D (runs st i) /\
  exists s, (forall p, P i p -> file (fs st) p = file s p) /\ (forall d, D d -> isdir s d = true) /\
            sem (runs st i) s = goal i /\ always (Q i) (runs st i) s.

Lemma good_step st i : good st -> good (step st i).
Proof.
  intros (Hd & Hp & Hr). unfold step. destruct (Hr i) as (W & s & F & Ds & G & A).
  destruct (runs st i) as [r|o k|p k|d k|d k] eqn:R; cbn [within] in W; [exact (conj Hd (conj Hp Hr))|..].
  - destruct W as [W1 W2]. split; [|split]; cbn [fs runs set_run].
    + intros d Hd'. apply apply_dirs, Hd, Hd'.
    + intros p Np. rewrite (apply_other (P i)); [now apply Hp|exact W1|apply Np].
    + intros j. destruct (Nat.eqb_spec j i) as [->|N].
      * split; [exact W2|]. exists (apply s o). split; [|split; [|exact (conj G (proj2 A))]].
        -- now apply apply_same.
        -- intros d Hd'. apply apply_dirs, Ds, Hd'.
      * destruct (Hr j) as (Wj & sj & Fj & Dj & Gj & Aj). split; [exact Wj|]. exists sj. split; [|repeat split; assumption].
        intros p Pp. rewrite (apply_other (P i)); [now apply Fj|exact W1|]. intros X. exact (apart _ _ _ N Pp X).
  - destruct W as [W1 W2]. split; [exact Hd|]. split; [exact Hp|]. intros j. cbn [fs runs set_run].
    destruct (Nat.eqb_spec j i) as [->|N]; [|apply Hr]. split; [apply W2|]. exists s. split; [exact F|]. split; [exact Ds|].
    rewrite (F p W1). exact (conj G (proj2 A)).
  - destruct W as [W1 W2]. split; [exact Hd|]. split; [exact Hp|]. intros j. cbn [fs runs set_run].
    destruct (Nat.eqb_spec j i) as [->|N]; [|apply Hr]. rewrite (Hd d W1). split; [exact W2|]. exists s.
    split; [exact F|]. split; [exact Ds|]. cbn [sem] in G. cbn [always] in A. rewrite (Ds d W1) in G, A. exact (conj G (proj2 A)).
  - destruct W.
Qed.

Lemma good_exec l : forall st, good st -> good (exec st l).
Proof. induction l as [|i l IH]; intros st H; [exact H|]. apply IH, good_step, H. Qed.
End Many.

(** ** What a run touches *)
Lemma puts_within (P : path -> Prop) D q l k : P q -> within P D k -> within P D (puts q l k).
Proof. intros Hq Hk. induction l as [|c l IH]; cbn; [exact Hk|]. split; [exact Hq|exact IH]. Qed.

Lemma stage_within (P : path -> Prop) D dev st k : P (so_path st) -> P (so_final st) -> within P D k ->
  within P D (stage_prog dev st k).
Proof.
  intros H1 H2 Hk. unfold stage_prog. destruct (so_is_temp st && negb (so_was_staged_out st)); [|exact Hk].
  cbn [within]. split; [exact H1|]. intros [c|]; [|exact Hk]. cbn [within]. split; [exact H2|].
  assert (M : within P D (move_prog dev (so_path st) (so_final st) k)).
  { destruct dev as [|l]; cbn [move_prog within op_in]; [auto|]. split; [exact H1|]. intros [x|]; cbn [within op_in]; [|auto].
    apply puts_within; [exact H2|]. cbn [within op_in]. auto. }
  intros [f|]; cbn [within op_in]; auto.
Qed.

Lemma body_within j D : within (fun p => In p (own_files j)) D (body j).
Proof.
  assert (A : In (so_final (staging j)) (own_files j)) by (unfold staging, own_files; destruct (j_tmpdir j); cbn; auto).
  assert (B : In (so_path (staging j)) (own_files j)).
  { unfold staging, own_files, work_dir, fz_of. destruct (j_tmpdir j); cbn; auto. }
  assert (E : In (fst (so_path (staging j)), snd (j_meds j)) (own_files j)).
  { unfold staging, own_files, work_dir, fz_of. destruct (j_tmpdir j); cbn; auto. }
  unfold body. destruct (j_fits j) as [c|e].
  - cbn [within op_in]. split; [exact E|]. split; [exact B|]. split; [exact E|]. intros x.
    assert (V : within (fun p => In p (own_files j)) D
      (stage_prog (j_device j) (staging j)
         (Read (so_final (staging j)) (fun d =>
              match d with
              | Some d => Return (if j_valid j d then Ok tt else Raise OtherError)
              | None => Return (Raise IOError)
              end)))).
    { apply stage_within; [exact B|exact A|]. cbn [within]. split; [exact A|]. intros [d|]; exact I. }
    destruct x as [x|]; [|exact V].
    destruct (j_pack j x); cbn [within op_in]; [split; [exact B|]|];
      (destruct (j_fpack_ok j && j_remove_fits j); cbn [within op_in]; [split; [exact E|exact V]|exact V]).
  - assert (V : within (fun p => In p (own_files j)) D (stage_prog (j_device j) (staging j) (Return (Raise e)))).
    { apply stage_within; [exact B|exact A|exact I]. }
    destruct (j_partial_fits j); cbn [within op_in]; auto.
Qed.

Lemma run_within j (D : string -> Prop) : (forall d, j_tmpdir j = Some d -> D d) ->
  within (fun p => In p (own_files j)) D (run_prog j).
Proof.
  intros H. unfold run_prog. cbn [within op_in]. split; [exact I|]. destruct (j_tmpdir j) as [d|]; [|apply body_within].
  cbn [within]. split; [now apply H|apply body_within].
Qed.

(** ** A run alone is the run of Model/Files.v *)
Definition eqf (s s' : fsys C) : Prop := forall p, file s p = file s' p.

Lemma eqf_apply s s' o : eqf s s' -> eqf (apply s o) (apply s' o).
Proof. intros H p. apply (apply_same (fun _ => True)); auto. destruct o; cbn; auto. Qed.

Lemma eqf_mkdir s s' d : eqf s s' -> eqf (apply s (Mkdir d)) s'.
Proof. intros H p. exact (H p). Qed.

Lemma eqf_remove s s' p : eqf s s' -> file s' p = None -> eqf (apply s (Remove p)) s'.
Proof.
  intros H N q. cbn. unfold set_file. destruct (path_eqb p q) eqn:E; [|apply H]. apply path_eqb_eq in E. now subst.
Qed.

Lemma sem_puts q l k : forall s, sem (puts q l k) s = sem k (run s (map (Put q) l)).
Proof. induction l as [|c l IH]; intros s; [reflexivity|]. cbn [puts fold_right map]. apply IH. Qed.

Lemma eqf_run l : forall s s', eqf s s' -> eqf (run s l) (run s' l).
Proof. induction l as [|o l IH]; intros s s' H; [exact H|]. apply IH, eqf_apply, H. Qed.

Lemma run_app l m s : run s (l ++ m) = run (run s l) m.
Proof. unfold run. apply fold_left_app. Qed.

Lemma eqf_try s s' d : eqf s s' -> eqf s (run s' (try_makedir s' d)).
Proof. intros H p. unfold try_makedir. destruct (isdir s' d); exact (H p). Qed.

Lemma sem_stage dev st k s s' : eqf s s' -> so_must_exist st = false ->
  (so_is_temp st = true -> so_path st <> so_final st) ->
  exists t, sem (stage_prog dev st k) s = sem k t /\ eqf t (run s' (fst (stage_out s' dev st))) /\
    exists st', snd (stage_out s' dev st) = Ok st'.
Proof.
  intros H M N. unfold stage_prog, stage_out.
  destruct (so_is_temp st) eqn:Et; [|exists s; cbn; eauto]. specialize (N eq_refl).
  destruct (so_was_staged_out st); cbn [negb andb]; [exists s; cbn; eauto|].
  cbn [sem]. unfold exists_file. rewrite (H (so_path st)). destruct (file s' (so_path st)) as [c|] eqn:Ec.
  2:{ rewrite M. exists s. cbn. eauto. }
  cbn [negb fst snd sem]. rewrite (H (so_final st)).
  set (mk := try_makedir s' (fst (so_final st))).
  set (rm := match file s' (so_final st) with Some _ => [Remove (so_final st)] | None => [] end : list (op C)).
  assert (R : exists rm', rm = rm' /\ run s' ((if match file s' (so_final st) with Some _ => true | None => false end
       then [Remove (so_final st)] else []) ++ mk ++ move_ops s' dev (so_path st) (so_final st))%list
     = run (run (run s' rm') mk) (move_ops s' dev (so_path st) (so_final st))).
  { exists rm. split; [reflexivity|]. rewrite !run_app. unfold rm. destruct (file s' (so_final st)); reflexivity. }
  destruct R as (? & <- & ->).
  set (s1 := run s rm). assert (H1 : eqf s1 (run s' rm)) by now apply eqf_run.
  assert (H2 : eqf (apply s1 (Mkdir (fst (so_final st)))) (run (run s' rm) mk)).
  { apply eqf_mkdir. intros p. rewrite H1. unfold mk, try_makedir. destruct (isdir s' (fst (so_final st))); reflexivity. }
  set (s2 := apply s1 (Mkdir (fst (so_final st)))) in *.
  exists (run s2 (move_ops s' dev (so_path st) (so_final st))). split; [|split; [now apply eqf_run|eauto]].
  transitivity (sem (move_prog dev (so_path st) (so_final st) k) s2).
  { unfold s2, s1, rm. destruct (file s' (so_final st)); reflexivity. }
  destruct dev as [|l]; cbn [move_prog move_ops sem]; [reflexivity|].
  assert (Src : file s2 (so_path st) = Some c).
  { unfold s2. cbn [apply file]. rewrite H1. unfold rm. destruct (file s' (so_final st)); cbn; [|exact Ec].
    unfold set_file. rewrite path_eqb_neq; [exact Ec|congruence]. }
  rewrite Src, sem_puts. unfold copy_ops. rewrite Ec, !run_app. reflexivity.
Qed.

Lemma fz_not_fits (d e b : string) : (d, b ++ ".fz") <> (e, b).
Proof.
  intros E. injection E as _ E. apply (f_equal String.length) in E.
  assert (L : forall a c, String.length (a ++ c) = (String.length a + String.length c)%nat).
  { induction a as [|x a IH]; intros c; cbn; [reflexivity|]. now rewrite IH. }
  rewrite L in E. cbn in E. lia.
Qed.

Lemma staging_temp (j : job C) : so_is_temp (staging j) = true -> so_path (staging j) <> so_final (staging j).
Proof.
  unfold staging. destruct (j_tmpdir j) as [d|]; cbn; [|discriminate]. intros H E. injection E as E. subst d.
  rewrite String.eqb_refl in H. discriminate.
Qed.

Lemma staging_must (j : job C) : so_must_exist (staging j) = false.
Proof. unfold staging. now destruct (j_tmpdir j). Qed.

Lemma so_init_staging s (j : job C) : snd (so_init s (fst (j_meds j), snd (j_meds j) ++ ".fz") (j_tmpdir j) false) = staging j.
Proof. unfold so_init, staging. now destruct (j_tmpdir j). Qed.

Lemma so_init_files s (j : job C) : eqf (run s (fst (so_init s (fst (j_meds j), snd (j_meds j) ++ ".fz") (j_tmpdir j) false))) s.
Proof. intros p. unfold so_init. destruct (j_tmpdir j) as [d|]; cbn; [|reflexivity]. now destruct (isdir s d). Qed.

Lemma staging_final (j : job C) : so_final (staging j) = (fst (j_meds j), snd (j_meds j) ++ ".fz").
Proof. unfold staging. now destruct (j_tmpdir j). Qed.

Lemma staging_path (j : job C) : exists d, so_path (staging j) = (d, snd (j_meds j) ++ ".fz").
Proof. unfold staging, fz_of. destruct (j_tmpdir j); cbn; eauto. Qed.

Lemma sem_run j s : exists t, sem (run_prog j) s = sem (body j) t /\ eqf t s.
Proof.
  unfold run_prog. cbn [sem]. destruct (j_tmpdir j) as [d|]; [|eexists; split; [reflexivity|intros p; reflexivity]].
  cbn [sem]. destruct (isdir (apply s (Mkdir (fst (j_meds j)))) d) eqn:E.
  - eexists. split; [reflexivity|intros p; reflexivity].
  - cbn [sem]. rewrite E. eexists. split; [reflexivity|intros p; reflexivity].
Qed.

(** A run alone does what Model/Files.v says. *)
Lemma sem_alone j s : eqf (fst (sem (run_prog j) s)) (fst (alone s j)) /\
  snd (sem (run_prog j) s) = snd (alone s j).
Proof.
  destruct (sem_run j s) as (t & -> & Ht). unfold alone, make_slices_files.
  cbn [w_fits w_partial_fits w_fpack_ok w_fpack_out w_valid w_device].
  set (s1 := run s (try_makedir s (fst (j_meds j)))).
  pose proof (so_init_staging s1 j) as Ei. pose proof (so_init_files s1 j) as Ef.
  destruct (so_init s1 (fst (j_meds j), snd (j_meds j) ++ ".fz") (j_tmpdir j) false) as [ops st].
  cbn [fst snd] in Ei, Ef. subst st. set (s2 := run s1 ops) in *.
  assert (H2 : eqf t s2).
  { intros p. rewrite (Ef p), Ht. unfold s1, try_makedir. destruct (isdir s (fst (j_meds j))); reflexivity. }
  clearbody s2. clear Ef Ht s1 ops. unfold body.
  destruct (staging_path j) as (d & Ep). set (fz := so_path (staging j)) in *.
  set (fits := (fst fz, snd (j_meds j))).
  assert (Nf : fz <> fits) by (unfold fits; rewrite Ep; apply fz_not_fits).
  destruct (j_fits j) as [c|e].
  - cbn [sem].
    set (t1 := apply (apply t (Put fits c)) (Remove fz)).
    set (u1 := if exists_file (apply s2 (Put fits c)) fz then apply (apply s2 (Put fits c)) (Remove fz)
               else apply s2 (Put fits c)).
    assert (H3 : eqf t1 u1).
    { unfold t1, u1, exists_file. destruct (file (apply s2 (Put fits c)) fz) eqn:E.
      - now apply eqf_apply, eqf_apply.
      - apply eqf_remove; [now apply eqf_apply|exact E]. }
    assert (Ff : file t1 fits = Some c).
    { unfold t1. cbn. unfold set_file. rewrite (path_eqb_neq fz fits Nf).
      replace (path_eqb fits fits) with true by (symmetry; now apply path_eqb_eq). reflexivity. }
    rewrite Ff. clearbody t1 u1. clear Ff H2.
    set (valid := Read (so_final (staging j)) _). set (out := stage_prog (j_device j) (staging j) valid).
    set (u2 := match j_pack j c with Some d0 => apply u1 (Put fz d0) | None => u1 end).
    set (u3 := if j_fpack_ok j && j_remove_fits j then apply u2 (Remove fits) else u2).
    assert (X : exists t3, sem (match j_pack j c with
        | Some d0 => Do (Put fz d0) (if j_fpack_ok j && j_remove_fits j then Do (Remove fits) out else out)
        | None => if j_fpack_ok j && j_remove_fits j then Do (Remove fits) out else out end) t1 = sem out t3 /\ eqf t3 u3).
    { unfold u3, u2. destruct (j_pack j c); destruct (j_fpack_ok j && j_remove_fits j); cbn [sem];
        eexists; (split; [reflexivity|]); repeat apply eqf_apply; exact H3. }
    destruct X as (t3 & -> & H4). clearbody u3. clear H3.
    destruct (sem_stage (j_device j) (staging j) valid t3 u3 H4 (staging_must j) (staging_temp j)) as (t4 & E4 & H5 & st' & E5).
    unfold out. rewrite E4. destruct (stage_out u3 (j_device j) (staging j)) as [ops r]. cbn [fst snd] in H5, E5. subst r.
    unfold valid. cbn [sem]. rewrite staging_final, (H5 _).
    destruct (file (run u3 ops) (fst (j_meds j), snd (j_meds j) ++ ".fz")); cbn; auto.
  - set (u1 := match j_partial_fits j with Some c => apply s2 (Put fits c) | None => s2 end).
    set (out := stage_prog (j_device j) (staging j) (Return (Raise e))).
    assert (X : exists t1, sem (match j_partial_fits j with Some c => Do (Put fits c) out | None => out end) t = sem out t1
       /\ eqf t1 u1).
    { unfold u1. destruct (j_partial_fits j); cbn [sem]; eexists; (split; [reflexivity|]); [apply eqf_apply|]; exact H2. }
    destruct X as (t1 & -> & H3). clearbody u1.
    destruct (sem_stage (j_device j) (staging j) (Return (Raise e)) t1 u1 H3 (staging_must j) (staging_temp j)) as (t4 & E4 & H5 & st' & E5).
    unfold out. rewrite E4. destruct (stage_out u1 (j_device j) (staging j)) as [ops r]. cbn [fst snd] in H5, E5. subst r.
    cbn. auto.
Qed.

(** ** All together *)
Definition files_of (jobs : list (job C)) (i : nat) (p : path) : Prop :=
  match nth_error jobs i with Some j => In p (own_files j) | None => False end.

Definition goal_of s (jobs : list (job C)) (i : nat) : fsys C * result unit :=
  match nth_error jobs i with Some j => sem (run_prog j) s | None => (s, Ok tt) end.

(** ** The output at every moment *)
Section Output.
Variable A : option C -> Prop.   (* allowed at the output *)
Hypothesis A_None : A None.

Lemma puts_always out l k : forall s, (forall c, In c l -> A (Some c)) -> A (file s out) ->
  (forall t, A (file t out) -> always (fun s => A (file s out)) k t) ->
  always (fun s => A (file s out)) (puts out l k) s.
Proof.
  induction l as [|c l IH]; intros s Hl Hs Hk; cbn [puts fold_right]; [now apply Hk|].
  cbn [always]. split; [exact Hs|]. apply IH; [intros x Hx; apply Hl; now right| |exact Hk].
  cbn. unfold set_file. replace (path_eqb out out) with true by (symmetry; now apply path_eqb_eq). apply Hl. now left.
Qed.

Lemma remove_allowed out p s : A (file s out) -> A (file (apply s (Remove p)) out).
Proof. intros H. cbn. unfold set_file. destruct (path_eqb p out); auto. Qed.

Lemma stage_always dev st k s :
  (so_is_temp st = true -> so_path st <> so_final st) ->
  match dev with SameDevice => True | OtherDevice l => forall c, In c l -> A (Some c) end ->
  A (file s (so_path st)) -> A (file s (so_final st)) ->
  (forall t, A (file t (so_final st)) -> always (fun s => A (file s (so_final st))) k t) ->
  always (fun s => A (file s (so_final st))) (stage_prog dev st k) s.
Proof.
  intros N Hl Hp Hs Hk. unfold stage_prog. destruct (so_is_temp st); [|now apply Hk]. specialize (N eq_refl).
  destruct (so_was_staged_out st); cbn [negb andb]; [now apply Hk|].
  cbn [always]. split; [exact Hs|]. destruct (file s (so_path st)) as [c|] eqn:Ec; [|now apply Hk].
  cbn [always]. split; [exact Hs|].
  assert (M : forall s, file s (so_path st) = Some c -> A (file s (so_final st)) ->
     always (fun s => A (file s (so_final st))) (Do (Mkdir (fst (so_final st))) (move_prog dev (so_path st) (so_final st) k)) s).
  { clear s Hs Ec. intros s Ec Hs. cbn [always]. split; [exact Hs|].
    destruct dev as [|l]; cbn [move_prog always].
    - split; [exact Hs|]. apply Hk. cbn. unfold set_file. rewrite path_eqb_neq by exact N.
      replace (path_eqb (so_final st) (so_final st)) with true by (symmetry; now apply path_eqb_eq). now rewrite Ec.
    - split; [exact Hs|]. cbn [apply file]. rewrite Ec. apply puts_always; [exact Hl|exact Hs|].
      intros t Ht. cbn [always]. split; [exact Ht|].
      assert (Hc : A (file (apply t (Put (so_final st) c)) (so_final st))).
      { cbn. unfold set_file. replace (path_eqb (so_final st) (so_final st)) with true by (symmetry; now apply path_eqb_eq).
        exact Hp. }
      split; [exact Hc|]. apply Hk. now apply remove_allowed. }
  destruct (file s (so_final st)) as [f|] eqn:Ef; [|apply M; [exact Ec|now rewrite Ef]].
  cbn [always]. split; [now rewrite Ef|]. apply M.
  - cbn. unfold set_file. rewrite path_eqb_neq; [exact Ec|congruence].
  - apply remove_allowed. now rewrite Ef.
Qed.

Lemma body_always j s :
  match j_device j with SameDevice => True | OtherDevice l => forall c, In c l -> A (Some c) end ->
  A (file s (so_final (staging j))) ->
  A (match j_fits j with Ok c => j_pack j c | Raise _ => file s (so_path (staging j)) end) ->
  always (fun s => A (file s (so_final (staging j)))) (body j) s.
Proof.
  intros Hl Hs Hn. pose proof (staging_temp j) as T. destruct (staging_path j) as (d & Ep). pose proof (staging_final j) as Ef.
  unfold body. set (fz := so_path (staging j)) in *. set (out := so_final (staging j)) in *.
  set (fits := (fst fz, snd (j_meds j))).
  assert (N1 : fits <> fz) by (unfold fits; rewrite Ep; apply not_eq_sym, fz_not_fits).
  assert (N2 : fits <> out) by (unfold fits; rewrite Ef; apply not_eq_sym, fz_not_fits).
  assert (S1 : forall (t : fsys C) c p, fits <> p -> file (apply t (Put fits c)) p = file t p).
  { intros t c p Np. cbn. unfold set_file. now rewrite path_eqb_neq. }
  assert (S2 : forall (t : fsys C) p, fits <> p -> file (apply t (Remove fits)) p = file t p).
  { intros t p Np. cbn. unfold set_file. now rewrite path_eqb_neq. }
  assert (S3 : forall p, path_eqb p p = true) by (intros p; now apply path_eqb_eq).
  destruct (j_fits j) as [c|e].
  - cbn [always]. split; [exact Hs|]. split; [now rewrite S1|].
    set (s2 := apply (apply s (Put fits c)) (Remove fz)).
    assert (H2 : A (file s2 out)) by (unfold s2; apply remove_allowed; now rewrite S1).
    assert (F2 : file s2 fits = Some c).
    { unfold s2. cbn. unfold set_file. rewrite path_eqb_neq by congruence. now rewrite S3. }
    assert (Z2 : file s2 fz = None) by (unfold s2; cbn; unfold set_file; now rewrite S3).
    split; [exact H2|]. rewrite F2. clearbody s2.
    set (valid := Read out _). set (out' := stage_prog (j_device j) (staging j) valid).
    assert (O : forall t : fsys C, A (file t fz) -> A (file t out) -> always (fun s => A (file s out)) out' t).
    { intros t H3 H4. apply stage_always; [exact T|exact Hl|exact H3|exact H4|].
      intros u Hu. unfold valid. cbn [always]. split; [exact Hu|]. destruct (file u out); cbn [always]; auto. }
    assert (R : forall t : fsys C, A (file t fz) -> A (file t out) ->
       always (fun s => A (file s out)) (if j_fpack_ok j && j_remove_fits j then Do (Remove fits) out' else out') t).
    { intros t H3 H4. destruct (j_fpack_ok j && j_remove_fits j); [|now apply O]. cbn [always]. split; [exact H4|].
      apply O; now rewrite S2. }
    destruct (j_pack j c) as [x|].
    + cbn [always]. split; [exact H2|]. apply R; cbn; unfold set_file.
      * now rewrite S3.
      * destruct (path_eqb fz out); [exact Hn|exact H2].
    + apply R; [now rewrite Z2|exact H2].
  - assert (O : forall t : fsys C, file t fz = file s fz -> file t out = file s out ->
       always (fun s => A (file s out)) (stage_prog (j_device j) (staging j) (Return (Raise e))) t).
    { intros t H3 H4. apply stage_always; [exact T|exact Hl|fold fz; now rewrite H3|fold out; now rewrite H4|].
      intros u Hu. cbn [always]. auto. }
    destruct (j_partial_fits j) as [x|]; [|now apply O]. cbn [always]. split; [exact Hs|]. apply O; now rewrite S1.
Qed.

Lemma run_always j s :
  match j_device j with SameDevice => True | OtherDevice l => forall c, In c l -> A (Some c) end ->
  A (file s (so_final (staging j))) ->
  A (match j_fits j with Ok c => j_pack j c | Raise _ => file s (so_path (staging j)) end) ->
  always (fun s => A (file s (so_final (staging j)))) (run_prog j) s.
Proof.
  intros Hl Hs Hn. unfold run_prog. cbn [always]. split; [exact Hs|].
  destruct (j_tmpdir j) as [d|]; [|now apply body_always]. cbn [always]. split; [exact Hs|].
  destruct (isdir (apply s (Mkdir (fst (j_meds j)))) d) eqn:E; [now apply body_always|].
  cbn [always]. split; [exact Hs|]. rewrite E. now apply body_always.
Qed.
End Output.

Definition output_of s (jobs : list (job C)) (i : nat) (t : fsys C) : Prop :=
  match nth_error jobs i with
  | None => True
  | Some j => forall x, file t (output j) = Some x -> file s (output j) = Some x \/ may_write s j x
  end.

Lemma always_weaken (Q Q' : fsys C -> Prop) : (forall s, Q s -> Q' s) -> forall k s, always Q k s -> always Q' k s.
Proof.
  intros H k. induction k as [r|o k IH|p k IH|d k IH|d k IH]; cbn [always]; intros s [H1 H2]; (split; [now apply H|]); auto.
  destruct (isdir s d); auto.
Qed.

Lemma output_always s j : always (fun t => forall x, file t (output j) = Some x -> file s (output j) = Some x \/ may_write s j x)
  (run_prog j) s.
Proof.
  assert (Es : so_path (staging j) = (work_dir j, snd (j_meds j) ++ ".fz")).
  { unfold staging, work_dir, fz_of. destruct (j_tmpdir j); reflexivity. }
  pose proof (run_always (fun v => forall x, v = Some x -> file s (output j) = Some x \/ may_write s j x)) as R.
  assert (R' := R ltac:(discriminate) j s). clear R. rewrite staging_final in R'. apply R'.
  - destruct (j_device j) as [|l] eqn:D; [exact I|]. intros c Hc x E. injection E as <-. right. right. now rewrite D.
  - intros x Hx. now left.
  - intros x Hx. right. left. rewrite Es in Hx. destruct (j_fits j); exact Hx.
Qed.

Lemma runs_good s jobs l : separate jobs -> tmpdirs_exist s jobs ->
  good (files_of jobs) (fun d => isdir s d = true) (goal_of s jobs) s (output_of s jobs) (exec (start s jobs) l).
Proof.
  intros S T. apply good_exec.
  - intros i j p N H Q. unfold files_of in *. destruct (nth_error jobs i) as [a|] eqn:Ea; [|exact H].
    destruct (nth_error jobs j) as [b|] eqn:Eb; [|exact Q]. exact (S i j a b p N Ea Eb H Q).
  - split; [auto|]. split; [reflexivity|]. intros i. cbn [start runs fs]. unfold files_of, goal_of, output_of.
    destruct (nth_error jobs i) as [j|] eqn:E.
    + split; [apply run_within; intros d Ed; exact (T j d (nth_error_In _ _ E) Ed)|]. exists s.
      repeat split; auto. apply output_always.
    + split; [exact I|]. exists s. repeat split; auto.
Qed.

Lemma runs_separate s jobs l i j r : separate jobs -> tmpdirs_exist s jobs -> nth_error jobs i = Some j ->
  ended (exec (start s jobs) l) i r ->
  r = snd (alone s j) /\
  forall p, In p (own_files j) -> file (fs (exec (start s jobs) l)) p = file (fst (alone s j)) p.
Proof.
  intros S T J E. destruct (runs_good s jobs l S T) as (_ & _ & G). destruct (G i) as (_ & u & F & _ & X & _).
  unfold files_of in F. unfold goal_of in X. rewrite J in F, X.
  unfold ended in E. rewrite E in X. cbn [sem] in X. destruct (sem_alone j s) as [A B]. rewrite <- X in A, B.
  cbn [fst snd] in A, B. split; [exact B|]. intros p Hp. now rewrite (F p Hp), A.
Qed.

Lemma runs_output s jobs l j x : separate jobs -> tmpdirs_exist s jobs -> In j jobs ->
  file (fs (exec (start s jobs) l)) (output j) = Some x -> file s (output j) = Some x \/ may_write s j x.
Proof.
  intros S T J E. apply In_nth_error in J. destruct J as [i J].
  destruct (runs_good s jobs l S T) as (_ & _ & G). destruct (G i) as (_ & u & F & _ & _ & A).
  apply always_now in A. unfold files_of in F. unfold output_of in A. rewrite J in F, A. apply A. rewrite <- F; [exact E|].
  left. reflexivity.
Qed.

Lemma runs_others s jobs l p : separate jobs -> tmpdirs_exist s jobs ->
  (forall j, In j jobs -> ~ In p (own_files j)) -> file (fs (exec (start s jobs) l)) p = file s p.
Proof.
  intros S T N. destruct (runs_good s jobs l S T) as (_ & G & _). apply G. intros i. unfold files_of.
  destruct (nth_error jobs i) as [j|] eqn:E; [|auto]. apply N. exact (nth_error_In _ _ E).
Qed.

Lemma step_other (st : state C) i j : i <> j -> runs (step st i) j = runs st j.
Proof.
  intros N. assert (E : Nat.eqb j i = false) by (apply Nat.eqb_neq; congruence).
  unfold step. destruct (runs st i); cbn [set_run runs]; rewrite ?E; try reflexivity.
  destruct (isdir (fs st) d); cbn [set_run runs]; now rewrite E.
Qed.

(** A run that keeps making steps ends. *)
Lemma run_ends k : forall (st : state C) i, runs st i = k -> exists n r, ended (exec st (repeat i n)) i r.
Proof.
  assert (go : forall (st : state C) i k', runs (step st i) i = k' ->
    (forall (st : state C) i, runs st i = k' -> exists n r, ended (exec st (repeat i n)) i r) ->
    exists n r, ended (exec st (repeat i n)) i r).
  { intros st i k' E H. destruct (H _ _ E) as (n & r & X). exists (S n), r. exact X. }
  induction k as [r|o k IH|p k IH|d k IH|d k IH]; intros st i E.
  - exists 0%nat, r. exact E.
  - apply (go st i k); [|exact IH]. unfold step. rewrite E. cbn. now rewrite Nat.eqb_refl.
  - apply (go st i (k (file (fs st) p))); [|apply IH]. unfold step. rewrite E. cbn. now rewrite Nat.eqb_refl.
  - apply (go st i (k (isdir (fs st) d))); [|apply IH]. unfold step. rewrite E. cbn. now rewrite Nat.eqb_refl.
  - destruct (isdir (fs st) d) eqn:D.
    + apply (go st i (k false)); [|apply IH]. unfold step. rewrite E, D. cbn. now rewrite Nat.eqb_refl.
    + apply (go st i (k true)); [|apply IH]. unfold step. rewrite E, D. cbn. now rewrite Nat.eqb_refl.
Qed.
(** A single run. *)
Lemma solo_exec G l : (forall i, In i l -> i = 0%nat) -> forall st : state C, sem (runs st 0%nat) (fs st) = G ->
  sem (runs (exec st l) 0%nat) (fs (exec st l)) = G.
Proof.
  induction l as [|i l IH]; intros Hl st H; [exact H|]. cbn [exec fold_left].
  apply IH; [intros x Hx; apply Hl; now right|]. rewrite (Hl i (or_introl eq_refl)). rewrite <- H. unfold step.
  destruct (runs st 0%nat) as [r|o k|p k|d k|d k] eqn:R; cbn [set_run runs fs Nat.eqb sem]; rewrite ?R; try reflexivity.
  destruct (isdir (fs st) d); reflexivity.
Qed.

Lemma step_idle st i : (exists r, runs st i = Return r) -> step st i = st :> state C.
Proof. intros [r E]. unfold step. now rewrite E. Qed.

Lemma solo_step_idle (st : state C) : (forall i, i <> 0%nat -> exists r, runs st i = Return r) ->
  forall i, (forall q, q <> 0%nat -> exists r, runs (step st i) q = Return r).
Proof.
  intros H i q Nq. destruct (Nat.eq_dec i 0) as [->|N].
  - rewrite step_other by congruence. now apply H.
  - rewrite step_idle by now apply H. now apply H.
Qed.

Lemma solo_any G l : forall st : state C, (forall i, i <> 0%nat -> exists r, runs st i = Return r) ->
  sem (runs st 0%nat) (fs st) = G -> sem (runs (exec st l) 0%nat) (fs (exec st l)) = G.
Proof.
  induction l as [|i l IH]; intros st H E; [exact E|]. cbn [exec fold_left]. apply IH; [now apply solo_step_idle|].
  destruct (Nat.eq_dec i 0) as [->|N].
  - apply (solo_exec G [0%nat]); [|exact E]. intros x [<-|[]]. reflexivity.
  - rewrite step_idle by now apply H. exact E.
Qed.

Lemma solo s (j : job C) l r : ended (exec (start s [j]) l) 0 r ->
  r = snd (alone s j) /\ forall p, file (fs (exec (start s [j]) l)) p = file (fst (alone s j)) p.
Proof.
  intros E. assert (X : sem (runs (exec (start s [j]) l) 0%nat) (fs (exec (start s [j]) l)) = sem (run_prog j) s).
  { apply solo_any; [|reflexivity]. intros [|i] N; [congruence|]. exists (Ok tt). cbn. now destruct i. }
  unfold ended in E. rewrite E in X. cbn [sem] in X. destruct (sem_alone j s) as [A B]. rewrite <- X in A, B.
  split; [exact B|exact A].
Qed.

Lemma app_fz (a b : string) : a ++ ".fz" = b ++ ".fz" -> a = b.
Proof.
  revert b. induction a as [|x a IH]; intros [|y b] E.
  - reflexivity.
  - apply (f_equal String.length) in E. exfalso. cbn in E.
    assert (L : forall a c, String.length (a ++ c) = (String.length a + String.length c)%nat).
    { induction a as [|z a IH]; intros c; cbn; [reflexivity|]. now rewrite IH. }
    rewrite L in E. cbn in E. lia.
  - apply (f_equal String.length) in E. exfalso. cbn in E.
    assert (L : forall a c, String.length (a ++ c) = (String.length a + String.length c)%nat).
    { induction a0 as [|z a0 IH0]; intros c; cbn; [reflexivity|]. now rewrite IH0. }
    rewrite L in E. cbn in E. lia.
  - cbn in E. injection E as -> E. f_equal. now apply IH.
Qed.

Lemma names_separate (jobs : list (job C)) : different_names jobs -> separate jobs.
Proof.
  intros H i j a b p N Ea Eb Pa Pb.
  destruct (H i j a b N Ea Eb) as [H1 H2]. destruct (H j i b a (not_eq_sym N) Eb Ea) as [_ H3].
  assert (X : forall c : job C, In p (own_files c) -> snd p = snd (j_meds c) \/ snd p = snd (j_meds c) ++ ".fz").
  { intros c [<-|[<-|[<-|[]]]]; cbn; auto. }
  destruct (X a Pa) as [E|E], (X b Pb) as [E'|E']; rewrite E in E'; try congruence.
  now apply app_fz in E'.
Qed.

Lemma private_separate (jobs : list (job C)) : different_outputs jobs -> private_tmpdirs jobs -> separate jobs.
Proof.
  intros O H i j a b p N Ea Eb Pa Pb.
  destruct (H i j a b N Ea Eb) as (d & e & Ed & Ee & H1 & H2 & H3). pose proof (O i j a b N Ea Eb) as H4.
  unfold own_files, work_dir in Pa, Pb. rewrite Ed in Pa. rewrite Ee in Pb.
  destruct Pa as [<-|[<-|[<-|[]]]], Pb as [E|[E|[E|[]]]]; injection E as E1 E2; try congruence.
  apply app_fz in E2. apply H4. destruct (j_meds a), (j_meds b). cbn in *. congruence.
Qed.
End Runs.
