(** A pool of processes with memories does what one without them does. *)
From Coq Require Import ZArith List Bool String Lia.
From Coq Require Import List.
From Verif Require Import Lib.Base Lib.Floats Model.Cache Model.SliceRange Model.Jobs Model.Writer Model.Sched Model.Pool
  Spec.WriterSpec Spec.RunSpec Spec.PoolSpec Proofs.SchedProofs.
From Verif Require Model.SingleSlice Model.Whole Model.Process Proofs.ProcessProofs.
Import ListNotations.
Open Scope list_scope.

Section Refine.
Variables item res outp mem : Type.
Variable work : item -> mem -> result res * mem.
Variable process : outp -> res -> result outp.
Variable forgets : mem -> mem -> Prop.
(** The answers without memory, and the memories that are all right. *)
Variable plain : item -> result res.
Variable good : mem -> Prop.
Hypothesis work_good : forall i m, good m ->
  match fst (work i m), plain i with
  | Ok a, Ok b => a = b
  | Raise _, Raise _ => True
  | _, _ => False
  end /\ good (snd (work i m)).
Hypothesis forgets_good : forall m m', forgets m m' -> good m -> good m'.
Hypothesis forgets_nothing : forall m, forgets m m.

Notation pstate := (pstate item res outp mem).
Notation pstep := (pstep item res outp mem work process forgets).
Notation psteps := (psteps item res outp mem work process forgets).
Notation step := (step item res outp plain process).
Notation steps := (steps item res outp plain process).

Definition erase (s : pstate) : state item res outp :=
  mk_state (ps_chunks s) (map (@pw_worker item res mem) (ps_workers s)) (ps_pipe s) (ps_main s).
Definition all_good (s : pstate) : Prop := Forall (fun w => good (pw_mem w)) (ps_workers s).

Lemma erase_upd s k w : erase (pupd _ _ _ _ s k w) = upd_worker _ _ _ (erase s) k (pw_worker w).
Proof. unfold erase, pupd, upd_worker. cbn. rewrite map_app, firstn_map, map_cons. cbn. f_equal. f_equal. f_equal. exact (eq_sym (skipn_map (@pw_worker item res mem) (S k) (ps_workers s))). Qed.

Lemma erase_nth s k w : nth_error (ps_workers s) k = Some w -> nth_error (s_workers (erase s)) k = Some (pw_worker w).
Proof. intros H. cbn. rewrite nth_error_map, H. reflexivity. Qed.

Lemma erase_out s : outstanding _ _ _ (erase s) = poutstanding _ _ _ _ s.
Proof. unfold outstanding, poutstanding. cbn. rewrite map_map. reflexivity. Qed.

Lemma erase_idle s : forallb (idle_worker _ _) (s_workers (erase s)) = forallb (pidle _ _ _) (ps_workers s).
Proof. cbn. induction (ps_workers s) as [|w l IH]; [reflexivity|]. cbn. rewrite IH. reflexivity. Qed.

Lemma erase_nth_inv s k w : nth_error (s_workers (erase s)) k = Some w ->
  exists m, nth_error (ps_workers s) k = Some (mk_pworker w m).
Proof.
  cbn. rewrite nth_error_map. destruct (nth_error (ps_workers s) k) as [[w' m]|]; [|discriminate].
  cbn. intros [= ->]. eauto.
Qed.

Lemma good_nth s k w m : all_good s -> nth_error (ps_workers s) k = Some (mk_pworker w m) -> good m.
Proof. intros G H. unfold all_good in G. rewrite Forall_forall in G. apply nth_error_In in H. exact (G _ H). Qed.

Lemma upd_all (s : pstate) k w : all_good s -> good (pw_mem w) ->
  Forall (fun w => good (pw_mem w)) (ps_workers (pupd _ _ _ _ s k w)).
Proof.
  intros G H. cbn. apply Forall_app. split; [|constructor; [exact H|]]; unfold all_good in G; rewrite Forall_forall in *.
  - intros x Hx. apply G. rewrite <- (firstn_skipn k (ps_workers s)). apply in_or_app. now left.
  - intros x Hx. apply G. rewrite <- (firstn_skipn (S k) (ps_workers s)). apply in_or_app. now right.
Qed.

(** A step with memories is a step without. *)
Lemma pstep_step cap s s' : all_good s -> pstep cap s s' -> step cap (erase s) (erase s') /\ all_good s'.
Proof.
  intros G H. destruct H as [s k b c cs m m' Hr Hk Hc Hf|s k b i r todo m m' Hr Hk Hw|s k b i e todo m m' Hr Hk Hw
    |s k b x todo m Hr Hk Ho|s k b m Hr Hk|s k st x b m Hr Hk|s n o r o' p Hm Hp Hq|s n o r e p Hm Hp Hq|s n o p Hm Hp
    |s o Hm Hc Hi].
  - pose proof (good_nth _ _ _ _ G Hk) as Gm. split.
    + unfold erase at 2. cbn [ps_chunks ps_workers ps_pipe ps_main].
      assert (E := f_equal (@s_workers _ _ _) (erase_upd s k (mk_pworker (mk_worker (Busy c) b) m'))).
      cbn [erase s_workers pw_worker] in E. rewrite E.
      apply (Take _ _ _ plain process cap (erase s) k b c cs Hr (erase_nth _ _ _ Hk) Hc).
    + apply (upd_all s k (mk_pworker _ m') G). exact (forgets_good _ _ Hf Gm).
  - pose proof (good_nth _ _ _ _ G Hk) as Gm. destruct (work_good i m Gm) as [A B]. rewrite Hw in A, B. cbn in A, B.
    destruct (plain i) as [r'|] eqn:Ep; [|contradiction]. subst r'. split; [|exact (upd_all s k (mk_pworker _ m') G B)].
    rewrite erase_upd. exact (Compute _ _ _ plain process cap (erase s) k b i r todo Hr (erase_nth _ _ _ Hk) Ep).
  - pose proof (good_nth _ _ _ _ G Hk) as Gm. destruct (work_good i m Gm) as [A B]. rewrite Hw in A, B. cbn in A, B.
    destruct (plain i) as [r'|e'] eqn:Ep; [contradiction|]. split; [|exact (upd_all s k (mk_pworker _ m') G B)].
    rewrite erase_upd. exact (Fail _ _ _ plain process cap (erase s) k b i e' todo Hr (erase_nth _ _ _ Hk) Ep).
  - pose proof (good_nth _ _ _ _ G Hk) as Gm. split; [|exact (upd_all s k (mk_pworker _ m) G Gm)].
    rewrite erase_upd. rewrite <- erase_out in Ho.
    exact (Put _ _ _ plain process cap (erase s) k b x todo Hr (erase_nth _ _ _ Hk) Ho).
  - pose proof (good_nth _ _ _ _ G Hk) as Gm. split; [|exact (upd_all s k (mk_pworker _ m) G Gm)].
    rewrite erase_upd. exact (Finish _ _ _ plain process cap (erase s) k b Hr (erase_nth _ _ _ Hk)).
  - pose proof (good_nth _ _ _ _ G Hk) as Gm. split; [|exact (upd_all s k (mk_pworker _ m) G Gm)].
    unfold erase at 2. cbn [ps_chunks ps_workers ps_pipe ps_main].
    assert (E := f_equal (@s_workers _ _ _) (erase_upd s k (mk_pworker (mk_worker st b) m))).
    cbn [erase s_workers pw_worker] in E. rewrite E.
    exact (Feed _ _ _ plain process cap (erase s) k st x b Hr (erase_nth _ _ _ Hk)).
  - split; [|exact G]. exact (GetOk _ _ _ plain process cap (erase s) n o r o' p Hm Hp Hq).
  - split; [|exact G]. exact (GetFail _ _ _ plain process cap (erase s) n o r e p Hm Hp Hq).
  - split; [|exact G]. exact (GetErr _ _ _ plain process cap (erase s) n o p Hm Hp).
  - split; [|exact G]. rewrite <- erase_idle in Hi. exact (Join _ _ _ plain process cap (erase s) o Hm Hc Hi).
Qed.

(** And the other way round. *)
Lemma step_pstep cap s u : all_good s -> step cap (erase s) u -> exists s', pstep cap s s' /\ erase s' = u.
Proof.
  intros G H. remember (erase s) as es eqn:Es.
  destruct H as [es k b c cs Hr Hk Hc|es k b i r todo Hr Hk Hw|es k b i e todo Hr Hk Hw
    |es k b x todo Hr Hk Ho|es k b Hr Hk|es k st x b Hr Hk|es n o r o' p Hm Hp Hq|es n o r e p Hm Hp Hq|es n o p Hm Hp
    |es o Hm Hc Hi]; subst es.
  - destruct (erase_nth_inv _ _ _ Hk) as [m Hk'].
    eexists. split; [exact (PTake _ _ _ _ work process forgets cap s k b c cs m m Hr Hk' Hc (forgets_nothing m))|].
    unfold erase at 1. cbn [ps_chunks ps_workers ps_pipe ps_main].
    assert (E := f_equal (@s_workers _ _ _) (erase_upd s k (mk_pworker (mk_worker (Busy c) b) m))).
    cbn [erase s_workers pw_worker] in E. rewrite E. reflexivity.
  - destruct (erase_nth_inv _ _ _ Hk) as [m Hk']. pose proof (good_nth _ _ _ _ G Hk') as Gm.
    destruct (work_good i m Gm) as [A _]. destruct (work i m) as [[r'|e'] m'] eqn:Ew; cbn [fst] in A;
      rewrite Hw in A; [subst r'|contradiction].
    eexists. split; [exact (PCompute _ _ _ _ work process forgets cap s k b i r todo m m' Hr Hk' Ew)|apply erase_upd].
  - destruct (erase_nth_inv _ _ _ Hk) as [m Hk']. pose proof (good_nth _ _ _ _ G Hk') as Gm.
    destruct (work_good i m Gm) as [A _]. destruct (work i m) as [[r'|e'] m'] eqn:Ew; cbn [fst] in A;
      rewrite Hw in A; [contradiction|].
    eexists. split; [exact (PFail _ _ _ _ work process forgets cap s k b i e' todo m m' Hr Hk' Ew)|apply erase_upd].
  - destruct (erase_nth_inv _ _ _ Hk) as [m Hk']. rewrite erase_out in Ho.
    eexists. split; [exact (PPut _ _ _ _ work process forgets cap s k b x todo m Hr Hk' Ho)|apply erase_upd].
  - destruct (erase_nth_inv _ _ _ Hk) as [m Hk'].
    eexists. split; [exact (PFinish _ _ _ _ work process forgets cap s k b m Hr Hk')|apply erase_upd].
  - destruct (erase_nth_inv _ _ _ Hk) as [m Hk'].
    eexists. split; [exact (PFeed _ _ _ _ work process forgets cap s k st x b m Hr Hk')|].
    unfold erase at 1. cbn [ps_chunks ps_workers ps_pipe ps_main].
    assert (E := f_equal (@s_workers _ _ _) (erase_upd s k (mk_pworker (mk_worker st b) m))).
    cbn [erase s_workers pw_worker] in E. rewrite E. reflexivity.
  - eexists. split; [exact (PGetOk _ _ _ _ work process forgets cap s n o r o' p Hm Hp Hq)|reflexivity].
  - eexists. split; [exact (PGetFail _ _ _ _ work process forgets cap s n o r e p Hm Hp Hq)|reflexivity].
  - eexists. split; [exact (PGetErr _ _ _ _ work process forgets cap s n o p Hm Hp)|reflexivity].
  - rewrite erase_idle in Hi.
    eexists. split; [exact (PJoin _ _ _ _ work process forgets cap s o Hm Hc Hi)|reflexivity].
Qed.

Lemma psteps_steps cap s s' : psteps cap s s' -> all_good s -> steps cap (erase s) (erase s') /\ all_good s'.
Proof.
  intros H G. induction H as [s|s t u H IH St]; [split; [constructor|exact G]|].
  destruct (IH G) as [A B]. destruct (pstep_step _ _ _ B St) as [C D]. split; [|exact D]. econstructor; eassumption.
Qed.

Lemma steps_psteps cap s u : all_good s -> steps cap (erase s) u -> exists s', psteps cap s s' /\ erase s' = u.
Proof.
  intros G H. remember (erase s) as es eqn:Es. induction H as [es|es t u H IH St]; subst.
  - exists s. split; [constructor|reflexivity].
  - destruct (IH eq_refl) as (s1 & A & <-). destruct (psteps_steps _ _ _ A G) as [_ G1].
    destruct (step_pstep _ _ _ G1 St) as (s2 & B & <-). exists s2. split; [econstructor; eassumption|reflexivity].
Qed.

Lemma pnsteps_nsteps cap n s s' : pnsteps _ _ _ _ work process forgets cap n s s' -> all_good s ->
  nsteps _ _ _ plain process cap n (erase s) (erase s') /\ all_good s'.
Proof.
  intros H G. induction H as [s|n s t u H IH St]; [split; [constructor|exact G]|].
  destruct (IH G) as [A B]. destruct (pstep_step _ _ _ B St) as [C D]. split; [|exact D]. econstructor; eassumption.
Qed.

Lemma erase_start n chunks k o m : erase (pstart n chunks k o m) = start n chunks k o.
Proof. unfold erase, pstart, start. cbn. f_equal. induction n; cbn; [reflexivity|]. f_equal. assumption. Qed.

Lemma start_good n chunks k o m : good m -> all_good (pstart (item := item) (res := res) (outp := outp) n chunks k o m).
Proof. intros H. unfold all_good. cbn. induction n; cbn; constructor; [exact H|assumption]. Qed.

Lemma pserial_serial todo : forall o m, good m ->
  match pserial _ _ _ _ work process o todo m, serial _ _ _ plain process o todo with
  | Ok a, Ok b => a = b
  | Raise _, Raise _ => True
  | _, _ => False
  end.
Proof.
  induction todo as [|i todo IH]; intros o m G; cbn [pserial serial]; [reflexivity|].
  destruct (work_good i m G) as [A B]. destruct (work i m) as [[r|e] m']; cbn [fst snd] in A, B;
    destruct (plain i) as [r'|e']; try contradiction; cbn [bind]; [subst r'|exact I].
  destruct (process o r) as [o'|e]; cbn [bind]; [apply IH; exact B|exact I].
Qed.
End Refine.

Section Runs.
Context {F : Type} {FO : FloatOps F}.
Variables V E : Type.
Variable zero : V.
Variable cast : string -> V -> V.
Variable isneg : V -> bool.
Variables box psf_box n_extra num nsrc seed : Z.
Variable obj0 : Z -> @obj F.
Variable rng : Type.
Variable init : Z -> rng.
Variable randint : rng -> Z -> Z -> Z * rng.
Variable mem : Type.
Variable work : list src_seeds -> Z * Z -> mem -> result (@results F V E) * mem.
Variable forgets : mem -> mem -> Prop.
Variable m0 : mem.
Variable plain : list src_seeds -> Z * Z -> result (@results F V E).
Variable good : mem -> Prop.
Notation ss := (snd (all_seeds rng init randint seed num nsrc n_extra)).
Hypothesis work_good : forall i m, good m ->
  match fst (work ss i m), plain ss i with
  | Ok a, Ok b => a = b
  | Raise _, Raise _ => True
  | _, _ => False
  end /\ good (snd (work ss i m)).
Hypothesis forgets_good : forall m m', forgets m m' -> good m -> good m'.
Hypothesis forgets_nothing : forall m, forgets m m.
Hypothesis good_m0 : good m0.

Lemma plan_seeds order arg n_jobs n_chunks p ss' :
  make_plan rng init randint order arg num seed nsrc n_extra n_jobs n_chunks = Ok (p, ss') -> ss' = ss.
Proof.
  unfold make_plan. destruct (extract_slice_range arg num) as [rg|]; [|discriminate]. cbn [bind].
  destruct (forallb _ _); [|discriminate].
  destruct (all_seeds rng init randint seed num nsrc n_extra) as [a b]. cbn [snd].
  destruct (1 <? n_jobs)%Z.
  - destruct (make_jobs _ _ _); [|discriminate]. cbn [bind]. intros [= _ <-]. reflexivity.
  - destruct (serial_items _ _); [|discriminate]. cbn [bind]. intros [= _ <-]. reflexivity.
Qed.

Lemma memory_completes arg h o :
  run_with_memory_completes V E zero cast isneg box psf_box n_extra num nsrc seed obj0 rng init randint mem work
    forgets m0 arg h o <->
  run_completes V E zero cast isneg box psf_box n_extra num nsrc seed obj0 rng init randint plain arg h o.
Proof.
  split; intros (p & ss' & M & H); exists p, ss'; (split; [exact M|]); apply plan_seeds in M; subst ss'.
  - destruct p as [todo|n_jobs n_todo chunks].
    + constructor.
      pose proof (pserial_serial _ _ _ _ (work ss) (process_one V cast isneg E (box ^ 2) (psf_box ^ 2)) (plain ss) good
        work_good todo (init_out V zero E num box psf_box n_extra obj0) m0 good_m0) as K.
      rewrite H in K. destruct (serial _ _ _ _ _ _ _); [now subst|contradiction].
    + destruct H as (s & H & Hd).
      destruct (psteps_steps _ _ _ _ _ _ _ (plain ss) good work_good forgets_good _ _ _ H
        (start_good _ _ _ _ good _ _ _ _ _ good_m0)) as [A _].
      rewrite erase_start in A. econstructor; [exact A|exact Hd].
  - destruct p as [todo|n_jobs n_todo chunks].
    + inversion H as [? ? K|]; subst.
      pose proof (pserial_serial _ _ _ _ (work ss) (process_one V cast isneg E (box ^ 2) (psf_box ^ 2)) (plain ss) good
        work_good todo (init_out V zero E num box psf_box n_extra obj0) m0 good_m0) as K'.
      rewrite K in K'. destruct (pserial _ _ _ _ _ _ _ _ _); [now subst|contradiction].
    + inversion H as [|? ? ? s ? A Hd]; subst.
      rewrite <- (erase_start _ _ _ mem _ _ _ _ m0) in A.
      destruct (steps_psteps _ _ _ _ (work ss) _ forgets (plain ss) good work_good forgets_good forgets_nothing _ _ _
        (start_good _ _ _ _ good _ _ _ _ _ good_m0) A) as (s' & B & <-).
      exists s'. split; [exact B|exact Hd].
Qed.

Lemma memory_raises arg h :
  run_with_memory_raises V E zero cast isneg box psf_box n_extra num nsrc seed obj0 rng init randint mem work
    forgets m0 arg h <->
  run_raises V E zero cast isneg box psf_box n_extra num nsrc seed obj0 rng init randint plain arg h.
Proof.
  split; intros (p & ss' & M & H); exists p, ss'; (split; [exact M|]); apply plan_seeds in M; subst ss'.
  - destruct p as [todo|n_jobs n_todo chunks].
    + destruct H as [e H].
      pose proof (pserial_serial _ _ _ _ (work ss) (process_one V cast isneg E (box ^ 2) (psf_box ^ 2)) (plain ss) good
        work_good todo (init_out V zero E num box psf_box n_extra obj0) m0 good_m0) as K.
      rewrite H in K. destruct (serial _ _ _ _ _ _ _) eqn:Es; [contradiction|]. econstructor. exact Es.
    + destruct H as (s & o & H & Hd).
      destruct (psteps_steps _ _ _ _ _ _ _ (plain ss) good work_good forgets_good _ _ _ H
        (start_good _ _ _ _ good _ _ _ _ _ good_m0)) as [A _].
      rewrite erase_start in A. econstructor; [exact A|exact Hd].
  - destruct p as [todo|n_jobs n_todo chunks].
    + inversion H as [? ? K|]; subst.
      pose proof (pserial_serial _ _ _ _ (work ss) (process_one V cast isneg E (box ^ 2) (psf_box ^ 2)) (plain ss) good
        work_good todo (init_out V zero E num box psf_box n_extra obj0) m0 good_m0) as K'.
      rewrite K in K'. destruct (pserial _ _ _ _ _ _ _ _ _) as [|e']; [contradiction|]. exists e'. reflexivity.
    + inversion H as [|? ? ? s o A Hd]; subst.
      rewrite <- (erase_start _ _ _ mem _ _ _ _ m0) in A.
      destruct (steps_psteps _ _ _ _ (work ss) _ forgets (plain ss) good work_good forgets_good forgets_nothing _ _ _
        (start_good _ _ _ _ good _ _ _ _ _ good_m0) A) as (s' & B & <-).
      exists s', o. split; [exact B|exact Hd].
Qed.
End Runs.

(** *** The caches *)
Section Caches.
Context {F : Type} {FO : FloatOps F} {P : Type}.
Variables (t : Whole.tile F P) (dp : Process.hdu_name -> result (img F)) (dm : Process.hdu_name -> result (img Z))
  (images : list (Process.image F P)) (ti : SingleSlice.tile_info (F := F)).
Notation good := (ProcessProofs.good t dp dm images ti).

Lemma good_forgets st st' : forgets_entries st st' -> good st -> good st'.
Proof.
  intros [] []. constructor;
    match goal with G : Forall ?Q (?c st), I : incl (?c st') (?c st) |- Forall ?Q (?c st') =>
      exact (incl_Forall I G) end.
Qed.

Lemma forgets_refl (st : Process.caches F P) : forgets_entries st st.
Proof. constructor; apply incl_refl. Qed.

Lemma good_after sz names : good (after_image_info sz t names).
Proof.
  unfold after_image_info.
  assert (H : forall st, good st -> good (fold_left (fun st n => snd (Process.load_image sz t n st)) names st)).
  { induction names as [|n l IH]; intros st G; cbn [fold_left]; [exact G|]. apply IH.
    refine (proj2 (ProcessProofs.sees_load_image t dp dm images ti sz n st G)). }
  apply H, ProcessProofs.good_empty.
Qed.
End Caches.
