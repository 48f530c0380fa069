(** Proofs about the files behind the noise images. *)
From Coq Require Import ZArith List Bool Arith Lia.
From Verif Require Import Lib.Base Lib.Floats Model.Noise Model.NoiseFiles Spec.NoiseFilesSpec Proofs.BaseFacts.
Import ListNotations.
Open Scope Z_scope.

Section Any.
Context {F : Type} {FO : FloatOps F}.
Variable normal : Z -> Z -> F.
Variable store : F -> F.
Variable jobs : nat -> job (F := F).
Variables tmpdir_of name_of : nat -> Z.
Notation step := (step normal store jobs tmpdir_of name_of).
Notation exec := (exec normal store jobs tmpdir_of name_of).

Lemma exec_inv (I : state (F := F) -> Prop) :
  (forall st e st', I st -> step st e = Some st' -> I st') ->
  forall l st st', I st -> exec st l = Some st' -> I st'.
Proof.
  intros H l. induction l as [|e l IH]; cbn [NoiseFiles.exec]; intros st st' Hi E; [congruence|].
  destruct (step st e) eqn:S; [|discriminate]. eauto.
Qed.

Lemma exec_app l m st : exec st (l ++ m) = match exec st l with Some s => exec s m | None => None end.
Proof.
  revert st. induction l as [|e l IH]; intros st; [reflexivity|]. cbn [app NoiseFiles.exec].
  destruct (step st e); [apply IH|reflexivity].
Qed.

(** All the ways a step can go. *)
Inductive steps_to (st : state (F := F)) : event -> state (F := F) -> Prop :=
| to_bad p : workers st p = Start -> (j_sx (jobs p) = 0 \/ j_sy (jobs p) = 0) ->
    steps_to st (Begin p) (set_worker st p (Failed ZeroDivisionError))
| to_given p d : workers st p = Start -> j_sx (jobs p) <> 0 -> j_sy (jobs p) <> 0 -> j_dir (jobs p) = Some d ->
    steps_to st (Begin p) (set_worker st p (InDir false d))
| to_own p : workers st p = Start -> j_sx (jobs p) <> 0 -> j_sy (jobs p) <> 0 -> j_dir (jobs p) = None ->
    dirs st (tmpdir_of p) = false ->
    steps_to st (Begin p) (set_worker (make_dir st (tmpdir_of p)) p (InDir true (tmpdir_of p)))
| to_picked p own d : workers st p = InDir own d -> names st (d, name_of p) = None ->
    steps_to st (Pick p) (set_worker st p (Picked own (d, name_of p)))
| to_reopened p own path i : workers st p = Picked own path -> dirs st (fst path) = true ->
    names st path = Some i ->
    steps_to st (Open p)
      (set_worker (set_data st i (full (nrows (j_weight (jobs p))) (ncols (j_weight (jobs p))) fzero)) p
         (Filling own path i (chunks (jobs p)) 0))
| to_opened p own path : workers st p = Picked own path -> dirs st (fst path) = true ->
    names st path = None ->
    steps_to st (Open p)
      (set_worker (new_file st path (full (nrows (j_weight (jobs p))) (ncols (j_weight (jobs p))) fzero)) p
         (Filling own path (next st) (chunks (jobs p)) 0))
| to_no_dir p own path : workers st p = Picked own path -> dirs st (fst path) = false ->
    steps_to st (Open p) (set_worker st p (Failed IOError))
| to_written p own path i isx isy todo k im k' : workers st p = Filling own path i ((isx, isy) :: todo) k ->
    fill_chunk normal store (j_seed (jobs p)) (j_weight (jobs p)) (j_fill_weight (jobs p))
      (j_sx (jobs p)) (j_sy (jobs p)) isx isy (data st i, k) = (im, k') ->
    steps_to st (Write p) (set_worker (set_data st i im) p (Filling own path i todo k'))
| to_done p path i k : workers st p = Filling false path i [] k ->
    steps_to st (Finish p) (set_worker st p (Done i))
| to_done_own p path i k : workers st p = Filling true path i [] k ->
    steps_to st (Finish p) (set_worker (remove_dir st (fst path)) p (Done i))
| to_removed d : steps_to st (RemoveDir d) (remove_dir st d)
| to_killed p : steps_to st (Kill p) (set_worker st p Killed).

Lemma step_cases st e st' : step st e = Some st' -> steps_to st e st'.
Proof.
  destruct e as [p|p|p|p|p|d|p]; cbn [NoiseFiles.step].
  - destruct (workers st p) eqn:W; try discriminate.
    destruct ((j_sx (jobs p) =? 0) || (j_sy (jobs p) =? 0)) eqn:Z.
    + intros E. injection E as <-. apply to_bad; [exact W|]. rewrite orb_true_iff, !Z.eqb_eq in Z. exact Z.
    + rewrite orb_false_iff, !Z.eqb_neq in Z. destruct Z as [Z1 Z2]. destruct (j_dir (jobs p)) as [d|] eqn:D.
      * intros E. injection E as <-. now apply to_given.
      * destruct (dirs st (tmpdir_of p)) eqn:T; [discriminate|]. intros E. injection E as <-. now apply to_own.
  - destruct (workers st p) eqn:W; try discriminate. destruct (names st _) eqn:N; [discriminate|].
    intros E. injection E as <-. now apply to_picked.
  - destruct (workers st p) eqn:W; try discriminate. destruct (dirs st (fst path)) eqn:D.
    + destruct (names st path) eqn:N; intros E; injection E as <-; [now apply to_reopened|now apply to_opened].
    + intros E. injection E as <-. now apply to_no_dir with own path.
  - destruct (workers st p) as [| | |own path i [|[isx isy] todo] k| | |] eqn:W; try discriminate.
    destruct (fill_chunk _ _ _ _ _ _ _ _ _ _) as [im k'] eqn:E1. intros E. injection E as <-.
    eapply to_written; eassumption.
  - destruct (workers st p) as [| | |own path i [|] k| | |] eqn:W; try discriminate. intros E. injection E as <-.
    destruct own; [eapply to_done_own|eapply to_done]; exact W.
  - intros E. injection E as <-. apply to_removed.
  - intros E. injection E as <-. apply to_killed.
Qed.

Lemma worker_set (st : state (F := F)) p w q : workers (set_worker st p w) q = if Nat.eqb q p then w else workers st q.
Proof. reflexivity. Qed.

Lemma same_path_eq a b : same_path a b = true <-> a = b.
Proof.
  unfold same_path. rewrite andb_true_iff, !Z.eqb_eq. destruct a, b; cbn. split; [intros [-> ->]; reflexivity|].
  intros E. injection E as -> ->. auto.
Qed.

Lemma same_path_neq a b : same_path a b = false <-> a <> b.
Proof.
  rewrite <- same_path_eq. destruct (same_path a b); split; intros; try congruence.
Qed.

(** The chunks, one after the other, give the image. *)
Lemma fold_flat {A B C} (f : A -> B * C -> A) (l : list B) (m : list C) a :
  fold_left f (flat_map (fun b => map (fun c => (b, c)) m) l) a
  = fold_left (fun a b => fold_left (fun a c => f a (b, c)) m a) l a.
Proof.
  revert a. induction l as [|b l IH]; intros a; [reflexivity|]. cbn [flat_map fold_left].
  rewrite fold_left_app, IH. f_equal. clear. revert a. induction m as [|c m IH]; intros a; [reflexivity|].
  cbn [map fold_left]. apply IH.
Qed.

Definition put (p : nat) (st : noise_state) (c : Z * Z) : noise_state (F := F) :=
  fill_chunk normal store (j_seed (jobs p)) (j_weight (jobs p)) (j_fill_weight (jobs p))
    (j_sx (jobs p)) (j_sy (jobs p)) (fst c) (snd c) st.

Lemma chunks_image p : j_sx (jobs p) <> 0 -> j_sy (jobs p) <> 0 ->
  noise_image normal store (j_seed (jobs p)) (j_weight (jobs p)) (j_fill_weight (jobs p)) (j_sx (jobs p)) (j_sy (jobs p))
  = Ok (fold_left (put p) (chunks (jobs p))
          (full (nrows (j_weight (jobs p))) (ncols (j_weight (jobs p))) fzero, 0)).
Proof.
  intros X Y. unfold noise_image. apply Z.eqb_neq in X, Y. rewrite X, Y. cbn [orb]. f_equal.
  unfold chunks. rewrite fold_flat. reflexivity.
Qed.

(** ** The images *)
Definition path_of (w : progress) : option (Z * Z) :=
  match w with Picked _ path => Some path | Filling _ path _ _ _ => Some path | _ => None end.
Definition inode_of (w : progress) : option nat :=
  match w with Filling _ _ i _ _ => Some i | Done i => Some i | _ => None end.

Definition begun (w : progress) : bool :=
  match w with InDir _ _ | Picked _ _ | Filling _ _ _ _ _ | Done _ => true | _ => false end.

(** The image that worker [p] is making. *)
Definition goal (p : nat) : noise_state (F := F) :=
  fold_left (put p) (chunks (jobs p)) (full (nrows (j_weight (jobs p))) (ncols (j_weight (jobs p))) fzero, 0).

Definition own_path (p : nat) : Z * Z := (dir_of jobs tmpdir_of p, name_of p).

Record ok (st : state (F := F)) : Prop := mkok {
  ok_dir : forall p own d, workers st p = InDir own d -> d = dir_of jobs tmpdir_of p;
  ok_path : forall p path, path_of (workers st p) = Some path -> path = own_path p;
  ok_size : forall p, begun (workers st p) = true -> j_sx (jobs p) <> 0 /\ j_sy (jobs p) <> 0;
  ok_names : forall path i, names st path = Some i -> (i < next st)%nat;
  ok_inodes : forall p i, inode_of (workers st p) = Some i -> (i < next st)%nat;
  ok_apart : forall p q i, inode_of (workers st p) = Some i -> inode_of (workers st q) = Some i -> p = q;
  (* a name that was chosen is not there before the file is opened *)
  ok_free : forall p own path, workers st p = Picked own path -> names st path = None;
  ok_filling : forall p own path i todo k, workers st p = Filling own path i todo k ->
     fold_left (put p) todo (data st i, k) = goal p;
  ok_done : forall p i, workers st p = Done i -> data st i = fst (goal p)
}.

Lemma ok_start st : at_the_start st -> ok st.
Proof.
  intros [W N]. constructor; intros; try (exact (proj1 (N _ _ H)));
    repeat match goal with H : context [workers st ?p] |- _ => rewrite (W p) in H end; cbn in *; discriminate.
Qed.

Ltac others := intros; cbn [workers set_worker set_data make_dir remove_dir new_file names data next dirs] in *;
  repeat match goal with
  | H : context [if Nat.eqb ?a ?b then _ else _] |- _ => destruct (Nat.eqb_spec a b); [subst|]
  | |- context [if Nat.eqb ?a ?b then _ else _] => destruct (Nat.eqb_spec a b); [subst|]
  end; cbn [path_of inode_of begun] in *; try discriminate; try congruence.

Lemma ok_step st e st' : different_paths jobs tmpdir_of name_of -> ok st -> steps_to st e st' -> ok st'.
Proof.
  intros DP [D P Z N I A Fr Fi Dn] H.
  assert (NP : forall p q own path own' path', p <> q -> workers st p = Picked own path ->
     workers st q = Picked own' path' -> path <> path').
  { intros p q own path own' path' Hpq W1 W2 E.
    assert (E1 : path = own_path p) by (apply P; rewrite W1; reflexivity).
    assert (E2 : path' = own_path q) by (apply P; rewrite W2; reflexivity).
    rewrite E1, E2 in E. unfold own_path in E. injection E as X Y. destruct (DP p q Hpq); congruence. }
  destruct H.
  - (* ZeroDivisionError *) constructor; others; eauto.
  - (* a directory that was given *) constructor; others; eauto.
    injection H3 as <- <-. unfold dir_of. now rewrite H2.
  - (* its own directory *) constructor; others; eauto.
    injection H4 as <- <-. unfold dir_of. now rewrite H2.
  - (* a name *) constructor; others; eauto.
    + injection H1 as <-. unfold own_path. now rewrite (D _ _ _ H).
    + apply Z. now rewrite H.
  - (* opened for the second time: not possible *) rewrite (Fr _ _ _ H) in H1. discriminate.
  - (* opened *) constructor; others; eauto;
      try (match goal with G : Some _ = Some _ |- _ => injection G; clear G; intros; subst end);
      try (match goal with G : Filling _ _ _ _ _ = Filling _ _ _ _ _ |- _ => injection G; clear G; intros; subst end);
      try lia;
      try (repeat match goal with G : inode_of (workers st _) = Some _ |- _ => apply I in G end; lia);
      try (match goal with G : workers st ?q = _ |- _ => 
             let J := fresh in assert (J : inode_of (workers st q) = Some (next st)) by (rewrite G; reflexivity);
             apply I in J; lia end).
    + apply P. now rewrite H.
    + apply Z. now rewrite H.
    + destruct (same_path path0 path).
      * match goal with G : Some _ = Some _ |- _ => injection G as <- end. lia.
      * match goal with G : names st _ = _ |- _ => apply N in G; lia end.
    + destruct (same_path path0 path) eqn:E; [|eauto].
      apply same_path_eq in E. exfalso. eapply NP; [|eassumption|exact H|exact E]. assumption.
    + reflexivity.
  - (* no directory *) constructor; others; eauto.
  - (* a chunk *)
    assert (J : inode_of (workers st p) = Some i) by (rewrite H; reflexivity).
    constructor; others; eauto;
      try (match goal with G : Some _ = Some _ |- _ => injection G; clear G; intros; subst end);
      try (match goal with G : Filling _ _ _ _ _ = Filling _ _ _ _ _ |- _ => injection G; clear G; intros; subst end);
      try (match goal with G : Done _ = Done _ |- _ => injection G; clear G; intros; subst end);
      eauto;
      try (apply Z; now rewrite H);
      try (match goal with G : workers st ?q = _, K : ?q <> _ |- _ =>
             exfalso; apply K; eapply A; [|exact J]; rewrite G; reflexivity end);
      try (match goal with |- _ = data _ _ => idtac | |- data _ _ = _ => rewrite <- (Fi _ _ _ _ _ _ H); reflexivity end).
    + apply P. now rewrite H.
    + rewrite <- (Fi _ _ _ _ _ _ H). cbn [fold_left]. unfold put at 3. cbn [fst snd]. rewrite H0. reflexivity.
  - (* finished *)
    assert (J : inode_of (workers st p) = Some i) by (rewrite H; reflexivity).
    constructor; others; eauto;
      try (match goal with G : Some _ = Some _ |- _ => injection G; clear G; intros; subst end);
      try (match goal with G : Filling _ _ _ _ _ = Filling _ _ _ _ _ |- _ => injection G; clear G; intros; subst end);
      try (match goal with G : Done _ = Done _ |- _ => injection G; clear G; intros; subst end);
      eauto;
      try (apply Z; now rewrite H);
      try (match goal with G : workers st ?q = _, K : ?q <> _ |- _ =>
             exfalso; apply K; eapply A; [|exact J]; rewrite G; reflexivity end);
      try (match goal with |- _ = data _ _ => idtac | |- data _ _ = _ => rewrite <- (Fi _ _ _ _ _ _ H); reflexivity end).
  - (* finished, own directory *)
    assert (J : inode_of (workers st p) = Some i) by (rewrite H; reflexivity).
    constructor; others; eauto;
      try (match goal with G : Some _ = Some _ |- _ => injection G; clear G; intros; subst end);
      try (match goal with G : Filling _ _ _ _ _ = Filling _ _ _ _ _ |- _ => injection G; clear G; intros; subst end);
      try (match goal with G : Done _ = Done _ |- _ => injection G; clear G; intros; subst end);
      eauto;
      try (apply Z; now rewrite H);
      try (match goal with G : workers st ?q = _, K : ?q <> _ |- _ =>
             exfalso; apply K; eapply A; [|exact J]; rewrite G; reflexivity end);
      try (match goal with |- _ = data _ _ => idtac | |- data _ _ = _ => rewrite <- (Fi _ _ _ _ _ _ H); reflexivity end);
      match goal with |- context [fst ?a =? fst path] => idtac | G : context [fst ?a =? fst path] |- _ => idtac end.
    + destruct (fst path0 =? fst path); [discriminate|]. eauto.
    + destruct (fst path0 =? fst path); [reflexivity|]. eauto.
  - (* a directory is removed *) constructor; others; eauto.
    + destruct (fst path =? d); [discriminate|]. eauto.
    + destruct (fst path =? d); [reflexivity|]. eauto.
  - (* killed *) constructor; others; eauto.
Qed.

Theorem images_right : different_paths jobs tmpdir_of name_of -> forall st l st' p im,
  at_the_start st -> exec st l = Some st' -> noise_of st' p = Some im ->
  exists k, noise_image normal store (j_seed (jobs p)) (j_weight (jobs p)) (j_fill_weight (jobs p))
              (j_sx (jobs p)) (j_sy (jobs p)) = Ok (im, k).
Proof.
  intros DP st l st' p im S E H.
  assert (K : ok st').
  { apply (exec_inv ok) with l st; [|now apply ok_start|exact E].
    intros s e s' Hs Hst. apply ok_step with s e; [exact DP|exact Hs|now apply step_cases]. }
  unfold noise_of in H. destruct (workers st' p) eqn:W; try discriminate. injection H as <-.
  destruct (ok_size _ K p) as [X Y]; [now rewrite W|].
  exists (snd (goal p)). rewrite chunks_image by assumption. fold (goal p). rewrite (ok_done _ K p inode W).
  now destruct (goal p).
Qed.

(** ** The files *)
Lemma exec_inv_events (I : state (F := F) -> Prop) (E : event -> Prop) :
  (forall st e st', I st -> E e -> step st e = Some st' -> I st') ->
  forall l st st', I st -> (forall e, In e l -> E e) -> exec st l = Some st' -> I st'.
Proof.
  intros H l. induction l as [|e l IH]; cbn [NoiseFiles.exec]; intros st st' Hi He E1; [congruence|].
  destruct (step st e) eqn:S; [|discriminate]. eapply IH; [|intros; apply He; now right|exact E1].
  eapply H; [exact Hi|apply He; now left|exact S].
Qed.

(** What a worker uses as its directory, and whether it made it. *)
Definition place (w : progress) : option (bool * Z) :=
  match w with
  | InDir own d => Some (own, d)
  | Picked own path => Some (own, fst path)
  | Filling own path _ _ _ => Some (own, fst path)
  | _ => None
  end.

Definition placed (st : state (F := F)) : Prop :=
  forall p own d, place (workers st p) = Some (own, d) ->
  match j_dir (jobs p) with Some d' => own = false /\ d = d' | None => own = true /\ d = tmpdir_of p end.

Lemma placed_step st e st' : placed st -> steps_to st e st' -> placed st'.
Proof.
  intros P H. destruct H; intros q own' d' G;
    cbn [workers set_worker set_data make_dir remove_dir new_file] in G;
    try (destruct (Nat.eqb_spec q p) as [->|Hq]); try (exact (P _ _ _ G)); cbn [place] in G; try discriminate G;
    try (apply P; rewrite H; exact G).
  - injection G as <- <-. rewrite H2. auto.
  - injection G as <- <-. rewrite H2. auto.
Qed.

Lemma placed_start st : at_the_start st -> placed st.
Proof. intros [W _] p own d H. rewrite (W p) in H. discriminate. Qed.

(** *** Files that were there *)
Definition older (st0 st : state (F := F)) : Prop :=
  (next st0 <= next st)%nat /\
  (forall i, (i < next st0)%nat -> data st i = data st0 i) /\
  (forall p i, inode_of (workers st p) = Some i -> (next st0 <= i)%nat) /\
  (forall p own path i, workers st p = Picked own path -> names st path = Some i -> (next st0 <= i)%nat).

Lemma older_step st0 st e st' : older st0 st -> steps_to st e st' -> older st0 st'.
Proof.
  intros (Nx & Da & In & Pi) H.
  assert (T : forall (Q : Prop), Q -> Q) by auto.
  destruct H; repeat split; cbn [workers set_worker set_data make_dir remove_dir new_file names data next dirs];
    try assumption; try lia;
    try (intros q i0; destruct (Nat.eqb_spec q p) as [->|Hq]; [cbn [inode_of]; try discriminate|exact (In q i0)]);
    try (intros q own' path' i0; destruct (Nat.eqb_spec q p) as [->|Hq]; [discriminate|exact (Pi q own' path' i0)]).
  - intros q own' path' i0. destruct (Nat.eqb_spec q p) as [->|Hq]; [|exact (Pi q own' path' i0)].
    intros E. injection E as <- <-. congruence.
  - intros j Hj. destruct (Nat.eqb_spec j i) as [->|Hn]; [|auto]. pose proof (Pi _ _ _ _ H H1). lia.
  - intros E. injection E as <-. exact (Pi _ _ _ _ H H1).
  - intros j Hj. destruct (Nat.eqb_spec j (next st)) as [->|Hn]; [lia|auto].
  - intros E. injection E as <-. exact Nx.
  - intros q own' path' i0. destruct (Nat.eqb_spec q p) as [->|Hq]; [discriminate|].
    intros W. destruct (same_path path' path); [intros E; injection E as <-; exact Nx|exact (Pi q own' path' i0 W)].
  - intros j Hj. destruct (Nat.eqb_spec j i) as [->|Hn]; [|auto].
    assert (J : (next st0 <= i)%nat) by (apply (In p); rewrite H; reflexivity). lia.
  - intros E. injection E as <-. apply (In p). rewrite H. reflexivity.
  - intros E. injection E as <-. apply (In p). rewrite H. reflexivity.
  - intros E. injection E as <-. apply (In p). rewrite H. reflexivity.
  - intros q own' path' i0. destruct (Nat.eqb_spec q p) as [->|Hq]; [discriminate|].
    intros W. destruct (fst path' =? fst path); [discriminate|exact (Pi q own' path' i0 W)].
  - intros q own' path' i0 W. destruct (fst path' =? d); [discriminate|exact (Pi q own' path' i0 W)].
Qed.

Lemma older_start st : at_the_start st -> older st st.
Proof.
  intros [W _]. split; [lia|]. split; [reflexivity|].
  split; intros; rewrite (W p) in H; discriminate.
Qed.

(** A file in an existing directory stays as long as nobody removes the directory. *)
Definition kept (path : Z * Z) (i : nat) (st : state (F := F)) : Prop :=
  names st path = Some i /\ dirs st (fst path) = true /\
  forall p d, place (workers st p) = Some (true, d) -> d <> fst path.

Lemma kept_step path i st e st' : kept path i st -> e <> RemoveDir (fst path) -> steps_to st e st' -> kept path i st'.
Proof.
  intros (Na & Di & Ow) He H.
  destruct H; repeat split; cbn [workers set_worker set_data make_dir remove_dir new_file names data next dirs];
    try assumption;
    try (intros q d'; destruct (Nat.eqb_spec q p) as [->|Hq]; [cbn [place]; try discriminate|exact (Ow q d')]).
  - destruct (fst path =? tmpdir_of p); [reflexivity|exact Di].
  - intros E. injection E as <-. congruence.
  - intros E. apply (Ow p). rewrite H. exact E.
  - intros E. apply (Ow p). rewrite H. exact E.
  - destruct (same_path path path0) eqn:S; [|exact Na]. apply same_path_eq in S. subst. congruence.
  - intros E. apply (Ow p). rewrite H. exact E.
  - intros E. apply (Ow p). rewrite H. exact E.
  - destruct (fst path =? fst path0) eqn:S; [|exact Na]. apply Z.eqb_eq in S. exfalso.
    apply (Ow p (fst path0)); [rewrite H; reflexivity|now symmetry].
  - destruct (fst path =? fst path0) eqn:S; [|exact Di]. apply Z.eqb_eq in S. exfalso.
    apply (Ow p (fst path0)); [rewrite H; reflexivity|now symmetry].
  - destruct (fst path =? d) eqn:S; [|exact Na]. apply Z.eqb_eq in S. congruence.
  - destruct (fst path =? d) eqn:S; [|exact Di]. apply Z.eqb_eq in S. congruence.
Qed.

Theorem old_files st l st' path i : at_the_start st -> exec st l = Some st' -> names st path = Some i ->
  data st' i = data st i /\ (~ In (RemoveDir (fst path)) l -> names st' path = Some i).
Proof.
  intros S E Na. destruct S as [W N]. split.
  - assert (O : older st st').
    { apply (exec_inv (older st)) with l st; [|apply older_start; split; assumption|exact E].
      intros s e s' Hs Hst. eapply older_step; [exact Hs|apply step_cases; exact Hst]. }
    destruct O as (_ & O & _). apply O. apply (N _ _ Na).
  - intros R. apply (exec_inv_events (kept path i) (fun e => e <> RemoveDir (fst path))) with l st; [| | |exact E].
    + intros s e s' Hs He Hst. eapply kept_step; [exact Hs|exact He|apply step_cases; exact Hst].
    + split; [exact Na|]. split; [apply (N _ _ Na)|]. intros p d H. rewrite (W p) in H. discriminate.
    + intros e He ->. now apply R.
Qed.

(** *** Files in a directory that was given *)
Definition there (d : Z) (st : state (F := F)) : Prop :=
  dirs st d = true /\ placed st /\
  (forall p own path, workers st p = Picked own path -> path = own_path p) /\
  (forall p own path i todo k, workers st p = Filling own path i todo k -> path = own_path p) /\
  (forall p own e, workers st p = InDir own e -> e = dir_of jobs tmpdir_of p) /\
  (forall p e, place (workers st p) = Some (true, e) -> e <> d) /\
  forall p i, j_dir (jobs p) = Some d -> inode_of (workers st p) = Some i -> names st (own_path p) = Some i.

Lemma there_step d st e st' : there d st -> e <> RemoveDir d -> steps_to st e st' -> there d st'.
Proof.
  intros (Di & Pl & Pp & Fp & Dp & Ow & Th) He H. pose proof (placed_step _ _ _ Pl H) as Pl'.
  split; [|split; [exact Pl'|split; [|split; [|split; [|split]]]]]; destruct H;
    cbn [workers set_worker set_data make_dir remove_dir new_file names data next dirs];
    try assumption;
    try (intros q own' path'; destruct (Nat.eqb_spec q p) as [->|Hq]; [discriminate|exact (Pp q own' path')]);
    try (intros q own' path' i' todo' k'; destruct (Nat.eqb_spec q p) as [->|Hq]; [discriminate|exact (Fp q own' path' i' todo' k')]);
    try (intros q own' e'; destruct (Nat.eqb_spec q p) as [->|Hq]; [discriminate|exact (Dp q own' e')]);
    try (intros q e'; destruct (Nat.eqb_spec q p) as [->|Hq]; [cbn [place]; try discriminate|exact (Ow q e')]);
    try (intros q i' Hd; destruct (Nat.eqb_spec q p) as [->|Hq]; [cbn [inode_of]; try discriminate|exact (Th q i' Hd)]).
  - destruct (d =? tmpdir_of p); [reflexivity|exact Di].
  - destruct (d =? fst path) eqn:S; [|exact Di]. apply Z.eqb_eq in S. exfalso.
    apply (Ow p (fst path)); [rewrite H; reflexivity|now symmetry].
  - destruct (d =? d0) eqn:S; [|exact Di]. apply Z.eqb_eq in S. congruence.
  - intros q own' path'. destruct (Nat.eqb_spec q p) as [->|Hq]; [|exact (Pp q own' path')].
    intros E. injection E as <- <-. unfold own_path. now rewrite (Dp _ _ _ H).
  - intros q own' path' i' todo' k'. destruct (Nat.eqb_spec q p) as [->|Hq]; [|exact (Fp q own' path' i' todo' k')].
    intros E. injection E as <- <- <- <- <-. exact (Pp _ _ _ H).
  - intros q own' path' i' todo' k'. destruct (Nat.eqb_spec q p) as [->|Hq]; [|exact (Fp q own' path' i' todo' k')].
    intros E. injection E as <- <- <- <- <-. exact (Pp _ _ _ H).
  - intros q own' path' i' todo' k0. destruct (Nat.eqb_spec q p) as [->|Hq]; [|exact (Fp q own' path' i' todo' k0)].
    intros E. injection E as <- <- <- <- <-. exact (Fp _ _ _ _ _ _ H).
  - intros q own' e'. destruct (Nat.eqb_spec q p) as [->|Hq]; [|exact (Dp q own' e')].
    intros E. injection E as <- <-. unfold dir_of. now rewrite H2.
  - intros q own' e'. destruct (Nat.eqb_spec q p) as [->|Hq]; [|exact (Dp q own' e')].
    intros E. injection E as <- <-. unfold dir_of. now rewrite H2.
  - intros E. injection E as <-. congruence.
  - intros E. apply (Ow p). rewrite H. exact E.
  - intros E. apply (Ow p). rewrite H. exact E.
  - intros E. apply (Ow p). rewrite H. exact E.
  - intros E. apply (Ow p). rewrite H. exact E.
  - intros E. injection E as <-. rewrite <- (Pp _ _ _ H). exact H1.
  - intros q i' Hd. destruct (Nat.eqb_spec q p) as [->|Hq].
    + cbn [inode_of]. intros E. injection E as <-. rewrite <- (Pp _ _ _ H).
      replace (same_path path path) with true by (symmetry; now apply same_path_eq). reflexivity.
    + intros E. destruct (same_path (own_path q) path) eqn:S; [|now apply Th].
      apply same_path_eq in S. specialize (Th q i' Hd E). congruence.
  - intros E. injection E as <-. apply (Th p i Hd). rewrite H. reflexivity.
  - intros E. injection E as <-. apply (Th p i Hd). rewrite H. reflexivity.
  - intros q i' Hd. assert (X : d <> fst path).
    { intros X. apply (Ow p (fst path)); [rewrite H; reflexivity|now symmetry]. }
    assert (Y : forall r, j_dir (jobs r) = Some d -> fst (own_path r) =? fst path = false).
    { intros r Hr. apply Z.eqb_neq. unfold own_path, dir_of. rewrite Hr. exact X. }
    rewrite (Y q Hd). destruct (Nat.eqb_spec q p) as [->|Hq]; [|exact (Th q i' Hd)].
    cbn [inode_of]. intros E. injection E as <-. apply (Th p i Hd). rewrite H. reflexivity.
  - intros q i' Hd. assert (Y : fst (own_path q) =? d0 = false).
    { apply Z.eqb_neq. unfold own_path, dir_of. rewrite Hd. cbn. congruence. }
    rewrite Y. exact (Th q i' Hd).
Qed.

Theorem file_stays st l st' p d i : at_the_start st -> exec st l = Some st' -> j_dir (jobs p) = Some d ->
  dirs st d = true -> ~ In (RemoveDir d) l -> workers st' p = Done i -> names st' (d, name_of p) = Some i.
Proof.
  intros S E Hd Di R W.
  assert (T : there d st').
  { apply (exec_inv_events (there d) (fun e => e <> RemoveDir d)) with l st; [| | |exact E].
    - intros s e s' Hs He Hst. eapply there_step; [exact Hs|exact He|apply step_cases; exact Hst].
    - split; [exact Di|]. split; [now apply placed_start|]. destruct S as [S _].
      repeat split; intros; match goal with H : context [workers st ?q] |- _ => rewrite (S q) in H; discriminate H end.
    - intros e He ->. now apply R. }
  destruct T as (_ & _ & _ & _ & _ & _ & T). specialize (T p i Hd). rewrite W in T. specialize (T eq_refl).
  unfold own_path, dir_of in T. rewrite Hd in T. exact T.
Qed.

(** *** Nothing is left in a directory of one's own *)
Definition files_in_dirs (st : state (F := F)) : Prop :=
  forall path, names st path <> None -> dirs st (fst path) = true.

Lemma in_dirs_step st e st' : files_in_dirs st -> steps_to st e st' -> files_in_dirs st'.
Proof.
  intros P H. destruct H; intros q G;
    cbn [workers set_worker set_data make_dir remove_dir new_file names dirs] in *; try (exact (P q G)).
  - destruct (fst q =? tmpdir_of p); [reflexivity|exact (P q G)].
  - destruct (same_path q path) eqn:S; [apply same_path_eq in S; now subst|exact (P q G)].
  - destruct (fst q =? fst path); [congruence|exact (P q G)].
  - destruct (fst q =? d); [congruence|exact (P q G)].
Qed.

Definition cleared (p : nat) (st : state (F := F)) : Prop :=
  files_in_dirs st /\ placed st /\ forall i, workers st p = Done i -> dirs st (tmpdir_of p) = false.

Lemma cleared_step p st e st' : j_dir (jobs p) = None ->
  (forall q, q <> p -> dir_of jobs tmpdir_of q <> tmpdir_of p) ->
  cleared p st -> steps_to st e st' -> cleared p st'.
Proof.
  intros Hp Ho (Fd & Pl & C) H. split; [eapply in_dirs_step; eassumption|].
  split; [eapply placed_step; eassumption|].
  destruct H; intros i0;
    cbn [workers set_worker set_data make_dir remove_dir new_file names dirs] in *;
    try (destruct (Nat.eqb_spec p p0) as [<-|Hq]; [discriminate|]); try (exact (C i0)).
  - intros W. destruct (tmpdir_of p =? tmpdir_of p0) eqn:S; [|exact (C i0 W)]. apply Z.eqb_eq in S. exfalso.
    apply (Ho p0); [congruence|]. unfold dir_of. rewrite H2. congruence.
  - destruct (Nat.eqb_spec p p0) as [<-|Hq]; [|exact (C i0)]. intros _.
    assert (X : place (workers st p) = Some (false, fst path)) by (rewrite H; reflexivity).
    apply Pl in X. rewrite Hp in X. destruct X as [X _]. discriminate.
  - destruct (Nat.eqb_spec p p0) as [<-|Hq].
    + intros _. assert (X : place (workers st p) = Some (true, fst path)) by (rewrite H; reflexivity).
      apply Pl in X. rewrite Hp in X. destruct X as [_ X]. rewrite X, Z.eqb_refl. reflexivity.
    + intros W. destruct (tmpdir_of p =? fst path); [reflexivity|exact (C i0 W)].
  - intros W. destruct (tmpdir_of p =? d); [reflexivity|exact (C i0 W)].
Qed.

Theorem nothing_left st l st' p i : at_the_start st -> exec st l = Some st' -> j_dir (jobs p) = None ->
  (forall q, q <> p -> dir_of jobs tmpdir_of q <> tmpdir_of p) ->
  workers st' p = Done i -> gone st' (tmpdir_of p).
Proof.
  intros S E Hp Ho W.
  assert (T : cleared p st').
  { apply (exec_inv (cleared p)) with l st; [| |exact E].
    - intros s e s' Hs Hst. eapply cleared_step; [exact Hp|exact Ho|exact Hs|apply step_cases; exact Hst].
    - split; [|split; [now apply placed_start|]].
      + intros path G. destruct S as [_ S]. destruct (names st path) as [j|] eqn:N; [|congruence].
        apply (S _ _ N).
      + intros j. destruct S as [S _]. rewrite (S p). discriminate. }
  destruct T as (Fd & _ & C). pose proof (C i W) as D. split; [exact D|].
  intros nm. destruct (names st' (tmpdir_of p, nm)) eqn:N; [|reflexivity].
  assert (X : names st' (tmpdir_of p, nm) <> None) by congruence. apply Fd in X. cbn [fst] in X. congruence.
Qed.

(** *** A directory that has been removed *)
Lemma gone_step d st e st' : (forall q, j_dir (jobs q) = None -> tmpdir_of q <> d) ->
  gone st d -> steps_to st e st' -> gone st' d.
Proof.
  intros Ho [D N] H. destruct H; split;
    cbn [workers set_worker set_data make_dir remove_dir new_file names dirs]; try assumption.
  - destruct (d =? tmpdir_of p) eqn:S; [|exact D]. apply Z.eqb_eq in S. exfalso. apply (Ho p H2). now symmetry.
  - intros nm. destruct (same_path (d, nm) path) eqn:S; [|apply N]. apply same_path_eq in S. subst path.
    cbn [fst] in H0. congruence.
  - destruct (d =? fst path); [reflexivity|exact D].
  - intros nm. cbn [fst]. destruct (d =? fst path); [reflexivity|apply N].
  - destruct (d =? d0); [reflexivity|exact D].
  - intros nm. cbn [fst]. destruct (d =? d0); [reflexivity|apply N].
Qed.

Theorem removed_for_good st l1 l2 st' d : (forall q, j_dir (jobs q) = None -> tmpdir_of q <> d) ->
  exec st (l1 ++ RemoveDir d :: l2) = Some st' -> gone st' d.
Proof.
  intros Ho E. rewrite exec_app in E. destruct (exec st l1) as [s|]; [|discriminate]. cbn [NoiseFiles.exec] in E.
  cbn [NoiseFiles.step] in E.
  apply (exec_inv (fun s => gone s d)) with l2 (remove_dir s d); [| |exact E].
  - intros s1 e s2 Hs Hst. eapply gone_step; [exact Ho|exact Hs|apply step_cases; exact Hst].
  - split; cbn [remove_dir dirs names]; [now rewrite Z.eqb_refl|]. intros nm. cbn [fst]. now rewrite Z.eqb_refl.
Qed.

(** ** A worker that nobody disturbs finishes *)
Lemma writes p own path i k : forall todo (st : state (F := F)), workers st p = Filling own path i todo k ->
  exists st' k', exec st (repeat (Write p) (length todo)) = Some st' /\ workers st' p = Filling own path i [] k'.
Proof.
  intros todo. revert k. induction todo as [|[isx isy] todo IH]; intros k st W; cbn [length repeat NoiseFiles.exec].
  - exists st, k. auto.
  - cbn [NoiseFiles.step]. rewrite W. destruct (fill_chunk _ _ _ _ _ _ _ _ _ _) as [im k'].
    apply (IH k'). cbn [workers set_worker]. now rewrite Nat.eqb_refl.
Qed.

Theorem finishes st p d : workers st p = Start -> j_sx (jobs p) <> 0 -> j_sy (jobs p) <> 0 ->
  j_dir (jobs p) = Some d -> dirs st d = true -> names st (d, name_of p) = None ->
  exists st' im, exec st ([Begin p; Pick p; Open p] ++ repeat (Write p) (length (chunks (jobs p))) ++ [Finish p]) = Some st'
    /\ noise_of st' p = Some im.
Proof.
  intros W X Y D Hd Hn. apply Z.eqb_neq in X, Y.
  cbn [app NoiseFiles.exec NoiseFiles.step]. rewrite W, X, Y, D. cbn [orb].
  cbn [workers set_worker names dirs]. rewrite Nat.eqb_refl. rewrite Hn.
  cbn [workers set_worker names dirs fst]. rewrite Nat.eqb_refl. cbn [fst]. rewrite Hd, Hn.
  rewrite exec_app.
  match goal with |- context [exec ?s _] => destruct (writes p false (d, name_of p) (next st) 0 (chunks (jobs p)) s)
    as (st' & k' & E & W') end.
  { cbn [workers set_worker]. now rewrite Nat.eqb_refl. }
  cbn [next set_worker] in *. rewrite E. cbn [NoiseFiles.exec NoiseFiles.step]. rewrite W'.
  eexists. eexists. split; [reflexivity|]. unfold noise_of. cbn [workers set_worker]. rewrite Nat.eqb_refl. reflexivity.
Qed.
End Any.
