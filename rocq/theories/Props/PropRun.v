(** C31-C35: the run as a whole. *)
From Coq Require Import ZArith Bool String Lia List Permutation.
From Verif Require Import Lib.Base Lib.PyStr Lib.Floats Model.SliceRange Model.Jobs Model.Writer Model.Sched
  Spec.WriterSpec Spec.RunSpec
  Proofs.BaseFacts Proofs.JobsProofs Proofs.SchedProofs Proofs.WriterProofs Proofs.RunProofs.
Import ListNotations.
Open Scope list_scope.
Open Scope Z_scope.

(** ** C31: the output does not depend on scheduling *)

(** Two runs of the same slices with the same seed, done in any two ways and
    under any two schedules (also serially: [h_jobs] at most 1), have the same
    output if both complete. *)
Theorem C31_same_output :
  forall (F : Type) (FO : FloatOps F) V E zero cast isneg box psf_box n_extra num nsrc seed obj0
    rng init randint work,
  0 <= n_extra -> 0 <= num -> labelled V E box psf_box n_extra num work ->
  forall arg h1 h2 o1 o2, forward arg -> valid_how h1 -> valid_how h2 ->
  run_completes V E zero cast isneg box psf_box n_extra num nsrc seed obj0 rng init randint work arg h1 o1 ->
  run_completes V E zero cast isneg box psf_box n_extra num nsrc seed obj0 rng init randint work arg h2 o2 ->
  same_output V E o1 o2.
Proof.
  intros F FO V E zero cast isneg box psf_box n_extra num nsrc seed obj0 rng init randint work Hx Hn Hl.
  exact (runs_same_output V E zero cast isneg box psf_box n_extra num nsrc seed obj0 rng init randint work Hx Hn Hl).
Qed.

(** If one of them raises an exception under some schedule, the other does not
    complete under any. *)
Theorem C31_same_outcome :
  forall (F : Type) (FO : FloatOps F) V E zero cast isneg box psf_box n_extra num nsrc seed obj0
    rng init randint work,
  0 <= n_extra -> 0 <= num -> labelled V E box psf_box n_extra num work ->
  forall arg h1 h2 o2, forward arg -> valid_how h1 -> valid_how h2 ->
  run_raises V E zero cast isneg box psf_box n_extra num nsrc seed obj0 rng init randint work arg h1 ->
  ~ run_completes V E zero cast isneg box psf_box n_extra num nsrc seed obj0 rng init randint work arg h2 o2.
Proof.
  intros F FO V E zero cast isneg box psf_box n_extra num nsrc seed obj0 rng init randint work
    H1 H2 H3 arg h1 h2 o2 H4 H5 H6 H7 H8.
  exact (runs_same_outcome V E zero cast isneg box psf_box n_extra num nsrc seed obj0 rng init randint work
           H1 H2 H3 arg h1 h2 o2 H4 H5 H6 H7 H8).
Qed.

(** ** C32: the parallel run never hangs *)

(** As long as the main process has not finished, some process can do a
    step: no deadlock. *)
Theorem C32_no_deadlock :
  forall (item res outp : Type) (work : item -> result res) (process : outp -> res -> result outp)
    chunks n_jobs o0 cap s, (1 <= cap)%nat -> (1 <= n_jobs)%nat ->
  steps _ _ _ work process cap (start n_jobs chunks (length (concat chunks)) o0) s ->
  (forall o, s_main s <> Done o) -> (forall o, s_main s <> Raised o) ->
  exists s', step _ _ _ work process cap s s'.
Proof.
  intros item res outp work process chunks n_jobs o0 cap s Hc Hj H N1 N2.
  apply (progress _ _ _ work process (concat chunks) n_jobs o0 cap s Hc Hj); [eapply inv_steps; eauto|].
  unfold running. destruct (s_main s) as [l o|o|o]; [reflexivity|exfalso; exact (N2 o eq_refl)|
    exfalso; exact (N1 o eq_refl)].
Qed.

(** No execution is longer than this: no livelock. *)
Theorem C32_bounded :
  forall (item res outp : Type) (work : item -> result res) (process : outp -> res -> result outp)
    chunks n_jobs n o0 cap k s,
  nsteps _ _ _ work process cap k (start n_jobs chunks n o0) s ->
  (k <= 4 * length (concat chunks) + 2 * length chunks + 1)%nat.
Proof.
  intros item res outp work process chunks n_jobs n o0 cap k s H.
  apply nsteps_weight in H. rewrite weight_start in H. lia.
Qed.

(** Together: from every reachable state the run can go on to an end, and
    it has to end. *)
Theorem C32_ends :
  forall (item res outp : Type) (work : item -> result res) (process : outp -> res -> result outp)
    chunks n_jobs o0 cap s, (1 <= cap)%nat -> (1 <= n_jobs)%nat ->
  steps _ _ _ work process cap (start n_jobs chunks (length (concat chunks)) o0) s ->
  exists t, steps _ _ _ work process cap s t /\
    ((exists o, s_main t = Done o) \/ (exists o, s_main t = Raised o)).
Proof.
  intros item res outp work process chunks n_jobs o0 cap s Hc Hj H.
  destruct (ends _ _ _ work process chunks n_jobs o0 cap Hc Hj s H) as (t & A & B).
  exists t. split; [exact A|]. unfold running in B. destruct (s_main t); [discriminate|right|left]; eauto.
Qed.

(** If a slice fails, the main process does not complete; if it raises, some
    slice has failed or could not be written; if it completes, every slice
    has been computed and written. *)
Theorem C32_failures_are_reported :
  forall (item res outp : Type) (work : item -> result res) (process : outp -> res -> result outp)
    chunks n_jobs o0 cap s,
  steps _ _ _ work process cap (start n_jobs chunks (length (concat chunks)) o0) s ->
  match s_main s with
  | Getting _ _ => True
  | Done o => (forall i, In i (concat chunks) -> exists r, work i = Ok r) /\
              exists todo, Permutation (concat chunks) todo /\ serial _ _ _ work process o0 todo = Ok o
  | Raised o => (exists i e, In i (concat chunks) /\ work i = Raise e) \/
                (exists i r o' e, In i (concat chunks) /\ work i = Ok r /\ process o' r = Raise e)
  end.
Proof.
  intros item res outp work process chunks n_jobs o0 cap s H.
  pose proof (inv_steps _ _ _ work process _ chunks n_jobs o0 cap s eq_refl H) as [_ HI].
  destruct (s_main s) as [l o|o|o]; [exact I| |].
  - destruct HI as [HI|(id & ds & i & r & e & rest & _ & _ & W & P & Q)]; [left; exact HI|].
    right. exists i, r, o, e. split; [|auto].
    apply (Permutation_in _ (Permutation_sym Q)). apply in_or_app. right. left. reflexivity.
  - destruct HI as (id & ds & A & B & P). split.
    + intros i Hi. apply (Permutation_in _ P) in Hi. clear - A Hi.
      induction A as [|x y l m Hxy A IH]; [contradiction|].
      destruct Hi as [<-|Hi]; [eauto|auto].
    + exists id. split; [exact P|]. rewrite (serial_of_write_all _ _ _ _ _ _ _ _ A). exact B.
Qed.

(** The number of results waited for is the number of slices submitted, so
    that the theorems above apply to every run with at least one chunk ... *)
Theorem C32_applies_to_runs :
  forall rng init randint arg num seed nsrc n_extra h p ss, 0 <= num -> forward arg -> valid_how h ->
  make_plan rng init randint (h_order h) arg num seed nsrc n_extra (h_jobs h) (h_chunks h) = Ok (p, ss) ->
  match p with
  | Serial _ => h_jobs h <= 1
  | Parallel n k chunks => n = h_jobs h /\ (1 <= Z.to_nat n)%nat /\ k = length (concat chunks)
  end.
Proof.
  intros rng init randint arg num seed nsrc n_extra h p ss Hn Hf (Ho & Hc & _) H.
  assert (exists l, slices_of arg num = Ok l) as [l Hl].
  { unfold make_plan in H. unfold slices_of. destruct (extract_slice_range arg num); [|discriminate].
    cbn [bind]. eauto. }
  destruct (only_valid_slices arg num l Hn Hf Hl) as [Hin _].
  destruct (make_plan_spec rng init randint (h_order h) arg num seed nsrc n_extra (h_jobs h) (h_chunks h) l Ho Hl Hin Hc)
    as (q & A & _ & D). rewrite A in H. injection H as <- _.
  destruct D as [(t & -> & D)|(c & -> & D)]; [exact D|]. repeat split; lia.
Qed.

(** ... but not when n_chunks is negative: no work is submitted, and the main
    process waits for ever. *)
Theorem C32_negative_n_chunks_hangs :
  forall (res outp : Type) work process rng init randint order num seed nsrc n_extra n_jobs n_chunks cap,
  1 <= num -> 1 < n_jobs -> n_chunks < 0 -> (forall k, Permutation k (order k)) ->
  exists n ss,
    make_plan rng init randint order SNone num seed nsrc n_extra n_jobs (Some n_chunks) =
      Ok (Parallel n_jobs n [], ss) /\
    forall (o0 : outp) s, steps (Z * Z) res outp work process cap (start (Z.to_nat n_jobs) [] n o0) s ->
      s = start (Z.to_nat n_jobs) [] n o0 /\ s_main s = Getting n o0 /\
      ~ exists s', step _ _ _ work process cap s s'.
Proof.
  intros res outp work process rng init randint order num seed nsrc n_extra n_jobs n_chunks cap Hn Hj Hc Ho.
  unfold make_plan, extract_slice_range. cbn [bind]. rewrite range_list_default.
  assert (forallb (fun i => match pyindex num i with Some _ => true | None => false end) (zrange 0 num) = true) as ->.
  { apply forallb_forall. intros i Hi. apply In_zrange in Hi. unfold pyindex.
    destruct (Z.leb_spec 0 i); [|lia]. destruct (Z.ltb_spec i num); [|lia]. reflexivity. }
  destruct (all_seeds _ _ _ _ _ _ _) as [sds ss]. rewrite (proj2 (Z.ltb_lt _ _) Hj).
  rewrite make_jobs_neg by exact Hc. cbn [bind].
  eexists. exists ss. split; [reflexivity|]. intros o0.
  assert (L : exists m, length (order (zrange 0 num)) = S m).
  { pose proof (Permutation_length (Ho (zrange 0 num))) as K. pose proof (zrange_length 0 num) as Z0.
    destruct (length (order (zrange 0 num))) as [|m]; [lia|eauto]. }
  destruct L as [m ->].
  assert (ST : ~ exists s', step _ _ _ work process cap
                 (start (Z.to_nat n_jobs) [] (S m) o0 : state (Z * Z) res outp) s').
  { intros [s' S].
    assert (R : forall k w, nth_error (repeat (@mk_worker (Z * Z) res Idle []) (Z.to_nat n_jobs)) k = Some w ->
                w = mk_worker Idle []).
    { intros k w K. apply nth_error_In in K. apply repeat_spec in K. exact K. }
    inversion S; subst; cbn [start s_workers s_main s_chunks s_pipe] in *; try discriminate;
      match goal with K : nth_error _ _ = Some _ |- _ => apply R in K; discriminate end. }
  assert (K : forall s t, steps _ _ _ work process cap s t ->
    s = start (Z.to_nat n_jobs) [] (S m) o0 -> t = start (Z.to_nat n_jobs) [] (S m) o0).
  { intros s t H. induction H as [s|s t u H IH S]; [auto|]. intros E0. rewrite (IH E0) in S.
    exfalso. apply ST. eauto. }
  intros s H. rewrite (K _ _ H eq_refl). auto.
Qed.

(** If the operating system kills a worker, the pool starts a new one but the
    chunk is lost. *)
Definition killed {item res outp} (s : state item res outp) (k : nat) : state item res outp :=
  mk_state (s_chunks s) (firstn k (s_workers s) ++ mk_worker Idle [] :: skipn (S k) (s_workers s))
           (s_pipe s) (s_main s).

(** So a kill can make the run hang. *)
Theorem C32_killed_worker_can_hang :
  forall (item res outp : Type) (work : item -> result res) (process : outp -> res -> result outp)
    (i : item) (o0 : outp) cap,
  exists s, steps _ _ _ work process cap (start 1 [[i]] 1 o0) s /\
    ~ (exists s', step _ _ _ work process cap (killed s 0) s') /\
    s_main (killed s 0) = Getting 1 o0.
Proof.
  intros item res outp work process i o0 cap. eexists. split; [|split].
  - eapply steps_step; [apply steps_refl|]. eapply (Take _ _ _ _ _ cap _ 0%nat [] [i] []); reflexivity.
  - cbn. intros [s' S]. inversion S; subst; cbn in *; try discriminate;
      match goal with K : nth_error [_] ?k = Some _ |- _ => destruct k as [|[|k]]; cbn in K; discriminate end.
  - reflexivity.
Qed.

(** When one way of doing the run completes, so does every other. *)
Theorem C31_all_complete :
  forall (F : Type) (FO : FloatOps F) V E zero cast isneg box psf_box n_extra num nsrc seed obj0
    rng init randint work,
  0 <= n_extra -> 0 <= num -> labelled V E box psf_box n_extra num work ->
  forall arg h1 h2 o1, forward arg -> valid_how h1 -> valid_how h2 ->
  run_completes V E zero cast isneg box psf_box n_extra num nsrc seed obj0 rng init randint work arg h1 o1 ->
  exists o2,
  run_completes V E zero cast isneg box psf_box n_extra num nsrc seed obj0 rng init randint work arg h2 o2 /\
  same_output V E o1 o2.
Proof.
  intros F FO V E zero cast isneg box psf_box n_extra num nsrc seed obj0 rng init randint work
    Hx Hn Hlab arg h1 h2 o1 Hf V1 V2 C1.
  assert (exists l, slices_of arg num = Ok l) as [l Hl].
  { destruct C1 as (p & ss & M & _).
    unfold make_plan in M. unfold slices_of. destruct (extract_slice_range arg num); [|discriminate].
    cbn [bind]. eauto. }
  destruct (only_valid_slices arg num l Hn Hf Hl) as [Hin _].
  destruct (make_plan_spec rng init randint (h_order h2) arg num seed nsrc n_extra (h_jobs h2) (h_chunks h2) l
    (proj1 V2) Hl Hin (proj1 (proj2 V2))) as (p & M & _ & D).
  set (ss := snd (all_seeds rng init randint seed num nsrc n_extra)) in *.
  pose (proc := process_one V cast isneg E (box ^ 2) (psf_box ^ 2)).
  pose (oo := init_out V zero E num box psf_box n_extra obj0).
  assert (K : (exists o2, completes _ _ (work ss) proc (h_cap h2) oo p o2) \/
              raises _ _ (work ss) proc (h_cap h2) oo p).
  { destruct D as [(t & -> & _)|(c & -> & J)].
    - destruct (serial _ _ _ (work ss) proc oo t) as [o2|e] eqn:ES.
      + left. exists o2. constructor. exact ES.
      + right. econstructor. exact ES.
    - destruct (C32_ends _ _ _ (work ss) proc c (Z.to_nat (h_jobs h2)) oo (h_cap h2) _ (proj2 (proj2 V2))
                  ltac:(lia) (steps_refl _ _ _ _ _ _ _)) as (t & A & [[o B]|[o B]]).
      + left. exists o. econstructor; eauto.
      + right. econstructor; eauto. }
  destruct K as [[o2 K]|K].
  - exists o2. assert (C2 : run_completes V E zero cast isneg box psf_box n_extra num nsrc seed obj0 rng init
      randint work arg h2 o2) by (exists p, ss; auto).
    split; [exact C2|].
    eapply (C31_same_output F FO V E zero cast isneg box psf_box n_extra num nsrc seed obj0 rng init randint work
      Hx Hn Hlab arg h1 h2); auto.
  - exfalso. eapply (C31_same_outcome F FO V E zero cast isneg box psf_box n_extra num nsrc seed obj0 rng init
      randint work Hx Hn Hlab arg h2 h1 o1 Hf V2 V1); [exists p, ss; auto|exact C1].
Qed.

(** ** C33: the result of a slice *)

(** For a slice that two runs with the same seed have in common, the entry of
    the object data and its part of every image extension are the same. *)
Theorem C33_same_results :
  forall (F : Type) (FO : FloatOps F) V E zero cast isneg box psf_box n_extra num nsrc seed obj0
    rng init randint work,
  0 <= n_extra -> 0 <= num -> labelled V E box psf_box n_extra num work ->
  forall arg1 arg2 l1 l2 h1 h2 o1 o2 i, forward arg1 -> forward arg2 -> valid_how h1 -> valid_how h2 ->
  slices_of arg1 num = Ok l1 -> slices_of arg2 num = Ok l2 -> In i l1 -> In i l2 ->
  run_completes V E zero cast isneg box psf_box n_extra num nsrc seed obj0 rng init randint work arg1 h1 o1 ->
  run_completes V E zero cast isneg box psf_box n_extra num nsrc seed obj0 rng init randint work arg2 h2 o2 ->
  o_obj V E o1 i = o_obj V E o2 i /\
  forall ext d1 d2 p, o_fits V E o1 ext = Some d1 -> o_fits V E o2 ext = Some d2 ->
    in_region i (if String.eqb ext "psf" then psf_box ^ 2 else box ^ 2) p -> dat V d1 p = dat V d2 p.
Proof.
  intros F FO V E zero cast isneg box psf_box n_extra num nsrc seed obj0 rng init randint work Hx Hn Hl.
  exact (runs_same_results V E zero cast isneg box psf_box n_extra num nsrc seed obj0 rng init randint work Hx Hn Hl).
Qed.

(** ** C34: cutouts never overlap *)

Theorem C34_regions_disjoint :
  forall i j n p, in_region i n p -> in_region j n p -> i = j.
Proof. exact in_region_disjoint. Qed.

(** All slices are written, each into its own region; everything else is
    as it was reserved. *)
Theorem C34_contents :
  forall (F : Type) (FO : FloatOps F) V E zero cast isneg box psf_box n_extra num obj0 rs,
  0 <= n_extra -> NoDup (map (r_i V E) rs) ->
  (forall r, In r rs -> 0 <= r_i V E r < num /\ well_shaped V E box psf_box n_extra r) ->
  (forall r, In r rs -> has_data V E r -> no_negatives V E cast isneg r) ->
  let npix ext := if String.eqb ext "psf" then psf_box ^ 2 else box ^ 2 in
  exists o, process_all V cast isneg E (box ^ 2) (psf_box ^ 2)
              (init_out V zero E num box psf_box n_extra obj0) rs = Ok o /\
  (forall r ext info a, In r rs -> has_data V E r -> belongs V E r ext info a ->
     exists h, o_fits V E o ext = Some h /\ dim V h = num * npix ext /\
     forall y x, inb a y x ->
       let p := r_i V E r * npix ext + y * ncols a + x in
       0 <= p < dim V h /\ in_region (r_i V E r) (npix ext) p /\ dat V h p = cast info (px a y x)) /\
  (forall ext h p, o_fits V E o ext = Some h ->
     (forall r info a, In r rs -> has_data V E r -> belongs V E r ext info a ->
        ~ in_region (r_i V E r) (npix ext) p) -> dat V h p = zero) /\
  o_epochs V E o = map (r_epochs V E) rs /\
  (forall j, (forall r, In r rs -> r_i V E r <> j) -> o_obj V E o j = obj0 j) /\
  (forall r, In r rs -> has_data V E r ->
     let b := o_obj V E o (r_i V E r) in
     o_ncutout b = 1 /\ o_nepoch b = Z.of_nat (length (r_weights V E r)) /\
     o_nepoch_eff b = fdiv (fsum (r_weights V E r)) (running_max (r_weights V E r)) /\
     o_psf_sigma b = r_psf_sigma V E r /\
     o_start_row b = r_i V E r * box ^ 2 /\ o_psf_start_row b = r_i V E r * psf_box ^ 2) /\
  (forall r, In r rs -> ~ has_data V E r ->
     let b := o_obj V E o (r_i V E r) in let b0 := obj0 (r_i V E r) in
     o_nepoch b = 0 /\ o_nepoch_eff b = fzero /\ o_ncutout b = o_ncutout b0 /\
     o_psf_sigma b = o_psf_sigma b0 /\ o_start_row b = o_start_row b0 /\
     o_psf_start_row b = o_psf_start_row b0).
Proof.
  intros F FO V E zero cast isneg box psf_box n_extra num obj0 rs Hx HN Hin Hneg npix.
  destruct (process_all_spec V zero cast isneg E num box psf_box n_extra rs
     (init_out V zero E num box psf_box n_extra obj0) Hx eq_refl
     (reserved_init V zero isneg E num box psf_box n_extra obj0) HN Hin) as (o & A & _ & B & C & D & G).
  { intros r Hr Hd. apply bad_values_spec. apply Hneg; auto. }
  exists o. split; [exact A|].
  assert (NP : forall ext, npix ext = region_size box psf_box ext) by reflexivity.
  destruct (reserved_init V zero isneg E num box psf_box n_extra obj0) as [R1 R2].
  split; [|split; [|split; [exact B|split; [exact D|]]]].
  - intros r ext info a Hr Hd Hb. destruct (Hin r Hr) as [Hi HW]. destruct (HW Hd) as [HNs Hsh].
    destruct (Hsh _ _ _ Hb) as [S1 S2].
    assert (exists h0, o_fits V E (init_out V zero E num box psf_box n_extra obj0) ext = Some h0 /\
              dim V h0 = num * npix ext) as (h0 & E0 & D0).
    { destruct (String.eqb_spec ext PSF_EXT) as [->|NE].
      - destruct R2 as (h & E1 & E2). exists h. split; [exact E1|]. rewrite E2. reflexivity.
      - destruct (R1 ext) as (h & E1 & E2); [eapply (belongs_reserved V zero isneg); eauto|].
        exists h. split; [exact E1|]. rewrite E2. unfold npix.
        rewrite (proj2 (String.eqb_neq ext "psf") NE). reflexivity. }
    specialize (C ext). rewrite E0 in C. destruct C as (h & E1 & E2 & K).
    exists h. split; [exact E1|]. split; [congruence|]. intros y x [Hy Hxx] p.
    assert (SZ : npix ext = ncols a * ncols a) by (unfold npix; rewrite S2; destruct (String.eqb ext "psf"); ring).
    assert (N2 : nrows a = ncols a) by congruence. rewrite N2 in Hy.
    assert (Q : 0 <= y * ncols a + x < ncols a * ncols a).
    { assert (y * ncols a <= (ncols a - 1) * ncols a) by (apply Z.mul_le_mono_nonneg_r; lia).
      assert (0 * ncols a <= y * ncols a) by (apply Z.mul_le_mono_nonneg_r; lia). lia. }
    assert (Reg : in_region (r_i V E r) (npix ext) p).
    { unfold in_region, p. rewrite SZ. lia. }
    split; [|split; [exact Reg|]].
    + rewrite E2, D0. unfold in_region in Reg.
      assert ((r_i V E r + 1) * npix ext <= num * npix ext).
      { apply Z.mul_le_mono_nonneg_r; [rewrite SZ; lia|lia]. }
      assert (0 <= r_i V E r * npix ext) by (apply Z.mul_nonneg_nonneg; [lia|rewrite SZ; lia]). lia.
    + destruct (K p) as [K1 _]. rewrite (K1 r info a Hr Hd Hb Reg). cbn zeta.
      rewrite <- NP. unfold p. 
      replace (r_i V E r * npix ext + y * ncols a + x - r_i V E r * npix ext) with (x + y * ncols a) by lia.
      rewrite Z.div_add, Z.mod_add by lia. rewrite Z.div_small, Z.mod_small by lia. reflexivity.
  - intros ext h p Eh Hno. specialize (C ext).
    destruct (o_fits V E (init_out V zero E num box psf_box n_extra obj0) ext) as [h0|] eqn:E0.
    + destruct C as (h' & E1 & E2 & K). rewrite Eh in E1. injection E1 as <-.
      destruct (K p) as [_ K2]. rewrite K2 by exact Hno.
      unfold init_out in E0. cbn [o_fits] in E0. rewrite reserve_spec in E0.
      destruct (String.eqb ext PSF_EXT); [injection E0 as <-; reflexivity|].
      destruct (existsb _ _); [injection E0 as <-; reflexivity|discriminate].
    + rewrite C in Eh; [discriminate|]. intros r info a Hr Hd Hb.
      destruct (Hin r Hr) as [_ HW]. destruct (HW Hd) as [HNs _].
      destruct (String.eqb_spec ext PSF_EXT) as [->|NE].
      * destruct R2 as (hh & E1 & _). congruence.
      * destruct (R1 ext) as (hh & E1 & _); [eapply (belongs_reserved V zero isneg); eauto|congruence].
  - split.
    + intros r Hr Hd. cbn zeta. rewrite (G r Hr). unfold obj_after. unfold has_data in Hd.
      destruct (r_weights V E r); [congruence|]. cbn. repeat split; reflexivity.
    + intros r Hr Hd. cbn zeta. rewrite (G r Hr). unfold obj_after. unfold has_data in Hd.
      destruct (r_weights V E r); [|exfalso; apply Hd; discriminate]. cbn. repeat split; reflexivity.
Qed.

(** C34, for a whole run: each slice that was asked for has been computed with
    its own seed and is stored in its own place; the rest is as it was
    reserved. *)
Theorem C34_run_contents :
  forall (F : Type) (FO : FloatOps F) V E zero cast isneg box psf_box n_extra num nsrc seed obj0
    rng init randint work,
  0 <= n_extra -> 0 <= num -> labelled V E box psf_box n_extra num work ->
  forall arg h l o, forward arg -> valid_how h -> slices_of arg num = Ok l ->
  run_completes V E zero cast isneg box psf_box n_extra num nsrc seed obj0 rng init randint work arg h o ->
  let '(seeds, ss) := all_seeds rng init randint seed num nsrc n_extra in
  (forall i, In i l -> 0 <= i < num /\
     exists r, work ss (i, nth (Z.to_nat i) seeds 0) = Ok r /\ r_i V E r = i /\
               stored V E zero cast box psf_box obj0 o r) /\
  (forall ext k p, o_fits V E o ext = Some k ->
     (forall i, In i l -> ~ in_region i (if String.eqb ext "psf" then psf_box ^ 2 else box ^ 2) p) ->
     dat V k p = zero) /\
  (forall j, ~ In j l -> o_obj V E o j = obj0 j) /\
  length (o_epochs V E o) = length l.
Proof.
  intros F FO V E zero cast isneg box psf_box n_extra num nsrc seed obj0 rng init randint work Hx Hn Hlab
    arg h l o Hf Vh Hl (p & ss & M & C).
  destruct (plan_good n_extra num nsrc seed rng init randint Hn arg h l p ss Vh Hf Hl M) as (P & Ess & K & G).
  rewrite (surjective_pairing (all_seeds rng init randint seed num nsrc n_extra)). cbv zeta.
  rewrite <- Ess. clear Ess. set (seeds := fst (all_seeds rng init randint seed num nsrc n_extra)) in *.
  destruct (only_valid_slices arg num l Hn Hf Hl) as [Hin _].
  destruct (completes_results _ _ _ _ _ _ _ _ K C) as (items & rs & Q & R & W).
  assert (G' : good_items num items).
  { destruct G as [A B]. split; [apply (Permutation_NoDup (Permutation_map fst Q) A)|].
    intros i s I. apply (B i s). apply (Permutation_in _ (Permutation_sym Q)). exact I. }
  destruct (good_items_results V E box psf_box n_extra num (work ss) (Hlab ss) items rs G' R) as (EI & ND & WS).
  pose proof (proj1 (write_all_ok_iff V zero cast isneg E box psf_box n_extra num obj0 Hx (work ss) (Hlab ss)
                       items rs G' R) (ex_intro _ o W)) as OK.
  destruct (C34_contents F FO V E zero cast isneg box psf_box n_extra num obj0 rs Hx ND WS) as (o' & A & B1 & B2 & B3 & B4 & B5 & B6).
  { intros r Hr Hd. apply bad_values_spec. apply OK; assumption. }
  rewrite process_all_write_all in A.
  change (write_all _ _ (proc V cast isneg E box psf_box) (out0 V zero E box psf_box n_extra num obj0) rs = Ok o') in A.
  assert (o' = o) as -> by (unfold out0, proc in A; congruence).
  assert (PI : Permutation (map fst items) l).
  { apply Permutation_trans with (map fst (plan_items p)); [apply Permutation_map, Permutation_sym, Q|].
    rewrite P, map_map. cbn [fst]. rewrite map_id. apply Permutation_sym, (proj1 Vh). }
  assert (RI : forall r, In r rs -> In (r_i V E r) l).
  { intros r Hr. apply (Permutation_in _ PI). rewrite <- EI. apply in_map. exact Hr. }
  split; [|split; [|split]].
  - intros i Hi. split; [apply Hin; exact Hi|].
    assert (I : In (i, nth (Z.to_nat i) seeds 0) items).
    { apply (Permutation_in _ Q). rewrite P. apply in_map_iff. exists i. split; [reflexivity|].
      apply (Permutation_in _ (proj1 Vh l)). exact Hi. }
    assert (exists r, In r rs /\ work ss (i, nth (Z.to_nat i) seeds 0) = Ok r) as (r & Hr & Ew).
    { clear - R I. induction R as [|a b la lb Hab R IH]; [destruct I|]. destruct I as [->|I].
      - exists b. split; [left; reflexivity|exact Hab].
      - destruct (IH I) as (r & H1 & H2). exists r. split; [right; exact H1|exact H2]. }
    exists r. split; [exact Ew|]. split; [exact (proj1 (Hlab ss i _ r (Hin i Hi) Ew))|].
    split; [rewrite B3; apply in_map; exact Hr|]. split.
    + intros Hd. split; [|exact (B5 r Hr Hd)]. intros ext info a Hb.
      destruct (B1 r ext info a Hr Hd Hb) as (k & E1 & _ & E2). exists k. split; [exact E1|].
      intros y x Hyx. exact (proj2 (proj2 (E2 y x Hyx))).
    + intros Hd. split; [|exact (B6 r Hr Hd)]. intros ext k q Hk Hq. apply (B2 ext k q Hk).
      intros r' info a Hr' Hd' _ Hq'. apply in_region_disjoint with (1 := Hq) in Hq'.
      assert (r' = r); [|subst r'; contradiction].
      clear - ND Hr Hr' Hq'. induction rs as [|x t IH]; [destruct Hr|]. cbn [map] in ND.
      apply NoDup_cons_iff in ND. destruct ND as [N1 N2].
      destruct Hr as [->|Hr], Hr' as [->|Hr']; auto.
      * exfalso. apply N1. rewrite Hq'. apply in_map. exact Hr'.
      * exfalso. apply N1. rewrite <- Hq'. apply in_map. exact Hr.
  - intros ext k q Hk Hno. apply (B2 ext k q Hk). intros r info a Hr _ _. apply Hno. apply RI. exact Hr.
  - intros j Hj. apply B4. intros r Hr <-. apply Hj. apply RI. exact Hr.
  - rewrite B3, map_length, <- (Permutation_length PI), <- EI, map_length. reflexivity.
Qed.

(** The extensions of the file. *)
Theorem C34_extensions :
  forall (F : Type) V E zero box psf_box n_extra num (obj0 : Z -> @obj F) ext,
  o_fits V E (init_out V zero E num box psf_box n_extra obj0) ext <> None <->
  In ext ["image_cutouts"; "weight_cutouts"; "seg_cutouts"; "bmask_cutouts"; "ormask_cutouts";
          "noise_cutouts"; "mfrac_cutouts"; "psf"]%string \/
  exists k, 1 <= k <= n_extra /\ ext = ("noise" ++ dec k ++ "_cutouts")%string.
Proof.
  intros F V E zero box psf_box n_extra num obj0 ext. unfold init_out. cbn [o_fits]. rewrite reserve_spec.
  destruct (String.eqb_spec ext PSF_EXT) as [->|N].
  { split; [intros _; left; cbn; tauto|discriminate]. }
  assert (Q : In ext (reserve_names n_extra) <->
    In ext ["image_cutouts"; "weight_cutouts"; "seg_cutouts"; "bmask_cutouts"; "ormask_cutouts";
            "noise_cutouts"; "mfrac_cutouts"; "psf"]%string \/
    exists k, 1 <= k <= n_extra /\ ext = ("noise" ++ dec k ++ "_cutouts")%string).
  { unfold reserve_names. rewrite in_app_iff, in_map_iff. split.
    - intros [H|(k & <- & Hk)]; [left; cbn in *; tauto|].
      right. apply In_zrange in Hk. exists (k + 1). split; [lia|reflexivity].
    - intros [H|(k & Hk & ->)].
      + left. cbn in H. cbn. repeat (destruct H as [H|H]; [auto 10|]). 
        destruct H.
      + right. exists (k - 1). split; [unfold noise_ext; repeat f_equal; lia|apply In_zrange; lia]. }
  destruct (existsb (String.eqb ext) (reserve_names n_extra)) eqn:X.
  - apply existsb_In in X. split; [intros _; apply Q; exact X|discriminate].
  - split; [congruence|]. intros H. apply Q in H. apply existsb_In in H. congruence.
Qed.

(** ** C35: negative weights *)

Theorem C35_negative_raises :
  forall V cast isneg (f : fits V) (a : img V) ext start info,
  (ext = "weight_cutouts" \/ ext = "mfrac_cutouts")%string ->
  (exists y x, inb a y x /\
     isneg (cast (match info with None => ext | Some e => e end) (px a y x)) = true) ->
  write_single_image V cast isneg f a ext start info = Raise RuntimeError.
Proof.
  intros V cast isneg f a ext start info He (y & x & Hi & Hn). unfold write_single_image. cbn zeta.
  assert (np_any (imap isneg (imap (cast (match info with None => ext | Some e => e end)) a)) = true) as ->.
  { apply np_any_spec. exists y, x. split; [exact Hi|exact Hn]. }
  destruct He as [-> | ->]; reflexivity.
Qed.

(** Otherwise exactly the data is written. *)
Theorem C35_otherwise_exact :
  forall V cast isneg (f : fits V) (a : img V) ext start info h,
  ((ext = "weight_cutouts" \/ ext = "mfrac_cutouts")%string -> forall y x, inb a y x ->
     isneg (cast (match info with None => ext | Some e => e end) (px a y x)) = false) ->
  f ext = Some h -> 0 <= start -> start + nrows a * ncols a <= dim V h ->
  exists f' h', write_single_image V cast isneg f a ext start info = Ok f' /\
    f' ext = Some h' /\ dim V h' = dim V h /\
    (forall y x, inb a y x -> dat V h' (start + y * ncols a + x) =
       cast (match info with None => ext | Some e => e end) (px a y x)) /\
    (forall p, ~ (start <= p < start + nrows a * ncols a) -> dat V h' p = dat V h p) /\
    (forall e, e <> ext -> f' e = f e).
Proof.
  intros V cast isneg f a ext start info h Hneg Hf H1 H2. unfold write_single_image. cbn zeta.
  set (inf := match info with None => ext | Some e => e end) in *.
  assert (((String.eqb ext MFRAC_EXT || String.eqb ext WEIGHT_EXT) &&
            np_any (imap isneg (imap (cast inf) a))) = false) as ->.
  { destruct (String.eqb_spec ext MFRAC_EXT) as [E1|E1]; [|destruct (String.eqb_spec ext WEIGHT_EXT) as [E2|E2]];
      cbn [orb andb]; auto.
    - destruct (np_any _) eqn:X; auto. apply np_any_spec in X. destruct X as (y & x & Hi & Hn).
      cbn in Hn. rewrite (Hneg (or_intror E1) y x Hi) in Hn. discriminate.
    - destruct (np_any _) eqn:X; auto. apply np_any_spec in X. destruct X as (y & x & Hi & Hn).
      cbn in Hn. rewrite (Hneg (or_introl E2) y x Hi) in Hn. discriminate. }
  rewrite Hf. unfold hdu_write. cbn [nrows ncols imap px].
  destruct (Z.ltb_spec start 0); [lia|]. destruct (Z.ltb_spec (dim V h) (start + nrows a * ncols a)); [lia|].
  cbn [orb bind]. eexists. eexists. split; [reflexivity|]. split; [apply set_hdu_same|].
  cbn [dim dat]. split; [reflexivity|]. split; [|split].
  - intros y x [Hy Hx].
    assert (y * ncols a <= (nrows a - 1) * ncols a) by (apply Z.mul_le_mono_nonneg_r; lia).
    assert (0 * ncols a <= y * ncols a) by (apply Z.mul_le_mono_nonneg_r; lia).
    replace ((start <=? start + y * ncols a + x) && (start + y * ncols a + x <? start + nrows a * ncols a))
      with true by (symmetry; apply andb_true_intro; split; [apply Z.leb_le; lia|apply Z.ltb_lt; lia]).
    replace (start + y * ncols a + x - start) with (x + y * ncols a) by lia.
    rewrite Z.div_add, Z.mod_add by lia. rewrite Z.div_small, Z.mod_small by lia. reflexivity.
  - intros p Hp. destruct (Z.leb_spec start p); cbn [andb]; [|reflexivity].
    destruct (Z.ltb_spec p (start + nrows a * ncols a)); [exfalso; apply Hp; lia|reflexivity].
  - intros e He. apply set_hdu_other. congruence.
Qed.

(** A file that was created by the reservation and changed by any sequence of
    calls, in any order and with any arguments, never has a negative entry in
    the weight or masked-fraction extensions. *)
Inductive writes (V : Type) (cast : string -> V -> V) (isneg : V -> bool) : fits V -> fits V -> Prop :=
| writes_nil : forall f, writes V cast isneg f f
| writes_snoc : forall f g h a ext start info, writes V cast isneg f g -> wf a ->
    write_single_image V cast isneg g a ext start info = Ok h -> writes V cast isneg f h.

Theorem C35_never_negative :
  forall V zero cast isneg n_pixels n_pixels_psf n_extra f ext h p,
  isneg zero = false ->
  writes V cast isneg (reserve_images V zero (fun _ => None) n_pixels n_pixels_psf n_extra) f ->
  (ext = "weight_cutouts" \/ ext = "mfrac_cutouts")%string -> f ext = Some h ->
  0 <= p < dim V h -> isneg (dat V h p) = false.
Proof.
  intros V zero cast isneg np nps n_extra f ext h p Hz HW He. revert ext h p He.
  remember (reserve_images V zero (fun _ => None) np nps n_extra) as f0 eqn:E0.
  induction HW as [f|f g g' a ext0 start info HW IH [Wr Wc] HS]; intros ext h p He Hf Hp.
  - subst f. rewrite reserve_spec in Hf. destruct (String.eqb ext PSF_EXT); [injection Hf as <-; exact Hz|].
    destruct (existsb _ _); [injection Hf as <-; exact Hz|discriminate].
  - unfold write_single_image in HS. cbn zeta in HS.
    set (inf := match info with None => ext0 | Some e => e end) in *.
    destruct ((String.eqb ext0 MFRAC_EXT || String.eqb ext0 WEIGHT_EXT) &&
              np_any (imap isneg (imap (cast inf) a))) eqn:B; [discriminate|].
    destruct (g ext0) as [h0|] eqn:G; [|discriminate].
    unfold hdu_write in HS. cbn [nrows ncols imap px] in HS.
    destruct ((start <? 0) || (dim V h0 <? start + nrows a * ncols a)) eqn:OB; [discriminate|].
    cbn [bind] in HS. injection HS as <-.
    apply orb_false_elim in OB. destruct OB as [O1 O2]. apply Z.ltb_ge in O1, O2.
    destruct (string_dec ext0 ext) as [->|NE].
    2: { rewrite set_hdu_other in Hf by exact NE. apply (IH E0 ext h p); auto. }
    rewrite set_hdu_same in Hf. injection Hf as <-. cbn [dim dat] in *.
    destruct (Z.leb_spec start p) as [L1|L1]; cbn [andb]; [destruct (Z.ltb_spec p (start + nrows a * ncols a)) as [L2|L2]|].
    + assert (X : (String.eqb ext MFRAC_EXT || String.eqb ext WEIGHT_EXT) = true)
        by (destruct He as [-> | ->]; reflexivity).
      rewrite X in B. cbn [andb] in B. 
      destruct (isneg (cast inf (px a ((p - start) / ncols a) ((p - start) mod ncols a)))) eqn:N; [|reflexivity].
      exfalso. assert (np_any (imap isneg (imap (cast inf) a)) = true); [|congruence].
      assert (Hc : 0 < ncols a) by nia.
      apply np_any_spec. exists ((p - start) / ncols a), ((p - start) mod ncols a). split; [|exact N].
      pose proof (Z.mod_pos_bound (p - start) (ncols a) Hc).
      assert (0 <= (p - start) / ncols a) by (apply Z.div_pos; lia).
      assert ((p - start) / ncols a < nrows a) by (apply Z.div_lt_upper_bound; lia).
      split; cbn [nrows ncols imap]; lia.
    + apply (IH E0 ext h0 p); auto.
    + apply (IH E0 ext h0 p); auto.
Qed.

(** ** A concrete run *)

(** Three slices of 2x2 pixels, the second one without data; the pixels are
    made from the index and the seed of the slice. *)
Section ConcreteRun.
Let sq (n v : Z) : img Z := mkimg n n (fun y x => v + 10 * y + x).
Definition demo_work (ss : list src_seeds) (it : Z * Z) : result (@results f64 Z Z) :=
  let '(i, s) := it in
  Ok (mk_results Z Z i (1000 + i) (if i =? 1 then [] else [fone]) (sq 2 (100 * i + s)) (sq 2 1) (sq 2 2)
        [sq 2 3; sq 2 4] (sq 2 5) (sq 2 0) (sq 1 7) fone).

Definition demo_obj0 : Z -> @obj f64 := fun _ => mk_obj 0 0 fzero fzero 0 0.

Definition demo_completes := run_completes Z Z 0 (fun _ v => v) (fun v => v <? 0) 2 1 1 3 2 50 demo_obj0
  Z (fun s => s) (fun g _ _ => (g, g + 1)) demo_work.

Lemma demo_labelled : labelled Z Z 2 1 1 3 demo_work.
Proof.
  intros ss i s r Hi H. unfold demo_work in H. injection H as <-. split; [reflexivity|].
  intros _. split; [reflexivity|]. intros ext info a B. inversion B; subst; try (split; reflexivity).
  - cbn in H. injection H as <-. split; reflexivity.
  - cbn in H0. destruct k as [|[|k]]; cbn in H0; try lia; [|destruct k; discriminate].
    injection H0 as <-. split; reflexivity.
Qed.

Definition serial_how : how := mk_how (fun l => l) 1 None 1.
Definition parallel_how : how := mk_how (@rev Z) 2 (Some 3) 5.

Lemma serial_valid : valid_how serial_how.
Proof. repeat split; cbn; intros; lia || auto. Qed.
Lemma parallel_valid : valid_how parallel_how.
Proof. repeat split; cbn; intros; try lia. apply Permutation_rev. Qed.

Example demo_serial : exists o h, demo_completes SNone serial_how o /\
  o_fits Z Z o "image_cutouts" = Some h /\
  map (dat Z h) (zrange 0 12) = [50; 51; 60; 61; 0; 0; 0; 0; 252; 253; 262; 263] /\
  o_epochs Z Z o = [1000; 1001; 1002] /\ map (fun i => o_nepoch (o_obj Z Z o i)) [0; 1; 2] = [1; 0; 1] /\
  o_start_row (o_obj Z Z o 2) = 8.
Proof.
  eexists. eexists. split; [exists (Serial [(0, 50); (1, 51); (2, 52)]); eexists; split; [reflexivity|];
    constructor; reflexivity|]. split; [reflexivity|]. split; [reflexivity|]. split; [reflexivity|].
  split; reflexivity.
Qed.

Example demo_parallel : exists o1 o2, demo_completes SNone serial_how o1 /\
  demo_completes SNone parallel_how o2 /\ same_output Z Z o1 o2.
Proof.
  destruct demo_serial as (o1 & h & C & _).
  destruct (C31_all_complete f64 F64Ops Z Z 0 (fun _ v => v) (fun v => v <? 0) 2 1 1 3 2 50 demo_obj0
    Z (fun s => s) (fun g _ _ => (g, g + 1)) demo_work ltac:(lia) ltac:(lia) demo_labelled
    SNone serial_how parallel_how o1 I serial_valid parallel_valid C) as (o2 & C2 & S).
  exists o1, o2. auto.
Qed.

(** Part of the slices: the third slice is as in the full run. *)
Example demo_part : exists o h, demo_completes (SStr "2:3") serial_how o /\
  o_fits Z Z o "image_cutouts" = Some h /\
  map (dat Z h) (zrange 0 12) = [0; 0; 0; 0; 0; 0; 0; 0; 252; 253; 262; 263].
Proof.
  eexists. eexists. split; [exists (Serial [(2, 52)]); eexists; split; [reflexivity|];
    constructor; reflexivity|]. split; reflexivity.
Qed.

(** A negative weight. *)
Example demo_negative :
  write_single_image Z (fun _ v => v) (fun v => v <? 0)
    (reserve_images Z 0 (fun _ => None) 8 2 0) (of_rows 0 [[1; 2]; [3; -1]]) "weight_cutouts" 4 None
  = Raise RuntimeError /\
  exists f h, write_single_image Z (fun _ v => v) (fun v => v <? 0)
    (reserve_images Z 0 (fun _ => None) 8 2 0) (of_rows 0 [[1; 2]; [3; 0]]) "weight_cutouts" 4 None = Ok f /\
    f "weight_cutouts"%string = Some h /\ map (dat Z h) (zrange 0 8) = [0; 0; 0; 0; 1; 2; 3; 0].
Proof. split; [reflexivity|]. eexists. eexists. repeat split; reflexivity. Qed.
End ConcreteRun.

Print Assumptions C31_same_output.
Print Assumptions C31_same_outcome.
Print Assumptions C31_all_complete.
Print Assumptions C32_no_deadlock.
Print Assumptions C32_bounded.
Print Assumptions C32_ends.
Print Assumptions C32_failures_are_reported.
Print Assumptions C32_applies_to_runs.
Print Assumptions C32_negative_n_chunks_hangs.
Print Assumptions C32_killed_worker_can_hang.
Print Assumptions C33_same_results.
Print Assumptions C34_regions_disjoint.
Print Assumptions C34_contents.
Print Assumptions C34_run_contents.
Print Assumptions C34_extensions.
Print Assumptions C35_negative_raises.
Print Assumptions C35_otherwise_exact.
Print Assumptions C35_never_negative.
