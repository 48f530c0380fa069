(** C25-C28: staging of output and input files. *)
From Coq Require Import List Bool String.
From Verif Require Import Lib.Base Model.Files Spec.FilesSpec Proofs.FilesProofs.
Import ListNotations.

(** ** C25: staging out never loses new data *)

(** Whatever the object has been used for before, at every crash point of
    stage_out the data is complete at the temporary or at the final path. *)
Theorem C25_no_loss_at_any_crash_point :
  forall (C : Type) fname tmpdir must_exist st,
  so_reach C fname tmpdir must_exist st ->
  forall (s : fsys C) dev ops r c s',
    stage_out s dev st = (ops, r) -> file s (so_path st) = Some c ->
    crash_state s ops s' ->
    file s' (so_path st) = Some c \/ file s' fname = Some c.
Proof. intros C. exact stage_out_no_loss. Qed.

(** When nothing has been staged out before and there is a file, the call
    succeeds, the data is at the final path, and nowhere else. *)
Theorem C25_arrives :
  forall (C : Type) fname tmpdir must_exist st,
  so_reach C fname tmpdir must_exist st -> so_was_staged_out st = false ->
  forall (s : fsys C) dev c, file s (so_path st) = Some c ->
  exists ops st', stage_out s dev st = (ops, Ok st') /\
    so_was_staged_out st' = true /\
    file (run s ops) fname = Some c /\
    (so_path st <> fname -> file (run s ops) (so_path st) = None).
Proof. intros C. exact stage_out_arrives. Qed.

(** No other file is changed, at any crash point. *)
Theorem C25_nothing_else :
  forall (C : Type) fname tmpdir must_exist st,
  so_reach C fname tmpdir must_exist st ->
  forall (s : fsys C) dev ops r s' q,
    stage_out s dev st = (ops, r) -> crash_state s ops s' ->
    q <> so_path st -> q <> fname -> file s' q = file s q.
Proof. intros C. exact stage_out_frame. Qed.

(** Where the user is told to write: the final path without a tmpdir, the same
    base name in the tmpdir otherwise; creating the object changes no file. *)
Theorem C25_paths :
  forall (C : Type) (s : fsys C) fname tmpdir must_exist ops st,
  so_init s fname tmpdir must_exist = (ops, st) ->
  so_path st = match tmpdir with None => fname | Some d => in_dir d fname end /\
  so_was_staged_out st = false /\ file (run s ops) = file s /\
  (forall d, tmpdir = Some d -> isdir (run s ops) d = true).
Proof.
  intros C s fname tmpdir must ops st H.
  destruct (so_init_inv _ _ _ _ _ _ H) as (_ & _ & A & B & _). repeat split; auto.
  - exact (so_init_file _ _ _ _ _ _ H).
  - intros d ->. unfold so_init in H. destruct (isdir s d) eqn:E; inversion H; subst; cbn.
    + exact E.
    + now rewrite String.eqb_refl.
Qed.

(** ** C26: idempotent, not atomic *)

Theorem C26_done_forever :
  forall (C : Type) (st st' : staged_out),
  so_was_staged_out st = true -> so_later C st st' ->
  so_was_staged_out st' = true /\
  forall (s : fsys C) dev, stage_out s dev st' = ([], Ok st').
Proof. intros C. exact stage_out_done_forever. Qed.

Theorem C26_missing_file :
  forall (C : Type) fname d must_exist st,
  so_reach C fname (Some d) must_exist st -> d <> fst fname -> so_was_staged_out st = false ->
  forall (s : fsys C) dev, file s (in_dir d fname) = None ->
  stage_out s dev st = ([], if must_exist then Raise IOError else Ok st).
Proof. intros C. exact stage_out_missing. Qed.

(** Finding: an old final file is always gone for a while. *)
Theorem C26_not_atomic :
  forall (C : Type) fname d must_exist st,
  so_reach C fname (Some d) must_exist st -> d <> fst fname -> so_was_staged_out st = false ->
  forall (s : fsys C) dev old c,
    file s fname = Some old -> file s (in_dir d fname) = Some c ->
  exists ops st' s', stage_out s dev st = (ops, Ok st') /\ crash_state s ops s' /\
    file s' fname = None.
Proof. intros C. exact stage_out_gap. Qed.

(** Finding: between devices, every incomplete state of the copy is visible
    under the final name. *)
Theorem C26_incomplete_visible :
  forall (C : Type) fname d must_exist st,
  so_reach C fname (Some d) must_exist st -> d <> fst fname -> so_was_staged_out st = false ->
  forall (s : fsys C) partial c x, In x partial -> file s (in_dir d fname) = Some c ->
  exists ops st' s', stage_out s (OtherDevice partial) st = (ops, Ok st') /\
    crash_state s ops s' /\ file s' fname = Some x.
Proof. intros C. exact stage_out_incomplete. Qed.

(** ** C27: staging in *)

Theorem C27_original_never_changed :
  forall (C : Type) fname tmpdir st, si_reach C fname tmpdir st ->
  (forall (s : fsys C) partial ops r s',
     stage_in s partial st = (ops, r) -> crash_state s ops s' ->
     file s' fname = file s fname /\
     forall q, q <> si_path st -> file s' q = file s q) /\
  (forall (s : fsys C) ops st' s',
     cleanup s st = (ops, st') -> crash_state s ops s' ->
     file s' fname = file s fname /\
     forall q, q <> si_path st -> file s' q = file s q).
Proof.
  intros C fname tmpdir st HR. split.
  - intros s partial ops r s' H Hs. split; [|intros q Hq];
      eapply (stage_in_frame _ _ _ HR _ _ _ _ _ _ H Hs); auto.
  - intros s ops st' s' H Hs. split; [|intros q Hq];
      eapply (cleanup_frame _ _ _ HR _ _ _ _ _ H Hs); auto.
Qed.

Theorem C27_copy_is_complete :
  forall (C : Type) fname tmpdir st, si_reach C fname tmpdir st ->
  forall (s : fsys C) partial c, file s fname = Some c ->
  exists ops st', stage_in s partial st = (ops, Ok st') /\
    file (run s ops) (si_path st') = Some c /\ si_path st' = si_path st /\
    (si_path st <> fname -> si_was_staged_in st' = true).
Proof. intros C. exact stage_in_copies. Qed.

Theorem C27_missing_original :
  forall (C : Type) fname d st, si_reach C fname (Some d) st -> d <> fst fname ->
  forall (s : fsys C) partial, file s fname = None ->
  stage_in s partial st = ([], Raise IOError).
Proof. intros C. exact stage_in_missing. Qed.

Theorem C27_cleanup :
  forall (C : Type) fname tmpdir st, si_reach C fname tmpdir st ->
  si_was_staged_in st = true ->
  forall (s : fsys C) c, file s (si_path st) = Some c ->
  exists ops st', cleanup s st = (ops, st') /\ file (run s ops) (si_path st) = None /\
    forall s2 : fsys C, cleanup s2 st' = ([], st').
Proof.
  intros C fname tmpdir st HR HW s c Hc.
  destruct (cleanup_removes _ _ _ HR HW s c Hc) as (ops & st' & A & B & D).
  exists ops, st'. repeat split; auto. intro. apply cleanup_idle. exact D.
Qed.

(** Without a temporary directory, or when it is the directory of the file,
    nothing is ever copied or removed. *)
Theorem C27_no_staging :
  forall (C : Type) fname tmpdir st, si_reach C fname tmpdir st ->
  match tmpdir with None => True | Some d => d = fst fname end ->
  si_path st = fname /\
  (forall (s : fsys C) partial, stage_in s partial st = ([], Ok st)) /\
  (forall s : fsys C, cleanup s st = ([], st)).
Proof. intros C. exact si_no_staging. Qed.

(** Finding: a file somebody else put at the temporary path is removed, by
    stage_in and, if the copy has gone in between, by cleanup. *)
Theorem C27_other_file_removed_refuted :
  exists (st st' : staged_in) (s1 s2 : fsys string) ops1 ops2,
    si_reach string ("in", "x.fits")%string (Some "tmp"%string) st /\
    stage_in s1 [] st = (ops1, Ok st') /\
    file s1 ("tmp", "x.fits")%string = Some "theirs"%string /\
    file (run s1 ops1) ("tmp", "x.fits")%string = Some "data"%string /\
    file s2 ("tmp", "x.fits")%string = Some "theirs"%string /\
    cleanup s2 st' = (ops2, mk_si (si_original st') (si_path st') true false) /\
    file (run s2 ops2) ("tmp", "x.fits")%string = None.
Proof.
  exists (si_set_paths ("in", "x.fits")%string (Some "tmp"%string)).
  eexists.
  exists (mk_fsys (fun p => if path_eqb p ("in", "x.fits")%string then Some "data"%string
                            else Some "theirs"%string) (fun _ => true)).
  exists (mk_fsys (fun p => Some "theirs"%string) (fun _ => true)).
  eexists. eexists. split; [constructor|].
  split; [reflexivity|]. repeat split; reflexivity.
Qed.

(** ** C28: the output of a run *)

(** Without a tmpdir (or with the tmpdir being the output directory): a
    normal return means that the output is what this run's fpack wrote, and
    that it has been validated. *)
Theorem C28_own_output :
  forall (C : Type) (s : fsys C) w meds_path tmpdir remove_fits s',
  match tmpdir with None => True | Some d => d = fst meds_path end ->
  make_slices_files s w meds_path tmpdir remove_fits = (s', Ok tt) ->
  exists c, w_fpack_out w = Some c /\ w_valid w c = true /\ file s' (add_fz meds_path) = Some c.
Proof.
  intros C s w meds_path tmpdir remove_fits s' Hd H.
  destruct (w_fits w) as [c0|e] eqn:Hw.
  2: { pose proof (make_slices_files_raise _ _ _ _ _ _ _ _ H Hw). discriminate. }
  destruct (make_slices_files_spec _ _ _ _ _ _ _ _ H Hw) as [A B].
  assert (T : match tmpdir with Some d => negb (d =? fst meds_path)%string | None => false end = false).
  { destruct tmpdir as [d|]; auto. subst d. now rewrite String.eqb_refl. }
  rewrite T in A, B. destruct (w_fpack_out w) as [c|]; [|discriminate].
  exists c. destruct (w_valid w c); [auto|discriminate].
Qed.

(** Exactly what a run without an exception does, in all cases. *)
Theorem C28_outcome :
  forall (C : Type) (s : fsys C) w meds_path tmpdir remove_fits s' r c0,
  make_slices_files s w meds_path tmpdir remove_fits = (s', r) ->
  w_fits w = Ok c0 ->
  let temp := match tmpdir with Some d => negb (d =? fst meds_path)%string | None => false end in
  let final :=
    match w_fpack_out w with
    | Some c => Some c
    | None => if temp then file s (add_fz meds_path) else None
    end in
  file s' (add_fz meds_path) = final /\
  r = match final with
      | Some c => if w_valid w c then Ok tt else Raise OtherError
      | None => Raise IOError
      end.
Proof. intros C. exact make_slices_files_spec. Qed.

(** The uncompressed file is kept unless fpack succeeded and removal is on. *)
Theorem C28_uncompressed_file :
  forall (C : Type) (s : fsys C) w meds_path tmpdir remove_fits s' r c0,
  make_slices_files s w meds_path tmpdir remove_fits = (s', r) ->
  w_fits w = Ok c0 ->
  file s' (match tmpdir with Some d => in_dir d meds_path | None => meds_path end) =
  if w_fpack_ok w && remove_fits then None else Some c0.
Proof. intros C. exact make_slices_files_fits. Qed.

(** An exception while writing is never turned into a normal return. *)
Theorem C28_exception_propagates :
  forall (C : Type) (s : fsys C) w meds_path tmpdir remove_fits s' r e,
  make_slices_files s w meds_path tmpdir remove_fits = (s', r) -> w_fits w = Raise e ->
  r = Raise e.
Proof. intros C. exact make_slices_files_raise. Qed.

(** Finding: with a tmpdir, a failing fpack leaves the output of an earlier
    run in place, and the run returns normally. *)
Theorem C28_stale_output_refuted :
  forall (C : Type) (s : fsys C) w meds_path d remove_fits c0 old,
  d <> fst meds_path -> w_fits w = Ok c0 ->
  w_fpack_out w = None -> file s (add_fz meds_path) = Some old -> w_valid w old = true ->
  exists s', make_slices_files s w meds_path (Some d) remove_fits = (s', Ok tt) /\
             file s' (add_fz meds_path) = Some old.
Proof.
  intros C s w meds_path d remove_fits c0 old Hd Hw Hf Ho Hv.
  destruct (make_slices_files s w meds_path (Some d) remove_fits) as [s' r] eqn:E.
  destruct (make_slices_files_spec _ _ _ _ _ _ _ _ E Hw) as [A B].
  rewrite Hf in A, B. destruct (String.eqb_spec d (fst meds_path)); [contradiction|].
  cbn [negb] in A, B. rewrite Ho in A, B. rewrite Hv in B. subst r. exists s'. auto.
Qed.

(** ** The hypotheses are met *)

Definition demo_fs : fsys string :=
  mk_fsys (fun p => if path_eqb p ("tmp", "x.fits.fz")%string then Some "new"%string
                    else if path_eqb p ("out", "x.fits.fz")%string then Some "old"%string
                    else None) (fun d => String.eqb d "out").

Definition demo_so : staged_out :=
  snd (so_init demo_fs ("out", "x.fits.fz")%string (Some "tmp"%string) false).

Example C25_C26_not_vacuous :
  so_reach string ("out", "x.fits.fz")%string (Some "tmp"%string) false demo_so /\
  so_was_staged_out demo_so = false /\ "tmp"%string <> "out"%string /\
  file demo_fs (so_path demo_so) = Some "new"%string /\
  file demo_fs (so_final demo_so) = Some "old"%string /\
  stage_out demo_fs (OtherDevice ["n"; "ne"]%string) demo_so =
    ([Remove ("out", "x.fits.fz"); Put ("out", "x.fits.fz") "n"; Put ("out", "x.fits.fz") "ne";
      Put ("out", "x.fits.fz") "new"; Remove ("tmp", "x.fits.fz")]%string,
     Ok (staged demo_so)).
Proof.
  split. { eapply so_reach_init with (s := demo_fs). unfold demo_so. reflexivity. }
  repeat split; try reflexivity. discriminate.
Qed.

Example C27_not_vacuous :
  exists st ops, stage_in demo_fs [] (si_set_paths ("out", "x.fits.fz")%string (Some "t2"%string))
                 = (ops, Ok st) /\ si_was_staged_in st = true /\
    file (run demo_fs ops) ("t2", "x.fits.fz")%string = Some "old"%string.
Proof. eexists. eexists. repeat split; reflexivity. Qed.

Example C28_not_vacuous :
  let w := mk_world (Ok "fits"%string) None true (Some "fz"%string) (fun _ => true) SameDevice in
  exists s', make_slices_files demo_fs w ("out", "x.fits")%string None true = (s', Ok tt) /\
    file s' ("out", "x.fits.fz")%string = Some "fz"%string /\
    file s' ("out", "x.fits")%string = None.
Proof. eexists. repeat split; reflexivity. Qed.

Print Assumptions C25_no_loss_at_any_crash_point.
Print Assumptions C25_arrives.
Print Assumptions C25_nothing_else.
Print Assumptions C26_done_forever.
Print Assumptions C26_missing_file.
Print Assumptions C26_not_atomic.
Print Assumptions C26_incomplete_visible.
Print Assumptions C27_original_never_changed.
Print Assumptions C27_copy_is_complete.
Print Assumptions C27_cleanup.
Print Assumptions C27_no_staging.
Print Assumptions C28_own_output.
Print Assumptions C28_outcome.
Print Assumptions C28_uncompressed_file.
Print Assumptions C28_stale_output_refuted.
