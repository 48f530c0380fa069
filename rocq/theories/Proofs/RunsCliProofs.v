(** Proofs about runs of the command line tool on ranges of one tile. *)
From Coq Require Import ZArith List Bool Arith Lia String Ascii.
From Verif Require Import Lib.Base Lib.PyStr Lib.PyText Model.Cli Model.Files Model.Runs Spec.DesInfoSpec Spec.CliSpec
  Spec.RunsSpec Spec.RunsCliSpec Proofs.PyStrProofs Proofs.DesInfoProofs Proofs.CliProofs Proofs.RunsProofs.
Import ListNotations.
Open Scope string_scope.

Lemma free_app c a b : free_of c a -> free_of c b -> free_of c (a ++ b).
Proof. intros Ha Hb. apply free_iff. rewrite all_chars_app. apply free_iff in Ha, Hb. now rewrite Ha, Hb. Qed.

Lemma path_join_prefix out N : N <> "" -> exists X, forall R, path_join out (N ++ R) = X ++ R.
Proof.
  intros HN. destruct N as [|c N]; [congruence|]. unfold path_join. destruct out as [|o out].
  - exists (String c N). reflexivity.
  - assert (E : forall R, startswith "/" (String c N ++ R) = startswith "/" (String c N)).
    { intros R. cbn. destruct (N ++ R), N; reflexivity. }
    destruct (startswith "/" (String c N)) eqn:Es.
    + exists (String c N). intros R. now rewrite E.
    + destruct (endswith "/" (String o out)).
      * exists (String o out ++ String c N). intros R. rewrite E. now rewrite append_assoc.
      * exists (String o out ++ String "/" (String c N)). intros R. rewrite E. now rewrite <- append_assoc.
Qed.

Lemma file_name_app X R b : free_of "/" R -> file_name (X ++ R) b -> b = basename X ++ R.
Proof.
  intros HR Hb. apply basename_file in Hb. rewrite Hb. symmetry. apply basename_file.
  assert (H : file_name X (basename X)) by now apply basename_file. destruct H as [Hf H]. split; [now apply free_app|].
  destruct H as [H|[d H]].
  - left. rewrite H at 1. reflexivity.
  - right. exists d. rewrite H at 1. rewrite <- !append_assoc. reflexivity.
Qed.

Lemma pad_free w z : free_of "/" (dec_pad w z).
Proof.
  destruct (pad_shape w z) as (d & H & _ & _ & ->). apply (digits_free d "/"%char eq_refl) in H.
  destruct (z <? 0)%Z; [|exact H]. now apply (free_app "/" "-" d); [apply free_iff|].
Qed.

Lemma range_end_free r rend : range_end r = Ok rend -> free_of "/" rend.
Proof.
  intros H. apply range_end_ok in H. destruct r as [s|].
  - destruct H as (a & b & _ & ->). repeat apply free_app; try apply pad_free; now apply free_iff.
  - subst. now apply free_iff.
Qed.

(** The base name for a range: a part that is the same for all, the range and the extension. *)
Lemma range_name out config tag tile band : directory out ->
  exists Y, forall r p b, meds_path out config tag r tile band = Ok p -> file_name p b ->
    exists rend, range_end r = Ok rend /\ b = Y ++ rend ++ ".fits".
Proof.
  intros Hd. set (N := tile ++ "_" ++ band ++ "_" ++ config_name config tag ++ "_meds-pizza-slices").
  assert (HN : N <> "") by (unfold N; destruct tile; discriminate).
  destruct (path_join_prefix out N HN) as [X HX]. exists (basename X). intros r p b Hp Hb.
  apply (meds_path_dir _ _ _ _ _ _ _ Hd) in Hp as (rend & Hr & ->). exists rend. split; [exact Hr|].
  apply file_name_app; [apply free_app; [now apply (range_end_free r)|now apply free_iff]|].
  rewrite <- HX. unfold N. rewrite <- !append_assoc. exact Hb.
Qed.

Lemma same_end r r' rend : range_end r = Ok rend -> range_end r' = Ok rend -> same_range r r'.
Proof.
  intros Hr Hr'.
  assert (D : directory "d") by (split; apply not_ends; reflexivity).
  assert (M : forall q, range_end q = Ok rend -> exists p, meds_path "d" "" None q "" "" = Ok p /\
     p = path_join "d" ("" ++ "_" ++ "" ++ "_" ++ config_name "" None ++ "_meds-pizza-slices" ++ rend ++ ".fits")).
  { intros q Hq. eexists. split; [|reflexivity]. apply (meds_path_dir _ _ _ _ _ _ _ D). eauto. }
  destruct (M r Hr) as (p & E & Ep), (M r' Hr') as (p' & E' & Ep').
  apply (names_iff_ranges _ _ _ _ _ _ _ _ _ D E E'). congruence.
Qed.

Lemma fits_not_fz a b : a ++ ".fits" <> (b ++ ".fits") ++ ".fz".
Proof.
  intros E. assert (L : forall x y c d : string, String.length c = String.length d -> x ++ c = y ++ d -> c = d).
  { clear. induction x as [|k x IH]; intros [|m y] c d Hl H; cbn in H.
    - exact H.
    - exfalso. rewrite H in Hl. cbn in Hl. assert (A : forall a e, String.length (a ++ e) = (String.length a + String.length e)%nat).
      { induction a as [|z a IHa]; intros e; cbn; [reflexivity|]. now rewrite IHa. }
      rewrite A in Hl. lia.
    - exfalso. rewrite <- H in Hl. cbn in Hl. assert (A : forall a e, String.length (a ++ e) = (String.length a + String.length e)%nat).
      { induction a as [|z a IHa]; intros e; cbn; [reflexivity|]. now rewrite IHa. }
      rewrite A in Hl. lia.
    - injection H as _ H. now apply (IH y). }
  change ".fits" with (".fit" ++ "s") in E at 1. change ".fz" with (".f" ++ "z") in E.
  rewrite !append_assoc in E. apply L in E; [discriminate|reflexivity].
Qed.

Lemma Forall2_nth {A B} (R : A -> B -> Prop) l l' : Forall2 R l l' -> forall i b, nth_error l' i = Some b ->
  exists a, nth_error l i = Some a /\ R a b.
Proof.
  induction 1 as [|a b l l' H _ IH]; intros [|i] x E; cbn in E; try discriminate.
  - injection E as <-. exists a. auto.
  - apply IH, E.
Qed.

Lemma ranges_different_names {C} out config tag tile band ranges (jobs : list (job C)) : directory out ->
  on_ranges out config tag tile band ranges jobs -> different_ranges ranges -> different_names jobs.
Proof.
  intros Hd Ho Hr i j a b N Ea Eb. destruct (range_name out config tag tile band Hd) as [Y HY].
  destruct (Forall2_nth _ _ _ Ho i a Ea) as (r & Er & p & Hp & Hb).
  destruct (Forall2_nth _ _ _ Ho j b Eb) as (r' & Er' & p' & Hp' & Hb').
  destruct (HY _ _ _ Hp Hb) as (rend & R1 & ->), (HY _ _ _ Hp' Hb') as (rend' & R2 & ->). split.
  - intros E. apply append_cancel_l in E. apply append_cancel_r in E. subst rend'.
    apply (Hr i j r r' N Er Er'). exact (same_end _ _ _ R1 R2).
  - rewrite !append_assoc. apply fits_not_fz.
Qed.
