(** Proofs about the metadata and the layout of the image extensions. *)
From Coq Require Import ZArith List Bool String Lia.
From Coq Require Import List.
From Verif Require Import Lib.Base Lib.Floats Lib.PyStr Lib.PyDict Model.Writer Model.Metadata Spec.MetadataSpec
  Proofs.BaseFacts Proofs.SliceInputsProofs Proofs.LoadInfoProofs Proofs.WriterProofs.
Import ListNotations.
Open Scope string_scope.
Open Scope list_scope.
Open Scope Z_scope.

(** ** Columns *)
Lemma drop_zeros_zeros n l : drop_zeros (repeat 0 n ++ l) = drop_zeros l.
Proof. induction n as [|n IH]; [reflexivity|exact IH]. Qed.

Lemma drop_zeros_keep t : no_final_nul t -> drop_zeros (rev t) = rev t.
Proof.
  intros H. destruct t as [|x t] using rev_ind; [reflexivity|]. rewrite rev_app_distr. cbn [rev app].
  destruct x; try reflexivity. exfalso. exact (H t eq_refl).
Qed.

Lemma set_get n t : (length t <= n)%nat -> no_final_nul t -> ucol_get (ucol_set (ucol_zero n) t) = t.
Proof.
  intros Hn Ht. unfold ucol_get, ucol_set, ucol_zero. cbn [uc_width uc_cells].
  rewrite firstn_all2 by exact Hn. rewrite rev_app_distr.
  assert (R : forall k, rev (repeat 0 k) = repeat 0 k).
  { induction k as [|k IH]; [reflexivity|]. cbn [repeat rev]. rewrite IH. symmetry.
    change (0 :: repeat 0 k) with (repeat 0 (S k)). replace (S k) with (k + 1)%nat by lia. apply repeat_app. }
  rewrite R, drop_zeros_zeros, drop_zeros_keep by exact Ht. apply rev_involutive.
Qed.

Lemma set_get_nul n t : (length t < n)%nat -> ucol_get (ucol_set (ucol_zero n) (t ++ [0])) = ucol_get (ucol_set (ucol_zero n) t).
Proof.
  intros Hn. unfold ucol_get, ucol_set, ucol_zero. cbn [uc_width uc_cells].
  rewrite !firstn_all2 by (rewrite ?app_length; cbn; lia). f_equal. f_equal. f_equal.
  rewrite <- app_assoc. f_equal. rewrite app_length. cbn [length].
  change ([0] ++ repeat 0 (n - (length t + 1))) with (repeat 0 (S (n - (length t + 1)))). f_equal. lia.
Qed.

Section M.
Context {F : Type} {FO : FloatOps F}.

Lemma meta_set_other m k t k' : String.eqb k k' = false -> dget (meta_set m k t) k' = dget m k'.
Proof.
  intros H. unfold meta_set. destruct (dget m k) as [c|]; [|reflexivity]. rewrite dget_dset, H. reflexivity.
Qed.

Lemma meta_set_same m k t c : dget m k = Some c -> dget (meta_set m k t) k = Some (ucol_set c t).
Proof. intros H. unfold meta_set. rewrite H, dget_dset, String.eqb_refl. reflexivity. Qed.

Lemma meta_set_keys m k t : dkeys (meta_set m k t) = dkeys m.
Proof.
  unfold meta_set. destruct (dget m k) as [c|] eqn:E; [|reflexivity]. rewrite dkeys_dset.
  destruct (in_dec string_dec k (dkeys m)) as [|N]; [reflexivity|]. apply dget_In in N. congruence.
Qed.

(** What the columns hold. *)
Definition holds_text (c : ucol) (t : text) : Prop :=
  exists n, (length t <= n)%nat /\ c = ucol_set (ucol_zero n) t.

Lemma metadata_spec env ver config json (m : @metadata F) b :
  build_metadata env ver config json = Ok (m, b) ->
  env "MEDS_DIR" <> None /\ md_magzp_ref m = fofZ 30 /\
  dkeys (md_cols m) = map fst (recorded env ver config) /\
  (forall k t, In (k, t) (recorded env ver config) ->
     exists c, dget (md_cols m) k = Some c /\ holds_text c t) /\
  encode_ascii json = Ok b.
Proof.
  unfold build_metadata. destruct (env "MEDS_DIR") as [md|] eqn:Em; [|discriminate]. cbn [bind]. cbv zeta.
  intros H. apply bind_ok in H as (b' & Hb & H). apply Ok_inj in H. injection H as <- <-.
  split; [discriminate|]. split; [reflexivity|]. cbn [md_cols]. split.
  { rewrite !meta_set_keys. reflexivity. }
  split; [|exact Hb].
  intros k t Hin. unfold recorded in Hin. cbn [map app In] in Hin.
  unfold env_or_empty in Hin. rewrite Em in Hin.
  repeat (destruct Hin as [Hin|Hin]; [apply pair_equal_spec in Hin as [<- <-];
    eexists; (split; [repeat (rewrite meta_set_other by reflexivity); apply meta_set_same;
      repeat (rewrite meta_set_other by reflexivity); reflexivity|]);
    eexists; (split; [|reflexivity]); unfold getenv;
    repeat match goal with |- context [match ?x with Some _ => _ | None => _ end] => destruct x end;
    cbn [length]; lia |]).
  destruct Hin.
Qed.

Lemma encode_iff t b : encode_ascii t = Ok b <-> ascii_text t /\ b = t.
Proof.
  unfold encode_ascii, ascii_text. destruct (forallb _ t) eqn:E.
  - rewrite forallb_forall in E. split; [intros H; apply Ok_inj in H; split; [|congruence]|intros [_ ->]; reflexivity].
    intros c Hc. specialize (E c Hc). apply andb_prop in E as [E1 E2]. lia.
  - split; [discriminate|]. intros [H _]. exfalso. assert (X : forallb (fun c => (0 <=? c) && (c <? 128)) t = true).
    { apply forallb_forall. intros c Hc. specialize (H c Hc). apply andb_true_intro. split; lia. }
    congruence.
Qed.

Lemma metadata_outcome env ver config json :
  match @build_metadata F FO env ver config json with
  | Ok _ => env "MEDS_DIR" <> None /\ ascii_text json
  | Raise e => env "MEDS_DIR" = None /\ e = KeyError \/
               env "MEDS_DIR" <> None /\ ~ ascii_text json /\ e = ValueError
  end.
Proof.
  unfold build_metadata. destruct (env "MEDS_DIR") as [md|]; cbn [bind]; [|left; split; reflexivity]. cbv zeta.
  destruct (encode_ascii json) as [b|e] eqn:E; cbn [bind].
  - apply encode_iff in E as [E _]. split; [discriminate|exact E].
  - right. split; [discriminate|]. split.
    + intros A. assert (X : encode_ascii json = Ok json) by (apply encode_iff; auto). congruence.
    + unfold encode_ascii in E. destruct (forallb _ json); congruence.
Qed.
End M.

(** ** Extensions *)
Lemma ext_pars_spec d per : exists d', ext_pars (Some d) per = Some d' /\ keywords d per d'.
Proof.
  unfold ext_pars, keywords. destruct (dget d "FZTILE") as [t|] eqn:E.
  - exists d. repeat split. exact E.
  - eexists. split; [reflexivity|]. split.
    + intros k Hk. rewrite dget_dset. destruct (String.eqb_spec "FZTILE" k); congruence.
    + rewrite dget_dset. reflexivity.
Qed.

Definition call_of (num : Z) (pars : option (dict string)) (x : string * string * Z)
  : string * string * Z * option (dict string) :=
  let '(n, t, per) := x in (n, t, num * per, ext_pars pars per).

Lemma loop_app extra pars a b ra rb : reserve_loop extra pars a = Ok ra -> reserve_loop extra pars b = Ok rb ->
  reserve_loop extra pars (a ++ b) = Ok (ra ++ rb).
Proof.
  revert ra. induction a as [|[[e d] per] a IH]; intros ra Ha Hb.
  - apply Ok_inj in Ha. subst ra. exact Hb.
  - cbn [reserve_loop app] in *. destruct (cutout_dtype _); [|discriminate]. cbn [bind] in *.
    apply bind_ok in Ha as (m & Hm & Ha). apply Ok_inj in Ha. subst ra. rewrite (IH m Hm Hb). reflexivity.
Qed.

Lemma combine_app {A B} (a a' : list A) (b b' : list B) : length a = length b ->
  combine (a ++ a') (b ++ b') = combine a b ++ combine a' b'.
Proof.
  revert b. induction a as [|x a IH]; intros [|y b] H; try discriminate; [reflexivity|].
  cbn [app combine]. rewrite IH by (cbn in H; lia). reflexivity.
Qed.

Lemma combine_repeat {A B} (l : list A) (b : B) : combine l (repeat b (length l)) = map (fun a => (a, b)) l.
Proof. induction l as [|a l IH]; [reflexivity|]. cbn [length repeat combine map]. rewrite IH. reflexivity. Qed.

Lemma extra_names n_extra : map (fun i => noise_ext (i + 1)) (zrange 0 n_extra)
  = map (fun k => noise_ext (Z.of_nat k)) (seq 1 (Z.to_nat n_extra)).
Proof.
  unfold zrange. rewrite map_map, Z.sub_0_r, <- seq_shift, map_map. apply map_ext. intros k. f_equal. lia.
Qed.

Lemma not_extra (l : list nat) e : In e fixed_names ->
  existsb (String.eqb e) (map (fun k => noise_ext (Z.of_nat k)) l) = false.
Proof.
  intros H. destruct (existsb _ _) eqn:E; [|reflexivity]. apply existsb_exists in E as (x & Hx & Ex).
  apply String.eqb_eq in Ex. subst x. apply in_map_iff in Hx as (k & <- & _). exfalso. exact (noise_ext_fixed _ H).
Qed.

Lemma reserve_spec num box psf_box pars n_extra :
  reserve_calls (num * box ^ 2) (num * psf_box ^ 2) pars n_extra (box ^ 2) (psf_box ^ 2)
  = Ok (map (call_of num pars) (layout box psf_box n_extra)).
Proof.
  unfold reserve_calls. cbv zeta. rewrite extra_names.
  set (ks := seq 1 (Z.to_nat n_extra)). set (extra := map (fun k => noise_ext (Z.of_nat k)) ks).
  set (names := [IMAGE_EXT; WEIGHT_EXT; SEG_EXT; BMASK_EXT; ORMASK_EXT; NOISE_EXT; MFRAC_EXT] ++ extra).
  rewrite !combine_app by (rewrite ?combine_length, ?repeat_length; lia).
  rewrite combine_repeat.
  replace (repeat (box ^ 2) (length names)) with
    (repeat (box ^ 2) (length (map (fun a => (a, num * box ^ 2)) names))) by (rewrite map_length; reflexivity).
  rewrite combine_repeat, map_map. unfold names. rewrite map_app, <- app_assoc.
  unfold layout. rewrite !map_app.
  assert (FX : forall e t d per, In e fixed_names -> cutout_dtype e = Ok t ->
    reserve_loop extra pars [(e, d, per)] = Ok [(e, t, d, ext_pars pars per)]).
  { intros e t d per He Ht. cbn [reserve_loop]. unfold extra. rewrite not_extra by exact He. rewrite Ht. reflexivity. }
  apply loop_app; [|apply loop_app].
  - cbn [map call_of].
    repeat match goal with
    | |- reserve_loop _ _ (?a :: ?x :: ?l) = Ok (?c :: ?r) => change (a :: x :: l) with ([a] ++ (x :: l));
        change (c :: r) with ([c] ++ r); apply loop_app; [apply FX; [cbn; tauto|reflexivity]|]
    end. apply FX; [cbn; tauto|reflexivity].
  - assert (G : forall l, incl l ks -> reserve_loop extra pars
        (map (fun x => (x, num * box ^ 2, box ^ 2)) (map (fun k => noise_ext (Z.of_nat k)) l))
      = Ok (map (call_of num pars) (map (fun k => ("noise" ++ dec (Z.of_nat k) ++ "_cutouts", "f4", box ^ 2)%string) l))).
    { induction l as [|k l IH]; intros Hl; [reflexivity|]. cbn [map reserve_loop].
      replace (existsb (String.eqb (noise_ext (Z.of_nat k))) extra) with true.
      - change (cutout_dtype NOISE_EXT) with (Ok "f4"). cbn [bind]. rewrite IH by (intros x Hx; apply Hl; right; exact Hx). reflexivity.
      - symmetry. apply existsb_exists. exists (noise_ext (Z.of_nat k)). split; [|apply String.eqb_refl].
        unfold extra. apply (in_map (fun k => noise_ext (Z.of_nat k))). apply Hl. left. reflexivity. }
    apply G. apply incl_refl.
  - apply FX; [cbn; tauto|reflexivity].
Qed.

Lemma layout_names_distinct box psf_box n_extra : NoDup (map (fun x => fst (fst x)) (layout box psf_box n_extra)).
Proof.
  unfold layout. rewrite !map_app, map_map. cbn [map fst].
  change (map (fun x => ("noise" ++ dec (Z.of_nat x) ++ "_cutouts")%string) (seq 1 (Z.to_nat n_extra)))
    with (map (fun k => noise_ext (Z.of_nat k)) (seq 1 (Z.to_nat n_extra))).
  set (ex := map _ _).
  assert (N : forall e, In e fixed_names -> ~ In e ex).
  { intros e He Hi. apply in_map_iff in Hi as (k & <- & _). exact (noise_ext_fixed _ He). }
  assert (A : NoDup ex).
  { assert (G : forall n a, NoDup (map (fun k => noise_ext (Z.of_nat k)) (seq a n))); [|apply G].
    induction n as [|n IH]; intros a; [constructor|].
    cbn [seq map]. constructor; [|apply IH]. intros H. apply in_map_iff in H as (k & Hk & Hi).
    apply noise_ext_inj in Hk. apply in_seq in Hi. lia. }
  assert (B : NoDup (ex ++ ["psf"])).
  { apply (Permutation.Permutation_NoDup (l := "psf" :: ex)); [apply Permutation.Permutation_cons_append|].
    constructor; [apply N; cbn; tauto|exact A]. }
  assert (C : forall e, In e fixed_names -> e <> "psf" -> ~ In e (ex ++ ["psf"])).
  { intros e He Hp Hi. apply in_app_or in Hi as [Hi|[Hi|[]]]; [exact (N e He Hi)|congruence]. }
  cbn [app].
  repeat (constructor; [cbn [In]; intros H; repeat (destruct H as [H|H]; [discriminate|]);
                        refine (C _ _ _ H); [cbn; tauto|discriminate]|]).
  exact B.
Qed.
