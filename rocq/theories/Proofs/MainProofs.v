(** Proofs about a whole run. *)
From Coq Require Import ZArith List Bool String Lia Permutation.
From Coq Require Import List.
From Verif Require Import Lib.Base Lib.Floats Lib.PyStr Model.SliceRange Model.Jobs Model.Sched Model.ImageInfo
  Model.ObjectData Model.Writer Model.Metadata Model.Main Spec.WriterSpec Spec.RunSpec Spec.MetadataSpec Spec.MainSpec
  Proofs.BaseFacts Proofs.SliceInputsProofs Proofs.JobsProofs Proofs.SchedProofs Proofs.WriterProofs Proofs.RunProofs
  Proofs.MetadataProofs.
Import ListNotations.
Open Scope string_scope.
Open Scope list_scope.
Open Scope Z_scope.

Section Dims.
Context {F : Type} {FO : FloatOps F}.
Variables (V E : Type) (zero : V) (cast : string -> V -> V) (isneg : V -> bool).
Notation fits := (fits V).
Definition dims (f : fits) (e : string) : option Z := option_map (dim V) (f e).

Lemma write_single_dims (f f' : fits) a ext row info :
  write_single_image V cast isneg f a ext row info = Ok f' -> forall e, dims f' e = dims f e.
Proof.
  unfold write_single_image. destruct (_ && _); [discriminate|]. destruct (f ext) as [h|] eqn:Eh; [|discriminate].
  intros H e. apply bind_ok in H as (h' & Hw & H). apply Ok_inj in H. subst f'.
  unfold dims, set_hdu. destruct (String.eqb_spec ext e) as [<-|]; [|reflexivity]. rewrite Eh. cbn [option_map].
  unfold hdu_write in Hw. destruct (_ || _); [discriminate|]. apply Ok_inj in Hw. subst h'. reflexivity.
Qed.

Lemma fold_dims row : forall (imgs : list (string * option string * img V)) (acc : result fits) f',
  fold_left (fun acc im => f <- acc ;; let '(ext, info, a) := im in write_single_image V cast isneg f a ext row info)
    imgs acc = Ok f' ->
  exists f, acc = Ok f /\ forall e, dims f' e = dims f e.
Proof.
  induction imgs as [|[[ext info] a] imgs IH]; intros acc f' H; cbn [fold_left] in H.
  - exists f'. split; [exact H|reflexivity].
  - apply IH in H as (f & H & D). apply bind_ok in H as (f0 & -> & H). exists f0. split; [reflexivity|].
    intros e. rewrite D. exact (write_single_dims _ _ _ _ _ _ H e).
Qed.

Lemma process_dims o r a b o' : process_results V cast isneg E o r a b = Ok o' ->
  forall e, dims (o_fits V E o') e = dims (o_fits V E o) e.
Proof.
  unfold process_results. destruct (pyindex _ _); [|discriminate].
  destruct (r_weights V E r) as [|w ws]; [intros H; apply Ok_inj in H; subst o'; reflexivity|].
  intros H. apply bind_ok in H as (imgs & _ & H). apply bind_ok in H as (f1 & H1 & H).
  apply bind_ok in H as (f2 & H2 & H). apply Ok_inj in H. subst o'. cbn [o_fits]. intros e.
  rewrite (write_single_dims _ _ _ _ _ _ H2). apply fold_dims in H1 as (f & Hf & D). apply Ok_inj in Hf. subst f. apply D.
Qed.

Lemma write_all_dims np nps : forall rs o o', write_all _ _ (process_one V cast isneg E np nps) o rs = Ok o' ->
  forall e, dims (o_fits V E o') e = dims (o_fits V E o) e.
Proof.
  induction rs as [|r rs IH]; intros o o' H e; cbn [write_all] in H.
  - apply Ok_inj in H. subst. reflexivity.
  - apply bind_ok in H as (o1 & H1 & H). rewrite (IH _ _ H). exact (process_dims _ _ _ _ _ H1 e).
Qed.

Lemma run_dims box psf_box n_extra num nsrc seed obj0 rng init randint work arg h o :
  0 <= num -> forward arg -> valid_how h ->
  forall l, slices_of arg num = Ok l ->
  run_completes V E zero cast isneg box psf_box n_extra num nsrc seed obj0 rng init randint work arg h o ->
  forall name ty per, In (name, ty, per) (layout box psf_box n_extra) ->
  exists k, o_fits V E o name = Some k /\ dim V k = num * per.
Proof.
  intros Hn Hf Vh l Hl (p & ss & M & C) name ty per Hin.
  destruct (plan_good n_extra num nsrc seed rng init randint Hn arg h l p ss Vh Hf Hl M) as (_ & _ & K & _).
  destruct (completes_results _ _ _ _ _ _ _ _ K C) as (items & rs & _ & _ & W).
  pose proof (write_all_dims _ _ _ _ _ W name) as D. unfold dims in D.
  assert (G : o_fits V E (init_out V zero E num box psf_box n_extra obj0) name = Some (mk_hdu V (num * per) (fun _ => zero))).
  { unfold init_out. cbn [o_fits]. rewrite WriterProofs.reserve_spec. unfold layout in Hin. apply in_app_or in Hin as [Hin|Hin].
    - assert (In name (reserve_names n_extra) /\ name <> PSF_EXT /\ per = box ^ 2) as (A & B & ->).
      { unfold reserve_names. rewrite in_app_iff. cbn [In] in Hin.
        repeat (destruct Hin as [Hin|Hin]; [injection Hin as <- <- <-; split; [left; cbn; tauto|split; [discriminate|reflexivity]]|]).
        destruct Hin. }
      apply String.eqb_neq in B. rewrite B. apply existsb_In in A. rewrite A. reflexivity.
    - apply in_app_or in Hin as [Hin|[Hin|[]]].
      + apply in_map_iff in Hin as (k & Hk & Hs). apply pair_equal_spec in Hk as [Hk <-]. apply pair_equal_spec in Hk as [<- _].
        change ("noise" ++ dec (Z.of_nat k) ++ "_cutouts")%string with (noise_ext (Z.of_nat k)).
        assert (B : noise_ext (Z.of_nat k) <> PSF_EXT).
        { intros X. apply (noise_ext_fixed (Z.of_nat k)). rewrite X. cbn. tauto. }
        apply String.eqb_neq in B. rewrite B.
        assert (A : In (noise_ext (Z.of_nat k)) (reserve_names n_extra)).
        { unfold reserve_names. apply in_or_app. right. rewrite extra_names.
          apply (in_map (fun k => noise_ext (Z.of_nat k))). exact Hs. }
        apply existsb_In in A. rewrite A. reflexivity.
      + injection Hin as <- <- <-. reflexivity. }
  rewrite G in D. cbn [option_map dim] in D. destruct (o_fits V E o name) as [k|]; [|discriminate].
  exists k. split; [reflexivity|]. injection D as D. exact D.
Qed.
End Dims.

Lemma layout_names box psf_box n_extra :
  map (fun x => fst (fst x)) (layout box psf_box n_extra) = reserve_names n_extra ++ [PSF_EXT].
Proof.
  unfold layout, reserve_names. rewrite !map_app, extra_names, map_map, <- app_assoc. reflexivity.
Qed.

Lemma table_name_not_image box psf_box n_extra e :
  In e ["object_data"; "epochs_info"; "metadata"; "tile_info"; "image_info"; "gaia_stars"] ->
  ~ In e (map (fun x => fst (fst x)) (layout box psf_box n_extra)).
Proof.
  intros He. rewrite layout_names. unfold reserve_names. rewrite !in_app_iff. intros [[H|H]|H].
  - cbn [In] in He, H. repeat (destruct He as [He|He]; [subst e; repeat (destruct H as [H|H]; [discriminate|]); destruct H|]).
    destruct He.
  - apply in_map_iff in H as (k & Hk & _). unfold noise_ext in Hk.
    cbn [In] in He. repeat (destruct He as [He|He]; [subst e; discriminate|]). destruct He.
  - destruct H as [H|[]]. cbn [In] in He. repeat (destruct He as [He|He]; [subst e; discriminate|]). destruct He.
Qed.

Lemma nodup_app {A} (a b : list A) : NoDup a -> NoDup b -> (forall x, In x b -> ~ In x a) -> NoDup (a ++ b).
Proof.
  intros Ha Hb H. induction Ha as [|x a Hx Ha IH]; [exact Hb|]. cbn [app]. constructor.
  - intros Hi. apply in_app_or in Hi as [Hi|Hi]; [contradiction|]. apply (H x Hi). left. reflexivity.
  - apply IH. intros y Hy Hin. apply (H y Hy). right. exact Hin.
Qed.

Lemma all_names_distinct box psf_box n_extra :
  NoDup (map (fun x => fst (fst x)) (layout box psf_box n_extra) ++
         ["object_data"; "epochs_info"; "metadata"; "tile_info"; "image_info"; "gaia_stars"]).
Proof.
  apply nodup_app; [apply layout_names_distinct| |apply table_name_not_image].
  repeat (constructor; [cbn [In]; intros H; repeat (destruct H as [H|H]; [discriminate|]); exact H|]). constructor.
Qed.
