From Coq Require Import ZArith Bool String Ascii List Lia.
From Verif Require Import Lib.Base Lib.PyDict Model.LoadInfo Model.ImageInfo Spec.DesInfoSpec Spec.LoadInfoSpec
  Proofs.PyStrProofs Proofs.BaseFacts Proofs.SliceInputsProofs.
Import ListNotations.
Open Scope string_scope.
Open Scope list_scope.
Open Scope Z_scope.

(** Dictionaries. *)
Lemma dget_dset {V} (d : dict V) k v k' :
  dget (dset d k v) k' = if String.eqb k k' then Some v else dget d k'.
Proof.
  induction d as [|[a w] d IH]; cbn [dset dget].
  - destruct (String.eqb k k'); reflexivity.
  - destruct (String.eqb a k) eqn:E; cbn [dget].
    + apply String.eqb_eq in E. subst a. destruct (String.eqb k k'); reflexivity.
    + rewrite IH. destruct (String.eqb a k') eqn:E2; [|reflexivity].
      apply String.eqb_eq in E2. subst a. now rewrite String.eqb_sym, E.
Qed.

Lemma dkeys_dset {V} (d : dict V) k v :
  dkeys (dset d k v) = if in_dec String.string_dec k (dkeys d) then dkeys d else dkeys d ++ [k].
Proof.
  unfold dkeys. induction d as [|[a w] d IH]; [reflexivity|]. cbn [dset].
  destruct (String.eqb a k) eqn:E.
  - apply String.eqb_eq in E. subst a.
    destruct (in_dec String.string_dec k (map fst ((k, w) :: d))) as [H|H]; [reflexivity|].
    exfalso. apply H. left. reflexivity.
  - apply String.eqb_neq in E. cbn [map fst]. rewrite IH.
    destruct (in_dec String.string_dec k (map fst d)) as [H|H];
    destruct (in_dec String.string_dec k (a :: map fst d)) as [H'|H']; try reflexivity.
    + exfalso. apply H'. right. exact H.
    + exfalso. destruct H' as [K|K]; [congruence|contradiction].
Qed.

(** Munging. *)
Section Munge.
Context {V : Type}.
Variable get : option string -> result V.

Lemma munge_snoc keys k : munge (keys ++ [k]) get = munge_step get (munge keys get) k.
Proof. unfold munge. rewrite fold_left_app. reflexivity. Qed.

Lemma munge_get keys : forall s v, dget (munge keys get) s = Some v <-> last_readable keys get s v.
Proof.
  induction keys as [|k keys IH] using rev_ind; intros s v.
  - cbn. split; [discriminate|]. intros ([|] & k & l2 & E & _); discriminate.
  - rewrite munge_snoc. unfold munge_step.
    assert (Skip : (forall n, k = Some n -> lower n = s -> raises (get k)) ->
      (last_readable (keys ++ [k]) get s v <-> last_readable keys get s v)).
    { intros H. unfold last_readable. split.
      - intros (l1 & k0 & l2 & E & Hl & Hg & Hn).
        destruct l2 as [|x l2] using rev_ind.
        + apply app_inj_tail in E as [_ ->]. exfalso.
          destruct (H k0 eq_refl Hl) as (e & He). congruence.
        + clear IHl2. change (Some k0 :: l2 ++ [x]) with ((Some k0 :: l2) ++ [x]) in E. rewrite app_assoc in E.
          apply app_inj_tail in E as [-> ->]. exists l1, k0, l2. repeat (split; [first [reflexivity|assumption]|]).
          intros k' Hk'. apply Hn. apply in_or_app. left. exact Hk'.
      - intros (l1 & k0 & l2 & E & Hl & Hg & Hn). exists l1, k0, (l2 ++ [k]). split.
        + rewrite E, <- app_assoc. reflexivity.
        + repeat (split; [assumption|]). intros k' Hk' L. apply in_app_iff in Hk' as [Hk'|[->|[]]]; [auto|].
          exact (H k' eq_refl L). }
    destruct (get k) as [w|e] eqn:Eg.
    + destruct k as [n|].
      * rewrite dget_dset. destruct (String.eqb (lower n) s) eqn:El.
        -- apply String.eqb_eq in El. split.
           ++ intros H. injection H as <-. exists keys, n, []. repeat (split; [first [reflexivity|assumption]|]). intros k' [].
           ++ intros (l1 & k0 & l2 & E & Hl & Hg & Hn).
              destruct l2 as [|x l2] using rev_ind.
              ** apply app_inj_tail in E as [_ E]. injection E as ->. congruence.
              ** clear IHl2. change (Some k0 :: l2 ++ [x]) with ((Some k0 :: l2) ++ [x]) in E. rewrite app_assoc in E.
                 apply app_inj_tail in E as [_ <-]. exfalso.
                 destruct (Hn n) as (e & He); [apply in_or_app; right; left; reflexivity|exact El|congruence].
        -- rewrite IH. symmetry. apply Skip. intros m E L. injection E as ->. apply String.eqb_neq in El. contradiction.
      * rewrite IH. symmetry. apply Skip. intros n E. discriminate.
    + rewrite IH. symmetry. apply Skip. intros n -> L. exists e. reflexivity.
Qed.

Lemma munge_none keys s : dget (munge keys get) s = None <->
  forall k, In (Some k) keys -> lower k = s -> raises (get (Some k)).
Proof.
  induction keys as [|k keys IH] using rev_ind.
  - cbn. split; [intros _ k []|reflexivity].
  - rewrite munge_snoc. unfold munge_step.
    assert (Split : (forall n, In (Some n) (keys ++ [k]) -> lower n = s -> raises (get (Some n))) <->
      (forall n, In (Some n) keys -> lower n = s -> raises (get (Some n))) /\
      (forall n, k = Some n -> lower n = s -> raises (get (Some n)))).
    { split.
      - intros H. split; intros n Hn; apply H; apply in_or_app; [left; exact Hn|right; left; exact Hn].
      - intros [H1 H2] n Hn. apply in_app_iff in Hn as [Hn|[Hn|[]]]; auto. }
    rewrite Split, <- IH. clear Split.
    destruct (get k) as [w|e] eqn:Eg.
    + destruct k as [n|].
      * rewrite dget_dset. destruct (String.eqb (lower n) s) eqn:El.
        -- apply String.eqb_eq in El. split; [discriminate|]. intros [_ H].
           destruct (H n eq_refl El) as (e & He). congruence.
        -- apply String.eqb_neq in El. split; [|tauto]. intros H. split; [exact H|].
           intros m E. injection E as <-. contradiction.
      * split; [|tauto]. intros H. split; [exact H|]. discriminate.
    + split; [|tauto]. intros H. split; [exact H|]. intros n -> _. exists e. exact Eg.
Qed.

Lemma firsts_snoc : forall l seen x,
  firsts seen (l ++ [x]) =
  if in_dec String.string_dec x (seen ++ firsts seen l) then firsts seen l else firsts seen l ++ [x].
Proof.
  induction l as [|s l IH]; intros seen x; cbn [app firsts].
  - rewrite app_nil_r. destruct (in_dec String.string_dec x seen); reflexivity.
  - destruct (in_dec String.string_dec s seen) as [H|H]; [apply IH|].
    rewrite IH.
    destruct (in_dec String.string_dec x ((s :: seen) ++ firsts (s :: seen) l)) as [K|K];
    destruct (in_dec String.string_dec x (seen ++ s :: firsts (s :: seen) l)) as [K'|K']; try reflexivity.
    + exfalso. apply K'. rewrite in_app_iff in *. cbn in *. tauto.
    + exfalso. apply K. rewrite in_app_iff in *. cbn in *. tauto.
Qed.

Lemma munge_keys keys : dkeys (munge keys get) = firsts [] (readable keys get).
Proof.
  induction keys as [|k keys IH] using rev_ind; [reflexivity|].
  rewrite munge_snoc. unfold munge_step, readable. rewrite flat_map_app. fold (readable keys get).
  cbn [flat_map]. rewrite app_nil_r.
  destruct k as [n|]; [|destruct (get None); rewrite app_nil_r; exact IH].
  destruct (get (Some n)) as [w|e]; [|rewrite app_nil_r; exact IH].
  rewrite dkeys_dset, firsts_snoc, IH. reflexivity.
Qed.
End Munge.

Lemma firsts_In : forall l seen x, In x (firsts seen l) <-> In x l /\ ~ In x seen.
Proof.
  induction l as [|s l IH]; intros seen x; cbn [firsts].
  - cbn. tauto.
  - destruct (in_dec String.string_dec s seen) as [H|H].
    + rewrite IH. cbn. split; [tauto|]. intros [[->|K] N]; [contradiction|auto].
    + cbn. rewrite IH. cbn. destruct (String.string_dec s x) as [->|N]; tauto.
Qed.

Lemma firsts_NoDup : forall l seen, NoDup (firsts seen l).
Proof.
  induction l as [|s l IH]; intros seen; cbn [firsts]; [constructor|].
  destruct (in_dec String.string_dec s seen); [apply IH|]. constructor; [|apply IH].
  rewrite firsts_In. cbn. tauto.
Qed.

Lemma munge_nodup {V} keys (get : option string -> result V) : NoDup (dkeys (munge keys get)).
Proof. rewrite munge_keys. apply firsts_NoDup. Qed.

(** Merging. *)
Lemma dget_In {V} (d : dict V) k : dget d k = None <-> ~ In k (dkeys d).
Proof.
  unfold dkeys. induction d as [|[a w] d IH]; cbn [dget map fst In]; [tauto|].
  destruct (String.eqb a k) eqn:E.
  - apply String.eqb_eq in E. split; [discriminate|]. intros H. exfalso. apply H. left. exact E.
  - apply String.eqb_neq in E. rewrite IH. tauto.
Qed.

Lemma has_In {V} (d : dict V) k : has d k = true <-> In k (dkeys d).
Proof.
  unfold has. destruct (dget d k) eqn:E.
  - split; [|reflexivity]. intros _. destruct (in_dec String.string_dec k (dkeys d)) as [H|H]; [exact H|].
    apply dget_In in H. congruence.
  - apply dget_In in E. split; [discriminate|]. contradiction.
Qed.

Lemma dict_ext {V} : forall (d d' : dict V), NoDup (dkeys d) -> dkeys d = dkeys d' ->
  (forall k, dget d k = dget d' k) -> d = d'.
Proof.
  unfold dkeys. induction d as [|[a w] d IH]; intros [|[a' w'] d'] Hn Hk Hg; cbn [map fst] in *;
    [reflexivity|discriminate|discriminate|].
  injection Hk as -> Hk. apply NoDup_cons_iff in Hn as [N Hn].
  pose proof (Hg a') as E. cbn [dget] in E. rewrite String.eqb_refl in E. injection E as ->. f_equal.
  apply IH; [exact Hn|exact Hk|]. intros k. specialize (Hg k). cbn [dget] in Hg.
  destruct (String.eqb a' k) eqn:Ek; [|exact Hg]. apply String.eqb_eq in Ek. subst a'.
  assert (X : dget d k = None) by (apply dget_In; exact N).
  assert (Y : dget d' k = None) by (apply dget_In; unfold dkeys; rewrite <- Hk; exact N). congruence.
Qed.

Definition copy_step {V} (im : dict V) (h : dict V) (key : string) : dict V :=
  match dget im key with Some v => dset h key v | None => h end.

Lemma copy_get {V} (im : dict V) : forall keys h k,
  dget (fold_left (copy_step im) keys h) k =
  if in_dec String.string_dec k keys then match dget im k with Some v => Some v | None => dget h k end
  else dget h k.
Proof.
  assert (Step : forall h key k, dget (copy_step im h key) k =
     if String.eqb key k then match dget im k with Some v => Some v | None => dget h k end else dget h k).
  { intros h key k. unfold copy_step. destruct (String.eqb key k) eqn:E.
    - apply String.eqb_eq in E. subst key. destruct (dget im k) as [v|]; [|reflexivity].
      now rewrite dget_dset, String.eqb_refl.
    - destruct (dget im key) as [v|]; [|reflexivity]. now rewrite dget_dset, E. }
  induction keys as [|key keys IH]; intros h k; [reflexivity|].
  cbn [fold_left]. rewrite IH, Step.
  destruct (in_dec String.string_dec k keys) as [H|H];
  destruct (in_dec String.string_dec k (key :: keys)) as [H'|H'].
  - destruct (dget im k) as [v|]; [reflexivity|]. destruct (String.eqb key k); reflexivity.
  - exfalso. apply H'. right. exact H.
  - destruct H' as [->|H']; [|contradiction]. now rewrite String.eqb_refl.
  - destruct (String.eqb key k) eqn:E; [|reflexivity]. apply String.eqb_eq in E. exfalso. apply H'. left. exact E.
Qed.

Lemma copy_dkeys {V} (im : dict V) : forall keys h, NoDup keys ->
  dkeys (fold_left (copy_step im) keys h) = dkeys h ++ filter (fun k => has im k && negb (has h k)) keys.
Proof.
  induction keys as [|key keys IH]; intros h Hn; [cbn; now rewrite app_nil_r|].
  apply NoDup_cons_iff in Hn as [N Hn]. cbn [fold_left filter]. rewrite IH by exact Hn.
  assert (Eh : filter (fun k => has im k && negb (has (copy_step im h key) k)) keys =
               filter (fun k => has im k && negb (has h k)) keys).
  { apply filter_ext_in. intros k Hk. f_equal. f_equal. unfold has, copy_step.
    destruct (dget im key); [|reflexivity]. rewrite dget_dset.
    destruct (String.eqb key k) eqn:E; [|reflexivity]. apply String.eqb_eq in E. subst. contradiction. }
  rewrite Eh. clear Eh.
  assert (Hi : has im key = match dget im key with Some _ => true | None => false end) by reflexivity.
  rewrite Hi. clear Hi. unfold copy_step. destruct (dget im key) as [v|]; [|reflexivity].
  rewrite dkeys_dset. cbn [andb].
  destruct (in_dec String.string_dec key (dkeys h)) as [H|H].
  - apply has_In in H. now rewrite H.
  - destruct (has h key) eqn:E; [apply has_In in E; contradiction|]. cbn [negb]. now rewrite <- app_assoc.
Qed.

Lemma copy_keys_merged {V} (im hd : dict V) : merged im hd (copy_keys im hd).
Proof.
  split.
  - intros k. exact (copy_get im sizes hd k).
  - refine (copy_dkeys im sizes hd _). repeat constructor; cbn; intuition discriminate.
Qed.

Lemma merged_unique {V} (im hd h : dict V) : NoDup (dkeys hd) -> merged im hd h -> h = copy_keys im hd.
Proof.
  intros N [H1 H2]. destruct (copy_keys_merged im hd) as [K1 K2]. apply dict_ext.
  - rewrite H2. clear -N. unfold sizes. cbn [filter].
    assert (NF : NoDup (filter (fun k => has im k && negb (has hd k)) sizes)).
    { apply NoDup_filter. repeat constructor; cbn; intuition discriminate. }
    assert (ND : forall x, In x (dkeys hd) -> ~ In x (filter (fun k => has im k && negb (has hd k)) sizes)).
    { intros x Hx Hf. apply filter_In in Hf as [_ Hf]. apply has_In in Hx. rewrite Hx, andb_false_r in Hf. discriminate. }
    change (NoDup (dkeys hd ++ filter (fun k => has im k && negb (has hd k)) sizes)).
    induction (dkeys hd) as [|a l IH]; [exact NF|]. apply NoDup_cons_iff in N as [Na N]. cbn. constructor.
    + rewrite in_app_iff. intros [K|K]; [contradiction|]. exact (ND a (or_introl eq_refl) K).
    + apply IH; [exact N|]. intros x Hx. apply ND. right. exact Hx.
  - congruence.
  - intros k. now rewrite H1, K1.
Qed.

(** Loading. *)
Section Load.
Context {S V W A G X P Q : Type}.
Variables (has_affine : S -> bool) (affine : S -> result A)
          (galsim : S -> option (result G))
          (image_header head_header : S -> result (list (option string) * (option string -> result V)))
          (mk_wcs : dict V -> result W)
          (psfex : S -> option (result X))
          (piff : S -> option (result P)) (piff_wcs : S -> P -> result Q)
          (pixmappy : Q -> result (option Q)).

Lemma gives_image s r : gives_image_wcs image_header mk_wcs s r <-> r = image_wcs image_header mk_wcs s.
Proof.
  unfold gives_image_wcs, image_wcs. destruct (image_header s) as [[keys get]|e]; reflexivity.
Qed.

Lemma gives_head s r :
  gives_head_wcs image_header head_header mk_wcs s r <-> r = head_wcs image_header head_header mk_wcs s.
Proof.
  unfold gives_head_wcs, head_wcs. destruct (image_header s) as [[ik ig]|e]; [|reflexivity].
  destruct (head_header s) as [[hk hg]|e]; [|reflexivity]. cbn [bind]. split.
  - intros (h & Hm & ->). f_equal. apply merged_unique; [apply munge_nodup|exact Hm].
  - intros ->. eexists. split; [apply copy_keys_merged|reflexivity].
Qed.

Lemma or_affine_ok (gives : S -> result W -> Prop) s r f : (forall x, gives s x <-> x = r) ->
  (or_affine has_affine s r = Ok f <-> wcs_field has_affine s gives f).
Proof.
  intros Hg. unfold or_affine, wcs_field. destruct r as [w|e].
  - split.
    + intros H. apply Ok_inj in H. left. exists w. split; [now apply Hg|congruence].
    + intros [(w' & K & ->)|(e & K & _)]; apply Hg in K; congruence.
  - destruct (has_affine s) eqn:E.
    + split.
      * intros H. apply Ok_inj in H. right. exists e. split; [now apply Hg|auto].
      * intros [(w' & K & _)|(e' & K & _ & ->)]; [apply Hg in K; discriminate|reflexivity].
    + split; [discriminate|]. intros [(w' & K & _)|(e' & K & K' & _)]; [apply Hg in K; discriminate|congruence].
Qed.

Lemma or_affine_err (gives : S -> result W -> Prop) s r e : (forall x, gives s x <-> x = r) ->
  (or_affine has_affine s r = Raise e <-> wcs_error has_affine s gives e).
Proof.
  intros Hg. unfold or_affine, wcs_error. rewrite Hg. destruct r as [w|e'].
  - split; [discriminate|]. intros [K _]. discriminate.
  - destruct (has_affine s); split; intuition congruence.
Qed.

Lemma piff_field_iff s p w x :
  load_piff piff piff_wcs pixmappy s = (p, w, x) <-> piff_fields piff piff_wcs pixmappy s p w x.
Proof.
  unfold load_piff, piff_fields. destruct (piff s) as [r|].
  2: { rewrite !pair_equal_spec. intuition congruence. }
  destruct r as [m|e]; cbn [bind].
  2: { rewrite !pair_equal_spec. split.
       - intros [[<- <-] <-]. right. split; [discriminate|auto].
       - intros [(m & q & K & _)|(_ & -> & -> & ->)]; [discriminate|auto]. }
  destruct (piff_wcs s m) as [q|e] eqn:Eq; cbn [bind].
  2: { rewrite !pair_equal_spec. split.
       - intros [[<- <-] <-]. right. split; [|auto]. intros m' q o E E'. congruence.
       - intros [(m' & q & K & K' & _)|(_ & -> & -> & ->)]; [congruence|auto]. }
  destruct (pixmappy q) as [[q'|]|e] eqn:Ep; cbn [bind]; rewrite !pair_equal_spec.
  - split.
    + intros [[<- <-] <-]. left. exists m, q. split; [reflexivity|]. split; [exact Eq|]. left. exists q'. auto.
    + intros [(m' & q0 & K & K' & [(q1 & K1 & -> & -> & ->)|(K1 & _)])|(K & _)].
      * assert (m' = m) by congruence. subst m'. assert (q0 = q) by congruence. subst q0.
        assert (q1 = q') by congruence. subst q1. auto.
      * assert (m' = m) by congruence. subst m'. assert (q0 = q) by congruence. subst q0. congruence.
      * exfalso. exact (K m q _ eq_refl Eq Ep).
  - split.
    + intros [[<- <-] <-]. left. exists m, q. split; [reflexivity|]. split; [exact Eq|]. right. auto.
    + intros [(m' & q0 & K & K' & [(q1 & K1 & _)|(K1 & -> & -> & ->)])|(K & _)].
      * assert (m' = m) by congruence. subst m'. assert (q0 = q) by congruence. subst q0. congruence.
      * assert (m' = m) by congruence. subst m'. assert (q0 = q) by congruence. subst q0. auto.
      * exfalso. exact (K m q _ eq_refl Eq Ep).
  - split.
    + intros [[<- <-] <-]. right. split; [|auto]. intros m' q0 o E E' K.
      assert (m' = m) by congruence. subst m'. assert (q0 = q) by congruence. subst q0. congruence.
    + intros [(m' & q0 & K & K' & [(q1 & K1 & _)|(K1 & _)])|(_ & -> & -> & ->)]; [| |auto];
        assert (m' = m) by congruence; subst m'; assert (q0 = q) by congruence; subst q0; congruence.
Qed.

Definition step_affine (s : S) : result (option A) :=
  if has_affine s then a <- affine s ;; Ok (Some a) else Ok None.

Lemma affine_ok s f : step_affine s = Ok f <-> affine_field has_affine affine s f.
Proof.
  unfold step_affine, affine_field. destruct (has_affine s).
  - destruct (affine s) as [a|e]; cbn [bind].
    + split; [intros H; apply Ok_inj in H; eauto|]. intros (a' & K & ->). congruence.
    + split; [discriminate|]. intros (a & K & _). discriminate.
  - split; [intros H; apply Ok_inj in H; congruence|]. intros ->. reflexivity.
Qed.

Lemma affine_err s e : step_affine s = Raise e <-> has_affine s = true /\ affine s = Raise e.
Proof.
  unfold step_affine. destruct (has_affine s); [|split; [discriminate|intros [K _]; discriminate]].
  destruct (affine s) as [a|e']; cbn [bind]; split; intuition congruence.
Qed.

Lemma galsim_ok s f : opt_result (galsim s) = Ok f <-> galsim_field galsim s f.
Proof.
  unfold opt_result, galsim_field. destruct (galsim s) as [[g|e]|].
  - split; [intros H; apply Ok_inj in H; eauto|]. intros (g' & K & ->). congruence.
  - split; [discriminate|]. intros (g & K & _). discriminate.
  - split; [intros H; apply Ok_inj in H; congruence|]. intros ->. reflexivity.
Qed.

Lemma galsim_err s e : opt_result (galsim s) = Raise e <-> galsim s = Some (Raise e).
Proof. unfold opt_result. destruct (galsim s) as [[g|e']|]; split; congruence || discriminate. Qed.

Lemma psfex_iff s f : load_psfex psfex s = f <-> psfex_field psfex s f.
Proof. unfold load_psfex, psfex_field. destruct (psfex s) as [[x|e]|]; split; congruence. Qed.

Notation ld_src := (load_source has_affine affine galsim image_header head_header mk_wcs psfex piff piff_wcs pixmappy).
Notation ld_srcs := (load_sources has_affine affine galsim image_header head_header mk_wcs psfex piff piff_wcs pixmappy).
Notation src_loaded := (source_loaded has_affine affine galsim image_header head_header mk_wcs psfex piff piff_wcs pixmappy).
Notation src_error := (source_error has_affine affine galsim image_header head_header mk_wcs).

Lemma load_source_ok skip i s x : ld_src skip i s = Ok x <-> src_loaded skip (i + 1) s x.
Proof.
  unfold load_source, source_loaded. fold (step_affine s).
  pose proof (fun f => or_affine_ok (gives_image_wcs image_header mk_wcs) s (image_wcs image_header mk_wcs s) f) as HI.
  pose proof (fun f => or_affine_ok (gives_head_wcs image_header head_header mk_wcs) s
                (head_wcs image_header head_header mk_wcs s) f) as HH.
  split.
  - intros H. destruct (step_affine s) as [a|] eqn:Ea; [|discriminate]. cbn [bind] in H.
    destruct (opt_result (galsim s)) as [g|] eqn:Eg; [|discriminate]. cbn [bind] in H.
    apply affine_ok in Ea. apply galsim_ok in Eg. destruct skip.
    + apply Ok_inj in H. subst x. cbn. auto 12.
    + destruct (or_affine has_affine s (image_wcs image_header mk_wcs s)) as [iw|] eqn:Ei; [|discriminate].
      cbn [bind] in H.
      destruct (or_affine has_affine s (head_wcs image_header head_header mk_wcs s)) as [hw|] eqn:Eh; [|discriminate].
      cbn [bind] in H. destruct (load_piff piff piff_wcs pixmappy s) as [[pp pw] px] eqn:Ep.
      apply Ok_inj in H. subst x. cbn [ld_source ld_image_id ld_affine_wcs ld_galsim_psf ld_image_wcs ld_head_wcs ld_psfex_psf ld_piff_psf ld_piff_wcs ld_pixmappy_wcs].
      apply piff_field_iff in Ep.
      repeat (split; [first [reflexivity|assumption]|]).
      split; [apply HI; [intros y; apply gives_image|reflexivity]|].
      split; [apply HH; [intros y; apply gives_head|reflexivity]|].
      split; [apply psfex_iff; reflexivity|exact Ep].
  - destruct x as [xs xi xa xg xw xh xp xpp xpw xpx]. cbn [ld_source ld_image_id ld_affine_wcs ld_galsim_psf ld_image_wcs ld_head_wcs ld_psfex_psf ld_piff_psf ld_piff_wcs ld_pixmappy_wcs].
    intros (-> & -> & Ha & Hg & H). apply affine_ok in Ha. apply galsim_ok in Hg. rewrite Ha, Hg. cbn [bind].
    destruct skip.
    + destruct H as (-> & -> & -> & -> & -> & ->). reflexivity.
    + destruct H as (H1 & H2 & H3 & H4).
      apply HI in H1; [|intros y; apply gives_image]. apply HH in H2; [|intros y; apply gives_head].
      apply psfex_iff in H3. apply piff_field_iff in H4. rewrite H1, H2. cbn [bind]. now rewrite H3, H4.
Qed.

Lemma load_source_err skip i s e : ld_src skip i s = Raise e -> src_error skip s e.
Proof.
  unfold load_source, source_error. fold (step_affine s). intros H.
  destruct (step_affine s) as [a|e1] eqn:Ea; cbn [bind] in H.
  2: { injection H as ->. left. now apply affine_err. }
  destruct (opt_result (galsim s)) as [g|e1] eqn:Eg; cbn [bind] in H.
  2: { injection H as ->. right. left. now apply galsim_err. }
  right. right. destruct skip; [discriminate|]. split; [reflexivity|].
  destruct (or_affine has_affine s (image_wcs image_header mk_wcs s)) as [iw|e1] eqn:Ei; cbn [bind] in H.
  2: { injection H as ->. left. apply (or_affine_err _ s (image_wcs image_header mk_wcs s)); [intros y; apply gives_image|exact Ei]. }
  destruct (or_affine has_affine s (head_wcs image_header head_header mk_wcs s)) as [hw|e1] eqn:Eh; cbn [bind] in H.
  2: { injection H as ->. right. apply (or_affine_err _ s (head_wcs image_header head_header mk_wcs s)); [intros y; apply gives_head|exact Eh]. }
  destruct (load_piff piff piff_wcs pixmappy s) as [[pp pw] px]. discriminate.
Qed.

Lemma load_sources_ok skip : forall l i xs,
  ld_srcs skip i l = Ok xs <->
  length xs = length l /\
  forall n s, nth_error l n = Some s -> exists x, nth_error xs n = Some x /\ src_loaded skip (i + Z.of_nat n + 1) s x.
Proof.
  induction l as [|s l IH]; intros i xs; cbn [load_sources].
  - split.
    + intros H. apply Ok_inj in H. subst xs. split; [reflexivity|]. intros [|n]; discriminate.
    + intros [H _]. destruct xs; [reflexivity|discriminate].
  - split.
    + intros H. destruct (ld_src skip i s) as [x|] eqn:Ex; [|discriminate]. cbn [bind] in H.
      destruct (ld_srcs skip (i + 1) l) as [ys|] eqn:Ey; [|discriminate]. cbn [bind] in H.
      apply Ok_inj in H. subst xs. apply IH in Ey as [Hl Hn]. split; [cbn; congruence|].
      intros [|n] s' E; cbn [nth_error] in *.
      * injection E as <-. exists x. split; [reflexivity|]. apply load_source_ok in Ex.
        replace (i + Z.of_nat 0 + 1) with (i + 1) by lia. exact Ex.
      * destruct (Hn n s' E) as (y & K1 & K2). exists y. split; [exact K1|].
        replace (i + Z.of_nat (Datatypes.S n) + 1) with (i + 1 + Z.of_nat n + 1) by lia. exact K2.
    + intros [Hl Hn]. destruct xs as [|x xs]; [discriminate|].
      destruct (Hn 0%nat s eq_refl) as (x' & K1 & K2). cbn in K1. injection K1 as <-.
      replace (i + Z.of_nat 0 + 1) with (i + 1) in K2 by lia. apply load_source_ok in K2. rewrite K2. cbn [bind].
      assert (Ey : ld_srcs skip (i + 1) l = Ok xs); [|now rewrite Ey].
      apply IH. split; [cbn in Hl; lia|]. intros n s' E. destruct (Hn (Datatypes.S n) s' E) as (y & K1 & K3).
      exists y. split; [exact K1|]. replace (i + 1 + Z.of_nat n + 1) with (i + Z.of_nat (Datatypes.S n) + 1) by lia. exact K3.
Qed.

Lemma load_sources_err skip e : forall l i,
  ld_srcs skip i l = Raise e ->
  exists n s, nth_error l n = Some s /\ src_error skip s e /\
    forall m s', (m < n)%nat -> nth_error l m = Some s' -> exists x, src_loaded skip (i + Z.of_nat m + 1) s' x.
Proof.
  induction l as [|s l IH]; intros i H; cbn [load_sources] in H; [discriminate|].
  destruct (ld_src skip i s) as [x|e'] eqn:Ex; cbn [bind] in H.
  - destruct (ld_srcs skip (i + 1) l) as [ys|e'] eqn:Ey; cbn [bind] in H; [discriminate|].
    injection H as ->. destruct (IH _ Ey) as (n & s' & K1 & K2 & K3).
    exists (Datatypes.S n), s'. split; [exact K1|]. split; [exact K2|]. intros [|m] s2 Hm E2; cbn [nth_error] in E2.
    + injection E2 as <-. exists x. apply load_source_ok in Ex.
      replace (i + Z.of_nat 0 + 1) with (i + 1) by lia. exact Ex.
    + destruct (K3 m s2 ltac:(lia) E2) as (y & K). exists y.
      replace (i + Z.of_nat (Datatypes.S m) + 1) with (i + 1 + Z.of_nat m + 1) by lia. exact K.
  - injection H as ->. exists 0%nat, s. split; [reflexivity|]. split; [exact (load_source_err _ _ _ _ Ex)|]. intros m s' Hm. lia.
Qed.

Notation ld := (load_objects has_affine affine galsim image_header head_header mk_wcs psfex piff piff_wcs pixmappy).
Notation co_loaded := (coadd_loaded (G := G) (X := X) (P := P) (Q := Q) has_affine affine image_header mk_wcs).
Notation co_error := (coadd_error has_affine affine image_header mk_wcs).

Lemma load_objects_ok skip coadd sources c xs :
  ld skip coadd sources = Ok (c, xs) <->
  co_loaded coadd c /\ length xs = length sources /\
  forall n s, nth_error sources n = Some s ->
    exists x, nth_error xs n = Some x /\ src_loaded skip (Z.of_nat n + 1) s x.
Proof.
  unfold load_objects, coadd_loaded. fold (step_affine coadd).
  pose proof (fun f => or_affine_ok (gives_image_wcs image_header mk_wcs) coadd (image_wcs image_header mk_wcs coadd) f) as HI.
  split.
  - intros H. destruct (or_affine has_affine coadd (image_wcs image_header mk_wcs coadd)) as [iw|] eqn:Ei; [|discriminate].
    cbn [bind] in H. destruct (step_affine coadd) as [a|] eqn:Ea; [|discriminate]. cbn [bind] in H.
    destruct (ld_srcs skip 0 sources) as [ys|] eqn:Ey; [|discriminate]. cbn [bind] in H.
    apply Ok_inj in H. apply pair_equal_spec in H as [<- <-].
    apply load_sources_ok in Ey as [Hl Hn]. split; [|split; [exact Hl|exact Hn]].
    cbn. apply affine_ok in Ea. repeat (split; [first [reflexivity|assumption]|]).
    split; [apply HI; [intros y; apply gives_image|reflexivity]|]. auto.
  - destruct c as [cs ci ca cg cw ch cp cpp cpw cpx]. cbn [ld_source ld_image_id ld_affine_wcs ld_galsim_psf ld_image_wcs ld_head_wcs ld_psfex_psf ld_piff_psf ld_piff_wcs ld_pixmappy_wcs].
    intros ((-> & -> & Ha & -> & Hw & -> & -> & -> & -> & ->) & Hl & Hn).
    apply HI in Hw; [|intros y; apply gives_image]. apply affine_ok in Ha. rewrite Hw, Ha. cbn [bind].
    assert (Ey : ld_srcs skip 0 sources = Ok xs); [|now rewrite Ey].
    apply load_sources_ok. auto.
Qed.

Lemma load_objects_err skip coadd sources e :
  ld skip coadd sources = Raise e ->
  co_error coadd e \/
  exists n s, nth_error sources n = Some s /\ src_error skip s e /\
    forall m s', (m < n)%nat -> nth_error sources m = Some s' -> exists x, src_loaded skip (Z.of_nat m + 1) s' x.
Proof.
  unfold load_objects, coadd_error. fold (step_affine coadd). intros H.
  destruct (or_affine has_affine coadd (image_wcs image_header mk_wcs coadd)) as [iw|e1] eqn:Ei; cbn [bind] in H.
  2: { injection H as ->. left. right.
       apply (or_affine_err _ coadd (image_wcs image_header mk_wcs coadd)); [intros y; apply gives_image|exact Ei]. }
  destruct (step_affine coadd) as [a|e1] eqn:Ea; cbn [bind] in H.
  2: { injection H as ->. left. left. now apply affine_err. }
  destruct (ld_srcs skip 0 sources) as [ys|e1] eqn:Ey; cbn [bind] in H; [discriminate|].
  injection H as ->. right. exact (load_sources_err skip e sources 0 Ey).
Qed.
End Load.

(** The table of images. *)
Section Info.
Context {F : Type}.

Lemma mapM_ok {A B} (f : A -> result B) : forall l r, mapM f l = Ok r <-> Forall2 (fun a b => f a = Ok b) l r.
Proof.
  induction l as [|a l IH]; intros r; cbn [mapM].
  - split; [intros H; apply Ok_inj in H; subst; constructor|]. intros H. inversion H. reflexivity.
  - split.
    + intros H. destruct (f a) as [b|] eqn:E; [|discriminate]. cbn [bind] in H.
      destruct (mapM f l) as [bs|] eqn:E'; [|discriminate]. cbn [bind] in H. apply Ok_inj in H. subst r.
      constructor; [exact E|]. now apply IH.
    + intros H. inversion H as [|a' b l' bs H1 H2]; subst. rewrite H1. cbn [bind].
      apply IH in H2. now rewrite H2.
Qed.

Lemma mapM_err {A B} (f : A -> result B) e : forall l, mapM f l = Raise e -> exists a, In a l /\ f a = Raise e.
Proof.
  induction l as [|a l IH]; cbn [mapM]; intros H; [discriminate|].
  destruct (f a) as [b|e'] eqn:E; cbn [bind] in H.
  - destruct (mapM f l) as [bs|e'] eqn:E'; cbn [bind] in H; [discriminate|]. injection H as ->.
    destruct (IH eq_refl) as (x & Hx & Ex). exists x. split; [right; exact Hx|exact Ex].
  - injection H as ->. exists a. split; [left; reflexivity|exact E].
Qed.

Lemma fold_max_ge : forall l a x, (x <= a)%nat \/ In x l -> (x <= fold_left Nat.max l a)%nat.
Proof.
  induction l as [|b l IH]; intros a x [H|H]; cbn [fold_left].
  - exact H.
  - destruct H.
  - apply IH. left. lia.
  - destruct H as [->|H]; apply IH; [left; lia|right; exact H].
Qed.

Lemma pymax_ge l m x : pymax l = Ok m -> In x l -> (x <= m)%nat.
Proof.
  destruct l as [|a l]; [discriminate|]. cbn [pymax]. intros H Hx. apply Ok_inj in H. subst m.
  apply fold_max_ge. destruct Hx as [->|Hx]; [left; lia|right; exact Hx].
Qed.

Lemma pymax_nonempty l : l <> [] -> exists m, pymax l = Ok m.
Proof. destruct l as [|a l]; [congruence|]. intros _. eexists. reflexivity. Qed.

Lemma fit_all n s : (String.length s <= n)%nat -> fit n s = s.
Proof.
  unfold fit. revert n. induction s as [|c s IH]; intros [|n] H; cbn in *; try reflexivity; [lia|].
  f_equal. apply IH. lia.
Qed.

Lemma fit_cut n s : cut n s (fit n s).
Proof.
  unfold fit, cut, starts. revert n. induction s as [|c s IH]; intros [|n]; cbn; try (split; [exists ""|]; reflexivity).
  - split; [|reflexivity]. exists (String c s). reflexivity.
  - destruct (IH n) as ((r & E) & Hl). split; [|now rewrite Hl]. exists r. cbn. now rewrite <- E.
Qed.

Lemma zrange_ids : forall (l : list Z) a,
  l = zrange a (a + Z.of_nat (length l)) <->
  forall n x, nth_error l n = Some x -> x = a + Z.of_nat n.
Proof.
  intros l a. unfold zrange. replace (Z.to_nat (a + Z.of_nat (length l) - a)) with (length l) by lia.
  split.
  - intros E n x Hx. rewrite E in Hx. rewrite nth_error_map in Hx.
    assert (Hn : (n < length l)%nat).
    { apply nth_error_Some. rewrite E, nth_error_map.
      destruct (nth_error (seq 0 (length l)) n); [discriminate|]. cbn in Hx. discriminate. }
    assert (En : nth_error (seq 0 (length l)) n = Some n).
    { rewrite nth_error_nth' with (d := 0%nat) by (rewrite seq_length; exact Hn). now rewrite seq_nth. }
    rewrite En in Hx. cbn in Hx. congruence.
  - intros H. apply nth_ext with (d := 0) (d' := 0); [now rewrite map_length, seq_length|].
    intros n Hn. assert (K := nth_error_nth' l 0 Hn). rewrite (H n _ K).
    rewrite nth_indep with (d' := (fun k => a + Z.of_nat k) 0%nat) by (rewrite map_length, seq_length; exact Hn).
    rewrite map_nth with (d := 0%nat). now rewrite seq_nth.
Qed.

Lemma row_ok plen wlen (e : im_entry (F := F)) r :
  (forall x, In x (str_lengths e) -> (x <= plen)%nat) ->
  (forall w, im_wcs e = Ok w -> (String.length w <= wlen)%nat) ->
  image_row plen 3 wlen e = Ok r -> row_of e r.
Proof.
  intros Hp Hw H. unfold image_row in H. destruct (im_wcs e) as [w|] eqn:Ew; [|discriminate].
  cbn [bind] in H. apply Ok_inj in H. subst r. unfold row_of. cbn.
  specialize (Hw w eq_refl). unfold str_lengths in Hp. cbn [map In] in Hp.
  repeat (split; [first [reflexivity|apply fit_cut|apply fit_all, Hp; auto 10]|]).
  rewrite fit_all by exact Hw. exact Ew.
Qed.

Lemma coadd_ok wlen (e : im_entry (F := F)) r :
  (forall w, im_wcs e = Ok w -> (String.length w <= wlen)%nat) ->
  coadd_row wlen e = Ok r -> coadd_row_of e r.
Proof.
  intros Hw H. unfold coadd_row in H. destruct (im_wcs e) as [w|] eqn:Ew; [|discriminate].
  cbn [bind] in H. apply Ok_inj in H. subst r. unfold coadd_row_of. cbn.
  specialize (Hw w eq_refl).
  repeat (split; [reflexivity|]). rewrite fit_all by exact Hw. exact Ew.
Qed.

Lemma mapM_total {A B} (f : A -> result B) l : (forall a, In a l -> exists b, f a = Ok b) -> exists r, mapM f l = Ok r.
Proof.
  induction l as [|a l IH]; intros H; cbn [mapM]; [eauto|].
  destruct (H a (or_introl eq_refl)) as (b & ->). cbn [bind].
  destruct IH as (r & ->); [intros x Hx; apply H; right; exact Hx|]. cbn [bind]. eauto.
Qed.

Lemma Forall2_nth {A B} (R : A -> B -> Prop) : forall l r, Forall2 R l r -> forall n a, nth_error l n = Some a ->
  exists b, nth_error r n = Some b /\ R a b.
Proof.
  induction 1 as [|a b l r H1 H2 IH]; intros [|n] x E; cbn in *; try discriminate; [|eauto].
  injection E as <-. eauto.
Qed.

Lemma F2len {A B} (R : A -> B -> Prop) l r : Forall2 R l r -> length l = length r.
Proof. induction 1; cbn; congruence. Qed.

Lemma In_nth_err {A} (l : list A) a : In a l -> exists n, nth_error l n = Some a.
Proof. apply In_nth_error. Qed.

(** The structure common to all the cases. *)
Lemma info_core (coadd : im_entry (F := F)) srcs : all_wcs coadd srcs -> srcs <> [] ->
  exists r0 rows,
    coadd_row_of coadd r0 /\ Forall2 row_of srcs rows /\
    (good_ids coadd srcs -> build_image_info coadd srcs = Ok (r0 :: rows)) /\
    (~ good_ids coadd srcs -> build_image_info coadd srcs = Raise AssertionError).
Proof.
  intros Hw Hne. unfold build_image_info.
  destruct (Hw coadd (or_introl eq_refl)) as (cw & Ecw). rewrite Ecw. cbn [bind].
  destruct (mapM_total im_wcs srcs) as (sw & Esw); [intros e He; apply Hw; right; exact He|]. rewrite Esw. cbn [bind].
  destruct (pymax_nonempty (String.length cw :: map String.length sw)) as (mw & Emw); [discriminate|].
  rewrite Emw. cbn [bind].
  destruct (mapM_total (fun e => pymax (str_lengths e)) srcs) as (lens & El).
  { intros e He. apply pymax_nonempty. discriminate. }
  rewrite El. cbn [bind]. apply mapM_ok in El.
  assert (Nl : lens <> []).
  { intros ->. apply F2len in El. destruct srcs; [congruence|discriminate]. }
  destruct (pymax_nonempty lens Nl) as (ms & Ems). rewrite Ems. cbn [bind].
  assert (Wlen : forall e w, In e (coadd :: srcs) -> im_wcs e = Ok w -> (String.length w <= mw)%nat).
  { intros e w [<-|He] Ew.
    - apply (pymax_ge _ _ _ Emw). left. congruence.
    - apply (pymax_ge _ _ _ Emw). right. apply in_map. apply mapM_ok in Esw.
      apply In_nth_err in He as (n & Hn). destruct (Forall2_nth _ _ _ Esw n e Hn) as (w' & K1 & K2).
      assert (w' = w) by congruence. subst w'. exact (nth_error_In _ _ K1). }
  assert (Plen : forall e x, In e srcs -> In x (str_lengths e) -> (x <= ms)%nat).
  { intros e x He Hx. apply In_nth_err in He as (n & Hn).
    destruct (Forall2_nth _ _ _ El n e Hn) as (m & K1 & K2).
    pose proof (pymax_ge _ _ _ K2 Hx). pose proof (pymax_ge _ _ m Ems (nth_error_In _ _ K1)). lia. }
  assert (E0 : exists r0, coadd_row mw coadd = Ok r0).
  { unfold coadd_row. rewrite Ecw. cbn [bind]. eauto. }
  destruct E0 as (r0 & E0). rewrite E0. cbn [bind].
  destruct (mapM_total (image_row ms 3 mw) srcs) as (rows & Er).
  { intros e He. unfold image_row. destruct (Hw e (or_intror He)) as (w & ->). cbn [bind]. eauto. }
  rewrite Er. cbn [bind]. apply mapM_ok in Er.
  exists r0, rows.
  assert (Hr0 : coadd_row_of coadd r0).
  { apply (coadd_ok mw); [|exact E0]. intros w. apply Wlen. left. reflexivity. }
  assert (Hrows : Forall2 row_of srcs rows).
  { assert (K : forall l, incl l srcs -> forall r, Forall2 (fun a b => image_row ms 3 mw a = Ok b) l r -> Forall2 row_of l r).
    { intros l Hi r H. revert Hi. induction H as [|a b l r H1 H2 IH]; intros Hi; constructor.
      - apply (row_ok ms mw); [| |exact H1].
        + intros x. apply Plen, Hi. left. reflexivity.
        + intros w. apply Wlen. right. apply Hi. left. reflexivity.
      - apply IH. intros y Hy. apply Hi. right. exact Hy. }
    apply (K srcs (incl_refl _) rows Er). }
  split; [exact Hr0|]. split; [exact Hrows|].
  assert (Hid : (map r_id (r0 :: rows) = zrange 0 (Z.of_nat (length (r0 :: rows)))) <-> good_ids coadd srcs).
  { replace (Z.of_nat (length (r0 :: rows))) with (0 + Z.of_nat (length (map r_id (r0 :: rows)))) by (rewrite map_length; lia).
    rewrite zrange_ids. unfold good_ids. split.
    - intros H. split.
      + destruct Hr0 as (Hr0 & _). rewrite <- Hr0. exact (H 0%nat _ eq_refl).
      + intros n e He. destruct (Forall2_nth _ _ _ Hrows n e He) as (r & K1 & (K2 & _)).
        rewrite <- K2. pose proof (H (Datatypes.S n) (r_id r)) as X. cbn [map nth_error] in X.
        rewrite nth_error_map, K1 in X. specialize (X eq_refl). lia.
    - intros [H1 H2] [|n] x Hx; cbn [map nth_error] in Hx.
      + injection Hx as <-. destruct Hr0 as (Hr0 & _). lia.
      + rewrite nth_error_map in Hx. destruct (nth_error rows n) as [r|] eqn:Er'; [|discriminate].
        cbn in Hx. injection Hx as <-.
        destruct (nth_error srcs n) as [e|] eqn:Ee.
        * destruct (Forall2_nth _ _ _ Hrows n e Ee) as (r' & K1 & (K2 & _)).
          assert (r' = r) by congruence. subst r'. rewrite K2, (H2 n e Ee). lia.
        * exfalso. apply nth_error_None in Ee. rewrite (F2len _ _ _ Hrows) in Ee. apply nth_error_None in Ee. congruence. }
  destruct (list_eq_dec Z.eq_dec _ _) as [E|E].
  - split; [reflexivity|]. intros N. exfalso. apply N, Hid. exact E.
  - split; [|reflexivity]. intros N. exfalso. apply E, Hid. exact N.
Qed.

Lemma info_empty (coadd : im_entry (F := F)) w : im_wcs coadd = Ok w -> build_image_info coadd [] = Raise ValueError.
Proof. intros H. unfold build_image_info. rewrite H. reflexivity. Qed.

Lemma info_wcs_error (coadd : im_entry (F := F)) srcs :
  ~ all_wcs coadd srcs -> exists e x, In x (coadd :: srcs) /\ im_wcs x = Raise e /\ build_image_info coadd srcs = Raise e.
Proof.
  intros H. unfold build_image_info. destruct (im_wcs coadd) as [cw|e] eqn:Ec; cbn [bind].
  - destruct (mapM im_wcs srcs) as [sw|e] eqn:Es; cbn [bind].
    + exfalso. apply H. intros e [<-|He]; [eauto|]. apply mapM_ok in Es.
      apply In_nth_err in He as (n & Hn). destruct (Forall2_nth _ _ _ Es n e Hn) as (w & _ & K). eauto.
    + destruct (mapM_err _ _ _ Es) as (x & Hx & Ex). exists e, x. split; [right; exact Hx|]. auto.
  - exists e, coadd. split; [left; reflexivity|]. auto.
Qed.
End Info.
