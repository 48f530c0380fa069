From Coq Require Import ZArith Bool String Ascii List Lia.
From Verif Require Import Lib.Base Lib.Floats Lib.PyStr Model.DesInfo Spec.DesInfoSpec Proofs.PyStrProofs
  Proofs.SliceInputsProofs.
Import ListNotations.
Open Scope string_scope.
Open Scope list_scope.
Open Scope Z_scope.

Lemma startswith_iff p : forall s, startswith p s = true <-> starts p s.
Proof.
  unfold startswith, starts. induction p as [|c p IH]; intros s.
  - split; [intros _; exists s; reflexivity|intros _; destruct s; reflexivity].
  - destruct s as [|d s].
    + split; [discriminate|]. intros (r & H). discriminate.
    + cbn [String.prefix]. destruct (ascii_dec c d) as [->|N].
      * rewrite IH. split; intros (r & H); exists r; [cbn; congruence|]. cbn in H. congruence.
      * split; [discriminate|]. intros (r & H). cbn in H. congruence.
Qed.

Lemma substring_all s : String.substring 0 (String.length s) s = s.
Proof. induction s; cbn; congruence. Qed.

Lemma substring_app pre p : String.substring (String.length pre) (String.length p) (pre ++ p)%string = p.
Proof. induction pre as [|c pre IH]; cbn; [apply substring_all|exact IH]. Qed.

Lemma substring_split : forall k s, (k <= String.length s)%nat ->
  exists pre, s = (pre ++ String.substring k (String.length s - k) s)%string.
Proof.
  induction k as [|k IH]; intros s H.
  - exists "". rewrite Nat.sub_0_r, substring_all. reflexivity.
  - destruct s as [|c s]; [cbn in H; lia|]. cbn [String.length] in *.
    destruct (IH s ltac:(lia)) as (pre & E). exists (String c pre). cbn. f_equal. exact E.
Qed.

Lemma endswith_iff p s : endswith p s = true <-> ends p s.
Proof.
  unfold endswith, ends. rewrite andb_true_iff, Nat.leb_le, String.eqb_eq. split.
  - intros [H E]. destruct (substring_split (String.length s - String.length p) s ltac:(lia)) as (pre & K).
    exists pre. replace (String.length s - (String.length s - String.length p))%nat with (String.length p) in K by lia.
    rewrite E in K. exact K.
  - intros (pre & ->). rewrite append_length. split; [lia|].
    replace (String.length pre + String.length p - String.length p)%nat with (String.length pre) by lia.
    apply substring_app.
Qed.

Lemma free_iff c s : all_chars (fun d => negb (Ascii.eqb d c)) s = true <-> free_of c s.
Proof.
  unfold free_of. induction s as [|d s IH]; cbn [all_chars].
  - split; [intros _ [|] b; discriminate|reflexivity].
  - rewrite andb_true_iff, IH, negb_true_iff, Ascii.eqb_neq. split.
    + intros [N H] [|x a] b E; cbn in E; injection E as E1 E2; [congruence|]. exact (H a b E2).
    + intros H. split.
      * intros ->. exact (H "" s eq_refl).
      * intros a b E. apply (H (String d a) b). cbn. congruence.
Qed.

Lemma split_on_nonempty sep s : split_on sep s <> [].
Proof.
  destruct s as [|c s]; cbn; [discriminate|]. destruct (Ascii.eqb c sep); [discriminate|].
  destruct (split_on sep s); discriminate.
Qed.

(** [split_on] from the left: no separator, or the first one. *)
Lemma split_case sep s :
  (free_of sep s /\ split_on sep s = [s]) \/
  (exists a b, s = (a ++ String sep b)%string /\ free_of sep a /\ split_on sep s = a :: split_on sep b).
Proof.
  induction s as [|c s IH].
  - left. split; [apply free_iff; reflexivity|reflexivity].
  - destruct (Ascii.eqb c sep) eqn:Ec.
    + apply Ascii.eqb_eq in Ec. subst c. right. exists "", s. split; [reflexivity|].
      split; [apply free_iff; reflexivity|]. cbn. now rewrite Ascii.eqb_refl.
    + destruct IH as [[Hf E]|(a & b & -> & Hf & E)].
      * left. split; [apply free_iff; cbn; rewrite Ec; now apply free_iff in Hf|].
        cbn. now rewrite Ec, E.
      * right. exists (String c a), b. split; [reflexivity|].
        split; [apply free_iff; cbn; rewrite Ec; now apply free_iff in Hf|].
        cbn. now rewrite Ec, E.
Qed.

Lemma split_last sep s : free_of sep (last (split_on sep s) "") /\
  (s = last (split_on sep s) "" \/ exists d, s = (d ++ String sep (last (split_on sep s) ""))%string).
Proof.
  remember (String.length s) as n eqn:En.
  assert (Hn : (String.length s <= n)%nat) by lia. clear En.
  revert s Hn. induction n as [|n IH]; intros s Hn.
  - destruct s; [|cbn in Hn; lia]. split; [apply free_iff; reflexivity|left; reflexivity].
  - destruct (split_case sep s) as [[Hf ->]|(a & b & -> & Hf & ->)].
    + cbn. split; [exact Hf|left; reflexivity].
    + rewrite append_length in Hn. cbn in Hn.
      destruct (IH b ltac:(lia)) as [K1 K2].
      assert (El : last (a :: split_on sep b) "" = last (split_on sep b) "").
      { pose proof (split_on_nonempty sep b). destruct (split_on sep b); [congruence|reflexivity]. }
      rewrite El. split; [exact K1|]. right. destruct K2 as [K2|(d & K2)].
      * exists a. congruence.
      * exists (a ++ String sep d)%string. rewrite K2 at 1. now rewrite <- append_assoc.
Qed.

Lemma free_unique sep : forall a a' b b', free_of sep b -> free_of sep b' ->
  (a ++ String sep b)%string = (a' ++ String sep b')%string -> b = b'.
Proof.
  induction a as [|c a IH]; intros [|c' a'] b b' Hb Hb' E; cbn in E.
  - congruence.
  - injection E as E1 E2. exfalso. exact (Hb _ _ E2).
  - injection E as E1 E2. exfalso. exact (Hb' _ _ (eq_sym E2)).
  - injection E as E1 E2. exact (IH _ _ _ Hb Hb' E2).
Qed.

Lemma basename_file p b : file_name p b <-> b = basename p.
Proof.
  unfold file_name, basename. destruct (split_last "/" p) as [K1 K2]. split.
  - intros [Hf [->|(dir & E)]].
    + destruct K2 as [K2|(d & K2)]; [exact K2|]. exfalso. exact (Hf _ _ K2).
    + destruct K2 as [K2|(d & K2)].
      * exfalso. rewrite <- K2 in K1. exact (K1 _ _ E).
      * apply (free_unique "/" dir d b _ Hf K1). rewrite <- K2. symmetry. exact E.
  - intros ->. split; [exact K1|]. destruct K2 as [K2|(d & K2)]; [left; exact K2|right; exists d; exact K2].
Qed.

Lemma free_first sep : forall a a' b b', free_of sep a -> free_of sep a' ->
  (a ++ String sep b)%string = (a' ++ String sep b')%string -> a = a'.
Proof.
  induction a as [|c a IH]; intros [|c' a'] b b' Ha Ha' E; cbn in E.
  - reflexivity.
  - injection E as E1 E2. subst c'. exfalso. exact (Ha' "" a' eq_refl).
  - injection E as E1 E2. subst c. exfalso. exact (Ha "" a eq_refl).
  - injection E as E1 E2. subst c'. f_equal. apply (IH a' b b'); [| |exact E2].
    + intros x y H. apply (Ha (String c x) y). cbn. congruence.
    + intros x y H. apply (Ha' (String c x) y). cbn. congruence.
Qed.

Lemma tile_part_iff p t : tile_part p t <-> t = tile_of_path p.
Proof.
  unfold tile_part, tile_of_path. split.
  - intros (Hf & b & Hb & H). apply basename_file in Hb. subst b.
    destruct (split_case "_" (basename p)) as [[Hn E]|(a & c & E & Ha & E')].
    + rewrite E. cbn. destruct H as [H|(r & H)]; [congruence|].
      exfalso. apply (Hn t r). rewrite H. now rewrite <- append_assoc.
    + rewrite E'. cbn. destruct H as [H|(r & H)].
      * exfalso. rewrite <- H in Hf. exact (Hf _ _ E).
      * apply (free_first "_" t a r c Hf Ha). rewrite <- E, H. now rewrite <- append_assoc.
  - intros ->. destruct (split_case "_" (basename p)) as [[Hn E]|(a & c & E & Ha & E')].
    + rewrite E. cbn. split; [exact Hn|]. exists (basename p). split; [now apply basename_file|left; reflexivity].
    + rewrite E'. cbn. split; [exact Ha|]. exists (basename p). split; [now apply basename_file|]. right.
      exists c. rewrite E. now rewrite <- append_assoc.
Qed.

(** Sets. *)
Lemma set_add_In s l x : In x (set_add s l) <-> x = s \/ In x l.
Proof.
  unfold set_add. destruct (existsb (String.eqb s) l) eqn:E.
  - apply existsb_exists in E as (y & Hy & E). apply String.eqb_eq in E. subst y.
    split; [auto|]. intros [->|H]; assumption.
  - rewrite in_app_iff. cbn. intuition auto.
Qed.

Lemma set_add_NoDup s l : NoDup l -> NoDup (set_add s l).
Proof.
  intros H. unfold set_add. destruct (existsb (String.eqb s) l) eqn:E; [exact H|].
  assert (N : ~ In s l).
  { intros K. assert (X : existsb (String.eqb s) l = true); [|congruence].
    apply existsb_exists. exists s. split; [exact K|apply String.eqb_refl]. }
  clear E. induction H as [|y l Hy H IH]; cbn.
  - constructor; [intros []|constructor].
  - constructor.
    + rewrite in_app_iff. cbn. intros [K|[K|[]]]; [exact (Hy K)|]. subst. apply N. left. reflexivity.
    + apply IH. intros K. apply N. right. exact K.
Qed.

Lemma fold_set {A} (f : A -> string) : forall l acc, NoDup acc ->
  NoDup (fold_left (fun s a => set_add (f a) s) l acc) /\
  forall x, In x (fold_left (fun s a => set_add (f a) s) l acc) <-> In x acc \/ exists a, In a l /\ x = f a.
Proof.
  induction l as [|a l IH]; intros acc H; cbn [fold_left].
  - split; [exact H|]. intros x. split; [auto|]. intros [K|(a & [] & _)]. exact K.
  - destruct (IH (set_add (f a) acc) (set_add_NoDup _ _ H)) as [I1 I2]. split; [exact I1|].
    intros x. rewrite I2, set_add_In. split.
    + intros [[->|K]|(b & Hb & ->)]; [right; exists a; cbn; auto|auto|right; exists b; cbn; auto].
    + intros [K|(b & [->|Hb] & ->)]; [auto|auto|right; eauto].
Qed.

Lemma set_single (l : list string) x : NoDup l -> In x l ->
  (Nat.ltb 1 (length l) = false <-> forall y, In y l -> y = x).
Proof.
  intros Hn Hx. rewrite Nat.ltb_ge. split.
  - intros Hl y Hy. destruct l as [|a [|b l]]; cbn in Hl; [destruct Hx| |lia].
    destruct Hx as [<-|[]]. destruct Hy as [<-|[]]. reflexivity.
  - intros H. destruct l as [|a [|b l]]; cbn; [lia|lia|].
    exfalso. apply NoDup_cons_iff in Hn as [N _]. apply N. left.
    rewrite (H a (or_introl eq_refl)). apply H. right. left. reflexivity.
Qed.

Lemma flat_map_nil {A B} (f : A -> list B) l : flat_map f l = [] <-> forall a, In a l -> f a = [].
Proof.
  induction l as [|a l IH]; cbn [flat_map].
  - split; [intros _ a []|reflexivity].
  - split.
    + intros H. apply app_eq_nil in H as [H1 H2]. intros b [<-|Hb]; [exact H1|]. now apply IH.
    + intros H. rewrite (H a (or_introl eq_refl)). apply IH. intros b Hb. apply H. right. exact Hb.
Qed.

Lemma not_null_names v p : not_null v = Some p <-> names v p.
Proof.
  unfold not_null, names. destruct v as [| |s].
  - split; [discriminate|]. intros [H _]. discriminate.
  - split; [discriminate|]. intros [H _]. discriminate.
  - destruct s as [|c s]; cbn.
    + split; [discriminate|]. intros [H N]. congruence.
    + split; [intros H; injection H as <-; split; [reflexivity|discriminate]|].
      intros [H N]. congruence.
Qed.

Lemma In_filter_paths l p : In p (filter_paths l) <-> exists v, In v l /\ names v p.
Proof.
  unfold filter_paths. rewrite in_flat_map. split.
  - intros (v & Hv & H). destruct (not_null v) as [s|] eqn:E; [|destruct H].
    destruct H as [->|[]]. apply not_null_names in E. eauto.
  - intros (v & Hv & H). exists v. split; [exact Hv|]. apply not_null_names in H. rewrite H. left. reflexivity.
Qed.

Lemma if_nil {A} (b : bool) (x : A) : (if b then [] else [x]) = [] <-> b = true.
Proof. destruct b; split; congruence || discriminate. Qed.

Lemma In_coadd {F} (t : tile_info (F := F)) v : In v (coadd_paths t) <-> coadd_file t v.
Proof. unfold coadd_paths, coadd_file. cbn. intuition auto. Qed.

Lemma In_se e v : In v (se_paths e) <-> se_file e v.
Proof. unfold se_paths, se_file. cbn. intuition auto 10. Qed.

Section Check.
Context {F : Type} {FO : FloatOps F}.
Variables (pop first : list string -> string).
Hypothesis (Hpop : picks pop) (Hfirst : picks first).
Variable t : tile_info (F := F).

Let T := fold_left (fun s p => set_add (tile_of_path p) s) (filter_paths (coadd_paths t)) [].
Let B := fold_left (fun s e => set_add (se_band e) s) (ti_src_info t) (set_add (ti_band t) []).

Lemma T_In x : In x T <-> exists v p, coadd_file t v /\ names v p /\ x = tile_of_path p.
Proof.
  unfold T. destruct (fold_set tile_of_path (filter_paths (coadd_paths t)) [] (NoDup_nil _)) as [_ H].
  rewrite H. split.
  - intros [[]|(p & Hp & ->)]. apply In_filter_paths in Hp as (v & Hv & Hn). apply In_coadd in Hv. eauto.
  - intros (v & p & Hv & Hn & ->). right. exists p. split; [|reflexivity].
    apply In_filter_paths. exists v. apply In_coadd in Hv. auto.
Qed.

Lemma T_NoDup : NoDup T.
Proof. apply fold_set. constructor. Qed.

Lemma B_In x : In x B <-> x = ti_band t \/ exists e, In e (ti_src_info t) /\ x = se_band e.
Proof.
  unfold B. assert (N : NoDup (set_add (ti_band t) [])) by (apply set_add_NoDup; constructor).
  destruct (fold_set se_band (ti_src_info t) _ N) as [_ H]. rewrite H, set_add_In. cbn. intuition auto.
Qed.

Lemma B_NoDup : NoDup B.
Proof. apply fold_set. apply set_add_NoDup. constructor. Qed.

Lemma B_first : In (first B) B.
Proof.
  apply Hfirst. intros E. assert (K : In (ti_band t) B) by (apply B_In; auto). rewrite E in K. exact K.
Qed.

Definition rest_ok (tile band : string) : Prop :=
  feqb (ti_scale t) fone = true /\
  (forall p, names (ti_bmask_path t) p \/ names (ti_image_path t) p ->
     ends ("_" ++ band ++ ".fits.fz")%string p \/ ends ("_" ++ band ++ ".fits")%string p) /\
  (forall p, names (ti_cat_path t) p -> ends ("_" ++ band ++ "_cat.fits")%string p) /\
  (forall p, names (ti_psf_path t) p -> ends ("_" ++ band ++ "_psfcat.psf")%string p) /\
  (forall p, names (ti_seg_path t) p ->
     ends ("_" ++ band ++ "_segmap.fits")%string p \/ ends ("_" ++ band ++ "_segmap.fits.fz")%string p) /\
  (forall e v p b, In e (ti_src_info t) -> se_file e v -> names v p -> file_name p b ->
     starts ("D" ++ dec_pad 8 (se_expnum e) ++ "_" ++ band ++ "_c" ++ dec_pad 2 (se_ccdnum e) ++ "_")%string b) /\
  (forall e, In e (ti_src_info t) -> se_tilename e = tile) /\
  (forall e p b, In e (ti_src_info t) -> names (se_head_path e) p -> file_name p b ->
     starts tile b /\
     ends ("_" ++ band ++ "_c" ++ dec_pad 2 (se_ccdnum e) ++ "_scamp.ohead")%string b).

Lemma consistent_split tile band : consistent t tile band <->
  T <> [] /\ (forall x, In x T -> x = tile) /\ (forall x, In x B -> x = band) /\ rest_ok tile band.
Proof.
  unfold consistent, rest_ok. split.
  - intros ((v & p & Hv & Hp) & H1 & H2 & H3 & H4 & H5). split.
    + intros E. assert (K : In (tile_of_path p) T) by (apply T_In; eauto). rewrite E in K. exact K.
    + split.
      * intros x K. apply T_In in K as (v' & p' & K1 & K2 & ->). symmetry. apply tile_part_iff. eauto.
      * split; [intros x K; apply B_In in K as [->|(e & K & ->)]; [exact H3|exact (H4 e K)]|].
        tauto.
  - intros (N & H1 & H2 & H3 & H4). split.
    + destruct T as [|x l] eqn:E; [congruence|]. assert (K : In x T) by (rewrite E; left; reflexivity).
      apply T_In in K as (v & p & K1 & K2 & _). eauto.
    + split.
      * intros v p Hv Hp. apply tile_part_iff. symmetry. apply H1. apply T_In. eauto.
      * split; [exact H3|]. split; [apply H2, B_In; auto|].
        split; [intros e He; apply H2, B_In; eauto|]. tauto.
Qed.

Lemma end_nil v l : (match not_null v with
    | None => []
    | Some p => if existsb (fun e => endswith e p) l then [] else [ErrEnd p] end = []) <->
  (forall p, names v p -> exists e, In e l /\ ends e p).
Proof.
  destruct (not_null v) as [p|] eqn:E.
  - apply not_null_names in E. rewrite if_nil, existsb_exists. split.
    + intros (e & He & K) q [Hq _]. destruct E as [E _]. assert (q = p) by congruence. subst q.
      exists e. split; [exact He|]. now apply endswith_iff.
    + intros H. destruct (H p E) as (e & He & K). exists e. split; [exact He|]. now apply endswith_iff.
  - split; [|reflexivity]. intros _ p Hp. apply not_null_names in Hp. congruence.
Qed.

Lemma rest_nil tile band :
  (if negb (feqb (ti_scale t) fone) then [ErrScale] else []) ++
  flat_map (fun q => match not_null (fst q) with
                     | None => []
                     | Some p => if existsb (fun e => endswith e p) (snd q) then [] else [ErrEnd p]
                     end) (path_ends band t) ++
  flat_map (fun e =>
     flat_map (fun p => if startswith (ccd_slug band e) (basename p) then [] else [ErrSlug p])
       (filter_paths (se_paths e))) (ti_src_info t) ++
  flat_map (fun e => if String.eqb (se_tilename e) tile then [] else [ErrTilename e])
     (ti_src_info t) ++
  flat_map (fun e =>
     match not_null (se_head_path e) with
     | None => []
     | Some p =>
         (if startswith tile (basename p) then [] else [ErrHeadStart p]) ++
         (if endswith (scamp_slug band e) (basename p) then [] else [ErrHeadEnd p])
     end) (ti_src_info t) = [] <-> rest_ok tile band.
Proof.
  assert (An : forall A (a b : list A), a ++ b = [] <-> a = [] /\ b = []).
  { intros A a b. split; [apply app_eq_nil|]. intros [-> ->]. reflexivity. }
  rewrite !An, !flat_map_nil. unfold rest_ok.
  assert (S1 : (if negb (feqb (ti_scale t) fone) then [ErrScale] else []) = [] <-> feqb (ti_scale t) fone = true).
  { destruct (feqb (ti_scale t) fone); cbn; split; congruence || discriminate. }
  rewrite S1. clear S1.
  assert (S2 : (forall a, In a (path_ends band t) ->
      match not_null (fst a) with
      | Some p => if existsb (fun e => endswith e p) (snd a) then [] else [ErrEnd p]
      | None => [] end = []) <->
    (forall p, names (ti_bmask_path t) p \/ names (ti_image_path t) p ->
     ends ("_" ++ band ++ ".fits.fz")%string p \/ ends ("_" ++ band ++ ".fits")%string p) /\
    (forall p, names (ti_cat_path t) p -> ends ("_" ++ band ++ "_cat.fits")%string p) /\
    (forall p, names (ti_psf_path t) p -> ends ("_" ++ band ++ "_psfcat.psf")%string p) /\
    (forall p, names (ti_seg_path t) p ->
     ends ("_" ++ band ++ "_segmap.fits")%string p \/ ends ("_" ++ band ++ "_segmap.fits.fz")%string p)).
  { split.
    - intros H.
      assert (K : forall a, In a (path_ends band t) -> forall p, names (fst a) p -> exists e, In e (snd a) /\ ends e p).
      { intros a Ha. apply end_nil. exact (H a Ha). }
      unfold path_ends in K.
      split; [|split; [|split]].
      + intros p [Hp|Hp].
        * destruct (K _ (or_introl eq_refl) p Hp) as (e & [<-|[<-|[]]] & He); auto.
        * destruct (K _ (or_intror (or_intror (or_introl eq_refl))) p Hp) as (e & [<-|[<-|[]]] & He); auto.
      + intros p Hp. destruct (K _ (or_intror (or_introl eq_refl)) p Hp) as (e & [<-|[]] & He); auto.
      + intros p Hp. destruct (K _ (or_intror (or_intror (or_intror (or_introl eq_refl)))) p Hp) as (e & [<-|[]] & He); auto.
      + intros p Hp. destruct (K _ (or_intror (or_intror (or_intror (or_intror (or_introl eq_refl))))) p Hp) as (e & [<-|[<-|[]]] & He); auto.
    - intros (H1 & H2 & H3 & H4) a Ha. apply end_nil. intros p Hp.
      destruct Ha as [<-|[<-|[<-|[<-|[<-|[]]]]]]; cbn [fst snd] in *.
      + destruct (H1 p (or_introl Hp)) as [K|K]; eexists; (split; [|exact K]); cbn; auto.
      + pose proof (H2 p Hp) as K. eexists; (split; [|exact K]); cbn; auto.
      + destruct (H1 p (or_intror Hp)) as [K|K]; eexists; (split; [|exact K]); cbn; auto.
      + pose proof (H3 p Hp) as K. eexists; (split; [|exact K]); cbn; auto.
      + destruct (H4 p Hp) as [K|K]; eexists; (split; [|exact K]); cbn; auto. }
  rewrite S2. clear S2.
  assert (S3 : (forall a, In a (ti_src_info t) ->
     flat_map (fun p => if startswith (ccd_slug band a) (basename p) then [] else [ErrSlug p])
       (filter_paths (se_paths a)) = []) <->
   (forall e v p b, In e (ti_src_info t) -> se_file e v -> names v p -> file_name p b ->
     starts ("D" ++ dec_pad 8 (se_expnum e) ++ "_" ++ band ++ "_c" ++ dec_pad 2 (se_ccdnum e) ++ "_")%string b)).
  { split.
    - intros H e v p b He Hv Hp Hb. apply basename_file in Hb. subst b. apply startswith_iff.
      apply if_nil with (x := ErrSlug p). refine (proj1 (flat_map_nil _ _) (H e He) p _).
      apply In_filter_paths. exists v. split; [now apply In_se|exact Hp].
    - intros H e He. apply flat_map_nil. intros p Hp. apply if_nil. apply startswith_iff.
      apply In_filter_paths in Hp as (v & Hv & Hp). apply In_se in Hv.
      apply (H e v p (basename p) He Hv Hp). now apply basename_file. }
  rewrite S3. clear S3.
  assert (S4 : (forall a, In a (ti_src_info t) ->
      (if String.eqb (se_tilename a) tile then [] else [ErrTilename a]) = []) <->
    (forall e, In e (ti_src_info t) -> se_tilename e = tile)).
  { split; intros H e He.
    - apply String.eqb_eq. apply if_nil with (x := ErrTilename e). exact (H e He).
    - apply if_nil, String.eqb_eq. exact (H e He). }
  rewrite S4. clear S4.
  assert (S5 : (forall a, In a (ti_src_info t) ->
      match not_null (se_head_path a) with
      | Some p => (if startswith tile (basename p) then [] else [ErrHeadStart p]) ++
                  (if endswith (scamp_slug band a) (basename p) then [] else [ErrHeadEnd p])
      | None => [] end = []) <->
    (forall e p b, In e (ti_src_info t) -> names (se_head_path e) p -> file_name p b ->
     starts tile b /\
     ends ("_" ++ band ++ "_c" ++ dec_pad 2 (se_ccdnum e) ++ "_scamp.ohead")%string b)).
  { split.
    - intros H e p b He Hp Hb. apply basename_file in Hb. subst b. specialize (H e He).
      rewrite (proj2 (not_null_names _ _) Hp) in H. apply app_eq_nil in H as [H1 H2].
      apply if_nil in H1. apply if_nil in H2. split; [now apply startswith_iff|now apply endswith_iff].
    - intros H e He. destruct (not_null (se_head_path e)) as [p|] eqn:E; [|reflexivity].
      apply not_null_names in E.
      destruct (H e p (basename p) He E (proj2 (basename_file _ _) eq_refl)) as [K1 K2].
      apply startswith_iff in K1. apply endswith_iff in K2.
      rewrite K1. unfold scamp_slug. rewrite K2. reflexivity. }
  rewrite S5. tauto.
Qed.

Lemma app_nil_iff {A} (a b : list A) : a ++ b = [] <-> a = [] /\ b = [].
Proof. split; [apply app_eq_nil|]. intros [-> ->]. reflexivity. Qed.

Lemma has_missing : existsb (fun v => match v with Missing => true | _ => false end) (coadd_paths t) = true <->
  coadd_file t Missing.
Proof.
  rewrite existsb_exists. split.
  - intros (v & Hv & H). apply In_coadd in Hv. destruct v; [exact Hv|discriminate|discriminate].
  - intros H. exists Missing. split; [now apply In_coadd|reflexivity].
Qed.

Lemma T_pop : T <> [] -> In (pop T) T.
Proof. apply Hpop. Qed.

Lemma errors_case :
  (T = [] /\ info_errors pop first t = Raise KeyError) \/
  (T <> [] /\ Nat.ltb 1 (length T) = true /\ coadd_file t Missing /\ info_errors pop first t = Raise KeyError) \/
  (T <> [] /\ (Nat.ltb 1 (length T) = false \/ ~ coadd_file t Missing) /\
   exists l, info_errors pop first t = Ok l /\ (l = [] <-> exists tile band, consistent t tile band)).
Proof.
  unfold info_errors. fold T. fold B.
  pose proof T_NoDup as TN. pose proof B_NoDup as BN. pose proof B_first as BF. pose proof T_pop as TP.
  pose proof consistent_split as CS. clearbody T B.
  destruct (list_eq_dec String.string_dec T []) as [E|E].
  { left. split; [exact E|]. rewrite E. reflexivity. }
  right. specialize (TP E).
  assert (TL : Nat.eqb (length T) 0 = false) by (destruct T; [congruence|reflexivity]).
  assert (Key : forall l : list info_error,
     (l = [] <-> (Nat.ltb 1 (length T) = false /\ Nat.ltb 1 (length B) = false) /\ rest_ok (pop T) (first B)) ->
     (l = [] <-> exists tile band, consistent t tile band)).
  { intros l ->. split.
    - intros ((K1 & K2) & K3). exists (pop T), (first B). apply CS. split; [exact E|].
      split; [now apply set_single|]. split; [now apply set_single|exact K3].
    - intros (tile & band & K). apply CS in K as (_ & K1 & K2 & K3).
      rewrite (K1 (pop T) TP), (K2 (first B) BF). split; [|exact K3]. split.
      + apply (set_single T (pop T) TN TP). intros y Hy. now rewrite (K1 y Hy), (K1 _ TP).
      + apply (set_single B (first B) BN BF). intros y Hy. now rewrite (K2 y Hy), (K2 _ BF). }
  destruct (Nat.ltb 1 (length T)) eqn:EL.
  - destruct (existsb _ (coadd_paths t)) eqn:EM.
    + left. apply has_missing in EM. split; [exact E|]. auto.
    + right. split; [exact E|]. split.
      { right. intros K. apply has_missing in K. congruence. }
      cbn [bind]. rewrite TL. eexists. split; [reflexivity|]. apply Key.
      split; [discriminate|]. intros [[K _] _]. discriminate.
  - right. split; [exact E|]. split; [left; reflexivity|]. cbn [bind]. rewrite TL. eexists.
    split; [reflexivity|]. apply Key. clear Key. cbn [app].
    rewrite <- (rest_nil (pop T) (first B)). rewrite !app_nil_iff.
    assert (S3 : (if Nat.ltb 1 (length B) then [ErrBands] else []) = [] <-> Nat.ltb 1 (length B) = false).
    { destruct (Nat.ltb 1 (length B)); split; congruence || discriminate. }
    rewrite S3. tauto.
Qed.

Lemma T_multi : (exists v p v' p', coadd_file t v /\ coadd_file t v' /\ names v p /\ names v' p' /\
   tile_of_path p <> tile_of_path p') <-> Nat.ltb 1 (length T) = true.
Proof.
  pose proof T_NoDup as TN. pose proof T_In as TI. clearbody T. split.
  - intros (v & p & v' & p' & H1 & H2 & H3 & H4 & N).
    destruct (Nat.ltb 1 (length T)) eqn:E; [reflexivity|]. exfalso. apply N.
    assert (I1 : In (tile_of_path p) T) by (apply TI; eauto).
    assert (I2 : In (tile_of_path p') T) by (apply TI; eauto).
    exact (proj1 (set_single T (tile_of_path p') TN I2) E _ I1).
  - intros H. destruct T as [|a [|b l]]; [discriminate|discriminate|].
    destruct (proj1 (TI a) (or_introl eq_refl)) as (v & p & H1 & H2 & ->).
    destruct (proj1 (TI b) (or_intror (or_introl eq_refl))) as (v' & p' & H1' & H2' & ->).
    exists v, p, v', p'. repeat (split; [assumption|]). apply NoDup_cons_iff in TN as [N _].
    intros K. apply N. left. congruence.
Qed.

Lemma multi_inconsistent tile band : Nat.ltb 1 (length T) = true -> consistent t tile band -> False.
Proof.
  intros H K. apply consistent_split in K as (_ & K & _).
  apply T_multi in H as (v & p & v' & p' & H1 & H2 & H3 & H4 & N). apply N.
  rewrite (K (tile_of_path p)), (K (tile_of_path p')); [reflexivity| |]; apply T_In; eauto.
Qed.

Lemma T_empty : T = [] <-> ~ exists v p, coadd_file t v /\ names v p.
Proof.
  split.
  - intros E (v & p & H1 & H2). assert (K : In (tile_of_path p) T) by (apply T_In; eauto).
    rewrite E in K. exact K.
  - intros H. destruct T as [|x l] eqn:E; [reflexivity|]. exfalso. apply H.
    assert (K : In x T) by (rewrite E; left; reflexivity). apply T_In in K as (v & p & H1 & H2 & _). eauto.
Qed.

(** check_info accepts exactly the consistent descriptions. *)
Lemma check_info_iff :
  check_info pop first t = Ok tt <-> exists tile band, consistent t tile band.
Proof.
  unfold check_info. destruct errors_case as [[E ->]|[(E & M & _ & ->)|(E & _ & l & -> & H)]]; cbn [bind].
  - split; [discriminate|]. intros (tile & band & K). apply consistent_split in K as (K & _). congruence.
  - split; [discriminate|]. intros (tile & band & K). exfalso. exact (multi_inconsistent tile band M K).
  - rewrite <- H. destruct l; cbn; split; congruence || discriminate.
Qed.

(** A missing tile name is a KeyError. *)
Lemma check_info_no_tile :
  (~ exists v p, coadd_file t v /\ names v p) -> check_info pop first t = Raise KeyError.
Proof.
  intros H. apply T_empty in H. unfold check_info.
  destruct errors_case as [[E ->]|[(E & _)|(E & _)]]; [reflexivity|congruence|congruence].
Qed.

(** Different tile names with a key absent: building the message fails. *)
Lemma check_info_missing_key v p tp v' p' tp' :
  coadd_file t v -> coadd_file t v' -> names v p -> names v' p' -> tile_part p tp -> tile_part p' tp' ->
  tp <> tp' -> coadd_file t Missing -> check_info pop first t = Raise KeyError.
Proof.
  intros H1 H2 H3 H4 H5 H6 N M. apply tile_part_iff in H5, H6. subst tp tp'.
  assert (K : Nat.ltb 1 (length T) = true) by (apply T_multi; exists v, p, v', p'; auto).
  unfold check_info. destruct errors_case as [[E ->]|[(E & _ & _ & ->)|(E & [X|X] & _)]];
    [reflexivity|reflexivity|congruence|contradiction].
Qed.

(** In every other case an inconsistency is reported as a RuntimeError. *)
Lemma check_info_reports :
  (exists v p, coadd_file t v /\ names v p) ->
  (~ coadd_file t Missing \/
   forall v p tp v' p' tp', coadd_file t v -> coadd_file t v' -> names v p -> names v' p' ->
     tile_part p tp -> tile_part p' tp' -> tp = tp') ->
  ~ (exists tile band, consistent t tile band) ->
  check_info pop first t = Raise RuntimeError.
Proof.
  intros H0 H1 H2. unfold check_info.
  destruct errors_case as [[E _]|[(E & M & X & _)|(E & _ & l & -> & H)]]; cbn [bind].
  - apply T_empty in E. contradiction.
  - exfalso. destruct H1 as [H1|H1]; [contradiction|].
    apply T_multi in M as (v & p & v' & p' & K1 & K2 & K3 & K4 & N). apply N.
    apply (H1 v p _ v' p'); auto; now apply tile_part_iff.
  - destruct l; [|reflexivity]. exfalso. apply H2, H. reflexivity.
Qed.
End Check.

(** The choice of elements of the sets does not matter. *)
Lemma check_info_order {F} {FO : FloatOps F} pop first pop' first' (t : tile_info (F := F)) :
  picks pop -> picks first -> picks pop' -> picks first' ->
  check_info pop first t = check_info pop' first' t.
Proof.
  intros H1 H2 H3 H4.
  pose proof (check_info_iff pop first H1 H2 t) as I1. pose proof (check_info_iff pop' first' H3 H4 t) as I2.
  unfold check_info in *.
  destruct (errors_case pop first H1 H2 t) as [[E X]|[(E & M & X0 & X)|(E & C & l & X & H)]];
  destruct (errors_case pop' first' H3 H4 t) as [[E' X']|[(E' & M' & X0' & X')|(E' & C' & l' & X' & H')]];
    try contradiction; rewrite X, X' in *; cbn [bind] in *; try reflexivity.
  - destruct C' as [C'|C']; [congruence|contradiction].
  - destruct C as [C|C]; [congruence|contradiction].
  - destruct l, l'; cbn; try reflexivity.
    + exfalso. assert (K : i :: l' = []) by (apply H', H; reflexivity). discriminate.
    + exfalso. assert (K : i :: l = []) by (apply H, H'; reflexivity). discriminate.
Qed.
