(** Proofs about the preparation of a tile. *)
From Coq Require Import ZArith List Bool String Ascii Lia.
From Coq Require Import List.
From Verif Require Import Lib.Base Lib.Floats Lib.PyStr Lib.PyText Lib.PyDict Model.TileInfo Model.DesInfo
  Spec.DesInfoSpec Spec.TileInfoSpec Proofs.SliceInputsProofs Proofs.LoadInfoProofs Proofs.DesInfoProofs.
Import ListNotations.
Open Scope string_scope.
Open Scope list_scope.
Open Scope Z_scope.

Section T.
Context {F : Type} {FO : FloatOps F}.
Notation val := (val F).

Lemma getk_ok (d : dict val) k v : getk d k = Ok v <-> dget d k = Some v.
Proof. unfold getk. destruct (dget d k); split; intros H; try discriminate; injection H as ->; reflexivity. Qed.

Lemma dset_same {V} (d : dict V) k v : dget d k = Some v -> dset d k v = d.
Proof.
  induction d as [|[a w] d IH]; cbn [dget dset]; [discriminate|].
  destruct (String.eqb a k); intros H; [injection H as ->; reflexivity|]. rewrite IH by exact H. reflexivity.
Qed.

Lemma table_get (rows : list (string * piff_row F)) : forall name r,
  dget (fold_left (fun t x => dset t (fst x) (snd x)) rows []) name = Some r <-> last_row rows name r.
Proof.
  induction rows as [|[n x] rows IH] using rev_ind; intros name r.
  - cbn. split; [discriminate|]. intros ([|] & b & H & _); discriminate.
  - rewrite fold_left_app. cbn [fold_left fst snd]. rewrite dget_dset.
    destruct (String.eqb_spec n name) as [->|N].
    + split.
      * intros H. injection H as ->. exists rows, []. split; [reflexivity|]. intros [].
      * intros (a & b & E & Nb). destruct b as [|b0 b] using rev_ind.
        -- apply app_inj_tail in E as [_ E]. injection E as ->. reflexivity.
        -- exfalso. change ((name, r) :: b ++ [b0]) with (((name, r) :: b) ++ [b0]) in E. rewrite app_assoc in E.
           apply app_inj_tail in E as [_ E]. subst b0. apply Nb. rewrite map_app. apply in_or_app. right. left. reflexivity.
    + rewrite IH. split.
      * intros (a & b & E & Nb). exists a, (b ++ [(n, x)]). rewrite E. rewrite <- app_assoc. split; [reflexivity|].
        rewrite map_app. intros H. apply in_app_or in H as [H|[H|[]]]; [tauto|]. cbn in H. congruence.
      * intros (a & b & E & Nb). destruct b as [|b0 b _] using rev_ind.
        -- apply app_inj_tail in E as [_ E]. congruence.
        -- change ((name, r) :: b ++ [b0]) with (((name, r) :: b) ++ [b0]) in E. rewrite app_assoc in E.
           apply app_inj_tail in E as [E _]. exists a, b. split; [exact E|].
           intros H. apply Nb. rewrite map_app. apply in_or_app. left. exact H.
Qed.

Variables (pow10 : F -> result F)
          (piff_rows : val -> string -> result (list (string * piff_row F)))
          (geom_rows : val -> result (list (geom F))).
Notation add_piff := (add_piff piff_rows).
Notation prep_source := (prep_source pow10 piff_rows).
Notation prep_coadd := (prep_coadd geom_rows).

Lemma add_piff_spec camp ii ii' : add_piff camp ii = Ok ii' <->
  exists q, quality piff_rows ii camp q /\ ii' = dupdate ii q.
Proof.
  unfold TileInfo.add_piff. split.
  - destruct (dget ii "piff_path") as [v|] eqn:Ep.
    + destruct camp as [c|].
      * destruct v; try discriminate.
        -- intros H. apply Ok_inj in H. subst. exists []. split; [apply no_model; auto|reflexivity].
        -- intros H. apply bind_ok in H as (e & He & H). apply bind_ok in H as (rows & Hr & H).
           apply bind_ok in H as (t & Ht & H). apply getk_ok in He.
           destruct (dget t (basename s)) as [r|] eqn:Er; [|discriminate]. apply Ok_inj in H. subst ii'.
           unfold piff_table in Ht. destruct (Nat.eqb _ 0); [discriminate|]. apply Ok_inj in Ht. subst t.
           apply table_get in Er. exists [("piff_info", VPiff r)]. split; [|reflexivity].
           eapply model_row; [exact Ep|apply basename_file; reflexivity|exact He|exact Hr|exact Er].
      * assert (E : match v with VNone | _ => Ok ii end = Ok ii) by (destruct v; reflexivity).
        intros H. exists []. split; [apply no_campaign|]. destruct v; apply Ok_inj in H; subst; reflexivity.
    + intros H. apply Ok_inj in H. subst. exists []. split; [apply no_model; auto|reflexivity].
  - intros (q & Hq & ->). destruct Hq as [c [E|E]| |c p b e rows r E Hb He Hr Hl].
    + rewrite E. reflexivity.
    + rewrite E. reflexivity.
    + destruct (dget ii "piff_path") as [[]|]; reflexivity.
    + rewrite E. apply basename_file in Hb. subst b. apply getk_ok in He. rewrite He. cbn [bind]. rewrite Hr. cbn [bind].
      unfold piff_table. destruct rows as [|r0 rows].
      { destruct Hl as ([|] & ? & H & _); discriminate. }
      cbn [length Nat.eqb bind]. apply table_get in Hl. rewrite Hl. reflexivity.
Qed.


Ltac keys :=
  repeat match goal with
  | |- context [String.eqb ?a ?b] =>
      let r := eval vm_compute in (String.eqb a b) in
      match r with true => idtac | false => idtac end;
      change (String.eqb a b) with r
  end; cbv iota.

Lemma prep_source_eq camp (ii : dict val) : prep_source camp ii =
  match dget ii "image_path", dget ii "psf_path", dget ii "magzp" with
  | Some p, Some q, Some m =>
      x <- number m ;;
      s <- pow10 (fmul (fdec 4 10) (fsub (fofZ 30) x)) ;;
      add_piff camp (dupdate ii (source_settings p q s))
  | _, _, _ => Raise KeyError
  end.
Proof.
  unfold TileInfo.prep_source, getk.
  rewrite !dget_dset; keys. destruct (dget ii "image_path") as [p|] eqn:E1; [|reflexivity]. cbn [bind].
  rewrite !dget_dset; keys. rewrite E1. cbn [bind].
  rewrite !dget_dset; keys. destruct (dget ii "psf_path") as [q|] eqn:E2; [|reflexivity]. cbn [bind].
  rewrite !dget_dset; keys. destruct (dget ii "magzp") as [m|] eqn:E3; [|reflexivity]. cbn [bind].
  reflexivity.
Qed.

Lemma prep_coadd_eq (d : dict val) : prep_coadd d =
  match dget d "image_path", dget d "tilename" with
  | Some p, Some t =>
      rows <- geom_rows t ;;
      match rows with
      | [] => Raise RuntimeError
      | g :: _ => Ok (dupdate d (coadd_settings p g))
      end
  | _, _ => Raise KeyError
  end.
Proof.
  unfold TileInfo.prep_coadd, getk.
  rewrite !dget_dset; keys. destruct (dget d "image_path") as [p|] eqn:E1; [|reflexivity]. cbn [bind].
  rewrite !dget_dset; keys. rewrite E1. cbn [bind].
  rewrite !dget_dset; keys. destruct (dget d "tilename") as [t|] eqn:E2; [|reflexivity]. cbn [bind].
  destruct (geom_rows t) as [[|g rows]|]; reflexivity.
Qed.

Lemma dupdate_get (e : dict val) : forall d k, NoDup (dkeys e) ->
  dget (dupdate d e) k = match dget e k with Some v => Some v | None => dget d k end.
Proof.
  induction e as [|[a v] e IH]; intros d k N; [reflexivity|].
  unfold dupdate. cbn [fold_left fst snd]. fold (dupdate (dset d a v) e). inversion N as [|x l Hn N']; subst.
  rewrite IH by exact N'. cbn [dget]. rewrite dget_dset. destruct (String.eqb_spec a k) as [->|Hne]; [|reflexivity].
  apply dget_In in Hn. cbn [fst] in Hn. rewrite Hn. reflexivity.
Qed.

Ltac nodup := cbn [dkeys map fst]; repeat constructor; cbn [In]; intuition discriminate.

Lemma settings_nodup p q s : NoDup (dkeys (source_settings p q s : dict val)).
Proof. clear pow10 piff_rows geom_rows. unfold source_settings. nodup. Qed.

Lemma coadd_nodup p g : NoDup (dkeys (coadd_settings p g : dict val)).
Proof. clear pow10 piff_rows geom_rows. unfold coadd_settings. nodup. Qed.

Lemma quality_nodup ii c q : quality piff_rows ii c q -> NoDup (dkeys q).
Proof. intros []; cbn; repeat constructor. intros []. Qed.

Lemma quality_ext ii ii' c q : dget ii "piff_path" = dget ii' "piff_path" -> dget ii "expnum" = dget ii' "expnum" ->
  quality piff_rows ii c q -> quality piff_rows ii' c q.
Proof.
  intros E1 E2 H. destruct H as [c H| |c p b e rows r H1 H2 H3 H4 H5].
  - apply no_model. rewrite <- E1. exact H.
  - apply no_campaign.
  - eapply model_row; rewrite <- ?E1, <- ?E2; eassumption.
Qed.

Lemma quality_unique ii c q q' : quality piff_rows ii c q -> quality piff_rows ii c q' -> q = q'.
Proof.
  intros H H'. destruct H as [c [H|H]| |c p b e rows r H1 H2 H3 H4 H5]; inversion H'; subst; try reflexivity; try congruence.
  - destruct H; congruence.
  - apply basename_file in H2. match goal with H : file_name _ _ |- _ => apply basename_file in H end. 
    assert (p0 = p) by congruence. subst. assert (e0 = e) by congruence. subst. assert (rows0 = rows) by congruence. subst.
    repeat match goal with H : last_row _ _ _ |- _ => apply table_get in H end. congruence.
Qed.

Definition all_settings (p q : val) (s : F) (ql : dict val) : dict val := source_settings p q s ++ ql.

Lemma dupdate_app (d a b : dict val) : dupdate d (a ++ b) = dupdate (dupdate d a) b.
Proof. unfold dupdate. apply fold_left_app. Qed.

Lemma all_nodup ii c p q s ql : quality piff_rows ii c ql -> NoDup (dkeys (all_settings p q s ql)).
Proof. clear pow10 geom_rows. unfold all_settings. intros []; unfold source_settings; nodup. Qed.

Lemma prep_source_spec camp ii ii' : prep_source camp ii = Ok ii' <->
  exists p q m x s ql,
    dget ii "image_path" = Some p /\ dget ii "psf_path" = Some q /\ dget ii "magzp" = Some m /\
    number m = Ok x /\ pow10 (fmul (fdec 4 10) (fsub (fofZ 30) x)) = Ok s /\
    quality piff_rows ii camp ql /\ ii' = dupdate ii (all_settings p q s ql).
Proof.
  rewrite prep_source_eq. split.
  - destruct (dget ii "image_path") as [p|]; [|discriminate]. destruct (dget ii "psf_path") as [q|]; [|discriminate].
    destruct (dget ii "magzp") as [m|]; [|discriminate]. intros H. apply bind_ok in H as (x & Hx & H).
    apply bind_ok in H as (s & Hs & H). apply add_piff_spec in H as (ql & Hq & ->).
    exists p, q, m, x, s, ql. do 5 (split; [first [reflexivity|assumption]|]). split; [|unfold all_settings; rewrite dupdate_app; reflexivity].
    revert Hq. apply quality_ext; rewrite dupdate_get by apply settings_nodup; reflexivity.
  - intros (p & q & m & x & s & ql & -> & -> & -> & Hx & Hs & Hq & ->). rewrite Hx. cbn [bind]. rewrite Hs. cbn [bind].
    apply add_piff_spec. exists ql. split; [|unfold all_settings; rewrite dupdate_app; reflexivity].
    revert Hq. apply quality_ext; rewrite dupdate_get by apply settings_nodup; reflexivity.
Qed.

Lemma dupdate_same (e : dict val) : forall d, (forall k v, dget e k = Some v -> dget d k = Some v) -> NoDup (dkeys e) ->
  dupdate d e = d.
Proof.
  induction e as [|[a v] e IH]; intros d H N; [reflexivity|].
  unfold dupdate. cbn [fold_left fst snd]. fold (dupdate (dset d a v) e). inversion N as [|x l Hn N']; subst.
  assert (E : dget d a = Some v) by (apply H; cbn [dget]; rewrite String.eqb_refl; reflexivity).
  rewrite (dset_same _ _ _ E). apply IH; [|exact N']. intros k w Hk. apply H. cbn [dget].
  destruct (String.eqb_spec a k) as [->|_]; [|exact Hk]. apply dget_In in Hn. cbn [fst] in Hn. congruence.
Qed.

Lemma prep_source_idem camp ii ii' : prep_source camp ii = Ok ii' -> prep_source camp ii' = Ok ii'.
Proof.
  intros H. apply prep_source_spec in H as (p & q & m & x & s & ql & Hp & Hq & Hm & Hx & Hs & Hl & ->).
  pose proof (all_nodup ii camp p q s ql Hl) as N.
  assert (G : forall k, dget (dupdate ii (all_settings p q s ql)) k
            = match dget (all_settings p q s ql) k with Some v => Some v | None => dget ii k end)
    by (intros k; apply dupdate_get; exact N).
  assert (K : forall k, In k ["image_path"; "psf_path"; "magzp"; "piff_path"; "expnum"] ->
            dget (all_settings p q s ql) k = None).
  { intros k Hk. destruct Hl; cbn [In] in Hk; decompose [or] Hk; subst; try reflexivity; try contradiction. }
  apply prep_source_spec. exists p, q, m, x, s, ql. rewrite !G, !K by (cbn [In]; tauto).
  do 5 (split; [assumption|]). split.
  - revert Hl. apply quality_ext; rewrite G, K by (cbn [In]; tauto); reflexivity.
  - symmetry. apply dupdate_same; [|exact N]. intros k v Hk. rewrite G, Hk. reflexivity.
Qed.

Lemma prep_coadd_idem d d' : prep_coadd d = Ok d' -> prep_coadd d' = Ok d'.
Proof.
  rewrite !prep_coadd_eq. destruct (dget d "image_path") as [p|] eqn:E1; [|discriminate].
  destruct (dget d "tilename") as [t|] eqn:E2; [|discriminate]. intros H. apply bind_ok in H as ([|g rows] & Hr & H); [discriminate|].
  apply Ok_inj in H. subst d'. pose proof (coadd_nodup p g) as N. rewrite !dupdate_get by exact N.
  change (dget (coadd_settings p g) "image_path") with (@None val). change (dget (coadd_settings p g) "tilename") with (@None val).
  rewrite E1, E2, Hr. cbn [bind]. f_equal. apply dupdate_same; [|exact N]. intros k v Hk. rewrite dupdate_get by exact N.
  rewrite Hk. reflexivity.
Qed.

Lemma prep_sources_spec camp l l' : prep_sources pow10 piff_rows camp l = Ok l' <->
  Forall2 (fun a b => prep_source camp a = Ok b) l l'.
Proof.
  revert l'. induction l as [|a l IH]; intros l'; cbn [prep_sources].
  - split; intros H; [apply Ok_inj in H; subst; constructor|inversion H; reflexivity].
  - split.
    + intros H. apply bind_ok in H as (b & Hb & H). apply bind_ok in H as (r & Hr & H). apply Ok_inj in H. subst.
      constructor; [exact Hb|]. apply IH. exact Hr.
    + intros H. inversion H as [|a' b l1 r Hb Hr]; subst. rewrite Hb. cbn [bind]. apply IH in Hr. rewrite Hr. reflexivity.
Qed.

Lemma add_extra_spec camp i i' : add_extra pow10 piff_rows geom_rows camp i = Ok i' <->
  prep_coadd (in_coadd i) = Ok (in_coadd i') /\
  Forall2 (fun a b => prep_source camp a = Ok b) (in_src i) (in_src i').
Proof.
  unfold add_extra. split.
  - intros H. apply bind_ok in H as (c & Hc & H). apply bind_ok in H as (s & Hs & H). apply Ok_inj in H. subst i'.
    cbn. split; [exact Hc|]. apply prep_sources_spec. exact Hs.
  - intros [Hc Hs]. rewrite Hc. cbn [bind]. apply prep_sources_spec in Hs. rewrite Hs. destruct i'; reflexivity.
Qed.

Lemma add_extra_idem camp i i' : add_extra pow10 piff_rows geom_rows camp i = Ok i' ->
  add_extra pow10 piff_rows geom_rows camp i' = Ok i'.
Proof.
  rewrite !add_extra_spec. intros [Hc Hs]. split; [exact (prep_coadd_idem _ _ Hc)|].
  induction Hs as [|a b l l' H Hs IH]; constructor; [exact (prep_source_idem _ _ _ H)|exact IH].
Qed.
End T.

(** ** The command *)
Lemma app_suffix_inj (s : string) : forall a b, (a ++ s)%string = (b ++ s)%string -> a = b.
Proof.
  assert (L : forall a b, String.length (a ++ b)%string = (String.length a + String.length b)%nat)
    by (induction a as [|c a IH]; intros b; cbn; [reflexivity|rewrite IH; reflexivity]).
  induction a as [|c a IH]; intros [|d b] H.
  - reflexivity.
  - exfalso. apply (f_equal String.length) in H. rewrite !L in H. cbn in H. lia.
  - exfalso. apply (f_equal String.length) in H. rewrite !L in H. cbn in H. lia.
  - cbn in H. injection H as -> H. f_equal. apply IH. exact H.
Qed.

Lemma last_part_inj (c : ascii) : forall t t' b b', free_of c b -> free_of c b' ->
  (t ++ String c b)%string = (t' ++ String c b')%string -> t = t' /\ b = b'.
Proof.
  induction t as [|x t IH]; intros [|y t'] b b' F1 F2 H; cbn in H.
  - injection H as H2. auto.
  - injection H as H1 H2. exfalso. exact (F1 _ _ H2).
  - injection H as H1 H2. exfalso. exact (F2 _ _ (eq_sym H2)).
  - injection H as H1 H2. subst y. apply IH in H2 as [-> ->]; auto.
Qed.

Lemma app_prefix_inj (p : string) : forall a b, (p ++ a)%string = (p ++ b)%string -> a = b.
Proof. induction p as [|c p IH]; intros a b H; cbn in H; [exact H|]. injection H as H. apply IH. exact H. Qed.

Lemma path_join_inj d a b : startswith "/" a = false -> startswith "/" b = false ->
  path_join d a = path_join d b -> a = b.
Proof.
  intros Ha Hb. unfold path_join. rewrite Ha, Hb. destruct d as [|c d]; [auto|].
  destruct (endswith "/" (String c d)); intros H; apply app_prefix_inj in H; [exact H|]. injection H as H. exact H.
Qed.

Lemma not_absolute t rest : free_of "/" t -> startswith "/" (t ++ "_" ++ rest)%string = false.
Proof.
  intros H. destruct t as [|c t]; [reflexivity|]. unfold startswith. cbn [append String.prefix].
  destruct (ascii_dec "/" c) as [<-|_]; [|reflexivity]. exfalso. exact (H "" t eq_refl).
Qed.

Lemma info_file_inj env conf t b t' b' p :
  free_of "/" t -> free_of "/" t' -> free_of "_" b -> free_of "_" b' ->
  info_file env conf t b = Ok p -> info_file env conf t' b' = Ok p -> t = t' /\ b = b'.
Proof.
  unfold info_file. destruct (env "MEDS_DIR") as [d|]; [|discriminate].
  intros T T' B B' H H'. apply Ok_inj in H. apply Ok_inj in H'. rewrite <- H' in H. clear H'.
  apply path_join_inj in H; [|apply not_absolute; assumption..].
  assert (A : forall t b, (t ++ "_" ++ b ++ "_pizza_cutter_info.yaml")%string
              = ((t ++ String "_" b) ++ "_pizza_cutter_info.yaml")%string).
  { clear. induction t as [|c t IH]; intros b; cbn; [reflexivity|]. f_equal. apply IH. }
  rewrite !A in H. apply app_suffix_inj in H. apply last_part_inj in H; assumption.
Qed.

Lemma str_app_assoc : forall a b c : string, ((a ++ b) ++ c)%string = (a ++ (b ++ c))%string.
Proof. induction a as [|x a IH]; intros b c; cbn; [reflexivity|]. f_equal. apply IH. Qed.

Lemma path_join_plain a b : a <> "" -> ~ ends "/" a -> startswith "/" b = false ->
  path_join a b = (a ++ "/" ++ b)%string.
Proof.
  intros Ha He Hb. unfold path_join. destruct a as [|c a]; [congruence|]. rewrite Hb.
  destruct (endswith "/" (String c a)) eqn:E; [|reflexivity]. apply endswith_iff in E. contradiction.
Qed.

Lemma ends_app c : forall a b, b <> "" -> ~ ends (String c "") b -> ~ ends (String c "") (a ++ b)%string.
Proof.
  induction a as [|x a IH]; intros b Hb He; [exact He|]. intros (p & E). cbn in E. destruct p as [|y p].
  - cbn in E. injection E as _ E. destruct a; [cbn in E; congruence|discriminate E].
  - cbn in E. injection E as _ E. apply (IH b Hb He). exists p. exact E.
Qed.

Lemma info_file_is env dir conf t b : env "MEDS_DIR" = Some dir -> dir <> "" -> ~ ends "/" dir ->
  conf <> "" -> free_of "/" conf -> free_of "/" t ->
  info_file env conf t b =
  Ok (dir ++ "/" ++ conf ++ "/pizza_cutter_info/" ++ t ++ "_" ++ b ++ "_pizza_cutter_info.yaml")%string.
Proof.
  intros E Hd He Hc Fc Ft. unfold info_file. rewrite E. f_equal.
  assert (Sc : startswith "/" conf = false).
  { destruct conf as [|c conf]; [congruence|]. unfold startswith. cbn [String.prefix].
    destruct (ascii_dec "/" c) as [<-|_]; [|reflexivity]. exfalso. exact (Fc "" conf eq_refl). }
  assert (Ec : ~ ends "/" conf) by (intros (p & Q); exact (Fc p "" Q)).
  rewrite (path_join_plain dir conf) by assumption.
  assert (N1 : forall x, (dir ++ x)%string <> "") by (intros x; destruct dir; [congruence|discriminate]).
  rewrite (path_join_plain (dir ++ "/" ++ conf) "pizza_cutter_info"); [|apply N1| |reflexivity].
  - rewrite path_join_plain; [| | |apply not_absolute; assumption].
    + rewrite !str_app_assoc. reflexivity.
    + rewrite str_app_assoc. apply N1.
    + apply ends_app; [discriminate|]. rewrite <- endswith_iff. vm_compute. discriminate.
  - apply ends_app; [discriminate|]. apply (ends_app "/" "/"); assumption.
Qed.
