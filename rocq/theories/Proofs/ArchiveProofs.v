(** Proofs for C88. *)
From Coq Require Import ZArith List Bool String Ascii Lia Permutation.
From Coq Require Import List.
From Verif Require Import Lib.Base Lib.PyStr Model.Archive Spec.DesInfoSpec Spec.ArchiveSpec
  Proofs.PyStrProofs Proofs.DesInfoProofs.
Import ListNotations.
Open Scope string_scope.

(** ** Patterns *)

Lemma free_cons c d s : free_of c (String d s) -> c <> d /\ free_of c s.
Proof.
  intros H. split.
  - intros ->. apply (H "" s). reflexivity.
  - intros a b ->. apply (H (String d a) b). reflexivity.
Qed.

Lemma like_plain p s : no_wildcard p -> like p s = true <-> s = p.
Proof.
  revert s. induction p as [|c p IH]; intros s [H1 H2]; cbn [like].
  - destruct s; split; congruence.
  - apply free_cons in H1 as [N1 H1]. apply free_cons in H2 as [N2 H2].
    destruct (Ascii.eqb_spec c "%") as [->|_]; [congruence|].
    destruct s as [|d s]; [split; discriminate|].
    destruct (Ascii.eqb_spec c "_") as [->|_]; [congruence|]. cbn [orb].
    rewrite andb_true_iff, Ascii.eqb_eq, IH by (split; assumption). split.
    + intros [-> ->]. reflexivity.
    + intros E. injection E as -> ->. auto.
Qed.

Lemma like_prefix p q s : no_wildcard p ->
  like (p ++ q) s = true <-> exists t, s = p ++ t /\ like q t = true.
Proof.
  revert s. induction p as [|c p IH]; intros s [H1 H2]; cbn [append].
  - split; [intros H; exists s; auto|]. intros (t & -> & H). exact H.
  - cbn [like]. apply free_cons in H1 as [N1 H1]. apply free_cons in H2 as [N2 H2].
    destruct (Ascii.eqb_spec c "%") as [->|_]; [congruence|].
    destruct (Ascii.eqb_spec c "_") as [->|_]; [congruence|]. cbn [orb].
    destruct s as [|d s]; [split; [discriminate|intros (t & E & _); discriminate]|].
    rewrite andb_true_iff, Ascii.eqb_eq, IH by (split; assumption). split.
    + intros [-> (t & -> & H)]. exists t. auto.
    + intros (t & E & H). injection E as -> ->. eauto.
Qed.

Lemma like_any q s : like (String "%" q) s = true <-> exists m t, s = m ++ t /\ like q t = true.
Proof.
  cbn [like]. rewrite Ascii.eqb_refl. induction s as [|c s IH].
  - rewrite orb_false_r. split; [intros H; exists "", ""; auto|].
    intros ([|a m] & t & E & H); [cbn in E; subst; exact H|discriminate].
  - rewrite orb_true_iff, IH. split.
    + intros [H|(m & t & -> & H)]; [exists "", (String c s); auto|exists (String c m), t; auto].
    + intros ([|a m] & t & E & H); cbn in E.
      * left. subst. exact H.
      * right. injection E as -> ->. eauto.
Qed.

Lemma no_wildcard_app a b : no_wildcard a -> no_wildcard b -> no_wildcard (a ++ b).
Proof.
  assert (G : forall c a b, free_of c a -> free_of c b -> free_of c (a ++ b)).
  { intros c. induction a0 as [|d a0 IH]; intros b0 Ha Hb; [exact Hb|].
    apply free_cons in Ha as [N Ha]. intros x y E. destruct x as [|e x]; cbn in E.
    - injection E as -> _. congruence.
    - injection E as -> E. exact (IH b0 Ha Hb x y E). }
  intros [A1 A2] [B1 B2]. split; apply G; assumption.
Qed.

Lemma no_wildcard_fits : no_wildcard ".fits".
Proof.
  split; apply free_iff; reflexivity.
Qed.

Lemma pattern_matches tile version name : no_wildcard tile -> no_wildcard version ->
  like (tile ++ "%" ++ version ++ ".fits") name = true <->
  exists middle, name = tile ++ middle ++ version ++ ".fits".
Proof.
  intros Ht Hv. rewrite like_prefix by assumption. split.
  - intros (t & -> & H). apply (like_any (version ++ ".fits")) in H as (m & u & -> & H).
    apply like_plain in H; [|apply no_wildcard_app; [assumption|apply no_wildcard_fits]].
    subst. eauto.
  - intros (m & ->). eexists. split; [reflexivity|]. apply (like_any (version ++ ".fits")).
    exists m, (version ++ ".fits"). split; [reflexivity|].
    apply like_plain; [apply no_wildcard_app; [assumption|apply no_wildcard_fits]|reflexivity].
Qed.

Lemma gaia_rows_in (order : list (string * string) -> list (string * string)) files archive tile version :
  (forall l, Permutation (order l) l) -> no_wildcard tile -> no_wildcard version ->
  forall path name, In (path, name) (gaia_rows order files archive tile version) <->
    in_archive files archive tile version path name.
Proof.
  intros Ho Ht Hv path name. unfold gaia_rows, in_archive.
  match goal with |- In _ (order ?l) <-> _ => transitivity (In (path, name) l) end.
  { split; apply Permutation_in; [apply Ho|apply Permutation_sym, Ho]. }
  rewrite in_flat_map. split.
  - intros (d & Hd & H). destruct (_ && _) eqn:E in H; [|destruct H].
    apply andb_true_iff in E as [E1 E2]. apply String.eqb_eq in E1. apply pattern_matches in E2; [|assumption..].
    apply in_flat_map in H as (a & Ha & H). destruct (String.eqb_spec (df_filename d) (ai_filename a)) as [E|]; [|destruct H].
    destruct H as [H|[]]. injection H as <- <-. destruct d as [dn dt], a as [ap an]. cbn in *. subst. auto.
  - intros (Hd & Ha & Hm). exists (mkdf name "cat_tile_gaia"). split; [exact Hd|]. cbn [df_filetype df_filename].
    apply pattern_matches in Hm; [|assumption..]. rewrite Hm. rewrite String.eqb_refl.
    cbn [andb]. apply in_flat_map. exists (mkai path name). split; [exact Ha|].
    cbn [ai_filename ai_path]. rewrite String.eqb_refl. now left.
Qed.

(** ** Paths *)

Lemma split_app sep a b : exists l x y r,
  split_on sep a = (l ++ [x])%list /\ split_on sep b = y :: r /\
  split_on sep (a ++ b) = (l ++ (x ++ y)%string :: r)%list.
Proof.
  induction a as [|c a IH]; cbn [append split_on].
  - destruct (split_on sep b) as [|y r] eqn:E; [now apply split_on_nonempty in E|].
    exists [], "", y, r. auto.
  - destruct IH as (l & x & y & r & E1 & E2 & E3). rewrite E1, E3.
    destruct (Ascii.eqb c sep).
    + exists ("" :: l), x, y, r. auto.
    + destruct l as [|h l]; cbn [app].
      * exists [], (String c x), y, r. auto.
      * exists (String c h :: l), x, y, r. auto.
Qed.

Lemma names_slash a b : names (a ++ String "/" b) = (names a ++ names b)%list.
Proof.
  unfold names. destruct (split_app "/" a (String "/" b)) as (l & x & y & r & E1 & E2 & E3).
  rewrite E1, E3. cbn [split_on] in E2. rewrite Ascii.eqb_refl in E2. injection E2 as <- <-.
  rewrite append_nil_r, !filter_app. cbn [filter]. rewrite <- !app_assoc. cbn [app].
  destruct (negb (String.eqb x "")); reflexivity.
Qed.

Lemma ends_slash a : endswith "/" a = true -> exists a', a = a' ++ "/".
Proof.
  intros H. unfold endswith in H. apply andb_true_iff in H as [_ H]. apply String.eqb_eq in H. cbn [String.length] in H.
  revert H. induction a as [|c a IH]; intros H; [discriminate|].
  destruct a as [|d a].
  - cbn in H. exists "". rewrite H. reflexivity.
  - cbn [String.length Nat.sub substring] in H.
    destruct IH as (a' & ->).
    + cbn [String.length]. replace (S (String.length a) - 1)%nat with (String.length a) by lia. exact H.
    + exists (String c a'). reflexivity.
Qed.

Lemma names_ends a b : endswith "/" a = true -> names (a ++ b) = (names a ++ names b)%list.
Proof.
  intros H. destruct (ends_slash a H) as (a' & ->). rewrite <- append_assoc. cbn [append].
  rewrite names_slash. change (a' ++ "/") with (a' ++ String "/" ""). rewrite names_slash. cbn. now rewrite app_nil_r.
Qed.

Lemma starts_slash b : startswith "/" b = true <-> rooted b.
Proof.
  unfold rooted. destruct b as [|c b].
  - split; [discriminate|intros (r & E); discriminate].
  - change (startswith "/" (String c b)) with (if ascii_dec "/" c then prefix "" b else false).
    destruct (ascii_dec "/" c) as [<-|N].
    + destruct b; split; eauto.
    + split; [discriminate|]. intros (r & E). injection E as E _. congruence.
Qed.

Lemma join_place source_dir archive_path : source_dir <> "" -> ~ rooted archive_path ->
  same_place (path_join source_dir archive_path) (source_dir ++ "/" ++ archive_path).
Proof.
  intros Hs Ha. unfold path_join. destruct source_dir as [|c s]; [congruence|].
  destruct (startswith "/" archive_path) eqn:E; [now apply starts_slash in E|].
  change ("/" ++ archive_path) with (String "/" archive_path).
  destruct (endswith "/" (String c s)) eqn:Ee.
  - split; [rewrite names_ends, names_slash by assumption; reflexivity|].
    split; intros (r & H); cbn in H; injection H as -> _; eexists; reflexivity.
  - split; reflexivity.
Qed.

Lemma rev_app s : forall acc, rev_string s acc = rev_string s "" ++ acc.
Proof.
  induction s as [|c s IH]; intros acc; [reflexivity|]. cbn [rev_string].
  rewrite (IH (String c acc)), (IH (String c "")), <- append_assoc. reflexivity.
Qed.

Lemma rev_append a : forall b, rev_string (a ++ b) "" = rev_string b "" ++ rev_string a "".
Proof.
  induction a as [|c a IH]; intros b; cbn [append rev_string]; [now rewrite append_nil_r|].
  rewrite (rev_app (a ++ b)), IH, (rev_app a (String c "")), append_assoc. reflexivity.
Qed.

Lemma rev_rev s : rev_string (rev_string s "") "" = s.
Proof.
  induction s as [|c s IH]; [reflexivity|]. cbn [rev_string].
  rewrite (rev_app s), rev_append, IH. reflexivity.
Qed.

(** Slashes at the end do not count. *)
Lemma names_trailing a : names (a ++ "/") = names a.
Proof. change (a ++ "/") with (a ++ String "/" ""). rewrite names_slash. cbn. apply app_nil_r. Qed.

Lemma dropped_slashes h : names (rev_string (drop_slashes h) "") = names (rev_string h "").
Proof.
  induction h as [|c h IH]; [reflexivity|]. cbn [drop_slashes].
  destruct (Ascii.eqb_spec c "/") as [->|N].
  - rewrite IH. cbn [rev_string]. rewrite (rev_app h "/"). symmetry. apply names_trailing.
  - destruct c as [[] [] [] [] [] [] [] []]; try reflexivity. congruence.
Qed.

Lemma drop_to_slash_split s : exists b, free_of "/" b /\
  (rev_string s "" = b /\ drop_to_slash s = "" \/
   exists d, rev_string s "" = d ++ String "/" b /\ drop_to_slash s = String "/" (rev_string d "")).
Proof.
  induction s as [|c s IH].
  - exists "". split; [intros a b E; destruct a; discriminate|]. left. auto.
  - cbn [rev_string drop_to_slash]. rewrite rev_app.
    destruct (Ascii.eqb_spec c "/") as [->|N].
    + exists "". split; [intros a b E; destruct a; discriminate|]. right.
      exists (rev_string s ""). split; [reflexivity|]. rewrite rev_rev. reflexivity.
    + assert (E : forall (P : string -> Prop), P (drop_to_slash s) ->
         P match c with "/"%char => String "/" s | _ => drop_to_slash s end)
        by (intros P HP; destruct c as [[] [] [] [] [] [] [] []]; try exact HP; congruence).
      destruct IH as (b & Fb & IH). exists (b ++ String c "").
      split.
      { intros x y Exy. assert (G : forall b x y, b ++ String c "" = x ++ String "/" y -> exists y', b = x ++ String "/" y').
        { clear - N. induction b as [|e b IHb]; intros x y Exy; destruct x as [|f x]; cbn in Exy.
          - injection Exy as -> _. congruence.
          - injection Exy as _ Exy. destruct x; discriminate.
          - injection Exy as -> Exy. exists b. reflexivity.
          - injection Exy as -> Exy. destruct (IHb x y Exy) as (y' & ->). exists y'. reflexivity. }
        destruct (G b x y Exy) as (y' & ->). exact (Fb x y' eq_refl). }
      destruct IH as [[E1 E2]|(d & E1 & E2)].
      * left. rewrite E1. split; [reflexivity|]. refine (E (fun t => t = "") E2).
      * right. exists d. rewrite E1, <- append_assoc. split; [reflexivity|].
        refine (E (fun t => t = String "/" (rev_string d "")) E2).
Qed.

(** A path that ends with a name: the directory is the path without it. *)
Lemma dirname_names p name : file_name p name -> name <> "" ->
  names p = (names (dirname p) ++ [name])%list.
Proof.
  intros [Fn Hp] Hne. unfold dirname. rewrite <- (rev_rev p) at 1.
  set (q := rev_string p ""). 
  destruct (drop_to_slash_split q) as (b & Fb & [[E1 E2]|(d & E1 & E2)]).
  - rewrite E2, E1. cbn [drop_slashes rev_string names].
    unfold q in E1. rewrite rev_rev in E1. subst b.
    assert (p = name).
    { destruct Hp as [->|(dir & ->)]; [reflexivity|]. exfalso. exact (Fb dir name eq_refl). }
    subst. unfold names. rewrite split_on_none by now apply free_iff. cbn [filter].
    destruct (String.eqb_spec name ""); [congruence|]. reflexivity.
  - rewrite E1, E2, names_slash. unfold q in E1. rewrite rev_rev in E1.
    assert (Hb : b = name).
    { destruct Hp as [->|(dir & Hp)].
      - exfalso. exact (Fn d b E1).
      - rewrite E1 in Hp. change ("/" ++ name) with (String "/" name) in Hp. clear - Fb Fn Hp.
        revert dir Hp. induction d as [|x d IH]; intros [|y dir] Hp; cbn in Hp.
        + congruence.
        + injection Hp as _ Hp. exfalso. exact (Fb dir name Hp).
        + injection Hp as _ Hp. exfalso. symmetry in Hp. exact (Fn d b Hp).
        + injection Hp as _ Hp. eauto. }
    subst b. f_equal.
    + pose proof (dropped_slashes (String "/" (rev_string d ""))) as D.
      cbn [rev_string] in D. rewrite (rev_app (rev_string d "")), rev_rev, names_trailing in D.
      rewrite <- D. cbn [drop_slashes].
      destruct (drop_slashes (rev_string d "")) eqn:Ed; [|reflexivity].
      cbn [rev_string]. rewrite (rev_app (rev_string d "")), rev_rev, names_trailing.
      cbn in D. rewrite Ed in D. cbn in D. exact D.
    + unfold names. rewrite split_on_none by now apply free_iff. cbn [filter].
      destruct (String.eqb_spec name ""); [congruence|]. reflexivity.
Qed.

Lemma dirname_rooted p : rooted p -> rooted (dirname p).
Proof.
  intros (r & ->). unfold dirname. cbn [rev_string]. rewrite rev_app.
  set (h := drop_to_slash (rev_string r "" ++ "/")).
  assert (H : exists u, h = u ++ "/").
  { unfold h. generalize (rev_string r ""). intros s. induction s as [|c s IH]; [exists ""; reflexivity|].
    cbn [append drop_to_slash]. destruct (Ascii.eqb_spec c "/") as [->|N].
    - exists (String "/" s). reflexivity.
    - destruct c as [[] [] [] [] [] [] [] []]; try exact IH; congruence. }
  destruct H as (u & H). rewrite H. clear H h.
  assert (G : forall t, rooted (rev_string (t ++ "/") "")).
  { intros t. rewrite rev_append. eexists. reflexivity. }
  assert (D : drop_slashes (u ++ "/") = "" \/ exists v, drop_slashes (u ++ "/") = v ++ "/").
  { induction u as [|c u IH]; [left; reflexivity|]. cbn [append drop_slashes].
    destruct (Ascii.eqb_spec c "/") as [->|N]; [exact IH|].
    right. exists (String c u). destruct c as [[] [] [] [] [] [] [] []]; try reflexivity; congruence. }
  destruct D as [->|(v & ->)]; [apply G|]. destruct v as [|c v]; [exact (G "")|exact (G (String c v))].
Qed.

(** ** Words *)

Lemma ordinary_not_blank c : ordinary_char c -> blank c = false.
Proof.
  intros H. destruct (blank c) eqn:E; [|reflexivity]. unfold blank in E. apply orb_true_iff in E.
  exfalso. unfold ordinary_char in H. destruct E as [E|E]; apply Ascii.eqb_eq in E; subst c.
  - change (nat_of_ascii " ") with 32%nat in H. cbn [In] in H. lia.
  - change (nat_of_ascii (ascii_of_nat 10)) with 10%nat in H. cbn [In] in H. lia.
Qed.

Lemma words_from_append w t rest : all_chars (fun c => negb (blank c)) t = true ->
  words_from w (t ++ rest) = words_from (w ++ t) rest.
Proof.
  revert w. induction t as [|c t IH]; intros w H; cbn [append words_from].
  - now rewrite append_nil_r.
  - cbn [all_chars] in H. apply andb_true_iff in H as [Hc H]. destruct (blank c); [discriminate|].
    rewrite IH by assumption. rewrite <- append_assoc. reflexivity.
Qed.

Lemma not_blank s : all_ordinary s -> all_chars (fun c => negb (blank c)) s = true.
Proof.
  induction s as [|c s IH]; [reflexivity|]. intros [Hc Hs]. cbn [all_chars].
  rewrite ordinary_not_blank by assumption. now apply IH.
Qed.

Lemma words_word t c rest : t <> "" -> all_chars (fun c => negb (blank c)) t = true -> blank c = true ->
  words (t ++ String c rest) = t :: words rest.
Proof.
  intros Ht Hb Hc. unfold words. rewrite words_from_append by assumption. cbn [append words_from].
  rewrite Hc. destruct (String.eqb_spec t ""); [congruence|]. reflexivity.
Qed.

Lemma words_blank c rest : blank c = true -> words (String c rest) = words rest.
Proof. intros Hc. unfold words. cbn [words_from]. rewrite Hc. reflexivity. Qed.

Lemma rsync_words user_env archive_path source_dir :
  ordinary_text archive_path -> ordinary_text source_dir ->
  match user_env with Some u => ordinary_text u | None => True end ->
  words (rsync_command user_env archive_path source_dir) =
    ["rsync"; "-av"; "--password-file"; "${DES_RSYNC_PASSFILE}";
     match user_env with Some u => u ++ "@" | None => "" end ++ "${DESREMOTE_RSYNC}/" ++ archive_path;
     source_dir ++ "/" ++ archive_path].
Proof.
  intros [Na Ha] [Ns Hs] Hu. unfold rsync_command.
  set (user := match user_env with Some u => u ++ "@" | None => "" end).
  assert (Bu : all_chars (fun c => negb (blank c)) user = true).
  { unfold user. destruct user_env as [u|]; [|reflexivity]. rewrite all_chars_app, not_blank by apply Hu. reflexivity. }
  assert (G1 : forall t rest, t <> "" -> all_chars (fun c => negb (blank c)) t = true ->
     words (t ++ " " ++ rest) = t :: words rest).
  { intros t rest H1 H2. now apply (words_word t " " rest). }
  assert (G5 : forall t rest, t <> "" -> all_chars (fun c => negb (blank c)) t = true ->
     words (t ++ "     " ++ rest) = t :: words rest).
  { intros t rest H1 H2. change ("     " ++ rest) with (String " " ("    " ++ rest)).
    rewrite words_word by (assumption || reflexivity). reflexivity. }
  set (x := user ++ "${DESREMOTE_RSYNC}/" ++ archive_path ++ "     " ++ source_dir ++ "/" ++ archive_path ++ newline).
  change ("rsync     -av     --password-file ${DES_RSYNC_PASSFILE}     " ++ x)
    with ("rsync" ++ "     " ++ "-av" ++ "     " ++ "--password-file" ++ " " ++ "${DES_RSYNC_PASSFILE}" ++ "     " ++ x).
  rewrite G5 by (discriminate || reflexivity). f_equal.
  rewrite G5 by (discriminate || reflexivity). f_equal.
  rewrite G1 by (discriminate || reflexivity). f_equal.
  rewrite G5 by (discriminate || reflexivity). f_equal.
  replace x with ((user ++ "${DESREMOTE_RSYNC}/" ++ archive_path) ++ "     " ++ (source_dir ++ "/" ++ archive_path) ++ newline)
    by (unfold x; rewrite <- !append_assoc; reflexivity).
  rewrite G5.
  - f_equal. unfold newline. rewrite words_word; [reflexivity| | |reflexivity].
    + destruct source_dir; [congruence|discriminate].
    + rewrite !all_chars_app, (not_blank source_dir Hs), (not_blank archive_path Ha). reflexivity.
  - destruct user; discriminate.
  - rewrite !all_chars_app, Bu, (not_blank archive_path Ha). reflexivity.
Qed.

Lemma drop_slashes_split h : exists sl, h = sl ++ drop_slashes h.
Proof.
  induction h as [|c h (sl & IH)]; [exists ""; reflexivity|]. cbn [drop_slashes].
  destruct (Ascii.eqb_spec c "/") as [->|N].
  - exists (String "/" sl). cbn [append]. now rewrite <- IH.
  - exists "". destruct c as [[] [] [] [] [] [] [] []]; try reflexivity; congruence.
Qed.

(** The directory of a path with a slash is a beginning of it. *)
Lemma dirname_prefix d b : free_of "/" b -> exists rest,
  d ++ String "/" b = dirname (d ++ String "/" b) ++ rest /\ dirname (d ++ String "/" b) <> "".
Proof.
  intros Fb. unfold dirname. set (p := d ++ String "/" b).
  destruct (drop_to_slash_split (rev_string p "")) as (b' & Fb' & [[E1 E2]|(d' & E1 & E2)]);
    rewrite rev_rev in E1; unfold p in E1.
  - exfalso. symmetry in E1. exact (Fb' d b E1).
  - assert (Hd : d = d' /\ b = b').
    { clear - Fb Fb' E1. revert d' E1. induction d as [|x d IH]; intros [|y d'] H; cbn in H.
      - injection H as ->. auto.
      - injection H as _ H. exfalso. exact (Fb d' b' H).
      - injection H as _ H. exfalso. symmetry in H. exact (Fb' d b H).
      - injection H as -> H. destruct (IH d' H) as [-> ->]. auto. }
    destruct Hd as [<- <-]. rewrite E2. set (h := String "/" (rev_string d "")).
    assert (Eh : rev_string h "" = d ++ "/").
    { unfold h. cbn [rev_string]. rewrite rev_app, rev_rev. reflexivity. }
    assert (Ep : p = (d ++ "/") ++ b) by (unfold p; rewrite <- append_assoc; reflexivity).
    destruct (drop_slashes h) as [|c t] eqn:Ed.
    + rewrite Eh. exists b. split; [exact Ep|]. destruct d; discriminate.
    + destruct (drop_slashes_split h) as (sl & Es). rewrite Ed in Es.
      assert (Er : d ++ "/" = rev_string (String c t) "" ++ rev_string sl "").
      { rewrite <- Eh, Es. rewrite rev_append. reflexivity. }
      exists (rev_string sl "" ++ b). split; [rewrite Ep, Er, <- append_assoc; reflexivity|].
      cbn [rev_string]. rewrite rev_app. destruct (rev_string t ""); discriminate.
Qed.

Lemma directory_place p d b : p = d ++ String "/" b -> free_of "/" b -> b <> "" ->
  same_place (dirname p ++ "/" ++ b) p.
Proof.
  intros -> Fb Nb. set (p := d ++ String "/" b).
  assert (Fn : file_name p b) by (split; [exact Fb|right; exists d; reflexivity]).
  split.
  - change ("/" ++ b) with (String "/" b). rewrite names_slash, (dirname_names p b Fn Nb). f_equal.
    unfold names. rewrite split_on_none by now apply free_iff. cbn [filter].
    destruct (String.eqb_spec b ""); [congruence|reflexivity].
  - destruct (dirname_prefix d b Fb) as (rest & E & N). fold p in E, N.
    rewrite E at 2. destruct (dirname p) as [|c t]; [congruence|].
    split; intros (r & H); cbn in H; injection H as -> _; eexists; reflexivity.
Qed.
