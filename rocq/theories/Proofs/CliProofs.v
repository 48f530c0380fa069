From Coq Require Import ZArith Bool DecimalString Decimal String Ascii List Lia.
From Verif Require Import Lib.Base Lib.PyStr Lib.PyDict Lib.PyText Model.Cli Spec.DesInfoSpec Spec.CliSpec
  Proofs.PyStrProofs Proofs.DesInfoProofs Proofs.LoadInfoProofs Proofs.SliceInputsProofs.
Import ListNotations.
Open Scope string_scope.
Open Scope list_scope.
Open Scope Z_scope.

Lemma zeros_digits n : all_chars is_digit (zeros n) = true.
Proof. induction n; [reflexivity|exact IHn]. Qed.

Lemma int_digits_zeros n : forall s prev, int_digits (zeros (S n) ++ s)%string 0 prev = int_digits s 0 true.
Proof.
  induction n as [|n IH]; intros s prev; [reflexivity|].
  change (zeros (S (S n)) ++ s)%string with (String "0" (zeros (S n) ++ s)%string). cbn [int_digits].
  change (digit_value "0") with (Some 0). cbn [Z.mul Z.add]. apply IH.
Qed.

Lemma int_digits_prev s acc : s <> "" -> all_chars is_digit s = true ->
  int_digits s acc true = int_digits s acc false.
Proof.
  destruct s as [|c s]; [congruence|]. intros _ H. cbn [all_chars] in H. apply andb_true_iff in H as [H _].
  cbn [int_digits]. unfold is_digit in H. destruct (digit_value c); [reflexivity|discriminate].
Qed.

Lemma dec_value z : 0 <= z -> int_digits (dec z) 0 false = Some z /\ dec z <> "" /\ all_chars is_digit (dec z) = true.
Proof.
  intros Hz. split; [|split; [|now apply dec_nonneg_digits]].
  - destruct (dec_shape z) as (u & Hu & E & A). rewrite E.
    replace (z <? 0) with false by (symmetry; apply Z.ltb_ge; lia).
    change ("" ++ NilEmpty.string_of_uint u)%string with (NilEmpty.string_of_uint u).
    rewrite int_digits_string0 by exact Hu. f_equal. lia.
  - destruct (dec_shape z) as (u & Hu & E & A). rewrite E.
    replace (z <? 0) with false by (symmetry; apply Z.ltb_ge; lia). destruct u; [congruence|..]; discriminate.
Qed.

(** Digits with zeros in front. *)
Lemma pad_value n z : 0 <= z ->
  int_digits (zeros n ++ dec z)%string 0 false = Some z /\
  all_chars is_digit (zeros n ++ dec z)%string = true /\ (zeros n ++ dec z)%string <> "".
Proof.
  intros Hz. destruct (dec_value z Hz) as (H1 & H2 & H3). split.
  - destruct n as [|n]; [exact H1|]. rewrite int_digits_zeros, int_digits_prev; assumption.
  - split.
    + rewrite all_chars_app, zeros_digits, H3. reflexivity.
    + destruct n; cbn; [exact H2|discriminate].
Qed.

(** A padded number: its digits, and a sign. *)
Lemma pad_shape w z : exists d, all_chars is_digit d = true /\ d <> "" /\ int_digits d 0 false = Some (Z.abs z) /\
  dec_pad w z = if z <? 0 then String "-" d else d.
Proof.
  unfold dec_pad. destruct (Z.ltb_spec z 0) as [N|N].
  - destruct (pad_value (w - 1 - String.length (dec (- z))) (- z) ltac:(lia)) as (H1 & H2 & H3).
    eexists. split; [exact H2|]. split; [exact H3|]. split; [|reflexivity]. rewrite H1. f_equal. lia.
  - destruct (pad_value (w - String.length (dec z)) z N) as (H1 & H2 & H3).
    eexists. split; [exact H2|]. split; [exact H3|]. split; [|reflexivity]. rewrite H1. f_equal. lia.
Qed.

Lemma digits_free d c : is_digit c = false -> all_chars is_digit d = true -> free_of c d.
Proof.
  intros Hc H. apply free_iff. revert H. apply all_chars_impl. intros x Hx.
  destruct (Ascii.eqb_spec x c) as [->|]; [congruence|reflexivity].
Qed.

Lemma pad_inj w a b : dec_pad w a = dec_pad w b -> a = b.
Proof.
  intros H. destruct (pad_shape w a) as (d & D1 & D2 & D3 & D4). destruct (pad_shape w b) as (d' & D1' & D2' & D3' & D4').
  rewrite D4, D4' in H. destruct (Z.ltb_spec a 0) as [A|A], (Z.ltb_spec b 0) as [B|B].
  - injection H as ->. rewrite D3 in D3'. injection D3' as E. lia.
  - exfalso. subst d'. discriminate.
  - exfalso. subst d. discriminate.
  - subst d'. rewrite D3 in D3'. injection D3' as E. lia.
Qed.

Lemma range_inj w a b a' b' :
  (dec_pad w a ++ "-" ++ dec_pad w b)%string = (dec_pad w a' ++ "-" ++ dec_pad w b')%string -> a = a' /\ b = b'.
Proof.
  assert (Key : dec_pad w a = dec_pad w a' ->
    (dec_pad w a ++ "-" ++ dec_pad w b)%string = (dec_pad w a' ++ "-" ++ dec_pad w b')%string -> a = a' /\ b = b').
  { intros E H. rewrite E in H. apply append_cancel_l in H. cbn in H. injection H as H.
    split; apply (pad_inj w); assumption. }
  intros H. apply Key; [|exact H]. clear Key.
  destruct (pad_shape w a) as (d & D1 & D2 & D3 & D4). destruct (pad_shape w a') as (d' & D1' & D2' & D3' & D4').
  rewrite D4, D4' in *.
  pose proof (digits_free d "-" eq_refl D1) as F1. pose proof (digits_free d' "-" eq_refl D1') as F2.
  destruct (a <? 0), (a' <? 0).
  - f_equal. cbn in H. injection H as H. exact (free_first "-" d d' _ _ F1 F2 H).
  - exfalso. destruct d' as [|c d']; [congruence|]. cbn in H. injection H as H _. subst c. discriminate.
  - exfalso. destruct d as [|c d]; [congruence|]. cbn in H. injection H as H _. subst c. discriminate.
  - exact (free_first "-" d d' _ _ F1 F2 H).
Qed.

(** Reading a range. *)
Lemma split_range s a b : (exists x y, split_on ":" s = [x; y] /\ py_int x = Ok a /\ py_int y = Ok b) <-> reads_range s a b.
Proof.
  unfold reads_range. split.
  - intros (x & y & H & Hx & Hy). exists x, y.
    assert (Px : free_of ":" x) by (apply free_iff; apply (split_on_parts ":" s x); rewrite H; left; reflexivity).
    assert (Py : free_of ":" y) by (apply free_iff; apply (split_on_parts ":" s y); rewrite H; right; left; reflexivity).
    repeat (split; [assumption|]). split; [apply split_on_two; exact H|auto].
  - intros (x & y & Hx & Hy & -> & E1 & E2). exists x, y. split; [|auto].
    change (x ++ ":" ++ y)%string with (x ++ String ":" y)%string.
    rewrite split_on_app by (now apply free_iff). rewrite split_on_none by (now apply free_iff). reflexivity.
Qed.

Lemma range_end_ok r rend : range_end r = Ok rend <->
  match r with
  | None => rend = ""
  | Some s => exists a b, reads_range s a b /\ rend = ("-range" ++ dec_pad 4 a ++ "-" ++ dec_pad 4 b)%string
  end.
Proof.
  unfold range_end. destruct r as [s|].
  2: { split; [intros H; apply Ok_inj in H; congruence|intros ->; reflexivity]. }
  split.
  - intros H. destruct (split_on ":" s) as [|x [|y [|]]] eqn:E; try discriminate.
    destruct (py_int x) as [a|] eqn:Ea; [|discriminate]. cbn [bind] in H.
    destruct (py_int y) as [b|] eqn:Eb; [|discriminate]. cbn [bind] in H. apply Ok_inj in H.
    exists a, b. split; [|congruence]. apply split_range. eauto.
  - intros (a & b & H & ->). apply split_range in H as (x & y & -> & -> & ->). reflexivity.
Qed.

Lemma reads_unique s a b a' b' : reads_range s a b -> reads_range s a' b' -> a = a' /\ b = b'.
Proof.
  intros H H'. apply split_range in H as (x & y & E & E1 & E2). apply split_range in H' as (x' & y' & E' & E1' & E2').
  rewrite E in E'. injection E' as -> ->. split; congruence.
Qed.

Lemma not_ends p s : ~ ends p s <-> endswith p s = false.
Proof. rewrite <- (endswith_iff p s). destruct (endswith p s); split; congruence || (intros; discriminate) || tauto. Qed.

Lemma path_join_same out pre a b : pre <> "" ->
  path_join out (pre ++ a)%string = path_join out (pre ++ b)%string -> a = b.
Proof.
  intros Hp. destruct pre as [|c pre]; [congruence|]. clear Hp.
  assert (HS : startswith "/" (String c pre ++ a)%string = startswith "/" (String c pre ++ b)%string).
  { unfold startswith. cbn [append String.prefix]. destruct (ascii_dec "/" c); [|reflexivity]. destruct (pre ++ a)%string, (pre ++ b)%string; reflexivity. }
  unfold path_join. destruct out as [|o out].
  - apply append_cancel_l.
  - rewrite HS. destruct (startswith "/" (String c pre ++ b)%string); [apply append_cancel_l|].
    destruct (endswith "/" (String o out)).
    + intros H. apply append_cancel_l in H. now apply append_cancel_l in H.
    + intros H. apply append_cancel_l in H. injection H as H. now apply append_cancel_l in H.
Qed.

Lemma meds_path_dir out config tag r tile band p : directory out ->
  (meds_path out config tag r tile band = Ok p <->
   exists rend, range_end r = Ok rend /\
     p = path_join out (tile ++ "_" ++ band ++ "_" ++ config_name config tag ++ "_meds-pizza-slices" ++ rend ++ ".fits")%string).
Proof.
  intros [H1 H2]. apply not_ends in H1, H2. unfold meds_path. rewrite H1, H2. split.
  - intros H. destruct (range_end r) as [rend|]; [|discriminate]. cbn [bind] in H. apply Ok_inj in H. eauto.
  - intros (rend & -> & ->). reflexivity.
Qed.

(** In a directory: equal names exactly for equal ranges. *)
Lemma names_iff_ranges out config tag r r' tile band p p' : directory out ->
  meds_path out config tag r tile band = Ok p -> meds_path out config tag r' tile band = Ok p' ->
  (p = p' <-> same_range r r').
Proof.
  intros Hd H H'. apply (meds_path_dir _ _ _ _ _ _ _ Hd) in H as (rend & Hr & ->).
  apply (meds_path_dir _ _ _ _ _ _ _ Hd) in H' as (rend' & Hr' & ->).
  assert (E : path_join out (tile ++ "_" ++ band ++ "_" ++ config_name config tag ++ "_meds-pizza-slices" ++ rend ++ ".fits")%string =
     path_join out (tile ++ "_" ++ band ++ "_" ++ config_name config tag ++ "_meds-pizza-slices" ++ rend' ++ ".fits")%string <-> rend = rend').
  { split; [|intros ->; reflexivity]. intros H.
    assert (G : forall x, (tile ++ "_" ++ band ++ "_" ++ config_name config tag ++ "_meds-pizza-slices" ++ x ++ ".fits")%string =
                          ((tile ++ "_") ++ band ++ "_" ++ config_name config tag ++ "_meds-pizza-slices" ++ x ++ ".fits")%string).
    { intros x. now rewrite <- (append_assoc tile "_"). }
    rewrite !G in H. apply path_join_same in H; [|destruct tile; discriminate].
    apply append_cancel_l in H. apply append_cancel_l in H. apply append_cancel_l in H. apply append_cancel_l in H.
    apply append_cancel_r in H. exact H. }
  rewrite E. clear E. apply range_end_ok in Hr. apply range_end_ok in Hr'. unfold same_range.
  destruct r as [s|], r' as [s'|].
  - destruct Hr as (a & b & Ra & ->), Hr' as (a' & b' & Ra' & ->). split.
    + intros H. apply append_cancel_l in H. apply range_inj in H as [-> ->]. eauto.
    + intros (c & d & Rc & Rd). destruct (reads_unique _ _ _ _ _ Ra Rc) as [-> ->].
      destruct (reads_unique _ _ _ _ _ Ra' Rd) as [-> ->]. reflexivity.
  - destruct Hr as (a & b & Ra & ->). subst rend'. split; [discriminate|tauto].
  - destruct Hr' as (a & b & Ra & ->). subst rend. split; [discriminate|tauto].
  - subst. tauto.
Qed.

Lemma meds_path_range_error out config tag s tile band : directory out ->
  (~ exists a b, reads_range s a b) ->
  meds_path out config tag (Some s) tile band = Raise AssertionError \/
  meds_path out config tag (Some s) tile band = Raise ValueError.
Proof.
  intros [H1 H2] N. apply not_ends in H1, H2. unfold meds_path. rewrite H1, H2. unfold range_end.
  destruct (split_on ":" s) as [|x [|y [|]]] eqn:E; try (left; reflexivity).
  right. destruct (py_int x) as [a|e] eqn:Ea; cbn [bind].
  - destruct (py_int y) as [b|e] eqn:Eb; cbn [bind].
    + exfalso. apply N. exists a, b. apply split_range. eauto.
    + now rewrite (py_int_raise _ _ Eb).
  - now rewrite (py_int_raise _ _ Ea).
Qed.

Lemma substring_prefix pre : forall post, String.substring 0 (String.length pre) (pre ++ post)%string = pre.
Proof. induction pre as [|c pre IH]; intros post; cbn; [destruct post; reflexivity|]. now rewrite IH. Qed.

Lemma meds_path_fz pre config tag r tile band :
  meds_path (pre ++ ".fits.fz")%string config tag r tile band = Ok (pre ++ ".fits")%string.
Proof.
  unfold meds_path.
  assert (E1 : endswith ".fits" (pre ++ ".fits.fz")%string = false).
  { apply not_ends. intros (q & H). change ".fits.fz" with (".fits" ++ ".fz")%string in H.
    assert (K : ((pre ++ ".fit") ++ "s.fz")%string = ((q ++ ".") ++ "fits")%string) by (rewrite <- !append_assoc; exact H).
    assert (G : forall a b c d : string, String.length c = String.length d -> (a ++ c)%string = (b ++ d)%string -> c = d).
    { clear. induction a as [|x a IH]; intros [|y b] c d Hl E.
      - exact E.
      - exfalso. cbn in E. apply (f_equal String.length) in E. cbn in E. rewrite append_length in E. lia.
      - exfalso. cbn in E. apply (f_equal String.length) in E. cbn in E. rewrite append_length in E. lia.
      - cbn in E. injection E as _ E. exact (IH b c d Hl E). }
    apply G in K; [discriminate|reflexivity]. }
  assert (E2 : endswith ".fits.fz" (pre ++ ".fits.fz")%string = true) by (apply endswith_iff; exists pre; reflexivity).
  rewrite E1, E2. f_equal.
  replace (String.length (pre ++ ".fits.fz")%string - 3)%nat with (String.length (pre ++ ".fits")%string)
    by (rewrite !append_length; cbn; lia).
  change ".fits.fz" with (".fits" ++ ".fz")%string. rewrite append_assoc. apply substring_prefix.
Qed.

Lemma meds_path_fits pre config tag r tile band :
  meds_path (pre ++ ".fits")%string config tag r tile band = Ok (pre ++ ".fits")%string.
Proof.
  unfold meds_path. rewrite (proj2 (endswith_iff ".fits" (pre ++ ".fits")%string)); [reflexivity|]. exists pre. reflexivity.
Qed.

(** Hash. *)
Lemma hex_digit_value c : is_hex c -> exists d, hex_digit c = Some d /\ 0 <= d < 16.
Proof.
  unfold is_hex. cbn [In]. intros H.
  assert (K : exists d, hex_digit c = Some d /\ (0 <=? d) && (d <? 16) = true).
  { repeat match goal with H : _ \/ _ |- _ => destruct H as [H|H] | H : False |- _ => destruct H end;
      subst c; vm_compute; eexists; split; reflexivity. }
  destruct K as (d & K1 & K2). exists d. split; [exact K1|]. apply andb_prop in K2 as [K2 K3].
  apply Z.leb_le in K2. apply Z.ltb_lt in K3. lia.
Qed.

Lemma hex_from_ok : forall s acc, (forall a c b, s = (a ++ String c b)%string -> is_hex c) -> 0 <= acc ->
  exists v, hex_from s acc = Ok v /\ 0 <= v.
Proof.
  induction s as [|c s IH]; intros acc H Ha; cbn [hex_from]; [eauto|].
  destruct (hex_digit_value c (H "" c s eq_refl)) as (d & -> & Hd). apply IH; [|lia].
  intros a x b E. apply (H (String c a) x b). cbn. congruence.
Qed.

Lemma int16_ok s : hex_text s -> exists v, int16 s = Ok v /\ 0 <= v.
Proof.
  intros [N H]. unfold int16. destruct s as [|c s]; [congruence|]. apply hex_from_ok; [exact H|lia].
Qed.

(** Logging levels. *)
Lemma hasattr_get d k : hasattr d k = true <-> exists a, dget d k = Some a.
Proof. unfold hasattr. destruct (dget d k); split; eauto; try discriminate. intros (a & H). discriminate. Qed.

Lemma hasattr_false d k : hasattr d k = false <-> dget d k = None.
Proof. unfold hasattr. destruct (dget d k); split; congruence || discriminate. Qed.

Lemma method_is name method m : method_for name method m ->
  match method with None | Some "" => lower name | Some m => m end = m.
Proof.
  unfold method_for. intros [[[->| ->] ->]|[-> N]]; try reflexivity. destruct m; [congruence|reflexivity].
Qed.

Lemma add_level_ok st name num method m st' : method_for name method m ->
  add_logging_level st name num method = Ok st' ->
  dget (module_attrs st) name = None /\ dget (module_attrs st) m = None /\ dget (class_attrs st) m = None /\
  (forall k, dget (module_attrs st') k =
     if String.eqb m k then Some (LogToRoot num)
     else if String.eqb name k then Some (LevelNumber num) else dget (module_attrs st) k) /\
  (forall k, dget (class_attrs st') k =
     if String.eqb m k then Some (LogForLevel num) else dget (class_attrs st) k) /\
  (forall n, level_names st' n = if n =? num then Some name else level_names st n) /\
  (forall k, dget (name_levels st') k = if String.eqb name k then Some num else dget (name_levels st) k).
Proof.
  intros Hm H. unfold add_logging_level in H. rewrite (method_is _ _ _ Hm) in H.
  destruct (hasattr (module_attrs st) name) eqn:E1; [discriminate|].
  destruct (hasattr (module_attrs st) m) eqn:E2; [discriminate|].
  destruct (hasattr (class_attrs st) m) eqn:E3; [discriminate|].
  apply hasattr_false in E1, E2, E3. apply Ok_inj in H. subst st'. cbn [module_attrs class_attrs level_names name_levels].
  repeat (split; [assumption|]). split; [intros k; rewrite !dget_dset; reflexivity|].
  split; [intros k; apply dget_dset|]. split; [reflexivity|]. intros k. apply dget_dset.
Qed.

Lemma add_level_total st name num method m : method_for name method m ->
  dget (module_attrs st) name = None -> dget (module_attrs st) m = None -> dget (class_attrs st) m = None ->
  exists st', add_logging_level st name num method = Ok st'.
Proof.
  intros Hm H1 H2 H3. apply hasattr_false in H1, H2, H3. unfold add_logging_level.
  rewrite (method_is _ _ _ Hm), H1, H2, H3. eauto.
Qed.

Lemma add_level_raises st name num method m : method_for name method m ->
  (exists a, dget (module_attrs st) name = Some a \/ dget (module_attrs st) m = Some a \/ dget (class_attrs st) m = Some a) ->
  add_logging_level st name num method = Raise AttributeError.
Proof.
  intros Hm (a & H). unfold add_logging_level. rewrite (method_is _ _ _ Hm).
  destruct (hasattr (module_attrs st) name) eqn:E1; [reflexivity|].
  destruct (hasattr (module_attrs st) m) eqn:E2; [reflexivity|].
  destruct (hasattr (class_attrs st) m) eqn:E3; [reflexivity|].
  apply hasattr_false in E1, E2, E3. exfalso. destruct H as [H|[H|H]]; congruence.
Qed.

Lemma yaml_removed b : (forall x y, b <> (x ++ ".yaml" ++ y)%string) -> remove_all ".yaml" (b ++ ".yaml")%string = b.
Proof.
  unfold remove_all. induction b as [|c b IH]; intros H; [reflexivity|].
  assert (IHb : remove_all_from ".yaml" 0 (b ++ ".yaml")%string = b).
  { apply IH. intros x y E. apply (H (String c x) y). cbn. now rewrite E. }
  assert (N : startswith ".yaml" (String c b ++ ".yaml")%string = false).
  { destruct (startswith ".yaml" (String c b ++ ".yaml")%string) eqn:E; [|reflexivity]. exfalso.
    apply startswith_iff in E as (r & E). cbn in E. injection E as -> E.
    destruct b as [|c1 b]; [discriminate|]. cbn in E. injection E as -> E.
    destruct b as [|c2 b]; [discriminate|]. cbn in E. injection E as -> E.
    destruct b as [|c3 b]; [discriminate|]. cbn in E. injection E as -> E.
    destruct b as [|c4 b]; [discriminate|]. cbn in E. injection E as -> E.
    apply (H "" b). reflexivity. }
  change (String c b ++ ".yaml")%string with (String c (b ++ ".yaml")%string) in *.
  cbn [remove_all_from]. rewrite N. now rewrite IHb.
Qed.
