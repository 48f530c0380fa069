(** C88: WCS and image objects as keys of caches. *)
From Coq Require Import ZArith List Bool String Ascii Lia SpecFloat.
From Coq Require Import List.
From Verif Require Import Lib.Base Lib.Floats Lib.PyStr Lib.PyDict Model.Affine Model.SeWcs Model.Process Model.Epoch
  Model.Whole Model.Command Model.Keys Spec.DesInfoSpec Spec.SeWcsSpec Spec.ProcessSpec Spec.CommandSpec Spec.KeysSpec
  Proofs.PyStrProofs Proofs.DesInfoProofs Proofs.LoadInfoProofs Proofs.KeysProofs.
Import ListNotations.
Open Scope string_scope.
Open Scope Z_scope.

(** C88: affine WCS objects that have been made from the same numbers are equal and
    have the same hash; without a collision of hashes equal objects are made from the
    same numbers, so that they map all positions alike. *)
Theorem C88_equal_objects :
  forall (F : Type) (FO : FloatOps F) (show : F -> string) (hash_text : string -> Z)
    a b c d px py a' b' c' d' px' py' w w',
  faithful show ->
  affine_wcs a b c d px py = Ok w -> affine_wcs a' b' c' d' px' py' = Ok w' ->
  (hash_text (affine_text show w) = hash_text (affine_text show w') -> affine_text show w = affine_text show w') ->
  (affine_eq show hash_text w w' = true <-> (a, b, c, d, px, py) = (a', b', c', d', px', py')) /\
  (affine_eq show hash_text w w' = true ->
     affine_hash show hash_text w = affine_hash show hash_text w' /\
     (forall x y, image2sky w x y = image2sky w' x y) /\ (forall u v, sky2image w u v = sky2image w' u v) /\
     (forall x y, affine_jacobian w x y = affine_jacobian w' x y)).
Proof.
  intros F FO show hash a b c d px py a' b' c' d' px' py' w w' Hs Hw Hw' Hh.
  unfold affine_wcs in Hw, Hw'. destruct (feqb _ fzero); [discriminate|]. injection Hw as <-.
  destruct (feqb _ fzero); [discriminate|]. injection Hw' as <-.
  assert (K : affine_eq show hash (mk_affine a b c d px py (fsub (fmul a d) (fmul c b)))
                (mk_affine a' b' c' d' px' py' (fsub (fmul a' d') (fmul c' b'))) = true ->
              (a, b, c, d, px, py) = (a', b', c', d', px', py')).
  { intros E. apply Z.eqb_eq in E. apply Hh, (text_inj show _ _ Hs) in E. cbn in E.
    destruct E as (-> & -> & -> & -> & -> & ->). reflexivity. }
  split.
  - split; [exact K|]. intros E. injection E as -> -> -> -> -> ->. apply Z.eqb_refl.
  - intros E. pose proof (proj1 (Z.eqb_eq _ _) E) as E'. split; [exact E'|]. apply K in E.
    injection E as -> -> -> -> -> ->. auto.
Qed.

(** C88: whatever the hashes are, [==] is an equivalence and agrees with them. *)
Theorem C88_equality :
  forall (F : Type) (show : F -> string) (hash_text : string -> Z) (u v w : affine F),
  affine_eq show hash_text w w = true /\
  affine_eq show hash_text u v = affine_eq show hash_text v u /\
  (affine_eq show hash_text u v = true -> affine_eq show hash_text v w = true -> affine_eq show hash_text u w = true) /\
  (affine_eq show hash_text u v = true -> affine_hash show hash_text u = affine_hash show hash_text v).
Proof.
  intros F show hash u v w. unfold affine_eq. rewrite !Z.eqb_eq.
  split; [reflexivity|]. split; [apply Z.eqb_sym|]. split; [congruence|]. exact (fun H => H).
Qed.

(** C88: a function of an affine WCS that is cached gives the answers of the function
    itself, for every sequence of calls, clearings of the cache and assignments to the
    attributes of the objects in it. *)
Theorem C88_affine_keys :
  forall (F E V : Type) (show : F -> string) hash_text hash_key (eqb : E -> E -> bool)
    (f : affine F -> E -> result V) maxsize objects program,
  faithful show -> (forall e e', eqb e e' = true -> e = e') ->
  (forall w w' e, dudx w = dudx w' -> dudy w = dudy w' -> dvdx w = dvdx w' -> dvdy w = dvdy w' ->
     x0 w = x0 w' -> y0 w = y0 w' -> f w e = f w' e) ->
  no_collision (affine_text show) hash_text hash_key (seen objects program) ->
  run_objects (fresh_text (affine_text show)) hash_text hash_key eqb f maxsize objects [] program
  = answers f objects program.
Proof.
  intros F E V show hash key eqb f n h us Hs He Hf Hc.
  apply (run_ok _ (affine_text show) hash key eqb f (seen h us) eq); try assumption.
  - intros c c' <-. split; reflexivity.
  - intros c c' e <-. reflexivity.
  - intros c c' e _ _ Ht. destruct (text_inj show c c' Hs Ht) as (A1 & A2 & A3 & A4 & A5 & A6). apply Hf; assumption.
  - reflexivity.
  - auto.
  - apply Forall_forall. intros [a e|a g|] _; cbn; auto. intros c c' <-. reflexivity.
  - constructor.
Qed.

(** C88: the same for objects that keep their text, as long as nothing is assigned to
    their attributes. *)
Theorem C88_kept_keys :
  forall (S E V : Type) (print : S -> string) hash_text hash_key (eqb : E -> E -> bool)
    (f : S -> E -> result V) maxsize (objects : nat -> keeping S) program,
  (forall e e', eqb e e' = true -> e = e') ->
  (forall s s' e, print s = print s' -> f s e = f s' e) ->
  (forall a s, k_text (objects a) = Some s -> s = print (k_now (objects a))) ->
  no_collision (fun o => print (k_now o)) hash_text hash_key (seen objects program) ->
  no_assignments program ->
  run_objects (kept_text print) hash_text hash_key eqb (fun o => f (k_now o)) maxsize objects [] program
  = answers (fun o => f (k_now o)) objects program.
Proof.
  intros S E V print hash key eqb f n h us He Hf Hk Hc Hn.
  apply (run_ok _ (fun o => print (k_now o)) hash key eqb _ (seen h us)
           (fun c c' => k_now c = k_now c' /\ forall s, k_text c = Some s -> s = print (k_now c'))); try assumption.
  - intros c c' [H1 H2]. unfold kept_text. destruct (k_text c) as [s|] eqn:Et; cbn [fst snd k_now k_text].
    + split; [apply H2; reflexivity|]. split; [exact H1|]. intros x Hx. apply H2. congruence.
    + rewrite H1. split; [reflexivity|]. split; [reflexivity|]. intros x Hx. congruence.
  - intros c c' e [-> _]. reflexivity.
  - intros c c' e _ _ H. apply Hf. exact H.
  - intros a. split; [reflexivity|]. apply Hk.
  - auto.
  - apply Forall_forall. intros u Hu. clear - Hn Hu. induction us as [|v us IH]; [destruct Hu|].
    destruct Hu as [->|Hu]; [destruct u; cbn in *; tauto|]. apply IH; [destruct v; cbn in Hn; tauto|exact Hu].
  - constructor.
Qed.

(** C88, false for objects that keep their text if something is assigned: every
    function that changes gives an answer for the attributes of before. *)
Theorem C88_assignment_refuted :
  forall (S E V : Type) (print : S -> string) hash_text hash_key (eqb : E -> E -> bool)
    (f : S -> E -> result V) maxsize (s s' : S) e v,
  (forall e, eqb e e = true) -> (1 <= maxsize)%nat -> f s e = Ok v -> f s' e <> Ok v ->
  let objects := fun _ : nat => mkkeeping s None in
  let program := [Ask 0%nat e; Assign 0%nat (fun o => mkkeeping s' (k_text o)); Ask 0%nat e] in
  run_objects (kept_text print) hash_text hash_key eqb (fun o => f (k_now o)) maxsize objects [] program = [Ok v; Ok v] /\
  answers (fun o => f (k_now o)) objects program <> [Ok v; Ok v].
Proof.
  intros S E V print hash key eqb f n s s' e v Hr Hn Hv Hv' objects program.
  split.
  - unfold program, objects. cbn [run_objects call_object kept_text k_text k_now fst snd].
    cbn [take]. unfold set_at at 1. cbn [Nat.eqb]. unfold set_at at 1. cbn [Nat.eqb k_now]. rewrite Hv.
    destruct n as [|n]; [lia|]. cbn [firstn].
    unfold set_at at 1. cbn [Nat.eqb k_text k_now]. unfold call_object.
    assert (X : forall c : keeping S, k_text c = Some (print s) -> kept_text print c = (print s, c)).
    { intros c Hc. unfold kept_text. rewrite Hc. reflexivity. }
    rewrite X by reflexivity. cbn [take]. unfold matches at 1. cbn [s_hash s_args s_object Nat.eqb orb].
    rewrite Z.eqb_refl, Hr. cbn [andb s_value]. reflexivity.
  - cbn. congruence.
Qed.

(** C88: the hashes of the image objects of a tile tell them apart, as C84 and C86
    need, if those of their texts do, and if pprint.pformat and the texts of WCS objects
    and numbers do. *)
Theorem C88_image_texts :
  forall (F P V : Type) (FO : FloatOps F) (source_dict : image F P -> dict V) show_psf show_wcs show show_seeds
    pformat (hash_text : string -> Z) t images,
  (forall d d' : dict (entry V), pformat d = pformat d' -> forall k, dget d k = dget d' k) ->
  (forall W W', show_wcs W = show_wcs W' -> W = W') -> (forall x y : F, show x = show y -> x = y) ->
  let text := image_text source_dict show_psf show_wcs show show_seeds pformat in
  (forall id id', occurs t images id -> occurs t images id' -> hash_text (text id) = hash_text (text id') ->
     text id = text id') ->
  hashes_tell_apart t images (fun id => hash_text (text id)).
Proof.
  intros F P V FO source_dict show_psf show_wcs show show_seeds pformat hash t images Hp Hw Hs text Hh id id' O O' E.
  apply Hh in E; [|exact O|exact O']. unfold text, image_text in E. apply append_inj_l in E.
  pose proof (Hp _ _ E "__internals") as K. unfold image_state in K.
  rewrite !dget_dset, !String.eqb_refl in K. injection K as _ K1 K2 _ _ _. split; [apply Hw; exact K1|apply Hs; exact K2].
Qed.

(** C88: so the condition of C86 on the hashes is met by a run whose hashes are made
    from the texts. *)
Theorem C88_hashes_of_a_run :
  forall (F P W V : Type) (FO : FloatOps F) (source_dict : image F P -> dict V) show_psf show_wcs show show_seeds
    pformat (hash_text : string -> Z) plan prepare make_job seeds (y : way F P),
  (forall d d' : dict (entry V), pformat d = pformat d' -> forall k, dget d k = dget d' k) ->
  (forall x x', show_wcs x = show_wcs x' -> x = x') -> (forall x x' : F, show x = show x' -> x = x') ->
  let text := image_text source_dict show_psf show_wcs show show_seeds pformat in
  (forall a out t cfg p j id id', plan = Ok (a, out, t, cfg) -> prepare a = Ok p -> make_job t a = Ok j ->
     occurs (jb_tile j) (seeded_images (jb_images j) (seeds t p a)) id ->
     occurs (jb_tile j) (seeded_images (jb_images j) (seeds t p a)) id' ->
     hash_text (text id) = hash_text (text id') -> text id = text id') ->
  wy_hash y = (fun id => hash_text (text id)) ->
  good_hash (W := W) plan prepare make_job seeds y.
Proof.
  intros F P W V FO source_dict show_psf show_wcs show show_seeds pformat hash plan prepare make_job seeds y
    Hp Hw Hs text Hh Hy a out t cfg p j H1 H2 H3. rewrite Hy. apply C88_image_texts; try assumption.
  intros id id' O O'. exact (Hh a out t cfg p j id id' H1 H2 H3 O O').
Qed.

(** C88: equal texts are those of objects with the same information on the image. *)
Theorem C88_image_information :
  forall (F P V : Type) (source_dict : image F P -> dict V) show_psf show_wcs show show_seeds pformat id id' k,
  (forall d d' : dict (entry V), pformat d = pformat d' -> forall k, dget d k = dget d' k) ->
  image_text source_dict show_psf show_wcs show show_seeds pformat id
  = image_text source_dict show_psf show_wcs show show_seeds pformat id' ->
  k <> "__internals" -> dget (source_dict (id_source_info id)) k = dget (source_dict (id_source_info id')) k.
Proof.
  intros F P V source_dict show_psf show_wcs show show_seeds pformat id id' k Hp E Hk.
  unfold image_text in E. apply append_inj_l in E. pose proof (Hp _ _ E k) as K. unfold image_state in K.
  assert (Hb : String.eqb "__internals" k = false) by (apply String.eqb_neq; congruence).
  rewrite !dget_dset, Hb in K.
  assert (M : forall d : dict V, dget (map (fun kv => (fst kv, Given (snd kv))) d) k = option_map Given (dget d k)).
  { induction d as [|[k0 v0] d IH]; [reflexivity|]. cbn [map dget fst snd]. destruct (String.eqb k0 k); [reflexivity|exact IH]. }
  rewrite !M in K. destruct (dget _ k), (dget _ k); cbn in K; congruence.
Qed.

(** A way of printing doubles as three integers, and a hash without collisions. *)
Definition ex_code (x : f64) : Z * Z * Z :=
  match x with
  | S754_zero s => (0, Z.b2z s, 0)
  | S754_infinity s => (1, Z.b2z s, 0)
  | S754_nan => (2, 0, 0)
  | S754_finite s m e => (if s then 3 else 4, Z.pos m, e)
  end.
Definition ex_show (x : f64) : string :=
  let '(k, m, e) := ex_code x in dec k ++ ":" ++ dec m ++ ":" ++ dec e.
Fixpoint ex_hash (s : string) : Z :=
  match s with EmptyString => 1 | String c s => Z.of_nat (nat_of_ascii c) + 256 * ex_hash s end.

Lemma ex_hash_inj : forall s s', ex_hash s = ex_hash s' -> s = s'.
Proof.
  assert (P : forall s, 1 <= ex_hash s) by (induction s; cbn [ex_hash]; lia).
  induction s as [|c s IH]; intros [|c' s'] E; cbn [ex_hash] in E; [reflexivity| | |].
  - pose proof (P s'). lia.
  - pose proof (P s). lia.
  - pose proof (nat_ascii_bounded c). pose proof (nat_ascii_bounded c').
    assert (N : nat_of_ascii c = nat_of_ascii c') by lia.
    f_equal; [rewrite <- (ascii_nat_embedding c), N; apply ascii_nat_embedding|apply IH; lia].
Qed.

Lemma ex_faithful : faithful ex_show.
Proof.
  assert (D : forall x z, dec_char x = false -> free_of x (dec z)).
  { intros x z Hx. apply free_iff. apply (all_chars_impl dec_char); [|apply dec_chars]. apply dec_char_not, Hx. }
  split.
  - assert (I : forall x y, ex_code x = ex_code y -> x = y).
    { intros [s|s| |s m e] [s'|s'| |s' m' e'] E; try destruct s; try destruct s'; cbn in E; congruence. }
    intros x y E. apply I. unfold ex_show in E. destruct (ex_code x) as [[k m] e], (ex_code y) as [[k' m'] e'].
    pose proof (free_first ":" _ _ _ _ (D ":"%char k eq_refl) (D ":"%char k' eq_refl) E) as E1. rewrite E1 in E.
    apply append_inj_l in E. injection E as E.
    pose proof (free_first ":" _ _ _ _ (D ":"%char m eq_refl) (D ":"%char m' eq_refl) E) as E2. rewrite E2 in E.
    apply append_inj_l in E. injection E as E. apply dec_inj in E, E1, E2. congruence.
  - intros x. unfold ex_show. destruct (ex_code x) as [[k m] e].
    assert (G : forall c, dec_char c = false -> Ascii.eqb ":" c = false -> free_of c (dec k ++ ":" ++ dec m ++ ":" ++ dec e)).
    { intros c H1 H2. apply free_iff. rewrite !all_chars_app. cbn [all_chars].
      rewrite (proj2 (free_iff c (dec k)) (D c k H1)), (proj2 (free_iff c (dec m)) (D c m H1)),
        (proj2 (free_iff c (dec e)) (D c e H1)), H2. reflexivity. }
    split; apply G; reflexivity.
Qed.

Definition ex_affine (x : Z) : affine f64 := mk_affine fone fzero fzero fone (fofZ x) fzero fone.
(** Two objects: the first one is moved, the second one is then where the first one
    was. *)
Definition ex_program : list (use (C := affine f64) (E := Z)) :=
  [Ask 0%nat 3; Ask 1%nat 3; Assign 0%nat (fun _ => ex_affine 5); Ask 0%nat 3; Ask 1%nat 3; Ask 0%nat 4].
Definition ex_f (w : affine f64) (e : Z) : result (f64 * f64) := Ok (image2sky w (fofZ e) fzero).

Example C88_example :
  faithful ex_show /\
  no_collision (affine_text ex_show) ex_hash Z.add (seen (fun _ => ex_affine 2) ex_program) /\
  run_objects (fresh_text (affine_text ex_show)) ex_hash Z.add Z.eqb ex_f 2 (fun _ => ex_affine 2) [] ex_program
  = [Ok (fofZ 1, fzero); Ok (fofZ 1, fzero); Ok (fofZ (-2), fzero); Ok (fofZ 1, fzero); Ok (fofZ (-1), fzero)] /\
  affine_eq ex_show ex_hash (ex_affine 2) (ex_affine 5) = false.
Proof.
  split; [exact ex_faithful|]. split.
  { intros c c' e _ _ H. apply ex_hash_inj. lia. }
  split; vm_compute; reflexivity.
Qed.

Print Assumptions C88_equal_objects.
Print Assumptions C88_equality.
Print Assumptions C88_affine_keys.
Print Assumptions C88_kept_keys.
Print Assumptions C88_assignment_refuted.
Print Assumptions C88_image_texts.
Print Assumptions C88_hashes_of_a_run.
Print Assumptions C88_image_information.
