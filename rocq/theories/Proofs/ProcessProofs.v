(** A process with caches does what a process without caches does, and what
    Model/Whole.v says. *)
From Coq Require Import ZArith List Bool String Lia FunctionalExtensionality.
From Coq Require Import List.
From Verif Require Import Lib.Base Lib.Floats Model.Jobs Model.Gaia Model.ObjectData Model.SkyBounds Model.WcsGrid
  Model.Noise Model.TapeBumps Model.Cache Model.SeImage Model.SeWcs Model.PsfImage Model.Piff Model.Resample
  Model.SliceInputs Model.Coadd Model.Writer Model.SingleSlice Model.Epoch Model.Whole Model.Process
  Spec.SeWcsSpec Spec.ProcessSpec
  Proofs.SliceInputsProofs Proofs.SeWcsProofs Proofs.SeImageProofs Proofs.SelectProofs Proofs.EpochProofs.
Import ListNotations.
Open Scope list_scope.
Open Scope Z_scope.

(** ** Tape bumps, also outside the image *)
Lemma slice_update_out {A} (a : img A) r1 r2 c1 c2 f r c : 0 <= r1 -> 0 <= r2 -> 0 <= c1 -> 0 <= c2 -> ~ inb a r c ->
  px (slice_update a r1 r2 c1 c2 f) r c = px a r c.
Proof.
  intros H1 H2 H3 H4 Ho. unfold slice_update, pyslice. cbn [px].
  repeat match goal with |- context [?a <? 0] => destruct (Z.ltb_spec a 0); try lia end.
  match goal with |- (if ?b then _ else _) = _ => destruct b eqn:E end; [|reflexivity].
  exfalso. apply Ho. unfold inb. rewrite !andb_true_iff, !Z.leb_le, !Z.ltb_lt in E. lia.
Qed.

Lemma img_ext {A} (a b : img A) : nrows a = nrows b -> ncols a = ncols b -> (forall r c, px a r c = px b r c) -> a = b.
Proof.
  destruct a as [n m p], b as [n' m' p']. cbn. intros -> -> H. f_equal. extensionality r. extensionality c. apply H.
Qed.

Lemma mask_bumps_out bumps : (forall b, In b bumps -> 1 <= row1 b <= row2 b /\ 1 <= col1 b <= col2 b) ->
  forall m r c, ~ inb m r c -> px (fold_left mask_bump bumps m) r c = px m r c.
Proof.
  induction bumps as [|b bumps IH]; intros Hok m r c Ho; cbn [fold_left]; [reflexivity|].
  destruct (mask_bump_shape m b) as [S1 S2].
  rewrite IH; [|intros b' Hb'; apply Hok; now right|unfold inb in *; rewrite S1, S2; exact Ho].
  destruct (Hok b ltac:(now left)) as (H1 & H2). unfold mask_bump.
  rewrite !slice_update_out by (try lia; try assumption; unfold inb in *;
    rewrite ?(proj1 (slice_update_shape _ _ _ _ _ _)), ?(proj2 (slice_update_shape _ _ _ _ _ _)); assumption).
  reflexivity.
Qed.

Lemma tape_idem ccd m m1 : set_tape_bump_mask ccd m = Ok m1 -> set_tape_bump_mask ccd m1 = Ok m1.
Proof.
  intros E. destruct (tape_again ccd m m1 m1 E) as (m2 & E2 & Q); [right; apply img_eq_refl|].
  rewrite E2. f_equal. destruct Q as (Q1 & Q2 & Q3). apply img_ext; [assumption..|]. intros r c.
  destruct (Z_le_dec 0 r) as [A1|A1]; [destruct (Z_lt_dec r (nrows m1)) as [A2|A2];
    [destruct (Z_le_dec 0 c) as [A3|A3]; [destruct (Z_lt_dec c (ncols m1)) as [A4|A4]|]|]|];
    [apply Q3; unfold inb; lia|..].
  all: unfold set_tape_bump_mask in E2; apply bind_ok in E2 as (bs & Eb & E2); apply Ok_inj in E2; subst m2;
    apply mask_bumps_out; [|unfold inb; lia];
    pose proof (lookup_ccd_spec tape_bumps ccd) as L; rewrite Eb in L;
    intros b Hb; destruct (table_bump _ b L Hb) as (T1 & _ & T2 & _); auto.
Qed.

(** ** Rules *)
Section Rules.
Context {F : Type} {FO : FloatOps F} {P : Type}.
Notation st_ := (caches F P).
Notation MM := (M (F := F) (P := P)).
Variable good : st_ -> Prop.

(** The answer of a computation is [r] whatever the caches hold. *)
Definition sees {A} (m : MM A) (r : result A) : Prop :=
  forall st, good st -> fst (m st) = r /\ good (snd (m st)).

Definition matches {A B} (Rel : A -> B -> Prop) (r : result A) (p : result B) : Prop :=
  match r, p with
  | Ok a, Ok b => Rel a b
  | Raise _, Raise _ => True
  | _, _ => False
  end.

(** The computation, with caches of any size, has one answer, which matches [p]. *)
Definition follows {A B} (Rel : A -> B -> Prop) (m : sizes -> MM A) (p : result B) : Prop :=
  exists r, matches Rel r p /\ forall sz, sees (m sz) r.

Lemma sees_lift {A} (r : result A) : sees (lift r) r.
Proof. intros st H. split; [reflexivity|exact H]. Qed.

Lemma sees_bind {A B} (m : MM A) (k : A -> MM B) r q :
  sees m r -> (forall a, r = Ok a -> sees (k a) (q a)) -> sees (mbind m k) (x <- r ;; q x).
Proof.
  intros Hm Hk st H. unfold mbind. destruct (Hm st H) as [E G]. destruct (m st) as [x st1]. cbn in E, G. subst x.
  destruct r as [a|e]; cbn [bind]; [|auto]. apply (Hk a eq_refl st1 G).
Qed.

Lemma sees_call {K V} (get : st_ -> @cache K V) put eqb n (f : K -> MM V) k r (ok : K * V -> Prop) :
  (forall st, good st -> Forall ok (get st)) ->
  (forall st c, good st -> Forall ok c -> good (put c st)) ->
  (forall k' v, ok (k', v) -> eqb k k' = true -> r = Ok v) ->
  (forall v, r = Ok v -> ok (k, v)) ->
  sees (f k) r -> sees (call get put eqb n f k) r.
Proof.
  intros Hget Hput Hhit Hnew Hf st H. unfold call.
  destruct (find_key eqb k (get st)) as [[k' v]|] eqn:Ef.
  - apply find_key_spec in Ef as [Hin He]. pose proof (Hget st H) as A. cbn in He.
    assert (Hok : ok (k', v)) by (rewrite Forall_forall in A; now apply A).
    rewrite (Hhit k' v Hok He). split; [reflexivity|]. cbn. apply Hput; [assumption|].
    constructor; [assumption|]. rewrite Forall_forall in A |- *. intros x Hx. apply A. eapply drop_key_In, Hx.
  - destruct (Hf st H) as [E G]. destruct (f k st) as [x st1]. cbn in E, G. subst x.
    destruct r as [v|e]; cbn; [|auto]. split; [reflexivity|]. apply Hput; [assumption|].
    pose proof (Hget st1 G) as A. rewrite Forall_forall in A |- *. intros x Hx. apply firstn_In in Hx.
    destruct Hx as [<-|Hx]; auto.
Qed.

Lemma follows_sees {A} (m : sizes -> MM A) r : (forall sz, sees (m sz) r) -> follows eq m r.
Proof. intros H. exists r. split; [destruct r; cbn; auto|exact H]. Qed.

Lemma follows_value {A} (m : sizes -> MM A) r : (forall sz, sees (m sz) r) -> follows (fun a b => a = b /\ r = Ok b) m r.
Proof. intros H. exists r. split; [destruct r; cbn; auto|exact H]. Qed.

Lemma sees_assoc {A B C} (m : MM A) (k : A -> MM B) (h : B -> MM C) r :
  sees (mbind (mbind m k) h) r -> sees (mbind m (fun x => mbind (k x) h)) r.
Proof.
  intros H st G. destruct (H st G) as [E G']. unfold mbind in *. destruct (m st) as [[a|e] st1]; auto.
Qed.

Lemma follows_lift {A B} (Rel : A -> B -> Prop) r p : matches Rel r p -> follows Rel (fun _ => lift r) p.
Proof. intros H. exists r. split; [exact H|]. intros sz. apply sees_lift. Qed.

Lemma follows_lift_eq {A} (r : result A) : follows eq (fun _ => lift r) r.
Proof. apply follows_lift. destruct r; cbn; auto. Qed.

Lemma follows_ret {A B} (Rel : A -> B -> Prop) a b : Rel a b -> follows Rel (fun _ => ret a) (Ok b).
Proof. intros H. apply follows_lift. exact H. Qed.

Lemma follows_raise {A B} (Rel : A -> B -> Prop) e e' : follows Rel (fun _ => lift (Raise e)) (Raise e').
Proof. apply follows_lift. exact I. Qed.

Lemma follows_bind {A B C D} (R : A -> B -> Prop) (R' : C -> D -> Prop) (m : sizes -> MM A) (k : sizes -> A -> MM C) p q :
  follows R m p -> (forall a b, R a b -> follows R' (fun sz => k sz a) (q b)) ->
  follows R' (fun sz => mbind (m sz) (k sz)) (x <- p ;; q x).
Proof.
  intros (r & Hr & Hm) Hk. destruct r as [a|e], p as [b|e']; cbn in Hr; try contradiction.
  - destruct (Hk a b Hr) as (r' & Hr' & Hk'). exists r'. split; [exact Hr'|].
    intros sz. change r' with (x <- Ok a ;; r'). apply (sees_bind _ _ (Ok a) (fun _ => r')); [apply Hm|].
    intros a' Ha. apply Ok_inj in Ha. subst a'. apply Hk'.
  - exists (Raise e). split; [exact I|]. intros sz.
    apply (sees_bind _ _ (Raise e) (fun _ => Raise e)); [apply Hm|discriminate].
Qed.

Lemma follows_weaken {A B} (R R' : A -> B -> Prop) m p : (forall a b, R a b -> R' a b) ->
  follows R m p -> follows R' m p.
Proof.
  intros H (r & Hr & Hm). exists r. split; [|exact Hm]. destruct r, p; cbn in *; auto.
Qed.

Lemma follows_map {A B C} (R : A -> B -> Prop) (R' : A -> C -> Prop) m p (q : B -> result C) :
  follows R m p -> (forall a b, R a b -> exists c, q b = Ok c /\ R' a c) -> follows R' m (x <- p ;; q x).
Proof.
  intros (r & Hr & Hm) H. exists r. split; [|exact Hm]. destruct r as [a|], p as [b|]; cbn in *; try tauto.
  destruct (H a b Hr) as (c & -> & Hc). exact Hc.
Qed.

(** Another program with the same outcome. *)
Lemma follows_same {A B} (R : A -> B -> Prop) m p p' : same_answer p p' -> follows R m p -> follows R m p'.
Proof.
  intros H (r & Hr & Hm). exists r. split; [|exact Hm].
  destruct p, p'; cbn in H; try contradiction; [now subst|]. destruct r; cbn in *; auto.
Qed.
End Rules.

(** ** The caches of a process *)
Section Work.
Context {F : Type} {FO : FloatOps F} {P RNG : Type}.
Variables (hash : identity F P -> Z) (t : tile F P)
  (dp : hdu_name -> result (img F)) (dm : hdu_name -> result (img Z))
  (libs : externals (F := F) (RNG := RNG)) (images : list (image F P)) (ti : tile_info (F := F)).
Notation w := (t_world t).
Notation op := (t_options t).
Notation st_ := (caches F P).

Definition sw_of (id : identity F P) : slice_wcs (F := F) :=
  mksw (id_wcs id) (id_position_offset id) (id_wcs_color id).

Definition noise_value (k : hdu_name * F * Z) : result (img F) :=
  wgt <- dp (fst (fst k)) ;; get_noise_image (w_normal w) (w_store w) wgt (snd (fst k)) (snd k).
Definition bad_value (mx : F) (g : Z) (k : string * Z * Z) : result bool :=
  res <- w_piff w (fst (fst k)) (snd (fst k)) ;;
  l <- w_sample w (fst res) g (snd k) ;; bad_piff_model l mx.
Definition image_area (id : identity F P) (shape : Z * Z) : result (scalar_grid F) :=
  area_table t (image2sky1 (sw_of id)) (is_celestial (id_wcs id)) shape (t_se_delta t) fzero.
Definition coadd_area (shape : Z * Z) : result (scalar_grid F) :=
  area_table t (cw_image2sky (t_coadd t)) (cw_celestial (t_coadd t)) shape (t_coadd_delta t) (fofZ (t_offset t)).
Notation occurs := (occurs t images).

(** A mask in the cache is that of the file, or already has the tape bumps. *)
Definition mask_ok (k : hdu_name) (v : img Z) : Prop :=
  exists m0, dm k = Ok m0 /\
    (v = m0 \/ (op_tape_bumps op = true /\
                exists i, In i images /\ i_bmask i = k /\ set_tape_bump_mask (i_ccdnum i) m0 = Ok v)).

Record good (st : st_) : Prop := {
  g_shape : Forall (fun kv => w_shape w (fst (fst kv)) (snd (fst kv)) = Ok (snd kv)) (c_shape st);
  g_image_wcs : Forall (fun kv => w_image_wcs w (fst (fst kv)) (snd (fst kv)) = Ok (snd kv)) (c_image_wcs st);
  g_head_wcs : Forall (fun kv => w_head_wcs w (fst (fst kv)) (fst (snd (fst kv))) (snd (snd (fst kv))) = Ok (snd kv))
                 (c_head_wcs st);
  g_piff : Forall (fun kv => w_piff w (fst (fst kv)) (snd (fst kv)) = Ok (snd kv)) (c_piff st);
  g_psfex : Forall (fun kv => w_psfex w (fst kv) = Ok (snd kv)) (c_psfex st);
  g_bounds : Forall (fun kv => occurs (fst (fst kv)) /\
               sky_bounds t (sw_of (fst (fst kv))) (snd (fst kv)) = Ok (snd kv)) (c_bounds st);
  g_pixels : Forall (fun kv => dp (fst kv) = Ok (snd kv)) (c_pixels st);
  g_masks : Forall (fun kv => mask_ok (fst kv) (snd kv)) (c_masks st);
  g_noise : Forall (fun kv => noise_value (fst kv) = Ok (snd kv)) (c_noise st);
  g_bad : Forall (fun kv => forall mx g, op_piff_failure op = Some (mx, g) -> bad_value mx g (fst kv) = Ok (snd kv))
            (c_bad st);
  g_inverse : Forall (fun kv => occurs (fst (fst kv)) /\
                forall o, so_wcs o = sw_of (fst (fst kv)) -> so_shape o = snd (fst kv) -> wcs_tables t o = Ok (snd kv))
                (c_inverse st);
  g_area : Forall (fun kv => match fst kv with
                             | AreaImage id sh => occurs id /\ image_area id sh = Ok (snd kv)
                             | AreaCoadd sh => coadd_area sh = Ok (snd kv)
                             end) (c_area st);
  g_stars : Forall (fun kv => forall catalogue, ti_gaia_stars ti = Some catalogue ->
              read_gaia_stars (cw_sky2image (t_coadd t)) (ti_position_offset ti) catalogue = Ok (snd kv)) (c_stars st)
}.

Lemma good_empty : good empty.
Proof. constructor; constructor. Qed.

Lemma good_clear st : good st -> good (clear_image_and_wcs_caches st).
Proof. intros []. constructor; cbn; try constructor; assumption. Qed.

Ltac put_ := let H := fresh in intros ? ? [] H; constructor; cbn; assumption.

(** *** Equal keys *)
Lemma name_eqb_eq a b : name_eqb a b = true -> a = b.
Proof.
  unfold name_eqb. rewrite andb_true_iff, !String.eqb_eq. destruct a, b. cbn. intros [-> ->]. reflexivity.
Qed.
Lemma shape_eqb_eq a b : shape_eqb a b = true -> a = b.
Proof. unfold shape_eqb. rewrite andb_true_iff, !Z.eqb_eq. destruct a, b. cbn. intros [-> ->]. reflexivity. Qed.
Lemma head_eqb_eq a b : head_eqb a b = true -> a = b.
Proof.
  unfold head_eqb. rewrite andb_true_iff, String.eqb_eq. destruct a, b. cbn. intros [-> H].
  apply name_eqb_eq in H. now subst.
Qed.
Lemma piff_eqb_eq a b : piff_eqb a b = true -> a = b.
Proof. unfold piff_eqb. rewrite andb_true_iff, String.eqb_eq, Z.eqb_eq. destruct a, b. cbn. intros [-> ->]. reflexivity. Qed.
Lemma bad_eqb_eq a b : bad_eqb a b = true -> a = b.
Proof.
  unfold bad_eqb. rewrite andb_true_iff, Z.eqb_eq. destruct a, b. cbn. intros [H ->].
  apply piff_eqb_eq in H. now subst.
Qed.

(** *** The cached functions *)
Notation see := (sees good).

Lemma sees_get_shape sz k : see (Process.get_shape sz t k) (w_shape w (fst k) (snd k)).
Proof.
  eapply sees_call; [intros st H; exact (g_shape _ H)|put_|..|apply sees_lift]; cbn [fst snd].
  - intros k' v H E. apply name_eqb_eq in E. now subst.
  - auto.
Qed.
Lemma sees_load_image sz k : see (load_image sz t k) (w_image_wcs w (fst k) (snd k)).
Proof.
  eapply sees_call; [intros st H; exact (g_image_wcs _ H)|put_|..|apply sees_lift]; cbn [fst snd].
  - intros k' v H E. apply name_eqb_eq in E. now subst.
  - auto.
Qed.
Lemma sees_load_head sz k : see (load_head sz t k) (w_head_wcs w (fst k) (fst (snd k)) (snd (snd k))).
Proof.
  eapply sees_call; [intros st H; exact (g_head_wcs _ H)|put_|..|apply sees_lift]; cbn [fst snd].
  - intros k' v H E. apply head_eqb_eq in E. now subst.
  - auto.
Qed.
Lemma sees_load_piff sz k : see (load_piff sz t k) (w_piff w (fst k) (snd k)).
Proof.
  eapply sees_call; [intros st H; exact (g_piff _ H)|put_|..|apply sees_lift]; cbn [fst snd].
  - intros k' v H E. apply piff_eqb_eq in E. now subst.
  - auto.
Qed.
Lemma sees_load_psfex sz k : see (load_psfex sz t k) (w_psfex w k).
Proof.
  eapply sees_call; [intros st H; exact (g_psfex _ H)|put_|..|apply sees_lift]; cbn [fst snd].
  - intros k' v H E. apply String.eqb_eq in E. now subst.
  - auto.
Qed.
Lemma sees_read_pixels sz k : see (read_pixels sz dp k) (dp k).
Proof.
  eapply sees_call; [intros st H; exact (g_pixels _ H)|put_|..|apply sees_lift]; cbn [fst snd].
  - intros k' v H E. apply name_eqb_eq in E. now subst.
  - auto.
Qed.

Hypothesis squares : squares_agree F.

Lemma noise_scale (wgt : img F) a b seed : feqb a b = true ->
  get_noise_image (w_normal w) (w_store w) wgt a seed = get_noise_image (w_normal w) (w_store w) wgt b seed.
Proof. intros E. unfold get_noise_image. rewrite (squares a b E). reflexivity. Qed.

Lemma sees_noise_of sz k : see (noise_of sz t dp k) (noise_value k).
Proof.
  eapply sees_call; [intros st H; exact (g_noise _ H)|put_|..]; cbn [fst snd].
  - intros [[n' a'] s'] v H E. destruct k as [[n a] s]. unfold noise_eqb in E. cbn [fst snd] in E.
    rewrite !andb_true_iff, Z.eqb_eq in E. destruct E as [[E1 E2] ->]. apply name_eqb_eq in E1. subst n'.
    rewrite <- H. unfold noise_value. cbn [fst snd]. destruct (dp n); [|reflexivity]. cbn [bind].
    apply noise_scale. exact E2.
  - auto.
  - apply sees_bind; [apply sees_read_pixels|]. intros wgt _. apply sees_lift.
Qed.

Lemma sees_bad_model sz mx g k : op_piff_failure op = Some (mx, g) -> see (bad_model sz t mx g k) (bad_value mx g k).
Proof.
  intros Ho. eapply sees_call; [intros st H; exact (g_bad _ H)|put_|..]; cbn [fst snd].
  - intros k' v H E. apply bad_eqb_eq in E. subst k'. auto.
  - intros v E mx' g' Ho'. rewrite Ho in Ho'. injection Ho' as <- <-. exact E.
  - apply sees_bind; [apply sees_load_piff|]. intros res _. apply sees_bind; [apply sees_lift|]. intros l _.
    apply sees_lift.
Qed.

Hypothesis hashes : hashes_tell_apart t images hash.

Lemma occurs_color id : occurs id -> id_wcs_color id = op_color op.
Proof. intros (i & m & W & _ & _ & _ & ->). reflexivity. Qed.

Lemma object_eqb_sw a b : occurs (fst a) -> occurs (fst b) -> object_eqb hash a b = true ->
  sw_of (fst a) = sw_of (fst b) /\ snd a = snd b.
Proof.
  intros Ha Hb E. unfold object_eqb in E. rewrite andb_true_iff, Z.eqb_eq in E. destruct E as [E1 E2].
  apply shape_eqb_eq in E2. split; [|exact E2]. destruct (hashes _ _ Ha Hb E1) as [E3 E4]. unfold sw_of.
  rewrite E3, E4, (occurs_color _ Ha), (occurs_color _ Hb). reflexivity.
Qed.

Lemma sees_bounds sz id shape : occurs id ->
  see (call c_bounds set_bounds (object_eqb hash) (sz_big sz) (fun _ => lift (sky_bounds t (sw_of id) shape)) (id, shape))
    (sky_bounds t (sw_of id) shape).
Proof.
  intros Ho. eapply sees_call; [intros st H; exact (g_bounds _ H)|put_|..|apply sees_lift]; cbn [fst snd].
  - intros k' v [H1 H2] E. destruct (object_eqb_sw (id, shape) k' Ho H1 E) as [E1 E2]. cbn [fst snd] in E1, E2.
    rewrite E1, E2. exact H2.
  - auto.
Qed.

(** An object with the text that belongs to it. *)
Definition own (o : object_ (F := F) (P := P)) : Prop := occurs (snd o) /\ so_wcs (fst o) = sw_of (snd o).

Lemma tables_same o o' : so_wcs (P := P) o = so_wcs (P := P) o' -> so_shape o = so_shape o' -> wcs_tables t o = wcs_tables t o'.
Proof. intros E1 E2. unfold wcs_tables. rewrite E1, E2. reflexivity. Qed.

Lemma sees_tables sz o : own o -> see (m_tables hash sz t o) (wcs_tables t (fst o)).
Proof.
  intros [Ho Hw]. eapply sees_call; [intros st H; exact (g_inverse _ H)|put_|..|apply sees_lift]; cbn [fst snd].
  - intros k' v [H1 H2] E. destruct (object_eqb_sw (snd o, so_shape (fst o)) k' Ho H1 E) as [E1 E2].
    cbn [fst snd] in E1, E2. apply H2; congruence.
  - intros v E. split; [assumption|]. intros o' E1 E2. rewrite <- E. apply tables_same; congruence.
Qed.

Lemma sees_area_image sz o : own o ->
  see (m_area_image hash sz t o)
    (area_table t (image2sky1 (so_wcs (fst o))) (is_celestial (sw_wcs (so_wcs (fst o)))) (so_shape (fst o))
       (t_se_delta t) fzero).
Proof.
  intros [Ho Hw]. eapply sees_call; [intros st H; exact (g_area _ H)|put_|..|apply sees_lift]; cbn [fst snd].
  - intros [id' sh'|sh'] v H E; cbn [area_eqb] in E; [|discriminate]. destruct H as [H1 H2].
    destruct (object_eqb_sw (snd o, so_shape (fst o)) (id', sh') Ho H1 E) as [E1 E2]. cbn [fst snd] in E1, E2.
    rewrite Hw, E1, E2. exact H2.
  - intros v E. split; [assumption|]. unfold image_area. rewrite <- E, Hw. reflexivity.
Qed.

Lemma sees_area_coadd sz shape : see (m_area_coadd hash sz t shape) (coadd_area shape).
Proof.
  eapply sees_call; [intros st H; exact (g_area _ H)|put_|..|apply sees_lift]; cbn [fst snd].
  - intros [id' sh'|sh'] v H E; cbn [area_eqb] in E; [discriminate|]. apply shape_eqb_eq in E. now subst.
  - auto.
Qed.

Lemma sees_stars sz catalogue : ti_gaia_stars ti = Some catalogue ->
  see (call c_stars set_stars (fun _ _ => true) (sz_stars sz)
         (fun _ => lift (read_gaia_stars (cw_sky2image (t_coadd t)) (ti_position_offset ti) catalogue)) tt)
    (read_gaia_stars (cw_sky2image (t_coadd t)) (ti_position_offset ti) catalogue).
Proof.
  intros Ec. eapply sees_call; [intros st H; exact (g_stars _ H)|put_|..|apply sees_lift]; cbn [fst snd].
  - intros _ v H _. auto.
  - intros v E c Ec'. rewrite Ec in Ec'. injection Ec' as <-. exact E.
Qed.

(** *** The mask, which is modified in the cache *)
Hypothesis one_ccd : masks_of_one_ccd t images.

Definition m_mask (sz : sizes) (i : image F P) : M (F := F) (P := P) (img Z) :=
  mbind (read_mask sz dm (i_bmask i)) (fun bmask =>
    if op_tape_bumps op then
      mbind (lift (set_tape_bump_mask (i_ccdnum i) bmask)) (fun m =>
        fun st => (Ok m, set_masks_c (modify_entry name_eqb (i_bmask i) (fun _ => m) (c_masks st)) st))
    else ret bmask).

Definition mask_value (i : image F P) : result (img Z) :=
  m0 <- dm (i_bmask i) ;; if op_tape_bumps op then set_tape_bump_mask (i_ccdnum i) m0 else Ok m0.

Lemma modify_ok k m (c : @cache hdu_name (img Z)) : mask_ok k m -> Forall (fun kv => mask_ok (fst kv) (snd kv)) c ->
  Forall (fun kv => mask_ok (fst kv) (snd kv)) (modify_entry name_eqb k (fun _ => m) c).
Proof.
  intros Hm. induction 1 as [|[k' v] c H Hc IH]; cbn [modify_entry]; [constructor|].
  destruct (name_eqb k k') eqn:E; constructor; auto. apply name_eqb_eq in E. now subst.
Qed.

(** Reading: the file, or its mask with the bumps of this CCD. *)
Lemma read_mask_answer sz i st : In i images -> good st ->
  good (snd (read_mask sz dm (i_bmask i) st)) /\
  match fst (read_mask sz dm (i_bmask i) st) with
  | Ok v => mask_ok (i_bmask i) v
  | Raise e => dm (i_bmask i) = Raise e
  end.
Proof.
  intros Hi H. unfold read_mask, call.
  destruct (find_key name_eqb (i_bmask i) (c_masks st)) as [[k' v]|] eqn:Ef.
  - apply find_key_spec in Ef as [Hin He]. pose proof (g_masks _ H) as A. cbn in He. apply name_eqb_eq in He. subst k'.
    assert (Hok : mask_ok (i_bmask i) v) by (rewrite Forall_forall in A; now apply (A (i_bmask i, v))).
    cbn. split; [|assumption]. destruct H. constructor; cbn; try assumption.
    constructor; [assumption|]. rewrite Forall_forall in A |- *. intros x Hx. apply A. eapply drop_key_In, Hx.
  - cbn [lift]. destruct (dm (i_bmask i)) as [m0|e] eqn:Ed; cbn; [|auto].
    assert (Hok : mask_ok (i_bmask i) m0) by (exists m0; auto). split; [|assumption].
    pose proof (g_masks _ H) as A. destruct H. constructor; cbn [c_shape c_image_wcs c_head_wcs c_piff c_psfex c_bounds
      c_pixels c_masks c_noise c_bad c_inverse c_area c_stars set_masks_c]; try assumption.
    rewrite Forall_forall in A |- *. intros x Hx. apply firstn_In in Hx. destruct Hx as [<-|Hx]; [exact Hok|auto].
Qed.

Lemma sees_mask sz i : In i images -> see (m_mask sz i) (mask_value i).
Proof.
  intros Hi st H. unfold m_mask, mbind, mask_value. destruct (read_mask_answer sz i st Hi H) as [G A].
  destruct (read_mask sz dm (i_bmask i) st) as [[v|e] st1]; cbn [fst snd] in G, A; [|rewrite A; auto].
  destruct A as (m0 & Em & Hv). rewrite Em. cbn [bind]. destruct (op_tape_bumps op) eqn:Et.
  - assert (Ev : set_tape_bump_mask (i_ccdnum i) v = set_tape_bump_mask (i_ccdnum i) m0).
    { destruct Hv as [->|(_ & i' & Hi' & Eb & Es)]; [reflexivity|].
      rewrite (one_ccd Et i' i Hi' Hi Eb) in Es. rewrite Es. eapply tape_idem, Es. }
    unfold lift. rewrite Ev. destruct (set_tape_bump_mask (i_ccdnum i) m0) as [m1|e] eqn:E1; cbn; [|auto].
    split; [reflexivity|]. destruct G. constructor; cbn; try assumption. apply modify_ok; [|assumption].
    exists m0. split; [assumption|]. right. split; [assumption|]. eauto.
  - cbn. destruct Hv as [->|(E & _)]; [auto|discriminate].
Qed.

(** *** Objects *)
Notation entry_ := (entry_of dp dm).

Lemma sees_choose_wcs sz si c : see (m_choose_wcs sz t si c)
  (choose_wcs (w_image_wcs w) (w_head_wcs w) (w_piff w) si c).
Proof.
  destruct c as [n|W]; cbn [m_choose_wcs choose_wcs]; [|apply sees_lift].
  destruct (String.eqb n "image").
  { apply sees_bind; [apply sees_lift|intros p _]. apply sees_bind; [apply sees_lift|intros e _].
    apply (sees_load_image sz (p, e)). }
  destruct (String.eqb n "head").
  { apply sees_bind; [apply sees_lift|intros h _]. apply sees_bind; [apply sees_lift|intros p _].
    apply sees_bind; [apply sees_lift|intros e _]. apply (sees_load_head sz (h, (p, e))). }
  destruct (String.eqb n "affine").
  { apply sees_bind; [apply sees_lift|intros a _]. apply sees_lift. }
  destruct (String.eqb n "pixmappy"); [|apply sees_lift].
  apply sees_bind; [apply sees_lift|intros p _]. apply sees_bind; [apply sees_lift|intros k _].
  apply sees_bind; [apply (sees_load_piff sz (p, k))|intros r _]. apply sees_lift.
Qed.

Lemma sees_choose_psf sz si c : see (m_choose_psf sz t si c) (choose_psf (w_piff w) (w_psfex w) si c).
Proof.
  destruct c as [n|m]; cbn [m_choose_psf choose_psf]; [|apply sees_lift].
  destruct (String.eqb n "galsim"); [apply sees_lift|].
  destruct (String.eqb n "psfex").
  { apply sees_bind; [apply sees_lift|intros p _]. apply (sees_load_psfex sz p). }
  destruct (String.eqb n "piff"); [|apply sees_lift].
  apply sees_bind; [apply sees_lift|intros p _]. apply sees_bind; [apply sees_lift|intros k _].
  apply sees_bind; [apply (sees_load_piff sz (p, k))|intros r _]. apply sees_lift.
Qed.

Lemma make_object_calls i : make_object w op (entry_ i) =
  (W <- choose_wcs (w_image_wcs w) (w_head_wcs w) (w_piff w) (i_info i) (op_wcs op) ;;
   m <- choose_psf (w_piff w) (w_psfex w) (i_info i) (op_psf op) ;;
   shape <- (match s_image_shape (i_info i) with
             | Some sh => Ok sh
             | None => p <- need (s_image_path (i_info i)) ;; e <- need (s_image_ext (i_info i)) ;; w_shape w p e
             end) ;;
   ' (b, ra, dec) <- sky_bounds t (mksw W (fofZ (i_offset i)) (op_color op)) shape ;;
   Ok (mkso (mksw W (fofZ (i_offset i)) (op_color op)) m shape (wcs_is_celestial W) b ra dec
         (0, fst shape - 1, 0, snd shape - 1))).
Proof.
  unfold make_object, init, entry_of. cbn [e_info e_offset].
  destruct (choose_wcs _ _ _ _ _) as [W|]; [|reflexivity]. cbn [bind].
  destruct (choose_psf _ _ _ _) as [m|]; [|reflexivity]. cbn [bind].
  match goal with |- bind ?r _ = bind ?r _ => destruct r as [shape|] end; [|reflexivity]. cbn [bind].
  unfold sky_bounds. cbn [sw_wcs]. destruct (sky_calls _ _ _ _); reflexivity.
Qed.

Definition object_rel (i : image F P) (o : object_ (F := F) (P := P)) (o' : se_object (F := F) (P := P)) : Prop :=
  fst o = o' /\ own o.

Notation follow := (follows good).

Lemma follows_make_object i : In i images ->
  follow (object_rel i) (fun sz => m_make_object hash sz t i) (make_object w op (entry_ i)).
Proof.
  intros Hi. rewrite make_object_calls. unfold m_make_object.
  eapply follows_bind; [apply follows_value; intros sz; apply sees_choose_wcs|]. intros W _ [<- EW].
  eapply follows_bind; [apply follows_value; intros sz; apply sees_choose_psf|]. intros m _ [<- Em].
  assert (Ho : occurs (identity_of t i m W)).
  { exists i, m, W. split; [assumption|]. apply choose_wcs_spec in EW. apply choose_psf_spec in Em. auto. }
  eapply follows_bind with (R := eq).
  { destruct (s_image_shape (i_info i)); [apply follows_lift_eq|]. apply follows_sees. intros sz.
    apply sees_bind; [apply sees_lift|intros p _]. apply sees_bind; [apply sees_lift|intros e _].
    apply (sees_get_shape sz (p, e)). }
  intros shape _ <-.
  eapply follows_bind; [apply follows_sees; intros sz; apply (sees_bounds sz _ shape Ho)|].
  intros [[b ra] dec] _ <-. apply follows_ret. split; [reflexivity|]. split; [assumption|reflexivity].
Qed.

(** *** Slices *)
Fixpoint noises_value (i : image F P) (scale : F) (y0 x0 n : Z) (seeds : list Z) : result (list (img F)) :=
  match seeds with
  | [] => Ok []
  | seed :: seeds =>
      nse <- noise_value (i_weight i, scale, seed) ;;
      rest <- noises_value i scale y0 x0 n seeds ;;
      Ok (np_slice2 nse y0 (y0 + n) x0 (x0 + n) :: rest)
  end.

Definition slice_value (i : image F P) (b : zbounds) : result (SeImage.slice_data (F := F)) :=
  let x0 := zcolmin b in
  let y0 := zrowmin b in
  let n := zcolmax b - zcolmin b + 1 in
  if negb (n =? zrowmax b - zrowmin b + 1) then Raise AssertionError else
  let scale := zp_scale (w_pow10 w) (i_magzp i) in
  let cut {A} (a : img A) := np_slice2 a y0 (y0 + n) x0 (x0 + n) in
  im <- dp (i_image i) ;;
  bkg <- dp (i_bkg i) ;;
  if negb (same_shape im bkg) then Raise ValueError else
  bmask <- mask_value i ;;
  wgt <- dp (i_weight i) ;;
  noises <- noises_value i scale y0 x0 n (i_noise_seeds i) ;;
  Ok (SeImage.mkslice x0 y0 n (imap (fun x => fmul x scale) (cut (imap2 fsub im bkg)))
        (imap (fun v => fdiv v (fmul scale scale)) (cut wgt)) (cut bmask) noises).

Lemma sees_noises sz i scale y0 x0 n seeds :
  see (m_noises sz t dp i scale y0 x0 n seeds) (noises_value i scale y0 x0 n seeds).
Proof.
  induction seeds as [|s l IH]; cbn [m_noises noises_value]; [apply sees_lift|].
  apply sees_bind; [apply sees_noise_of|intros nse _]. apply sees_bind; [exact IH|intros rest _]. apply sees_lift.
Qed.

Lemma sees_set_slice sz i b : In i images -> see (m_set_slice sz t dp dm i b) (slice_value i b).
Proof.
  intros Hi. unfold m_set_slice, slice_value. cbv zeta.
  destruct (negb (_ =? _)); [apply sees_lift|].
  apply sees_bind; [apply sees_read_pixels|intros im _]. apply sees_bind; [apply sees_read_pixels|intros bkg _].
  destruct (negb (same_shape im bkg)); [apply sees_lift|].
  refine (sees_assoc _ _ _ _ _ _). apply sees_bind; [apply (sees_mask sz i Hi)|intros bmask _].
  apply sees_bind; [apply sees_read_pixels|intros wgt _]. apply sees_bind; [apply sees_noises|intros ns _].
  apply sees_lift.
Qed.

Definition psf_value (i : image F P) (o : se_object (F := F) (P := P)) (ra_psf dec_psf : F)
  : result (psf_data (F := F) * bool) :=
  ' (x, y) <- sky2image1 (so_wcs o) ra_psf dec_psf ;;
  flag <- (match op_piff_failure op, w_kind w (so_psf o) with
           | Some (mx, g), Piff =>
               p <- need (s_piff_path (i_info i)) ;;
               k <- need (s_ccdnum (i_info i)) ;;
               bad_value mx g (p, k, i_piff_seed i)
           | _, _ => Ok false
           end) ;;
  pf <- set_psf (w_draw w (so_psf o) (so_wcs o)) (w_kind w (so_psf o)) (w_galsim_n w (so_psf o))
                (i_offset i) x y ;;
  Ok (pf, flag).

Lemma sees_set_psf sz i o ra dec : see (m_set_psf sz t i o ra dec) (psf_value i o ra dec).
Proof.
  unfold m_set_psf, psf_value. apply sees_bind; [apply sees_lift|intros [x y] _].
  apply sees_bind.
  - destruct (op_piff_failure op) as [[mx g]|] eqn:Eo; [|apply sees_lift].
    destruct (w_kind w (so_psf o)); try apply sees_lift.
    apply sees_bind; [apply sees_lift|intros p _]. apply sees_bind; [apply sees_lift|intros k _].
    apply sees_bad_model. exact Eo.
  - intros flag _. apply sees_bind; [apply sees_lift|intros pf _]. apply sees_lift.
Qed.

Lemma same_answer_refl {A} (r : result A) : same_answer r r.
Proof. destruct r; cbn; auto. Qed.
Lemma same_answer_raise {A B} e (p : result B) (q : B -> result A) : (forall b, exists e', q b = Raise e') ->
  same_answer (Raise e) (x <- p ;; q x).
Proof. intros H. destruct p as [b|]; cbn [bind]; [|exact I]. destruct (H b) as (e' & ->). exact I. Qed.

Lemma noises_read i scale y0 x0 n seeds wgt : dp (i_weight i) = Ok wgt ->
  noises_value i scale y0 x0 n seeds = read_noises (w_normal w) (w_store w) wgt scale y0 x0 n seeds.
Proof.
  intros E. induction seeds as [|s l IH]; cbn [noises_value read_noises]; [reflexivity|].
  unfold noise_value. cbn [fst snd]. rewrite E. cbn [bind]. rewrite IH. reflexivity.
Qed.

(** The order of the files does not matter for the outcome. *)
Lemma slice_value_epoch i b :
  same_answer (slice_value i b)
    (pixels <- e_pixels (entry_ i) ;; bmask <- e_bmask (entry_ i) ;;
     ' (sl, _) <- set_slice (w_pow10 w) (w_normal w) (w_store w) pixels (op_tape_bumps op) (i_noise_seeds i) bmask b ;;
     Ok sl).
Proof.
  unfold slice_value, entry_of. cbv zeta. cbn [e_pixels e_bmask].
  destruct (dp (i_image i)) as [im|]; cbn [bind]; [|destruct (negb _); exact I].
  destruct (dp (i_bkg i)) as [bkg|]; cbn [bind]; [|destruct (negb _); exact I].
  destruct (dp (i_weight i)) as [wgt|] eqn:Ew; cbn [bind].
  - unfold mask_value. destruct (dm (i_bmask i)) as [m0|]; cbn [bind];
      [|destruct (negb (_ =? _)); [exact I|]; destruct (negb _); exact I].
    unfold set_slice. cbv zeta. cbn [SeImage.so_image SeImage.so_bkg SeImage.so_weight SeImage.so_magzp SeImage.so_ccdnum].
    destruct (negb (_ =? _)); [exact I|]. destruct (negb (same_shape im bkg)); [exact I|].
    match goal with |- context [bind (if op_tape_bumps op then ?a else ?b) _] =>
      destruct (if op_tape_bumps op then a else b) as [bm|] end; cbn [bind]; [|exact I].
    rewrite (noises_read _ _ _ _ _ _ _ Ew).
    destruct (read_noises _ _ _ _ _ _ _ _); cbn [bind]; reflexivity.
  - destruct (negb (_ =? _)); [exact I|]. destruct (negb _); [exact I|]. destruct (mask_value i); exact I.
Qed.

Lemma psf_value_epoch i o ra dec : psf_value i o ra dec =
  (' (x, y) <- sky2image1 (so_wcs o) ra dec ;;
   set_psf_flagged (w_draw w (so_psf o) (so_wcs o)) (w_kind w (so_psf o)) (w_galsim_n w (so_psf o))
      (e_offset (entry_ i)) x y
      (match op_piff_failure op with Some (m, _) => Some m | None => None end)
      (match op_piff_failure op with
       | Some (_, g) => m <- tested_model w (entry_ i) ;; w_sample w m g (e_piff_seed (entry_ i))
       | None => Ok []
       end)).
Proof.
  unfold psf_value, set_psf_flagged, tested_model, bad_value, entry_of. cbn [e_offset e_info e_piff_seed].
  destruct (sky2image1 _ _ _) as [[x y]|]; [|reflexivity]. cbn [bind].
  destruct (op_piff_failure op) as [[mx g]|]; [|reflexivity]. destruct (w_kind w (so_psf o)); try reflexivity.
  destruct (need (s_piff_path (i_info i))) as [p|]; [|reflexivity]. cbn [bind].
  destruct (need (s_ccdnum (i_info i))) as [k|]; [|reflexivity]. cbn [bind fst snd].
  destruct (w_piff w p k) as [res|]; [|reflexivity]. cbn [bind].
  destruct (w_sample w (fst res) g (i_piff_seed i)); reflexivity.
Qed.

Definition filled (i : image F P) (sl : SeImage.slice_data (F := F)) (pf : psf_data (F := F)) : SliceInputs.se_slice (F := F) :=
  SliceInputs.mkslice (i_id i) (SeImage.sl_x_start sl) (SeImage.sl_y_start sl)
        (SeImage.sl_box_size sl) (SeImage.sl_image sl) (SeImage.sl_weight sl) (SeImage.sl_bmask sl)
        (SeImage.sl_noises sl) (pf_psf pf) (pf_x_start pf) (pf_y_start pf) (pf_box_size pf).

Lemma fill_object_calls i o b ra dec :
  same_answer (sl <- slice_value i b ;; ' (pf, flag) <- psf_value i o ra dec ;; Ok (filled i sl pf, flag))
    (fill_object w op (entry_ i) o b ra dec).
Proof.
  unfold fill_object. pose proof (slice_value_epoch i b) as H. rewrite psf_value_epoch.
  destruct (e_pixels (entry_ i)) as [pixels|]; cbn [bind] in H |- *; [|destruct (slice_value i b); [destruct H|exact I]].
  destruct (e_bmask (entry_ i)) as [bm|]; cbn [bind] in H |- *; [|destruct (slice_value i b); [destruct H|exact I]].
  change (e_noise_seeds (entry_ i)) with (i_noise_seeds i).
  destruct (set_slice _ _ _ _ _ _ _ _) as [[sl' bm']|]; cbn [bind] in H |- *; [|destruct (slice_value i b); [destruct H|exact I]].
  destruct (slice_value i b) as [sl|]; [|destruct H]. cbn in H. subst sl'. cbn [bind].
  destruct (sky2image1 _ _ _) as [[x y]|]; [|exact I]. cbn [bind].
  destruct (set_psf_flagged _ _ _ _ _ _ _ _) as [[pf flag]|]; [|exact I]. cbn [bind]. reflexivity.
Qed.

(** A slice with the object it comes from. *)
Definition slice_rel (x : SliceInputs.se_slice (F := F) * bool * object_ (F := F) (P := P))
  (y : SliceInputs.se_slice (F := F) * bool) : Prop :=
  fst x = y /\ own (snd x) /\
  exists i, In i images /\ SliceInputs.sl_image_id (fst y) = i_id i /\ make_object w op (entry_ i) = Ok (fst (snd x)).

Definition option_rel {A B} (R : A -> B -> Prop) (x : option A) (y : option B) : Prop :=
  match x, y with Some a, Some b => R a b | None, None => True | _, _ => False end.

Lemma follows_examine ra dec rp dpp box i : In i images ->
  follow (option_rel slice_rel) (fun sz => m_examine hash sz t dp dm ra dec rp dpp box i)
    (examine w op ra dec rp dpp box (entry_ i)).
Proof.
  intros Hi. unfold m_examine, examine. change (e_image_flags (entry_ i)) with (i_flags i).
  destruct (negb (i_flags i =? 0)); [apply follows_ret; exact I|].
  destruct (follows_make_object i Hi) as (r & Hr & Hs).
  eapply follows_bind with (R := fun o o' => object_rel i o o' /\ make_object w op (entry_ i) = Ok o').
  { exists r. split; [|exact Hs]. destruct r, (make_object w op (entry_ i)); cbn in *; auto. }
  intros o o' [[<- Hown] Eo].
  destruct (negb (se_contains_radec _ _ _ _)); [apply follows_ret; exact I|].
  eapply follows_bind; [apply follows_lift_eq|]. intros [col row] _ <-.
  eapply follows_bind; [apply follows_lift_eq|]. intros b _ <-.
  destruct (negb (ccd_contains_bounds _ _ _)); [apply follows_ret; exact I|].
  assert (Hf : follow (fun x y => fst x = y /\ snd x = o /\ SliceInputs.sl_image_id (fst y) = i_id i)
    (fun sz => mbind (m_set_slice sz t dp dm i b) (fun sl =>
      mbind (m_set_psf sz t i (fst o) rp dpp) (fun '(pf, flag) => ret (filled i sl pf, flag, o))))
    (fill_object w op (entry_ i) (fst o) b rp dpp)).
  { eapply follows_same; [apply fill_object_calls|].
    eapply follows_bind; [apply follows_sees; intros sz; apply (sees_set_slice sz i b Hi)|]. intros sl _ <-.
    eapply follows_bind; [apply follows_sees; intros sz; apply sees_set_psf|]. intros [pf flag] _ <-.
    apply follows_ret. auto. }
  destruct Hf as (r' & Hr' & Hs').
  set (m := fun sz => mbind (m_set_slice sz t dp dm i b) (fun sl =>
      mbind (m_set_psf sz t i (fst o) rp dpp) (fun '(pf, flag) => ret (filled i sl pf, flag, o)))) in *.
  assert (E : follow (option_rel slice_rel) (fun sz => mbind (m sz) (fun x => ret (Some x)))
     (sp <- fill_object w op (entry_ i) (fst o) b rp dpp ;; Ok (Some sp))).
  { eapply follows_bind with (R := fun x y => fst x = y /\ snd x = o /\ SliceInputs.sl_image_id (fst y) = i_id i).
    - exists r'. auto.
    - intros x y (<- & Ex & Eid). apply follows_ret. cbn. split; [reflexivity|]. rewrite Ex. split; [assumption|].
      exists i. auto. }
  destruct E as (r2 & Hr2 & Hs2). exists r2. split; [exact Hr2|]. intros sz st G. destruct (Hs2 sz st G) as [E1 E2].
  unfold m, mbind in E1, E2 |- *. destruct (m_set_slice sz t dp dm i b st) as [[sl|e] st1]; [|auto].
  destruct (m_set_psf sz t i (fst o) rp dpp st1) as [[[pf flag]|e] st2]; auto.
Qed.

Lemma follows_find_slices ra dec rp dpp box l : incl l images ->
  follow (Forall2 slice_rel) (fun sz => m_find_slices hash sz t dp dm ra dec rp dpp box l)
    (find_slices w op ra dec rp dpp box (map entry_ l)).
Proof.
  induction l as [|i l IH]; intros Hl; cbn [m_find_slices find_slices map]; [apply follows_ret; constructor|].
  eapply follows_bind; [apply follows_examine, Hl; now left|]. intros a a' Ha.
  eapply follows_bind; [apply IH; intros x Hx; apply Hl; now right|]. intros r r' Hr. apply follows_ret.
  destruct a, a'; cbn in Ha; try contradiction; [constructor|]; assumption.
Qed.

(** *** The objects of the tile *)
Variables (images0 : list (image F P)) (seeds : list src_seeds).
Hypothesis (entries : t_entries t = map entry_ images0) (seeded_ : images = seeded_images images0 seeds)
  (ids : NoDup (map (@i_id F P) images0)).

Lemma seeded_map (l : list (image F P)) sds : seeded (map entry_ l) sds = map entry_ (seeded_images l sds).
Proof.
  revert sds. induction l as [|i l IH]; intros sds; cbn [map seeded seeded_images]; [reflexivity|].
  destruct sds as [|[ns ms] sds]; cbn [map]; [reflexivity|]. rewrite IH. reflexivity.
Qed.

Lemma seeded_in (l : list (image F P)) sds i : In i (seeded_images l sds) ->
  exists i0, In i0 l /\ i_id i0 = i_id i /\ make_object w op (entry_ i0) = make_object w op (entry_ i).
Proof.
  revert sds. induction l as [|i0 l IH]; intros sds H; [destruct H|]. destruct sds as [|[ns ms] sds]; [destruct H|].
  destruct H as [<-|H].
  - exists i0. split; [now left|]. split; reflexivity.
  - destruct (IH sds H) as (i1 & H1 & H2). exists i1. split; [now right|exact H2].
Qed.

Lemma find_own i : In i images -> find_object t (i_id i) = make_object w op (entry_ i).
Proof.
  rewrite seeded_. intros Hi. apply seeded_in in Hi as (i0 & I & Eid & <-). rewrite <- Eid. unfold find_object.
  rewrite entries.
  assert (Hf : find (fun e => e_image_id e =? i_id i0) (map entry_ images0) = Some (entry_ i0)); [|now rewrite Hf].
  clear Eid seeded_ entries. revert ids I. induction images0 as [|a l IH]; intros Hn I; [destruct I|].
  cbn [map] in Hn. inversion Hn as [|? ? Ha Hn']; subst. cbn [find map].
  change (e_image_id (entry_ a)) with (i_id a). destruct I as [->|I]; [now rewrite Z.eqb_refl|].
  destruct (Z.eqb_spec (i_id a) (i_id i0)) as [E|_]; [|auto].
  exfalso. apply Ha. rewrite E. now apply in_map.
Qed.

(** An object that goes with a slice. *)
Definition goes_with (s : SliceInputs.se_slice (F := F)) (o : object_ (F := F) (P := P)) : Prop :=
  own o /\ find_object t (SliceInputs.sl_image_id s) = Ok (fst o).

Definition pair_rel (x : SliceInputs.se_slice (F := F) * bool * object_ (F := F) (P := P))
  (y : SliceInputs.se_slice (F := F) * bool) : Prop := fst x = y /\ goes_with (fst y) (snd x).

Lemma slice_pair x y : slice_rel x y -> pair_rel x y.
Proof.
  intros (E & Ho & i & Hi & Eid & Em). split; [assumption|]. split; [assumption|]. now rewrite Eid, find_own.
Qed.

(** *** Mapping of the star mask and resampling *)
Lemma sees_map_mask sz m row col s o : goes_with s o ->
  see (m_map_mask hash sz t m row col s o) (map_mask t m row col s).
Proof.
  intros [Ho Ef]. unfold m_map_mask, map_mask. rewrite Ef. cbn [bind].
  replace (bind (wcs_tables t (fst o)) _) with
    (tb <- wcs_tables t (fst o) ;;
     (x0 <- start col ;;
      y0 <- start row ;;
      map_image_by_nearest_pixel false
          (fun x y => inversion_call (tl_ct (t_libs t)) (snd tb) (fofZ x) (fofZ y)) m x0 y0 (state_of s None))).
  - apply sees_bind; [apply sees_tables, Ho|]. intros tb _. apply sees_lift.
  - destruct (wcs_tables t (fst o)) as [[inv fwd]|]; reflexivity.
Qed.

Lemma sees_resample sz row col box prow pcol pbox shape u o : goes_with (u_slice u) o ->
  see (m_resample hash sz t row col box prow pcol pbox shape u o)
    (resample_used t row col box prow pcol pbox shape u).
Proof.
  intros [Ho Ef]. unfold m_resample, resample_used. rewrite Ef. cbn [bind].
  match goal with |- sees _ _ ?rhs =>
    replace rhs with (tb <- wcs_tables t (fst o) ;;
       (ga <- area_table t (image2sky1 (so_wcs (fst o))) (is_celestial (sw_wcs (so_wcs (fst o)))) (so_shape (fst o))
          (t_se_delta t) fzero ;;
        gc <- coadd_area shape ;;
        x0 <- start col ;;
        y0 <- start row ;;
        px0 <- start pcol ;;
        py0 <- start prow ;;
        r <- resample
               (fun x y => inversion_call (tl_ct (t_libs t)) (fst tb) (fofZ x) (fofZ y))
               (fun x y => scalar_call (tl_spline (t_libs t)) ga (fofZ x) (fofZ y))
               (fun x y => scalar_call (tl_spline (t_libs t)) gc (fofZ x) (fofZ y))
               (used_state u) x0 y0 box px0 py0 pbox ;;
        Ok (mkres (ro_image r) (ro_noises r) (ro_interp_frac r) (ro_psf r) (ro_bmask r) (ro_pmask r))))
      by (destruct (wcs_tables t (fst o)) as [[inv fwd]|]; reflexivity) end.
  apply sees_bind; [apply sees_tables, Ho|]. intros tb _.
  apply sees_bind; [apply sees_area_image, Ho|]. intros ga _.
  apply sees_bind; [apply sees_area_coadd|]. intros gc _. apply sees_lift.
Qed.

(** *** Processing *)
Notation ext := (tile_externals t libs).
Notation process_ := (process_slice (x_rotate ext) (x_normal ext) (x_normal2 ext) (x_interpolator ext)
                        (x_median ext) (x_measure_fwhm ext)).
Notation process_all_ := (SliceInputs.process_all (x_rotate ext) (x_normal ext) (x_normal2 ext) (x_interpolator ext)
                        (x_median ext) (x_measure_fwhm ext)).

Lemma process_mapped cf f s p rng :
  process_ cf (Some f) s p rng = (g <- f s ;; process_ cf (Some (fun _ => Ok g)) s p rng).
Proof. unfold process_slice at 1. destruct (f s) as [g|]; reflexivity. Qed.

Definition verdict_rel (x : verdict (F := F) * object_ (F := F) (P := P)) (v : verdict (F := F)) : Prop :=
  fst x = v /\ goes_with (vslice v) (snd x).

Lemma follows_process_all cf gaia row col l l' rng : Forall2 pair_rel l l' ->
  follow (fun a b => Forall2 verdict_rel a (fst b))
    (fun sz => m_process_all hash sz t ext cf gaia row col l rng)
    (process_all_ cf (match gaia with Some m => Some (map_mask t m row col) | None => None end) l' rng).
Proof.
  intros H. revert rng. induction H as [|[[s p] o] [s' p'] l l' [E Ho] _ IH]; intros rng;
    cbn [m_process_all SliceInputs.process_all]; [apply follows_ret; constructor|].
  cbn [fst] in E. injection E as -> ->. cbn [fst snd] in Ho.
  set (mg := match gaia with Some m => Some (map_mask t m row col) | None => None end) in *.
  assert (Hp : follow (fun g _ => match gaia, g with
                                  | Some m, Some f => exists g0, f = (fun _ => Ok g0) /\ map_mask t m row col s' = Ok g0
                                  | None, None => True
                                  | _, _ => False end)
            (fun sz => match gaia with
              | Some m => mbind (m_map_mask hash sz t m row col s' o)
                            (fun g => ret (Some (fun _ : SliceInputs.se_slice (F := F) => Ok g)))
              | None => ret None end)
            (match gaia with Some m => (g <- map_mask t m row col s' ;; Ok tt) | None => Ok tt end)).
  { destruct gaia as [m|]; [|apply follows_ret; exact I].
    eapply follows_bind; [apply follows_value; intros sz; apply sees_map_mask, Ho|].
    intros g _ [<- Eg]. apply follows_ret. eauto. }
  eapply follows_same; [|eapply follows_bind with
    (q := fun _ : unit => ' (v, rng0) <- process_ cf mg s' p' rng ;;
                          ' (vs, rng1) <- process_all_ cf mg l' rng0 ;; Ok (v :: vs, rng1)); [exact Hp|]].
  { unfold mg. destruct gaia as [m|]; [|apply same_answer_refl].
    rewrite process_mapped. destruct (map_mask t m row col s'); [apply same_answer_refl|exact I]. }
  intros g u0 Hg. cbv beta in Hg |- *.
  eapply follows_bind with (R := fun a b => a = b /\ process_ cf mg s' p' rng = Ok b).
  { apply follows_lift. replace (process_ cf mg s' p' rng) with (process_ cf g s' p' rng).
    - destruct (process_ cf g s' p' rng); cbn; auto.
    - unfold mg. destruct gaia as [m|], g as [f|]; try contradiction; [|reflexivity].
      destruct Hg as (g0 & -> & Eg). rewrite (process_mapped cf (map_mask t m row col)), Eg. reflexivity. }
  intros [v rng0] _ [<- Ev].
  eapply follows_bind; [apply IH|]. intros vs [vs' rng1] Hvs. cbn [fst] in Hvs. apply follows_ret. cbn [fst].
  constructor; [|exact Hvs]. split; [reflexivity|]. cbn [fst snd].
  apply process_ident in Ev. unfold goes_with in Ho |- *. unfold ident in Ev.
  replace (SliceInputs.sl_image_id (vslice v)) with (SliceInputs.sl_image_id s') by congruence. exact Ho.
Qed.

Lemma combine_split {A B} (l : list (A * B)) : combine (map fst l) (map snd l) = l.
Proof. induction l as [|[a b] l IH]; cbn; [reflexivity|]. now rewrite IH. Qed.

Lemma reject_pairs l l' : Forall2 pair_rel l l' ->
  Forall2 pair_rel (combine (reject_outliers (x_outliers ext) (map fst l)) (map snd l))
    (reject_outliers (x_outliers ext) l').
Proof.
  intros H. assert (E : map fst l = l').
  { clear - H. induction H as [|x y l l' [<- _] _ IH]; cbn; [reflexivity|]. now rewrite IH. }
  rewrite E. unfold reject_outliers.
  generalize (x_outliers ext (map (fun sp => SliceInputs.sl_image (fst sp)) l')
                (map (fun sp => SliceInputs.sl_weight (fst sp)) l')). intros new. generalize 0%nat.
  clear E. induction H as [|[[s p] o] [s' p'] l l' [E Ho] _ IH]; intros k; cbn [put_pixels map combine]; [constructor|].
  constructor; [|apply IH]. split; [reflexivity|]. exact Ho.
Qed.

(** What the slices, their weights and their objects are. *)
Definition inputs_rel (a : slice_inputs (F := F) * list (object_ (F := F) (P := P))) (b : slice_inputs (F := F) * RNG) : Prop :=
  fst a = fst b /\ Forall2 (fun u o => goes_with (u_slice u) o) (si_slices (fst b)) (snd a).

Lemma follows_build cf gaia row col ra dec rp dpp box rng :
  follow inputs_rel
    (fun sz => m_build_slice_inputs hash sz t dp dm ext cf gaia row col ra dec rp dpp box images rng)
    (build_slice_inputs (x_rotate ext) (x_normal ext) (x_normal2 ext) (x_interpolator ext)
        (x_median ext) (x_measure_fwhm ext) (x_outliers ext) cf
        (match gaia with Some m => Some (x_map_mask ext m row col) | None => None end)
        (x_sources ext seeds ra dec rp dpp box) rng).
Proof.
  unfold m_build_slice_inputs, build_slice_inputs. cbn [x_sources tile_externals x_map_mask].
  rewrite rough_cut_answers, entries, seeded_map, <- seeded_.
  eapply follows_bind; [apply follows_find_slices; intros x Hx; exact Hx|]. intros l l' Hl.
  assert (H : Forall2 pair_rel l l').
  { clear - Hl seeded_ entries ids. induction Hl as [|x y l l' H _ IH]; constructor; [now apply slice_pair|assumption]. }
  assert (E : map fst l = l').
  { clear - H. induction H as [|x y l l' [<- _] _ IH]; cbn; [reflexivity|]. now rewrite IH. }
  cbv zeta. rewrite E.
  destruct (_ || _); [apply follows_ret; split; [reflexivity|constructor]|].
  eapply follows_bind.
  - apply follows_process_all with (l' := if cf_reject_outliers cf then reject_outliers (x_outliers ext) l' else l').
    destruct (cf_reject_outliers cf); [|rewrite <- E, combine_split, E; exact H].
    rewrite <- E at 1. apply reject_pairs. exact H.
  - intros vs [vs' rng'] Hvs. cbn [fst] in Hvs. apply follows_ret.
    assert (Ev : map fst vs = vs').
    { clear - Hvs. induction Hvs as [|x y l l' [<- _] _ IH]; cbn; [reflexivity|]. now rewrite IH. }
    split; cbn [fst snd si_slices]; [now rewrite Ev|].
    clear - Hvs. induction Hvs as [|[v o] v' l l' [Ev Ho] _ IH]; cbn [flat_map used_of]; [constructor|].
    cbn [fst snd] in Ev, Ho |- *. subst v'. unfold used_of in IH |- *. cbn [flat_map].
    destruct v as [u wt|]; cbn [app]; [constructor; assumption|exact IH].
Qed.

(** *** The coadd *)
Lemma follows_coadd_loop rs rs' l l' acc :
  Forall2 (fun x y => fst (fst x) = fst y /\ snd x = snd y /\ goes_with (u_slice (fst y)) (snd (fst x))) l l' ->
  (forall u o, goes_with (u_slice u) o -> forall sz, see (rs sz u o) (rs' u)) ->
  follow (fun a b => a = fst b) (fun sz => m_coadd_loop (rs sz) l acc) (coadd_loop rs' l' acc).
Proof.
  intros H Hrs. revert acc. induction H as [|[[u o] wt] [u' wt'] l l' (E1 & E2 & Ho) _ IH]; intros acc;
    cbn [m_coadd_loop coadd_loop]; [apply follows_ret; reflexivity|].
  cbn [fst snd] in E1, E2, Ho. subst u' wt'.
  eapply follows_bind; [apply follows_sees; intros sz; apply Hrs, Ho|]. intros res _ <-.
  eapply follows_bind; [apply follows_lift_eq|]. intros acc' _ <-.
  eapply follows_map; [apply IH|]. intros a [b datas] ->. cbn [fst]. eauto.
Qed.

Lemma goes_combine (us : list (used_slice (F := F))) os (ws : list F) : Forall2 (fun u o => goes_with (u_slice u) o) us os ->
  Forall2 (fun x y => fst (fst x) = fst y /\ snd x = snd y /\ goes_with (u_slice (fst y)) (snd (fst x)))
    (combine (combine us os) ws) (combine us ws).
Proof.
  intros H. revert ws. induction H as [|u o us os Ho _ IH]; intros [|wt ws]; cbn; constructor; [|apply IH]. auto.
Qed.

Lemma follows_coadd rs rs' box pbox us os ws n :
  Forall2 (fun u o => goes_with (u_slice u) o) us os ->
  (forall u o, goes_with (u_slice u) o -> forall sz, see (rs sz u o) (rs' u)) ->
  follow (fun a b => a = fst b) (fun sz => m_coadd_slice_inputs (rs sz) box pbox (combine us os) ws n)
    (coadd_slice_inputs rs' box pbox us ws n).
Proof.
  intros H Hrs. unfold m_coadd_slice_inputs, coadd_slice_inputs. cbv zeta.
  assert (El : length (combine us os) = length us).
  { clear - H. induction H as [|u o us os _ _ IH]; cbn; [reflexivity|]. now rewrite IH. }
  rewrite El. destruct (negb (_ =? _)%nat); [apply follows_raise|].
  destruct H as [|u o us os Ho H]; cbn [combine]; [apply follows_raise|].
  eapply follows_bind.
  - apply follows_coadd_loop with (rs' := rs'); [|exact Hrs].
    apply (goes_combine (u :: us) (o :: os)). constructor; assumption.
  - intros out [out' datas] ->. cbn [fst]. destruct (co_noises out'); [apply follows_raise|].
    apply follows_ret. reflexivity.
Qed.

(** *** One slice *)
Lemma follows_star_mask sc o :
  follow eq (fun sz => m_star_mask sz ext sc ti o) (star_mask ext sc ti o).
Proof.
  unfold m_star_mask, star_mask. destruct (ti_gaia_stars ti) as [cat|] eqn:Ec; [|apply follows_ret; reflexivity].
  destruct (sc_gaia_star_masks sc) as [gc|]; [|apply follows_ret; reflexivity].
  eapply follows_bind; [apply follows_sees; intros sz; apply (sees_stars sz cat Ec)|]. intros stars _ <-.
  eapply follows_bind; [apply follows_lift_eq|]. intros m _ <-. apply follows_ret. reflexivity.
Qed.

Lemma follows_single_slice sc cw objs n item :
  follow eq (fun sz => m_single_slice hash sz t dp dm ext images sc cw ti objs n item)
    (coadd_single_slice ext sc cw ti objs n seeds item).
Proof.
  unfold m_single_slice, coadd_single_slice. destruct item as [i seed].
  eapply follows_bind; [apply follows_lift_eq|]. intros o _ <-.
  eapply follows_bind; [apply follows_lift_eq|]. intros [col row] _ <-.
  eapply follows_bind; [apply follows_lift_eq|]. intros [[kcol krow] [psr psc]] _ <-.
  eapply follows_bind; [apply follows_lift_eq|]. intros [ra_psf dec_psf] _ <-.
  eapply follows_bind; [apply follows_star_mask|]. intros gaia _ <-.
  eapply follows_bind; [apply follows_build|]. intros [inputs objects] [inputs' rng'] [E Ho].
  cbn [fst snd] in E, Ho. subst inputs'. cbv zeta.
  destruct (si_weights inputs) as [|w0 ws] eqn:Ew; [apply follows_ret; reflexivity|].
  eapply follows_bind; [apply follows_lift_eq|]. intros shape _ <-.
  eapply follows_bind.
  - apply follows_coadd; [exact Ho|]. intros u o' Hu sz. apply sees_resample, Hu.
  - intros [co wt] [[co' wt'] datas] Eq. cbn [fst] in Eq. injection Eq as -> ->. apply follows_ret. reflexivity.
Qed.

(** *** A life *)
Lemma life_spec {A} (work : Z * Z -> M (F := F) (P := P) A) (r : Z * Z -> result A) steps :
  (forall item, see (work item) (r item)) ->
  forall st, good st -> life work steps st = map r (items_of steps).
Proof.
  intros H. induction steps as [|[item|] steps IH]; intros st G; cbn [life items_of flat_map map app]; [reflexivity| |].
  - destruct (H item st G) as [E G']. destruct (work item st) as [x st']. cbn [fst snd] in E, G'. subst x.
    f_equal. apply IH. exact G'.
  - apply IH, good_clear, G.
Qed.

Lemma no_history {A} (work : sizes -> Z * Z -> M (F := F) (P := P) A) (p : Z * Z -> result A) sz steps :
  (forall item, follow eq (fun sz => work sz item) (p item)) ->
  life (work sz) steps empty = map (fun item => fst (work no_caches item empty)) (items_of steps) /\
  Forall2 same_answer (life (work sz) steps empty) (map p (items_of steps)).
Proof.
  intros H.
  assert (L : forall item, exists r, same_answer r (p item) /\ forall sz, see (work sz item) r).
  { intros item. destruct (H item) as (r & Hr & Hs). exists r. split; [|exact Hs].
    destruct r, (p item); cbn in *; auto. }
  assert (E : life (work sz) steps empty = map (fun item => fst (work no_caches item empty)) (items_of steps)).
  { apply life_spec; [|apply good_empty]. intros item. destruct (L item) as (r & _ & Hs).
    destruct (Hs no_caches empty good_empty) as [-> _]. apply Hs. }
  split; [exact E|]. rewrite E. clear E. induction (items_of steps) as [|item l IH]; cbn [map]; constructor; [|exact IH].
  destruct (L item) as (r & Hr & Hs). destruct (Hs no_caches empty good_empty) as [-> _]. exact Hr.
Qed.
End Work.
