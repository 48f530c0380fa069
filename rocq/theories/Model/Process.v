(** Model of a process that works on slices: Model/Whole.v with the function caches
    of _se_image.py:46-364 and _pizza_cutter.py:651, which live as long as the
    process does.

    A computation takes the contents of the caches and leaves new ones. The images of
    an entry are read from files; the arrays that a simulation may put in place of the
    paths (70-74, 110-112) do not go through the caches. The masks, which are integers,
    have a cache of their own here; in the code they share that of the images. The
    cache of piff.read in _piff_tools.py:6-9 is part of the loader of PSF models. *)
From Coq Require Import ZArith List Bool String.
From Coq Require Import List.
From Verif Require Import Lib.Base Lib.Floats Model.Jobs Model.Gaia Model.ObjectData Model.SkyBounds Model.WcsGrid
  Model.Noise Model.TapeBumps Model.Cache Model.SeImage Model.SeWcs Model.PsfImage Model.Piff Model.Resample
  Model.SliceInputs Model.Coadd Model.Writer Model.SingleSlice Model.Epoch Model.Whole.
Import ListNotations.
Open Scope list_scope.
Open Scope Z_scope.

Section Process.
Context {F : Type} {FO : FloatOps F} {P RNG : Type}.

(** A file and an extension in it. *)
Definition hdu_name : Type := (string * string)%type.

(** An entry of se_src_info with the names of its files. *)
Record image := mkimage {
  i_id : Z;
  i_flags : Z;                               (* image_flags *)
  i_offset : Z;                              (* position_offset *)
  i_info : SeWcs.source (F := F) (P := P);
  i_image : hdu_name;
  i_bkg : hdu_name;
  i_weight : hdu_name;
  i_bmask : hdu_name;
  i_ccdnum : Z;
  i_magzp : F;
  i_noise_seeds : list Z;
  i_piff_seed : Z
}.

(** What __repr__ puts in the text of an image object, _se_image.py:616-632. *)
Record identity := mkidentity {
  id_source_info : image;
  id_psf_model : P;
  id_wcs : wcs F;
  id_position_offset : F;
  id_wcs_color : F;
  id_noise_seeds : list Z;
  id_mask_tape_bumps : bool
}.

(** An image object with its text. *)
Definition object_ : Type := (se_object (F := F) (P := P) * identity)%type.

(** ** The caches *)

(** The sizes given to lru_cache: SMALL_IMAGE_CACHE_SIZE and BIG_IMAGE_CACHE_SIZE,
    39-40, and that of the star catalogue. *)
Record sizes := mksizes { sz_small : nat; sz_big : nat; sz_stars : nat }.

(** Keys of the area tables: those of an image and those of the coadd, where also the
    position offset is given (1485-1490), so that the keys differ in length. *)
Inductive area_key : Type :=
| AreaImage (id : identity) (shape : Z * Z)
| AreaCoadd (shape : Z * Z).

(** Arguments that are the same for the whole process (the coadd WCS, the grid
    spacings, the file of stars, the limits for PSF models, the directory for noise)
    are left out of the keys. *)
Record caches := mkcaches {
  c_shape : @cache hdu_name (Z * Z);                       (* _get_image_shape *)
  c_image_wcs : @cache hdu_name (wcs F);                   (* _load_image_wcs *)
  c_head_wcs : @cache (string * hdu_name) (wcs F);         (* _load_head_wcs *)
  c_piff : @cache (string * Z) (P * wcs F);                (* _load_piff_pixmappy *)
  c_psfex : @cache string P;                               (* _load_psfex *)
  c_bounds : @cache (identity * (Z * Z)) (bounds F * F * F);   (* _cached_get_rough_sky_bounds *)
  c_pixels : @cache hdu_name (img F);                      (* _read_image_cached *)
  c_masks : @cache hdu_name (img Z);                       (* _read_image_cached *)
  c_noise : @cache (hdu_name * F * Z) (img F);             (* _get_noise_image_cached *)
  c_bad : @cache (string * Z * Z) bool;                    (* _compute_bad_piff_model_delta_flag *)
  c_inverse : @cache (identity * (Z * Z)) (inversion F * inversion F);   (* _get_wcs_inverse *)
  c_area : @cache area_key (scalar_grid F);                (* _get_wcs_area_interp *)
  c_stars : @cache unit (list (placed_star (F := F)))      (* _read_gaia_stars *)
}.

(** A new process; also clear_image_and_wcs_caches (373-385), which leaves the stars. *)
Definition empty : caches := mkcaches [] [] [] [] [] [] [] [] [] [] [] [] [].
Definition clear_image_and_wcs_caches (st : caches) : caches :=
  mkcaches [] [] [] [] [] [] [] [] [] [] [] [] (c_stars st).

Definition set_shape c (s : caches) := mkcaches c (c_image_wcs s) (c_head_wcs s) (c_piff s) (c_psfex s) (c_bounds s) (c_pixels s) (c_masks s) (c_noise s) (c_bad s) (c_inverse s) (c_area s) (c_stars s).
Definition set_image_wcs c (s : caches) := mkcaches (c_shape s) c (c_head_wcs s) (c_piff s) (c_psfex s) (c_bounds s) (c_pixels s) (c_masks s) (c_noise s) (c_bad s) (c_inverse s) (c_area s) (c_stars s).
Definition set_head_wcs c (s : caches) := mkcaches (c_shape s) (c_image_wcs s) c (c_piff s) (c_psfex s) (c_bounds s) (c_pixels s) (c_masks s) (c_noise s) (c_bad s) (c_inverse s) (c_area s) (c_stars s).
Definition set_piff c (s : caches) := mkcaches (c_shape s) (c_image_wcs s) (c_head_wcs s) c (c_psfex s) (c_bounds s) (c_pixels s) (c_masks s) (c_noise s) (c_bad s) (c_inverse s) (c_area s) (c_stars s).
Definition set_psfex c (s : caches) := mkcaches (c_shape s) (c_image_wcs s) (c_head_wcs s) (c_piff s) c (c_bounds s) (c_pixels s) (c_masks s) (c_noise s) (c_bad s) (c_inverse s) (c_area s) (c_stars s).
Definition set_bounds c (s : caches) := mkcaches (c_shape s) (c_image_wcs s) (c_head_wcs s) (c_piff s) (c_psfex s) c (c_pixels s) (c_masks s) (c_noise s) (c_bad s) (c_inverse s) (c_area s) (c_stars s).
Definition set_pixels_c c (s : caches) := mkcaches (c_shape s) (c_image_wcs s) (c_head_wcs s) (c_piff s) (c_psfex s) (c_bounds s) c (c_masks s) (c_noise s) (c_bad s) (c_inverse s) (c_area s) (c_stars s).
Definition set_masks_c c (s : caches) := mkcaches (c_shape s) (c_image_wcs s) (c_head_wcs s) (c_piff s) (c_psfex s) (c_bounds s) (c_pixels s) c (c_noise s) (c_bad s) (c_inverse s) (c_area s) (c_stars s).
Definition set_noise c (s : caches) := mkcaches (c_shape s) (c_image_wcs s) (c_head_wcs s) (c_piff s) (c_psfex s) (c_bounds s) (c_pixels s) (c_masks s) c (c_bad s) (c_inverse s) (c_area s) (c_stars s).
Definition set_bad c (s : caches) := mkcaches (c_shape s) (c_image_wcs s) (c_head_wcs s) (c_piff s) (c_psfex s) (c_bounds s) (c_pixels s) (c_masks s) (c_noise s) c (c_inverse s) (c_area s) (c_stars s).
Definition set_inverse c (s : caches) := mkcaches (c_shape s) (c_image_wcs s) (c_head_wcs s) (c_piff s) (c_psfex s) (c_bounds s) (c_pixels s) (c_masks s) (c_noise s) (c_bad s) c (c_area s) (c_stars s).
Definition set_area c (s : caches) := mkcaches (c_shape s) (c_image_wcs s) (c_head_wcs s) (c_piff s) (c_psfex s) (c_bounds s) (c_pixels s) (c_masks s) (c_noise s) (c_bad s) (c_inverse s) c (c_stars s).
Definition set_stars c (s : caches) := mkcaches (c_shape s) (c_image_wcs s) (c_head_wcs s) (c_piff s) (c_psfex s) (c_bounds s) (c_pixels s) (c_masks s) (c_noise s) (c_bad s) (c_inverse s) (c_area s) c.

(** ** Computations in a process *)
Definition M (A : Type) : Type := caches -> result A * caches.

Definition lift {A} (r : result A) : M A := fun st => (r, st).
Definition ret {A} (a : A) : M A := lift (Ok a).
Definition mbind {A B} (m : M A) (k : A -> M B) : M B :=
  fun st => match m st with
            | (Ok a, st) => k a st
            | (Raise e, st) => (Raise e, st)
            end.
Local Notation "x <~ m ;; k" := (mbind m (fun x => k))
  (at level 100, m at next level, right associativity).
Local Notation "' p <~ m ;; k" := (mbind m (fun p => k))
  (at level 100, p pattern, m at next level, right associativity).

(** A call of a cached function, Model/Cache.v, where the function may itself use
    caches. *)
Definition call {K V} (get : caches -> @cache K V) (put : @cache K V -> caches -> caches)
  (eqb : K -> K -> bool) (maxsize : nat) (f : K -> M V) (k : K) : M V :=
  fun st =>
    match find_key eqb k (get st) with
    | Some (k', v) => (Ok v, put ((k', v) :: drop_key eqb k (get st)) st)
    | None =>
        match f k st with
        | (Raise e, st) => (Raise e, st)
        | (Ok v, st) => (Ok v, put (firstn maxsize ((k, v) :: get st)) st)
        end
    end.

(** Equality of keys. *)
Definition name_eqb (a b : hdu_name) : bool := String.eqb (fst a) (fst b) && String.eqb (snd a) (snd b).
Definition shape_eqb (a b : Z * Z) : bool := (fst a =? fst b) && (snd a =? snd b).
Definition head_eqb (a b : string * hdu_name) : bool := String.eqb (fst a) (fst b) && name_eqb (snd a) (snd b).
Definition piff_eqb (a b : string * Z) : bool := String.eqb (fst a) (fst b) && (snd a =? snd b).
Definition noise_eqb (a b : hdu_name * F * Z) : bool :=
  name_eqb (fst (fst a)) (fst (fst b)) && feqb (snd (fst a)) (snd (fst b)) && (snd a =? snd b).
Definition bad_eqb (a b : string * Z * Z) : bool := piff_eqb (fst a) (fst b) && (snd a =? snd b).
(** [hash] of the text; __eq__ compares hashes, 642-648. *)
Variable hash : identity -> Z.
Definition object_eqb (a b : identity * (Z * Z)) : bool :=
  (hash (fst a) =? hash (fst b)) && shape_eqb (snd a) (snd b).
Definition area_eqb (a b : area_key) : bool :=
  match a, b with
  | AreaImage i s, AreaImage i' s' => object_eqb (i, s) (i', s')
  | AreaCoadd s, AreaCoadd s' => shape_eqb s s'
  | _, _ => false
  end.

Variable sz : sizes.

(** The tile; its entries are not used, see [images]. *)
Variable t : tile F P.
Let w := t_world t.
Let op := t_options t.

(** The files on disk. *)
Variables (disk_pixels : hdu_name -> result (img F)) (disk_masks : hdu_name -> result (img Z)).

(** 61-67 *)
Definition get_shape : hdu_name -> M (Z * Z) :=
  call c_shape set_shape name_eqb (sz_big sz) (fun k => lift (w_shape w (fst k) (snd k))).
(** 282-300 *)
Definition load_image : hdu_name -> M (wcs F) :=
  call c_image_wcs set_image_wcs name_eqb (sz_big sz) (fun k => lift (w_image_wcs w (fst k) (snd k))).
(** 303-328 *)
Definition load_head : string * hdu_name -> M (wcs F) :=
  call c_head_wcs set_head_wcs head_eqb (sz_big sz)
    (fun k => lift (w_head_wcs w (fst k) (fst (snd k)) (snd (snd k)))).
(** 230-263 *)
Definition load_piff : string * Z -> M (P * wcs F) :=
  call c_piff set_piff piff_eqb (sz_big sz) (fun k => lift (w_piff w (fst k) (snd k))).
(** 266-279 *)
Definition load_psfex : string -> M P :=
  call c_psfex set_psfex String.eqb (sz_big sz) (fun k => lift (w_psfex w k)).
(** 70-92; the size is twice the small one, 77. *)
Definition read_pixels : hdu_name -> M (img F) :=
  call c_pixels set_pixels_c name_eqb (2 * sz_small sz) (fun k => lift (disk_pixels k)).
Definition read_mask : hdu_name -> M (img Z) :=
  call c_masks set_masks_c name_eqb (2 * sz_small sz) (fun k => lift (disk_masks k)).
(** 95-130 *)
Definition noise_of : hdu_name * F * Z -> M (img F) :=
  call c_noise set_noise noise_eqb (sz_small sz)
    (fun k => wgt <~ read_pixels (fst (fst k)) ;;
              lift (get_noise_image (w_normal w) (w_store w) wgt (snd (fst k)) (snd k))).
(** 331-364 with [max_abs_t_diff] and [grid_size] *)
Definition bad_model (mx : F) (g : Z) : string * Z * Z -> M bool :=
  call c_bad set_bad bad_eqb (sz_big sz)
    (fun k => res <~ load_piff (fst k) ;;
              l <~ lift (w_sample w (fst res) g (snd k)) ;;
              lift (bad_piff_model l mx)).

(** ** Image objects *)

(** 540-565 *)
Definition m_choose_wcs (si : SeWcs.source (F := F) (P := P)) (c : choice (wcs F)) : M (wcs F) :=
  match c with
  | Object v => ret v
  | Name n =>
      if String.eqb n "image" then
        p <~ lift (need (s_image_path si)) ;; e <~ lift (need (s_image_ext si)) ;; load_image (p, e)
      else if String.eqb n "head" then
        h <~ lift (need (s_head_path si)) ;; p <~ lift (need (s_image_path si)) ;;
        e <~ lift (need (s_image_ext si)) ;; load_head (h, (p, e))
      else if String.eqb n "affine" then
        a <~ lift (need (s_affine_wcs si)) ;; ret (AffineW a)
      else if String.eqb n "pixmappy" then
        p <~ lift (need (s_piff_path si)) ;; k <~ lift (need (s_ccdnum si)) ;;
        res <~ load_piff (p, k) ;; ret (snd res)
      else lift (Raise RuntimeError)
  end.

(** 567-579 *)
Definition m_choose_psf (si : SeWcs.source (F := F) (P := P)) (c : choice P) : M P :=
  match c with
  | Object m => ret m
  | Name n =>
      if String.eqb n "galsim" then lift (need (s_galsim_psf si))
      else if String.eqb n "psfex" then p <~ lift (need (s_psfex_path si)) ;; load_psfex p
      else if String.eqb n "piff" then
        p <~ lift (need (s_piff_path si)) ;; k <~ lift (need (s_ccdnum si)) ;;
        res <~ load_piff (p, k) ;; ret (fst res)
      else lift (Raise RuntimeError)
  end.

(** 616-632 *)
Definition identity_of (i : image) (m : P) (W : wcs F) : identity :=
  mkidentity i m W (fofZ (i_offset i)) (op_color op) (i_noise_seeds i) (op_tape_bumps op).

(** 46-58 on a miss: the calls of [image2sky] and the bounds. *)
Definition sky_bounds (s : slice_wcs (F := F)) (shape : Z * Z) : result (bounds F * F * F) :=
  _ <- sky_calls s (fst shape) (snd shape) 4 ;;
  get_rough_sky_bounds (known_sky s) (w_radec_to_uv w) (w_cosdeg w) (fst shape) (snd shape)
    fzero (fofZ 16) 4 (wcs_is_celestial (sw_wcs s)).

(** 519-614 *)
Definition m_make_object (i : image) : M object_ :=
  W <~ m_choose_wcs (i_info i) (op_wcs op) ;;
  m <~ m_choose_psf (i_info i) (op_psf op) ;;
  let s := mksw W (fofZ (i_offset i)) (op_color op) in
  let id := identity_of i m W in
  shape <~ (match s_image_shape (i_info i) with
            | Some sh => ret sh
            | None => p <~ lift (need (s_image_path (i_info i))) ;;
                      e <~ lift (need (s_image_ext (i_info i))) ;; get_shape (p, e)
            end) ;;
  ' (b, ra, dec) <~ call c_bounds set_bounds object_eqb (sz_big sz) (fun _ => lift (sky_bounds s shape)) (id, shape) ;;
  ret (mkso s m shape (wcs_is_celestial W) b ra dec (0, fst shape - 1, 0, snd shape - 1), id).

(** 711-724 *)
Fixpoint m_noises (i : image) (scale : F) (y0 x0 n : Z) (seeds : list Z) : M (list (img F)) :=
  match seeds with
  | [] => ret []
  | seed :: seeds =>
      nse <~ noise_of (i_weight i, scale, seed) ;;
      rest <~ m_noises i scale y0 x0 n seeds ;;
      ret (np_slice2 nse y0 (y0 + n) x0 (x0 + n) :: rest)
  end.

(** 661-724, with the files in the order in which they are read. The tape bumps are
    set in the array that the cache holds. *)
Definition m_set_slice (i : image) (b : zbounds) : M (SeImage.slice_data (F := F)) :=
  let x0 := zcolmin b in
  let y0 := zrowmin b in
  let n := zcolmax b - zcolmin b + 1 in
  if negb (n =? zrowmax b - zrowmin b + 1) then lift (Raise AssertionError) else
  let scale := zp_scale (w_pow10 w) (i_magzp i) in
  let cut {A} (a : img A) := np_slice2 a y0 (y0 + n) x0 (x0 + n) in
  im <~ read_pixels (i_image i) ;;
  bkg <~ read_pixels (i_bkg i) ;;
  if negb (same_shape im bkg) then lift (Raise ValueError) else
  let image := imap (fun x => fmul x scale) (cut (imap2 fsub im bkg)) in
  bmask <~ read_mask (i_bmask i) ;;
  bmask <~ (if op_tape_bumps op then
              m <~ lift (set_tape_bump_mask (i_ccdnum i) bmask) ;;
              (fun st => (Ok m, set_masks_c (modify_entry name_eqb (i_bmask i) (fun _ => m) (c_masks st)) st))
            else ret bmask) ;;
  wgt <~ read_pixels (i_weight i) ;;
  let weight := imap (fun v => fdiv v (fmul scale scale)) (cut wgt) in
  noises <~ m_noises i scale y0 x0 n (i_noise_seeds i) ;;
  ret (SeImage.mkslice x0 y0 n image weight (cut bmask) noises).

(** set_psf, 1225-1283. *)
Definition m_set_psf (i : image) (o : se_object (F := F) (P := P)) (ra_psf dec_psf : F)
  : M (psf_data (F := F) * bool) :=
  ' (x, y) <~ lift (sky2image1 (so_wcs o) ra_psf dec_psf) ;;
  flag <~ (match op_piff_failure op, w_kind w (so_psf o) with
           | Some (mx, g), Piff =>
               p <~ lift (need (s_piff_path (i_info i))) ;;
               k <~ lift (need (s_ccdnum (i_info i))) ;;
               bad_model mx g (p, k, i_piff_seed i)
           | _, _ => ret false
           end) ;;
  pf <~ lift (set_psf (w_draw w (so_psf o) (so_wcs o)) (w_kind w (so_psf o)) (w_galsim_n w (so_psf o))
                (i_offset i) x y) ;;
  ret (pf, flag).

(** _coadd_slices.py:215-264 *)
Definition m_examine (ra dec ra_psf dec_psf : F) (box_size : Z) (i : image)
  : M (option (SliceInputs.se_slice (F := F) * bool * object_)) :=
  if negb (i_flags i =? 0) then ret None else
  o <~ m_make_object i ;;
  if negb (se_contains_radec (w_radec_to_uv w) (fst o) ra dec) then ret None else
  ' (col, row) <~ lift (sky2image1 (so_wcs (fst o)) ra dec) ;;
  b <~ lift (compute_slice_bounds (op_frac_buffer op) box_size col row) ;;
  if negb (ccd_contains_bounds (so_shape (fst o)) b (op_edge_buffer op)) then ret None else
  sl <~ m_set_slice i b ;;
  ' (pf, flag) <~ m_set_psf i (fst o) ra_psf dec_psf ;;
  ret (Some (SliceInputs.mkslice (i_id i) (SeImage.sl_x_start sl) (SeImage.sl_y_start sl)
        (SeImage.sl_box_size sl) (SeImage.sl_image sl) (SeImage.sl_weight sl) (SeImage.sl_bmask sl)
        (SeImage.sl_noises sl) (pf_psf pf) (pf_x_start pf) (pf_y_start pf) (pf_box_size pf), flag, o)).

(** _coadd_slices.py:214-264 *)
Fixpoint m_find_slices (ra dec ra_psf dec_psf : F) (box_size : Z) (l : list image)
  : M (list (SliceInputs.se_slice (F := F) * bool * object_)) :=
  match l with
  | [] => ret []
  | i :: l =>
      a <~ m_examine ra dec ra_psf dec_psf box_size i ;;
      rest <~ m_find_slices ra dec ra_psf dec_psf box_size l ;;
      ret (match a with Some x => x :: rest | None => rest end)
  end.

(** ** Tables *)

(** 133-167 *)
Definition m_tables (o : object_) : M (inversion F * inversion F) :=
  call c_inverse set_inverse object_eqb (sz_small sz) (fun _ => lift (wcs_tables t (fst o)))
    (snd o, so_shape (fst o)).
(** 193-227 for an image and for the coadd *)
Definition m_area_image (o : object_) : M (scalar_grid F) :=
  call c_area set_area area_eqb (sz_small sz)
    (fun _ => lift (area_table t (image2sky1 (so_wcs (fst o))) (is_celestial (sw_wcs (so_wcs (fst o))))
                      (so_shape (fst o)) (t_se_delta t) fzero))
    (AreaImage (snd o) (so_shape (fst o))).
Definition m_area_coadd (shape : Z * Z) : M (scalar_grid F) :=
  call c_area set_area area_eqb (sz_small sz)
    (fun _ => lift (area_table t (cw_image2sky (t_coadd t)) (cw_celestial (t_coadd t)) shape
                      (t_coadd_delta t) (fofZ (t_offset t))))
    (AreaCoadd shape).

(** map_image_by_nearest_pixel of the star mask. *)
Definition m_map_mask (m : img bool) (row col : F) (s : SliceInputs.se_slice (F := F)) (o : object_)
  : M (img bool) :=
  tb <~ m_tables o ;;
  lift (x0 <- start col ;;
        y0 <- start row ;;
        map_image_by_nearest_pixel false
          (fun x y => inversion_call (tl_ct (t_libs t)) (snd tb) (fofZ x) (fofZ y)) m x0 y0 (state_of s None)).

(** SEImageSlice.resample. (resample_psf asks for the same tables again, 1685-1713: hits.) *)
Definition m_resample (row col : F) (box : Z) (prow pcol : F) (pbox : Z) (shape : Z * Z)
  (u : used_slice (F := F)) (o : object_) : M (resampled (F := F)) :=
  tb <~ m_tables o ;;
  ga <~ m_area_image o ;;
  gc <~ m_area_coadd shape ;;
  lift (x0 <- start col ;;
        y0 <- start row ;;
        px0 <- start pcol ;;
        py0 <- start prow ;;
        r <- resample
               (fun x y => inversion_call (tl_ct (t_libs t)) (fst tb) (fofZ x) (fofZ y))
               (fun x y => scalar_call (tl_spline (t_libs t)) ga (fofZ x) (fofZ y))
               (fun x y => scalar_call (tl_spline (t_libs t)) gc (fofZ x) (fofZ y))
               (used_state u) x0 y0 box px0 py0 pbox ;;
        Ok (mkres (ro_image r) (ro_noises r) (ro_interp_frac r) (ro_psf r) (ro_bmask r) (ro_pmask r))).

(** ** One slice *)
Variable ext : externals (F := F) (RNG := RNG).

(** _coadd_slices.py:283-543; everything but the mapping of the star mask is
    [process_slice] of Model/SliceInputs.v. *)
Fixpoint m_process_all (cf : config) (gaia : option (img bool)) (row col : F)
  (l : list (SliceInputs.se_slice (F := F) * bool * object_)) (rng : RNG) : M (list (verdict (F := F) * object_)) :=
  match l with
  | [] => ret []
  | (s, p, o) :: l =>
      g <~ (match gaia with
            | Some m => g <~ m_map_mask m row col s o ;; ret (Some (fun _ : SliceInputs.se_slice (F := F) => Ok g))
            | None => ret None
            end) ;;
      ' (v, rng) <~ lift (process_slice (x_rotate ext) (x_normal ext) (x_normal2 ext) (x_interpolator ext)
                           (x_median ext) (x_measure_fwhm ext) cf g s p rng) ;;
      vs <~ m_process_all cf gaia row col l rng ;;
      ret ((v, o) :: vs)
  end.

(** _coadd_slices.py:45-550, with the objects of the slices that are used. *)
Definition m_build_slice_inputs (cf : config) (gaia : option (img bool)) (row col : F)
  (ra dec ra_psf dec_psf : F) (box_size : Z) (images : list image) (rng : RNG)
  : M (slice_inputs (F := F) * list object_) :=
  possible <~ m_find_slices ra dec ra_psf dec_psf box_size images ;;
  let slices := map fst possible in
  if match slices with [] => true | _ => false end || forallb snd slices
  then ret (mkinputs [] [] [] [], [])
  else
    let slices := if cf_reject_outliers cf then reject_outliers (x_outliers ext) slices else slices in
    vs <~ m_process_all cf gaia row col (combine slices (map snd possible)) rng ;;
    let v := map fst vs in
    ret (mkinputs (used_of v) (normalise (weights_of v)) (not_used_of v) (flags_of v),
         flat_map (fun vo => match fst vo with Used _ _ => [snd vo] | NotUsed _ _ => [] end) vs).

(** _coadd_slices.py:652-696 *)
Fixpoint m_coadd_loop (rs : used_slice (F := F) -> object_ -> M (resampled (F := F)))
  (l : list (used_slice (F := F) * object_ * F)) (acc : coadd (F := F)) : M (coadd (F := F)) :=
  match l with
  | [] => ret acc
  | (u, o, weight) :: l =>
      res <~ rs u o ;;
      acc <~ lift (coadd_step acc res weight) ;;
      m_coadd_loop rs l acc
  end.

(** _coadd_slices.py:627-710 *)
Definition m_coadd_slice_inputs (rs : used_slice (F := F) -> object_ -> M (resampled (F := F)))
  (box_size psf_box_size : Z) (slices : list (used_slice (F := F) * object_)) (weights : list F) (n_extra : nat)
  : M (coadd (F := F) * img F) :=
  let weights := map (fun v => fdiv v (fsum weights)) weights in
  if negb (Nat.eqb (length slices) (length weights)) then lift (Raise AssertionError) else
  match slices with
  | [] => lift (Raise IndexError)
  | _ :: _ =>
      let zero := full box_size box_size fzero in
      let izero := full box_size box_size 0 in
      out <~ m_coadd_loop rs (combine slices weights)
               (mkcoadd zero izero izero (repeat zero (Datatypes.S n_extra))
                  (full psf_box_size psf_box_size fzero) zero) ;;
      match co_noises out with
      | [] => lift (Raise IndexError)
      | n0 :: _ => ret (out, full (nrows n0) (ncols n0) (fdiv fone (variance (ravel n0))))
      end
  end.

(** _pizza_cutter.py:313-332, with the cache of the catalogue (651). *)
Definition m_star_mask (sc : se_config) (ti : tile_info) (o : @object F) : M (option (img bool)) :=
  match ti_gaia_stars ti, sc_gaia_star_masks sc with
  | Some catalogue, Some gc =>
      stars <~ call c_stars set_stars (fun _ _ => true) (sz_stars sz)
                 (fun _ => lift (read_gaia_stars (x_sky2image ext) (ti_position_offset ti) catalogue)) tt ;;
      m <~ lift (build_gaia_star_mask (x_pow10 ext) (x_to_f4 ext) (x_make_foreground_bmask ext) stars
             (gc_max_g_mag gc) (gc_poly_coeffs gc) (ob_orig_start_col o) (ob_orig_start_row o)
             (ob_box_size o) (gc_symmetrize gc)) ;;
      ret (Some m)
  | _, _ => ret None
  end.

(** _pizza_cutter.py:296-414 *)
Definition m_single_slice (images : list image) (sc : se_config) (coadding_weight : string) (ti : tile_info)
  (object_data : list (@object F)) (n_extra_noise_images : Z) (item : Z * Z)
  : M (@results F pixel (list (@epoch_row F))) :=
  let '(i, slice_seed) := item in
  let rng := x_random_state ext slice_seed in
  o <~ lift (pynth object_data i) ;;
  ' (col, row) <~ lift (x_sky2image ext (ob_ra o) (ob_dec o)) ;;
  ' ((kcol, krow), (psf_start_row, psf_start_col)) <~
    lift (build_coadd_psf_layout col row (ob_psf_box_size o) (ti_position_offset ti)) ;;
  ' (ra_psf, dec_psf) <~ lift (x_image2sky ext (fofZ kcol) (fofZ krow)) ;;
  gaia_star_mask <~ m_star_mask sc ti o ;;
  ' (inputs, objects) <~
    m_build_slice_inputs (slice_config sc coadding_weight) gaia_star_mask (ob_orig_start_row o)
      (ob_orig_start_col o) (ob_ra o) (ob_dec o) ra_psf dec_psf (ob_box_size o) images rng ;;
  let epochs_info := make_epochs_info (ob_id o) (si_weights inputs) (si_slices inputs)
                       (si_not_used inputs) (si_flags inputs) in
  match si_weights inputs with
  | [] =>
      ret (mk_results pixel (list epoch_row) i epochs_info [] nothing nothing nothing [] nothing
            nothing nothing fzero)
  | _ :: _ =>
      image_shape <~ lift (match ti_image_shape ti with Some s => Ok s | None => Raise KeyError end) ;;
      ' (co, weight) <~
        m_coadd_slice_inputs
          (m_resample (ob_orig_start_row o) (ob_orig_start_col o) (ob_box_size o)
             psf_start_row psf_start_col (ob_psf_box_size o) image_shape)
          (ob_box_size o) (ob_psf_box_size o) (combine (si_slices inputs) objects) (si_weights inputs)
          (Z.to_nat n_extra_noise_images) ;;
      ret (mk_results pixel (list epoch_row) i epochs_info (si_weights inputs)
            (imap PF (co_image co)) (imap PI (co_bmask co)) (imap PI (co_ormask co))
            (map (imap PF) (co_noises co)) (imap PF weight) (imap PF (co_mfrac co))
            (imap PF (co_psf co)) (x_measure_fwhm ext (co_psf co)))
  end.

(** ** The life of a process: slices in any order, and the caches may be cleared. *)
Inductive step : Type :=
| Work (item : Z * Z)
| ClearCaches.

Fixpoint life {A} (work : Z * Z -> M A) (steps : list step) (st : caches) : list (result A) :=
  match steps with
  | [] => []
  | ClearCaches :: steps => life work steps (clear_image_and_wcs_caches st)
  | Work item :: steps => let '(r, st) := work item st in r :: life work steps st
  end.

Definition items_of (steps : list step) : list (Z * Z) :=
  flat_map (fun s => match s with Work it => [it] | ClearCaches => [] end) steps.

(** No caches at all: lru_cache(maxsize=0). *)
Definition no_caches : sizes := mksizes 0 0 0.

(** 512 and 32 and 1 in the code. *)
Definition code_sizes : sizes := mksizes 32 512 1.

(** The entry of Model/Epoch.v for an image. *)
Definition entry_of (i : image) : entry F P :=
  mkentry (i_id i) (i_flags i) (i_offset i) (i_info i)
    (im <- disk_pixels (i_image i) ;; bkg <- disk_pixels (i_bkg i) ;; wgt <- disk_pixels (i_weight i) ;;
     Ok (SeImage.mksrc (i_ccdnum i) (i_magzp i) im bkg wgt))
    (disk_masks (i_bmask i)) (i_noise_seeds i) (i_piff_seed i).

(** _pizza_cutter.py:554-557 *)
Fixpoint seeded_images (l : list image) (seeds : list src_seeds) : list image :=
  match l, seeds with
  | i :: l, (ns, ms) :: seeds =>
      mkimage (i_id i) (i_flags i) (i_offset i) (i_info i) (i_image i) (i_bkg i) (i_weight i) (i_bmask i)
        (i_ccdnum i) (i_magzp i) ns ms :: seeded_images l seeds
  | _, _ => []
  end.

End Process.
Arguments image : clear implicits.
Arguments identity : clear implicits.
Arguments caches : clear implicits.
