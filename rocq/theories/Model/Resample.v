(** Model of the resampling code of [SEImageSlice] (_se_image.py:1285-1751).

    The WCS lookup tables ([_get_wcs_inverse], [_get_wcs_area_interp]) are
    arguments: [to_se] and [to_coadd] map an integer pixel position (x, y) of
    one image to a position in the other, [area_se] and [area_coadd] give pixel
    areas. Any functions are allowed. *)
From Coq Require Import ZArith List Bool.
From Verif Require Import Lib.Base Lib.Floats Model.Lanczos Model.SeImage Model.PsfImage.
Import ListNotations.
Open Scope Z_scope.

(** _constants.py:2-7. *)
Definition BMASK_EDGE : Z := 2 ^ 29.
Definition BMASK_RESAMPLE_BOUNDS : Z := 2 ^ 26.

(** [.astype(np.int64)] of a float: C truncation; values that are not finite
    or out of range become the smallest integer (x86-64). *)
Definition int64_of (v : option Z) : Z :=
  match v with
  | Some z => if (- 2 ^ 63 <=? z) && (z <? 2 ^ 63) then z else - 2 ^ 63
  | None => - 2 ^ 63
  end.

Fixpoint map2 {A B C} (f : A -> B -> C) (l : list A) (l' : list B) : list C :=
  match l, l' with
  | a :: l, b :: l' => f a b :: map2 f l l'
  | _, _ => []
  end.

(** [a.reshape(n, m)] of a flat array in row-major order. *)
Definition reshape {A} (d : A) (n m : Z) (l : list A) : img A :=
  mkimg n m (fun r c => nth (Z.to_nat (r * m + c)) l d).

Section Resample.
Context {F : Type} {FO : FloatOps F}.

(** What [set_interp_image_noise_pmask] stores, besides replacing the image and
    the noises (1300-1308). *)
Record interp_data := mkinterp {
  it_pmask : img Z;
  it_interp_frac : img F;
  it_orig_image : img F;
  it_interp_only_image : img F
}.

(** The attributes of an [SEImageSlice] that [hasattr] looks for. *)
Record se_state := mkstate {
  st_slice : option (slice_data (F := F));
  st_psf : option (psf_data (F := F));
  st_interp : option interp_data
}.

(** set_interp_image_noise_pmask, 1285-1308. Without an image,
    [np.zeros_like(self.image)] is an AttributeError. *)
Definition set_interp (interp_image : img F) (interp_noises : list (img F)) (mask : img Z)
  (st : se_state) : result se_state :=
  match st_slice st with
  | None => Raise AttributeError
  | Some sl =>
      let msk := imap (fun v => negb (v =? 0)) mask in
      let interp_frac := where_set (imap (fun _ => fzero) (sl_image sl)) msk fone in
      let interp_only := where_set interp_image (imap negb msk) fzero in
      Ok (mkstate
            (Some (mkslice (sl_x_start sl) (sl_y_start sl) (sl_box_size sl) interp_image
                     (sl_weight sl) (sl_bmask sl) interp_noises))
            (st_psf st)
            (Some (mkinterp mask interp_frac (sl_image sl) interp_only)))
  end.

(** The setters as operations on the object. set_slice (661-724) and set_psf
    (1225-1283) assign their own attributes and leave the others; the values
    they store are computed in Model/SeImage.v and Model/PsfImage.v. *)
Inductive se_op : Type :=
| OpSlice (sl : slice_data (F := F))
| OpPsf (pf : psf_data (F := F))
| OpInterp (image : img F) (noises : list (img F)) (mask : img Z).

Definition apply_op (op : se_op) (st : se_state) : result se_state :=
  match op with
  | OpSlice sl => Ok (mkstate (Some sl) (st_psf st) (st_interp st))
  | OpPsf pf => Ok (mkstate (st_slice st) (Some pf) (st_interp st))
  | OpInterp image noises mask => set_interp image noises mask st
  end.

(** A new object has none of the attributes (519-614). *)
Definition new_state : se_state := mkstate None None None.

Fixpoint run_ops (ops : list se_op) (st : se_state) : result se_state :=
  match ops with
  | [] => Ok st
  | op :: ops => st <- apply_op op st ;; run_ops ops st
  end.

(** map_image_by_nearest_pixel, 1310-1373. *)
Definition map_image_by_nearest_pixel {A} (zero : A) (to_coadd : Z -> Z -> F * F)
  (image : img A) (x_start y_start : Z) (st : se_state) : result (img A) :=
  match st_slice st with
  | None => Raise RuntimeError
  | Some sl =>
      let n := sl_box_size sl in
      let mapped := full n n zero in
      let pix := allpix n n in
      let pos := map (fun rc => to_coadd (snd rc + sl_x_start sl) (fst rc + sl_y_start sl)) pix in
      let x_img := map (fun p => fsub (fst p) (fofZ x_start)) pos in
      let y_img := map (fun p => fsub (snd p) (fofZ y_start)) pos in
      let y_img := map (fun v => int64_of (ffloor (fadd v fhalf))) y_img in
      let x_img := map (fun v => int64_of (ffloor (fadd v fhalf))) x_img in
      let ok := fun yx : Z * Z => (snd yx >=? 0) && (snd yx <? ncols image) &&
                                  (fst yx >=? 0) && (fst yx <? nrows image) in
      let sel := filter (fun q => ok (snd q)) (combine pix (combine y_img x_img)) in
      Ok (idx_assign mapped (map fst sel)
            (map (fun q => px image (fst (snd q)) (snd (snd q))) sel))
  end.

(** The dictionary returned by resample. *)
Record resample_out := mkro {
  ro_image : img F;
  ro_noises : list (img F);
  ro_interp_only_image : img F;
  ro_interp_frac : img F;
  ro_edge : img bool;
  ro_psf : img F;
  ro_bmask : img Z;
  ro_pmask : img Z
}.

(** [im / area.reshape(n, n)]; a shape mismatch is a ValueError (broadcasting of
    axes of length 1 is not rendered). *)
Definition div_area (im area : img F) : result (img F) :=
  if same_shape im area then Ok (imap2 fdiv im area) else Raise ValueError.

Variables (to_se : Z -> Z -> F * F) (area_se area_coadd : Z -> Z -> F).

(** resample_psf, 1593-1751, with the optional shift [dx], [dy]. The default
    kernel size of lanczos_resample is 3. *)
Definition resample_psf (st : se_state) (psf_x_start psf_y_start psf_box_size : Z) (dx dy : F)
  : result (img F) :=
  match st_psf st with
  | None => Raise RuntimeError
  | Some pf =>
      let pix := allpix psf_box_size psf_box_size in
      let pos := map (fun rc => to_se (snd rc + psf_x_start) (fst rc + psf_y_start)) pix in
      let ac := map (fun rc => area_coadd (snd rc + psf_x_start) (fst rc + psf_y_start)) pix in
      let as_ := mkimg (pf_box_size pf) (pf_box_size pf)
                   (fun r c => area_se (c + pf_x_start pf) (r + pf_y_start pf)) in
      let x_rs_se := map (fun p => fadd (fsub (fst p) (fofZ (pf_x_start pf))) dx) pos in
      let y_rs_se := map (fun p => fadd (fsub (snd p) (fofZ (pf_y_start pf))) dy) pos in
      im <- div_area (pf_psf pf) as_ ;;
      '(rs_psf, edge) <- lanczos_resample im y_rs_se x_rs_se 3 ;;
      let rs_psf := map2 (fun v (e : bool) => if e then fzero else v) rs_psf edge in
      let rs_psf := map2 fmul rs_psf ac in
      Ok (normalise (reshape fzero psf_box_size psf_box_size rs_psf))
  end.

(** 1532-1540, the noise images. *)
Fixpoint resample_noises (as_ : img F) (ys xs ac : list F) (box_size : Z) (noises : list (img F))
  : result (list (img F)) :=
  match noises with
  | [] => Ok []
  | n :: noises =>
      im <- div_area n as_ ;;
      '(rn, _) <- lanczos_resample im ys xs 3 ;;
      rest <- resample_noises as_ ys xs ac box_size noises ;;
      Ok (reshape fzero box_size box_size (map2 fmul rn ac) :: rest)
  end.

(** resample, 1375-1591. Reading the masks outside of the [pmask] array, when it
    is smaller than the bit mask, is an IndexError. *)
Definition resample (st : se_state) (x_start y_start box_size psf_x_start psf_y_start psf_box_size : Z)
  : result resample_out :=
  match st_slice st, st_psf st, st_interp st with
  | None, _, _ => Raise RuntimeError
  | _, None, _ => Raise RuntimeError
  | _, _, None => Raise RuntimeError
  | Some sl, Some _, Some it =>
      (* 2. *)
      psf <- resample_psf st psf_x_start psf_y_start psf_box_size fzero fzero ;;
      (* 3. *)
      let pix := allpix box_size box_size in
      let pos := map (fun rc => to_se (snd rc + x_start) (fst rc + y_start)) pix in
      let ac := map (fun rc => area_coadd (snd rc + x_start) (fst rc + y_start)) pix in
      let x_rs_se := map (fun p => fsub (fst p) (fofZ (sl_x_start sl))) pos in
      let y_rs_se := map (fun p => fsub (snd p) (fofZ (sl_y_start sl))) pos in
      let as_ := mkimg (sl_box_size sl) (sl_box_size sl)
                   (fun r c => area_se (c + sl_x_start sl) (r + sl_y_start sl)) in
      im <- div_area (sl_image sl) as_ ;;
      '(rim, edge) <- lanczos_resample im y_rs_se x_rs_se 3 ;;
      let rim := map2 fmul rim ac in
      rns <- resample_noises as_ y_rs_se x_rs_se ac box_size (sl_noises sl) ;;
      iom <- div_area (it_interp_only_image it) as_ ;;
      frac <- div_area (it_interp_frac it) as_ ;;
      '(riom, rif, _) <- lanczos_resample_two iom frac y_rs_se x_rs_se 3 ;;
      let riom := map2 fmul riom ac in
      let rif := map2 fmul rif ac in
      let edge := reshape false box_size box_size edge in
      (* 4. *)
      let y_i := map (fun v => int64_of (ftrunc (fadd v fhalf))) y_rs_se in
      let x_i := map (fun v => int64_of (ftrunc (fadd v fhalf))) x_rs_se in
      let ok := fun yx : Z * Z => (fst yx >=? 0) && (fst yx <? nrows (sl_bmask sl)) &&
                                  (snd yx >=? 0) && (snd yx <? ncols (sl_bmask sl)) in
      let all := combine pix (combine y_i x_i) in
      let sel := filter (fun q => ok (snd q)) all in
      let rej := filter (fun q => negb (ok (snd q))) all in
      let nearest := fun m : img Z =>
        idx_assign
          (idx_assign (full box_size box_size 0) (map fst sel)
             (map (fun q => px m (fst (snd q)) (snd (snd q))) sel))
          (map fst rej) (map (fun _ => BMASK_EDGE) rej) in
      (* 5. *)
      if negb (forallb (fun q => (fst (snd q) <? nrows (it_pmask it)) &&
                                 (snd (snd q) <? ncols (it_pmask it))) sel)
      then Raise IndexError else
      let pmask := nearest (it_pmask it) in
      let pmask := imap2 (fun v (e : bool) => if e then Z.lor v BMASK_RESAMPLE_BOUNDS else v)
                     pmask edge in
      Ok (mkro (reshape fzero box_size box_size rim) rns
            (reshape fzero box_size box_size riom) (reshape fzero box_size box_size rif)
            edge psf (nearest (sl_bmask sl)) pmask)
  end.

End Resample.
