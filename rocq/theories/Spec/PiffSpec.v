(** Vocabulary for PSF quality cuts. *)
From Coq Require Import ZArith List Bool Reals Permutation Sorted.
From Verif Require Import Lib.Base Lib.Floats Model.Piff.
Import ListNotations.
Open Scope Z_scope.

(** The documented conditions of the flag bits, for comparisons [>=] and [<] of
    any arithmetic. A cut that is [None] never fires. *)
Definition piff_cut_fails {F} {FO : FloatOps F} (p : piff_info (F := F)) (c : piff_cuts (F := F)) (k : Z) : Prop :=
  (k = 0 /\ pi_desdm_flags p <> 0) \/
  (k = 1 /\ exists m, max_fwhm_cen c = Some m /\ fleb m (pi_fwhm_cen p) = true) \/
  (k = 2 /\ exists m, max_ccd_T_std_fac c = Some m /\
      fleb (fmul m (pi_star_t_mean p)) (pi_star_t_std p) = true) \/
  (k = 3 /\ exists m, min_nstar c = Some m /\ pi_nstar p < m) \/
  (k = 4 /\ exists m, max_exp_T_mean_fac c = Some m /\
      fleb (fmul m (pi_exp_star_t_std p)) (fabs (fsub (pi_star_t_mean p) (pi_exp_star_t_mean p))) = true).

(** The bits that flagging has to add to a source. *)
Definition flag_due {F} {FO : FloatOps F} (cfg : se_config (F := F)) (s : src_info (F := F)) (k : Z) : Prop :=
  (exists cuts p, sc_cuts cfg = Some cuts /\ si_piff s = Some p /\ piff_cut_fails p cuts k) \/
  (k = 30 /\ exists ccds n, sc_ignored cfg = Some ccds /\ si_ccdnum s = Some n /\ In n ccds).

(** Nothing but the flags of a source changed, and no flag was cleared. *)
Definition only_adds {F} (s s' : src_info (F := F)) : Prop :=
  si_ccdnum s' = si_ccdnum s /\ si_piff s' = si_piff s /\ si_logged s' = si_logged s /\
  match si_flags s, si_flags s' with
  | None, None => True
  | Some f, Some f' => forall k, 0 <= k -> Z.testbit f k = true -> Z.testbit f' k = true
  | _, _ => False
  end.

(** A source has all the keys that flagging reads. *)
Definition complete_source {F} (s : src_info (F := F)) : Prop :=
  si_flags s <> None /\ si_ccdnum s <> None /\ si_logged s = true.

(** [m] is a median of [l]: the mean of the two middle elements of a sorted
    arrangement (which coincide for an odd number). *)
Definition is_median (l : list R) (m : R) : Prop :=
  exists s, Permutation l s /\ StronglySorted Rle s /\
    m = ((nth (Nat.div (length l - 1) 2) s 0 + nth (Nat.div (length l) 2) s 0) / 2)%R.
