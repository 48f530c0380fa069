(** C77, C78: metadata, tile information and layout of the output file. *)
From Coq Require Import ZArith List Bool String Lia.
From Coq Require Import List.
From Verif Require Import Lib.Base Lib.Floats Lib.PyStr Lib.PyDict Model.Writer Model.Metadata
  Spec.WriterSpec Spec.MetadataSpec Proofs.SliceInputsProofs Proofs.LoadInfoProofs Proofs.MetadataProofs.
Import ListNotations.
Open Scope string_scope.
Open Scope list_scope.
Open Scope Z_scope.

(** C77: the configuration, the versions and the directories are recorded in full. *)
Theorem C77_texts_recorded_in_full :
  forall (F : Type) (FO : FloatOps F) env ver config json (m : @metadata F) b,
  build_metadata env ver config json = Ok (m, b) ->
  dkeys (md_cols m) = map fst (recorded env ver config) /\
  forall k t, In (k, t) (recorded env ver config) ->
  exists c, dget (md_cols m) k = Some c /\ (length t <= uc_width c)%nat /\ (no_final_nul t -> ucol_get c = t).
Proof.
  intros F FO env ver config json m b H. apply metadata_spec in H as (_ & _ & K & H & _). split; [exact K|].
  intros k t Hin. destruct (H k t Hin) as (c & Hc & n & Hn & ->). exists (ucol_set (ucol_zero n) t).
  split; [exact Hc|]. split; [exact Hn|]. intros Ht. apply set_get; assumption.
Qed.

(** C77: the zero point is 30. *)
Theorem C77_zero_point :
  forall (F : Type) (FO : FloatOps F) env ver config json (m : @metadata F) b,
  build_metadata env ver config json = Ok (m, b) -> md_magzp_ref m = fofZ 30.
Proof. intros F FO env ver config json m b H. apply metadata_spec in H as (_ & H & _). exact H. Qed.

(** C77: the bytes of the tile information are the text, character by character. *)
Theorem C77_tile_information_kept :
  forall (F : Type) (FO : FloatOps F) env ver config json (m : @metadata F) b,
  build_metadata env ver config json = Ok (m, b) -> b = json /\ forall c, In c b -> 0 <= c < 256.
Proof.
  intros F FO env ver config json m b H. apply metadata_spec in H as (_ & _ & _ & _ & H).
  apply encode_iff in H as [H ->]. split; [reflexivity|]. intros c Hc. specialize (H c Hc). lia.
Qed.

(** C77: exactly when there is an exception, and which. *)
Theorem C77_outcome :
  forall (F : Type) (FO : FloatOps F) env ver config json,
  match @build_metadata F FO env ver config json with
  | Ok _ => env "MEDS_DIR" <> None /\ ascii_text json
  | Raise e => env "MEDS_DIR" = None /\ e = KeyError \/
               env "MEDS_DIR" <> None /\ ~ ascii_text json /\ e = ValueError
  end.
Proof. exact @metadata_outcome. Qed.

(** C78: the image extensions: names, types and sizes, in order. *)
Theorem C78_extensions :
  forall num box psf_box pars n_extra,
  exists calls, reserve_calls (num * box ^ 2) (num * psf_box ^ 2) pars n_extra (box ^ 2) (psf_box ^ 2) = Ok calls /\
  map (fun c => let '(name, ty, pixels, _) := c in (name, ty, pixels)) calls
  = map (fun l => let '(name, ty, per) := l in (name, ty, num * per)) (layout box psf_box n_extra).
Proof.
  intros num box psf_box pars n_extra. eexists. split; [apply reserve_spec|]. rewrite map_map.
  apply map_ext. intros [[n t] per]. reflexivity.
Qed.

Theorem C78_names_are_distinct :
  forall box psf_box n_extra, NoDup (map (fun x => fst (fst x)) (layout box psf_box n_extra)).
Proof. exact layout_names_distinct. Qed.

(** C78: their compression keywords. *)
Theorem C78_keywords :
  forall num box psf_box pars n_extra calls,
  reserve_calls (num * box ^ 2) (num * psf_box ^ 2) pars n_extra (box ^ 2) (psf_box ^ 2) = Ok calls ->
  Forall2 (fun c l => match pars with
                      | None => snd c = None
                      | Some d => exists d', snd c = Some d' /\ keywords d (snd l) d'
                      end) calls (layout box psf_box n_extra).
Proof.
  intros num box psf_box pars n_extra calls H. rewrite reserve_spec in H. apply Ok_inj in H. subst calls.
  induction (layout box psf_box n_extra) as [|[[n t] per] l IH]; cbn [map]; constructor; [|exact IH].
  cbn [snd call_of]. destruct pars as [d|]; [|reflexivity]. apply ext_pars_spec.
Qed.

(** C78: with tiles of that size every slice is one tile of the compressed image. *)
Theorem C78_one_tile_per_slice :
  forall per i p, 0 < per -> (in_region i per p <-> p / per = i).
Proof.
  intros per i p H. unfold in_region. pose proof (Z.div_mod p per ltac:(lia)). pose proof (Z.mod_pos_bound p per H).
  split; intros E; [|nia]. apply Z.le_antisymm.
  - apply Z.lt_succ_r. apply Z.div_lt_upper_bound; lia.
  - apply Z.div_le_lower_bound; lia.
Qed.

(** C78: the dither seed is one that fpack accepts, and small enough to be
    unambiguous in its option. *)
Theorem C78_dither_seed :
  forall h, 1 <= hash_to_int h <= 9999 /\
  (0 <= h -> h mod 10000 <> 0 -> hash_to_int h = h mod 10000) /\ (h mod 10000 = 0 -> hash_to_int h = 1).
Proof.
  intros h. unfold hash_to_int. change (10 ^ 4) with 10000.
  pose proof (Z.mod_pos_bound (Z.abs h) 10000 ltac:(lia)). split; [lia|]. split.
  - intros H0 Hn. rewrite Z.abs_eq in * by lia. lia.
  - intros H0. assert (E : Z.abs h mod 10000 = 0).
    { destruct (Z.abs_eq_or_opp h) as [->| ->]; [exact H0|]. apply Z_mod_zero_opp_full. exact H0. }
    rewrite E. reflexivity.
Qed.

(** ** Concrete cases *)
Definition ex_env (k : string) : option text :=
  if String.eqb k "MEDS_DIR" then Some [47; 109] else None.

Example C77_example :
  match @build_metadata f64 F64Ops ex_env (fun _ => [49; 46; 50]) [97; 58; 32; 233; 10] [123; 125] with
  | Ok (m, b) =>
      option_map ucol_get (dget (md_cols m) "config") = Some [97; 58; 32; 233; 10] /\
      option_map ucol_get (dget (md_cols m) "numpy_version") = Some [49; 46; 50] /\
      option_map ucol_get (dget (md_cols m) "meds_dir") = Some [47; 109] /\
      option_map uc_width (dget (md_cols m) "desdata") = Some 1%nat /\
      option_map ucol_get (dget (md_cols m) "desdata") = Some [] /\ b = [123; 125]
  | Raise _ => False
  end.
Proof. vm_compute. repeat split. Qed.

Example C77_example_not_ascii :
  @build_metadata f64 F64Ops ex_env (fun _ => []) [] [123; 233; 125] = Raise ValueError.
Proof. reflexivity. Qed.

Example C78_example :
  match reserve_calls (9 * 4 ^ 2) (9 * 3 ^ 2) (Some [("FZQVALUE", "4")]) 1 (4 ^ 2) (3 ^ 2) with
  | Ok calls => nth 2 calls ("", "", 0, None) = ("seg_cutouts", "i4", 144, Some [("FZQVALUE", "4"); ("FZTILE", "(16,1)")]) /\
      nth 7 calls ("", "", 0, None) = ("noise1_cutouts", "f4", 144, Some [("FZQVALUE", "4"); ("FZTILE", "(16,1)")]) /\
      nth 8 calls ("", "", 0, None) = ("psf", "f4", 81, Some [("FZQVALUE", "4"); ("FZTILE", "(9,1)")])
  | Raise _ => False
  end.
Proof. vm_compute. repeat split. Qed.

Print Assumptions C77_texts_recorded_in_full.
Print Assumptions C77_zero_point.
Print Assumptions C77_tile_information_kept.
Print Assumptions C77_outcome.
Print Assumptions C78_extensions.
Print Assumptions C78_names_are_distinct.
Print Assumptions C78_keywords.
Print Assumptions C78_one_tile_per_slice.
Print Assumptions C78_dither_seed.
