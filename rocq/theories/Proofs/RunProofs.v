From Coq Require Import ZArith Bool String Lia List Permutation.
From Verif Require Import Lib.Base Lib.Floats Model.SliceRange Model.Jobs Model.Writer Model.Sched
  Spec.WriterSpec Spec.RunSpec
  Proofs.BaseFacts Proofs.JobsProofs Proofs.SchedProofs Proofs.WriterProofs.
Import ListNotations.
Open Scope list_scope.
Open Scope Z_scope.

Section Generic.
Variables res outp : Type.
Variable work : Z * Z -> result res.
Variable process : outp -> res -> result outp.

(** The main process waits for as many results as there are slices. *)
Definition counted (p : plan) : Prop :=
  match p with Serial _ => True | Parallel _ n chunks => n = length (concat chunks) end.

Lemma completes_results : forall cap o0 p o, counted p -> completes res outp work process cap o0 p o ->
  exists items rs, Permutation (plan_items p) items /\
    Forall2 (fun i r => work i = Ok r) items rs /\ write_all res outp process o0 rs = Ok o.
Proof.
  intros cap o0 p o HC H. destruct H as [todo o H|n_jobs n_todo chunks s o H HD]; cbn [counted] in HC; [|subst n_todo].
  - destruct (serial_ok _ _ _ _ _ _ _ _ H) as (rs & A & B).
    exists todo, rs. cbn [plan_items]. auto.
  - pose proof (inv_steps _ _ _ _ _ _ _ _ _ _ _ eq_refl H) as [_ HI]. rewrite HD in HI.
    destruct HI as (id & ds & A & B & P). exists id, ds. auto.
Qed.

Lemma raises_cause : forall cap o0 p, counted p -> raises res outp work process cap o0 p ->
  (exists i e, In i (plan_items p) /\ work i = Raise e) \/
  (exists items rs e rest, Forall2 (fun i r => work i = Ok r) items rs /\
     Permutation (plan_items p) (items ++ rest) /\ write_all res outp process o0 rs = Raise e).
Proof.
  intros cap o0 p HC H. destruct H as [todo e H|n_jobs n_todo chunks s o H HD]; cbn [counted] in HC; [|subst n_todo].
  - cbn [plan_items]. revert o0 H. induction todo as [|i l IH]; intros o0 H; [discriminate|].
    cbn [serial] in H. destruct (work i) as [r|e'] eqn:EW.
    2: { left. exists i, e'. split; [left; auto|auto]. }
    cbn [bind] in H. destruct (process o0 r) as [o1|e'] eqn:EP.
    + cbn [bind] in H. destruct (IH _ H) as [(j & e2 & A & B)|(items & rs & e2 & rest & A & P & B)].
      * left. exists j, e2. split; [right; auto|auto].
      * right. exists (i :: items), (r :: rs), e2, rest. split; [constructor; auto|].
        split; [cbn; constructor; exact P|]. cbn [write_all]. rewrite EP. exact B.
    + right. exists [i], [r], e', l. split; [constructor; auto|]. split; [reflexivity|].
      cbn [write_all]. rewrite EP. reflexivity.
  - pose proof (inv_steps _ _ _ _ _ _ _ _ _ _ _ eq_refl H) as [_ HI]. rewrite HD in HI.
    cbn [plan_items]. destruct HI as [HI|(id & ds & i & r & e & rest & A & B & W & PR & P)]; [left; exact HI|].
    right. exists (id ++ [i]), (ds ++ [r]), e, rest. split; [apply Forall2_app; auto|]. split.
    + rewrite <- app_assoc. exact P.
    + rewrite write_all_app, B. cbn [bind write_all]. rewrite PR. reflexivity.
Qed.
End Generic.

Lemma Forall2_perm_l : forall (A B : Type) (R : A -> B -> Prop) l l' m,
  Forall2 R l m -> Permutation l l' -> exists m', Permutation m m' /\ Forall2 R l' m'.
Proof.
  intros A B R l l' m H P.
  assert (H' : Forall2 (fun b a => R a b) m l) by (clear P; induction H; constructor; auto).
  destruct (Forall2_perm_r _ _ _ _ _ _ H' P) as (m' & Q & G). exists m'. split; auto.
  clear - G. induction G; constructor; auto.
Qed.

Section Run.
Context {F : Type} {FO : FloatOps F}.
Variable V : Type.
Variable zero : V.
Variable cast : string -> V -> V.
Variable isneg : V -> bool.
Variable E : Type.
Notation results := (@results F V E).
Notation out := (@out F V E).
Variables box psf_box n_extra num : Z.
Variable obj0 : Z -> @obj F.
Hypothesis Hx : 0 <= n_extra.
(** _coadd_single_slice: the results are labelled with the slice index. *)
Variable work : Z * Z -> result results.
Hypothesis Hwork : forall i s r, 0 <= i < num -> work (i, s) = Ok r ->
  r_i V E r = i /\ well_shaped V E box psf_box n_extra r.

Definition out0 : out := @init_out F V zero E num box psf_box n_extra obj0.
Definition proc : out -> results -> result out :=
  process_one V cast isneg E (box ^ 2) (psf_box ^ 2).

Definition good_items (items : list (Z * Z)) : Prop :=
  NoDup (map fst items) /\ forall i s, In (i, s) items -> 0 <= i < num.

Lemma process_all_write_all : forall rs o,
  process_all V cast isneg E (box ^ 2) (psf_box ^ 2) o rs = write_all _ _ proc o rs.
Proof.
  induction rs as [|r rs IH]; intros o; [reflexivity|]. cbn [process_all write_all].
  change (proc o r) with (process_one V cast isneg E (box ^ 2) (psf_box ^ 2) o r).
  destruct (process_one V cast isneg E (box ^ 2) (psf_box ^ 2) o r); cbn [bind]; [apply IH|reflexivity].
Qed.

Lemma good_items_results : forall items rs, good_items items ->
  Forall2 (fun i r => work i = Ok r) items rs ->
  map (r_i V E) rs = map fst items /\
  NoDup (map (r_i V E) rs) /\
  (forall r, In r rs -> 0 <= r_i V E r < num /\ well_shaped V E box psf_box n_extra r).
Proof.
  intros items rs [H1 H2] HF.
  assert (EQ : map (r_i V E) rs = map fst items).
  { clear H1. induction HF as [|[i s] r l rs Hr HF IH]; [reflexivity|]. cbn [map fst].
    destruct (Hwork i s r) as [A _]; [apply (H2 i s); left; auto|exact Hr|].
    rewrite A, IH; [reflexivity|]. intros; eapply H2; right; eauto. }
  split; [exact EQ|]. split; [rewrite EQ; exact H1|].
  clear EQ H1. induction HF as [|[i s] r l rs Hr HF IH]; [intros r []|].
  assert (Hi : 0 <= i < num) by (apply (H2 i s); left; auto).
  destruct (Hwork i s r Hi Hr) as [A B].
  intros r' [<-|Hr']; [rewrite A; auto|]. apply IH; auto. intros; eapply H2; right; eauto.
Qed.

Definition acceptable (r : results) : Prop :=
  has_data V E r -> bad_values V cast isneg E r = false.

Lemma write_all_ok_iff : forall items rs, good_items items ->
  Forall2 (fun i r => work i = Ok r) items rs ->
  ((exists o, write_all _ _ proc out0 rs = Ok o) <-> (forall r, In r rs -> acceptable r)).
Proof.
  intros items rs HG HF. destruct (good_items_results _ _ HG HF) as (_ & HN & Hin).
  rewrite <- process_all_write_all. split.
  - intros [o Ho] r Hr D. destruct (bad_values V cast isneg E r) eqn:B; auto. exfalso.
    rewrite (process_all_bad V zero cast isneg E num box psf_box n_extra rs out0 r Hx eq_refl
               (reserved_init V zero isneg E num box psf_box n_extra obj0) HN Hin Hr D B) in Ho.
    discriminate.
  - intros H.
    destruct (process_all_spec V zero cast isneg E num box psf_box n_extra rs out0 Hx eq_refl
               (reserved_init V zero isneg E num box psf_box n_extra obj0) HN Hin H) as (o & A & _).
    eauto.
Qed.

Lemma outputs_same : forall items1 items2 rs1 rs2 o1 o2,
  good_items items1 -> Permutation items1 items2 ->
  Forall2 (fun i r => work i = Ok r) items1 rs1 ->
  Forall2 (fun i r => work i = Ok r) items2 rs2 ->
  write_all _ _ proc out0 rs1 = Ok o1 -> write_all _ _ proc out0 rs2 = Ok o2 ->
  same_output V E o1 o2.
Proof.
  intros items1 items2 rs1 rs2 o1 o2 HG HP HF1 HF2 W1 W2.
  assert (HG2 : good_items items2).
  { destruct HG as [A B]. split.
    - apply (Permutation_NoDup (Permutation_map fst HP) A).
    - intros i s H. apply (B i s). apply (Permutation_in _ (Permutation_sym HP)). exact H. }
  assert (PR : Permutation rs1 rs2).
  { destruct (Forall2_perm_l _ _ _ _ _ _ HF1 HP) as (m & P & G).
    assert (m = rs2) as <-; [|exact P].
    clear - G HF2. revert rs2 HF2. induction G; intros rs2 H2; inversion H2; subst; auto.
    f_equal; [congruence|auto]. }
  destruct (good_items_results _ _ HG HF1) as (_ & HN1 & Hin1).
  destruct (good_items_results _ _ HG2 HF2) as (_ & HN2 & Hin2).
  assert (OK1 : forall r, In r rs1 -> acceptable r) by (apply (write_all_ok_iff _ _ HG HF1); eauto).
  assert (OK2 : forall r, In r rs2 -> acceptable r) by (apply (write_all_ok_iff _ _ HG2 HF2); eauto).
  destruct (process_all_spec V zero cast isneg E num box psf_box n_extra rs1 out0 Hx eq_refl
    (reserved_init V zero isneg E num box psf_box n_extra obj0) HN1 Hin1 OK1) as (q1 & A1 & _ & B1 & C1 & D1 & E1).
  destruct (process_all_spec V zero cast isneg E num box psf_box n_extra rs2 out0 Hx eq_refl
    (reserved_init V zero isneg E num box psf_box n_extra obj0) HN2 Hin2 OK2) as (q2 & A2 & _ & B2 & C2 & D2 & E2).
  rewrite process_all_write_all in A1, A2. rewrite W1 in A1. rewrite W2 in A2.
  injection A1 as <-. injection A2 as <-.
  assert (I12 : forall r, In r rs1 <-> In r rs2).
  { intros r. split; apply Permutation_in; auto. apply Permutation_sym; auto. }
  split; [|split].
  - intros ext. specialize (C1 ext). specialize (C2 ext).
    destruct (o_fits V E out0 ext) as [h|] eqn:EH.
    + destruct C1 as (h1 & F1 & G1 & K1). destruct C2 as (h2 & F2 & G2 & K2).
      rewrite F1, F2. split; [congruence|]. intros p.
      destruct (K1 p) as [L1 M1]. destruct (K2 p) as [L2 M2].
      (* is there a slice with data at this position? *)
      assert (C : (exists r info a, In r rs1 /\ has_data V E r /\ belongs V E r ext info a /\
                     in_region (r_i V E r) (region_size box psf_box ext) p) \/
                  (forall r info a, In r rs1 -> has_data V E r -> belongs V E r ext info a ->
                     ~ in_region (r_i V E r) (region_size box psf_box ext) p)).
      { clear - Hin1 Hx zero isneg. induction rs1 as [|r l IH].
        - right. intros r info a [].
        - destruct IH as [(r' & info & a & I & H)|N]; [intros; apply Hin1; right; auto| |].
          + left. exists r', info, a. split; [right; auto|exact H].
          + destruct (has_data_dec V E r) as [D|D].
            2: { right. intros r' info a [<-|I] D'; [contradiction|apply (N r' info a I D')]. }
            destruct (Hin1 r (or_introl eq_refl)) as [_ WS]. destruct (WS D) as [HNs _].
            assert (Dec : (exists info a, belongs V E r ext info a) \/
                          (forall info a, ~ belongs V E r ext info a)).
            { assert (Hne : r_noises V E r <> []).
              { intros K. rewrite K in HNs. cbn in HNs. lia. }
              destruct (string_dec ext PSF_EXT) as [->|NP]; [left; eexists; eexists; constructor|].
              destruct (images_of_spec V zero isneg E r Hne) as (li & _ & _ & HLin).
              destruct (in_dec string_dec ext (map (ext_of V) li)) as [I|I].
              - left. apply in_map_iff in I. destruct I as ([[e io] a] & <- & I). apply HLin in I.
                cbn. destruct I as (_ & I & _). eauto.
              - right. intros info a B. apply I.
                destruct (in_dec string_dec ext fixed_names) as [J|J].
                + apply in_map_iff. exists (ext, None, a). split; [reflexivity|]. apply HLin.
                  split; [exact NP|]. split; [|exact J].
                  assert (info = ext) as <-; [|exact B].
                  inversion B; subst; try reflexivity.
                  exfalso. apply (noise_ext_fixed (Z.of_nat k)). exact J.
                + apply in_map_iff. exists (ext, Some NOISE_EXT, a). split; [reflexivity|]. apply HLin.
                  split; [exact NP|]. split; [|auto].
                  assert (info = NOISE_EXT) as <-; [|exact B].
                  inversion B; subst; try reflexivity; exfalso; apply J; unfold fixed_names; cbn; tauto. }
            destruct Dec as [(info & a & B)|NB].
            * destruct (Z_le_dec (r_i V E r * region_size box psf_box ext) p) as [R1|R1];
                [destruct (Z_lt_dec p ((r_i V E r + 1) * region_size box psf_box ext)) as [R2|R2]|].
              -- left. exists r, info, a. repeat split; auto. left; auto.
              -- right. intros r' info' a' [<-|I] D' B' [Q1 Q2]; [contradiction|].
                 apply (N r' info' a' I D' B'). split; auto.
              -- right. intros r' info' a' [<-|I] D' B' [Q1 Q2]; [contradiction|].
                 apply (N r' info' a' I D' B'). split; auto.
            * right. intros r' info' a' [<-|I] D' B'; [exfalso; exact (NB _ _ B')|].
              apply (N r' info' a' I D' B'). }
      destruct C as [(r & info & a & I & D & B & R)|N].
      * cbn zeta in L1, L2. rewrite (L1 r info a I D B R). rewrite (L2 r info a (proj1 (I12 r) I) D B R).
        reflexivity.
      * rewrite M1 by exact N. rewrite M2; [reflexivity|].
        intros r info a I. apply N. apply I12. exact I.
    + (* extensions that were never reserved: nothing is written there *)
      assert (NB : forall r info a, In r rs1 -> has_data V E r -> ~ belongs V E r ext info a).
      { intros r info a I D B. destruct (Hin1 r I) as [_ WS]. destruct (WS D) as [HNs _].
        destruct (reserved_init V zero isneg E num box psf_box n_extra obj0) as [R1 R2].
        destruct (string_dec ext PSF_EXT) as [->|NP].
        - destruct R2 as (h & R2 & _). unfold out0 in EH. congruence.
        - destruct (R1 ext) as (h & R3 & _); [eapply (belongs_reserved V zero isneg); eauto|].
          unfold out0 in EH. congruence. }
      rewrite C1 by exact NB. rewrite C2; [exact I|].
      intros r info a Ir. apply NB. apply I12. exact Ir.
  - intros j.
    destruct (in_dec Z.eq_dec j (map (r_i V E) rs1)) as [I|I].
    + apply in_map_iff in I. destruct I as (r & <- & I). rewrite E1 by auto.
      rewrite E2 by (apply I12; auto). reflexivity.
    + rewrite D1, D2; [reflexivity| |].
      * intros r Hr K. apply I. apply in_map_iff. exists r. split; auto. apply I12. auto.
      * intros r Hr K. apply I. apply in_map_iff. exists r. auto.
  - rewrite B1, B2. apply Permutation_app_head. apply Permutation_map. exact PR.
Qed.

(** A slice that two runs have in common. *)
Lemma slice_same : forall items1 items2 rs1 rs2 o1 o2 i s,
  good_items items1 -> good_items items2 -> In (i, s) items1 -> In (i, s) items2 ->
  Forall2 (fun i r => work i = Ok r) items1 rs1 ->
  Forall2 (fun i r => work i = Ok r) items2 rs2 ->
  write_all _ _ proc out0 rs1 = Ok o1 -> write_all _ _ proc out0 rs2 = Ok o2 ->
  o_obj V E o1 i = o_obj V E o2 i /\
  (exists r, work (i, s) = Ok r /\ In (r_epochs V E r) (o_epochs V E o1) /\
             In (r_epochs V E r) (o_epochs V E o2)) /\
  forall ext h1 h2 p, o_fits V E o1 ext = Some h1 -> o_fits V E o2 ext = Some h2 ->
    in_region i (region_size box psf_box ext) p -> dat V h1 p = dat V h2 p.
Proof.
  intros items1 items2 rs1 rs2 o1 o2 i s HG1 HG2 I1 I2 HF1 HF2 W1 W2.
  destruct (good_items_results _ _ HG1 HF1) as (Q1 & HN1 & Hin1).
  destruct (good_items_results _ _ HG2 HF2) as (Q2 & HN2 & Hin2).
  assert (OK1 : forall r, In r rs1 -> acceptable r) by (apply (write_all_ok_iff _ _ HG1 HF1); eauto).
  assert (OK2 : forall r, In r rs2 -> acceptable r) by (apply (write_all_ok_iff _ _ HG2 HF2); eauto).
  destruct (process_all_spec V zero cast isneg E num box psf_box n_extra rs1 out0 Hx eq_refl
    (reserved_init V zero isneg E num box psf_box n_extra obj0) HN1 Hin1 OK1) as (q1 & A1 & _ & B1 & C1 & D1 & E1).
  destruct (process_all_spec V zero cast isneg E num box psf_box n_extra rs2 out0 Hx eq_refl
    (reserved_init V zero isneg E num box psf_box n_extra obj0) HN2 Hin2 OK2) as (q2 & A2 & _ & B2 & C2 & D2 & E2).
  rewrite process_all_write_all in A1, A2. rewrite W1 in A1. rewrite W2 in A2.
  injection A1 as <-. injection A2 as <-.
  assert (FI : forall items rs x, Forall2 (fun i r => work i = Ok r) items rs -> In x items ->
    exists r, In r rs /\ work x = Ok r).
  { clear. intros items rs x H. induction H as [|y r l m Hr H IH]; [intros []|].
    intros [<-|I]; [exists r; split; [left; auto|auto]|].
    destruct (IH I) as (r' & A & B). exists r'. split; [right; auto|auto]. }
  destruct (FI _ _ _ HF1 I1) as (r & R1 & Wr). destruct (FI _ _ _ HF2 I2) as (r' & R2 & Wr').
  assert (r' = r) by congruence. subst r'.
  assert (Hi : 0 <= i < num) by (apply (proj2 HG1 i s); auto).
  destruct (Hwork i s r Hi Wr) as [Ri _].
  split; [|split].
  - rewrite <- Ri. rewrite E1, E2 by auto. reflexivity.
  - exists r. split; [exact Wr|]. rewrite B1, B2. split; apply in_or_app; right; apply in_map; auto.
  - intros ext h1 h2 p F1 F2 Reg.
    specialize (C1 ext). specialize (C2 ext).
    destruct (o_fits V E out0 ext) as [h|] eqn:EH.
    2: { (* never reserved *)
      exfalso. assert (NB : forall r info a, In r rs1 -> has_data V E r -> ~ belongs V E r ext info a).
      { intros r0 info a I D B. destruct (Hin1 r0 I) as [_ WS]. destruct (WS D) as [HNs _].
        destruct (reserved_init V zero isneg E num box psf_box n_extra obj0) as [X1 X2].
        destruct (string_dec ext PSF_EXT) as [->|NP].
        - destruct X2 as (h & X2 & _). unfold out0 in EH. congruence.
        - destruct (X1 ext) as (h & X3 & _); [eapply (belongs_reserved V zero isneg); eauto|].
          unfold out0 in EH. congruence. }
      rewrite (C1 NB) in F1. discriminate. }
    destruct C1 as (k1 & G1 & _ & K1). destruct C2 as (k2 & G2 & _ & K2).
    rewrite F1 in G1. rewrite F2 in G2. injection G1 as <-. injection G2 as <-.
    destruct (K1 p) as [L1 M1]. destruct (K2 p) as [L2 M2]. cbn zeta in L1, L2.
    assert (Only : forall items rs r0, good_items items ->
      Forall2 (fun i r => work i = Ok r) items rs -> NoDup (map (r_i V E) rs) ->
      In r rs -> In r0 rs ->
      in_region (r_i V E r0) (region_size box psf_box ext) p -> r0 = r).
    { clear - Reg Ri. intros items rs r0 _ _ HN R R0 Reg0. rewrite <- Ri in Reg.
      pose proof (in_region_disjoint _ _ _ _ Reg0 Reg) as K.
      clear - HN R R0 K. induction rs as [|x l IH]; [contradiction|].
      cbn [map] in HN. apply NoDup_cons_iff in HN. destruct HN as [N1 N2].
      destruct R as [<-|R]; destruct R0 as [<-|R0]; auto.
      - exfalso. apply N1. rewrite <- K. apply in_map. auto.
      - exfalso. apply N1. rewrite K. apply in_map. auto. }
    assert (Dec : (has_data V E r /\ exists info a, belongs V E r ext info a) \/
                  (has_data V E r -> forall info a, ~ belongs V E r ext info a)).
    { destruct (has_data_dec V E r) as [D|D]; [|right; intros; contradiction].
      destruct (Hin1 r R1) as [_ WS]. destruct (WS D) as [HNs _].
      assert (Hne : r_noises V E r <> []).
      { intros K. rewrite K in HNs. cbn in HNs. lia. }
      destruct (string_dec ext PSF_EXT) as [->|NP];
        [left; split; [exact D|]; eexists; eexists; constructor|].
      destruct (images_of_spec V zero isneg E r Hne) as (li & _ & _ & HLin).
      destruct (in_dec string_dec ext (map (ext_of V) li)) as [I|I].
      - left. apply in_map_iff in I. destruct I as ([[e io] a] & <- & I). apply HLin in I.
        cbn. destruct I as (_ & I & _). eauto.
      - right. intros _ info a B. apply I.
        destruct (in_dec string_dec ext fixed_names) as [J|J].
        + apply in_map_iff. exists (ext, None, a). split; [reflexivity|]. apply HLin.
          split; [exact NP|]. split; [|exact J].
          assert (info = ext) as <-; [|exact B].
          inversion B; subst; try reflexivity.
          exfalso. apply (noise_ext_fixed (Z.of_nat k)). exact J.
        + apply in_map_iff. exists (ext, Some NOISE_EXT, a). split; [reflexivity|]. apply HLin.
          split; [exact NP|]. split; [|auto].
          assert (info = NOISE_EXT) as <-; [|exact B].
          inversion B; subst; try reflexivity; exfalso; apply J; unfold fixed_names; cbn; tauto. }
    destruct Dec as [(D & info & a & B)|NB].
    + rewrite <- Ri in Reg. rewrite (L1 r info a R1 D B Reg), (L2 r info a R2 D B Reg). reflexivity.
    + rewrite M1, M2; [reflexivity| |].
      * intros r0 info a I D B Reg0. pose proof (Only items2 rs2 r0 HG2 HF2 HN2 R2 I Reg0). subst.
        exact (NB D _ _ B).
      * intros r0 info a I D B Reg0. pose proof (Only items1 rs1 r0 HG1 HF1 HN1 R1 I Reg0). subst.
        exact (NB D _ _ B).
Qed.

(** Completion does not depend on the order. *)
Lemma completes_iff : forall items1 items2, good_items items1 -> Permutation items1 items2 ->
  forall o1 rs1, Forall2 (fun i r => work i = Ok r) items1 rs1 ->
    write_all _ _ proc out0 rs1 = Ok o1 ->
  exists o2, serial _ _ _ work proc out0 items2 = Ok o2 /\ same_output V E o1 o2.
Proof.
  intros items1 items2 HG HP o1 rs1 HF W.
  assert (HG2 : good_items items2).
  { destruct HG as [A B]. split.
    - apply (Permutation_NoDup (Permutation_map fst HP) A).
    - intros i s H. apply (B i s). apply (Permutation_in _ (Permutation_sym HP)). exact H. }
  destruct (Forall2_perm_l _ _ _ _ _ _ HF HP) as (rs2 & P & HF2).
  assert (OK1 : forall r, In r rs1 -> acceptable r) by (apply (write_all_ok_iff _ _ HG HF); eauto).
  assert (OK2 : exists o2, write_all _ _ proc out0 rs2 = Ok o2).
  { apply (write_all_ok_iff _ _ HG2 HF2). intros r Hr. apply OK1.
    apply (Permutation_in _ (Permutation_sym P)). exact Hr. }
  destruct OK2 as [o2 W2]. exists o2. split.
  - rewrite (serial_of_write_all _ _ _ _ _ _ _ _ HF2). exact W2.
  - eapply (outputs_same items1 items2); eauto.
Qed.

(** A run that raises under one schedule does not complete under another. *)
Lemma raises_not_completes : forall items1 items2, good_items items1 -> Permutation items1 items2 ->
  ((exists i e, In i items1 /\ work i = Raise e) \/
   (exists items rs e rest, Forall2 (fun i r => work i = Ok r) items rs /\
     Permutation items1 (items ++ rest) /\ write_all _ _ proc out0 rs = Raise e)) ->
  forall o rs2, Forall2 (fun i r => work i = Ok r) items2 rs2 ->
    write_all _ _ proc out0 rs2 = Ok o -> False.
Proof.
  intros items1 items2 HG HP H o rs2 HF W.
  assert (HG2 : good_items items2).
  { destruct HG as [A B]. split.
    - apply (Permutation_NoDup (Permutation_map fst HP) A).
    - intros i s K. apply (B i s). apply (Permutation_in _ (Permutation_sym HP)). exact K. }
  assert (FI : forall x, In x items2 -> exists r, In r rs2 /\ work x = Ok r).
  { clear - HF. induction HF as [|y r l m Hr H IH]; [intros x []|].
    intros x [<-|I]; [exists r; split; [left; auto|auto]|].
    destruct (IH x I) as (r' & A & B). exists r'. split; [right; auto|auto]. }
  destruct H as [(i & e & I & We)|(items & rs & e & rest & A & P & We)].
  - apply (Permutation_in _ HP) in I. destruct (FI _ I) as (r & _ & K). congruence.
  - assert (HGs : good_items items).
    { destruct HG as [N B]. split.
      - apply (Permutation_NoDup (Permutation_map fst P)) in N. rewrite map_app in N.
        clear - N. induction (map fst items) as [|x l IH]; [constructor|].
        cbn [app] in N. apply NoDup_cons_iff in N. destruct N as [N1 N2]. constructor; auto.
        intros K. apply N1. apply in_or_app. auto.
      - intros i s K. apply (B i s). apply (Permutation_in _ (Permutation_sym P)).
        apply in_or_app. auto. }
    assert (OK2 : forall r, In r rs2 -> acceptable r) by (apply (write_all_ok_iff _ _ HG2 HF); eauto).
    assert (OKs : exists o2, write_all _ _ proc out0 rs = Ok o2).
    { apply (write_all_ok_iff _ _ HGs A). intros r Hr. apply OK2.
      assert (exists x, In x items /\ work x = Ok r) as (x & Ix & Wx).
      { clear - A Hr. induction A as [|y r0 l m Hr0 H IH]; [contradiction|].
        destruct Hr as [<-|Hr]; [exists y; split; [left; auto|auto]|].
        destruct (IH Hr) as (x & B & C). exists x. split; [right; auto|auto]. }
      destruct (FI x) as (r' & R1 & R2).
      { apply (Permutation_in _ HP). apply (Permutation_in _ (Permutation_sym P)).
        apply in_or_app. auto. }
      assert (r' = r) by congruence. subst. exact R1. }
    destruct OKs as [o2 K]. congruence.
Qed.

End Run.

Section Runs.
Context {F : Type} {FO : FloatOps F}.
Variables V E : Type.
Variable zero : V.
Variable cast : string -> V -> V.
Variable isneg : V -> bool.
Variables box psf_box n_extra num nsrc seed : Z.
Variable obj0 : Z -> @obj F.
Variable rng : Type.
Variable init : Z -> rng.
Variable randint : rng -> Z -> Z -> Z * rng.

Variable work : list src_seeds -> Z * Z -> result (@results F V E).
Hypothesis Hx : 0 <= n_extra.
Hypothesis Hnum : 0 <= num.
Hypothesis Hlab : labelled V E box psf_box n_extra num work.
Notation run_completes := (run_completes V E zero cast isneg box psf_box n_extra num nsrc seed obj0 rng init randint work).
Notation run_raises := (run_raises V E zero cast isneg box psf_box n_extra num nsrc seed obj0 rng init randint work).

Lemma plan_good : forall arg h l p ss, valid_how h -> forward arg -> slices_of arg num = Ok l ->
  make_plan rng init randint (h_order h) arg num seed nsrc n_extra (h_jobs h) (h_chunks h) = Ok (p, ss) ->
  plan_items p = map (fun i => (i, seed_of (fst (all_seeds rng init randint seed num nsrc n_extra)) i)) (h_order h l) /\
  ss = snd (all_seeds rng init randint seed num nsrc n_extra) /\ counted p /\ good_items num (plan_items p).
Proof.
  intros arg h l p ss (Ho & Hc & _) Hf Hl H.
  destruct (only_valid_slices arg num l Hnum Hf Hl) as [Hin HS].
  destruct (make_plan_spec rng init randint (h_order h) arg num seed nsrc n_extra (h_jobs h) (h_chunks h) l Ho Hl Hin Hc)
    as (q & A & B & D). rewrite A in H. injection H as <- <-.
  split; [exact B|]. split; [reflexivity|]. split.
  { destruct D as [(t & -> & _)|(c & -> & _)]; exact I || reflexivity. }
  split.
  - rewrite B, map_map. cbn [fst]. rewrite map_id. apply (Permutation_NoDup (Ho l)).
    clear - HS. induction HS as [|x t HS IH HF]; constructor; auto.
    intros I. rewrite Forall_forall in HF. specialize (HF _ I). lia.
  - intros i s I. rewrite B in I. apply in_map_iff in I. destruct I as (j & K & Ij). injection K as -> _.
    apply Hin. apply (Permutation_in _ (Permutation_sym (Ho l))). exact Ij.
Qed.


Lemma runs_same_output :
  forall arg h1 h2 o1 o2, forward arg -> valid_how h1 -> valid_how h2 ->
  run_completes arg h1 o1 -> run_completes arg h2 o2 -> same_output V E o1 o2.
Proof.
  intros arg h1 h2 o1 o2 Hf V1 V2 (p1 & ss1 & M1 & C1) (p2 & ss2 & M2 & C2).
  assert (exists l, slices_of arg num = Ok l) as [l Hl].
  { unfold make_plan in M1. unfold slices_of. destruct (extract_slice_range arg num); [|discriminate].
    cbn [bind]. eauto. }
  destruct (plan_good arg h1 l p1 ss1 V1 Hf Hl M1) as (P1 & -> & K1 & G1).
  destruct (plan_good arg h2 l p2 ss2 V2 Hf Hl M2) as (P2 & -> & K2 & G2).
  set (ss := snd (all_seeds rng init randint seed num nsrc n_extra)) in *.
  destruct (completes_results _ _ _ _ _ _ _ _ K1 C1) as (i1 & rs1 & Q1 & R1 & W1).
  destruct (completes_results _ _ _ _ _ _ _ _ K2 C2) as (i2 & rs2 & Q2 & R2 & W2).
  assert (PP : Permutation (plan_items p1) (plan_items p2)).
  { rewrite P1, P2. apply Permutation_map.
    apply (Permutation_trans (Permutation_sym (proj1 V1 l)) (proj1 V2 l)). }
  assert (G1' : good_items num i1).
  { destruct G1 as [A B]. split.
    - apply (Permutation_NoDup (Permutation_map fst Q1) A).
    - intros i s H. apply (B i s). apply (Permutation_in _ (Permutation_sym Q1)). exact H. }
  apply (outputs_same V zero cast isneg E box psf_box n_extra num obj0 Hx (work ss) (Hlab ss) i1 i2 rs1 rs2); auto.
  rewrite <- Q1, <- Q2. exact PP.
Qed.

Lemma runs_same_outcome :
  forall arg h1 h2 o2, forward arg -> valid_how h1 -> valid_how h2 ->
  run_raises arg h1 -> run_completes arg h2 o2 -> False.
Proof.
  intros arg h1 h2 o2 Hf V1 V2 (p1 & ss1 & M1 & C1) (p2 & ss2 & M2 & C2).
  assert (exists l, slices_of arg num = Ok l) as [l Hl].
  { unfold make_plan in M1. unfold slices_of. destruct (extract_slice_range arg num); [|discriminate].
    cbn [bind]. eauto. }
  destruct (plan_good arg h1 l p1 ss1 V1 Hf Hl M1) as (P1 & -> & K1 & G1).
  destruct (plan_good arg h2 l p2 ss2 V2 Hf Hl M2) as (P2 & -> & K2 & G2).
  set (ss := snd (all_seeds rng init randint seed num nsrc n_extra)) in *.
  destruct (completes_results _ _ _ _ _ _ _ _ K2 C2) as (i2 & rs2 & Q2 & R2 & W2).
  pose proof (raises_cause _ _ _ _ _ _ _ K1 C1) as C.
  apply (raises_not_completes V zero cast isneg E box psf_box n_extra num obj0 Hx (work ss) (Hlab ss)
           (plan_items p1) i2 G1) with (o := o2) (rs2 := rs2); auto.
  rewrite <- Q2. rewrite P1, P2. apply Permutation_map.
  apply (Permutation_trans (Permutation_sym (proj1 V1 l)) (proj1 V2 l)).
Qed.


Lemma runs_same_results :
  forall arg1 arg2 l1 l2 h1 h2 o1 o2 i, forward arg1 -> forward arg2 -> valid_how h1 -> valid_how h2 ->
  slices_of arg1 num = Ok l1 -> slices_of arg2 num = Ok l2 -> In i l1 -> In i l2 ->
  run_completes arg1 h1 o1 -> run_completes arg2 h2 o2 ->
  o_obj V E o1 i = o_obj V E o2 i /\
  forall ext d1 d2 p, o_fits V E o1 ext = Some d1 -> o_fits V E o2 ext = Some d2 ->
    in_region i (if String.eqb ext "psf" then psf_box ^ 2 else box ^ 2) p -> dat V d1 p = dat V d2 p.
Proof.
  intros arg1 arg2 l1 l2 h1 h2 o1 o2 i Hf1 Hf2 V1 V2 Hl1 Hl2 I1 I2 (p1 & ss1 & M1 & C1) (p2 & ss2 & M2 & C2).
  destruct (plan_good arg1 h1 l1 p1 ss1 V1 Hf1 Hl1 M1) as (P1 & -> & K1 & G1).
  destruct (plan_good arg2 h2 l2 p2 ss2 V2 Hf2 Hl2 M2) as (P2 & -> & K2 & G2).
  set (ss := snd (all_seeds rng init randint seed num nsrc n_extra)) in *.
  set (sd := seed_of (fst (all_seeds rng init randint seed num nsrc n_extra)) i) in *.
  destruct (completes_results _ _ _ _ _ _ _ _ K1 C1) as (i1 & rs1 & Q1 & R1 & W1).
  destruct (completes_results _ _ _ _ _ _ _ _ K2 C2) as (i2 & rs2 & Q2 & R2 & W2).
  assert (GP : forall p q, good_items num p -> Permutation p q -> good_items num q).
  { intros p q [A B] Q. split.
    - apply (Permutation_NoDup (Permutation_map fst Q) A).
    - intros j s H. apply (B j s). apply (Permutation_in _ (Permutation_sym Q)). exact H. }
  assert (J1 : In (i, sd) i1).
  { apply (Permutation_in _ Q1). rewrite P1. apply in_map_iff. exists i. split; [reflexivity|].
    apply (Permutation_in _ (proj1 V1 l1)). exact I1. }
  assert (J2 : In (i, sd) i2).
  { apply (Permutation_in _ Q2). rewrite P2. apply in_map_iff. exists i. split; [reflexivity|].
    apply (Permutation_in _ (proj1 V2 l2)). exact I2. }
  destruct (slice_same V zero cast isneg E box psf_box n_extra num obj0 Hx (work ss) (Hlab ss)
     i1 i2 rs1 rs2 o1 o2 i sd (GP _ _ G1 Q1) (GP _ _ G2 Q2) J1 J2 R1 R2 W1 W2) as (A & _ & B).
  split; [exact A|]. exact B.
Qed.

End Runs.
