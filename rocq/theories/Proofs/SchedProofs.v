From Coq Require Import ZArith List Bool Lia Permutation.
From Verif Require Import Lib.Base Model.Sched.
Import ListNotations.

Section SchedProofs.
Variables item res outp : Type.
Variable work : item -> result res.
Variable process : outp -> res -> result outp.
Notation state := (state item res outp).
Notation worker := (worker item res).
Notation msg := (msg res).
Notation step := (step item res outp work process).
Notation steps := (steps item res outp work process).

(** Results written one after the other. *)
Fixpoint write_all (o : outp) (rs : list res) : result outp :=
  match rs with
  | [] => Ok o
  | r :: rest => o' <- process o r ;; write_all o' rest
  end.

Lemma write_all_app : forall rs rs' o,
  write_all o (rs ++ rs') = (o' <- write_all o rs ;; write_all o' rs').
Proof.
  induction rs as [|r rs IH]; intros rs' o; cbn [app write_all bind]; [reflexivity|].
  destruct (process o r); cbn [bind]; auto.
Qed.

Definition wmsgs (w : worker) : list msg :=
  w_buffer w ++ match w_state w with Putting m _ => [m] | _ => [] end.

Definition wtodo (w : worker) : list item :=
  match w_state w with Idle => [] | Busy t => t | Putting _ t => t end.

Definition msgs (s : state) : list msg := s_pipe s ++ flat_map wmsgs (s_workers s).
Definition todo (s : state) : list item := flat_map wtodo (s_workers s) ++ concat (s_chunks s).

Definition says (i : item) (m : msg) : Prop :=
  match m with
  | MRes r => work i = Ok r
  | MErr => exists e, work i = Raise e
  end.

Definition accounted (items : list item) (id : list item) (s : state) : Prop :=
  exists im ms dr,
    Permutation items (id ++ im ++ todo s ++ dr) /\
    Permutation ms (msgs s) /\
    Forall2 says im ms /\
    (dr <> [] -> In MErr ms).

Definition inv (items : list item) (n_jobs n : nat) (o0 : outp) (s : state) : Prop :=
  length (s_workers s) = n_jobs /\
  match s_main s with
  | Getting lft o =>
      exists id ds, Forall2 (fun i r => work i = Ok r) id ds /\
        write_all o0 ds = Ok o /\ (length ds + lft = n)%nat /\ accounted items id s
  | Done o =>
      exists id ds, Forall2 (fun i r => work i = Ok r) id ds /\
        write_all o0 ds = Ok o /\ Permutation items id
  | Raised o =>
      (exists i e, In i items /\ work i = Raise e) \/
      (exists id ds i r e rest, Forall2 (fun i r => work i = Ok r) id ds /\
        write_all o0 ds = Ok o /\ work i = Ok r /\ process o r = Raise e /\
        Permutation items (id ++ [i] ++ rest))
  end.

(** ** Lists of workers *)

Definition others {A} (l : list A) (k : nat) : list A := firstn k l ++ skipn (S k) l.

Lemma split_nth : forall (A : Type) (l : list A) k w, nth_error l k = Some w ->
  l = firstn k l ++ w :: skipn (S k) l.
Proof.
  intros A. induction l as [|x l IH]; intros [|k] w H; cbn in H; try discriminate.
  - injection H as ->. reflexivity.
  - cbn [firstn skipn app]. f_equal. apply IH. exact H.
Qed.

Lemma flat_nth : forall (A B : Type) (f : A -> list B) l k w, nth_error l k = Some w ->
  Permutation (flat_map f l) (f w ++ flat_map f (others l k)).
Proof.
  intros A B f l k w H. rewrite (split_nth _ _ _ _ H) at 1. unfold others.
  rewrite !flat_map_app. cbn [flat_map]. rewrite app_assoc.
  rewrite (Permutation_app_comm (flat_map f (firstn k l)) (f w)). rewrite <- app_assoc. reflexivity.
Qed.

Lemma flat_upd : forall (A B : Type) (f : A -> list B) l k w,
  Permutation (flat_map f (firstn k l ++ w :: skipn (S k) l)) (f w ++ flat_map f (others l k)).
Proof.
  intros A B f l k w. unfold others. rewrite !flat_map_app. cbn [flat_map]. rewrite app_assoc.
  rewrite (Permutation_app_comm (flat_map f (firstn k l)) (f w)). rewrite <- app_assoc. reflexivity.
Qed.

Lemma upd_length : forall (A : Type) (l : list A) k w w', nth_error l k = Some w ->
  length (firstn k l ++ w' :: skipn (S k) l) = length l.
Proof.
  intros A l k w w' H. rewrite (split_nth _ _ _ _ H) at 3. rewrite !app_length. reflexivity.
Qed.

Lemma sum_upd : forall (A : Type) (f : A -> nat) l k w w', nth_error l k = Some w ->
  (list_sum (map f (firstn k l ++ w' :: skipn (S k) l)) + f w = list_sum (map f l) + f w')%nat.
Proof.
  intros A f l k w w' H. rewrite (split_nth _ _ _ _ H) at 3.
  rewrite !map_app. cbn [map]. unfold list_sum. rewrite !fold_right_app. cbn [fold_right].
  assert (G : forall l x, fold_right Nat.add x l = (fold_right Nat.add 0 l + x)%nat).
  { clear. induction l; intros; cbn; [reflexivity|]. rewrite IHl. lia. }
  rewrite (G _ (f w' + _)%nat), (G _ (f w + _)%nat). lia.
Qed.

(** ** The invariant is kept *)

Lemma Forall2_snoc : forall (A B : Type) (R : A -> B -> Prop) l m a b,
  Forall2 R l m -> R a b -> Forall2 R (l ++ [a]) (m ++ [b]).
Proof. intros. apply Forall2_app; auto. Qed.

Lemma Forall2_length : forall (A B : Type) (R : A -> B -> Prop) l m,
  Forall2 R l m -> length l = length m.
Proof. intros A B R l m H. induction H; cbn; congruence. Qed.

Lemma Forall2_perm_r : forall (A B : Type) (R : A -> B -> Prop) l m m',
  Forall2 R l m -> Permutation m m' -> exists l', Permutation l l' /\ Forall2 R l' m'.
Proof.
  intros A B R l m m' H P. revert l H. induction P; intros k H.
  - inversion H; subst. exists []. auto.
  - inversion H; subst. destruct (IHP _ H4) as (l2 & A1 & A2). exists (x0 :: l2). auto.
  - inversion H; subst. inversion H4; subst. exists (x1 :: x0 :: l1). split; [constructor|].
    constructor; auto.
  - destruct (IHP1 _ H) as (l1 & A1 & A2). destruct (IHP2 _ A2) as (l2 & B1 & B2).
    exists l2. split; [eapply Permutation_trans; eauto|auto].
Qed.

(** Steps that only rearrange. *)
Lemma accounted_perm : forall items id s s',
  Permutation (msgs s) (msgs s') -> Permutation (todo s) (todo s') ->
  accounted items id s -> accounted items id s'.
Proof.
  intros items id s s' H1 H2 (im & ms & dr & A & B & D & E).
  exists im, ms, dr. split; [|split; [|split]]; auto.
  - rewrite A. apply Permutation_app_head, Permutation_app_head, Permutation_app_tail. exact H2.
  - rewrite B. exact H1.
Qed.

Lemma inv_start : forall items chunks n_jobs o0, items = concat chunks ->
  inv items n_jobs (length items) o0 (start n_jobs chunks (length items) o0).
Proof.
  intros items chunks n_jobs o0 ->. unfold inv, start. cbn [s_workers s_main].
  split; [apply repeat_length|]. exists [], []. repeat split; auto.
  assert (E : forall (B : Type) (f : worker -> list B), f (mk_worker Idle []) = [] ->
    flat_map f (repeat (mk_worker Idle []) n_jobs) = []).
  { intros B f H. induction n_jobs; cbn; [reflexivity|]. rewrite H, IHn_jobs. reflexivity. }
  exists [], [], []. unfold todo, msgs. cbn [s_workers s_chunks s_pipe].
  rewrite !E by reflexivity. cbn [app]. rewrite app_nil_r. repeat split; auto.
  intros H; congruence.
Qed.

Lemma inv_step : forall items n_jobs n o0 cap s s', length items = n ->
  inv items n_jobs n o0 s -> step cap s s' -> inv items n_jobs n o0 s'.
Proof.
  intros items n_jobs n o0 cap s s' Hn [HL HI] HS.
  inversion HS; subst; clear HS; unfold inv, upd_worker in *; cbn [s_workers s_main s_chunks s_pipe] in *;
    try (split; [erewrite upd_length; [reflexivity|eassumption]|]);
    try match goal with H : running _ _ _ _ = true |- _ =>
      unfold running in H; destruct (s_main s) as [lft o|o|o] eqn:EM; try discriminate end.
  - (* Take *)
    destruct HI as (id & ds & A & B & D & E). exists id, ds. repeat split; auto.
    eapply accounted_perm; [| |exact E].
    + unfold msgs. cbn [s_workers s_pipe]. apply Permutation_app_head.
      rewrite (flat_nth _ _ wmsgs _ _ _ H0). rewrite flat_upd. reflexivity.
    + unfold todo. cbn [s_workers s_chunks]. rewrite (flat_nth _ _ wtodo _ _ _ H0), flat_upd, H1.
      cbn [wtodo w_state app concat]. rewrite <- app_assoc.
      rewrite app_assoc, (Permutation_app_comm _ c), <- app_assoc. reflexivity.
  - (* Compute *)
    destruct HI as (id & ds & A & B & D & im & ms & dr & E1 & E2 & E3 & E4).
    exists id, ds. repeat split; auto.
    exists (i :: im), (MRes r :: ms), dr. split; [|split; [|split]].
    + rewrite E1. apply Permutation_app_head. unfold todo. cbn [s_workers s_chunks].
      rewrite (flat_nth _ _ wtodo _ _ _ H0), flat_upd. cbn [wtodo w_state].
      rewrite <- !app_assoc. cbn [app].
      rewrite <- Permutation_middle. reflexivity.
    + rewrite E2. unfold msgs. cbn [s_workers s_pipe].
      rewrite (flat_nth _ _ wmsgs _ _ _ H0), flat_upd. unfold wmsgs at 1 3. cbn [w_state w_buffer].
      rewrite app_nil_r. rewrite <- !app_assoc. cbn [app].
      rewrite <- Permutation_middle. rewrite <- Permutation_middle. reflexivity.
    + constructor; auto.
    + intros N. right. auto.
  - (* Fail *)
    destruct HI as (id & ds & A & B & D & im & ms & dr & E1 & E2 & E3 & E4).
    exists id, ds. repeat split; auto.
    exists (i :: im), (MErr :: ms), (todo0 ++ dr). split; [|split; [|split]].
    + rewrite E1. apply Permutation_app_head. unfold todo. cbn [s_workers s_chunks].
      rewrite (flat_nth _ _ wtodo _ _ _ H0), flat_upd. cbn [wtodo w_state].
      rewrite <- !app_assoc. cbn [app].
      rewrite <- Permutation_middle. constructor. apply Permutation_app_head.
      rewrite app_assoc. rewrite (Permutation_app_comm todo0 _). rewrite <- !app_assoc.
      apply Permutation_app_head. rewrite app_assoc, (Permutation_app_comm todo0), <- app_assoc.
      reflexivity.
    + rewrite E2. unfold msgs. cbn [s_workers s_pipe].
      rewrite (flat_nth _ _ wmsgs _ _ _ H0), flat_upd. unfold wmsgs at 1 3. cbn [w_state w_buffer].
      rewrite app_nil_r. rewrite <- !app_assoc. cbn [app].
      rewrite <- Permutation_middle. rewrite <- Permutation_middle. reflexivity.
    + constructor; auto. cbn. eauto.
    + intros N. left. auto.
  - (* Put *)
    destruct HI as (id & ds & A & B & D & E). exists id, ds. repeat split; auto.
    eapply accounted_perm; [| |exact E].
    + unfold msgs. cbn [s_workers s_pipe]. apply Permutation_app_head.
      rewrite (flat_nth _ _ wmsgs _ _ _ H0), flat_upd. unfold wmsgs at 1 3. cbn [w_state w_buffer].
      rewrite app_nil_r. reflexivity.
    + unfold todo. cbn [s_workers s_chunks]. rewrite (flat_nth _ _ wtodo _ _ _ H0), flat_upd.
      reflexivity.
  - (* Finish *)
    destruct HI as (id & ds & A & B & D & E). exists id, ds. repeat split; auto.
    eapply accounted_perm; [| |exact E].
    + unfold msgs. cbn [s_workers s_pipe]. apply Permutation_app_head.
      rewrite (flat_nth _ _ wmsgs _ _ _ H0), flat_upd. reflexivity.
    + unfold todo. cbn [s_workers s_chunks]. rewrite (flat_nth _ _ wtodo _ _ _ H0), flat_upd.
      reflexivity.
  - (* Feed *)
    destruct HI as (id & ds & A & B & D & E). exists id, ds. repeat split; auto.
    eapply accounted_perm; [| |exact E].
    + unfold msgs. cbn [s_workers s_pipe].
      rewrite (flat_nth _ _ wmsgs _ _ _ H0), flat_upd. unfold wmsgs at 1 3. cbn [w_state w_buffer].
      rewrite <- !app_assoc. cbn [app]. reflexivity.
    + unfold todo. cbn [s_workers s_chunks]. rewrite (flat_nth _ _ wtodo _ _ _ H0), flat_upd.
      reflexivity.
  - (* GetOk *)
    split; [reflexivity|]. rewrite H in HI.
    destruct HI as (id & ds & A & B & D & im & ms & dr & E1 & E2 & E3 & E4).
    assert (P : Permutation ms (MRes r :: (p ++ flat_map wmsgs (s_workers s)))).
    { rewrite E2. unfold msgs. rewrite H0. reflexivity. }
    destruct (Forall2_perm_r _ _ _ _ _ _ E3 P) as (im' & Q & F).
    inversion F as [|i m im2 ms2 Hi Fr E' E'']; subst.
    exists (id ++ [i]), (ds ++ [r]). split; [apply Forall2_snoc; auto|]. split.
    { rewrite write_all_app, B. cbn [bind write_all]. rewrite H1. reflexivity. }
    split; [rewrite app_length; cbn [length]; lia|].
    exists im2, (p ++ flat_map wmsgs (s_workers s)), dr. split; [|split; [|split]].
    + rewrite E1, Q. rewrite <- app_assoc. cbn [app]. reflexivity.
    + unfold msgs. cbn [s_workers s_pipe]. reflexivity.
    + exact Fr.
    + intros N. specialize (E4 N). apply (Permutation_in _ P) in E4.
      destruct E4 as [C|C]; [discriminate|exact C].
  - (* GetFail *)
    split; [reflexivity|]. rewrite H in HI. right.
    destruct HI as (id & ds & A & B & D & im & ms & dr & E1 & E2 & E3 & E4).
    assert (P : Permutation ms (MRes r :: (p ++ flat_map wmsgs (s_workers s)))).
    { rewrite E2. unfold msgs. rewrite H0. reflexivity. }
    destruct (Forall2_perm_r _ _ _ _ _ _ E3 P) as (im' & Q & F).
    inversion F as [|i m im2 ms2 Hi Fr E' E'']; subst.
    exists id, ds, i, r, e, (im2 ++ todo s ++ dr). repeat split; auto.
    rewrite E1, Q. cbn [app]. reflexivity.
  - (* GetErr *)
    split; [reflexivity|]. rewrite H in HI. left.
    destruct HI as (id & ds & A & B & D & im & ms & dr & E1 & E2 & E3 & E4).
    assert (P : Permutation ms (MErr :: (p ++ flat_map wmsgs (s_workers s)))).
    { rewrite E2. unfold msgs. rewrite H0. reflexivity. }
    destruct (Forall2_perm_r _ _ _ _ _ _ E3 P) as (im' & Q & F).
    inversion F as [|i m im2 ms2 Hie Fr E' E'']; subst. destruct Hie as (e & Hi).
    exists i, e. split; [|exact Hi]. apply (Permutation_in _ (Permutation_sym E1)).
    apply in_or_app. right. apply in_or_app. left. apply (Permutation_in _ (Permutation_sym Q)).
    left. reflexivity.
  - (* Join *)
    split; [reflexivity|]. rewrite H in HI.
    destruct HI as (id & ds & A & B & D & im & ms & dr & E1 & E2 & E3 & E4).
    exists id, ds. repeat split; auto.
    pose proof (Permutation_length E1) as L. rewrite !app_length in L.
    pose proof (Forall2_length _ _ _ _ _ A) as LA.
    assert (length im = 0 /\ length (todo s) = 0 /\ length dr = 0)%nat as (L1 & L2 & L3) by lia.
    apply length_zero_iff_nil in L1, L2, L3. rewrite E1, L1, L2, L3. cbn [app].
    rewrite app_nil_r. reflexivity.
Qed.

Lemma inv_steps : forall items chunks n_jobs o0 cap s, items = concat chunks ->
  steps cap (start n_jobs chunks (length items) o0) s ->
  inv items n_jobs (length items) o0 s.
Proof.
  intros items chunks n_jobs o0 cap s HC H.
  remember (start n_jobs chunks (length items) o0) as s0 eqn:E.
  induction H as [s|s t u H IH HS]; subst.
  - apply inv_start. reflexivity.
  - eapply inv_step; [reflexivity|apply IH; reflexivity|exact HS].
Qed.

(** ** No deadlock *)

Lemma outstanding_msgs : forall s : state, (outstanding item res outp s <= length (msgs s))%nat.
Proof.
  intros s. unfold outstanding, msgs. rewrite app_length. apply Nat.add_le_mono_l.
  induction (s_workers s) as [|w l IH]; cbn [map flat_map]; [auto|].
  unfold list_sum in *. cbn [fold_right]. rewrite app_length. unfold wmsgs at 1.
  rewrite app_length. lia.
Qed.

Lemma find_worker : forall (P : worker -> bool) (l : list worker),
  (exists k w, nth_error l k = Some w /\ P w = true) \/ (forall w, In w l -> P w = false).
Proof.
  intros P. induction l as [|w l IH].
  - right. intros w [].
  - destruct (P w) eqn:E.
    + left. exists 0%nat, w. auto.
    + destruct IH as [(k & v & A & B)|N].
      * left. exists (S k), v. auto.
      * right. intros v [<-|Hv]; auto.
Qed.

Definition has_buffer (w : worker) : bool := match w_buffer w with [] => false | _ => true end.

Lemma progress : forall items n_jobs o0 cap s,
  (1 <= cap)%nat -> (1 <= n_jobs)%nat ->
  inv items n_jobs (length items) o0 s -> running item res outp s = true ->
  exists s', step cap s s'.
Proof.
  intros items n_jobs o0 cap s Hcap Hj [HL HI] HR.
  unfold running in HR. destruct (s_main s) as [lft o|o|o] eqn:EM; try discriminate. clear HR.
  assert (HR : running item res outp s = true) by (unfold running; now rewrite EM).
  destruct HI as (id & ds & A & B & D & im & ms & dr & E1 & E2 & E3 & E4).
  pose proof (Forall2_length _ _ _ _ _ A) as LA. pose proof (Forall2_length _ _ _ _ _ E3) as LE.
  pose proof (Permutation_length E1) as L1. rewrite !app_length in L1.
  pose proof (Permutation_length E2) as L2.
  destruct (find_worker has_buffer (s_workers s)) as [(k & [st b] & K1 & K2)|NB].
  { unfold has_buffer in K2. cbn in K2. destruct b as [|m b]; [discriminate|].
    eexists. eapply Feed; eauto. }
  destruct (s_pipe s) as [|m p] eqn:EP.
  2: { destruct lft as [|lft].
       - (* impossible: all results have been read *)
         exfalso. unfold msgs in L2. rewrite EP in L2. cbn in L2. lia.
       - destruct m as [r|].
         + destruct (process o r) as [o'|e] eqn:E.
           * eexists. eapply GetOk; eauto.
           * eexists. eapply GetFail; eauto.
         + eexists. eapply GetErr; eauto. }
  assert (O : outstanding item res outp s = 0%nat).
  { unfold outstanding. rewrite EP. cbn [length Nat.add].
    clear - NB. induction (s_workers s) as [|w l IH]; [reflexivity|].
    unfold list_sum in *. cbn [map fold_right]. rewrite IH by (intros; apply NB; right; auto).
    specialize (NB w (or_introl eq_refl)). unfold has_buffer in NB.
    destruct (w_buffer w); [reflexivity|discriminate]. }
  destruct (find_worker (fun w => negb (idle_worker item res w)) (s_workers s))
    as [(k & [st b] & K1 & K2)|NI].
  { unfold idle_worker in K2. cbn in K2. destruct st as [|t|m t]; [discriminate| |].
    - destruct t as [|i t].
      + eexists. eapply Finish; eauto.
      + destruct (work i) as [r|e] eqn:E.
        * eexists. eapply Compute; eauto.
        * eexists. eapply Fail; eauto.
    - eexists. eapply Put; eauto. lia. }
  assert (NM : msgs s = []).
  { unfold msgs. rewrite EP. cbn [app]. clear - NB NI.
    induction (s_workers s) as [|w l IH]; [reflexivity|]. cbn [flat_map].
    rewrite IH by (intros; (apply NB || apply NI); right; auto).
    rewrite app_nil_r. unfold wmsgs.
    specialize (NB w (or_introl eq_refl)). specialize (NI w (or_introl eq_refl)).
    unfold has_buffer in NB. destruct (w_buffer w); [|discriminate].
    unfold idle_worker in NI. destruct (w_state w); [reflexivity|discriminate..]. }
  assert (NT : flat_map wtodo (s_workers s) = []).
  { clear - NI. induction (s_workers s) as [|w l IH]; [reflexivity|]. cbn [flat_map].
    rewrite IH by (intros; apply NI; right; auto). rewrite app_nil_r. unfold wtodo.
    specialize (NI w (or_introl eq_refl)). unfold idle_worker in NI.
    destruct (w_state w); [reflexivity|discriminate..]. }
  rewrite NM in L2. cbn in L2.
  assert (DR : dr = []).
  { destruct dr; auto. exfalso. assert (In MErr ms) by (apply E4; discriminate).
    destruct ms; [contradiction|discriminate]. }
  destruct (s_chunks s) as [|c cs] eqn:EC.
  - assert (T0 : length (todo s) = 0%nat) by (unfold todo; rewrite NT, EC; reflexivity).
    subst dr. cbn [length] in *. destruct lft as [|lft]; [|lia].
    eexists. eapply Join; eauto. apply forallb_forall. intros w Hw. specialize (NI w Hw).
    destruct (idle_worker item res w); [reflexivity|discriminate].
  - destruct (s_workers s) as [|w l] eqn:EW; [cbn in HL; lia|].
    assert (HW : In w (w :: l)) by (left; reflexivity).
    specialize (NI w HW). destruct w as [st b]. unfold idle_worker in NI. cbn in NI.
    destruct st; try discriminate.
    eexists. eapply (Take _ _ _ _ _ cap s 0%nat b c cs); eauto. rewrite EW. reflexivity.
Qed.

(** ** Every execution is finite *)

Definition weight_worker (w : worker) : nat :=
  (match w_state w with Idle => 0 | Busy t => 1 + 4 * length t | Putting _ t => 4 + 4 * length t end
   + 2 * length (w_buffer w))%nat.

Definition weight (s : state) : nat :=
  (list_sum (map (fun c => 2 + 4 * length c)%nat (s_chunks s)) +
   list_sum (map weight_worker (s_workers s)) + length (s_pipe s) +
   match s_main s with Getting _ _ => 1 | _ => 0 end)%nat.

Lemma step_weight : forall cap s s', step cap s s' -> (weight s' < weight s)%nat.
Proof.
  intros cap s s' H.
  inversion H; subst; clear H; unfold weight, upd_worker; cbn [s_chunks s_workers s_pipe s_main];
    try match goal with K : nth_error (s_workers s) ?k = Some ?w |- context [firstn _ _ ++ ?w' :: _] =>
      pose proof (sum_upd _ weight_worker _ _ _ w' K) as SU; unfold weight_worker at 2 4 in SU;
      cbn [w_state w_buffer length] in SU end;
    rewrite ?app_length in *; cbn [length] in *.
  - rewrite H2. unfold list_sum in *. cbn [map fold_right]. lia.
  - lia.
  - lia.
  - lia.
  - lia.
  - lia.
  - rewrite H0, H1. cbn [length]. lia.
  - rewrite H0, H1. cbn [length]. lia.
  - rewrite H0, H1. cbn [length]. lia.
  - rewrite H0. lia.
Qed.

(** A sequence of [n] steps. *)
Inductive nsteps (cap : nat) : nat -> state -> state -> Prop :=
| nsteps_0 : forall s, nsteps cap 0 s s
| nsteps_S : forall n s t u, nsteps cap n s t -> step cap t u -> nsteps cap (S n) s u.

Lemma nsteps_weight : forall cap n s t, nsteps cap n s t -> (weight t + n <= weight s)%nat.
Proof.
  intros cap n s t H. induction H as [|n s t u H IH HS]; [lia|].
  apply step_weight in HS. lia.
Qed.

Lemma weight_start : forall n_jobs chunks n o,
  weight (start n_jobs chunks n o) = (4 * length (concat chunks) + 2 * length chunks + 1)%nat.
Proof.
  intros n_jobs chunks n o. unfold weight, start. cbn [s_chunks s_workers s_pipe s_main length].
  assert (W : list_sum (map weight_worker (repeat (mk_worker Idle []) n_jobs)) = 0%nat).
  { induction n_jobs; [reflexivity|]. unfold list_sum in *. cbn [repeat map fold_right].
    rewrite IHn_jobs. reflexivity. }
  rewrite W.
  assert (K : list_sum (map (fun c : list item => (2 + 4 * length c)%nat) chunks) =
              (4 * length (concat chunks) + 2 * length chunks)%nat).
  { clear. induction chunks as [|c cs IH]; [reflexivity|]. unfold list_sum in *.
    cbn [map fold_right concat length]. rewrite IH, app_length. lia. }
  lia.
Qed.

(** ** Serial run *)

Lemma serial_write_all : forall items o, (forall i, In i items -> exists r, work i = Ok r) ->
  exists rs, Forall2 (fun i r => work i = Ok r) items rs /\
    serial item res outp work process o items = write_all o rs.
Proof.
  induction items as [|i l IH]; intros o H.
  - exists []. split; [constructor|reflexivity].
  - destruct (H i (or_introl eq_refl)) as [r Hr].
    cbn [serial]. rewrite Hr. cbn [bind]. destruct (process o r) as [o'|e] eqn:EP.
    + destruct (IH o') as (rs & A & B); [intros; apply H; right; auto|].
      exists (r :: rs). split; [constructor; auto|]. cbn [write_all]. rewrite EP. exact B.
    + destruct (IH o) as (rs & A & B); [intros; apply H; right; auto|].
      exists (r :: rs). split; [constructor; auto|]. cbn [write_all]. rewrite EP. reflexivity.
Qed.

Lemma serial_ok : forall items o o', serial item res outp work process o items = Ok o' ->
  exists rs, Forall2 (fun i r => work i = Ok r) items rs /\ write_all o rs = Ok o'.
Proof.
  induction items as [|i l IH]; intros o o' H; cbn [serial] in H.
  - exists []. split; [constructor|exact H].
  - destruct (work i) as [r|e] eqn:EW; [|discriminate]. cbn [bind] in H.
    destruct (process o r) as [o1|e] eqn:EP; [|discriminate]. cbn [bind] in H.
    destruct (IH _ _ H) as (rs & A & B). exists (r :: rs). split; [constructor; auto|].
    cbn [write_all]. rewrite EP. exact B.
Qed.

Lemma serial_of_write_all : forall items rs o, Forall2 (fun i r => work i = Ok r) items rs ->
  serial item res outp work process o items = write_all o rs.
Proof.
  intros items rs o H. revert o. induction H as [|i r l rs Hr H IH]; intros o; [reflexivity|].
  cbn [serial write_all]. rewrite Hr. cbn [bind]. destruct (process o r); cbn [bind]; auto.
Qed.

End SchedProofs.

(** From every reachable state the run can be completed. *)
Section Ends.
Variables item res outp : Type.
Variable work : item -> result res.
Variable process : outp -> res -> result outp.
Notation step := (step item res outp work process).
Notation steps := (steps item res outp work process).

Lemma steps_trans : forall cap s t u, steps cap s t -> steps cap t u -> steps cap s u.
Proof.
  intros cap s t u H1 H2. induction H2 as [s0|s0 t0 u0 H2 IH S]; [exact H1|].
  eapply steps_step; [apply IH; exact H1|exact S].
Qed.

Lemma ends : forall chunks n_jobs o0 cap, (1 <= cap)%nat -> (1 <= n_jobs)%nat ->
  forall s, steps cap (start n_jobs chunks (length (concat chunks)) o0) s ->
  exists t, steps cap s t /\ running _ _ _ t = false.
Proof.
  intros chunks n_jobs o0 cap Hc Hj s. remember (weight item res outp s) as w eqn:Ew.
  revert s Ew. induction w as [w IH] using lt_wf_ind. intros s Ew H.
  destruct (running item res outp s) eqn:R.
  - pose proof (inv_steps _ _ _ work process _ chunks n_jobs o0 cap s eq_refl H) as HI.
    destruct (progress _ _ _ work process _ n_jobs o0 cap s Hc Hj HI R) as (s' & S).
    pose proof (step_weight _ _ _ _ _ _ _ _ S) as L.
    destruct (IH _ ltac:(rewrite Ew; exact L) s' eq_refl (steps_step _ _ _ _ _ _ _ _ _ H S)) as (t & A & B).
    exists t. split; [|exact B].
    apply (steps_trans cap s s' t); [|exact A]. eapply steps_step; [apply steps_refl|exact S].
  - exists s. split; [apply steps_refl|exact R].
Qed.
End Ends.
