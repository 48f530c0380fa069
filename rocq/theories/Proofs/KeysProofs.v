(** Proofs about objects as keys of caches. *)
From Coq Require Import ZArith List Bool String Ascii Lia.
From Coq Require Import List.
From Verif Require Import Lib.Base Lib.PyStr Lib.PyDict Model.Affine Model.Keys Spec.DesInfoSpec Spec.KeysSpec
  Proofs.PyStrProofs Proofs.DesInfoProofs.
Import ListNotations.
Open Scope string_scope.
Open Scope Z_scope.

Lemma append_inj_l : forall a b c : string, a ++ b = a ++ c -> b = c.
Proof. induction a as [|x a IH]; intros b c H; [exact H|]. injection H as H. auto. Qed.

Lemma text_inj {F} (show : F -> string) (w w' : affine F) : faithful show ->
  affine_text show w = affine_text show w' ->
  dudx w = dudx w' /\ dudy w = dudy w' /\ dvdx w = dvdx w' /\ dvdy w = dvdy w' /\ x0 w = x0 w' /\ y0 w = y0 w'.
Proof.
  intros [Hi Hf] H. unfold affine_text in H. apply append_inj_l in H.
  assert (S : forall x y t t', show x ++ String "," t = show y ++ String "," t' -> x = y /\ t = t').
  { intros x y t t' E. pose proof (free_first "," (show x) (show y) t t' (proj1 (Hf x)) (proj1 (Hf y)) E) as A.
    split; [apply Hi; exact A|]. rewrite A in E. apply append_inj_l in E. injection E as E. exact E. }
  apply S in H as [E1 H]. apply (append_inj_l " dudy=") in H.
  apply S in H as [E2 H]. apply (append_inj_l " dvdx=") in H.
  apply S in H as [E3 H]. apply (append_inj_l " dvdy=") in H.
  apply S in H as [E4 H]. apply (append_inj_l " x0=") in H.
  apply S in H as [E5 H]. apply (append_inj_l " y0=") in H.
  pose proof (free_first ")" (show (y0 w)) (show (y0 w')) "" "" (proj2 (Hf _)) (proj2 (Hf _)) H) as E6.
  apply Hi in E6. tauto.
Qed.

Section Run.
Context {C E V : Type}.
Variables (text : C -> string * C) (print : C -> string) (hash_text : string -> Z)
  (hash_key : Z -> E -> Z) (eqb : E -> E -> bool) (f : C -> E -> result V).
Variable known : C -> Prop.
(** [Rel c c']: the object [c] of the run is the object [c'] that was assigned. *)
Variable Rel : C -> C -> Prop.
Hypothesis eqb_eq : forall e e', eqb e e' = true -> e = e'.
Hypothesis Rel_text : forall c c', Rel c c' -> fst (text c) = print c' /\ Rel (snd (text c)) c'.
Hypothesis Rel_f : forall c c' e, Rel c c' -> f c e = f c' e.
Hypothesis f_print : forall c c' e, known c -> known c' -> print c = print c' -> f c e = f c' e.
Hypothesis keys : no_collision print hash_text hash_key known.

Definition slot_ok (s : @slot E V) : Prop :=
  exists c, known c /\ s_hash s = hash_key (hash_text (print c)) (s_args s) /\ f c (s_args s) = Ok (s_value s).

Lemma take_ok (p : @slot E V -> bool) : forall l s rest, take p l = Some (s, rest) ->
  Forall slot_ok l -> p s = true /\ slot_ok s /\ Forall slot_ok rest.
Proof.
  induction l as [|s0 l IH]; intros s rest H Hl; [discriminate|]. cbn [take] in H. inversion Hl; subst.
  destruct (p s0) eqn:Ep.
  - injection H as <- <-. auto.
  - destruct (take p l) as [[s' l']|]; [|discriminate]. injection H as <- <-.
    destruct (IH _ _ eq_refl ltac:(assumption)) as (A & B & D). auto.
Qed.

Lemma firstn_forall {A} (P : A -> Prop) n : forall l, Forall P l -> Forall P (firstn n l).
Proof. induction n as [|n IH]; intros [|x l] H; cbn; try constructor; inversion H; auto. Qed.

Definition assign_ok (u : use (C := C) (E := E)) : Prop :=
  match u with Assign _ g => forall c c', Rel c c' -> Rel (g c) (g c') | _ => True end.

Lemma run_ok n : forall us h st h',
  (forall a, Rel (h a) (h' a)) -> (forall c, seen h' us c -> known c) ->
  Forall assign_ok us -> Forall slot_ok st ->
  run_objects text hash_text hash_key eqb f n h st us = answers f h' us.
Proof.
  induction us as [|u us IH]; intros h st h' HR HK Hu Hs; [reflexivity|].
  inversion Hu as [|? ? Hu1 Hu2]; subst. destruct u as [a e|a g|]; cbn [run_objects answers].
  - unfold call_object. destruct (Rel_text _ _ (HR a)) as [Ht Hr].
    destruct (text (h a)) as [s c]. cbn [fst snd] in Ht, Hr. subst s.
    assert (HR' : forall b, Rel (set_at h a c b) (h' b)).
    { intros b. unfold set_at. destruct (Nat.eqb_spec b a) as [->|]; [exact Hr|apply HR]. }
    assert (HK' : forall c, seen h' us c -> known c) by (intros x Hx; apply HK; right; exact Hx).
    assert (Ka : known (h' a)) by (apply HK; left; eauto).
    destruct (take _ st) as [[s rest]|] eqn:Et.
    + destruct (take_ok _ _ _ _ Et Hs) as (Hp & Hok & Hrest).
      f_equal; [|apply IH; auto].
      unfold matches in Hp. apply andb_true_iff in Hp as [Hp _]. apply andb_true_iff in Hp as [Hk He].
      apply Z.eqb_eq in Hk. apply eqb_eq in He. subst e.
      destruct Hok as (c' & Kc & Hh & Hf). rewrite Hh in Hk.
      rewrite <- Hf. apply f_print; [exact Kc|exact Ka|]. symmetry. eapply keys; eassumption.
    + rewrite (Rel_f _ _ e (HR' a)). destruct (f (h' a) e) as [v|x] eqn:Ef.
      * f_equal. apply IH; auto. apply firstn_forall. constructor; [|exact Hs].
        exists (h' a). cbn [s_hash s_args s_value]. auto.
      * f_equal. apply IH; auto.
  - apply IH; [|intros c Hc; apply HK; right; exact Hc|exact Hu2|exact Hs].
    intros b. unfold set_at. destruct (Nat.eqb b a); [apply Hu1, HR|apply HR].
  - apply IH; [exact HR|intros c Hc; apply HK; right; exact Hc|exact Hu2|constructor].
Qed.
End Run.
