(** Every way of adding up numbers, and numpy's. *)
From Coq Require Import ZArith List Lia Reals Lra Permutation.
From Verif Require Import Lib.Base Lib.Floats Spec.SumSpec.
Import ListNotations.

Section G.
Context {F : Type} {FO : FloatOps F}.

Lemma adds_app l1 l2 s1 s2 : adds l1 s1 -> adds l2 s2 -> adds (l1 ++ l2) (fadd s1 s2).
Proof. intros H1 H2. eapply adds_two; eauto. Qed.

Lemma adds_perm l l' s : Permutation l l' -> adds l s -> adds l' s.
Proof.
  intros P H. destruct H as [|x|l1 l2 l s1 s2 H1 H2 P2].
  - apply Permutation_nil in P. subst. constructor.
  - apply Permutation_length_1_inv in P. subst. constructor.
  - eapply adds_two; [exact H1|exact H2|]. now rewrite P2.
Qed.

Lemma adds_fold l : forall l0 a, adds l0 a -> adds (l0 ++ l) (fold_left fadd l a).
Proof.
  induction l as [|x l IH]; intros l0 a H; cbn [fold_left]; [now rewrite app_nil_r|].
  replace (l0 ++ x :: l) with ((l0 ++ [x]) ++ l) by (now rewrite <- app_assoc).
  apply IH. apply adds_app; [exact H|constructor].
Qed.

Lemma lanes (ls : list (list F)) : forall xs, length ls = length xs ->
  Permutation (concat (map (fun p => fst p ++ [snd p]) (combine ls xs))) (concat ls ++ xs).
Proof.
  induction ls as [|l ls IH]; intros [|x xs] E; try discriminate; [constructor|].
  cbn [combine map concat fst snd]. specialize (IH xs ltac:(now injection E)).
  rewrite <- !app_assoc. apply Permutation_app_head. cbn [app].
  rewrite IH. apply Permutation_middle.
Qed.

Lemma adds_eight n : forall l, (length l <= n)%nat -> forall l0 l1 l2 l3 l4 l5 l6 l7 r0 r1 r2 r3 r4 r5 r6 r7,
  adds l0 r0 -> adds l1 r1 -> adds l2 r2 -> adds l3 r3 -> adds l4 r4 -> adds l5 r5 -> adds l6 r6 -> adds l7 r7 ->
  adds (concat [l0; l1; l2; l3; l4; l5; l6; l7] ++ l) (eight_sums r0 r1 r2 r3 r4 r5 r6 r7 l).
Proof.
  induction n as [|n IH]; intros l Hl l0 l1 l2 l3 l4 l5 l6 l7 r0 r1 r2 r3 r4 r5 r6 r7 H0 H1 H2 H3 H4 H5 H6 H7.
  all: assert (Hend : adds (concat [l0; l1; l2; l3; l4; l5; l6; l7] ++ l)
      (fold_left fadd l (fadd (fadd (fadd r0 r1) (fadd r2 r3)) (fadd (fadd r4 r5) (fadd r6 r7))))).
  all: try (apply adds_fold; replace (concat [l0; l1; l2; l3; l4; l5; l6; l7])
      with (((l0 ++ l1) ++ (l2 ++ l3)) ++ ((l4 ++ l5) ++ (l6 ++ l7)))
      by (cbn [concat]; rewrite app_nil_r, <- !app_assoc; reflexivity);
    repeat apply adds_app; assumption).
  - destruct l as [|a0 l]; [exact Hend|cbn in Hl; lia].
  - do 8 (destruct l as [|? l]; [exact Hend|]). cbn [eight_sums]. cbn [length] in Hl.
    eapply adds_perm; [|apply (IH l ltac:(lia) (l0 ++ [f]) (l1 ++ [f0]) (l2 ++ [f1]) (l3 ++ [f2]) (l4 ++ [f3])
        (l5 ++ [f4]) (l6 ++ [f5]) (l7 ++ [f6])); (apply adds_app; [assumption|constructor])].
    pose proof (lanes [l0; l1; l2; l3; l4; l5; l6; l7] [f; f0; f1; f2; f3; f4; f5; f6] eq_refl) as P.
    cbn [combine map fst snd] in P. rewrite P, <- app_assoc. reflexivity.
Qed.

Lemma adds_block l : adds l (block_sum l).
Proof.
  assert (Hend : adds l (fold_left fadd l fzero)) by apply (adds_fold l [] fzero adds_none).
  unfold block_sum. do 8 (destruct l as [|? l]; [exact Hend|]).
  refine (adds_eight (length l) l (le_n _) [f] [f0] [f1] [f2] [f3] [f4] [f5] [f6] _ _ _ _ _ _ _ _ _ _ _ _ _ _ _ _); constructor.
Qed.

Lemma adds_pairwise k : forall l, adds l (pairwise_sum k l).
Proof.
  induction k as [|k IH]; intros l; cbn [pairwise_sum]; [apply adds_block|].
  destruct (Nat.leb (length l) 128); [apply adds_block|].
  cbv zeta. eapply adds_two; [apply IH|apply IH|]. now rewrite firstn_skipn.
Qed.

Lemma adds_fsum l : adds l (fsum l).
Proof. apply (adds_app [] l fzero _ adds_none), adds_pairwise. Qed.
End G.

(** The recursion does end by itself: more steps change nothing. *)
Lemma pairwise_enough {F} {FO : FloatOps F} k : forall k' (l : list F), (length l <= k)%nat -> (length l <= k')%nat ->
  pairwise_sum k l = pairwise_sum k' l.
Proof.
  induction k as [|k IH]; intros k' l H H'.
  - destruct l; [|cbn in H; lia]. destruct k'; reflexivity.
  - destruct k' as [|k']; [destruct l; [reflexivity|cbn in H'; lia]|]. cbn [pairwise_sum].
    destruct (Nat.leb (length l) 128) eqn:E; [reflexivity|]. apply Nat.leb_gt in E. cbv zeta.
    set (n2 := (length l / 2 - (length l / 2) mod 8)%nat).
    assert (B : (0 < n2 < length l)%nat).
    { unfold n2. pose proof (Nat.mod_upper_bound (length l / 2) 8 ltac:(lia)).
      pose proof (Nat.div_mod_eq (length l) 2). pose proof (Nat.mod_upper_bound (length l) 2 ltac:(lia)). lia. }
    f_equal; apply IH; rewrite ?firstn_length, ?skipn_length; lia.
Qed.

Lemma adds_R (l : list R) s : adds l s -> s = fold_right Rplus 0%R l.
Proof.
  induction 1 as [|x|l1 l2 l s1 s2 _ IH1 _ IH2 P]; cbn; [reflexivity|lra|].
  assert (PP : forall l l', Permutation l l' -> fold_right Rplus 0%R l = fold_right Rplus 0%R l').
  { induction 1; cbn; lra. }
  rewrite <- (PP _ _ P), fold_right_app, IH1, IH2. clear.
  induction l1 as [|x l1 IH]; cbn; lra.
Qed.
