(** Proofs about the seeds of a run. *)
From Coq Require Import ZArith List Bool Lia.
From Verif Require Import Lib.Base Model.Jobs Spec.SeedSpec.
Import ListNotations.
Open Scope Z_scope.

Section P.
Variable rng : Type.
Variable init : Z -> rng.
Variable randint : rng -> Z -> Z -> Z * rng.
Notation draws := (draws rng randint).
Notation randints := (randints rng randint).
Notation draw_src_seeds := (draw_src_seeds rng randint).

Lemma randints_spec low high : forall n g bounds,
  length (fst (randints n g low high)) = n /\
  draws g (repeat (low, high) n ++ bounds) = fst (randints n g low high) ++ draws (snd (randints n g low high)) bounds.
Proof.
  induction n as [|n IH]; intros g bounds; [split; reflexivity|]. cbn [Jobs.randints repeat app SeedSpec.draws].
  destruct (randint g low high) as [x g1]. cbn [fst snd]. specialize (IH g1 bounds).
  destruct (randints n g1 low high) as [xs g2]. cbn [fst snd] in *. destruct IH as [L D]. split; [cbn; lia|].
  rewrite D. reflexivity.
Qed.

Lemma src_seeds_spec n_extra : forall nsrc g,
  length (fst (draw_src_seeds nsrc n_extra g)) = nsrc /\
  Forall (fun s => length (fst s) = Z.to_nat (n_extra + 1)) (fst (draw_src_seeds nsrc n_extra g)) /\
  draws g (concat (repeat (repeat (1, 2 ^ 30) (Z.to_nat (n_extra + 1)) ++ [(1, 2 ^ 30)]) nsrc))
  = concat (map (fun s => fst s ++ [snd s]) (fst (draw_src_seeds nsrc n_extra g))).
Proof.
  induction nsrc as [|n IH]; intros g; [repeat split; constructor|].
  cbn [Jobs.draw_src_seeds repeat concat]. rewrite <- app_assoc.
  destruct (randints_spec 1 (2 ^ 30) (Z.to_nat (n_extra + 1)) g
    ([(1, 2 ^ 30)] ++ concat (repeat (repeat (1, 2 ^ 30) (Z.to_nat (n_extra + 1)) ++ [(1, 2 ^ 30)]) n))) as [L D].
  rewrite D. destruct (randints (Z.to_nat (n_extra + 1)) g 1 (2 ^ 30)) as [ns g1]. cbn [fst snd app SeedSpec.draws] in *.
  destruct (randint g1 1 (2 ^ 30)) as [m g2]. cbn [fst snd]. specialize (IH g2).
  destruct (draw_src_seeds n n_extra g2) as [rest g3]. cbn [fst snd] in *. destruct IH as (L' & FA & D').
  split; [cbn; lia|]. split; [constructor; [exact L|exact FA]|].
  cbn [map concat fst snd]. rewrite D', <- app_assoc. reflexivity.
Qed.

Lemma all_seeds_spec seed num nsrc n_extra :
  let '(slices, images) := all_seeds rng init randint seed num nsrc n_extra in
  length slices = Z.to_nat num /\ length images = Z.to_nat nsrc /\
  Forall (fun s => length (fst s) = Z.to_nat (n_extra + 1)) images /\
  slices ++ concat (map (fun s => fst s ++ [snd s]) images)
  = draws (init seed) (seed_bounds (Z.to_nat num) (Z.to_nat nsrc) (Z.to_nat (n_extra + 1))).
Proof.
  unfold all_seeds, seed_bounds.
  destruct (randints_spec 1 (2 ^ 32 - 1) (Z.to_nat num) (init seed)
    (concat (repeat (repeat (1, 2 ^ 30) (Z.to_nat (n_extra + 1)) ++ [(1, 2 ^ 30)]) (Z.to_nat nsrc)))) as [L D].
  rewrite D. destruct (randints (Z.to_nat num) (init seed) 1 (2 ^ 32 - 1)) as [xs g]. cbn [fst snd] in *.
  destruct (src_seeds_spec n_extra (Z.to_nat nsrc) g) as (L' & FA & D'). rewrite D'.
  destruct (draw_src_seeds (Z.to_nat nsrc) n_extra g) as [ss g']. cbn [fst] in *. repeat split; assumption.
Qed.

Lemma draws_in_range : (forall g low high, low < high -> low <= fst (randint g low high) < high) ->
  forall bounds g, Forall (fun b => fst b < snd b) bounds ->
  Forall2 (fun b x => fst b <= x < snd b) bounds (draws g bounds).
Proof.
  intros H. induction bounds as [|[l h] bounds IH]; intros g Hb; [constructor|]. inversion Hb; subst.
  cbn [SeedSpec.draws]. constructor; [apply H; assumption|]. apply IH. assumption.
Qed.

Lemma src_seeds_prefix n_extra : forall n k g, firstn n (fst (draw_src_seeds (n + k) n_extra g)) = fst (draw_src_seeds n n_extra g).
Proof.
  induction n as [|n IH]; intros k g; [reflexivity|]. cbn [Nat.add Jobs.draw_src_seeds].
  destruct (randints _ g 1 (2 ^ 30)) as [ns g1]. destruct (randint g1 1 (2 ^ 30)) as [m g2]. specialize (IH k g2).
  destruct (draw_src_seeds (n + k) n_extra g2) as [r g3]. destruct (draw_src_seeds n n_extra g2) as [r' g3'].
  cbn [fst firstn] in *. rewrite IH. reflexivity.
Qed.
End P.
