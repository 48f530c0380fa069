(** The layout of the tape bump table. *)
From Coq Require Import ZArith List Bool Lia.
From Verif Require Import Lib.Base Model.TapeBumps Spec.SeImageSpec.
Import ListNotations.
Open Scope Z_scope.

Definition at_left (b : bump) : bool := (col1 b =? 1) && (100 <? col2 b) && (col2 b <? 220).
Definition at_right (b : bump) : bool := (col2 b =? 2048) && (1840 <? col1 b) && (col1 b <? 1940).
Definition at_bottom (b : bump) : bool := (row1 b =? 1) && (80 <? row2 b) && (row2 b <? 200).
Definition at_top (b : bump) : bool := (row2 b =? 4096) && (3900 <? row1 b) && (row1 b <? 4020).
Definition at_middle (b : bump) : bool := (1790 <? row1 b) && (row1 b + 70 <? row2 b) && (row2 b <? 2330).

Definition only (p : bump -> bool) (l : list bump) : bool :=
  match filter p l with [_] => true | _ => false end.

Definition both (p q : bump -> bool) (b : bump) : bool := p b && q b.

Definition layout_ok (l : list bump) : bool :=
  Nat.eqb (length l) 6 &&
  forallb (fun b => (at_left b || at_right b) && (at_bottom b || at_middle b || at_top b) && (bflag b =? 2 ^ 14)) l &&
  only (both at_left at_bottom) l && only (both at_left at_middle) l && only (both at_left at_top) l &&
  only (both at_right at_bottom) l && only (both at_right at_middle) l && only (both at_right at_top) l.

Lemma table_ok : forallb (fun e => layout_ok (snd e)) tape_bumps = true.
Proof. vm_compute. reflexivity. Qed.

Lemma only_one p l : only p l = true -> exists b, In b l /\ p b = true /\ forall b', In b' l -> p b' = true -> b' = b.
Proof.
  unfold only. intros H. destruct (filter p l) as [|b [|b2 t]] eqn:E; try discriminate.
  exists b. assert (I : In b (filter p l)) by (rewrite E; now left). apply filter_In in I as [I P].
  split; [exact I|]. split; [exact P|]. intros b' I' P'.
  assert (I2 : In b' (filter p l)) by now apply filter_In. rewrite E in I2. destruct I2 as [->|[]]. reflexivity.
Qed.

Lemma layout_of ccd bumps : In (ccd, bumps) tape_bumps -> layout_ok bumps = true.
Proof. intros H. pose proof table_ok as T. rewrite forallb_forall in T. exact (T _ H). Qed.
