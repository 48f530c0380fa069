(** C29, C30, C33 (seeds): which slices are done, in which chunks, with which
    seeds. *)
From Coq Require Import ZArith Bool String Ascii Lia List Permutation Sorted.
From Verif Require Import Lib.Base Lib.PyStr Model.SliceRange Model.Jobs Spec.RunSpec
  Proofs.BaseFacts Proofs.PyStrProofs Proofs.JobsProofs.
Import ListNotations.
Open Scope list_scope.
Open Scope Z_scope.

(** ** C29: slice ranges are validated *)

(** [forward] excludes ranges with a negative step. *)
Theorem C29_only_valid_slices :
  forall arg num l, 0 <= num -> forward arg -> slices_of arg num = Ok l ->
  (forall i, In i l -> 0 <= i < num) /\ StronglySorted Z.lt l.
Proof. exact only_valid_slices. Qed.

Theorem C29_none_means_all :
  forall num, slices_of SNone num = Ok (zrange 0 num).
Proof. intros num. unfold slices_of. cbn [extract_slice_range bind]. now rewrite range_list_default. Qed.

(** "start:end" strings, with any white space around the numbers. *)
Theorem C29_string :
  forall a b num w1 w2 w3 w4,
  all_chars is_space w1 = true -> all_chars is_space w2 = true ->
  all_chars is_space w3 = true -> all_chars is_space w4 = true ->
  slices_of (SStr ((w1 ++ dec a ++ w2) ++ String ":" (w3 ++ dec b ++ w4)))%string num =
  if (0 <=? a) && (b <=? num) then Ok (zrange a b) else Raise ValueError.
Proof.
  intros a b num w1 w2 w3 w4 H1 H2 H3 H4. unfold slices_of, extract_slice_range.
  assert (SP : forall c, is_space c = true -> negb (Ascii.eqb c ":") = true).
  { intros c Hc. destruct (Ascii.eqb_spec c ":") as [->|]; [discriminate|reflexivity]. }
  assert (DC : forall c, dec_char c = true -> negb (Ascii.eqb c ":") = true).
  { apply dec_char_not. reflexivity. }
  assert (CL : forall u v z, all_chars is_space u = true -> all_chars is_space v = true ->
    all_chars (fun c => negb (Ascii.eqb c ":")) (u ++ dec z ++ v)%string = true).
  { intros u v z Hu Hv. rewrite !all_chars_app.
    rewrite (all_chars_impl _ _ u SP Hu), (all_chars_impl _ _ v SP Hv).
    rewrite (all_chars_impl _ _ _ DC (dec_chars z)). reflexivity. }
  rewrite split_on_app by auto. rewrite split_on_none by auto.
  rewrite py_int_dec by auto. cbn [bind]. rewrite py_int_dec by auto. cbn [bind].
  unfold check_range. cbn [rg_start rg_stop].
  destruct (Z.ltb_spec a 0); destruct (Z.leb_spec 0 a); try lia;
  destruct (Z.ltb_spec num b); destruct (Z.leb_spec b num); try lia; cbn [orb andb bind]; try reflexivity.
  now rewrite range_list_default.
Qed.

(** Other strings: the wrong number of colons, or a part that is not a
    number. *)
Theorem C29_bad_string :
  forall s num, (forall x y, s <> (x ++ String ":" y)%string \/
       all_chars (fun c => negb (Ascii.eqb c ":")) x = false \/
       all_chars (fun c => negb (Ascii.eqb c ":")) y = false) ->
  slices_of (SStr s) num = Raise AssertionError.
Proof.
  intros s num H. unfold slices_of, extract_slice_range.
  destruct (split_on ":" s) as [|a [|b [|c t]]] eqn:E; try reflexivity.
  exfalso. pose proof (split_on_two _ _ _ _ E) as K.
  pose proof (split_on_parts ":" s a) as A. pose proof (split_on_parts ":" s b) as B. rewrite E in A, B.
  specialize (A (or_introl eq_refl)). specialize (B (or_intror (or_introl eq_refl))).
  destruct (H a b) as [L|[L|L]]; congruence.
Qed.

Theorem C29_not_a_number :
  forall a b num, all_chars (fun c => negb (Ascii.eqb c ":")) a = true ->
  all_chars (fun c => negb (Ascii.eqb c ":")) b = true ->
  (py_int a = Raise ValueError \/ py_int b = Raise ValueError) ->
  slices_of (SStr (a ++ String ":" b)) num = Raise ValueError.
Proof.
  intros a b num Ha Hb H. unfold slices_of, extract_slice_range.
  rewrite split_on_app by auto. rewrite split_on_none by auto.
  destruct (py_int a) as [x|e] eqn:EA; [destruct (py_int b) as [y|e] eqn:EB|]; cbn [bind].
  - destruct H; discriminate.
  - now rewrite (py_int_raise _ _ EB).
  - now rewrite (py_int_raise _ _ EA).
Qed.

Theorem C29_range :
  forall r num, range_len r <= maxsize ->
  slices_of (SRange r) num =
  if (0 <=? rg_start r) && (rg_stop r <=? num) then Ok (range_list r) else Raise ValueError.
Proof.
  intros r num H. unfold slices_of, extract_slice_range.
  rewrite (proj2 (Z.ltb_ge _ _) H). unfold check_range.
  destruct (Z.ltb_spec (rg_start r) 0); destruct (Z.leb_spec 0 (rg_start r)); try lia;
  destruct (Z.ltb_spec num (rg_stop r)); destruct (Z.leb_spec (rg_stop r) num); try lia; reflexivity.
Qed.

(** C29: a range is counted as Python does: from its start in steps, as long as the stop is
    not reached. The indices of an accepted range are these. *)
Theorem C29_range_members :
  forall r num l, rg_step r <> 0 -> slices_of (SRange r) num = Ok l ->
  (forall k i, nth_error l k = Some i <->
     i = rg_start r + Z.of_nat k * rg_step r /\
     (0 < rg_step r -> i < rg_stop r) /\ (rg_step r < 0 -> rg_stop r < i)) /\
  0 <= rg_start r /\ rg_stop r <= num /\ Z.of_nat (length l) <= 2 ^ 63 - 1.
Proof.
  change (2 ^ 63 - 1) with maxsize. intros r num l H0 H. unfold slices_of, extract_slice_range in H.
  destruct (Z.ltb_spec maxsize (range_len r)) as [|Hm]; [discriminate H|].
  unfold check_range in H. destruct (Z.ltb_spec (rg_start r) 0) as [|Hs]; [discriminate H|].
  destruct (Z.ltb_spec num (rg_stop r)) as [|He]; [discriminate H|]. cbn [orb bind] in H. injection H as <-.
  assert (L0 : 0 <= range_len r) by (unfold range_len; destruct (0 <? rg_step r); lia).
  assert (L : length (range_list r) = Z.to_nat (range_len r)).
  { unfold range_list, zrange. rewrite !map_length, seq_length. f_equal. lia. }
  assert (K : forall k : Z, 0 <= k -> (k < range_len r <->
     (0 < rg_step r -> rg_start r + k * rg_step r < rg_stop r) /\
     (rg_step r < 0 -> rg_stop r < rg_start r + k * rg_step r))).
  { intros k Hk. unfold range_len. destruct (Z.ltb_spec 0 (rg_step r)) as [P|P].
    - set (s := rg_step r) in *. set (d := rg_stop r - rg_start r) in *.
      pose proof (Z.div_mod (d + s - 1) s ltac:(lia)) as D. pose proof (Z.mod_pos_bound (d + s - 1) s ltac:(lia)) as M.
      unfold d in *. split; [intros Q; split; intros; [|lia]|intros [Q _]; specialize (Q P)]; nia.
    - assert (Pn : rg_step r < 0) by lia. set (s := - rg_step r) in *.
      replace (rg_start r - rg_stop r - rg_step r - 1) with (rg_start r - rg_stop r + s - 1) by (unfold s; lia).
      replace (rg_step r) with (- s) by (unfold s; lia).
      pose proof (Z.div_mod (rg_start r - rg_stop r + s - 1) s ltac:(lia)) as D.
      pose proof (Z.mod_pos_bound (rg_start r - rg_stop r + s - 1) s ltac:(lia)) as M.
      assert (Ps : 0 < s) by (unfold s; lia).
      split; [intros Q; split; intros; [lia|]|intros [_ Q]; specialize (Q ltac:(lia))]; nia. }
  split; [|repeat split; try assumption; rewrite L; lia].
  intros k i.
  assert (N : nth_error (range_list r) k = if Z.of_nat k <? range_len r then Some (rg_start r + Z.of_nat k * rg_step r) else None).
  { destruct (Z.ltb_spec (Z.of_nat k) (range_len r)) as [Hk|Hk].
    - unfold range_list. apply map_nth_error with (f := fun k => rg_start r + k * rg_step r) (d := Z.of_nat k).
      rewrite nth_error_zrange by lia. f_equal; lia.
    - apply nth_error_None. lia. }
  rewrite N. specialize (K (Z.of_nat k) ltac:(lia)).
  destruct (Z.ltb_spec (Z.of_nat k) (range_len r)) as [Hk|Hk].
  - apply K in Hk. split; [intros E; injection E as <-; tauto|intros (-> & _); reflexivity].
  - split; [discriminate|]. intros (-> & Q). apply K in Q. lia.
Qed.

(** C29: a range that is too long for [len] is refused. *)
Theorem C29_range_too_long :
  forall r num, rg_step r <> 0 ->
  (0 < rg_step r -> rg_start r + (2 ^ 63 - 1) * rg_step r < rg_stop r) ->
  (rg_step r < 0 -> rg_stop r < rg_start r + (2 ^ 63 - 1) * rg_step r) ->
  slices_of (SRange r) num = Raise OverflowError.
Proof.
  change (2 ^ 63 - 1) with maxsize. intros r num H0 Hp Hn. unfold slices_of, extract_slice_range.
  assert (M : maxsize < range_len r).
  { unfold range_len. destruct (Z.ltb_spec 0 (rg_step r)) as [P|P].
    - specialize (Hp P). apply Z.lt_le_trans with ((rg_stop r - rg_start r + rg_step r - 1) / rg_step r); [|lia].
      apply Z.le_succ_l. apply Z.div_le_lower_bound; lia.
    - specialize (Hn ltac:(lia)).
      apply Z.lt_le_trans with ((rg_start r - rg_stop r - rg_step r - 1) / (- rg_step r)); [|lia].
      apply Z.le_succ_l. apply Z.div_le_lower_bound; lia. }
  now rewrite (proj2 (Z.ltb_lt _ _) M).
Qed.

Theorem C29_others :
  forall l num, slices_of (SSized l) num = Raise AttributeError /\ slices_of SOther num = Raise ValueError.
Proof. intros. split; reflexivity. Qed.

(** The hypothesis on the step is needed: counting down, a range can leave
    the valid indices at both ends. *)
Theorem C29_negative_step_refuted :
  ~ (forall arg num l, 0 <= num -> slices_of arg num = Ok l -> forall i, In i l -> 0 <= i < num).
Proof.
  intros H.
  specialize (H (SRange (mk_range 2 (-3) (-1))) 5 [2; 1; 0; -1; -2] ltac:(lia) eq_refl (-1)
                ltac:(cbn; tauto)). lia.
Qed.

Theorem C29_negative_step_past_the_end :
  exists arg num l i, slices_of arg num = Ok l /\ In i l /\ num <= i.
Proof. exists (SRange (mk_range 7 (-1) (-3))), 5, [7; 4; 1], 7. cbn. repeat split; auto. lia. Qed.

Example C29_ex :
  slices_of (SStr " 3: 6 ") 6 = Ok [3; 4; 5] /\ slices_of (SStr "3:7") 6 = Raise ValueError /\
  slices_of (SStr "3:4:5") 6 = Raise AssertionError /\ slices_of (SStr "x:4") 6 = Raise ValueError /\
  slices_of (SRange (mk_range 0 6 2)) 6 = Ok [0; 2; 4] /\
  slices_of (SStr "-1:4") 6 = Raise ValueError /\ slices_of (SStr "4:2") 6 = Ok [].
Proof. repeat split. Qed.

Example C29_range_ex :
  slices_of (SRange (mk_range 1 6 2)) 6 = Ok [1; 3; 5] /\ slices_of (SRange (mk_range 3 0 (-2))) 6 = Ok [3; 1] /\
  slices_of (SRange (mk_range 0 (2 ^ 65) 2)) 6 = Raise OverflowError.
Proof. repeat split. Qed.

(** ** C30: chunks partition the slices *)

(** [seeds] has one seed for every slice of the tile. *)
Theorem C30_partition :
  forall slices seeds n_chunks, 1 <= n_chunks ->
  (forall i, In i slices -> 0 <= i < Z.of_nat (length seeds)) ->
  exists chunks, make_jobs slices seeds n_chunks = Ok chunks /\
    Z.of_nat (length chunks) = n_chunks /\
    map fst (concat chunks) = slices /\
    (forall i s, In (i, s) (concat chunks) -> nth_error seeds (Z.to_nat i) = Some s) /\
    (forall c, In c chunks -> (Z.of_nat (length c) - 1) * n_chunks < Z.of_nat (length slices)).
Proof.
  intros slices seeds nc Hc Hin. destruct (make_jobs_spec _ _ _ Hc Hin) as (ch & A & B & C & D).
  exists ch. split; [exact A|]. split; [exact B|]. rewrite C. split; [|split; [|exact D]].
  - rewrite map_map. cbn [fst]. apply map_id.
  - intros i s H. apply in_map_iff in H. destruct H as (j & H & Hj). injection H as -> <-.
    apply nth_error_nth'. apply Hin in Hj. lia.
Qed.

(** Slices are in at most one chunk and at most once. *)
Theorem C30_disjoint :
  forall slices seeds n_chunks chunks, 1 <= n_chunks ->
  (forall i, In i slices -> 0 <= i < Z.of_nat (length seeds)) -> NoDup slices ->
  make_jobs slices seeds n_chunks = Ok chunks ->
  NoDup (map fst (concat chunks)) /\
  forall a b c1 c2 i, nth_error chunks a = Some c1 -> nth_error chunks b = Some c2 ->
    In i (map fst c1) -> In i (map fst c2) -> a = b.
Proof.
  intros slices seeds nc chunks Hc Hin HN H.
  destruct (C30_partition slices seeds nc Hc Hin) as (ch & A & _ & C & _). rewrite A in H. injection H as <-.
  rewrite C. split; [exact HN|]. rewrite <- C in HN. clear - HN. revert HN.
  induction ch as [|c l IH]; intros HN a b c1 c2 i Ha Hb I1 I2; [destruct a; discriminate|].
  cbn [concat] in HN. rewrite map_app in HN.
  assert (HNl : NoDup (map fst (concat l))).
  { clear - HN. induction (map fst c); cbn [app] in HN; auto. apply NoDup_cons_iff in HN. tauto. }
  assert (X : forall j k, In j (map fst c) -> forall m, nth_error l m = Some k -> In j (map fst k) -> False).
  { intros j k J1 m Hm J2.
    assert (J3 : In j (map fst (concat l))).
    { apply in_map_iff in J2. destruct J2 as (x & <- & J2). apply in_map. apply in_concat.
      exists k. split; auto. eapply nth_error_In; eauto. }
    clear - HN J1 J3. induction (map fst c) as [|y t IH]; [contradiction|].
    cbn [app] in HN. apply NoDup_cons_iff in HN. destruct HN as [N1 N2].
    destruct J1 as [<-|J1]; [apply N1; apply in_or_app; auto|auto]. }
  destruct a as [|a]; destruct b as [|b]; cbn [nth_error] in Ha, Hb.
  - reflexivity.
  - injection Ha as <-. exfalso. exact (X i c2 I1 b Hb I2).
  - injection Hb as <-. exfalso. exact (X i c1 I2 a Ha I1).
  - f_equal. apply (IH HNl a b c1 c2 i); auto.
Qed.

(** n_chunks of 0 is an error; with a negative n_chunks no slice is given to
    any worker. *)
Theorem C30_bad_n_chunks :
  forall slices seeds n_chunks,
  (n_chunks = 0 -> make_jobs slices seeds n_chunks = Raise ZeroDivisionError) /\
  (n_chunks < 0 -> make_jobs slices seeds n_chunks = Ok []).
Proof.
  intros. split; [intros ->; apply make_jobs_zero|apply make_jobs_neg].
Qed.

Example C30_ex :
  make_jobs [4; 1; 3; 0; 2] [10; 11; 12; 13; 14] 2 = Ok [[(4, 14); (1, 11); (3, 13)]; [(0, 10); (2, 12)]] /\
  make_jobs [1; 0] [10; 11] 4 = Ok [[(1, 11)]; [(0, 10)]; []; []].
Proof. split; reflexivity. Qed.

(** ** C33: seeds *)

(** A run does each slice that was asked for exactly once, with the seed that
    belongs to its index: the seed is number [i] of the draws made from the
    run seed. Neither the slices asked for nor the order, the number of jobs
    or the number of chunks matter. The single-epoch images get the draws that
    follow. *)
Theorem C33_seed_is_the_ith_draw :
  forall rng init randint order arg num seed nsrc n_extra n_jobs n_chunks l p ss,
  (forall k, Permutation k (order k)) -> 0 <= num -> forward arg ->
  slices_of arg num = Ok l ->
  (1 < n_jobs -> 1 <= match n_chunks with None => n_jobs | Some k => k end) ->
  make_plan rng init randint order arg num seed nsrc n_extra n_jobs n_chunks = Ok (p, ss) ->
  let draws := randints rng randint (Z.to_nat num) (init seed) 1 (2 ^ 32 - 1) in
  Permutation l (map fst (plan_items p)) /\
  (forall i s, In (i, s) (plan_items p) -> nth_error (fst draws) (Z.to_nat i) = Some s) /\
  ss = fst (draw_src_seeds rng randint (Z.to_nat nsrc) n_extra (snd draws)).
Proof.
  intros rng init randint order arg num seed nsrc n_extra n_jobs n_chunks l p ss Hord Hn Hf Hl Hc H draws.
  destruct (C29_only_valid_slices arg num l Hn Hf Hl) as [Hin _].
  destruct (make_plan_spec rng init randint order arg num seed nsrc n_extra n_jobs n_chunks l Hord Hl Hin Hc)
    as (q & A & B & _). rewrite A in H. injection H as <- <-.
  pose proof (all_seeds_length rng init randint seed num nsrc n_extra) as LEN.
  assert (FS : fst (all_seeds rng init randint seed num nsrc n_extra) = fst draws /\
    snd (all_seeds rng init randint seed num nsrc n_extra) =
    fst (draw_src_seeds rng randint (Z.to_nat nsrc) n_extra (snd draws))).
  { unfold all_seeds. fold draws. destruct draws as [sds g]. cbn [fst snd].
    destruct (draw_src_seeds rng randint (Z.to_nat nsrc) n_extra g). split; reflexivity. }
  destruct FS as [F1 F2]. rewrite F1 in *. rewrite B. split; [|split; [|exact F2]].
  - rewrite map_map. cbn [fst]. rewrite map_id. apply Hord.
  - intros i s I. apply in_map_iff in I. destruct I as (j & E & Ij). injection E as -> <-.
    apply (Permutation_in _ (Permutation_sym (Hord l))) in Ij. apply Hin in Ij.
    apply nth_error_nth'. lia.
Qed.

Theorem C33_same_seeds :
  forall rng init randint num seed nsrc n_extra
    order1 arg1 n_jobs1 n_chunks1 l1 p1 ss1 order2 arg2 n_jobs2 n_chunks2 l2 p2 ss2,
  (forall k, Permutation k (order1 k)) -> (forall k, Permutation k (order2 k)) -> 0 <= num ->
  forward arg1 -> forward arg2 -> slices_of arg1 num = Ok l1 -> slices_of arg2 num = Ok l2 ->
  (1 < n_jobs1 -> 1 <= match n_chunks1 with None => n_jobs1 | Some k => k end) ->
  (1 < n_jobs2 -> 1 <= match n_chunks2 with None => n_jobs2 | Some k => k end) ->
  make_plan rng init randint order1 arg1 num seed nsrc n_extra n_jobs1 n_chunks1 = Ok (p1, ss1) ->
  make_plan rng init randint order2 arg2 num seed nsrc n_extra n_jobs2 n_chunks2 = Ok (p2, ss2) ->
  ss1 = ss2 /\
  forall i s1 s2, In (i, s1) (plan_items p1) -> In (i, s2) (plan_items p2) -> s1 = s2.
Proof.
  intros. 
  destruct (C33_seed_is_the_ith_draw rng init randint order1 arg1 num seed nsrc n_extra n_jobs1 n_chunks1 l1 p1 ss1)
    as (_ & A1 & B1); auto.
  destruct (C33_seed_is_the_ith_draw rng init randint order2 arg2 num seed nsrc n_extra n_jobs2 n_chunks2 l2 p2 ss2)
    as (_ & A2 & B2); auto.
  split; [congruence|]. intros i s1 s2 I1 I2. apply A1 in I1. apply A2 in I2. congruence.
Qed.

(** A run always has a plan. *)
Theorem C33_plan_exists :
  forall rng init randint order arg num seed nsrc n_extra n_jobs n_chunks l,
  (forall k, Permutation k (order k)) -> 0 <= num -> forward arg -> slices_of arg num = Ok l ->
  (1 < n_jobs -> 1 <= match n_chunks with None => n_jobs | Some k => k end) ->
  exists p ss, make_plan rng init randint order arg num seed nsrc n_extra n_jobs n_chunks = Ok (p, ss) /\
    match p with
    | Serial _ => n_jobs <= 1
    | Parallel n k chunks => n = n_jobs /\ 1 < n_jobs /\ k = length (concat chunks)
    end.
Proof.
  intros rng init randint order arg num seed nsrc n_extra n_jobs n_chunks l Hord Hn Hf Hl Hc.
  destruct (C29_only_valid_slices arg num l Hn Hf Hl) as [Hin _].
  destruct (make_plan_spec rng init randint order arg num seed nsrc n_extra n_jobs n_chunks l Hord Hl Hin Hc)
    as (q & A & _ & D).
  exists q. eexists. split; [exact A|]. destruct D as [(t & -> & D)|(c & -> & D)]; auto.
Qed.

(** A generator: the state counts up. Three slices of five, in two chunks,
    and all five one after the other. *)
Definition ctr (g lo hi : Z) : Z * Z := (g, g + 1).

Example C33_ex :
  make_plan Z (fun s => s) ctr (@rev Z) (SStr "1:4") 5 100 2 1 2 None =
    Ok (Parallel 2 3 [[(3, 103); (2, 102)]; [(1, 101)]], [([105; 106], 107); ([108; 109], 110)]) /\
  make_plan Z (fun s => s) ctr (fun l => l) SNone 5 100 2 1 1 None =
    Ok (Serial [(0, 100); (1, 101); (2, 102); (3, 103); (4, 104)], [([105; 106], 107); ([108; 109], 110)]).
Proof. split; reflexivity. Qed.

Print Assumptions C29_only_valid_slices.
Print Assumptions C29_string.
Print Assumptions C29_bad_string.
Print Assumptions C29_not_a_number.
Print Assumptions C29_range.
Print Assumptions C29_others.
Print Assumptions C29_negative_step_refuted.
Print Assumptions C29_negative_step_past_the_end.
Print Assumptions C30_partition.
Print Assumptions C30_disjoint.
Print Assumptions C30_bad_n_chunks.
Print Assumptions C33_seed_is_the_ith_draw.
Print Assumptions C33_same_seeds.
Print Assumptions C33_plan_exists.
Print Assumptions C29_range_members.
Print Assumptions C29_range_too_long.
