(* C11, C92: random numbers. *)
From Coq Require Import ZArith List Lia Bool ZifyBool.
Import ListNotations.
From Verif Require Import Base NumModel RandModel RandSpec RandProofs RandProofs2.
Local Open Scope Z_scope.
Ltac Zify.zify_post_hook ::= idtac.

(* the states of a generator: made from a seed or from entropy, changed by any sequence of calls *)
Inductive reachable : rng -> Prop :=
| r_seed : forall seed, reachable (rng_init_seed seed)
| r_entropy : forall a b c d, reachable (rng_init a b c d)
| r_integer : forall fuel r a b out r', reachable r -> (forall x, a = Some x -> is_int64 x) -> (forall x, b = Some x -> is_int64 x) ->
    rand_integer fuel r a b = Some (out, r') -> reachable r'
| r_float : forall r, reachable r -> reachable (snd (rand_float r)).

Lemma reachable_wf : forall r, reachable r -> rwf r.
Proof.
  intros r H. induction H as [seed | a b c d | fuel r a b out r' H IH A B E | r H IH].
  - apply seed_wf.
  - split; apply pcg_init_wf.
  - destruct a as [a |], b as [b |].
    + destruct (Z.le_gt_cases a b) as [L | L].
      * destruct (integer_result fuel r a b out r' IH (A _ eq_refl) (B _ eq_refl) L E) as (? & ? & _ & _ & W & _). exact W.
      * unfold rand_integer in E. destruct (Z.ltb_spec b a); [| lia]. assert (r' = r) as -> by congruence. exact IH.
    + cbn [rand_integer] in E. assert (r' = r) as -> by congruence. exact IH.
    + cbn [rand_integer] in E. assert (r' = r) as -> by congruence. exact IH.
    + cbn [rand_integer] in E. rewrite rng_pair' in E by exact IH. assert (r' = (pnext (fst r), pnext (snd r))) as -> by congruence.
      apply rwf_next. exact IH.
  - rewrite float_result by exact IH. cbn [snd]. rewrite rng_pair' by exact IH. apply rwf_next. exact IH.
Qed.

(* C11: integer(min, max) returns after finitely many rounds a value from min to max (both included), for every generator *)
Theorem integer_in_range : forall r mn mx, reachable r -> is_int64 mn -> is_int64 mx -> mn <= mx ->
  exists fuel v o r', rand_integer fuel r (Some mn) (Some mx) = Some (IVal v o, r') /\ mn <= v <= mx /\
    forall k, rand_integer (fuel + k) r (Some mn) (Some mx) = Some (IVal v o, r').
Proof.
  intros r mn mx H A B L. apply reachable_wf in H. destruct (integer_ends r mn mx H A B L) as (fuel & [out r'] & E).
  destruct (integer_result _ _ _ _ _ _ H A B L E) as (v & o & -> & R & _). exists fuel, v, o, r'. split; [exact E |]. split; [exact R |].
  intros k. revert E. unfold rand_integer. destruct (mx <? mn); [trivial |]. destruct (mn =? mx); [trivial |].
  destruct (random_range fuel r (u64 (mx - mn))) as [x |] eqn:Q; [| discriminate]. rewrite (range_mono _ k _ _ _ Q). trivial.
Qed.
Example integer_in_range_ex :
  exists r0 r1 r2, rand_integer 1 (rng_init_seed 100) None None = Some (IVal (-6290439670372981674) false, r0) /\
    rand_integer 9 r0 (Some 0) (Some 1) = Some (IVal 0 false, r1) /\
    rand_integer 9 r1 (Some (-10)) (Some 10) = Some (IVal (-10) false, r2) /\
    rand_integer 9 r1 (Some 3) (Some 3) = Some (IVal 3 false, r1).
Proof.
  do 3 eexists. split; [vm_compute; reflexivity |]. split; [vm_compute; reflexivity |]. split; [vm_compute; reflexivity |]. vm_compute. reflexivity.
Qed.

(* C11: without arguments the value is any 64-bit integer *)
Theorem integer_full_range : forall fuel r, reachable r -> exists v r', rand_integer fuel r None None = Some (IVal v false, r') /\ is_int64 v.
Proof.
  intros fuel r H. cbn [rand_integer]. destruct (rng_random r) as [x r'] eqn:E. exists (s64 x), r'. split; [reflexivity |].
  unfold is_int64, INT64_MIN, INT64_MAX, s64, swrap. change (2 ^ (64 - 1)) with 9223372036854775808.
  change (2 ^ 63) with 9223372036854775808. change (2 ^ 64) with 18446744073709551616.
  pose proof (Z.mod_pos_bound x 18446744073709551616 ltac:(lia)). destruct (_ <? _) eqn:?; lia.
Qed.
Example integer_full_range_ex :
  exists r1 r2, rand_integer 0 (rng_init_seed 42) None None = Some (IVal 1635777524337070674 false, r1) /\
    rand_integer 0 r1 None None = Some (IVal (-840108032361638058) false, r2).
Proof. do 2 eexists. split; [vm_compute; reflexivity |]. vm_compute. reflexivity. Qed.

(* C11: the exceptions, which leave the generator as it was *)
Theorem integer_rejects : forall fuel r a b, (exists r', rand_integer fuel r a b = Some (IExn, r')) <->
  (a = None /\ b <> None) \/ (a <> None /\ b = None) \/ (exists x y, a = Some x /\ b = Some y /\ y < x).
Proof.
  intros fuel r a b. split.
  - intros [r' H]. destruct a as [a |], b as [b |].
    + right. right. exists a, b. split; [reflexivity |]. split; [reflexivity |]. unfold rand_integer in H.
      destruct (Z.ltb_spec b a); [assumption |]. destruct (a =? b); [discriminate |].
      destruct (random_range fuel r (u64 (b - a))) as [[x r1] |]; discriminate.
    + right. left. split; [discriminate | reflexivity].
    + left. split; [reflexivity | discriminate].
    + exfalso. cbn [rand_integer] in H. destruct (rng_random r). discriminate.
  - intros [[-> B] | [[A ->] | (x & y & -> & -> & L)]].
    + destruct b; [| contradiction]. exists r. reflexivity.
    + destruct a; [| contradiction]. exists r. reflexivity.
    + exists r. unfold rand_integer. destruct (Z.ltb_spec y x); [reflexivity | lia].
Qed.
Example integer_rejects_ex : forall r, rand_integer 5 r (Some 2) (Some 1) = Some (IExn, r).
Proof. intros r. reflexivity. Qed.

(* C11: no bias: the raw numbers which are not thrown away are split evenly between the results *)
Theorem range_unbiased : forall mask, (0 < mask < 2 ^ 32 -> evenly_split (2 ^ 32) mask (accept 32 mask)) /\
  (0 < mask < 2 ^ 64 -> evenly_split (2 ^ 64) mask (accept 64 mask)).
Proof. intros mask. split; intros M; apply accept_even; lia. Qed.
Example range_unbiased_ex : map (accept 4 6) [0; 1; 2; 3; 4; 5; 6; 7; 8; 9; 10; 11; 12; 13; 14; 15] =
  [None; None; None; None; Some 4; Some 5; Some 0; Some 1; Some 2; Some 3; Some 4; Some 5; Some 0; Some 1; Some 2; Some 3].
Proof. reflexivity. Qed.

(* C11: over the period, the raw numbers of one generator are spread evenly over the 32-bit integers *)
Theorem outputs_unbiased : forall stream, evenly_split (2 ^ 64) (2 ^ 32) (fun s => Some (fst (pcg_random (mkpcg s stream)))).
Proof. intros stream. apply pout_even. Qed.
Example outputs_unbiased_ex : fst (pcg_random (mkpcg 576458553280167936 1)) = 4294967295 /\ fst (pcg_random (mkpcg 5 1)) = 0 /\
  fst (pcg_random (mkpcg (2 ^ 63 + 2 ^ 27 * 3) 1)) = 196612.
Proof. vm_compute. repeat split. Qed.

(* C11: and the loops return the first accepted number of the generators, taken in turns *)
Theorem range_first_accepted : forall fuel r m v r', reachable r -> 0 <= m < 4294967295 -> random_range fuel r m = Some (v, r') ->
  exists n : nat, accept 32 (m + 1) (pout (iter (n / 2) pnext (if Nat.even n then fst r else snd r))) = Some v /\
    forall i, (i < n)%nat -> accept 32 (m + 1) (pout (iter (i / 2) pnext (if Nat.even i then fst r else snd r))) = None.
Proof.
  intros fuel r m v r' _ M H. unfold random_range in H. destruct (Z.eqb_spec m 18446744073709551615); [lia |].
  destruct (Z.eqb_spec m 4294967295); [lia |]. destruct (Z.ltb_spec m 4294967295); [| lia].
  assert (E : u32 (m + 1) = m + 1) by (unfold u32, uwrap; apply Z.mod_small; lia). rewrite E in H. clear E. revert H.
  generalize (m + 1). intros mask. clear.
  revert r v r'. induction fuel as [fuel IH] using (well_founded_induction lt_wf). intros [p q] v r' H.
  destruct fuel as [| [| fuel]].
  - discriminate.
  - cbn [range_loop32 fst snd] in H. rewrite pcg_pair in H. destruct (accept 32 mask (pout p)) as [w |] eqn:A; [| discriminate].
    exists 0%nat. cbn [Nat.div Nat.divmod fst snd Nat.even iter]. split; [congruence | intros i L; inversion L].
  - cbn [range_loop32 fst snd negb] in H. rewrite pcg_pair in H. destruct (accept 32 mask (pout p)) as [w |] eqn:A.
    { exists 0%nat. cbn [Nat.div Nat.divmod fst snd Nat.even iter]. split; [congruence | intros i L; inversion L]. }
    cbn [range_loop32 fst snd negb] in H. rewrite pcg_pair in H. destruct (accept 32 mask (pout q)) as [w |] eqn:B.
    { exists 1%nat. cbn [Nat.div Nat.divmod fst snd Nat.even iter]. split; [congruence |].
      intros i L. destruct i; [exact A | exfalso; inversion L; subst; inversion H1]. }
    destruct (IH fuel ltac:(lia) (pnext p, pnext q) v r' H) as (n & E & F). cbn [fst snd] in E, F.
    assert (D : forall k, (S (S k) / 2 = S (k / 2))%nat).
    { intros k. change (S (S k)) with (1 * 2 + k)%nat. rewrite Nat.div_add_l by lia. reflexivity. }
    assert (T : forall k, iter (S (S k) / 2) pnext (if Nat.even (S (S k)) then p else q) = iter (k / 2) pnext (if Nat.even k then pnext p else pnext q)).
    { intros k. rewrite D. cbn [iter Nat.even]. destruct (Nat.even k); reflexivity. }
    exists (S (S n)). cbn [fst snd]. rewrite T. split; [exact E |]. intros [| [| i]] L.
    + exact A.
    + exact B.
    + rewrite T. apply F. lia.
Qed.

(* C11: float() is m / 2^52 with 0 <= m < 2^52, the low 52 bits of the raw number, so 0.0 <= float() < 1.0 *)
Theorem float_in_range : forall r, reachable r -> exists m, fst (rand_float r) = DFin m (-52) /\ 0 <= m < 2 ^ 52 /\
  m = fst (rng_random r) mod 2 ^ 52.
Proof.
  intros r H. apply reachable_wf in H. rewrite float_result by exact H. eexists. split; [reflexivity |]. split; [| reflexivity].
  apply Z.mod_pos_bound. lia.
Qed.
Example float_in_range_ex : exists m, fst (rand_float (rng_init_seed 42)) = DFin m (-52) /\
  (m * 10 ^ 15 + 2 ^ 51) / 2 ^ 52 = 215574136670643.
Proof. eexists. split; [vm_compute; reflexivity | vm_compute; reflexivity]. Qed.

(* C11: the period is full: from every state, a generator runs through every state with its stream *)
Theorem full_period : forall r s t, reachable r -> 0 <= s < 2 ^ 64 -> 0 <= t < 2 ^ 64 ->
  (exists n, iter n pnext (fst r) = mkpcg s (p_stream (fst r))) /\ (exists n, iter n pnext (snd r) = mkpcg t (p_stream (snd r))).
Proof. intros r s t H S T. apply reachable_wf in H. split; apply pcg_reaches; try assumption; apply H. Qed.
Example full_period_ex : iter 3 pnext (mkpcg 5 1) = mkpcg 17854410917725272544 1.
Proof. vm_compute. reflexivity. Qed.

(* C92: random.integer has no signed overflow.  Refuted for ranges which are wider than half of the integers... *)
Theorem integer_overflow_refuted : exists r mn mx v r', reachable r /\ is_int64 mn /\ is_int64 mx /\ mn < mx /\
  rand_integer 9 r (Some mn) (Some mx) = Some (IVal v true, r').
Proof.
  exists (rng_init_seed 42), (-1), INT64_MAX. do 2 eexists. split; [apply r_seed |].
  split; [unfold is_int64, INT64_MIN, INT64_MAX; lia |]. split; [unfold is_int64, INT64_MIN, INT64_MAX; lia |].
  split; [reflexivity |]. vm_compute. reflexivity.
Qed.
(* ... and only for those *)
Theorem integer_no_overflow : forall fuel r mn mx v o r', reachable r -> is_int64 mn -> is_int64 mx -> mn <= mx ->
  rand_integer fuel r (Some mn) (Some mx) = Some (IVal v o, r') -> mn < mx -> (o = true <-> mx - mn > INT64_MAX).
Proof.
  intros fuel r mn mx v o r' H A B L E N. pose proof (reachable_wf r H) as W.
  destruct (integer_result fuel r mn mx _ r' W A B L E) as (v' & o' & Q & _ & _ & F). assert (o' = o) as -> by congruence. split.
  - intros O. destruct (Z.le_gt_cases (mx - mn) INT64_MAX) as [D | D]; [| lia]. rewrite (F D) in O. discriminate.
  - intros D. unfold rand_integer in E. destruct (Z.ltb_spec mx mn); [lia |]. destruct (Z.eqb_spec mn mx); [lia |].
    destruct (random_range fuel r (u64 (mx - mn))) as [[x r1] |]; [| discriminate].
    assert (G : is_int64b (mx - mn) = false) by (unfold is_int64b; lia). rewrite G in E. cbn [negb orb] in E. congruence.
Qed.
Example integer_no_overflow_ex : exists v r', rand_integer 9 (rng_init_seed 42) (Some 0) (Some INT64_MAX) = Some (IVal v false, r').
Proof. do 2 eexists. vm_compute. reflexivity. Qed.

(* C93: a generator made from a seed gives the documented numbers (modules/kos_mod_random.c:68-75, 176-184, 281-285).
   Refuted: the numbers in the comments are from another algorithm. *)
Theorem documented_numbers_refuted :
  ~ (exists r1, rand_integer 0 (rng_init_seed 42) None None = Some (IVal (-6031299347323205752) false, r1)) /\
  ~ (exists r1, rand_integer 0 (rng_init_seed 100) None None = Some (IVal (-5490786365174251167) false, r1)) /\
  ~ (exists m, fst (rand_float (rng_init_seed 42)) = DFin m (-52) /\ (m * 10 ^ 15 + 2 ^ 51) / 2 ^ 52 = 782519239019594).
Proof.
  split; [| split].
  - intros [r1 H]. vm_compute in H. discriminate H.
  - intros [r1 H]. vm_compute in H. discriminate H.
  - intros [m [H D]]. vm_compute in H. injection H as <-. vm_compute in D. discriminate D.
Qed.

Print Assumptions integer_in_range.
Print Assumptions integer_full_range.
Print Assumptions integer_rejects.
Print Assumptions range_unbiased.
Print Assumptions outputs_unbiased.
Print Assumptions range_first_accepted.
Print Assumptions float_in_range.
Print Assumptions full_period.
Print Assumptions integer_overflow_refuted.
Print Assumptions integer_no_overflow.
Print Assumptions documented_numbers_refuted.
