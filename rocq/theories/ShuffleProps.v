(** Properties C129, C130: shuffling. *)
From Coq Require Import ZArith List Lia Bool ZifyBool Permutation.
Import ListNotations.
From Verif Require Import Base ListZ NumModel RandModel RandSpec RandProofs RandProofs2 RandProps ShuffleSpec ShuffleModel ShuffleProofs.
Local Open Scope Z_scope.
Ltac Zify.zify_post_hook ::= idtac.

Lemma loop_rng_ok : forall (A : Type) mx idx r (l : list A), reachable r -> len l = mx + 1 ->
  0 <= mx < 2 ^ 32 -> (idx <= length l)%nat ->
  exists fuel l' r', Permutation l l' /\ forall k, loop_rng (fuel + k) mx idx r l = Some (l', r').
Proof.
  intros A mx. induction idx as [|i IH]; intros r l HR HL HM HI.
  - exists O, l, r. split; [ apply Permutation_refl | reflexivity ].
  - assert (I0 : is_int64 0) by (unfold is_int64, INT64_MIN, INT64_MAX; lia).
    assert (I1 : is_int64 mx) by (unfold is_int64, INT64_MIN, INT64_MAX; lia).
    destruct (integer_in_range r 0 mx HR I0 I1 ltac:(lia)) as (f1 & v & o & r1 & E1 & B & E2).
    assert (HR1 : reachable r1).
    { apply (r_integer f1 r (Some 0) (Some mx) (IVal v o) r1 HR); [ | | exact E1 ];
        intros x Hx; injection Hx as <-; assumption. }
    assert (exists l1, (if Z.of_nat i =? v then Some l else exchange i (Z.to_nat v) l) = Some l1 /\
              length l1 = length l /\ Permutation l l1) as (l1 & X1 & X2 & X3).
    { destruct (Z.of_nat i =? v) eqn:E.
      - exists l. split; [ reflexivity | ]. split; [ reflexivity | apply Permutation_refl ].
      - destruct (exchange_some i (Z.to_nat v) l) as (l1 & X1 & X2).
        { lia. } { unfold len in HL. lia. }
        exists l1. split; [ exact X1 | ]. split; [ exact X2 | ].
        refine (exchange_perm _ _ _ _ _ X1). lia. }
    destruct (IH r1 l1 HR1) as (f2 & l' & r' & P & E3).
    { unfold len in *. rewrite X2. exact HL. } { exact HM. } { lia. }
    exists (f1 + f2)%nat, l', r'. split; [ eapply perm_trans; eassumption | ].
    intros k. cbn [loop_rng]. replace (f1 + f2 + k)%nat with (f1 + (f2 + k))%nat by lia. rewrite E2.
    replace (f1 + (f2 + k))%nat with (f2 + (f1 + k))%nat by lia.
    destruct (Z.of_nat i =? v); [ injection X1 as ->; apply E3 | ]. rewrite X1. apply E3.
Qed.

Lemma integer_mono : forall fuel k r a b x, rand_integer fuel r a b = Some x -> rand_integer (fuel + k) r a b = Some x.
Proof.
  intros fuel k r a b x. unfold rand_integer. destruct a as [a|], b as [b|]; try trivial.
  destruct (b <? a); [ trivial | ]. destruct (a =? b); [ trivial | ].
  destruct (random_range fuel r (u64 (b - a))) as [y|] eqn:Q; [ | discriminate ].
  rewrite (range_mono _ k _ _ _ Q). trivial.
Qed.

Lemma shuffle_mono : forall (A : Type) fuel k r (l : list A) x,
  shuffle fuel r l = Some x -> shuffle (fuel + k) r l = Some x.
Proof.
  intros A fuel k r l x. unfold shuffle. destruct (1 <? len l); [ | trivial ].
  generalize (len l - 1) (length l - 1)%nat. intros mx idx. revert r l.
  induction idx as [|i IH]; intros r l H; [ exact H | ]. cbn [loop_rng] in *.
  destruct (rand_integer fuel r (Some 0) (Some mx)) as [[[d o|] r']|] eqn:E; try discriminate H.
  rewrite (integer_mono _ k _ _ _ _ E).
  destruct (Z.of_nat i =? d); [ apply IH; exact H | ].
  destruct (exchange i (Z.to_nat d) l); [ apply IH; exact H | discriminate H ].
Qed.

(** C129: shuffle returns after finitely many random numbers, for every generator
    and every elements, and the result has the same elements. *)
Theorem shuffle_permutes : forall (A : Type) r (l : list A), reachable r -> len l < 2 ^ 32 ->
  exists fuel l' r', Permutation l l' /\ forall k, shuffle (fuel + k) r l = Some (l', r').
Proof.
  intros A r l HR HL. unfold shuffle. destruct (1 <? len l) eqn:E.
  - apply loop_rng_ok; [ exact HR | lia | lia | lia ].
  - exists O, l, r. split; [ apply Permutation_refl | reflexivity ].
Qed.

(** For each numbers from 0 to the last index which a generator may give. *)
Theorem shuffle_draws_permutes : forall (A : Type) (l : list A) draws,
  in_range (length l - 1) (len l - 1) draws ->
  exists l', shuffle_draws draws l = Some l' /\ Permutation l l'.
Proof.
  intros A l draws H. unfold shuffle_draws. destruct (1 <? len l).
  - apply loop_ok; [ lia | exact H ].
  - exists l. split; [ reflexivity | apply Permutation_refl ].
Qed.

(** Every permutation can be the result. *)
Theorem shuffle_every_permutation : forall (A : Type) (l l' : list A), Permutation l l' ->
  exists draws, in_range (length l - 1) (len l - 1) draws /\ shuffle_draws draws l = Some l'.
Proof.
  intros A l l' P. destruct l as [|x l].
  - apply Permutation_nil in P. subst l'. exists []. split; [ split; [ reflexivity | constructor ] | reflexivity ].
  - destruct (every_perm (x :: l) l' P ltac:(discriminate)) as (draws & H1 & H2). exists draws. split; [ exact H1 | ].
    unfold shuffle_draws. destruct (1 <? len (x :: l)) eqn:E; [ exact H2 | ].
    destruct l as [|y l]; [ | unfold len in E; cbn [length] in E; lia ].
    cbn [length loop_draws] in H2. exact H2.
Qed.

Example shuffle_ex :
  shuffle_draws [3; 0; 2] [10; 20; 30; 40] = Some [40; 10; 20; 30] /\
  (exists r', shuffle 10 (rng_init_seed 42) [0; 1; 2; 3; 4; 5; 6; 7; 8; 9] =
     Some ([0; 4; 5; 6; 3; 7; 8; 2; 1; 9], r')).
Proof. split; [ vm_compute; reflexivity | eexists; vm_compute; reflexivity ]. Qed.

(** C130: permutations are not equally likely: of the 9 equally likely pairs of
    numbers for 3 elements, two give [1; 2; 3] and one gives [1; 3; 2]. *)
Theorem shuffle_uniform_refuted :
  (forall ds, In ds (all_draws 2 3) <-> in_range 2 2 ds) /\ NoDup (all_draws 2 3) /\
  map (ways (fun ds => shuffle_draws ds [1; 2; 3]) (all_draws 2 3))
    [[1; 2; 3]; [1; 3; 2]; [2; 1; 3]; [2; 3; 1]; [3; 1; 2]; [3; 2; 1]] = [2; 1; 2; 1; 2; 1]%nat.
Proof.
  split; [ | split; [ | vm_compute; reflexivity ] ].
  - intros ds. split.
    + intros H. vm_compute in H.
      repeat (destruct H as [<-|H]; [ split; [ reflexivity | repeat constructor; lia ] | ]). destruct H.
    + intros [H1 H2]. destruct ds as [|a [|b [|c ds]]]; try discriminate H1.
      inversion H2 as [|x y H3 H4 E1]. subst x y. inversion H4 as [|x y H5 H6 E2]. subst x y.
      assert (A1 : a = 0 \/ a = 1 \/ a = 2) by lia. assert (B1 : b = 0 \/ b = 1 \/ b = 2) by lia.
      destruct A1 as [->|[->| ->]], B1 as [->|[->| ->]]; vm_compute; tauto.
  - vm_compute. repeat (constructor; [ intros H; repeat (destruct H as [H|H]; [ discriminate H | ]); exact H | ]). constructor.
Qed.

(** C93: the documented example of shuffle (modules/random.kos:34-36). *)
Theorem shuffle_documented_refuted : forall fuel r',
  shuffle fuel (rng_init_seed 42) [0; 1; 2; 3; 4; 5; 6; 7; 8; 9] <>
  Some ([7; 4; 6; 5; 2; 0; 1; 3; 8; 9], r').
Proof.
  intros fuel r' H.
  assert (R : reachable (rng_init_seed 42)) by constructor.
  destruct (shuffle_permutes Z (rng_init_seed 42) [0; 1; 2; 3; 4; 5; 6; 7; 8; 9] R ltac:(unfold len; cbn; lia))
    as (f & l' & r1 & _ & E).
  destruct shuffle_ex as (_ & r2 & E2).
  pose proof (shuffle_mono _ fuel (f + 10)%nat _ _ _ H) as M1.
  pose proof (shuffle_mono _ 10 (f + fuel)%nat _ _ _ E2) as M2.
  replace (fuel + (f + 10))%nat with (10 + (f + fuel))%nat in M1 by lia. congruence.
Qed.

Print Assumptions shuffle_permutes.
Print Assumptions shuffle_draws_permutes.
Print Assumptions shuffle_every_permutation.
Print Assumptions shuffle_uniform_refuted.
Print Assumptions shuffle_documented_refuted.
