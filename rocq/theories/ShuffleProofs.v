(** Proofs about shuffling. *)
From Coq Require Import ZArith List Lia Bool ZifyBool Permutation.
Import ListNotations.
From Verif Require Import Base ListZ ShuffleSpec ShuffleModel.
Local Open Scope Z_scope.
Ltac Zify.zify_post_hook ::= idtac.

Section Elements.
Context {A : Type}.
Implicit Types l : list A.

Lemma put_length : forall l i v, length (put i v l) = length l.
Proof. induction l as [|x l IH]; intros [|i] v; cbn [put length]; auto. Qed.

Lemma nth_put_same : forall l i v, (i < length l)%nat -> nth_error (put i v l) i = Some v.
Proof.
  induction l as [|x l IH]; intros [|i] v H; cbn [length] in H; try lia; [ reflexivity | ].
  cbn [put nth_error]. apply IH. lia.
Qed.

Lemma nth_put_other : forall l i j v, i <> j -> nth_error (put i v l) j = nth_error l j.
Proof.
  induction l as [|x l IH]; intros [|i] [|j] v H; cbn [put nth_error]; try reflexivity; try congruence.
  apply IH. congruence.
Qed.

Lemma put_perm : forall l i x v, nth_error l i = Some x -> Permutation (x :: put i v l) (v :: l).
Proof.
  induction l as [|y l IH]; intros [|i] x v H; cbn [nth_error] in H; try discriminate H.
  - injection H as ->. cbn [put]. apply perm_swap.
  - cbn [put]. specialize (IH i x v H).
    eapply perm_trans; [ apply perm_swap | ]. eapply perm_trans; [ apply perm_skip, IH | ]. apply perm_swap.
Qed.

Lemma nth_error_lt : forall l i x, nth_error l i = Some x -> (i < length l)%nat.
Proof. intros l i x H. apply nth_error_Some. congruence. Qed.

Lemma put_id : forall l i x, nth_error l i = Some x -> put i x l = l.
Proof.
  induction l as [|y l IH]; intros [|i] x H; cbn [nth_error] in H; try discriminate H.
  - injection H as ->. reflexivity.
  - cbn [put]. rewrite IH by exact H. reflexivity.
Qed.

Lemma exchange_perm : forall i j l l', i <> j -> exchange i j l = Some l' -> Permutation l l'.
Proof.
  intros i j l l' N H. unfold exchange in H.
  destruct (nth_error l i) as [a|] eqn:E1; [ | discriminate H ].
  destruct (nth_error l j) as [b|] eqn:E2; [ | discriminate H ]. injection H as <-.
  assert (E3 : nth_error (put i b l) j = Some b) by (rewrite nth_put_other by congruence; exact E2).
  pose proof (put_perm _ _ _ b E1) as P1. pose proof (put_perm _ _ _ a E3) as P2.
  apply (Permutation_cons_inv (a := b)). symmetry. eapply perm_trans; [ exact P2 | exact P1 ].
Qed.

Lemma exchange_some : forall i j l, (i < length l)%nat -> (j < length l)%nat ->
  exists l', exchange i j l = Some l' /\ length l' = length l.
Proof.
  intros i j l H1 H2. unfold exchange.
  destruct (nth_error l i) as [a|] eqn:E1; [ | apply nth_error_None in E1; lia ].
  destruct (nth_error l j) as [b|] eqn:E2; [ | apply nth_error_None in E2; lia ].
  eexists. split; [ reflexivity | ]. rewrite !put_length. reflexivity.
Qed.

Lemma loop_ok : forall idx draws l, (idx <= length l)%nat ->
  in_range idx (len l - 1) draws ->
  exists l', loop_draws idx draws l = Some l' /\ Permutation l l'.
Proof.
  induction idx as [|i IH]; intros draws l HI [HL HR].
  - exists l. split; [ reflexivity | apply Permutation_refl ].
  - destruct draws as [|d ds]; [ discriminate HL | ]. cbn [length] in HL.
    inversion HR as [|x y R1 R2 E1]. subst x y. cbn [loop_draws].
    destruct (Z.of_nat i =? d) eqn:E.
    + apply IH; [ lia | ]. split; [ lia | exact R2 ].
    + destruct (exchange_some i (Z.to_nat d) l) as (l1 & E2 & E3).
      { lia. } { unfold len in R1. lia. }
      rewrite E2. destruct (IH ds l1) as (l' & E4 & E5).
      { lia. } { split; [ lia | ]. unfold len in *. rewrite E3. exact R2. }
      exists l'. split; [ exact E4 | ]. eapply perm_trans; [ | exact E5 ].
      refine (exchange_perm _ _ _ _ _ E2). lia.
Qed.

(** Shifting by one element. *)
Lemma exchange_cons : forall i j x l,
  exchange (S i) (S j) (x :: l) = option_map (cons x) (exchange i j l).
Proof.
  intros i j x l. unfold exchange. cbn [nth_error].
  destruct (nth_error l i); [ | reflexivity ]. destruct (nth_error l j); reflexivity.
Qed.

(** Before the last step, the first element is not touched. *)
Lemma loop_shift : forall idx draws l x l1, length draws = idx -> Forall (fun d => 0 <= d) draws ->
  loop_draws idx draws l = Some l1 ->
  forall e, loop_draws (S idx) (map (Z.add 1) draws ++ [e]) (x :: l) =
    if 0 =? e then Some (x :: l1) else exchange 0 (Z.to_nat e) (x :: l1).
Proof.
  induction idx as [|i IH]; intros draws l x l1 HL HR H e.
  - destruct draws; [ | discriminate HL ]. cbn [loop_draws] in H. injection H as <-.
    cbn [map app]. change (loop_draws 1 [e] (x :: l)) with
      (if Z.of_nat 0 =? e then Some (x :: l) else match exchange 0 (Z.to_nat e) (x :: l) with Some l' => Some l' | None => None end).
    change (Z.of_nat 0) with 0. destruct (0 =? e); [ reflexivity | ].
    destruct (exchange 0 (Z.to_nat e) (x :: l)); reflexivity.
  - destruct draws as [|d ds]; [ discriminate HL | ]. cbn [length] in HL. injection HL as HL.
    inversion HR as [|y z R1 R2 E1]. subst y z.
    cbn [map app]. cbn [loop_draws] in H.
    remember (S i) as si. cbn [loop_draws]. subst si.
    replace (Z.of_nat (S i) =? 1 + d) with (Z.of_nat i =? d) by lia.
    destruct (Z.of_nat i =? d) eqn:E.
    + apply (IH ds l x l1 HL R2 H).
    + replace (Z.to_nat (1 + d)) with (S (Z.to_nat d)) by lia. rewrite exchange_cons.
      destruct (exchange i (Z.to_nat d) l) as [l2|] eqn:E2; [ | discriminate H ].
      cbn [option_map]. apply (IH ds l2 x l1 HL R2 H).
Qed.

Lemma exchange_back : forall j l x, nth_error l j = Some x -> j <> O ->
  exists r, exchange 0 j (x :: r) = Some l /\ Permutation (x :: r) l.
Proof.
  intros j l x H N. destruct l as [|y l]; [ destruct j; discriminate H | ].
  destruct j as [|j]; [ congruence | ]. cbn [nth_error] in H.
  exists (put j y l). split.
  - unfold exchange. cbn [nth_error]. rewrite nth_put_same by (eapply nth_error_lt; exact H).
    cbn [put]. f_equal. f_equal.
    clear - H. revert j H. induction l as [|z l IH]; intros [|j] H; cbn [nth_error] in H; try discriminate H.
    + injection H as ->. reflexivity.
    + cbn [put]. rewrite IH by exact H. reflexivity.
  - eapply perm_trans; [ apply put_perm; exact H | ]. apply Permutation_refl.
Qed.

Lemma every_perm : forall l l', Permutation l l' -> l <> [] ->
  exists draws, in_range (length l - 1) (len l - 1) draws /\ loop_draws (length l - 1) draws l = Some l'.
Proof.
  induction l as [|x l IH]; intros l' P NE; [ congruence | ]. clear NE.
  destruct l as [|y l].
  - apply Permutation_length_1_inv in P. subst l'. exists []. split; [ | reflexivity ].
    split; [ reflexivity | constructor ].
  - assert (I1 : In x l') by (eapply Permutation_in; [ exact P | left; reflexivity ]).
    destruct (In_nth_error _ _ I1) as [j Hj].
    pose proof (nth_error_lt _ _ _ Hj) as Hlt. pose proof (Permutation_length P) as PL.
    assert (exists r, Permutation (x :: r) l' /\
      (if 0 =? Z.of_nat j then Some (x :: r) else exchange 0 (Z.to_nat (Z.of_nat j)) (x :: r)) = Some l') as (r & P2 & E2).
    { destruct j as [|j].
      - destruct l' as [|z l']; [ discriminate Hj | ]. cbn [nth_error] in Hj. injection Hj as ->.
        exists l'. split; [ apply Permutation_refl | reflexivity ].
      - destruct (exchange_back _ _ _ Hj ltac:(discriminate)) as (r & E & P2). exists r. split; [ exact P2 | ].
        replace (0 =? Z.of_nat (S j)) with false by lia. rewrite Nat2Z.id. exact E. }
    assert (P3 : Permutation (y :: l) r).
    { apply (Permutation_cons_inv (a := x)). eapply perm_trans; [ exact P | ]. symmetry. exact P2. }
    destruct (IH r P3 ltac:(discriminate)) as (draws & [D1 D2] & D3).
    cbn [length] in *. replace (S (length l) - 1)%nat with (length l) in * by lia.
    replace (S (S (length l)) - 1)%nat with (S (length l)) by lia.
    exists (map (Z.add 1) draws ++ [Z.of_nat j]). split.
    + split; [ rewrite app_length, map_length; cbn [length]; lia | ].
      unfold len in *. cbn [length] in *.
      apply Forall_app. split; [ | constructor; [ lia | constructor ] ].
      apply Forall_map. eapply Forall_impl; [ | exact D2 ]. intros a Ha. cbn beta in Ha. lia.
    + rewrite (loop_shift (length l) draws (y :: l) x r D1); [ exact E2 | | exact D3 ].
      eapply Forall_impl; [ | exact D2 ]. intros a Ha. cbn beta in Ha. lia.
Qed.

End Elements.
