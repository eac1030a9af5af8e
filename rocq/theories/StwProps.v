(** Properties of the way in which threads stop for a collection. *)
From Coq Require Import ZArith List Lia Bool ZifyBool.
Import ListNotations.
From Verif Require Import Base StwSpec StwModel StwProofs.
Local Open Scope Z_scope.
Ltac Zify.zify_post_hook ::= idtac.

Lemma nth_activity : forall h i a, nth_error (activities h) i = Some a ->
  exists x, nth_error (ths h) i = Some x /\ a = does x.
Proof.
  intros h i a H. unfold activities in H. rewrite nth_error_map in H.
  destruct (nth_error (ths h) i) as [x|]; [ | discriminate H ]. injection H as <-. exists x. auto.
Qed.

(** C137: nothing is mixed with marking, evacuation or updating. *)
Theorem world_stopped : forall n h, Z.of_nat n < BOUND -> reachable n h -> exclusive (activities h).
Proof.
  intros n h L R. pose proof (inv_reachable n h L R) as I.
  intros i j a b NE Ha Hb. apply nth_activity in Ha, Hb. destruct Ha as (x & Nx & ->), Hb as (y & Ny & ->).
  pose proof (i_ok h I i x Nx) as [_ Ox]. pose proof (i_ok h I j y Ny) as [_ Oy].
  assert (CC : col x + col y <= 1).
  { pose proof (sum_ge2 col (ths h) i j x y col_nn NE Nx Ny) as H. rewrite (i_col h I) in H. unfold one in H.
    destruct (is_inactive (gc h)); lia. }
  unfold does, col in *. destruct (tpc x) as [| | | |g1| | |g1|g1|g1|]; destruct (tpc y) as [| | | |g2| | |g2|g2|g2|];
    cbn [okp] in Ox, Oy; try reflexivity; try lia;
    clear - Ox Oy; remember (gc h) as g eqn:Hg; clear Hg;
    repeat match goal with H : _ /\ _ |- _ => destruct H | H : _ \/ _ |- _ => destruct H end;
    subst; try reflexivity; try discriminate; try destruct g; try reflexivity; congruence.
Qed.

Theorem no_mutator_in_collection : forall n h x, Z.of_nat n < BOUND -> reachable n h ->
  gc h = MARK \/ gc h = EVACUATE \/ gc h = UPDATE -> In x (activities h) -> x <> Mutates.
Proof.
  intros n h x L R G IN. pose proof (inv_reachable n h L R) as I.
  apply In_nth_error in IN. destruct IN as [i Hi]. apply nth_activity in Hi. destruct Hi as (y & Ny & ->).
  destruct (i_ok h I i y Ny) as [_ O]. unfold does.
  destruct (tpc y) as [| | | |g1| | |g1|g1|g1|]; try discriminate; try (destruct g1; discriminate).
  cbn [okp] in O. exfalso. destruct G as [G|[G|G]]; rewrite G in O; destruct O; discriminate.
Qed.

(** Three threads: one collects, one helps, one resumes while others mark. *)
Definition three : list (nat * act) :=
  [(0%nat, Resume true); (1%nat, Resume true); (0%nat, Collect true); (1%nat, Help true); (0%nat, Continue true true);
   (1%nat, Continue true true); (2%nat, Resume true)].
Example three_mark : option_map activities (exec three (init 3)) = Some [Marks; Marks; Marks].
Proof. reflexivity. Qed.
Example three_evacuate :
  option_map activities (exec (three ++ [(0%nat, Continue true true); (2%nat, Continue true true); (1%nat, Continue true true);
     (0%nat, Continue true true)]) (init 3)) = Some [Evacuates; Sleeps; Sleeps].
Proof. reflexivity. Qed.
Example three_done :
  option_map (fun h => (activities h, gc h))
   (exec (three ++ [(0%nat, Continue true true); (2%nat, Continue true true); (1%nat, Continue true true);
     (0%nat, Continue true true); (0%nat, Continue true false); (1%nat, Continue true true); (0%nat, Continue true false);
     (1%nat, Continue true true); (0%nat, Continue true false); (2%nat, Continue true true)]) (init 3))
  = Some ([Mutates; Wakes; Mutates], INACTIVE).
Proof. reflexivity. Qed.

Lemma reachable_exec : forall n l h h', reachable n h -> exec l h = Some h' -> reachable n h'.
Proof.
  intros n l. induction l as [|[t a] l IH]; intros h h' R H; cbn [exec] in H.
  - injection H as <-. exact R.
  - destruct (step t a h) as [h1|] eqn:ST; [ | discriminate H ]. apply (IH h1); [ | exact H ]. exact (R_step n h t a h1 R ST).
Qed.

(** C138: one thread collects, and nobody sleeps for ever. *)
Definition collects (x : thread) : bool :=
  match tpc x with CSleep | CWoken | CWalk _ | CWSleep _ | CWWoken _ | CEvac => true | _ => false end.

Theorem one_collector : forall n h i j x y, Z.of_nat n < BOUND -> reachable n h ->
  nth_error (ths h) i = Some x -> nth_error (ths h) j = Some y ->
  collects x = true -> collects y = true -> i = j /\ gc h <> INACTIVE.
Proof.
  intros n h i j x y L R Nx Ny Cx Cy. pose proof (inv_reachable n h L R) as I.
  assert (X : col x = 1) by (unfold collects, col in *; destruct (tpc x); try discriminate Cx; reflexivity).
  assert (Y : col y = 1) by (unfold collects, col in *; destruct (tpc y); try discriminate Cy; reflexivity).
  split; [ | exact (proj2 (active_col h i x I Nx X)) ].
  destruct (Nat.eq_dec i j) as [E|NE]; [ exact E | exfalso ].
  pose proof (other_col h j y i x I Ny Y NE Nx). lia.
Qed.

Lemma collector_exists : forall h, Inv h -> gc h <> INACTIVE -> exists i x, nth_error (ths h) i = Some x /\ collects x = true.
Proof.
  intros h I G. assert (P : 1 <= sum col (ths h)).
  { rewrite (i_col h I). unfold one. destruct (gc h); cbn [is_inactive]; try lia. congruence. }
  destruct (sum_pos col (ths h) col_range P) as (i & x & N & C). exists i, x. split; [ exact N | ].
  unfold collects, col in *. destruct (tpc x); try discriminate C; reflexivity.
Qed.

Theorem active_has_collector : forall n h, Z.of_nat n < BOUND -> reachable n h -> gc h <> INACTIVE ->
  exists i x, nth_error (ths h) i = Some x /\ collects x = true.
Proof. intros n h L R. exact (collector_exists h (inv_reachable n h L R)). Qed.

(** For a sleeping thread there is one which will wake it up. *)
Theorem sleeper_has_waker : forall n h i x, Z.of_nat n < BOUND -> reachable n h ->
  nth_error (ths h) i = Some x ->
  match tpc x with
  | CSleep => ev h = true /\ exists j y, nth_error (ths h) j = Some y /\ does y = Mutates
  | CWSleep g => exists j y, nth_error (ths h) j = Some y /\ tpc y = HWalk g
  | HSleep => exists j y, nth_error (ths h) j = Some y /\ collects y = true
  | _ => True
  end.
Proof.
  intros n h i x L R N. pose proof (inv_reachable n h L R) as I. destruct (i_ok h I i x N) as [_ O].
  destruct (tpc x) eqn:P; try exact Logic.I; cbn [okp] in O.
  - exact (collector_exists h I O).
  - split; [ rewrite (i_ev h I), O; reflexivity | ].
    pose proof (i_stop h I i x N) as B. rewrite P in B. specialize (B eq_refl).
    destruct (sum_pos running (ths h) run_range ltac:(lia)) as (j & y & Ny & Ry). exists j, y. split; [ exact Ny | ].
    destruct (i_ok h I j y Ny) as [Oy _]. unfold running in Ry. rewrite Oy in Ry. unfold does.
    destruct (tpc y); cbn [st_of] in Ry; try discriminate Ry. reflexivity.
  - pose proof (i_walk h I i x N) as B. rewrite P in B. specialize (B eq_refl). rewrite (i_wal h I) in B.
    destruct (sum_pos wal (ths h) wal_range B) as (j & y & Ny & Wy). exists j, y. split; [ exact Ny | ].
    assert (CX : col x = 1) by (unfold col; rewrite P; reflexivity).
    destruct (Nat.eq_dec j i) as [E|NE].
    { subst j. rewrite N in Ny. injection Ny as <-. unfold wal in Wy. rewrite P in Wy. discriminate Wy. }
    pose proof (other_col h i x j y I N CX NE Ny) as CY. destruct (i_ok h I j y Ny) as [_ Oy].
    unfold wal, col in *. destruct (tpc y); try discriminate Wy; try discriminate CY. cbn [okp] in Oy.
    destruct O as [-> _], Oy as [-> _]. reflexivity.
Qed.

(** If all threads are parked or asleep, all are parked. *)
Theorem no_deadlock : forall n h a, Z.of_nat n < BOUND -> reachable n h ->
  all_asleep (activities h) -> In a (activities h) -> a = Parked.
Proof.
  intros n h a L R AA IN. destruct (AA a IN) as [E|E]; [ exact E | exfalso ].
  assert (NOT : forall j y, nth_error (ths h) j = Some y -> does y = Parked \/ does y = Sleeps).
  { intros j y Ny. apply AA. unfold activities. apply in_map. exact (nth_error_In _ _ Ny). }
  assert (STOP : forall j y, nth_error (ths h) j = Some y -> collects y = true -> False).
  { intros j y Ny Cy. pose proof (sleeper_has_waker n h j y L R Ny) as W. pose proof (NOT j y Ny) as D.
    unfold collects in Cy. unfold does in D. destruct (tpc y) as [| | | |g| | |g|g|g|]; try discriminate Cy;
      try (destruct D; discriminate); try (destruct g; destruct D; discriminate).
    - destruct W as (_ & k & z & Nz & Dz). pose proof (NOT k z Nz). rewrite Dz in H. destruct H; discriminate.
    - destruct W as (k & z & Nz & Dz). pose proof (NOT k z Nz) as H. unfold does in H. rewrite Dz in H.
      destruct g; destruct H; discriminate. }
  apply In_nth_error in IN. destruct IN as [i Hi]. apply nth_activity in Hi. destruct Hi as (x & Nx & ->).
  pose proof (sleeper_has_waker n h i x L R Nx) as W. pose proof (STOP i x Nx) as SX.
  unfold does in E. unfold collects in SX. destruct (tpc x) as [| | | |g| | |g|g|g|]; try discriminate E;
    try (exact (SX eq_refl)); try (destruct g; discriminate E).
  destruct W as (k & z & Nz & Cz). exact (STOP k z Nz Cz).
Qed.

(** A thread which is neither parked, asleep nor runs the program can go on. *)
Theorem can_go_on : forall h i x more again, nth_error (ths h) i = Some x ->
  In (does x) [Wakes; Marks; Evacuates; Updates] -> exists h', step i (Continue more again) h = Some h'.
Proof.
  intros h i x more again N D. unfold step. rewrite N. unfold does in D. cbn [In] in D.
  destruct (tpc x) as [| | | |g| | |g|g|g|]; try (eexists; reflexivity);
    exfalso; repeat (destruct D as [D|D]; [ discriminate D | ]); exact D.
Qed.

(** Whoever sleeps is woken by the last event: when the only thread which runs a
    program stops, the collector wakes up. *)
Example last_stop_wakes :
  option_map activities (exec [(0%nat, Resume true); (1%nat, Resume true); (0%nat, Collect true)] (init 2))
    = Some [Sleeps; Mutates] /\
  option_map activities (exec [(0%nat, Resume true); (1%nat, Resume true); (0%nat, Collect true); (1%nat, Suspend)] (init 2))
    = Some [Wakes; Parked].
Proof. split; reflexivity. Qed.

(** C139: threads_to_stop.  The assertions of lines 1232 and 2718 hold: *)
Theorem no_threads_to_stop : forall n h, Z.of_nat n < BOUND -> reachable n h -> gc h <> INIT -> tts h = 0.
Proof. intros n h L R. exact (i_tts h (inv_reachable n h L R)). Qed.

Definition mutators (h : heap) : Z :=
  Z.of_nat (length (filter (fun a => match a with Mutates => true | _ => false end) (activities h))).

Lemma mutators_eq : forall h, Inv h -> mutators h = sum running (ths h).
Proof.
  intros h I. pose proof (i_ok h I) as O. clear I. unfold mutators, activities, sum. revert O.
  generalize (gc h). induction (ths h) as [|x l IH]; intros g O; [ reflexivity | ].
  cbn [map filter fold_right]. specialize (IH g (fun t => O (S t))). destruct (O 0%nat x eq_refl) as [Ox _].
  unfold running at 1. rewrite Ox. unfold does at 1.
  destruct (tpc x) as [| | | |g1| | |g1|g1|g1|]; try destruct g1; cbn [st_of length] in *; lia.
Qed.

(** While the collector sleeps, the counter is positive and at most the number of
    threads which have not stopped. *)
Theorem threads_to_stop_bound : forall n h i x, Z.of_nat n < BOUND -> reachable n h ->
  nth_error (ths h) i = Some x -> tpc x = CSleep -> 1 <= tts h <= mutators h.
Proof.
  intros n h i x L R N P. pose proof (inv_reachable n h L R) as I. rewrite (mutators_eq h I).
  apply (i_stop h I i x N). rewrite P. reflexivity.
Qed.

(** It is not that number: a context which is resumed while the collector waits was
    not counted, but engage_in_gc subtracts it.  The collector is woken up too early,
    and the next thread which stops makes the counter negative, that is 2^32 - 1. *)
Definition early : list (nat * act) :=
  [(0%nat, Resume true); (1%nat, Resume true); (0%nat, Collect true); (2%nat, Resume true)].
Theorem early_wake_refuted : exists h, reachable 3 h /\ gc h = INIT /\ activities h = [Wakes; Mutates; Sleeps] /\ tts h = 0.
Proof.
  destruct (exec early (init 3)) as [h|] eqn:X; [ | discriminate X ].
  exists h. split; [ apply (reachable_exec 3 early (init 3)); [ apply R_init | exact X ] | ].
  vm_compute in X. injection X as <-. repeat split.
Qed.
Theorem threads_to_stop_underflow_refuted : exists h, reachable 3 h /\ gc h = INIT /\ tts h = 4294967295 /\ mutators h = 0.
Proof.
  destruct (exec (early ++ [(1%nat, Help true)]) (init 3)) as [h|] eqn:X; [ | discriminate X ].
  exists h. split; [ apply (reachable_exec 3 (early ++ [(1%nat, Help true)]) (init 3)); [ apply R_init | exact X ] | ].
  vm_compute in X. injection X as <-. repeat split.
Qed.
(** Nevertheless the collection goes on. *)
Example underflow_harmless :
  option_map (fun h => (activities h, tts h)) (exec (early ++ [(1%nat, Help true); (0%nat, Continue true true)]) (init 3))
  = Some ([Marks; Wakes; Wakes], 0).
Proof. reflexivity. Qed.

(** C140: a thread which helps may never get back to its program: the next
    collection may begin before it gets the mutex, any number of times, though the
    thread takes part in each. *)
Definition cycle : list (nat * act) :=
  [(0%nat, Collect true); (1%nat, Continue true true); (1%nat, Continue true true); (0%nat, Continue true true);
   (0%nat, Continue true true); (1%nat, Continue true true); (1%nat, Continue true true); (0%nat, Continue true false)].
Fixpoint cycles (k : nat) : list (nat * act) := match k with O => [] | S k => cycle ++ cycles k end.
Definition woken2 : heap := mkheap INACTIVE 0 0 false [mkth Run CINACTIVE; mkth HWoken ENGAGED].

Lemma exec_app : forall l l' h h1, exec l h = Some h1 -> exec (l ++ l') h = exec l' h1.
Proof.
  intros l. induction l as [|[t a] l IH]; intros l' h h1 H; cbn [exec app] in *.
  - injection H as <-. reflexivity.
  - destruct (step t a h) as [h2|]; [ | discriminate H ]. exact (IH l' h2 h1 H).
Qed.

Lemma cycle_again : exec cycle woken2 = Some woken2.
Proof. reflexivity. Qed.

Lemma woken2_reachable : reachable 2 woken2.
Proof.
  apply (reachable_exec 2 [(0%nat, Resume true); (0%nat, Collect true); (1%nat, Resume true); (1%nat, Continue true true);
    (0%nat, Continue true false)] (init 2)); [ apply R_init | reflexivity ].
Qed.

Theorem helper_starves_refuted : forall k, reachable 2 woken2 /\ exec (cycles k) woken2 = Some woken2.
Proof.
  intros k. split; [ exact woken2_reachable | ]. induction k as [|k IH]; [ reflexivity | ].
  cbn [cycles]. rewrite (exec_app _ _ _ _ cycle_again). exact IH.
Qed.
(** No state within the cycle lets thread 1 run its program. *)
Example cycle_never_mutates : forallb (fun i =>
    match exec (firstn i cycle) woken2 with
    | Some h => match nth_error (activities h) 1 with Some Mutates => false | Some _ => true | None => false end
    | None => false
    end) (seq 0 9) = true.
Proof. reflexivity. Qed.

(** But when it gets the mutex between two collections, it returns. *)
Theorem helper_returns : forall n h i x more again, Z.of_nat n < BOUND -> reachable n h ->
  nth_error (ths h) i = Some x -> does x = Wakes -> gc h = INACTIVE ->
  exists h', step i (Continue more again) h = Some h' /\ nth_error (activities h') i = Some Mutates.
Proof.
  intros n h i x more again L R N D G. pose proof (inv_reachable n h L R) as I.
  destruct (i_ok h I i x N) as [_ O]. rewrite G in O. unfold step. rewrite N. unfold does in D.
  destruct (tpc x) as [| | | |g| | |g|g|g|]; try discriminate D; try (destruct g; discriminate D); cbn [okp] in O;
    try discriminate O; [ | exfalso; destruct O as [_ [O|O]]; discriminate O ].
  eexists. split; [ reflexivity | ]. unfold helper_loop. rewrite G. unfold activities. cbn [ths].
  rewrite nth_error_map, put_same; [ reflexivity | ]. eexists. rewrite nth_error_map, N. reflexivity.
Qed.

Print Assumptions world_stopped.
Print Assumptions no_mutator_in_collection.
Print Assumptions one_collector.
Print Assumptions active_has_collector.
Print Assumptions sleeper_has_waker.
Print Assumptions no_deadlock.
Print Assumptions can_go_on.
Print Assumptions no_threads_to_stop.
Print Assumptions threads_to_stop_bound.
Print Assumptions early_wake_refuted.
Print Assumptions threads_to_stop_underflow_refuted.
Print Assumptions helper_starves_refuted.
Print Assumptions helper_returns.
