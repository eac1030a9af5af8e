(** A collection ends: the threads which take part in it can do a bounded number of
    steps, and when they can do no more, it has ended or waits for a program. *)
From Coq Require Import ZArith List Lia Bool ZifyBool.
Import ListNotations.
From Verif Require Import Base StwSpec StwModel StwProofs StwProps.
Local Open Scope Z_scope.
Ltac Zify.zify_post_hook ::= idtac.

(** Steps of threads which take part, without spurious wakeups; evacuation is done
    once: KOS_collect_garbage repeats it only when memory is short, and then only if
    it has freed a page. *)
Inductive work : nat -> heap -> heap -> Prop :=
| W_done : forall h, work 0 h h
| W_step : forall k h t more again h1 h2,
    (gc h <> MARK -> again = false) ->
    step t (Continue more again) h = Some h1 -> work k h1 h2 -> work (S k) h h2.

Definition wgt (n : Z) (x : thread) : Z :=
  let k := 4 * n + 10 in
  match tpc x with
  | HWoken => 4
  | HWalk _ => 2
  | CWSleep UPDATE => k
  | CWWoken UPDATE => k + 1
  | CWalk UPDATE => k + 2
  | CEvac => 2 * k
  | CWSleep _ => 3 * k
  | CWWoken _ => 3 * k + 1
  | CWalk _ => 3 * k + 2
  | CSleep => 4 * k
  | CWoken => 5 * k
  | _ => 0
  end.
Definition size (h : heap) : Z := Z.of_nat (length (ths h)).
Definition todo (h : heap) : Z := sum (wgt (size h)) (ths h).

Lemma sum_map_le : forall f g w l, (forall x, f (w x) <= f x + g x) -> sum f (map w l) <= sum f l + sum g l.
Proof.
  unfold sum. intros f g w l H. induction l as [|x l IH]; cbn [map fold_right]; [ lia | ]. pose proof (H x). lia.
Qed.
Lemma sum_const : forall c l, sum (fun _ => c) l = c * Z.of_nat (length l).
Proof.
  unfold sum. intros c l. induction l as [|x l IH]; cbn [fold_right length]; [ lia | ]. rewrite IH. lia.
Qed.

Lemma wake_helpers_wgt : forall n l, sum (wgt n) (map wake_helpers l) <= sum (wgt n) l + 4 * Z.of_nat (length l).
Proof.
  intros n l. rewrite <- sum_const. apply sum_map_le. intros [p s]. unfold wgt, wake_helpers. cbn [tpc tst].
  destruct p; cbn [tpc]; lia.
Qed.
Lemma wake_walker_wgt : forall n l, sum (wgt n) (map wake_walker l) <= sum (wgt n) l + sum col l.
Proof.
  intros n l. apply sum_map_le. intros [p s]. unfold wgt, wake_walker, col. cbn [tpc tst].
  destruct p; cbn [tpc]; try lia. destruct g; lia.
Qed.
Lemma id_wgt : forall n l, sum (wgt n) (map (fun x => x) l) = sum (wgt n) l.
Proof. intros n l. apply sum_map. reflexivity. Qed.

(** After a step the sum has changed by the change of the thread, if it was not asleep. *)
Lemma put_wgt : forall n w l t x x', nth_error l t = Some x -> w x = x ->
  sum (wgt n) (put (map w l) t x') = sum (wgt n) (map w l) - wgt n x + wgt n x'.
Proof.
  intros n w l t x x' N W. rewrite (put_sum (wgt n) (map w l) t x' (w x)); [ rewrite W; reflexivity | ].
  rewrite nth_error_map, N. reflexivity.
Qed.

Lemma finish_todo : forall h t x k tt e g, nth_error (ths h) t = Some x -> wake_helpers x = x ->
  4 * size h < wgt (size h) x ->
  todo (finish t (mkheap g tt k e (ths h))) < todo h.
Proof.
  intros h t x k tt e g N W H. unfold todo, size, finish in *. cbn [ths]. rewrite put_length, map_length.
  rewrite (put_wgt _ _ _ _ _ _ N W). pose proof (wake_helpers_wgt (Z.of_nat (length (ths h))) (ths h)).
  change (wgt (Z.of_nat (length (ths h))) (mkth Run CINACTIVE)) with 0. lia.
Qed.

Lemma start_walk_todo : forall h t x k tt e g g', nth_error (ths h) t = Some x -> wake_helpers x = x ->
  4 * size h + wgt (size h) (mkth (CWalk g) ENGAGED) < wgt (size h) x ->
  todo (start_walk g t (mkheap g' tt k e (ths h))) < todo h.
Proof.
  intros h t x k tt e g g' N W H. unfold todo, size, start_walk in *. cbn [ths]. rewrite put_length, map_length.
  rewrite (put_wgt _ _ _ _ _ _ N W). pose proof (wake_helpers_wgt (Z.of_nat (length (ths h))) (ths h)). lia.
Qed.

Lemma stay_todo : forall h t x x' k tt e g, nth_error (ths h) t = Some x ->
  wgt (size h) x' < wgt (size h) x ->
  todo (mkheap g tt k e (put (map (fun x => x) (ths h)) t x')) < todo h.
Proof.
  intros h t x x' k tt e g N H. unfold todo, size in *. cbn [ths]. rewrite put_length, map_length.
  rewrite (put_wgt _ (fun x => x) _ _ _ _ N eq_refl), id_wgt. lia.
Qed.

Lemma after_todo : forall h t x again k tt e g, nth_error (ths h) t = Some x -> wake_helpers x = x ->
  4 * size h < wgt (size h) x -> (again = true -> 2 * (4 * size h + 10) < wgt (size h) x) ->
  todo (after_walk again t (mkheap g tt k e (ths h))) < todo h.
Proof.
  intros h t x again k tt e g N W H HA. unfold after_walk. destruct again.
  - unfold start_evac. cbn [ths]. apply (stay_todo h t x); [ exact N | ]. specialize (HA eq_refl).
    change (wgt (size h) (mkth CEvac ENGAGED)) with (2 * (4 * size h + 10)). exact HA.
  - exact (finish_todo h t x k tt e g N W H).
Qed.

Lemma size_nonneg : forall h, 0 <= size h.
Proof. intros h. unfold size. lia. Qed.

Lemma step_todo : forall h t more again h', Inv h -> (gc h <> MARK -> again = false) ->
  step t (Continue more again) h = Some h' -> todo h' < todo h.
Proof.
  intros h t more again h' I A H. unfold step in H. destruct (nth_error (ths h) t) as [x|] eqn:N; [ | discriminate H ].
  destruct (i_ok h I t x N) as [OS OP]. pose proof (size_nonneg h) as SN.
  destruct x as [p s]. cbn [tpc tst] in *.
  destruct p as [| | | |g| | |g|g|g|]; try discriminate H;
    match type of H with Some ?u = Some ?v => assert (v = u) as -> by congruence; clear H end; cbn [okp] in OP.
  - (* HWoken *) unfold helper_loop. destruct (gc h); try destruct more; apply (stay_todo h t _ _ _ _ _ _ N); unfold wgt; cbn [tpc]; lia.
  - (* HWalk *) unfold helper_end. destruct (walk h - 1 =? 0).
    + unfold todo at 1, size at 1. cbn [ths]. rewrite put_length, map_length. fold (size h).
      rewrite (put_wgt (size h) wake_walker _ _ _ _ N eq_refl).
      pose proof (wake_walker_wgt (size h) (ths h)) as B. rewrite (i_col h I) in B.
      assert (one (gc h) <= 1) by (unfold one; destruct (is_inactive (gc h)); lia).
      unfold todo. change (wgt (size h) (mkth (HWalk g) s)) with 2. change (wgt (size h) (mkth HSleep ENGAGED)) with 0. lia.
    + apply (stay_todo h t _ _ _ _ _ _ N). unfold wgt; cbn [tpc]; lia.
  - (* CWoken *) unfold stop_world. destruct (u32 (sum running (ths h)) =? 0); [ destruct more | ].
    + apply (start_walk_todo h t _ _ _ _ _ _ N eq_refl). unfold wgt; cbn [tpc]; lia.
    + apply (finish_todo h t _ _ _ _ _ N eq_refl). unfold wgt; cbn [tpc]; lia.
    + apply (stay_todo h t _ _ _ _ _ _ N). unfold wgt; cbn [tpc]; lia.
  - (* CWalk *) destruct OP as [-> OP]. unfold collector_end. destruct (walk h - 1 =? 0).
    + apply (after_todo h t _ _ _ _ _ _ N eq_refl); unfold wgt; cbn [tpc].
      * destruct OP as [-> | ->]; lia.
      * intros ->. destruct OP as [-> | E]; [ lia | ]. rewrite E in A. discriminate A. discriminate.
    + apply (stay_todo h t _ _ _ _ _ _ N). unfold wgt; cbn [tpc]. destruct OP as [-> | ->]; lia.
  - (* CWWoken *) destruct OP as [-> OP]. unfold collector_woken. destruct (walk h =? 0).
    + replace h with (mkheap (gc h) (tts h) (walk h) (ev h) (ths h)) at 1 by (destruct h; reflexivity).
      apply (after_todo h t _ _ _ _ _ _ N eq_refl); unfold wgt; cbn [tpc].
      * destruct OP as [-> | ->]; lia.
      * intros ->. destruct OP as [-> | E]; [ lia | ]. rewrite E in A. discriminate A. discriminate.
    + apply (stay_todo h t _ _ _ _ _ _ N). unfold wgt; cbn [tpc]. destruct OP as [-> | ->]; lia.
  - (* CEvac *) unfold evac_end. destruct more.
    + apply (start_walk_todo h t _ _ _ _ _ _ N eq_refl). unfold wgt; cbn [tpc]; lia.
    + apply (after_todo h t _ _ _ _ _ _ N eq_refl); unfold wgt; cbn [tpc]; [ lia | ].
      intros ->. rewrite OP in A. discriminate A. discriminate.
Qed.

Lemma todo_nonneg : forall h, 0 <= todo h.
Proof.
  intros h. unfold todo. apply sum_nonneg. intros [p s]. pose proof (size_nonneg h). unfold wgt. cbn [tpc].
  destruct p as [| | | |g| | |g|g|g|]; try destruct g; lia.
Qed.

Lemma work_todo : forall k h h', work k h h' -> Inv h -> Z.of_nat k + todo h' <= todo h.
Proof.
  intros k h h' W. induction W as [h|k h t more again h1 h2 A ST W IH]; intros I; [ lia | ].
  pose proof (step_todo h t more again h1 I A ST). specialize (IH (inv_step h t _ h1 I ST)). lia.
Qed.

Lemma todo_bound : forall h, Inv h -> todo h <= 24 * size h + 50.
Proof.
  intros h I. unfold todo. pose proof (size_nonneg h) as SN.
  assert (B : forall l, sum (wgt (size h)) l <= 4 * Z.of_nat (length l) + 5 * (4 * size h + 10) * sum col l).
  { unfold sum. intros l. induction l as [|[p s] l IH]; cbn [fold_right length]; [ lia | ].
    assert (wgt (size h) (mkth p s) <= 4 + 5 * (4 * size h + 10) * col (mkth p s)).
    { unfold wgt, col. cbn [tpc]. destruct p as [| | | |g| | |g|g|g|]; try destruct g; lia. }
    nia. }
  specialize (B (ths h)). rewrite (i_col h I) in B. unfold one in B. unfold size in *. destruct (is_inactive (gc h)); lia.
Qed.

Lemma reach_length : forall n h, reachable n h -> length (ths h) = n.
Proof.
  intros n h R. induction R as [|h t a h' R IH ST]; [ cbn [init ths]; apply repeat_length | ].
  assert (P : forall w t x, length (put (map w (ths h)) t x) = n) by (intros; rewrite put_length, map_length; exact IH).
  unfold step in ST. destruct (nth_error (ths h) t) as [x|]; [ | discriminate ST ].
  assert (EN : forall c p, length (ths (engage c p t h)) = n).
  { intros c p. unfold engage. destruct (is_init (gc h)); [ destruct (_ =? 0) | ]; apply P. }
  assert (HL : forall more h0, length (ths h0) = n -> length (ths (helper_loop more t h0)) = n).
  { intros more h0 L. unfold helper_loop. destruct (gc h0); try destruct more; cbn [ths]; rewrite put_length, map_length; exact L. }
  assert (SW : forall ok h0, length (ths h0) = n -> length (ths (stop_world ok t h0)) = n).
  { intros ok h0 L. unfold stop_world. destruct (_ =? 0); [ destruct ok | ]; unfold start_walk, finish; cbn [ths];
      rewrite put_length, map_length; exact L. }
  assert (AW : forall again g n0 k e, length (ths (after_walk again t (mkheap g n0 k e (ths h)))) = n).
  { intros again g n0 k e. unfold after_walk, start_evac, finish. destruct again; cbn [ths]; apply P. }
  destruct (tpc x); destruct a; try discriminate ST;
    match type of ST with Some ?u = Some ?v => assert (v = u) as -> by congruence; clear ST end;
    try apply P.
  - apply EN.
  - destruct (is_inactive (gc h)); [ exact IH | apply HL, EN ].
  - destruct (is_inactive (gc h)); [ apply SW; unfold begin_collect; apply P | apply HL, EN ].
  - destruct (is_inactive (gc h)); [ apply P | apply HL, EN ].
  - apply HL, IH.
  - unfold helper_end. destruct (_ =? 0); apply P.
  - apply SW, IH.
  - unfold collector_end. destruct (_ =? 0); [ apply AW | apply P ].
  - unfold collector_woken. destruct (_ =? 0); [ | apply P ]. destruct h as [g0 n0 k0 e0 l0]. apply AW.
  - unfold evac_end. destruct more; [ unfold start_walk; apply P | apply AW ].
Qed.

Theorem collection_bounded : forall n h k h', Z.of_nat n < BOUND -> reachable n h -> work k h h' ->
  Z.of_nat k <= 24 * Z.of_nat n + 50.
Proof.
  intros n h k h' L R W. pose proof (inv_reachable n h L R) as I.
  pose proof (work_todo k h h' W I). pose proof (todo_nonneg h'). pose proof (todo_bound h I) as B.
  unfold size in B. rewrite (reach_length n h R) in B. lia.
Qed.

(** When nobody can go on, the collection has ended, or some thread runs a program,
    has been asked to stop, and the collector waits for it. *)
Theorem collection_ends : forall n h, Z.of_nat n < BOUND -> reachable n h ->
  (forall t more again, step t (Continue more again) h = None) ->
  gc h = INACTIVE \/
  (gc h = INIT /\ ev h = true /\ In Mutates (activities h)).
Proof.
  intros n h L R ST. pose proof (inv_reachable n h L R) as I.
  assert (D : gc h = INACTIVE \/ gc h <> INACTIVE) by (destruct (gc h); auto; right; discriminate).
  destruct D as [D|D]; [ left; exact D | right ].
  destruct (active_has_collector n h L R D) as (i & x & N & C).
  pose proof (sleeper_has_waker n h i x L R N) as W. destruct (i_ok h I i x N) as [_ O].
  pose proof (ST i true true) as S1. unfold step in S1. rewrite N in S1. unfold collects in C.
  destruct (tpc x) as [| | | |g| | |g|g|g|]; try discriminate C; try discriminate S1.
  - destruct W as (E1 & j & y & Ny & Dy). split; [ exact O | split; [ exact E1 | ] ].
    rewrite <- Dy. unfold activities. apply in_map. exact (nth_error_In _ _ Ny).
  - exfalso. destruct W as (j & y & Ny & Dy). pose proof (ST j true true) as S2. unfold step in S2.
    rewrite Ny, Dy in S2. discriminate S2.
Qed.

(** Two threads, from the moment when the world has stopped: 6 steps of 98. *)
Example two_end : exists h h', reachable 2 h /\ gc h = MARK /\ work 6 h h' /\ gc h' = INACTIVE /\
  activities h' = [Mutates; Mutates].
Proof.
  destruct (exec [(0%nat, Resume true); (1%nat, Resume true); (0%nat, Collect true); (1%nat, Help true); (0%nat, Continue true true)] (init 2)) as [h|] eqn:X;
    [ | discriminate X ].
  exists h. assert (R : reachable 2 h) by (eapply reachable_exec; [ apply R_init | exact X ]).
  vm_compute in X. injection X as <-.
  eexists. split; [ exact R | ]. split; [ reflexivity | ]. split; [ | split ].
  - eapply (W_step _ _ 1%nat true false); [ reflexivity | vm_compute; reflexivity | ].
    eapply (W_step _ _ 1%nat true false); [ reflexivity | vm_compute; reflexivity | ].
    eapply (W_step _ _ 0%nat true true); [ intros H; exfalso; apply H; reflexivity | vm_compute; reflexivity | ].
    eapply (W_step _ _ 0%nat true false); [ reflexivity | vm_compute; reflexivity | ].
    eapply (W_step _ _ 0%nat true false); [ reflexivity | vm_compute; reflexivity | ].
    eapply (W_step _ _ 1%nat true false); [ reflexivity | vm_compute; reflexivity | ].
    apply W_done.
  - reflexivity.
  - reflexivity.
Qed.

Print Assumptions collection_bounded.
Print Assumptions collection_ends.
