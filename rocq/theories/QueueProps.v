(** Properties C134, C135, C136: queues and stacks shared by threads. *)
From Coq Require Import ZArith List Lia Bool ZifyBool.
Import ListNotations.
From Verif Require Import Base QueueSpec SemSpec QueueModel QueueProofs.
Local Open Scope Z_scope.
Ltac Zify.zify_post_hook ::= idtac.

(** C134: in every interleaving, with counts which are integers, what the threads
    have pushed and popped is a run of a queue (stack): no element is lost, doubled
    or out of order, and each pop gives as many elements as it was asked for. *)
Theorem queue_linearizable : forall fifo n s, qreachable true fifo n s ->
  replay fifo [] (hist s) = Some (contents fifo s) /\ thrown s = false /\
  size s = 2 * Z.of_nat (length (contents fifo s)).
Proof.
  intros fifo n s H. pose proof (qinv_reachable fifo n s H) as I.
  split; [ exact (q_hist _ _ I) | ]. split; [ exact (q_thrown _ _ I) | exact (q_size _ _ I) ].
Qed.

(** In particular a queue gives the pushed elements in their order. *)
Definition pushed (h : list event) : list Z := concat (map (fun e => match e with EPush es => es | _ => [] end) h).
Definition popped (h : list event) : list Z := concat (map (fun e => match e with EPop _ es => es | _ => [] end) h).
Lemma replay_order : forall h st st', replay true st h = Some st' -> st ++ pushed h = popped h ++ st'.
Proof.
  induction h as [|[es|n es] h IH]; intros st st' H; cbn [replay] in H.
  - injection H as <-. cbn. apply app_nil_r.
  - change (pushed (EPush es :: h)) with (es ++ pushed h). change (popped (EPush es :: h)) with (popped h).
    rewrite app_assoc. apply IH. exact H.
  - change (pushed (EPop n es :: h)) with (pushed h). change (popped (EPop n es :: h)) with (es ++ popped h).
    destruct (Nat.leb n (length st)); [ | discriminate H ]. cbv zeta in H.
    unfold eq_lists in H. destruct (list_eq_dec Z.eq_dec es (firstn n st)) as [->|]; [ | discriminate H ].
    rewrite <- app_assoc, <- (IH _ _ H), app_assoc, firstn_skipn. reflexivity.
Qed.
Theorem queue_order : forall n s, qreachable true true n s ->
  pushed (hist s) = popped (hist s) ++ contents true s.
Proof.
  intros n s H. destruct (queue_linearizable true n s H) as [R _]. exact (replay_order _ _ _ R).
Qed.

(** The array of a queue keeps at most 8, or a quarter of its size, elements which
    were popped, and at most 128 of them. *)
Theorem queue_keeps_few : forall n s, qreachable true true n s ->
  Z.of_nat (length (elems s)) <= Z.of_nat (length (contents true s)) + Z.max 8 (Z.min 128 (Z.of_nat (length (contents true s)) / 4)).
Proof.
  intros n s H. pose proof (qinv_reachable true n s H) as I.
  destruct (q_front _ _ I) as (f & F1 & F2 & _). pose proof (q_few _ _ I eq_refl) as F3. pose proof (q_size _ _ I) as SZ.
  assert (CL : Z.of_nat (length (contents true s)) = Z.of_nat (length (elems s)) - f).
  { unfold contents. rewrite F1, half, skipn_length. lia. }
  assert (Z.max 8 (Z.min 128 (Z.of_nat (length (contents true s)) / 4)) >= f); [ | lia ].
  clear - F3 F1 SZ F2 CL. pose proof (Z.div_mod (Z.of_nat (length (contents true s))) 4 ltac:(lia)) as D.
  pose proof (Z.mod_pos_bound (Z.of_nat (length (contents true s))) 4 ltac:(lia)) as B. lia.
Qed.

Fixpoint qexec (fifo : bool) (l : list (nat * qact)) (s : coll) : option coll :=
  match l with
  | [] => Some s
  | (t, a) :: r => match qstep fifo t a s with Some s' => qexec fifo r s' | None => None end
  end.
Lemma qexec_reachable : forall ints fifo n l s s', qreachable ints fifo n s ->
  (ints = true -> forall t one h, In (t, Pop one h) l -> Z.even h = true) ->
  qexec fifo l s = Some s' -> qreachable ints fifo n s'.
Proof.
  intros ints fifo n l. induction l as [|[t a] l IH]; intros s s' H EV E; cbn [qexec] in E.
  - injection E as <-. exact H.
  - destruct (qstep fifo t a s) as [s1|] eqn:F; [ | discriminate E ].
    apply (IH s1 s'); [ | | exact E ].
    + apply (QR_step ints fifo n s t a s1 H); [ | exact F ].
      intros HI one h ->. apply (EV HI t one h). left. reflexivity.
    + intros HI t' one h IN. apply (EV HI t' one h). right. exact IN.
Qed.
Definition push (t : nat) (es : list Z) : list (nat * qact) := [(t, Push es); (t, QContinue)].
Definition pop (t : nat) (h : Z) : list (nat * qact) := [(t, Pop false h); (t, QContinue); (t, QContinue)].
Definition pop1 (t : nat) : list (nat * qact) := [(t, Pop true 0); (t, QContinue); (t, QContinue)].

(** Two threads push while a third waits for 3 elements. *)
Example queue_ex :
  let run fifo := match qexec fifo ([(2%nat, Pop false 6); (0%nat, Push [1; 2]); (1%nat, Push [3; 4]); (1%nat, QContinue);
      (2%nat, QContinue); (0%nat, QContinue); (2%nat, QContinue); (2%nat, QContinue)] ++ pop1 0) (qinit 3) with
    | Some s => (hist s, contents fifo s, value s) | None => ([], [], 0) end in
  run true = ([EPush [1; 2]; EPush [3; 4]; EPop 3 [1; 2; 3]; EPop 1 [4]], [], 0) /\
  run false = ([EPush [1; 2]; EPush [3; 4]; EPop 3 [2; 3; 4]; EPop 1 [1]], [], 0).
Proof. split; vm_compute; reflexivity. Qed.

(** C135: the same for every count which acquire accepts is false: after push of 3
    elements, pop(1.5) twice takes them all, with 2 units of the semaphore; a pop
    of the third unit then finds no element and throws. *)
Theorem queue_fraction_refuted : exists s, qreachable false true 1 s /\
  hist s = [EPush [1; 2; 3]; EPop 1 [1]; EPop 1 [2; 3]; EPop 1 []] /\ thrown s = true.
Proof.
  destruct (qexec true (push 0 [1; 2; 3] ++ pop 0 3 ++ pop 0 3 ++ pop1 0) (qinit 1)) as [s|] eqn:E; [ | vm_compute in E; discriminate E ].
  exists s. split.
  - refine (qexec_reachable false true 1 _ (qinit 1) s (QR_init _ _ _) _ E). discriminate.
  - vm_compute in E. injection E as <-. split; reflexivity.
Qed.

(** C136: pops of single elements: when nobody can continue, a thread waits only
    if there are no elements (release has not failed). *)
Theorem queue_pop_returns_partial : forall fifo n s, qreachable true fifo n s ->
  (forall t, qstep fifo t QContinue s = None) -> lost s = 0 ->
  (forall t one h c, nth_error (qpcs s) t = Some (QAcq one h c) -> h = 2) ->
  forall t p, nth_error (qpcs s) t = Some p -> p <> QIdle -> contents fifo s = [].
Proof.
  intros fifo n s H ST L H1 t p N NE. pose proof (qinv_reachable fifo n s H) as I.
  assert (HP : forall t p, nth_error (qpcs s) t = Some p -> p = QIdle \/ exists one h c, p = QAcq one h c /\ value s = 0).
  { intros t' q Hq. pose proof (ST t') as R. unfold qstep in R. rewrite Hq in R.
    pose proof (q_pcs _ _ I _ _ Hq) as OK. pose proof (q_value _ _ I) as V.
    destruct q as [|k|one h c|one h]; cbn [qrun] in R; cbv zeta in R.
    - left. reflexivity.
    - destruct (value s + k <=? MAX_SEM); discriminate R.
    - right. exists one, h, c. split; [ reflexivity | ]. destruct OK as (m & _ & OK & _).
      destruct (c <? value s) eqn:E1.
      + destruct (c =? 0) eqn:E2; [ lia | discriminate R ].
      + destruct (value s =? 0) eqn:E2; [ lia | discriminate R ].
    - destruct (if fifo then queue_take one h s else stack_take h s) as [[[[a b] c] d] e]. discriminate R. }
  assert (V0 : value s = 0) by (destruct (HP t p N) as [->|(? & ? & ? & _ & V)]; [ congruence | exact V ]).
  assert (S0 : sum (map held (qpcs s)) = 0).
  { pose proof (q_pcs _ _ I) as OK. clear - HP H1 OK. revert HP H1 OK. generalize (qpcs s) as l. unfold sum.
    induction l as [|q l IH]; intros HP H1 OK; [ reflexivity | ]. cbn [map fold_right].
    rewrite IH; [ | intros u r Hr; exact (HP (S u) r Hr) | intros u o h c Hr; exact (H1 (S u) o h c Hr)
                 | intros u r Hr; exact (OK (S u) r Hr) ].
    destruct (HP O q eq_refl) as [->|(o & h & c & -> & _)]; [ reflexivity | ].
    pose proof (H1 O o h c eq_refl) as ->. destruct (OK O _ eq_refl) as (m & Hm & Hc & _).
    cbn [held]. change (2 / 2) with 1. lia. }
  pose proof (q_sum _ _ I) as SU. destruct (contents fifo s); [ reflexivity | cbn [length] in SU; lia ].
Qed.

(** In general a thread can wait for ever for 2 elements when there are 2: two
    threads have taken one unit each. *)
Theorem queue_pop_returns_refuted : forall fifo, exists s, qreachable true fifo 3 s /\
  (forall t, qstep fifo t QContinue s = None) /\ contents fifo s = [7; 8] /\
  qpcs s = [QAcq false 4 1; QAcq false 4 1; QIdle].
Proof.
  intros fifo.
  destruct (qexec fifo ([(0%nat, Pop false 4); (1%nat, Pop false 4)] ++ push 2 [7] ++ [(0%nat, QContinue)] ++
                        push 2 [8] ++ [(1%nat, QContinue)]) (qinit 3)) as [s|] eqn:E;
    [ | destruct fifo; vm_compute in E; discriminate E ].
  exists s. split.
  - refine (qexec_reachable true fifo 3 _ (qinit 3) s (QR_init _ _ _) _ E).
    intros _ t one h IN. cbn in IN. repeat (destruct IN as [IN|IN]; [ try discriminate IN; injection IN as <- <- <-; reflexivity | ]). destruct IN.
  - destruct fifo; vm_compute in E; injection E as <-.
    + split; [ intros [|[|[|[|t]]]]; reflexivity | split; reflexivity ].
    + split; [ intros [|[|[|[|t]]]]; reflexivity | split; reflexivity ].
Qed.

Print Assumptions queue_linearizable.
Print Assumptions queue_order.
Print Assumptions queue_keeps_few.
Print Assumptions queue_fraction_refuted.
Print Assumptions queue_pop_returns_partial.
Print Assumptions queue_pop_returns_refuted.
