(** Properties C131, C132, C133: semaphores. *)
From Coq Require Import ZArith List Lia Bool ZifyBool.
Import ListNotations.
From Verif Require Import Base SemSpec SemModel SemProofs.
Local Open Scope Z_scope.
Ltac Zify.zify_post_hook ::= idtac.

Lemma sum_nonneg : forall v (l : list pc), (forall t p, nth_error l t = Some p -> okpc v p) -> 0 <= sum (map part l).
Proof.
  intros v l. unfold sum. induction l as [|p l IH]; intros H; cbn [map fold_right]; [ lia | ].
  pose proof (IH (fun t q Hq => H (S t) q Hq)) as H1. pose proof (H O p eq_refl) as H2.
  destruct p; cbn [okpc part] in *; unfold cnt in *; lia.
Qed.

(** C131: in every interleaving, the value stays in its range, no unit appears or
    vanishes, calls of acquire which have returned have together taken no more than
    was there, and at most one thread has the mutex. *)
Theorem sem_conserves : forall v0 n s, 0 <= v0 <= 2 ^ 31 - 1 -> reachable v0 n s ->
  0 <= value s <= 2 ^ 31 - 1 /\
  value s + sum (map part (pcs s)) + done s = v0 + given s /\
  done s <= v0 + given s /\
  forall t t' p p', nth_error (pcs s) t = Some p -> nth_error (pcs s) t' = Some p' ->
    holds p = true -> holds p' = true -> t = t'.
Proof.
  intros v0 n s HV H. assert (HV' : 0 <= v0 <= MAX_SEM) by (unfold MAX_SEM; lia).
  pose proof (inv_reachable v0 n s HV' H) as I.
  pose proof (i_range _ _ I) as RG. pose proof (i_sum _ _ I) as SU.
  pose proof (sum_nonneg _ _ (i_pcs _ _ I)) as NN. unfold MAX_SEM in RG.
  split; [ lia | ]. split; [ lia | ]. split; [ lia | ].
  intros t t' p p' N N' HH HH'.
  pose proof (proj1 (i_holds _ _ I _ _ N) HH) as E1. pose proof (proj1 (i_holds _ _ I _ _ N') HH') as E2. congruence.
Qed.

(** C132: nobody is left waiting.  When no thread can continue, each is outside of
    calls, or blocked in acquire and the value is 0; units not in the value are
    with the blocked threads. *)
Theorem sem_no_lost_wakeup : forall v0 n s, 0 <= v0 <= 2 ^ 31 - 1 -> reachable v0 n s ->
  (forall t ok, step t (Continue ok) s = None) ->
  (forall t p, nth_error (pcs s) t = Some p ->
     match phase_of p with
     | Out => True
     | Busy => False
     | Blocked _ _ => value s = 0 /\ v0 + given s - done s = sum (map part (pcs s))
     end).
Proof.
  intros v0 n s HV H ST t p N. assert (HV' : 0 <= v0 <= MAX_SEM) by (unfold MAX_SEM; lia).
  pose proof (inv_reachable v0 n s HV' H) as I. pose proof (i_sum _ _ I) as SU.
  destruct (stuck v0 s I ST) as [_ S2].
  destruct (S2 t p N) as [->|(k & c & -> & V0)]; cbn [phase_of]; [ exact Logic.I | ].
  split; [ exact V0 | lia ].
Qed.

(** When all threads acquire one unit at a time, a blocked thread means that there
    is no unit. *)
Theorem sem_single_units : forall v0 n s, 0 <= v0 <= 2 ^ 31 - 1 -> reachable v0 n s ->
  (forall t ok, step t (Continue ok) s = None) ->
  (forall t p k c, nth_error (pcs s) t = Some p -> phase_of p = Blocked k c -> k = 1) ->
  forall t p k c, nth_error (pcs s) t = Some p -> phase_of p = Blocked k c -> done s = v0 + given s.
Proof.
  intros v0 n s HV H ST H1 t p k c N PH. assert (HV' : 0 <= v0 <= MAX_SEM) by (unfold MAX_SEM; lia).
  pose proof (inv_reachable v0 n s HV' H) as I.
  pose proof (sem_no_lost_wakeup v0 n s HV H ST t p N) as W. rewrite PH in W. destruct W as [_ W].
  assert (Z0 : sum (map part (pcs s)) = 0); [ | lia ].
  destruct (stuck v0 s I ST) as [_ S2]. pose proof (i_pcs _ _ I) as OK. clear - S2 OK H1.
  revert S2 OK H1. generalize (value s) as v. generalize (pcs s) as l. unfold sum.
  induction l as [|q l IH]; intros v S2 OK H1; [ reflexivity | ]. cbn [map fold_right].
  rewrite (IH v); [ | intros u r Hr; exact (S2 (S u) r Hr) | intros u r Hr; exact (OK (S u) r Hr)
                   | intros u r k c Hr; exact (H1 (S u) r k c Hr) ].
  destruct (S2 O q eq_refl) as [->|(k & c & -> & _)]; [ reflexivity | ].
  pose proof (H1 O _ k c eq_refl eq_refl) as K. pose proof (OK O _ eq_refl) as O1. cbn [okpc] in O1. unfold cnt in O1.
  cbn [part]. lia.
Qed.

(** Runs. *)
Fixpoint exec (l : list (nat * act)) (s : sem) : option sem :=
  match l with
  | [] => Some s
  | (t, a) :: r => match step t a s with Some s' => exec r s' | None => None end
  end.
Lemma exec_reachable : forall v n l s s', reachable v n s -> exec l s = Some s' -> reachable v n s'.
Proof.
  intros v n l. induction l as [|[t a] l IH]; intros s s' H E; cbn [exec] in E.
  - injection E as <-. exact H.
  - destruct (step t a s) as [s1|] eqn:F; [ | discriminate E ]. exact (IH s1 s' (R_step v n s t a s1 H F) E).
Qed.
Definition go_on (t : nat) (k : nat) : list (nat * act) := repeat (t, Continue true) k.
Definition block (t : nat) (n : Z) : list (nat * act) := (t, Acquire n) :: go_on t 4.
Definition release (t : nat) (n : Z) : list (nat * act) := (t, Release n) :: go_on t 5.

Example sem_ex :
  exec (block 0 1 ++ block 1 1 ++ release 2 2) (init 0 3) =
    Some (mksem 2 None [AWoken 1 1; AWoken 1 1; Idle] 2 0) /\
  exec (block 0 1 ++ block 1 1 ++ release 2 2 ++ go_on 0 4 ++ go_on 1 4) (init 0 3) =
    Some (mksem 0 None [Idle; Idle; Idle] 2 2) /\
  exec (block 0 3 ++ release 2 2 ++ go_on 0 5) (init 0 3) =
    Some (mksem 0 None [AWaiting 3 1; Idle; Idle] 2 0) /\
  exec (release 0 2147483647 ++ [(0%nat, Release 1)] ++ go_on 0 3) (init 0 3) =
    Some (mksem 2147483647 None [Idle; Idle; Idle] 2147483647 0).
Proof. repeat split; vm_compute; reflexivity. Qed.

(** C133: two threads, acquire(2) each, 2 units: both may be blocked for ever,
    each with one of the units. *)
Theorem sem_acquire_returns_refuted : exists s,
  reachable 0 3 s /\ (forall t ok, step t (Continue ok) s = None) /\
  given s - done s = 2 /\ map phase_of (pcs s) = [Blocked 2 1; Blocked 2 1; Out].
Proof.
  exists (mksem 0 None [AWaiting 2 1; AWaiting 2 1; Idle] 2 0).
  split; [ | split; [ | split; reflexivity ] ].
  - apply (exec_reachable 0 3 (block 0 2 ++ release 2 1 ++ go_on 0 5 ++ block 1 2 ++ release 2 1 ++ go_on 1 5 ++ go_on 0 3) (init 0 3)).
    + constructor.
    + vm_compute. reflexivity.
  - intros [|[|[|[|t]]]] ok; reflexivity.
Qed.

Print Assumptions sem_conserves.
Print Assumptions sem_no_lost_wakeup.
Print Assumptions sem_single_units.
Print Assumptions sem_acquire_returns_refuted.
