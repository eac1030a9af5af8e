(** Model of semaphores, modules/kos_mod_threads.c:273-439: threads which call
    acquire and release, as interleaved steps.

    The memory is sequentially consistent.  Suspending and resuming of contexts
    (they let the garbage collector run) and exceptions for a bad count, which
    precede everything else (277-302), are left out. *)
From Coq Require Import ZArith List Lia Bool ZifyBool.
Import ListNotations.
From Verif Require Import Base SemSpec.
Local Open Scope Z_scope.

(** KOS_MAX_SEM, kos_mod_threads.c:22. *)
Definition MAX_SEM : Z := 2147483647.

(** Where a thread is.  [n] is the argument, [c] the variable [count], [susp]
    the variable [suspended], [old] the variable [old_value]. *)
Inductive pc :=
| Idle
| ARead (n c : Z) (susp : bool)        (* at line 343 *)
| ALock (n c : Z)                      (* at line 351 *)
| AWait (n c : Z)                      (* at line 358, with the mutex *)
| AWaiting (n c : Z)                   (* within kos_wait_cond_var *)
| AWoken (n c : Z)                     (* within kos_wait_cond_var, to lock the mutex *)
| ACas (n c : Z) (susp : bool) (old : Z)  (* at line 363 *)
| ALeave (n : Z) (susp : bool)         (* at line 369 *)
| RLock (n : Z)                        (* at line 411 *)
| RRead (n : Z)                        (* at line 414 *)
| RCas (n old : Z)                     (* at line 429 *)
| RFail                                (* at line 418 *)
| RUnlock                              (* at line 431 *)
| RCast.                               (* at line 433 *)

(** [given] and [done] are ghosts: the sums of the counts of calls of release
    which have increased the value, and of calls of acquire which have returned. *)
Record sem := mksem {
  value : Z;
  mutex : option nat;
  pcs : list pc;
  given : Z;
  done : Z
}.

Fixpoint set_pc (l : list pc) (t : nat) (p : pc) : list pc :=
  match l, t with
  | [], _ => []
  | _ :: r, O => p :: r
  | x :: r, S k => x :: set_pc r k p
  end.

Definition go (s : sem) (t : nat) (p : pc) : sem :=
  mksem (value s) (mutex s) (set_pc (pcs s) t p) (given s) (done s).
Definition with_mutex (s : sem) (m : option nat) : sem :=
  mksem (value s) m (pcs s) (given s) (done s).
Definition with_value (s : sem) (v : Z) : sem :=
  mksem v (mutex s) (pcs s) (given s) (done s).

(** kos_broadcast_cond_var *)
Definition wake (p : pc) : pc := match p with AWaiting n c => AWoken n c | _ => p end.

(** What a thread does at one moment: begin a call, continue, where [ok] tells if
    a weak compare and swap may succeed, or wake up without a reason. *)
Inductive act := Acquire (n : Z) | Release (n : Z) | Continue (ok : bool) | Spurious.

(** [dec_value], line 344. *)
Definition dec (old c : Z) : Z := if c <? old then c else old.

(** One step of thread [t]; [None] if it cannot do it. *)
Definition run (ok : bool) (t : nat) (p : pc) (s : sem) : option sem :=
  match p with
  | Idle | AWaiting _ _ => None
  | ARead n c susp =>
      let old := value s in
      if dec old c =? 0 then Some (go s t (if susp then AWait n c else ALock n c))
      else Some (go s t (ACas n c susp old))
  | ALock n c | AWoken n c =>
      match mutex s with
      | None => Some (go (with_mutex s (Some t)) t (ARead n c true))
      | Some _ => None
      end
  | AWait n c => Some (go (with_mutex s None) t (AWaiting n c))
  | ACas n c susp old =>
      if ok && (value s =? old) then
        let s1 := with_value s (u32 (old - dec old c)) in
        let c1 := u32 (c - dec old c) in
        Some (go s1 t (if c1 =? 0 then ALeave n susp else ARead n c1 susp))
      else Some (go s t (ARead n c susp))
  | ALeave n susp =>
      let s1 := if susp then with_mutex s None else s in
      Some (mksem (value s1) (mutex s1) (set_pc (pcs s1) t Idle) (given s1) (done s1 + n))
  | RLock n =>
      match mutex s with
      | None => Some (go (with_mutex s (Some t)) t (RRead n))
      | Some _ => None
      end
  | RRead n =>
      let old := value s in
      let max_inc := u32 (MAX_SEM - old) in
      if max_inc <? n then Some (go s t RFail) else Some (go s t (RCas n old))
  | RCas n old =>
      if ok && (value s =? old) then
        Some (mksem (u32 (old + n)) (mutex s) (set_pc (pcs s) t RUnlock) (given s + n) (done s))
      else Some (go s t (RRead n))
  | RFail => Some (go (with_mutex s None) t Idle)
  | RUnlock => Some (go (with_mutex s None) t RCast)
  | RCast => Some (mksem (value s) (mutex s) (set_pc (map wake (pcs s)) t Idle) (given s) (done s))
  end.

Definition step (t : nat) (a : act) (s : sem) : option sem :=
  match nth_error (pcs s) t with
  | None => None
  | Some p =>
      match a, p with
      | Acquire n, Idle => if (1 <=? n) && (n <=? MAX_SEM) then Some (go s t (ARead n n false)) else None
      | Release n, Idle => if (1 <=? n) && (n <=? MAX_SEM) then Some (go s t (RLock n)) else None
      | Continue ok, _ => run ok t p s
      | Spurious, AWaiting n c => Some (go s t (AWoken n c))
      | _, _ => None
      end
  end.

(** The constructor, 195-268: a value from 0 to KOS_MAX_SEM. *)
Definition init (v : Z) (threads : nat) : sem := mksem v None (repeat Idle threads) 0 0.

Inductive reachable (v : Z) (threads : nat) : sem -> Prop :=
| R_init : reachable v threads (init v threads)
| R_step : forall s t a s', reachable v threads s -> step t a s = Some s' -> reachable v threads s'.

(** Units a thread has taken in a call of acquire which has not returned. *)
Definition part (p : pc) : Z :=
  match p with
  | ARead n c _ | ALock n c | AWait n c | AWaiting n c | AWoken n c | ACas n c _ _ => n - c
  | ALeave n _ => n
  | _ => 0
  end.

Definition phase_of (p : pc) : phase :=
  match p with Idle => Out | AWaiting n c => Blocked n c | _ => Busy end.
