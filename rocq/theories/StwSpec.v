(** Specification of a stop-the-world collection: what threads may do at the same
    time, independent of how they agree about it. *)
From Coq Require Import ZArith List Bool.
Import ListNotations.

(** What a thread does at a moment.  [Mutates]: it runs a program, so it reads and
    writes objects; [Parked]: its context is suspended; [Sleeps]: it waits on a
    condition variable; [Wakes]: it has been woken up and wants the mutex. *)
Inductive activity :=
| Mutates | Parked | Sleeps | Wakes | Marks | Evacuates | Updates.

Definition touches_heap (a : activity) : bool :=
  match a with Mutates | Marks | Evacuates | Updates => true | _ => false end.

(** May two threads do these things at the same time?  Many threads may run the
    program, many may mark, many may update pointers, but nothing may be mixed, and
    evacuation is for one thread. *)
Definition together (a b : activity) : bool :=
  match a, b with
  | Mutates, Mutates | Marks, Marks | Updates, Updates => true
  | _, _ => negb (touches_heap a && touches_heap b)
  end.

Definition exclusive (l : list activity) : Prop :=
  forall i j a b, i <> j -> nth_error l i = Some a -> nth_error l j = Some b -> together a b = true.

(** Every thread of [l] is stuck. *)
Definition all_asleep (l : list activity) : Prop := forall a, In a l -> a = Parked \/ a = Sleeps.
