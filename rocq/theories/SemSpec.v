(** Specification of a counting semaphore. *)
From Coq Require Import ZArith List.
Import ListNotations.
Local Open Scope Z_scope.

Definition sum (l : list Z) : Z := fold_right Z.add 0 l.

(** What can be said of a call at one moment. *)
Inductive phase :=
| Out                  (* the thread is in no call *)
| Busy                 (* the thread is in a call and is not waiting for others *)
| Blocked (n c : Z).   (* in acquire(n), [c] units are missing, and nobody has woken the thread *)
