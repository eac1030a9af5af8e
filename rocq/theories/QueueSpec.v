(** Specification of queues and stacks shared by threads: what happens is a
    sequence of pushes and pops of a list. *)
From Coq Require Import ZArith List.
Import ListNotations.
Local Open Scope Z_scope.

Inductive event :=
| EPush (es : list Z)
| EPop (n : nat) (es : list Z).   (* pop of [n] elements gave [es] *)

Definition eq_lists (a b : list Z) : bool := if list_eq_dec Z.eq_dec a b then true else false.

(** Elements after the events, [None] if one of them is not possible.  A queue
    gives the oldest elements, a stack the latest, both in the order of pushing. *)
Fixpoint replay (fifo : bool) (st : list Z) (h : list event) : option (list Z) :=
  match h with
  | [] => Some st
  | EPush es :: r => replay fifo (st ++ es) r
  | EPop n es :: r =>
      if Nat.leb n (length st) then
        let k := (length st - n)%nat in
        if fifo then
          if eq_lists es (firstn n st) then replay fifo (skipn n st) r else None
        else
          if eq_lists es (skipn k st) then replay fifo (firstn k st) r else None
      else None
  end.
