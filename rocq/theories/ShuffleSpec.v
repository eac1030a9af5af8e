(** Specification of shuffling. *)
From Coq Require Import ZArith List.
Import ListNotations.
Local Open Scope Z_scope.

(** Draws a random generator may give: [n] numbers from 0 to [mx]. *)
Definition in_range (n : nat) (mx : Z) (draws : list Z) : Prop :=
  length draws = n /\ Forall (fun d => 0 <= d <= mx) draws.

(** All lists of [n] numbers below [m]. *)
Fixpoint all_draws (n m : nat) : list (list Z) :=
  match n with
  | O => [[]]
  | S k => flat_map (fun ds => map (fun d => Z.of_nat d :: ds) (seq 0 m)) (all_draws k m)
  end.

(** How many of the draws give the result [r]. *)
Definition same_list (a b : list Z) : bool := if list_eq_dec Z.eq_dec a b then true else false.
Definition ways (f : list Z -> option (list Z)) (draws : list (list Z)) (r : list Z) : nat :=
  length (filter (fun ds => match f ds with Some x => same_list x r | None => false end) draws).
