(* What random numbers should be. *)
From Coq Require Import ZArith List Lia Bool.
Local Open Scope Z_scope.

(* f splits the raw numbers 0..n-1 evenly between the results 0..k-1: every result has the same number q of raw numbers *)
Definition evenly_split (n k : Z) (f : Z -> option Z) : Prop :=
  (forall r v, 0 <= r < n -> f r = Some v -> 0 <= v < k) /\
  exists q, 0 < q /\ forall v, 0 <= v < k -> exists g : Z -> Z,
    (forall j, 0 <= j < q -> 0 <= g j < n /\ f (g j) = Some v) /\
    (forall i j, 0 <= i < q -> 0 <= j < q -> g i = g j -> i = j) /\
    (forall r, 0 <= r < n -> f r = Some v -> exists j, 0 <= j < q /\ r = g j).

Fixpoint iter {A : Type} (n : nat) (f : A -> A) (x : A) : A := match n with O => x | S n' => iter n' f (f x) end.
