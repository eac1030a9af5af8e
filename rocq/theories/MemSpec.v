(* What users of memory pools and vectors rely on. *)
From Coq Require Import ZArith List.
Import ListNotations.
Local Open Scope Z_scope.

(* ranges of addresses [a, a + n) *)
Definition disjoint (x y : Z * Z) : Prop := fst x + snd x <= fst y \/ fst y + snd y <= fst x.
Definition inside (x y : Z * Z) : Prop := fst y <= fst x /\ fst x + snd x <= fst y + snd y.

Fixpoint pairwise {A} (R : A -> A -> Prop) (l : list A) : Prop :=
  match l with [] => True | x :: l => Forall (R x) l /\ pairwise R l end.

(* an allocator may return a for a request of n bytes while the given ranges are in use *)
Definition malloc_ok (used : list (Z * Z)) (n a : Z) : Prop :=
  a = 0 \/ (0 < a /\ a mod 16 = 0 /\ a + n <= 2 ^ 64 /\ Forall (disjoint (a, Z.max n 1)) used).

(* the contents of a vector after a resize *)
Definition resized (old new : list Z) (n : Z) : Prop :=
  Z.of_nat (length new) = n /\ firstn (length old) new = firstn (length new) old.
