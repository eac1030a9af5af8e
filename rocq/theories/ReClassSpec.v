From Coq Require Import ZArith List.
Import ListNotations.
Open Scope Z_scope.

(* A character is listed by a class iff one of the ranges contains it. *)
Definition listed (l : list (Z * Z)) (c : Z) : Prop := exists b e, In (b, e) l /\ b <= c <= e.

(* Ranges as written in a class: ordered ends, codes of a 24-bit character. *)
Definition valid_range (r : Z * Z) : Prop := 0 <= fst r <= snd r /\ snd r < 2 ^ 24.

(* Writing the range b-e after the ranges l is harmless unless l already lists
   b-1..e+1 in full and also a character further up which is not connected to e. *)
Definition hidden (l : list (Z * Z)) (b e : Z) : Prop :=
  (forall c, b - 1 <= c <= e + 1 -> listed l c) /\
  exists x, e < x /\ listed l x /\ exists g, e < g < x /\ ~ listed l g.

Inductive no_hidden : list (Z * Z) -> list (Z * Z) -> Prop :=
| nh_nil : forall l, no_hidden l []
| nh_cons : forall l b e t, ~ hidden l b e -> no_hidden (l ++ [(b, e)]) t -> no_hidden l ((b, e) :: t).

(* No character is listed by two ranges. *)
Definition disjoint_ranges (l : list (Z * Z)) : Prop :=
  ForallOrdPairs (fun x y => snd x < fst y \/ snd y < fst x) l.
