(** Names of imported modules, and ordering of addresses. *)
From Coq Require Import ZArith List Lia Bool ZifyBool.
Import ListNotations.
Local Open Scope Z_scope.

(** The parts of a path, separated by slashes. *)
Fixpoint join (parts : list (list Z)) : list Z :=
  match parts with
  | [] => []
  | [t] => t
  | t :: r => t ++ [47] ++ join r
  end.

(** What kos_red_black.h needs from a comparison function on keys [K]. *)
Definition total_order_on (K : Z -> Prop) (cmp : Z -> Z -> Z) : Prop :=
  (forall a b, K a -> K b -> (cmp a b = 0 <-> a = b)) /\
  (forall a b, K a -> K b -> (cmp a b < 0 <-> 0 < cmp b a)) /\
  (forall a b c, K a -> K b -> K c -> cmp a b < 0 -> cmp b c < 0 -> cmp a c < 0).

(** User addresses of a 64-bit process. *)
Definition address (a : Z) : Prop := 0 <= a < 2 ^ 47 /\ a mod 8 = 0.
