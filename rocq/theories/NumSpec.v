(* Meaning of numbers, equality of values and of native integers. *)
From Coq Require Import ZArith List Lia Bool.
Import ListNotations.
From Verif Require Import Base NumModel.
Local Open Scope Z_scope.

(* The mathematical value of a number in units of 2^-1074; every finite double and every integer is
   a whole number of these. *)
Inductive mval := MNan | MNeg | MPos | MVal (u : Z).
Definition dval (d : dbl) : mval :=
  match d with
  | DNan => MNan | DInf true => MNeg | DInf false => MPos
  | DFin m e => MVal (m * 2 ^ (e + 1074))
  end.
Definition ival (n : Z) : mval := MVal (n * 2 ^ 1074).

Definition is_num (v : val) : Prop := match v with VSmall _ | VInt _ _ | VFlt _ _ => True | _ => False end.
Definition value (v : val) : mval :=
  match v with VSmall n => ival n | VInt _ n => ival n | VFlt _ d => dval d | _ => MNan end.
Definition is_nan (v : val) : Prop := exists a, v = VFlt a DNan.

Definition mlt (x y : mval) : Prop :=
  match x, y with
  | MVal a, MVal b => a < b
  | MNeg, MVal _ | MNeg, MPos | MVal _, MPos => True
  | _, _ => False
  end.
Definition meq (x y : mval) : Prop := x = y /\ x <> MNan.

(* values of the implementation: 63-bit small integers, 64-bit integers, IEEE doubles *)
Definition vwf (v : val) : Prop :=
  match v with
  | VSmall n => - 2 ^ 62 <= n < 2 ^ 62
  | VInt _ n => is_int64 n
  | VFlt _ d => dwf d
  | _ => True
  end.
(* an integer which a double represents exactly *)
Definition exact_int (v : val) : Prop :=
  match v with VSmall n | VInt _ n => Z.abs n <= 2 ^ 53 | _ => True end.
Definition is_int (v : val) : Prop := match v with VSmall _ | VInt _ _ => True | _ => False end.

(* opposite result *)
Definition flip (c : cres) : cres := match c with CLt => CGt | CGt => CLt | _ => c end.

(* An assumption on the comparison of strings: exchanging the operands exchanges the sign *)
Definition antisymmetric (strcmp : list Z -> list Z -> Z) : Prop :=
  forall a b, Z.sgn (strcmp a b) = - Z.sgn (strcmp b a).
Definition separating (strcmp : list Z -> list Z -> Z) : Prop := forall a b, strcmp a b = 0 <-> a = b.

(* Objects with the same address are the same object: there is one object at every address. *)
Definition located (obj : Z -> val) (v : val) : Prop :=
  match v with
  | VInt a _ | VFlt a _ | VStr a _ | VObj a | VArr a | VBuf a _ | VFun a | VCls a | VMod a => obj a = v
  | _ => True
  end.
Definition coherent (obj : Z -> val) (heap : Z -> list val) : Prop := forall a, Forall (located obj) (heap a).

(* Arrays with finitely many addresses, closed under containment *)
Definition closed (heap : Z -> list val) (arrays : list Z) : Prop :=
  forall a, In a arrays -> forall b, In (VArr b) (heap a) -> In b arrays.

(* Structural equality: two values are equal if they are the same object, equal numbers, texts or
   byte sequences, or arrays of equal elements. *)
Inductive equal (heap : Z -> list val) : val -> val -> Prop :=
| eq_same : forall v w, same_id v w = true -> ~ is_nan v -> equal heap v w
| eq_num : forall v w, is_num v -> is_num w -> cmp_eq (compare_float v w) = true ->
    (~ is_int v \/ ~ is_int w) -> equal heap v w
| eq_int : forall v w, is_int v -> is_int w -> value v = value w -> equal heap v w
| eq_str : forall a b s, equal heap (VStr a s) (VStr b s)
| eq_buf : forall a b s, equal heap (VBuf a s) (VBuf b s)
| eq_arr : forall a b, Forall2 (equal heap) (heap a) (heap b) -> equal heap (VArr a) (VArr b).

(* nested arrays have a height: one more than their highest element *)
Definition hval (hgt : Z -> nat) (v : val) : nat := match v with VArr a => hgt a | _ => O end.
Definition heights (heap : Z -> list val) (hgt : Z -> nat) : Prop :=
  forall a, hgt a = S (fold_right Nat.max O (map (hval hgt) (heap a))).

(* arrays reachable from a value *)
Inductive inside (heap : Z -> list val) : val -> Z -> Prop :=
| in_self : forall a, inside heap (VArr a) a
| in_elem : forall a v b, In v (heap a) -> inside heap v b -> inside heap (VArr a) b.

(* plain lexicographic comparison of nested arrays with a given comparison of other values *)
Fixpoint lex_compare (heap : Z -> list val) (leaf : val -> val -> cres) (depth : nat) (v w : val) : cres :=
  match depth, v, w with
  | S k, VArr a, VArr b =>
      (fix go (l m : list val) : cres :=
         match l, m with
         | [], [] => CEq
         | [], _ => CLt
         | _, [] => CGt
         | x :: l', y :: m' => match lex_compare heap leaf k x y with CEq => go l' m' | c => c end
         end) (heap a) (heap b)
  | _, _, _ => leaf v w
  end.

(* lexicographic order of byte sequences *)
Inductive bytes_lt : list Z -> list Z -> Prop :=
| bl_nil : forall y b, bytes_lt [] (y :: b)
| bl_head : forall x y a b, x < y -> bytes_lt (x :: a) (y :: b)
| bl_tail : forall x a b, bytes_lt a b -> bytes_lt (x :: a) (x :: b).

(* the kinds of values in ascending order: numbers, void, booleans, strings, objects, arrays, buffers,
   functions, classes, modules *)
Definition kind (v : val) : nat :=
  match v with
  | VSmall _ | VInt _ _ | VFlt _ _ => 0 | VVoid => 1 | VBool _ => 2 | VStr _ _ => 3 | VObj _ => 4 | VArr _ => 5
  | VBuf _ _ => 6 | VFun _ => 7 | VCls _ => 8 | VMod _ => 9
  end.

(* Equality of arrays which may contain themselves: a relation on values in which related arrays have
   related elements, and other related values are equal. *)
Definition bisimulation (heap : Z -> list val) (P : val -> val -> Prop) : Prop :=
  forall v w, P v w -> equal heap v w \/ exists a b, v = VArr a /\ w = VArr b /\ Forall2 P (heap a) (heap b).

(* range of a native integer type *)
Definition nmin (t : ntype) : Z :=
  match t with NI8 => - 2 ^ 7 | NI16 => - 2 ^ 15 | NI32 => - 2 ^ 31 | NI64 => - 2 ^ 63 | _ => 0 end.
Definition nmax (t : ntype) : Z :=
  match t with
  | NU8 => 2 ^ 8 - 1 | NU16 => 2 ^ 16 - 1 | NU32 => 2 ^ 32 - 1 | NU64 | NSize => 2 ^ 64 - 1
  | NI8 => 2 ^ 7 - 1 | NI16 => 2 ^ 15 - 1 | NI32 => 2 ^ 31 - 1 | NI64 => 2 ^ 63 - 1
  | NEnum => 2 ^ 31 - 1
  end.
