(* Specification of object properties: finite maps and prototype chains. *)
From Coq Require Import ZArith List Lia Bool ZifyBool.
Import ListNotations.
From Verif Require Import Base.
Local Open Scope Z_scope.

(* a property is a plain value or a dynamic property (getter and setter), denoted by a number *)
Inductive sval := Plain (v : Z) | Dynamic (v : Z).
Notation name := (list Z).
Notation pmap := (name -> option sval).

Definition no_props : pmap := fun _ => None.
Definition put (m : pmap) (k : name) (v : option sval) : pmap :=
  fun k' => if list_eq_dec Z.eq_dec k' k then v else m k'.

(* own properties and prototype of every object; None: an object of another type, without own
   properties *)
Record sobj := SObj { s_own : option pmap; s_proto : option nat }.

(* object o of the list has, or inherits, property k with value v *)
Inductive sees (l : list sobj) : nat -> name -> sval -> Prop :=
| sees_own o ob m k v : nth_error l o = Some ob -> s_own ob = Some m -> m k = Some v -> sees l o k v
| sees_proto o ob p k v : nth_error l o = Some ob -> (forall m, s_own ob = Some m -> m k = None) ->
    s_proto ob = Some p -> sees l p k v -> sees l o k v.

(* ---- operations and their outcomes ---- *)

Inductive op :=
| Put (o : nat) (k : name) (v : sval)
| Delete (o : nat) (k : name)
| Read (o : nat) (k : name) (shallow : bool)
| Create (proto : option nat).

(* Setter d: the value was not stored, the setter of dynamic property d is to be called *)
Inductive outcome := Done | Found (v : sval) | Absent | Setter (d : Z) | Raised | Created (o : nat).

Definition own (l : list sobj) (o : nat) (k : name) : option sval :=
  match nth_error l o with
  | Some ob => match s_own ob with Some m => m k | None => None end
  | None => None
  end.

(* states which differ at most in property k of object o, and what that property is afterwards *)
Definition changes (l l' : list sobj) (o : nat) (k : name) (v : option sval) : Prop :=
  length l' = length l /\
  (forall o', option_map s_proto (nth_error l' o') = option_map s_proto (nth_error l o')) /\
  (forall o' ob ob', nth_error l o' = Some ob -> nth_error l' o' = Some ob' -> (s_own ob' = None <-> s_own ob = None)) /\
  (forall o' k', own l' o' k' = if Nat.eqb o' o && (if list_eq_dec Z.eq_dec k' k then true else false) then v else own l o' k').
Definition unchanged (l l' : list sobj) : Prop :=
  length l' = length l /\
  (forall o', option_map s_proto (nth_error l' o') = option_map s_proto (nth_error l o')) /\
  (forall o' ob ob', nth_error l o' = Some ob -> nth_error l' o' = Some ob' -> (s_own ob' = None <-> s_own ob = None)) /\
  (forall o' k', own l' o' k' = own l o' k').

Definition has_own (l : list sobj) (o : nat) : Prop := exists ob m, nth_error l o = Some ob /\ s_own ob = Some m.

Inductive step (l : list sobj) : op -> outcome -> list sobj -> Prop :=
| st_put o k v l' : has_own l o -> (forall d, own l o k <> Some (Dynamic d)) -> changes l l' o k (Some v) -> step l (Put o k v) Done l'
| st_setter o k v d l' : own l o k = Some (Dynamic d) -> unchanged l l' -> step l (Put o k v) (Setter d) l'
| st_put_none o k v l' : ~ has_own l o -> unchanged l l' -> step l (Put o k v) Raised l'
| st_put_fail o k v l' : has_own l o -> unchanged l l' -> step l (Put o k v) Raised l'
| st_put_late o k v l' : has_own l o -> (forall d, own l o k <> Some (Dynamic d)) -> changes l l' o k (Some v) -> step l (Put o k v) Raised l'
| st_del o k l' : has_own l o -> changes l l' o k None -> step l (Delete o k) Done l'
| st_del_none o k l' : ~ has_own l o -> unchanged l l' -> step l (Delete o k) Done l'
| st_del_fail o k l' : has_own l o -> unchanged l l' -> step l (Delete o k) Raised l'
| st_del_late o k l' : has_own l o -> changes l l' o k None -> step l (Delete o k) Raised l'
| st_found o k v l' : sees l o k v -> unchanged l l' -> step l (Read o k false) (Found v) l'
| st_absent o k l' : (forall v, ~ sees l o k v) -> unchanged l l' -> step l (Read o k false) Absent l'
| st_own o k v l' : own l o k = Some v -> unchanged l l' -> step l (Read o k true) (Found v) l'
| st_own_absent o k l' : own l o k = None -> unchanged l l' -> step l (Read o k true) Absent l'
| st_create p : step l (Create p) (Created (length l)) (l ++ [SObj (Some no_props) p]).

(* the objects which an operation is about exist *)
Definition valid (l : list sobj) (x : op) : Prop :=
  match x with
  | Put o _ _ | Delete o _ | Read o _ _ => (o < length l)%nat
  | Create None => True
  | Create (Some p) => (p < length l)%nat
  end.

Inductive steps : list sobj -> list op -> list outcome -> list sobj -> Prop :=
| steps_nil l : steps l [] [] l
| steps_cons l x out l1 xs outs l2 : valid l x -> step l x out l1 -> steps l1 xs outs l2 -> steps l (x :: xs) (out :: outs) l2.

(* all operations name existing objects *)
Fixpoint valid_ops (n : nat) (xs : list op) : Prop :=
  match xs with
  | [] => True
  | x :: t =>
    match x with
    | Put o _ _ | Delete o _ | Read o _ _ => (o < n)%nat /\ valid_ops n t
    | Create None => valid_ops (S n) t
    | Create (Some p) => (p < n)%nat /\ valid_ops (S n) t
    end
  end.

