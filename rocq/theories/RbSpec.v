(* Specification of the ordered tree: a list of nodes, a node is identified by its address. *)
From Coq Require Import ZArith List Bool.
Import ListNotations.
Local Open Scope Z_scope.

(* comparison functions: a total preorder of the nodes, the result is negative, zero or positive *)
Definition order (cmp : Z -> Z -> Z) : Prop :=
  (forall a b, cmp a b < 0 <-> 0 < cmp b a) /\ (forall a b c, cmp a b <= 0 -> cmp b c <= 0 -> cmp a c <= 0).

Fixpoint sorted (cmp : Z -> Z -> Z) (l : list Z) : Prop :=
  match l with [] => True | x :: l => (forall y, In y l -> cmp x y <= 0) /\ sorted cmp l end.

(* a new node goes before the first greater node, hence after all equal ones *)
Fixpoint place (cmp : Z -> Z -> Z) (x : Z) (l : list Z) : list Z :=
  match l with
  | [] => [x]
  | y :: l => if cmp x y <? 0 then x :: y :: l else y :: place cmp x l
  end.

Definition remove (x : Z) (l : list Z) : list Z := filter (fun y => negb (y =? x)) l.

Inductive op := Insert (a : Z) | Delete (a : Z).

(* None: the operation is not allowed, the node is inserted twice or the deleted node is not there *)
Definition step (cmp : Z -> Z -> Z) (l : list Z) (o : op) : option (list Z) :=
  match o with
  | Insert a => if (0 <? a) && negb (existsb (Z.eqb a) l) then Some (place cmp a l) else None
  | Delete a => if existsb (Z.eqb a) l then Some (remove a l) else None
  end.
Fixpoint steps (cmp : Z -> Z -> Z) (l : list Z) (os : list op) : option (list Z) :=
  match os with
  | [] => Some l
  | o :: os => match step cmp l o with Some l => steps cmp l os | None => None end
  end.

(* calls of a function for the nodes in order until it returns an error *)
Fixpoint visit {T} (f : Z -> T -> T * Z) (l : list Z) (s : T) : T * Z :=
  match l with
  | [] => (s, 0)
  | a :: l => let (s, e) := f a s in if e =? 0 then visit f l s else (s, e)
  end.

(* comparison of an item with nodes: negative for all nodes after a greater one, positive for all
   nodes before a smaller one *)
Definition consistent (cmp : Z -> Z -> Z) (what : Z -> Z) : Prop :=
  forall a b, cmp a b <= 0 -> (what a < 0 -> what b < 0) /\ (0 < what b -> 0 < what a).

(* searching returns a node equal to the item, or null if there is none *)
Definition found (what : Z -> Z) (l : list Z) (r : Z) : Prop :=
  (In r l /\ what r = 0) \/ (r = 0 /\ forall a, In a l -> what a <> 0).
