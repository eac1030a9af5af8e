(* Operations on an array shared by threads and their meaning when they are executed one after another. *)
From Coq Require Import ZArith List Lia Bool ZifyBool.
Import ListNotations.
From Verif Require Import Base ListZ.
Local Open Scope Z_scope.

Inductive op :=
| ORead (idx : Z)
| OWrite (idx v : Z)
| OCas (idx old new : Z)
| OReserve (capacity : Z)
| OResize (size : Z).
Inductive result := RVal (v : Z) | RDone | RExn.

(* an operation which a thread has completed *)
Definition event := (Z * op * result)%type.

Definition position (l : list Z) (idx : Z) : Z := if idx <? 0 then idx + len l else idx.

(* l' is l with v at position i *)
Definition changed (l l' : list Z) (i v : Z) : Prop :=
  len l' = len l /\ forall j, 0 <= j < len l -> gz l' j = if j =? i then Some v else gz l j.

(* What the operation o does to an array with elements l: it returns r and leaves l'. *)
Definition legal (l : list Z) (o : op) (r : result) (l' : list Z) : Prop :=
  match o with
  | ORead idx =>
      l' = l /\ r = match gz l (position l idx) with Some v => RVal v | None => RExn end
  | OWrite idx v =>
      match gz l (position l idx) with
      | Some _ => r = RDone /\ changed l l' (position l idx) v
      | None => r = RExn /\ l' = l
      end
  | OCas idx old new =>
      match gz l (position l idx) with
      | Some v => r = RVal v /\ if v =? old then changed l l' (position l idx) new else l' = l
      | None => r = RExn /\ l' = l
      end
  | OReserve _ => l' = l /\ (r = RDone \/ r = RExn)
  | OResize n =>
      (r = RExn /\ l' = l) \/
      (r = RDone /\ len l' = n /\ forall j, 0 <= j < n -> gz l' j = match gz l j with Some v => Some v | None => Some 0 end)
  end.

(* h is a sequence of operations which changes l to l' *)
Inductive history (l : list Z) : list event -> list Z -> Prop :=
| history_nil : history l [] l
| history_snoc : forall h t o r l1 l2, history l h l1 -> legal l1 o r l2 -> history l (h ++ [(t, o, r)]) l2.

(* the value at position i of an array of n elements after the operations h, with v in the beginning *)
Fixpoint last_value (n i v : Z) (h : list event) : Z :=
  match h with
  | [] => v
  | (_, o, r) :: h' =>
      let here idx := (if idx <? 0 then idx + n else idx) =? i in
      last_value n i
        (match o, r with
         | OWrite idx x, RDone => if here idx then x else v
         | OCas idx old new, RVal cur => if here idx && (cur =? old) then new else v
         | _, _ => v
         end) h'
  end.
