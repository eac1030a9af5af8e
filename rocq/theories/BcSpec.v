(* Spec of the bytecode encoding: instructions with symbolic jump targets. *)
From Coq Require Import ZArith List Bool.
Import ListNotations.
Local Open Scope Z_scope.

(* Instructions; targets of jumps are numbers of instructions *)
Inductive ins :=
| Op (opcode : Z) (operands : list Z)
| Jmp (t : nat)
| JmpIf (cond : bool) (r : Z) (t : nat)
| NextJmp (r f : Z) (t : nat)
| Catch (r : Z) (t : nat).

Definition target (i : ins) : option nat :=
  match i with Op _ _ => None | Jmp t => Some t | JmpIf _ _ t => Some t | NextJmp _ _ t => Some t | Catch _ t => Some t end.

(* opcode and operands, with the distance of the jump *)
Definition lower (d : Z) (i : ins) : Z * list Z :=
  match i with
  | Op o l => (o, l)
  | Jmp _ => (0xB5, [d])
  | JmpIf true r _ => (0xB6, [d; r])
  | JmpIf false r _ => (0xB7, [d; r])
  | NextJmp r f _ => (0xB8, [r; f; d])
  | Catch r _ => (0xC6, [r; d])
  end.

Definition is_jump (i : ins) : bool := match target i with Some _ => true | None => false end.

(* Line tables: a line starts at an offset and ends where the next one begins *)
Fixpoint line_at (l : list (Z * Z)) (offs : Z) : option Z :=
  match l with
  | [] => None
  | (o, line) :: l =>
      if o <=? offs then match line_at l offs with Some x => Some x | None => Some line end else None
  end.

Fixpoint increasing (l : list Z) : Prop :=
  match l with
  | a :: ((b :: _) as l') => a < b /\ increasing l'
  | _ => True
  end.
