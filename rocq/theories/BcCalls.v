(* How the compiler emits a program with jumps: each jump is recorded at the current offset with
   add_jump_instr and emitted with the distance 0 (e.g. kos_compiler.c:2576-2577, 4369-4374), its
   target is an offset which was or will be the current one. *)
From Coq Require Import ZArith List Bool.
Import ListNotations.
From Verif Require Import Base BcModel BcSpec.
Local Open Scope Z_scope.

Fixpoint emit (p : list ins) : option (list Z) :=
  match p with
  | [] => Some []
  | i :: p =>
      match gen_instr (fst (lower 0 i)) (snd (lower 0 i)), emit p with
      | Some a, Some b => Some (a ++ b)
      | _, _ => None
      end
  end.

(* cur_offs before instruction k *)
Definition offset (p : list ins) (k : nat) : Z :=
  match emit (firstn k p) with Some c => Z.of_nat (length c) | None => 0 end.

Fixpoint record (all : list ins) (k : nat) (p : list ins) : list jump :=
  match p with
  | [] => []
  | i :: p =>
      match target i with
      | Some t => add_jump (offset all k) (offset all t) :: record all (S k) p
      | None => record all (S k) p
      end
  end.

(* address of instruction k in disassembled code *)
Definition address (l : list (Z * (Z * list Z))) (code : list Z) (k : nat) : Z :=
  match nth_error l k with Some (o, _) => o | None => Z.of_nat (length code) end.
