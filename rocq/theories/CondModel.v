(* Model of the code generated for conditions: core/kos_compiler.c:1690-1851 (JUMP_ARRAY,
   gen_cond_jump_inner, gen_cond_jump).
   Simplifications: optimization is on.  A jump array is a label: every jump which is pushed to the
   array gets the same target when update_jump_array is called.  The capacity of the arrays and errors
   are not modelled.  Registers are not modelled: the code of an expression and the conditional jump
   after it, which tests the value of that expression, are one step. *)
From Coq Require Import ZArith List Bool.
From Verif Require Import DeadModel.
Import ListNotations.
Local Open Scope Z_scope.

(* A condition.  Operands are literals, constants or other expressions. *)
Inductive cond :=
  | CLeaf (k : cnd)
  | CNot (c : cond)
  | CAnd (a b : cond)
  | COr (a b : cond).

(* jump_array of gen_cond_jump, whose jumps are set by the caller, and near_jump_array, whose jumps go
   to the end of the generated code (core/kos_compiler.c:1848) *)
Inductive label := Far | Near.

(* INSTR_JUMP, the code of an expression with INSTR_JUMP_COND (true) or INSTR_JUMP_NOT_COND (false) *)
Inductive jinstr := JJump (l : label) | JTest (e : Z) (op : bool) (l : label).

(* core/kos_compiler.c:1755-1833 gen_cond_jump_inner; negb is negate_jump_opcode (1747-1753) *)
Fixpoint gen_inner (c : cond) (op : bool) (jump near : label) : list jinstr :=
  match c with
  | CNot c => gen_inner c (negb op) jump near
  | COr a b =>
      (if op then gen_inner a op jump near else gen_inner a (negb op) near jump)
      ++ gen_inner b op jump near
  | CAnd a b =>
      (if op then gen_inner a (negb op) near jump else gen_inner a op jump near)
      ++ gen_inner b op jump near
  | CLeaf k =>
      if (if op then cnd_truthy k else cnd_falsy k) then [JJump jump]
      else if (if op then cnd_falsy k else cnd_truthy k) then []
      else match k with KExpr e => [JTest e op jump] | _ => [] end
  end.

(* core/kos_compiler.c:1835-1851 gen_cond_jump *)
Definition gen_cond (c : cond) (op : bool) : list jinstr := gen_inner c op Far Near.
