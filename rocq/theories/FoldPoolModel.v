(* Model of the constants of a module:
   core/kos_compiler.c:453-471 (numbers_compare_item), 530-546 (add_constant), 738-741 (is_sint8),
   897-933 (gen_load_number).
   Simplification: a constant in the red-black tree is an address; [vals] gives its contents. *)
From Coq Require Import ZArith List Bool.
From Coq Require Import Floats.SpecFloat.
From Verif Require Import Base RbModel FoldModel.
Import ListNotations.
Local Open Scope Z_scope.

(* KOS_COMP_CONST, core/kos_compiler.h:144-200; other constants have their type, 2 to 4 *)
Inductive const := CInt (z : Z) | CFlt (d : dbl) | COther (t : Z).

Definition const_type (c : const) : Z := match c with CInt _ => 0 | CFlt _ => 1 | COther t => t end.
Definition num_type (n : num) : Z := match n with NI _ => 0 | NF _ => 1 end.

(* core/kos_compiler.c:453-471 numbers_compare_item; comparisons of doubles *)
Definition numbers_compare (n : num) (c : const) : Z :=
  if negb (num_type n =? const_type c) then (if num_type n <? const_type c then -1 else 1)
  else match n, c with
       | NI a, CInt b => if a <? b then -1 else if a >? b then 1 else 0
       | NF a, CFlt b => match SFcompare a b with
                         | Some Eq => 0
                         | Some Lt => -1
                         | _ => 1
                         end
       | _, _ => 0
       end.

(* core/kos_compiler.c:738-741 is_sint8 *)
Definition is_sint8 (z : Z) : bool := u64 (z + 128) <? 256.

(* What gen_load_number emits: LOAD_INT8, LOAD_CONST of an existing constant, or of a new one *)
Inductive load := LInt8 (z : Z) | LConst (p : Z) | LNew (c : const).

(* core/kos_compiler.c:897-933 gen_load_number, without out of memory *)
Definition load_number (fuel : nat) (h : mem) (root : Z) (vals : Z -> const) (n : num) : option load :=
  match n with
  | NI z => if is_sint8 z then Some (LInt8 z)
            else match find fuel h root (fun p => numbers_compare n (vals p)) with
                 | Some p => Some (if p =? 0 then LNew (CInt z) else LConst p)
                 | None => None
                 end
  | NF d => match find fuel h root (fun p => numbers_compare n (vals p)) with
            | Some p => Some (if p =? 0 then LNew (CFlt d) else LConst p)
            | None => None
            end
  end.
