(* What a condition means, what the generated code does, and the conditions for which they agree *)
From Coq Require Import ZArith List Bool.
From Verif Require Import DeadModel DeadSpec CondModel.
Import ListNotations.
Local Open Scope Z_scope.

Section COND.
Context {V St : Type} (L : lang V St).

(* doc/grammar.md: && and || evaluate the second operand only if the first one does not decide *)
Fixpoint truth (c : cond) (st : St) : (bool + V) * St :=
  match c with
  | CLeaf (KLit b) | CLeaf (KConst b) => (inl b, st)
  | CLeaf (KExpr e) => match l_ev L e st with
                       | EVal v st => (inl (l_true L v), st)
                       | EExc v st => (inr v, st)
                       end
  | CNot c => match truth c st with
              | (inl b, st) => (inl (negb b), st)
              | r => r
              end
  | CAnd a b => match truth a st with
                | (inl true, st) => truth b st
                | r => r
                end
  | COr a b => match truth a st with
               | (inl false, st) => truth b st
               | r => r
               end
  end.

(* The end of the generated code: None: control reaches the end, Some l: a jump to the label *)
Fixpoint run_code (l : list jinstr) (st : St) : (option label + V) * St :=
  match l with
  | [] => (inl None, st)
  | JJump t :: _ => (inl (Some t), st)
  | JTest e op t :: r =>
      match l_ev L e st with
      | EVal v st => if Bool.eqb (l_true L v) op then (inl (Some t), st) else run_code r st
      | EExc v st => (inr v, st)
      end
  end.

(* The near label is the end of the code *)
Definition jumps_far (c : cond) (op : bool) (st : St) : (bool + V) * St :=
  match run_code (gen_cond c op) st with
  | (inl (Some Far), st) => (inl true, st)
  | (inl _, st) => (inl false, st)
  | (inr v, st) => (inr v, st)
  end.

(* What the caller expects: the jump is taken if the truth is [op] *)
Definition expected (c : cond) (op : bool) (st : St) : (bool + V) * St :=
  match truth c st with
  | (inl b, st) => (inl (Bool.eqb b op), st)
  | (inr v, st) => (inr v, st)
  end.
End COND.

(* only || (o = true) or only && (o = false), after moving negations to the operands *)
Fixpoint pure (o : bool) (c : cond) : bool :=
  match c with
  | CLeaf _ => true
  | CNot c => pure (negb o) c
  | COr a b => o && pure o a && pure o b
  | CAnd a b => negb o && pure o a && pure o b
  end.

(* No || in the first operand of && and no && in the first operand of || *)
Fixpoint good (c : cond) : bool :=
  match c with
  | CLeaf _ => true
  | CNot c => good c
  | COr a b => pure true a && good b
  | CAnd a b => pure false a && good b
  end.

(* The operands of a condition without constants *)
Fixpoint leaves (c : cond) : list cnd :=
  match c with
  | CLeaf k => [k]
  | CNot c => leaves c
  | CAnd a b | COr a b => leaves a ++ leaves b
  end.

(* Operands whose truth is given by [f] *)
Definition world (f : Z -> bool) : lang bool unit :=
  {| l_ev := fun e st => EVal (f e) st; l_true := fun b => b; l_eq := Bool.eqb;
     l_set := fun _ _ st => st |}.
