(* Properties of the code generated for conditions *)
From Coq Require Import ZArith List Bool.
From Verif Require Import DeadModel DeadSpec CondModel CondSpec CondProofs.
Import ListNotations.
Local Open Scope Z_scope.

(* C107: the jump is taken exactly if the condition is true (or false), and the same operands are
   evaluated in the same order.  Missing: conditions with || in the first operand of && or with && in the
   first operand of ||, for which this is false. *)
Theorem cond_jump_partial : forall (V St : Type) (L : lang V St) c op st, good c = true ->
  jumps_far L c op st = expected L c op st.
Proof. intros. apply good_right; assumption. Qed.

(* a && (b || !c): false for a = true, b = false, c = true; if jumps over its body *)
Example cond_jump_ex :
  let c := CAnd (CLeaf (KExpr 1)) (COr (CLeaf (KExpr 2)) (CNot (CLeaf (KExpr 3)))) in
  good c = true /\
  gen_cond c false = [JTest 1 false Far; JTest 2 true Near; JTest 3 true Far] /\
  jumps_far (world (fun e => negb (e =? 2))) c false tt = (inl true, tt).
Proof. repeat split. Qed.

(* the operands which are evaluated are recorded in the state *)
Definition trace (f : Z -> bool) : lang bool (list Z) :=
  {| l_ev := fun e st => EVal (f e) (st ++ [e]); l_true := fun b => b; l_eq := Bool.eqb;
     l_set := fun _ _ st => st |}.

(* if (a || b) && c: the body runs although c is false; c is not evaluated *)
Theorem cond_jump_refuted : forall f : Z -> bool, f 1 = true -> f 3 = false ->
  let c := CAnd (COr (CLeaf (KExpr 1)) (CLeaf (KExpr 2))) (CLeaf (KExpr 3)) in
  expected (trace f) c false [] = (inl true, [1; 3]) /\
  jumps_far (trace f) c false [] = (inl false, [1]).
Proof. intros f H1 H3. unfold expected, jumps_far, gen_cond. cbn. rewrite H1. cbn. rewrite H3. split; reflexivity. Qed.

(* if (a && b) || c: the body is skipped although c is true; c is not evaluated *)
Theorem cond_jump_or_refuted : forall f : Z -> bool, f 1 = false -> f 3 = true ->
  let c := COr (CAnd (CLeaf (KExpr 1)) (CLeaf (KExpr 2))) (CLeaf (KExpr 3)) in
  expected (trace f) c false [] = (inl false, [1; 3]) /\
  jumps_far (trace f) c false [] = (inl true, [1]).
Proof. intros f H1 H3. unfold expected, jumps_far, gen_cond. cbn. rewrite H1. cbn. rewrite H3. split; reflexivity. Qed.

(* Nothing else is compiled wrongly, and all of these are: a condition over different operands gets the
   right code for all values of the operands exactly if it is [good] *)
Theorem cond_jump_exact : forall c op,
  Forall (fun k => exists e, k = KExpr e) (leaves c) -> NoDup (leaves c) ->
  (good c = true <-> forall f, jumps_far (world f) c op tt = expected (world f) c op tt).
Proof.
  intros c op Ho Hn. split.
  - intros H f. apply good_right; assumption.
  - intros H. destruct (good c) eqn:G; [reflexivity|].
    destruct (bad_wrong c op Ho Hn G) as [f F]. exfalso. apply F, H.
Qed.

Example cond_jump_exact_ex :
  good (CNot (CAnd (CLeaf (KExpr 1)) (CNot (COr (CLeaf (KExpr 2)) (CLeaf (KExpr 3)))))) = true /\
  good (CNot (CAnd (CNot (CAnd (CLeaf (KExpr 2)) (CLeaf (KExpr 3)))) (CLeaf (KExpr 1)))) = false.
Proof. split; reflexivity. Qed.

Print Assumptions cond_jump_partial.
Print Assumptions cond_jump_refuted.
Print Assumptions cond_jump_or_refuted.
Print Assumptions cond_jump_exact.
