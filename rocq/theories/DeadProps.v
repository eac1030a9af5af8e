(* C13: removal of unreachable code *)
From Coq Require Import ZArith List Lia Bool.
From Verif Require Import DeadModel DeadSpec DeadProofs DeadProofs2 DeadProofs3.
Import ListNotations.
Local Open Scope Z_scope.

(* For every program without the constructs refuted below, every meaning of expressions, every limit
   of iterations and every initial state, any number of passes keeps the outcome and the state.  The
   limit is the same on both sides, so the state reached in a loop which does not end is kept too. *)
Theorem dead_code_partial : forall (V St : Type) (L : lang V St) k b n st,
  ok_l b = true -> exec_l L n (passes k b) st = exec_l L n b st.
Proof. exact passes_exec. Qed.

(* A statement which is reported to be terminal never lets the execution continue after it *)
Theorem terminal_partial : forall (V St : Type) (L : lang V St) s n st,
  ok s = true -> snd (opt s) <> TERM_NONE -> fst (exec L n s st) <> ONormal.
Proof.
  intros V St L s n st H Ht. apply (proj1 (main L n) s H st). rewrite <- opt_ends.
  unfold cls. destruct (is_term (snd (opt s))) eqn:E; [discriminate |].
  unfold is_term in E. apply negb_false_iff, Z.eqb_eq in E. congruence.
Qed.

(* ---- an example of a language: values are numbers, the state is the list of evaluated expressions
   and of values set; expressions from 1000 throw, other have their number as the value ---- *)
Definition tr : lang Z (list Z) := {|
  l_ev := fun e st => if 1000 <=? e then EExc e (st ++ [e]) else EVal e (st ++ [e]);
  l_true := fun v => negb (v =? 0);
  l_eq := Z.eqb;
  l_set := fun x v st => st ++ [x; v]
|}.

Fixpoint blk (l : list stmt) : stmts := match l with [] => Nil | s :: r => Cons s (blk r) end.
Definition scope (l : list stmt) : stmt := SScope (blk l).

(* loop { 5; if true { try { throw 1001 } catch x7 { continue; 6 } } return 7; 8 }  9 *)
Definition prog1 : stmts := blk [
  SWhile (KLit true) (scope [SExpr 5; SLit [];
     SIf (KConst true) (scope [STry (scope [SThrow 1001]) 7 (scope [SBreak; SExpr 6])]) SEmpty;
     SReturn 7; SExpr 8]);
  SRepeat (scope [SSwitch 3 (CCons (Some 3) (scope [SReturn 4]) NxFall (CCons None (scope [SThrow 2]) NxNone CNil));
                  SExpr 10]) (KExpr 1);
  SExpr 9].

Example prog1_ok :
  ok_l prog1 = true /\
  optimize prog1 = blk [
    SWhile (KLit true) (scope [SExpr 5;
      SScope (blk [STry (scope [SThrow 1001]) 7 (scope [SBreak])])]);
    SRepeat (scope [SSwitch 3 (CCons (Some 3) (scope [SReturn 4]) NxEmpty (CCons None (scope [SThrow 2]) NxNone CNil))])
            (KLit false)] /\
  exec_l tr 5 prog1 [] = (ORet 4, [5; 1001; 7; 1001; 3; 3; 4]) /\
  exec_l tr 5 (optimize prog1) [] = (ORet 4, [5; 1001; 7; 1001; 3; 3; 4]).
Proof. repeat (apply conj; [vm_compute; reflexivity |]). vm_compute. reflexivity. Qed.

(* loop { if x { break }  return 1 }  return 2
   The scope reports how its last statement ends, so the break is forgotten and return 2 is removed. *)
Definition prog_break : stmts := blk [
  SWhile (KLit true) (scope [SIf (KExpr 10) (scope [SBreak]) SEmpty; SReturn 1]); SReturn 2].

Theorem dead_code_break_refuted :
  exists b (V St : Type) (L : lang V St) n st v,
    fst (exec_l L n b st) = ORet v /\ fst (exec_l L n (optimize b) st) = ONormal.
Proof. exists prog_break, Z, (list Z), tr, 3%nat, [], 2. vm_compute. auto. Qed.

(* The same for every number of iterations and every expression which is true *)
Theorem dead_code_break_always : forall (V St : Type) (L : lang V St) n st v st1 w st2,
  l_ev L 10 st = EVal v st1 -> l_true L v = true -> l_ev L 2 st1 = EVal w st2 ->
  exec_l L (S n) prog_break st = (ORet w, st2) /\
  exec_l L (S n) (optimize prog_break) st = (ONormal, st1).
Proof.
  intros V St L n st v st1 w st2 H1 H2 H3. unfold prog_break, optimize. cbn. rewrite H1, H2. cbn.
  rewrite H3. auto.
Qed.

(* repeat { 5; continue } while 1: runs only once *)
Theorem dead_code_continue_refuted :
  exists b (V St : Type) (L : lang V St) n st,
    fst (exec_l L n b st) = OFuel /\ fst (exec_l L n (optimize b) st) = ONormal.
Proof.
  exists (blk [SRepeat (scope [SExpr 5; SContinue]) (KExpr 1)]), Z, (list Z), tr, 3%nat, [].
  vm_compute. auto.
Qed.

(* repeat { if 1 { continue }  return 3 } while 0  return 4 *)
Theorem dead_code_repeat_refuted :
  exists b (V St : Type) (L : lang V St) n st v,
    fst (exec_l L n b st) = ORet v /\ fst (exec_l L n (optimize b) st) = ONormal.
Proof.
  exists (blk [SRepeat (scope [SIf (KExpr 1) (scope [SContinue]) SEmpty; SReturn 3]) (KExpr 0); SReturn 4]),
    Z, (list Z), tr, 3%nat, [], 4. vm_compute. auto.
Qed.

(* switch 3 { case 3 { if 1 { break } return 5 } default { return 6 } }  return 7 *)
Theorem dead_code_switch_refuted :
  exists b (V St : Type) (L : lang V St) n st v,
    fst (exec_l L n b st) = ORet v /\ fst (exec_l L n (optimize b) st) = ONormal.
Proof.
  exists (blk [SSwitch 3 (CCons (Some 3) (scope [SIf (KExpr 1) (scope [SBreak]) SEmpty; SReturn 5]) NxNone
                         (CCons None (scope [SReturn 6]) NxNone CNil)); SReturn 7]),
    Z, (list Z), tr, 3%nat, [], 7. vm_compute. auto.
Qed.

(* A statement which is a class literal: class extends f() { } is removed together with the call *)
Theorem dead_literal_refuted :
  exists b (V St : Type) (L : lang V St) n st v,
    fst (exec_l L n b st) = OThrow v /\ fst (exec_l L n (optimize b) st) = ONormal.
Proof.
  exists (blk [SLit [1001]; SExpr 1]), Z, (list Z), tr, 3%nat, [], 1001. vm_compute. auto.
Qed.

Print Assumptions dead_code_partial.
Print Assumptions terminal_partial.
Print Assumptions dead_code_break_refuted.
Print Assumptions dead_code_break_always.
Print Assumptions dead_code_continue_refuted.
Print Assumptions dead_code_repeat_refuted.
Print Assumptions dead_code_switch_refuted.
Print Assumptions dead_literal_refuted.
