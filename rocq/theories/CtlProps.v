From Coq Require Import ZArith List Bool Lia.
From Verif Require Import DeadModel DeadSpec CtlModel CtlSpec CtlProofs2 CtlProofs6.
Import ListNotations.
Local Open Scope Z_scope.

(* C108: the code of a function does what the statements of the function do: the same expressions with
   the same effects in the same order, and the same value returned or thrown.  Missing: functions in
   which break, continue or fallthrough leaves the section of a try inside the loop or switch which it
   leaves (fun_ok is false for them), for which this is false. *)
Theorem control_flow_partial : forall (V St : Type) (L : lang V St) b st, fun_ok b = true ->
  (forall n o st', exec_l L n b st = (o, st') -> o <> OFuel ->
     exists k x, run L (gen_fun b) k (start st) = Some x /\ ends_with b o st' x) /\
  (forall k x, run L (gen_fun b) k (start st) = Some x -> step L (gen_fun b) x = None ->
     exists n o st', exec_l L n b st = (o, st') /\ ends_with b o st' x).
Proof.
  intros V St L b st Hf. split.
  - intros n o st' H NF. destruct (fun_sim L n b st o st' Hf H) as (k & x & Hr & P). exists k, x. split; [exact Hr|].
    destruct o; try exact P. contradiction.
  - intros k x Hr Hs. destruct (fun_stops L b st k x Hf Hr Hs) as (o & st' & H1 & H2). eauto.
Qed.

(* A loop which never ends in the source never ends in the code, and the other way round *)
Theorem control_flow_diverges_partial : forall (V St : Type) (L : lang V St) b st, fun_ok b = true ->
  ((forall n, fst (exec_l L n b st) = OFuel) <-> (forall k, run L (gen_fun b) k (start st) <> None)).
Proof.
  intros V St L b st Hf. split.
  - intros H k. specialize (H (k + 1)%nat). destruct (exec_l L (k + 1) b st) as [o st'] eqn:Q. cbn [fst] in H. subst o.
    destruct (fun_sim L _ b st _ st' Hf Q) as (k' & x & Hr & P).
    destruct (run_less L (gen_fun b) k' k _ x Hr ltac:(lia)) as [y Hy]. congruence.
  - intros H n. destruct (exec_l L n b st) as [o st'] eqn:Q. cbn [fst].
    destruct (fun_sim L _ b st _ st' Hf Q) as (k & x & Hr & P).
    assert (D : o = OFuel \/ ends_with b o st' x) by (destruct o; auto).
    destruct D as [D|D]; [exact D|]. exfalso. apply (H (S k)).
    apply (run_more L (gen_fun b) k _ _ x Hr (ends_final L _ _ _ _ D)). lia.
Qed.

(* All functions without try are compiled right *)
Theorem control_flow_no_try : forall (V St : Type) (L : lang V St) b st,
  no_try_l b = true -> leaves_l KBreak b = false -> leaves_l KCont b = false -> leaves_l KFall b = false ->
  (forall n o st', exec_l L n b st = (o, st') -> o <> OFuel ->
     exists k x, run L (gen_fun b) k (start st) = Some x /\ ends_with b o st' x) /\
  (forall k x, run L (gen_fun b) k (start st) = Some x -> step L (gen_fun b) x = None ->
     exists n o st', exec_l L n b st = (o, st') /\ ends_with b o st' x).
Proof. intros V St L b st H H1 H2 H3. apply control_flow_partial, no_try_ok; assumption. Qed.

(* A language which records evaluated expressions; expression 99 throws *)
Definition trace : lang Z (list Z) :=
  {| l_ev := fun e st => if e =? 99 then EExc e st else EVal e (st ++ [e]);
     l_true := fun v => negb (v =? 0); l_eq := Z.eqb; l_set := fun x v st => st ++ [1000 + v] |}.

(* for x in 4 { try { if 0 { return 3 } else { try { if 1 { return 8 } } catch 1 { continue } } }
   defer { 30 } } throw 7: return in a try in a try with defer in a loop *)
Example control_flow_ex :
  let b := Cons (SForIn 4 5 (SDefer
             (SIf (KExpr 0) (SReturn 3)
                (STry (SScope (Cons (SIf (KExpr 1) (SReturn 8) SEmpty) Nil)) 1 SContinue))
             (SExpr 30))) (Cons (SThrow 7) Nil) in
  fun_ok b = true /\ exec_l trace 10 b [] = (ORet 8, [4; 5; 0; 1; 8; 30]) /\
  run trace (gen_fun b) 17 (start []) = Some (CRet 8 [4; 5; 0; 1; 8; 30]).
Proof. repeat (apply conj; [vm_compute; reflexivity |]). vm_compute. reflexivity. Qed.

(* switch 3 { case 2 { 20 } default { 21 fallthrough } case 4 { 22 } } return 5 *)
Example control_flow_no_try_ex :
  let b := Cons (SSwitch 3
             (CCons (Some 2) (SScope (Cons (SExpr 20) Nil)) NxNone
             (CCons None (SScope (Cons (SExpr 21) (Cons SFall Nil))) NxNone
             (CCons (Some 4) (SScope (Cons (SExpr 22) Nil)) NxNone CNil)))) (Cons (SReturn 5) Nil) in
  no_try_l b = true /\ exec_l trace 1 b [] = (ORet 5, [3; 2; 4; 21; 22; 5]) /\
  run trace (gen_fun b) 14 (start []) = Some (CRet 5 [3; 2; 4; 21; 22; 5]).
Proof. repeat (apply conj; [vm_compute; reflexivity |]). vm_compute. reflexivity. Qed.

(* loop which never ends *)
Example control_flow_diverges_ex :
  let b := Cons (SWhile (KLit true) (SExpr 1)) Nil in
  fun_ok b = true /\ exec_l trace 2 b [] = (OFuel, [1; 1]).
Proof. split; vm_compute; reflexivity. Qed.

(* repeat { try { break } catch x { 5 } } while false; throw 7: the handler of the try is still active
   after break, so throw 7 runs it (then the loop ends, and 7 is thrown again) *)
Theorem control_flow_break_refuted :
  let b := Cons (SRepeat (STry SBreak 1 (SExpr 5)) (KLit false)) (Cons (SThrow 7) Nil) in
  exec_l trace 10 b [] = (OThrow 7, [7]) /\
  run trace (gen_fun b) 9 (start []) = Some (CThrow 7 [7; 1007; 5; 7]).
Proof. split; vm_compute; reflexivity. Qed.

(* try { loop { try { switch 0 { case 0 { 2 break } } throw 7 } catch x { 10 break } } } catch y { 20 }:
   break of the switch activates the handler of the outer try, so throw 7 skips the inner catch *)
Theorem control_flow_switch_refuted :
  let b := Cons (STry (SWhile (KLit true)
             (STry (SScope (Cons (SSwitch 0 (CCons (Some 0) (SScope (Cons (SExpr 2) (Cons SBreak Nil))) NxNone CNil))
                           (Cons (SThrow 7) Nil)))
                1 (SScope (Cons (SExpr 10) (Cons SBreak Nil))))) 2 (SExpr 20)) Nil in
  exec_l trace 10 b [] = (ONormal, [0; 0; 2; 7; 1007; 10]) /\
  option_map (fun x => match x with CRun pc _ _ st => (pc =? size_l top_sh b, st) | _ => (false, []) end)
    (run trace (gen_fun b) 14 (start [])) = Some (true, [0; 0; 2; 7; 1007; 20]).
Proof. split; vm_compute; reflexivity. Qed.

(* repeat { try { try { break } defer { 3 } } catch x { 10 } } while false; throw 7: the same after a
   defer section *)
Theorem control_flow_defer_refuted :
  let b := Cons (SRepeat (STry (SDefer SBreak (SExpr 3)) 1 (SExpr 10)) (KLit false)) (Cons (SThrow 7) Nil) in
  exec_l trace 10 b [] = (OThrow 7, [3; 7]) /\
  run trace (gen_fun b) 14 (start []) = Some (CThrow 7 [3; 7; 1007; 10; 7]).
Proof. split; vm_compute; reflexivity. Qed.

Print Assumptions control_flow_partial.
Print Assumptions control_flow_diverges_partial.
Print Assumptions control_flow_no_try.
Print Assumptions control_flow_break_refuted.
Print Assumptions control_flow_switch_refuted.
Print Assumptions control_flow_defer_refuted.
