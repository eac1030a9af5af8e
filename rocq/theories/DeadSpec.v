(* What statements do, and the programs for which removal of unreachable code is right *)
From Coq Require Import ZArith List Bool.
From Verif Require Import DeadModel.
Import ListNotations.
Local Open Scope Z_scope.

(* How a statement ends; OFuel: a loop was stopped after [n] iterations *)
Inductive outcome (V : Type) :=
  | ONormal | OBreak | OCont | OFall | ORet (v : V) | OThrow (v : V) | OFuel.
Arguments ONormal {V}. Arguments OBreak {V}. Arguments OCont {V}. Arguments OFall {V}.
Arguments ORet {V} v. Arguments OThrow {V} v. Arguments OFuel {V}.

(* The value of an expression, or the exception which it throws, with the state after it *)
Inductive eres (V St : Type) := EVal (v : V) (st : St) | EExc (v : V) (st : St).
Arguments EVal {V St} v st. Arguments EExc {V St} v st.

(* The meaning of everything which is not a statement; any effects are changes of the state *)
Record lang (V St : Type) := {
  l_ev : Z -> St -> eres V St;
  l_true : V -> bool;
  l_eq : V -> V -> bool;
  l_set : Z -> V -> St -> St
}.
Arguments l_ev {V St}. Arguments l_true {V St}. Arguments l_eq {V St}. Arguments l_set {V St}.

Section EXEC.
Context {V St : Type} (L : lang V St).

Definition ev_cnd (c : cnd) (st : St) : eres bool St + V * St :=
  match c with
  | KLit b | KConst b => inl (EVal b st)
  | KExpr e => match l_ev L e st with
               | EVal v st => inl (EVal (l_true L v) st)
               | EExc v st => inr (v, st)
               end
  end.

Fixpoint ev_all (es : list Z) (st : St) : outcome V * St :=
  match es with
  | [] => (ONormal, st)
  | e :: r => match l_ev L e st with EVal _ st => ev_all r st | EExc v st => (OThrow v, st) end
  end.

(* while: doc/grammar.md:800-830 *)
Fixpoint run_while (n : nat) (c : cnd) (body : St -> outcome V * St) (st : St) : outcome V * St :=
  match n with
  | O => (OFuel, st)
  | S n =>
      match ev_cnd c st with
      | inr (v, st) => (OThrow v, st)
      | inl (EVal true st) =>
          match body st with
          | (ONormal, st) | (OCont, st) => run_while n c body st
          | (OBreak, st) => (ONormal, st)
          | r => r
          end
      | inl (EVal false st) => (ONormal, st)
      | inl (EExc _ st) => (OFuel, st)
      end
  end.

(* repeat: doc/grammar.md:800-830; continue goes to the condition *)
Fixpoint run_repeat (n : nat) (c : cnd) (body : St -> outcome V * St) (st : St) : outcome V * St :=
  match n with
  | O => (OFuel, st)
  | S n =>
      match body st with
      | (ONormal, st) | (OCont, st) =>
          match ev_cnd c st with
          | inr (v, st) => (OThrow v, st)
          | inl (EVal true st) => run_repeat n c body st
          | inl (EVal false st) => (ONormal, st)
          | inl (EExc _ st) => (OFuel, st)
          end
      | (OBreak, st) => (ONormal, st)
      | r => r
      end
  end.

(* The case selected by a value: the first equal one, otherwise the default *)
Inductive sel := SelCase (k : nat) | SelNone | SelExc (v : V).
Fixpoint select (v : V) (cs : cases) (k : nat) (dflt : option nat) (st : St) : sel * St :=
  match cs with
  | CNil => (match dflt with Some k => SelCase k | None => SelNone end, st)
  | CCons None _ _ r => select v r (S k) (Some k) st
  | CCons (Some e) _ _ r =>
      match l_ev L e st with
      | EVal w st => if l_eq L v w then (SelCase k, st) else select v r (S k) dflt st
      | EExc x st => (SelExc x, st)
      end
  end.

(* doc/grammar.md:640-905; [n] limits the iterations of every loop *)
Fixpoint exec (n : nat) (s : stmt) (st : St) {struct s} : outcome V * St :=
  match s with
  | SEmpty => (ONormal, st)
  | SExpr e => match l_ev L e st with EVal _ st => (ONormal, st) | EExc v st => (OThrow v, st) end
  | SLit es => ev_all es st
  | SReturn e => match l_ev L e st with EVal v st => (ORet v, st) | EExc v st => (OThrow v, st) end
  | SThrow e => match l_ev L e st with EVal v st | EExc v st => (OThrow v, st) end
  | SBreak => (OBreak, st)
  | SContinue => (OCont, st)
  | SFall => (OFall, st)
  | SScope b => exec_l n b st
  | SIf c s1 s2 => match ev_cnd c st with
                   | inr (v, st) => (OThrow v, st)
                   | inl (EVal true st) => exec n s1 st
                   | inl (EVal false st) => exec n s2 st
                   | inl (EExc _ st) => (OFuel, st)
                   end
  | SRepeat s c => run_repeat n c (exec n s) st
  | SWhile c s => run_while n c (exec n s) st
  | SForIn e nx s => match l_ev L e st with
                     | EVal _ st => run_while n (KExpr nx) (exec n s) st
                     | EExc v st => (OThrow v, st)
                     end
  | STry s x h => match exec n s st with
                  | (OThrow v, st) => exec n h (l_set L x v st)
                  | r => r
                  end
  | SDefer s d => match exec n s st with
                  | (OFuel, st) => (OFuel, st)
                  | (o, st) => match exec n d st with
                               | (ONormal, st) => (o, st)
                               | r => r
                               end
                  end
  | SSwitch e cs =>
      match l_ev L e st with
      | EExc v st => (OThrow v, st)
      | EVal v st =>
          match select v cs 0 None st with
          | (SelExc x, st) => (OThrow x, st)
          | (SelNone, st) => (ONormal, st)
          | (SelCase k, st) => match exec_from n cs k st with
                               | (OBreak, st) => (ONormal, st)
                               | r => r
                               end
          end
      end
  end
with exec_l (n : nat) (b : stmts) (st : St) {struct b} : outcome V * St :=
  match b with
  | Nil => (ONormal, st)
  | Cons s r => match exec n s st with
                | (ONormal, st) => exec_l n r st
                | x => x
                end
  end
(* Execution of cases starting from the one with the number [k].  The end of the list is reached only
   by fallthrough in the last case, which the parser rejects (core/kos_parser.c:2838-2842). *)
with exec_from (n : nat) (cs : cases) (k : nat) (st : St) {struct cs} : outcome V * St :=
  match cs with
  | CNil => (OFall, st)
  | CCons _ s nx r =>
      match k with
      | S k => exec_from n r k st
      | O => match exec n s st with
             | (ONormal, st) => match nx with NxNone => (ONormal, st) | _ => exec_from n r 0 st end
             | (OFall, st) => exec_from n r 0 st
             | x => x
             end
      end
  end.
End EXEC.

(* ---- programs without the mistakes ---- *)

Fixpoint has_default (cs : cases) : bool :=
  match cs with
  | CNil => false
  | CCons None _ _ _ => true
  | CCons (Some _) _ _ r => has_default r
  end.

(* None: execution may continue after the statement.  Some b: every path ends with return, throw,
   break or continue, b: one of them ends with break or continue. *)
Fixpoint ends (s : stmt) : option bool :=
  match s with
  | SReturn _ | SThrow _ => Some false
  | SBreak | SContinue => Some true
  | SScope b => ends_l b
  | SIf c s1 s2 =>
      if cnd_truthy c then ends s1 else if cnd_falsy c then ends s2
      else match ends s1, ends s2 with Some x, Some y => Some (x || y) | _, _ => None end
  | SRepeat s _ => match ends s with Some false => Some false | _ => None end
  | SWhile c s => if cnd_truthy c
                  then match ends s with Some false => Some false | _ => None end else None
  | STry s _ h => match ends s, ends h with Some x, Some y => Some (x || y) | _, _ => None end
  | SDefer _ d => ends d
  | SSwitch _ cs => if has_default cs && ends_all cs then Some false else None
  | _ => None
  end
with ends_l (b : stmts) : option bool :=
  match b with
  | Nil => None
  | Cons s r => match ends s with Some x => Some x | None => ends_l r end
  end
with ends_all (cs : cases) : bool :=
  match cs with
  | CNil => true
  | CCons _ s _ r => match ends s with Some false => ends_all r | _ => false end
  end.

(* Whether the statement contains a break (brk = true) or continue (brk = false) which leaves it and
   which is not in unreachable code *)
Fixpoint jumps (brk : bool) (s : stmt) : bool :=
  match s with
  | SBreak => brk
  | SContinue => negb brk
  | SScope b => jumps_l brk b
  | SIf c s1 s2 => if cnd_truthy c then jumps brk s1 else if cnd_falsy c then jumps brk s2
                   else jumps brk s1 || jumps brk s2
  | STry s _ h => jumps brk s || jumps brk h
  | SDefer s d => jumps brk s || jumps brk d
  | SSwitch _ cs => if brk then false else jumps_c cs
  | _ => false
  end
with jumps_l (brk : bool) (b : stmts) : bool :=
  match b with
  | Nil => false
  | Cons s r => jumps brk s || match ends s with None => jumps_l brk r | Some _ => false end
  end
with jumps_c (cs : cases) : bool :=
  match cs with
  | CNil => false
  | CCons _ s _ r => jumps false s || jumps_c r
  end.

Fixpoint cases_break (cs : cases) : bool :=
  match cs with
  | CNil => false
  | CCons _ s _ r => jumps true s || cases_break r
  end.

(* No loop with a body which ends with return or throw on every path can be left with break, no such
   repeat loop has continue, and function and class literals which are statements evaluate nothing *)
Fixpoint ok (s : stmt) : bool :=
  match s with
  | SLit es => match es with [] => true | _ => false end
  | SScope b => ok_l b
  | SIf c s1 s2 => if cnd_truthy c then ok s1 else if cnd_falsy c then ok s2 else ok s1 && ok s2
  | SRepeat s _ =>
      ok s && match ends s with
              | None => true
              | Some x => negb (jumps false s) && (x || negb (jumps true s))
              end
  | SWhile c s =>
      if cnd_falsy c then true
      else ok s && (negb (cnd_truthy c) || match ends s with Some false => negb (jumps true s) | _ => true end)
  | SForIn _ _ s => ok s
  | STry s _ h => ok s && ok h
  | SDefer s d => ok s && ok d
  | SSwitch _ cs => ok_c cs && (negb (has_default cs && ends_all cs) || negb (cases_break cs))
  | _ => true
  end
with ok_l (b : stmts) : bool :=
  match b with
  | Nil => true
  | Cons s r => ok s && match ends s with None => ok_l r | Some _ => true end
  end
with ok_c (cs : cases) : bool :=
  match cs with
  | CNil => true
  | CCons _ s _ r => ok s && ok_c r
  end.
