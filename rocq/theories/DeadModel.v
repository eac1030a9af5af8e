(* Model of the removal of unreachable code:
   core/kos_compiler_optim.c:340-734 (is_dummy_load, process_scope, if_stmt, repeat_stmt, while_stmt, try_stmt,
   switch_stmt, case_stmt), 796-863 (for_in_stmt), 2073-2240 (visit_node).
   Simplifications: optimization is on (program->optimize).  Expressions are opaque numbers, because
   folding them is modelled in FoldModel2; counting and removal of variables is not modelled.  No
   errors.  Statements which occur at most once as children (a missing else) are SEmpty. *)
From Coq Require Import ZArith List Bool.
Import ListNotations.
Local Open Scope Z_scope.

(* A condition: a literal true or false, another expression which kos_node_is_truthy or
   kos_node_is_falsy (core/kos_compiler_optim.c:182-238) knows to be true or false, or an expression
   of unknown value *)
Inductive cnd := KLit (b : bool) | KConst (b : bool) | KExpr (e : Z).

(* The optional third child of a case: nothing, fallthrough, or fallthrough removed by case_stmt *)
Inductive nxt := NxNone | NxFall | NxEmpty.

(* core/kos_ast.h:10-60.  SExpr is a statement which is an expression or an assignment.  SLit is one
   of the nodes for which is_dummy_load (core/kos_compiler_optim.c:340-374) says true; [es] are the
   expressions inside a function or class literal which are evaluated when it is evaluated (default
   values of arguments, the base class).  SForIn has the expression and the operation which gets the
   next element. *)
Inductive stmt :=
  | SEmpty
  | SExpr (e : Z)
  | SLit (es : list Z)
  | SReturn (e : Z)
  | SThrow (e : Z)
  | SBreak
  | SContinue
  | SFall
  | SScope (b : stmts)
  | SIf (c : cnd) (s1 s2 : stmt)
  | SRepeat (s : stmt) (c : cnd)
  | SWhile (c : cnd) (s : stmt)
  | SForIn (e nx : Z) (s : stmt)
  | STry (s : stmt) (x : Z) (h : stmt)
  | SDefer (s d : stmt)
  | SSwitch (e : Z) (cs : cases)
with stmts := Nil | Cons (s : stmt) (r : stmts)
with cases := CNil | CCons (t : option Z) (s : stmt) (nx : nxt) (r : cases).

(* core/kos_compiler_optim.c:22-27 KOS_TERMINATOR_E *)
Definition TERM_NONE := 0.
Definition TERM_BREAK := 1.
Definition TERM_THROW := 2.
Definition TERM_RETURN := 4.

Definition is_term (t : Z) : bool := negb (t =? TERM_NONE).
Definition has_break (t : Z) : bool := negb (Z.land t TERM_BREAK =? 0).

Definition cnd_truthy (c : cnd) : bool := match c with KLit b | KConst b => b | KExpr _ => false end.
Definition cnd_falsy (c : cnd) : bool := match c with KLit b | KConst b => negb b | KExpr _ => false end.
Definition is_literal (c : cnd) : bool := match c with KLit _ => true | _ => false end.

(* core/kos_compiler_optim.c:340-374 is_dummy_load *)
Definition is_dummy (s : stmt) : bool := match s with SLit _ => true | _ => false end.
Definition has_next (r : stmts) : bool := match r with Nil => false | _ => true end.

(* core/kos_compiler_optim.c:2073-2240 visit_node: the changed node and is_terminal *)
Fixpoint opt (s : stmt) : stmt * Z :=
  match s with
  | SReturn _ => (s, TERM_RETURN)
  | SThrow _ => (s, TERM_THROW)
  | SBreak | SContinue => (s, TERM_BREAK)
  | SScope b => let (b', t) := opt_scope false b in (SScope b', t)
  (* core/kos_compiler_optim.c:454-514 if_stmt; promote replaces the node by its child *)
  | SIf c s1 s2 =>
      if cnd_truthy c then opt s1
      else if cnd_falsy c then opt s2
      else let (s1', t1) := opt s1 in
           let (s2', t2) := opt s2 in
           (SIf c s1' s2', if is_term t1 && is_term t2 then Z.lor t1 t2 else TERM_NONE)
  (* core/kos_compiler_optim.c:516-547 repeat_stmt *)
  | SRepeat s c =>
      let (s', t) := opt s in
      (SRepeat s' (if is_term t then KLit false else c), if has_break t then TERM_NONE else t)
  (* core/kos_compiler_optim.c:549-588 while_stmt *)
  | SWhile c s =>
      let (s', t) := if cnd_falsy c then (SEmpty, TERM_NONE) else opt s in
      let t := if negb (cnd_truthy c) || has_break t then TERM_NONE else t in
      (SWhile (if is_term t && negb (is_literal c) then KLit true else c) s', t)
  (* core/kos_compiler_optim.c:796-863 for_in_stmt; is_terminal is not returned *)
  | SForIn e nx s => (SForIn e nx (fst (opt s)), TERM_NONE)
  (* core/kos_compiler_optim.c:590-665 try_stmt *)
  | STry s x h =>
      let (s', t1) := opt s in
      let (h', t2) := opt h in
      (STry s' x h', if is_term t1 && is_term t2 then Z.lor (Z.land t1 (Z.lnot TERM_THROW)) t2
                     else TERM_NONE)
  | SDefer s d =>
      let (s', t1) := opt s in
      let (d', t3) := opt d in
      (SDefer s' d', if is_term t3 then t3 else TERM_NONE)
  (* core/kos_compiler_optim.c:667-707 switch_stmt *)
  | SSwitch e cs =>
      let '(cs', has_default, all, t) := opt_cases cs in
      (SSwitch e cs', if all && has_default then t else TERM_NONE)
  | SEmpty | SExpr _ | SLit _ | SFall => (s, TERM_NONE)
  end
(* core/kos_compiler_optim.c:410-452 process_scope *)
with opt_scope (global : bool) (b : stmts) : stmts * Z :=
  match b with
  | Nil => (Nil, TERM_NONE)
  | Cons s r =>
      if is_dummy s && (has_next r || negb global) then opt_scope global r
      else
        let (s', t) := opt s in
        if is_term t then (Cons s' Nil, t)
        else let (r', t') := opt_scope global r in (Cons s' r', t')
  end
(* The loop of switch_stmt, and core/kos_compiler_optim.c:709-734 case_stmt: the cases, whether there
   is a default, whether all the cases are terminated, and how *)
with opt_cases (cs : cases) : cases * bool * bool * Z :=
  match cs with
  | CNil => (CNil, false, true, TERM_NONE)
  | CCons t s nx r =>
      let (s', k) := opt s in
      let nx' := match nx with NxNone => NxNone | _ => if is_term k then NxEmpty else nx end in
      let k := if has_break k then TERM_NONE else k in
      let '(r', d, all, tr) := opt_cases r in
      (CCons t s' nx' r', match t with None => true | _ => d end, is_term k && all, Z.lor k tr)
  end.

(* core/kos_compiler_optim.c:2243-2253 kos_optimize: the outermost node is the global scope *)
Definition optimize (b : stmts) : stmts := fst (opt_scope true b).

(* core/kos_compiler.c:6541-6546: passes are repeated while something changes *)
Fixpoint passes (k : nat) (b : stmts) : stmts :=
  match k with O => b | S k => passes k (optimize b) end.
