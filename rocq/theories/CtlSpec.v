(* Which statements get code that keeps the catch handler right, and what correct code means *)
From Coq Require Import ZArith List Bool.
From Verif Require Import DeadModel DeadSpec CtlModel.
Import ListNotations.
Local Open Scope Z_scope.

Definition eqo (a b : option Z) : bool :=
  match a, b with
  | Some x, Some y => x =? y
  | None, None => true
  | _, _ => false
  end.

(* The handler after the code of break, continue or fallthrough: that of the innermost try around the
   innermost loop if there is one, otherwise the handler is not changed *)
Definition left_with (h : shape) : option Z :=
  match h_last h with Some _ => h_last h | None => h_try h end.

(* A requirement: None: any handler; Some t: the handler of the try statement t *)
Definition meets (q : option (option Z)) (t : option Z) : bool :=
  match q with None => true | Some q => eqo t q end.

Fixpoint last_ok (cs : cases) : bool :=
  match cs with
  | CNil => true
  | CCons _ s nx CNil => is_end nx && negb (leaves KFall s)
  | CCons _ _ _ r => last_ok r
  end.

(* break, continue and fallthrough reach their targets with the handler which is active there.  b, cn, f:
   the requirements of the targets of break, continue and fallthrough; a defer section sets the handler
   itself.  Also the last case of a switch has no fallthrough (the parser checks this). *)
Fixpoint fits (h : shape) (b cn f : option (option Z)) (s : stmt) {struct s} : bool :=
  match s with
  | SBreak => meets b (left_with h)
  | SContinue => meets cn (left_with h)
  | SFall => meets f (left_with h)
  | SScope l => fits_l h b cn f l
  | SIf _ s1 s2 => fits h b cn f s1 && fits h b cn f s2
  | SRepeat s _ | SForIn _ _ s => fits (in_loop h) (Some (h_try h)) (Some (h_try h)) f s
  | SWhile c s => cnd_falsy c || fits (in_loop h) (Some (h_try h)) (Some (h_try h)) f s
  | STry s _ hd => fits (in_try h) b cn f s && fits (deeper h) b cn f hd
  | SDefer s d =>
      fits (in_defer h) None None None s && fits (deeper h) b cn f d
      && (negb (leaves KBreak s) || meets b (h_try h))
      && (negb (leaves KCont s) || meets cn (h_try h))
      && (negb (leaves KFall s) || meets f (h_try h))
  | SSwitch _ cs => fits_c h (Some (h_try h)) cn (Some (h_try h)) cs && last_ok cs
  | SEmpty | SExpr _ | SLit _ | SReturn _ | SThrow _ => true
  end
with fits_l (h : shape) (b cn f : option (option Z)) (l : stmts) {struct l} : bool :=
  match l with
  | Nil => true
  | Cons s r => fits h b cn f s && fits_l h b cn f r
  end
with fits_c (h : shape) (b cn f : option (option Z)) (cs : cases) {struct cs} : bool :=
  match cs with
  | CNil => true
  | CCons _ s _ r => (is_fall s || fits h b cn f s) && fits_c h b cn f r
  end.

(* A function in which break, continue and fallthrough keep the handler right and have a target *)
Definition fun_ok (b : stmts) : bool :=
  fits_l top_sh None None None b && negb (leaves_l KBreak b) && negb (leaves_l KCont b)
  && negb (leaves_l KFall b).

(* A statement without break, continue and fallthrough, and a function without try: simple cases of the
   functions above *)
Fixpoint no_try (s : stmt) : bool :=
  match s with
  | STry _ _ _ | SDefer _ _ => false
  | SScope b => no_try_l b
  | SIf _ s1 s2 => no_try s1 && no_try s2
  | SRepeat s _ | SForIn _ _ s | SWhile _ s => no_try s
  | SSwitch _ cs => no_try_c cs && last_ok cs
  | _ => true
  end
with no_try_l (b : stmts) : bool :=
  match b with Nil => true | Cons s r => no_try s && no_try_l r end
with no_try_c (cs : cases) : bool :=
  match cs with CNil => true | CCons _ s _ r => no_try s && no_try_c r end.

Section SPEC.
Context {V St : Type} (L : lang V St).

(* The start of the code of a function *)
Definition start (st : St) : conf V St := CRun 0 None (fun _ => RVoid) st.

Definition conf_st (c : conf V St) : St :=
  match c with CRun _ _ _ st | CRet _ st | CThrow _ st => st end.

(* The code ends in the same way as the statements *)
Definition ends_with (b : stmts) (o : outcome V) (st' : St) (c : conf V St) : Prop :=
  match o with
  | ONormal => exists rg, c = CRun (size_l top_sh b) None rg st'
  | ORet v => c = CRet v st'
  | OThrow v => c = CThrow v st'
  | _ => False
  end.
End SPEC.
