(* Model of the code generated for statements: core/kos_compiler.c:1603-1672 (process_scope),
   1853-2260 (if_stmt, find_try_scope, gen_return, return_stmt, throw_op, finish_break_continue,
   finish_fallthrough, push_try_scope, repeat, while_stmt), 2434-2631 (for_in), 2856-3415 (restore_catch,
   restore_parent_scope_catch, push_break_offs, break_continue_fallthrough, switch_stmt,
   update_child_scope_catch, try_stmt), and of the instructions which it uses: core/kos_vm.c:3395-3655.
   Simplifications:
   - Every instruction has size 1.  Jumps get their targets at once instead of being patched later: the
     sizes of the parts do not depend on the targets, so the size of what follows is computed first.
   - Expressions are opaque; the code of an expression is one instruction which puts the value in a
     register.  Conditions are single operands (nested conditions are modelled in CondModel).
   - Registers of try statements are numbered by their nesting; other registers are temporary and are
     taken from the first free number.  Running out of registers is not modelled.
   - At most 25 jumps to one handler per scope (restore_catch) is not modelled, nor are other errors.
   - The exception variable is put in the state by a separate instruction (in the code it is the
     register itself).
   - Tail calls are evaluation followed by return.  The loops over range() are not modelled. *)
From Coq Require Import ZArith List Bool.
From Verif Require Import ListZ DeadModel DeadSpec.
Import ListNotations.
Local Open Scope Z_scope.

(* IEval: the code of an expression; ICmp: INSTR_CMP_EQ; IBind: store of the exception variable; others:
   INSTR_JUMP, JUMP_COND, JUMP_NOT_COND, RETURN, THROW, CATCH, CANCEL, MOVE, LOAD_VOID *)
Inductive instr :=
  | IEval (r e : Z)
  | IJump (t : Z)
  | IJumpC (t r : Z)
  | IJumpN (t r : Z)
  | ICmp (d a b : Z)
  | IRet (r : Z)
  | IThrow (r : Z)
  | ICatch (r t : Z)
  | ICancel
  | IMove (d s : Z)
  | IVoid (r : Z)
  | IBind (x r : Z).

(* The state of the compiler on which the size of code depends.  h_dep: the first free register.  h_try:
   find_try_scope (1912-1921): the register of the innermost active try.  h_last: last_try_scope.  h_ret:
   the innermost active try with finally_active. *)
Record shape := { h_dep : Z; h_try : option Z; h_last : option Z; h_ret : option Z }.

(* 3183-3295: the section of try ... catch, the section of try ... defer, and the catch or defer
   section, in which catch_reg of the scope is cleared *)
Definition in_try (h : shape) : shape :=
  {| h_dep := h_dep h + 1; h_try := Some (h_dep h); h_last := h_last h; h_ret := h_ret h |}.
Definition in_defer (h : shape) : shape :=
  {| h_dep := h_dep h + 1; h_try := Some (h_dep h); h_last := h_last h; h_ret := Some (h_dep h) |}.
Definition deeper (h : shape) : shape :=
  {| h_dep := h_dep h + 1; h_try := h_try h; h_last := h_last h; h_ret := h_ret h |}.
(* 2145-2154 push_try_scope *)
Definition in_loop (h : shape) : shape :=
  {| h_dep := h_dep h; h_try := h_try h;
     h_last := match h_try h with Some _ => h_try h | None => h_last h end; h_ret := h_ret h |}.

(* The state of the compiler with targets of jumps.  c_hnd: the handler of the try which uses the given
   register.  c_brk, c_cont, c_fall: where break, continue and fallthrough jump.  c_rpc: where return
   jumps if h_ret is set. *)
Record ctx := { c_sh : shape; c_hnd : Z -> Z; c_brk : Z; c_cont : Z; c_fall : Z; c_rpc : Z }.

(* The types of jumps kept in break_offs, and return_offs *)
Inductive kind := KBreak | KCont | KFall | KRet.

(* Whether code generated for the statement leaves jumps of the kind for the caller to patch *)
Fixpoint leaves (k : kind) (s : stmt) : bool :=
  match s with
  | SReturn _ => match k with KRet => true | _ => false end
  | SBreak => match k with KBreak => true | _ => false end
  | SContinue => match k with KCont => true | _ => false end
  | SFall => match k with KFall => true | _ => false end
  | SScope b => leaves_l k b
  | SIf _ s1 s2 => leaves k s1 || leaves k s2
  | SRepeat s _ | SForIn _ _ s =>
      match k with KBreak | KCont => false | _ => leaves k s end
  | SWhile c s => match k with KBreak | KCont => false | _ => negb (cnd_falsy c) && leaves k s end
  | STry s _ h => leaves k s || leaves k h
  | SDefer s d => leaves k s || leaves k d
  | SSwitch _ cs => match k with KBreak | KFall => false | _ => leaves_c k cs end
  | SEmpty | SExpr _ | SLit _ | SThrow _ => false
  end
with leaves_l (k : kind) (b : stmts) : bool :=
  match b with Nil => false | Cons s r => leaves k s || leaves_l k r end
with leaves_c (k : kind) (cs : cases) : bool :=
  match cs with CNil => false | CCons _ s _ r => leaves k s || leaves_c k r end.

(* 1980-1981: the value of return is computed in the register of the innermost try *)
Definition ret_reg (h : shape) : Z := match h_try h with Some t => t | None => h_dep h end.
Definition ret_size (h : shape) (r : Z) : Z :=
  match h_ret h with None => 1 | Some q => if r =? q then 1 else 2 end.
Definition break_size (h : shape) : Z := match h_last h with Some _ => 2 | None => 1 end.
Definition cj_size (op : bool) (c : cnd) : Z :=
  match c with KExpr _ => 2 | KLit b | KConst b => if Bool.eqb b op then 1 else 0 end.
Definition opt_size (b : bool) (n : Z) : Z := if b then n else 0.

Fixpoint num_tests (cs : cases) : Z :=
  match cs with
  | CNil => 0
  | CCons None _ _ r => num_tests r
  | CCons (Some _) _ _ r => 3 + num_tests r
  end.

Definition is_fall (s : stmt) : bool := match s with SFall => true | _ => false end.
Definition is_empty (s : stmt) : bool := match s with SEmpty => true | _ => false end.
Definition is_end (nx : nxt) : bool := match nx with NxNone => true | _ => false end.

(* The size of the code generated by [gen] below *)
Fixpoint size (h : shape) (s : stmt) {struct s} : Z :=
  match s with
  | SEmpty => 0
  | SExpr _ => 1
  | SLit es => len es
  | SReturn _ => 1 + ret_size h (ret_reg h)
  | SThrow _ => 2
  | SBreak | SContinue | SFall => break_size h
  | SScope b => size_l h b
  | SIf c s1 s2 => cj_size false c + size h s1 + opt_size (negb (is_empty s2)) (1 + size h s2)
  | SRepeat s c => size (in_loop h) s + cj_size true c
  | SWhile c s => opt_size (negb (cnd_falsy c)) (cj_size false c + size (in_loop h) s + cj_size true c)
  | SForIn _ _ s => 4 + size (in_loop h) s
  | STry s _ hd => 5 + size (in_try h) s + size (deeper h) hd
  | SDefer s d =>
      let n := size (deeper h) d in
      2 + size (in_defer h) s + (3 + n) + opt_size (leaves KBreak s) (2 + n)
      + opt_size (leaves KCont s) (2 + n) + opt_size (leaves KFall s) (2 + n)
      + opt_size (leaves KRet s) (1 + n + ret_size h (h_dep h))
  | SSwitch _ CNil => 1
  | SSwitch _ (CCons None s _ CNil) => 1 + opt_size (negb (is_fall s)) (size h s)
  | SSwitch _ cs => 2 + num_tests cs + size_c h cs
  end
with size_l (h : shape) (b : stmts) {struct b} : Z :=
  match b with Nil => 0 | Cons s r => size h s + size_l h r end
with size_c (h : shape) (cs : cases) {struct cs} : Z :=
  match cs with
  | CNil => 0
  | CCons _ s nx r => opt_size (negb (is_fall s)) (size h s + opt_size (is_end nx) 1) + size_c h r
  end.

Definition case_size (h : shape) (s : stmt) (nx : nxt) : Z :=
  opt_size (negb (is_fall s)) (size h s + opt_size (is_end nx) 1).

(* 1755-1851 gen_cond_jump for one operand *)
Definition gen_cj (op : bool) (c : cnd) (r t : Z) : list instr :=
  match c with
  | KExpr e => [IEval r e; if op then IJumpC t r else IJumpN t r]
  | KLit b | KConst b => if Bool.eqb b op then [IJump t] else []
  end.

(* 2856-2896 restore_catch *)
Definition restore (c : ctx) (t : option Z) : instr :=
  match t with Some r => ICatch r (c_hnd c r) | None => ICancel end.

(* 1935-1967 gen_return *)
Definition gen_ret (c : ctx) (r : Z) : list instr :=
  match h_ret (c_sh c) with
  | None => [IRet r]
  | Some q => (if r =? q then [] else [IMove q r]) ++ [IJump (c_rpc c)]
  end.

(* 2926-2951 break_continue_fallthrough *)
Definition gen_break (c : ctx) (t : Z) : list instr :=
  match h_last (c_sh c) with Some r => [restore c (Some r)] | None => [] end ++ [IJump t].

Definition set_hnd (c : ctx) (r t : Z) : Z -> Z := fun x => if x =? r then t else c_hnd c x.

(* 3011-3060: the tests of the cases; [pc] is the address of the code of the first case *)
Fixpoint gen_tests (h : shape) (cs : cases) (pc : Z) : list instr :=
  match cs with
  | CNil => []
  | CCons t s nx r =>
      match t with
      | Some e => [IEval (h_dep h + 1) e; ICmp (h_dep h + 1) (h_dep h) (h_dep h + 1);
                   IJumpC pc (h_dep h + 1)]
      | None => []
      end ++ gen_tests h r (pc + case_size h s nx)
  end.

(* 3066-3069: where to jump if no case is equal *)
Fixpoint default_pc (h : shape) (cs : cases) (pc dflt : Z) : Z :=
  match cs with
  | CNil => dflt
  | CCons t s nx r => default_pc h r (pc + case_size h s nx) (match t with None => pc | Some _ => dflt end)
  end.

(* The code for a statement which starts at [pc] *)
Fixpoint gen (c : ctx) (pc : Z) (s : stmt) {struct s} : list instr :=
  let h := c_sh c in
  match s with
  | SEmpty => []
  | SExpr e => [IEval (h_dep h) e]
  | SLit es => map (IEval (h_dep h)) es
  (* 1980-2025 return_stmt *)
  | SReturn e => IEval (ret_reg h) e :: gen_ret c (ret_reg h)
  (* 2043-2060 throw_op *)
  | SThrow e => [IEval (h_dep h) e; IThrow (h_dep h)]
  | SBreak => gen_break c (c_brk c)
  | SContinue => gen_break c (c_cont c)
  | SFall => gen_break c (c_fall c)
  | SScope b => gen_l c pc b
  (* 1853-1895 if_stmt *)
  | SIf k s1 s2 =>
      let p1 := pc + cj_size false k in
      let p2 := p1 + size h s1 + opt_size (negb (is_empty s2)) 1 in
      gen_cj false k (h_dep h) p2 ++ gen c p1 s1
      ++ if is_empty s2 then [] else IJump (p2 + size h s2) :: gen c p2 s2
  (* 2156-2201 repeat *)
  | SRepeat s k =>
      let p1 := pc + size (in_loop h) s in
      gen {| c_sh := in_loop h; c_hnd := c_hnd c; c_brk := p1 + cj_size true k; c_cont := p1;
             c_fall := c_fall c; c_rpc := c_rpc c |} pc s
      ++ gen_cj true k (h_dep h) pc
  (* 2203-2256 while_stmt *)
  | SWhile k s =>
      if cnd_falsy k then []
      else
        let p1 := pc + cj_size false k in
        let p2 := p1 + size (in_loop h) s + cj_size true k in
        gen_cj false k (h_dep h) p2
        ++ gen {| c_sh := in_loop h; c_hnd := c_hnd c; c_brk := p2; c_cont := pc; c_fall := c_fall c;
                  c_rpc := c_rpc c |} p1 s
        ++ gen_cj true k (h_dep h) p1
  (* 2434-2631 for_in; the last two instructions are INSTR_NEXT_JUMP *)
  | SForIn e nx s =>
      let p1 := pc + 2 + size (in_loop h) s in
      [IEval (h_dep h) e; IJump p1]
      ++ gen {| c_sh := in_loop h; c_hnd := c_hnd c; c_brk := p1 + 2; c_cont := p1; c_fall := c_fall c;
                c_rpc := c_rpc c |} (pc + 2) s
      ++ [IEval (h_dep h) nx; IJumpC (pc + 2) (h_dep h)]
  (* 3183-3415 try_stmt: catch *)
  | STry s x hd =>
      let r := h_dep h in
      let p1 := pc + 1 + size (in_try h) s + 2 in
      let p2 := p1 + 2 + size (deeper h) hd in
      [ICatch r p1]
      ++ gen {| c_sh := in_try h; c_hnd := set_hnd c r p1; c_brk := c_brk c; c_cont := c_cont c;
                c_fall := c_fall c; c_rpc := c_rpc c |} (pc + 1) s
      ++ [restore c (h_try h); IJump p2]
      ++ [restore c (h_try h); IBind x r]
      ++ gen {| c_sh := deeper h; c_hnd := c_hnd c; c_brk := c_brk c; c_cont := c_cont c;
                c_fall := c_fall c; c_rpc := c_rpc c |} (p1 + 2) hd
  (* 3183-3415 try_stmt: defer *)
  | SDefer s d =>
      let r := h_dep h in
      let n := size (deeper h) d in
      let p1 := pc + 2 + size (in_defer h) s in
      let pb := p1 + 3 + n in
      let pk := pb + opt_size (leaves KBreak s) (2 + n) in
      let pf := pk + opt_size (leaves KCont s) (2 + n) in
      let pr := pf + opt_size (leaves KFall s) (2 + n) in
      let pe := pr + opt_size (leaves KRet s) (1 + n + ret_size h r) in
      let cd := {| c_sh := deeper h; c_hnd := c_hnd c; c_brk := c_brk c; c_cont := c_cont c;
                   c_fall := c_fall c; c_rpc := c_rpc c |} in
      [IVoid r; ICatch r p1]
      ++ gen {| c_sh := in_defer h; c_hnd := set_hnd c r p1; c_brk := pb; c_cont := pk; c_fall := pf;
                c_rpc := pr |} (pc + 2) s
      ++ [restore c (h_try h)] ++ gen cd (p1 + 1) d ++ [IJumpN pe r; IThrow r]
      ++ (if leaves KBreak s
          then [restore c (h_try h)] ++ gen cd (pb + 1) d ++ [IJump (c_brk c)] else [])
      ++ (if leaves KCont s
          then [restore c (h_try h)] ++ gen cd (pk + 1) d ++ [IJump (c_cont c)] else [])
      ++ (if leaves KFall s
          then [restore c (h_try h)] ++ gen cd (pf + 1) d ++ [IJump (c_fall c)] else [])
      ++ (if leaves KRet s
          then [restore c (h_try h)] ++ gen cd (pr + 1) d ++ gen_ret c r else [])
  (* 2973-3154 switch_stmt *)
  | SSwitch e CNil => [IEval (h_dep h) e]
  | SSwitch e (CCons None s _ CNil) =>
      [IEval (h_dep h) e]
      ++ if is_fall s then []
         else gen {| c_sh := h; c_hnd := c_hnd c; c_brk := pc + 1 + size h s; c_cont := c_cont c;
                     c_fall := c_fall c; c_rpc := c_rpc c |} (pc + 1) s
  | SSwitch e cs =>
      let p1 := pc + 2 + num_tests cs in
      let p2 := p1 + size_c h cs in
      [IEval (h_dep h) e] ++ gen_tests h cs p1 ++ [IJump (default_pc h cs p1 p2)]
      ++ gen_c c p1 p2 cs
  end
(* 1603-1672 process_scope *)
with gen_l (c : ctx) (pc : Z) (b : stmts) {struct b} : list instr :=
  match b with
  | Nil => []
  | Cons s r => gen c pc s ++ gen_l c (pc + size (c_sh c) s) r
  end
(* 3071-3105: the code of the cases; [pe] is the end of the switch *)
with gen_c (c : ctx) (pc pe : Z) (cs : cases) {struct cs} : list instr :=
  match cs with
  | CNil => []
  | CCons _ s nx r =>
      let p1 := pc + case_size (c_sh c) s nx in
      (if is_fall s then []
       else gen {| c_sh := c_sh c; c_hnd := c_hnd c; c_brk := pe; c_cont := c_cont c; c_fall := p1;
                   c_rpc := c_rpc c |} pc s
            ++ if is_end nx then [IJump pe] else [])
      ++ gen_c c p1 pe r
  end.

(* The code of a function *)
Definition top_sh : shape := {| h_dep := 0; h_try := None; h_last := None; h_ret := None |}.
Definition top : ctx :=
  {| c_sh := top_sh; c_hnd := fun _ => 0; c_brk := 0; c_cont := 0; c_fall := 0; c_rpc := 0 |}.
Definition gen_fun (b : stmts) : list instr := gen_l top 0 b.

(* ---- the virtual machine ---- *)

(* The contents of a register; RExc: the object into which kos_wrap_exception puts a thrown value *)
Inductive rv (V : Type) := RVoid | RVal (v : V) | RExc (v : V) | RBool (b : bool).
Arguments RVoid {V}. Arguments RVal {V} v. Arguments RExc {V} v. Arguments RBool {V} b.

(* Running at [pc] with the catch register and offset [ct], or finished *)
Inductive conf (V St : Type) :=
  | CRun (pc : Z) (ct : option (Z * Z)) (rg : Z -> rv V) (st : St)
  | CRet (v : V) (st : St)
  | CThrow (v : V) (st : St).
Arguments CRun {V St} pc ct rg st. Arguments CRet {V St} v st. Arguments CThrow {V St} v st.

Section VM.
Context {V St : Type} (L : lang V St).

Definition set (rg : Z -> rv V) (r : Z) (x : rv V) : Z -> rv V := fun y => if y =? r then x else rg y.

Definition rtrue (x : rv V) : bool :=
  match x with RVoid => false | RVal v => l_true L v | RExc _ => true | RBool b => b end.

(* core/kos_vm.c:3624-3655: the label cleanup *)
Definition raise (v : V) (ct : option (Z * Z)) (rg : Z -> rv V) (st : St) : conf V St :=
  match ct with
  | Some (r, t) => CRun t None (set rg r (RExc v)) st
  | None => CThrow v st
  end.

(* One instruction; None: there is none, or it gets a value for which it is not generated *)
Definition exec_instr (i : instr) (pc : Z) (ct : option (Z * Z)) (rg : Z -> rv V) (st : St)
  : option (conf V St) :=
  match i with
  | IEval r e => match l_ev L e st with
                 | EVal v st => Some (CRun (pc + 1) ct (set rg r (RVal v)) st)
                 | EExc v st => Some (raise v ct rg st)
                 end
  | IJump t => Some (CRun t ct rg st)
  | IJumpC t r => Some (CRun (if rtrue (rg r) then t else pc + 1) ct rg st)
  | IJumpN t r => Some (CRun (if rtrue (rg r) then pc + 1 else t) ct rg st)
  | ICmp d a b => match rg a, rg b with
                  | RVal v, RVal w => Some (CRun (pc + 1) ct (set rg d (RBool (l_eq L v w))) st)
                  | _, _ => None
                  end
  | IRet r => match rg r with RVal v => Some (CRet v st) | _ => None end
  | IThrow r => match rg r with RVal v | RExc v => Some (raise v ct rg st) | _ => None end
  | ICatch r t => Some (CRun (pc + 1) (Some (r, t)) rg st)
  | ICancel => Some (CRun (pc + 1) None rg st)
  | IMove d s => Some (CRun (pc + 1) ct (set rg d (rg s)) st)
  | IVoid r => Some (CRun (pc + 1) ct (set rg r RVoid) st)
  | IBind x r => match rg r with
                 | RExc v => Some (CRun (pc + 1) ct rg (l_set L x v st))
                 | _ => None
                 end
  end.

Definition fetch (code : list instr) (pc : Z) : option instr :=
  if pc <? 0 then None else nth_error code (Z.to_nat pc).

Definition step (code : list instr) (c : conf V St) : option (conf V St) :=
  match c with
  | CRun pc ct rg st => match fetch code pc with
                        | Some i => exec_instr i pc ct rg st
                        | None => None
                        end
  | _ => None
  end.

(* [k] instructions *)
Fixpoint run (code : list instr) (k : nat) (c : conf V St) : option (conf V St) :=
  match k with
  | O => Some c
  | S k => match step code c with Some c => run code k c | None => None end
  end.
End VM.
