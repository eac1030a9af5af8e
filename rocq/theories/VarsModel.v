(** Model of the resolution of names, core/kos_compiler_vars.c.

    Variables live in a heap: a list indexed by number, in the order in which
    they are allocated.  A scope holds pairs of a name and a number instead of a
    red-black tree (modelled elsewhere).  [program->scope_stack] is a list of
    scopes; a pointer to a scope on the stack is the suffix of the stack which
    starts there, and two of them are equal when the suffixes have the same
    length.

    Not modelled: allocation failures, [import], private globals of a module
    which is extended in the interactive mode, the lists of variables of a frame,
    [uses_this], [yield_token], [super].  Syntax trees are those of VarsSpec:
    nodes which only visit their children are [Seq], nodes without children are
    [Skip]; the properties and the base of a class are in [Self]/[Seq] with
    [Fun true] for methods and the constructor. *)
From Coq Require Import ZArith List Lia Bool ZifyBool.
Import ListNotations.
From Verif Require Import Base ListZ VarsSpec.
Local Open Scope Z_scope.

(** core/kos_compiler.h:25-43 *)
Definition VAR_LOCAL := 1.
Definition VAR_ARGUMENT := 2.
Definition VAR_INDEPENDENT_LOCAL := 5.
Definition VAR_INDEPENDENT_ARGUMENT := 6.
Definition VAR_LOCALS_AND_ARGS := 3.
Definition VAR_GLOBAL := 16.
Definition VAR_MODULE := 32.
Definition VAR_IMPORTED := 64.
Definition VAR_INACTIVE := 0.
Definition VAR_ACTIVE := 1.
Definition VAR_ALWAYS_ACTIVE := 2.

(** core/kos_compiler.h:45-63: the fields used here. *)
Record var : Type := V { v_type : Z; v_const : bool; v_act : Z }.

(** core/kos_compiler.h:87-130: [s_fun] numbers scopes with [is_function];
    [s_defer]: the token of [scope_node] is the keyword [defer]. *)
Record scope : Type := Sc { s_fun : option Z; s_defer : bool; s_vars : list (Z * nat) }.

(** [p_refs]: pairs of a function and a scope in its [closures] (scope 0 is the
    global one).  [p_log]: variable and [is_local_var] of each identifier node
    which was looked up. *)
Record prog : Type := P {
  p_stack : list scope;
  p_heap  : list var;
  p_refs  : list (Z * Z);
  p_log   : list (nat * bool);
  p_funs  : Z
}.

(** [MAssert]: an assertion fails, or a pointer is not valid. *)
Inductive mres (A : Type) : Type := MOk (a : A) | MErr (e : verr) | MAssert.
Arguments MOk {A}.
Arguments MErr {A}.
Arguments MAssert {A}.

Definition mbind {A C : Type} (r : mres A) (f : A -> mres C) : mres C :=
  match r with MOk a => f a | MErr e => MErr e | MAssert => MAssert end.

Fixpoint set_var (h : list var) (i : nat) (f : var -> var) : list var :=
  match h, i with
  | [], _ => []
  | v :: r, O => f v :: r
  | v :: r, S j => v :: set_var r j f
  end.

Definition set_act (a : Z) (v : var) : var := V (v_type v) (v_const v) a.
Definition set_type (t : Z) (v : var) : var := V t (v_const v) (v_act v).

Definition is_fun (s : scope) : bool := match s_fun s with Some _ => true | None => false end.
Definition scope_id (s : scope) : Z := match s_fun s with Some f => f | None => 0 end.
Definition active (h : list var) (i : nat) : bool :=
  match nth_error h i with Some v => negb (v_act v =? VAR_INACTIVE) | None => false end.

(** alloc_var (79-103). *)
Definition alloc_var (p : prog) (x t : Z) (c : bool) : mres (nat * prog) :=
  match p_stack p with
  | [] => MAssert
  | s :: r =>
      let i := length (p_heap p) in
      MOk (i, P (Sc (s_fun s) (s_defer s) ((x, i) :: s_vars s) :: r)
                (p_heap p ++ [V t c VAR_ALWAYS_ACTIVE]) (p_refs p) (p_log p) (p_funs p))
  end.

(** push_scope (128-173), push_function (185-194). *)
Definition push_scope (p : prog) (defer : bool) : prog :=
  P (Sc None defer [] :: p_stack p) (p_heap p) (p_refs p) (p_log p) (p_funs p).
Definition push_function (p : prog) : prog :=
  P (Sc (Some (p_funs p)) false [] :: p_stack p) (p_heap p) (p_refs p) (p_log p) (p_funs p + 1).

(** pop_scope (175-183). *)
Definition pop_scope (p : prog) : prog :=
  P (tl (p_stack p)) (p_heap p) (p_refs p) (p_log p) (p_funs p).

(** [program->cur_frame] (157-170, 181-182): the innermost scope which is a
    function, else the outermost one.  The loop which finds the function owning
    a scope (323-324) computes the same. *)
Fixpoint frame_of (stk : list scope) : list scope :=
  match stk with
  | [] => []
  | s :: r => match r with
              | [] => stk
              | _ => if is_fun s then stk else frame_of r
              end
  end.

(** lookup_local_var (202-236).  The check for a parent scope applies to the
    scope on top only: after the first step [parent_scope] is [scope]. *)
Fixpoint local_loop (h : list var) (x : Z) (stk : list scope) : option nat :=
  match stk with
  | [] => None
  | s :: r =>
      if is_fun s then None
      else match assoc x (s_vars s) with
           | Some i => if active h i then Some i else local_loop h x r
           | None => local_loop h x r
           end
  end.
Definition lookup_local (h : list var) (x : Z) (stk : list scope) : option nat :=
  match stk with
  | [] | [_] => None
  | _ => local_loop h x stk
  end.

(** lookup_and_mark_var, search (297-302). *)
Fixpoint outer_loop (h : list var) (x : Z) (stk : list scope) : option (nat * list scope) :=
  match stk with
  | [] => None
  | s :: r =>
      match assoc x (s_vars s) with
      | Some i => if active h i then Some (i, stk) else outer_loop h x r
      | None => outer_loop h x r
      end
  end.

(** add_scope_ref (246-283). *)
Definition add_ref (refs : list (Z * Z)) (inner closure : Z) : list (Z * Z) :=
  if existsb (fun p => (fst p =? inner) && (snd p =? closure)) refs then refs
  else (inner, closure) :: refs.

(** lookup_and_mark_var, loop over inner scopes (327-329). *)
Fixpoint mark_loop (stk : list scope) (stop : nat) (closure : Z) (refs : list (Z * Z))
  : list (Z * Z) :=
  match stk with
  | [] => refs
  | s :: r =>
      if Nat.eqb (length stk) stop then refs
      else mark_loop r stop closure (if is_fun s then add_ref refs (scope_id s) closure else refs)
  end.

(** lookup_and_mark_var (285-346). *)
Definition lookup_and_mark (p : prog) (x : Z) : mres (nat * prog) :=
  let frame := frame_of (p_stack p) in
  match outer_loop (p_heap p) x frame with
  | None => MErr (E_UNDEFINED x)
  | Some (i, sc) =>
      match nth_error (p_heap p) i with
      | None => MAssert
      | Some v =>
          let own := Nat.eqb (length sc) (length frame) in
          let '(h, refs) :=
            if negb (Z.land (v_type v) VAR_LOCALS_AND_ARGS =? 0) && negb own then
              let t := if negb (Z.land (v_type v) VAR_LOCAL =? 0)
                       then VAR_INDEPENDENT_LOCAL else VAR_INDEPENDENT_ARGUMENT in
              let closure := frame_of sc in
              (set_var (p_heap p) i (set_type t),
               mark_loop (p_stack p) (length closure)
                 (match closure with s :: _ => scope_id s | [] => 0 end) (p_refs p))
            else (p_heap p, p_refs p) in
          let local := own || negb (Z.land (v_type v)
                                      (Z.lor VAR_GLOBAL (Z.lor VAR_MODULE VAR_IMPORTED)) =? 0) in
          MOk (i, P (p_stack p) h refs (p_log p ++ [(i, local)]) (p_funs p))
      end
  end.

(** identifier (761-772), and the lookup of left_hand_side (738-743). *)
Definition lookup (p : prog) (x : Z) : mres (nat * prog) :=
  match lookup_local (p_heap p) x (p_stack p) with
  | Some i => MOk (i, P (p_stack p) (p_heap p) (p_refs p) (p_log p ++ [(i, true)]) (p_funs p))
  | None => lookup_and_mark p x
  end.

(** find_local_var (348-367). *)
Fixpoint find_local (x : Z) (stk : list scope) : bool :=
  match stk with
  | [] => false
  | s :: r =>
      match assoc x (s_vars s) with
      | Some _ => true
      | None => if s_defer s then find_local x r else false
      end
  end.

Section Visit.

(** [program->is_interactive]. *)
Variable interactive : bool.

(** define_var (379-439).  [pub]: the node has a child [NT_EXPORT]. *)
Definition define_var (p : prog) (c pub : bool) (x : Z) : mres (nat * prog) :=
  let global := pub || (interactive && (match p_stack p with [_] => true | _ => false end)) in
  if find_local x (p_stack p) then MErr (E_REDEFINED x)
  else alloc_var p x (if global then VAR_GLOBAL else VAR_LOCAL) c.

Definition upd (p : prog) (i : nat) (f : var -> var) : prog :=
  P (p_stack p) (set_var (p_heap p) i f) (p_refs p) (p_log p) (p_funs p).

(** var_node (711-727). *)
Fixpoint var_node (p : prog) (c pub : bool) (xs : list Z) : mres (list (Z * nat) * prog) :=
  match xs with
  | [] => MOk ([], p)
  | x :: r =>
      mbind (define_var p c pub x) (fun '(i, p1) =>
      mbind (var_node (upd p1 i (set_act VAR_INACTIVE)) c pub r) (fun '(is, p2) =>
      MOk ((x, i) :: is, p2)))
  end.

(** kos_activate_var (1231-1250) and kos_activate_new_vars (1252-1269). *)
Fixpoint activate_new (p : prog) (is : list (Z * nat)) : mres prog :=
  match is with
  | [] => MOk p
  | (x, i) :: r =>
      match p_stack p with
      | [] => MAssert
      | s :: _ =>
          match assoc x (s_vars s) with
          | Some j =>
              if Nat.eqb i j then
                activate_new (if active (p_heap p) i then p else upd p i (set_act VAR_ACTIVE)) r
              else MAssert
          | None => MAssert
          end
      end
  end.

(** kos_activate_self_ref_func (1271-1278). *)
Definition activate_self (p : prog) (fv : option nat) : mres prog :=
  match fv with
  | None => MOk p
  | Some i => if active (p_heap p) i then MAssert else MOk (upd p i (set_act VAR_ACTIVE))
  end.

(** kos_deactivate_self_ref_func (1280-1287). *)
Definition deactivate_self (p : prog) (fv : option nat) : mres prog :=
  match fv with
  | None => MOk p
  | Some i =>
      match nth_error (p_heap p) i with
      | Some v => if v_act v =? VAR_ACTIVE then MOk (upd p i (set_act VAR_INACTIVE)) else MAssert
      | None => MAssert
      end
  end.

(** function_literal, parameters (862-896). *)
Fixpoint params (p : prog) (ellipsis : bool) (xs : list Z) : mres prog :=
  match xs with
  | [] => MOk p
  | x :: r =>
      mbind (define_var p false false x) (fun '(i, p1) =>
      params (if ellipsis then p1 else upd p1 i (set_type VAR_ARGUMENT)) ellipsis r)
  end.

(** visit_node (1090-1229).  [fv] is [fun_var] of function_literal and
    class_literal; it is passed on through the parts of a class. *)
Fixpoint visit (fv : option nat) (p : prog) (nd : node) : mres prog :=
  match nd with
  | Skip => MOk p
  (* visit_child_nodes (442-451); class_literal (926-972) *)
  | Seq a b => mbind (visit fv p a) (fun p1 => visit fv p1 b)
  (* process_scope (673-686) *)
  | Block defer a => mbind (visit None (push_scope p defer) a) (fun p1 => MOk (pop_scope p1))
  | Use x => mbind (lookup p x) (fun '(_, p1) => MOk p1)
  (* left_hand_side (729-759) *)
  | Store x =>
      mbind (lookup p x) (fun '(i, p1) =>
      match nth_error (p_heap p1) i with
      | Some v => if v_const v then MErr (E_CONST x) else MOk p1
      | None => MAssert
      end)
  (* assignment (1046-1088), visit_node for NT_MULTI_ASSIGNMENT and NT_IN (1143-1149) *)
  | Decl c pub xs rhs =>
      mbind (var_node p c pub xs) (fun '(is, p1) =>
      mbind (visit None p1 rhs) (fun p2 => activate_new p2 is))
  (* assignment (1059-1081) *)
  | Self pub x parts =>
      mbind (var_node p true pub [x]) (fun '(is, p1) =>
      match is with
      | (_, i) :: _ =>
          if active (p_heap p1) i then MAssert
          else mbind (visit (Some i) p1 parts) (fun p2 => activate_new p2 is)
      | [] => MAssert
      end)
  (* function_literal (841-924), parameter_defaults (811-839) *)
  | Fun self ps ell body defs =>
      let fv := if self then fv else None in
      mbind (params (push_function p) false ps) (fun p1 =>
      mbind (params p1 true (match ell with Some x => [x] | None => [] end)) (fun p2 =>
      mbind (activate_self p2 fv) (fun p3 =>
      mbind (visit None p3 body) (fun p4 =>
      mbind (deactivate_self p4 fv) (fun p5 =>
      visit None (pop_scope p5) defs)))))
  (* catch_clause (974-1005) *)
  | Catch c x body =>
      mbind (var_node p c false [x]) (fun '(is, p1) =>
      match is, p_stack p1 with
      | (_, i) :: _, s :: _ =>
          if (match assoc x (s_vars s) with Some j => Nat.eqb i j | None => false end)
             && negb (active (p_heap p1) i)
          then
            mbind (visit None (upd p1 i (set_act VAR_ACTIVE)) body) (fun p2 =>
            MOk (upd p2 i (set_act VAR_INACTIVE)))
          else MAssert
      | _, _ => MAssert
      end)
  (* this_literal (774-792) *)
  | This =>
      match frame_of (p_stack p) with
      | s :: _ => if is_fun s then MOk p else MErr E_THIS
      | [] => MAssert
      end
  (* yield (688-709) *)
  | Yield a =>
      match frame_of (p_stack p) with
      | s :: _ => if is_fun s then visit None p a else MErr E_YIELD
      | [] => MAssert
      end
  end.

(** init_global_scope (104-126). *)
Fixpoint init_globals (p : prog) (pre : list (Z * bool)) : mres prog :=
  match pre with
  | [] => MOk p
  | (x, c) :: r => mbind (alloc_var p x VAR_GLOBAL c) (fun '(_, p1) => init_globals p1 r)
  end.

(** kos_compiler_process_vars (1305-1313): the outermost scope. *)
Definition process_vars (pre : list (Z * bool)) (nd : node) : mres prog :=
  mbind (init_globals (P [Sc None false []] [] [] [] 1) pre) (fun p =>
  visit None p nd).

End Visit.
