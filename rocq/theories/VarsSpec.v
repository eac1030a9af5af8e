(** Lexical scoping of names (doc/grammar.md: "Variable and constant
    declarations", "Function literals", "Try statement"; doc/design.md: scopes).

    A name is visible after the whole declaration, in the same block and in
    blocks and functions inside of it.  A use of a name means the visible
    declaration in the innermost enclosing block. *)
From Coq Require Import ZArith List Lia Bool ZifyBool.
Import ListNotations.
From Verif Require Import Base ListZ.
Local Open Scope Z_scope.

(** Syntax trees, reduced to what matters for names.

    - [Seq] : nodes which only contain other nodes;
    - [Block defer a] : anything with its own scope (blocks, loops with an
      iterator, [try]); [defer] marks the rest of a block after a [defer]
      statement, which the parser puts in a block of its own;
    - [Use x], [Store x] : a name which is read, or assigned;
    - [Decl c pub xs rhs] : [var] or ([c]) [const] names [xs] with their value;
    - [Self pub x parts] : [const x] whose value is a function or a class; the
      functions of this value are the nodes [Fun true] directly in [parts];
    - [Fun self ps ell body defs] : parameters, rest parameter, body, default
      values of parameters;
    - [Catch c x body] : the clause of a [try] statement;
    - [This], [Yield]. *)
Inductive node : Type :=
| Skip
| Seq (a b : node)
| Block (defer : bool) (a : node)
| Use (x : Z)
| Store (x : Z)
| Decl (c pub : bool) (xs : list Z) (rhs : node)
| Self (pub : bool) (x : Z) (parts : node)
| Fun (self : bool) (ps : list Z) (ell : option Z) (body defs : node)
| Catch (c : bool) (x : Z) (body : node)
| This
| Yield (a : node).

Inductive verr : Type :=
| E_UNDEFINED (x : Z) | E_REDEFINED (x : Z) | E_CONST (x : Z) | E_THIS | E_YIELD.

Inductive out (A : Type) : Type := Ok (a : A) | Err (e : verr).
Arguments Ok {A}.
Arguments Err {A}.

Definition vbind {A B : Type} (r : out A) (f : A -> out B) : out B :=
  match r with Ok a => f a | Err e => Err e end.

Inductive kind : Type := KLocal | KArg | KGlobal.

(** Declarations are numbered in the order of the program. *)
Record decl : Type := D { d_id : nat; d_kind : kind; d_const : bool }.

(** A block: the function whose parameters it holds, if any; its names declared
    so far; and those of them which are visible. *)
Record blk : Type :=
  B { b_fun : option Z; b_defer : bool; b_names : list Z; b_vis : list (Z * decl) }.

Fixpoint assoc {A : Type} (x : Z) (l : list (Z * A)) : option A :=
  match l with
  | [] => None
  | (y, a) :: r => if x =? y then Some a else assoc x r
  end.

(** The function around; 0 when there is none. *)
Fixpoint owner (env : list blk) : Z :=
  match env with
  | [] => 0
  | b :: r => match b_fun b with Some f => f | None => owner r end
  end.

Definition in_fun (env : list blk) : bool :=
  existsb (fun b => match b_fun b with Some _ => true | None => false end) env.

(** Functions between the place and [env], innermost first. *)
Definition fun_of (b : blk) : list Z := match b_fun b with Some f => [f] | None => [] end.

(** The declaration a name stands for, the functions which have to reach out to
    it, and the function it belongs to. *)
Fixpoint look (x : Z) (env : list blk) (crossed : list Z) : option (decl * list Z * Z) :=
  match env with
  | [] => None
  | b :: r =>
      match assoc x (b_vis b) with
      | Some d => Some (d, crossed, owner env)
      | None => look x r (crossed ++ fun_of b)
      end
  end.

(** A use: the declaration, the functions between, and the owner. *)
Record use : Type := U { u_decl : decl; u_crossed : list Z; u_owner : Z }.

(** Is the name already declared in this block?  A block after [defer] is the
    same block in the source. *)
Fixpoint taken (x : Z) (env : list blk) : bool :=
  match env with
  | [] => false
  | b :: r =>
      if existsb (Z.eqb x) (b_names b) then true
      else if b_defer b then taken x r else false
  end.

(** Number of declarations and of functions so far, and uses so far. *)
Record trace : Type := T { t_decls : nat; t_funs : Z; t_uses : list use }.

Definition name1 (x : Z) (b : blk) : blk := B (b_fun b) (b_defer b) (x :: b_names b) (b_vis b).
Definition show (x : Z) (d : decl) (b : blk) : blk :=
  B (b_fun b) (b_defer b) (b_names b) ((x, d) :: b_vis b).
Definition hide (x : Z) (b : blk) : blk :=
  B (b_fun b) (b_defer b) (b_names b) (filter (fun p => negb (x =? fst p)) (b_vis b)).

Section Sem.

(** In the interactive mode all outermost declarations are global. *)
Variable interactive : bool.

Definition kind_of (outer : list blk) (pub : bool) : kind :=
  if pub then KGlobal
  else match outer with [] => if interactive then KGlobal else KLocal | _ => KLocal end.

(** Declare names, without making them visible. *)
Fixpoint declare (outer : list blk) (cur : blk) (k : kind) (c : bool) (n : nat) (xs : list Z)
  : out (blk * list (Z * decl) * nat) :=
  match xs with
  | [] => Ok (cur, [], n)
  | x :: r =>
      if taken x (cur :: outer) then Err (E_REDEFINED x)
      else
        vbind (declare outer (name1 x cur) k c (S n) r) (fun '(cur', ds, n') =>
        Ok (cur', (x, D n k c) :: ds, n'))
  end.

(** Declare parameters; they are visible at once. *)
Fixpoint declare_params (outer : list blk) (cur : blk) (k : kind) (n : nat) (xs : list Z)
  : out (blk * nat) :=
  match xs with
  | [] => Ok (cur, n)
  | x :: r =>
      if taken x (cur :: outer) then Err (E_REDEFINED x)
      else declare_params outer (show x (D n k false) (name1 x cur)) k (S n) r
  end.

Definition show_all (ds : list (Z * decl)) (b : blk) : blk :=
  fold_left (fun b p => show (fst p) (snd p) b) ds b.

Definition refer (env : list blk) (x : Z) (t : trace) : out (decl * trace) :=
  match look x env [] with
  | None => Err (E_UNDEFINED x)
  | Some (d, cr, o) => Ok (d, T (t_decls t) (t_funs t) (t_uses t ++ [U d cr o]))
  end.

(** [fv] is the declaration being made by [Self]. *)
Fixpoint sem (outer : list blk) (cur : blk) (fv : option (Z * decl)) (t : trace) (nd : node)
  : out (blk * trace) :=
  match nd with
  | Skip => Ok (cur, t)
  | Seq a b => vbind (sem outer cur fv t a) (fun '(cur1, t1) => sem outer cur1 fv t1 b)
  | Block defer a =>
      vbind (sem (cur :: outer) (B None defer [] []) None t a) (fun '(_, t1) => Ok (cur, t1))
  | Use x => vbind (refer (cur :: outer) x t) (fun '(_, t1) => Ok (cur, t1))
  | Store x =>
      vbind (refer (cur :: outer) x t) (fun '(d, t1) =>
      if d_const d then Err (E_CONST x) else Ok (cur, t1))
  | Decl c pub xs rhs =>
      vbind (declare outer cur (kind_of outer pub) c (t_decls t) xs) (fun '(cur1, ds, n) =>
      vbind (sem outer cur1 None (T n (t_funs t) (t_uses t)) rhs) (fun '(cur2, t2) =>
      Ok (show_all ds cur2, t2)))
  | Self pub x parts =>
      vbind (declare outer cur (kind_of outer pub) true (t_decls t) [x]) (fun '(cur1, ds, n) =>
      vbind (sem outer cur1 (hd_error ds) (T n (t_funs t) (t_uses t)) parts) (fun '(cur2, t2) =>
      Ok (show_all ds cur2, t2)))
  | Fun self ps ell body defs =>
      let f := t_funs t in
      let cur1 := match fv with
                  | Some (x, d) => if self then show x d cur else cur
                  | None => cur
                  end in
      vbind (declare_params (cur :: outer) (B (Some f) false [] []) KArg (t_decls t) ps)
        (fun '(b1, n1) =>
      vbind (declare_params (cur :: outer) b1 KLocal n1
               (match ell with Some x => [x] | None => [] end)) (fun '(b2, n2) =>
      vbind (sem (cur1 :: outer) b2 None (T n2 (f + 1) (t_uses t)) body) (fun '(_, t1) =>
      sem outer cur None t1 defs)))
  | Catch c x body =>
      vbind (declare outer cur (kind_of outer false) c (t_decls t) [x]) (fun '(cur1, ds, n) =>
      vbind (sem outer (show_all ds cur1) None (T n (t_funs t) (t_uses t)) body)
        (fun '(cur2, t2) => Ok (hide x cur2, t2)))
  | This => if in_fun (cur :: outer) then Ok (cur, t) else Err E_THIS
  | Yield a => if in_fun (cur :: outer) then sem outer cur None t a else Err E_YIELD
  end.

(** The whole program; [pre] are the names of predefined globals. *)
Fixpoint globals (n : nat) (b : blk) (l : list (Z * bool)) : nat * blk :=
  match l with
  | [] => (n, b)
  | (x, c) :: r => globals (S n) (show x (D n KGlobal c) (name1 x b)) r
  end.

Definition sem_program (pre : list (Z * bool)) (nd : node) : out trace :=
  let '(n, b) := globals O (B None false [] []) pre in
  vbind (sem [] b None (T n 1 []) nd) (fun '(_, t) => Ok t).

End Sem.

(** What the code generator needs to know.  A variable is _shared_ when another
    function inside of its own function uses it.  Globals need no sharing. *)
Definition shared (us : list use) (d : decl) : Prop :=
  d_kind d <> KGlobal /\ exists u, In u us /\ u_decl u = d /\ u_crossed u <> [].

(** Function [f] needs access to the variables of [o]. *)
Definition reaches (us : list use) (f o : Z) : Prop :=
  exists u, In u us /\ d_kind (u_decl u) <> KGlobal /\ In f (u_crossed u) /\ u_owner u = o.

(** A use needs no closure. *)
Definition direct (u : use) : bool :=
  match d_kind (u_decl u), u_crossed u with
  | KGlobal, _ => true
  | _, [] => true
  | _, _ => false
  end.
