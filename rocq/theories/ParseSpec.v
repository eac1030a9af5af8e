(** What an expression of the language is: the tokens, the syntax tree and the
    grammar of [doc/grammar.md] ("Expressions", "Operators", "Member
    specification") with the precedence rules of [doc/tutorial.md] and
    [doc/design.md].  Nothing here mentions how the parser works. *)
From Coq Require Import ZArith List Lia Bool ZifyBool.
Import ListNotations.
From Verif Require Import Base ListZ.
Local Open Scope Z_scope.

(** Operators (doc/grammar.md, "Operators"). *)
Inductive oper : Type :=
| O_ADD | O_SUB | O_MUL | O_DIV | O_MOD
| O_NOT | O_LOGNOT
| O_AND | O_OR | O_XOR
| O_SHL | O_SHR | O_SHRU
| O_LOGAND | O_LOGOR | O_LOGTRI | O_DOT | O_MORE | O_ARROW | O_LAMBDA
| O_EQ | O_NE | O_GE | O_GT | O_LE | O_LT
| O_SET | O_SETADD | O_SETSUB | O_SETMUL | O_SETDIV | O_SETMOD
| O_SETAND | O_SETOR | O_SETXOR | O_SETSHL | O_SETSHR | O_SETSHRU.

(** Keywords; those which play no role in an expression are [K_OTHER]. *)
Inductive keyw : Type :=
| K_UNDERSCORE | K_LINE | K_ASYNC | K_CLASS | K_DELETE | K_DO | K_FALSE | K_FUN
| K_IN | K_INSTANCEOF | K_PROPERTYOF | K_SUPER | K_THIS | K_TRUE | K_TYPEOF
| K_VOID | K_YIELD | K_OTHER (k : Z).

Inductive sepr : Type :=
| S_PAREN_OPEN | S_PAREN_CLOSE | S_COMMA | S_COLON | S_SEMICOLON
| S_SQUARE_OPEN | S_SQUARE_CLOSE | S_CURLY_OPEN | S_CURLY_CLOSE.

(** A token: a number, a string without interpolation, the beginning of an
    interpolated string, a name, a keyword, an operator, a separator, or the end
    of the file. *)
Inductive body : Type :=
| T_NUM (n : Z) | T_STR (s : Z) | T_STR_OPEN | T_ID (x : Z)
| T_KW (k : keyw) | T_OP (o : oper) | T_SEP (s : sepr) | T_EOF.

(** A token with the flag "a line break was skipped just before it". *)
Definition token : Type := (body * bool)%type.

(** Kinds of syntax tree nodes. *)
Inductive nty : Type :=
| N_NUM (n : Z) | N_STR (b : body) | N_ID (x : Z) | N_BOOL (b : bool) | N_VOID
| N_THIS | N_LINE | N_PLACEHOLDER | N_SUPER_PROTO | N_SUPER_CTOR
| N_OP (b : body) | N_REF | N_OPT_REF | N_SLICE
| N_INVOCATION | N_NAMED_ARGS | N_OBJECT | N_PROPERTY | N_ARRAY | N_EXPAND
| N_YIELD | N_ASYNC.

Inductive ast : Type := Node (t : nty) (kids : list ast).

Definition op2 (b : body) (x y : ast) : ast := Node (N_OP b) [x; y].

(** Operator classes, listed one by one. *)
Definition additive (o : oper) : bool :=
  match o with O_ADD | O_SUB => true | _ => false end.
Definition multiplicative (o : oper) : bool :=
  match o with O_MUL | O_DIV | O_MOD => true | _ => false end.
Definition bitwise (o : oper) : bool :=
  match o with O_AND | O_OR | O_XOR => true | _ => false end.
Definition shift (o : oper) : bool :=
  match o with O_SHL | O_SHR | O_SHRU => true | _ => false end.
Definition comparison (o : oper) : bool :=
  match o with O_EQ | O_NE | O_GE | O_GT | O_LE | O_LT => true | _ => false end.
Definition logical (o : oper) : bool :=
  match o with O_LOGAND | O_LOGOR => true | _ => false end.

(** Unary operators: [typeof], [delete], [+], [-], [~], [!]. *)
Definition unary_tok (b : body) : bool :=
  match b with
  | T_KW K_TYPEOF | T_KW K_DELETE
  | T_OP O_ADD | T_OP O_SUB | T_OP O_NOT | T_OP O_LOGNOT => true
  | _ => false
  end.

(** Comparison operators which keep, and which swap, the order of operands. *)
Definition cmp_tok (b : body) : bool :=
  match b with T_OP o => comparison o | T_KW K_INSTANCEOF => true | _ => false end.
Definition cmp_swap_tok (b : body) : bool :=
  match b with T_KW K_IN | T_KW K_PROPERTYOF => true | _ => false end.

(** Names usable after a dot and as property names. *)
Definition name_tok (b : body) : bool :=
  match b with T_ID _ | T_KW _ | T_STR _ => true | _ => false end.

(** Where the expression stands: in a class member function, and in a
    constructor. *)
Record place : Type := { in_member : bool; in_ctor : bool }.

(** The function of an invocation: [super] is the base constructor, and only a
    constructor may invoke it. *)
Inductive callee (p : place) : ast -> ast -> Prop :=
| callee_super : in_ctor p = true ->
    callee p (Node N_SUPER_PROTO []) (Node N_SUPER_CTOR [])
| callee_other : forall t kids, t <> N_SUPER_PROTO ->
    callee p (Node t kids) (Node t kids).

Inductive nonterm : Type :=
| G_PRIMARY | G_MEMBER | G_UNARY | G_MUL | G_ADD | G_BIT (o : oper) | G_ARITH
| G_CMP | G_LOG (o : oper) | G_COND | G_STREAM | G_RHS.

Inductive lists : Type := L_ELEMS | L_PROPS | L_ARGS | L_NARGS.

(** The grammar: which token sequences are phrases of which kind, and what tree
    they stand for.

    Two entries go beyond the documented grammar, and are there because the
    parser has them: the optional [?] of a slice ([opt] in the [der_slice]
    rules), and [async] in front of anything which is an invocation, for example
    in parentheses.  Documented but not covered here: function and class
    literals, interpolated strings, and [async do]. *)
Inductive der (p : place) : nonterm -> list body -> ast -> Prop :=
(* primary expressions *)
| der_num : forall n, der p G_PRIMARY [T_NUM n] (Node (N_NUM n) [])
| der_str : forall n, der p G_PRIMARY [T_STR n] (Node (N_STR (T_STR n)) [])
| der_id : forall x, der p G_PRIMARY [T_ID x] (Node (N_ID x) [])
| der_this : der p G_PRIMARY [T_KW K_THIS] (Node N_THIS [])
| der_super : in_member p = true ->
    der p G_PRIMARY [T_KW K_SUPER] (Node N_SUPER_PROTO [])
| der_line : der p G_PRIMARY [T_KW K_LINE] (Node N_LINE [])
| der_true : der p G_PRIMARY [T_KW K_TRUE] (Node (N_BOOL true) [])
| der_false : der p G_PRIMARY [T_KW K_FALSE] (Node (N_BOOL false) [])
| der_void : der p G_PRIMARY [T_KW K_VOID] (Node N_VOID [])
| der_placeholder : der p G_PRIMARY [T_KW K_UNDERSCORE] (Node N_PLACEHOLDER [])
| der_paren : forall ts a, der p G_RHS ts a ->
    der p G_PRIMARY (T_SEP S_PAREN_OPEN :: ts ++ [T_SEP S_PAREN_CLOSE]) a
| der_array : forall ts l, derL p L_ELEMS ts l ->
    der p G_PRIMARY (T_SEP S_SQUARE_OPEN :: ts ++ [T_SEP S_SQUARE_CLOSE]) (Node N_ARRAY l)
| der_object : forall ts l, derL p L_PROPS ts l ->
    der p G_PRIMARY (T_SEP S_CURLY_OPEN :: ts ++ [T_SEP S_CURLY_CLOSE]) (Node N_OBJECT l)
(* member expressions *)
| der_primary : forall ts a, der p G_PRIMARY ts a -> der p G_MEMBER ts a
| der_dot : forall ts a b, der p G_MEMBER ts a -> name_tok b = true ->
    der p G_MEMBER (ts ++ [T_OP O_DOT; b]) (Node N_REF [a; Node (N_STR b) []])
| der_optdot : forall ts a b, der p G_MEMBER ts a -> name_tok b = true ->
    der p G_MEMBER (ts ++ [T_OP O_DOT; T_OP O_LOGTRI; b])
      (Node N_OPT_REF [a; Node (N_STR b) []])
| der_index : forall ts a ts1 i, der p G_MEMBER ts a -> der p G_RHS ts1 i ->
    der p G_MEMBER (ts ++ T_SEP S_SQUARE_OPEN :: ts1 ++ [T_SEP S_SQUARE_CLOSE])
      (Node N_REF [a; i])
| der_optindex : forall ts a ts1 i, der p G_MEMBER ts a -> der p G_RHS ts1 i ->
    der p G_MEMBER (ts ++ T_SEP S_SQUARE_OPEN :: T_OP O_LOGTRI :: ts1 ++ [T_SEP S_SQUARE_CLOSE])
      (Node N_OPT_REF [a; i])
| der_slice00 : forall ts a opt, der p G_MEMBER ts a -> opt = [] \/ opt = [T_OP O_LOGTRI] ->
    der p G_MEMBER (ts ++ T_SEP S_SQUARE_OPEN :: opt ++ [T_SEP S_COLON; T_SEP S_SQUARE_CLOSE])
      (Node N_SLICE [a; Node N_VOID []; Node N_VOID []])
| der_slice01 : forall ts a opt ts2 j, der p G_MEMBER ts a ->
    opt = [] \/ opt = [T_OP O_LOGTRI] -> der p G_RHS ts2 j ->
    der p G_MEMBER
      (ts ++ T_SEP S_SQUARE_OPEN :: opt ++ T_SEP S_COLON :: ts2 ++ [T_SEP S_SQUARE_CLOSE])
      (Node N_SLICE [a; Node N_VOID []; j])
| der_slice10 : forall ts a opt ts1 i, der p G_MEMBER ts a ->
    opt = [] \/ opt = [T_OP O_LOGTRI] -> der p G_RHS ts1 i ->
    der p G_MEMBER
      (ts ++ T_SEP S_SQUARE_OPEN :: opt ++ ts1 ++ [T_SEP S_COLON; T_SEP S_SQUARE_CLOSE])
      (Node N_SLICE [a; i; Node N_VOID []])
| der_slice11 : forall ts a opt ts1 i ts2 j, der p G_MEMBER ts a ->
    opt = [] \/ opt = [T_OP O_LOGTRI] -> der p G_RHS ts1 i -> der p G_RHS ts2 j ->
    der p G_MEMBER
      (ts ++ T_SEP S_SQUARE_OPEN :: opt ++ ts1 ++ T_SEP S_COLON :: ts2 ++ [T_SEP S_SQUARE_CLOSE])
      (Node N_SLICE [a; i; j])
| der_call0 : forall ts a f, der p G_MEMBER ts a -> callee p a f ->
    der p G_MEMBER (ts ++ [T_SEP S_PAREN_OPEN; T_SEP S_PAREN_CLOSE]) (Node N_INVOCATION [f])
| der_call : forall ts a f ts1 l, der p G_MEMBER ts a -> callee p a f ->
    derL p L_ARGS ts1 l ->
    der p G_MEMBER (ts ++ T_SEP S_PAREN_OPEN :: ts1 ++ [T_SEP S_PAREN_CLOSE])
      (Node N_INVOCATION (f :: l))
| der_ncall : forall ts a f ts1 l, der p G_MEMBER ts a -> callee p a f ->
    derL p L_NARGS ts1 l ->
    der p G_MEMBER (ts ++ T_SEP S_PAREN_OPEN :: ts1 ++ [T_SEP S_PAREN_CLOSE])
      (Node N_INVOCATION [f; Node N_NAMED_ARGS [Node N_OBJECT l]])
(* unary operators: from right to left, before any binary operator *)
| der_member : forall ts a, der p G_MEMBER ts a -> der p G_UNARY ts a
| der_unary : forall b ts a, unary_tok b = true -> der p G_UNARY ts a ->
    der p G_UNARY (b :: ts) (Node (N_OP b) [a])
(* arithmetic: left to right, [* / %] before [+ -] *)
| der_mul1 : forall ts a, der p G_UNARY ts a -> der p G_MUL ts a
| der_mul : forall ts1 a x ts2 b, der p G_MUL ts1 a -> multiplicative x = true ->
    der p G_UNARY ts2 b -> der p G_MUL (ts1 ++ T_OP x :: ts2) (op2 (T_OP x) a b)
| der_add1 : forall ts a, der p G_MUL ts a -> der p G_ADD ts a
| der_add : forall ts1 a x ts2 b, der p G_ADD ts1 a -> additive x = true ->
    der p G_MUL ts2 b -> der p G_ADD (ts1 ++ T_OP x :: ts2) (op2 (T_OP x) a b)
(* bitwise operators: only the same operator can be repeated; shifts can not *)
| der_bit1 : forall ts a x, der p G_UNARY ts a -> der p (G_BIT x) ts a
| der_bit : forall ts1 a x ts2 b, der p (G_BIT x) ts1 a -> bitwise x = true ->
    der p G_UNARY ts2 b -> der p (G_BIT x) (ts1 ++ T_OP x :: ts2) (op2 (T_OP x) a b)
| der_arith : forall ts a, der p G_ADD ts a -> der p G_ARITH ts a
| der_bits : forall ts a x, der p (G_BIT x) ts a -> der p G_ARITH ts a
| der_shift : forall ts1 a x ts2 b, der p G_UNARY ts1 a -> shift x = true ->
    der p G_UNARY ts2 b -> der p G_ARITH (ts1 ++ T_OP x :: ts2) (op2 (T_OP x) a b)
(* comparisons can not be repeated *)
| der_cmp1 : forall ts a, der p G_ARITH ts a -> der p G_CMP ts a
| der_cmp : forall ts1 a x ts2 b, der p G_ARITH ts1 a -> cmp_tok x = true ->
    der p G_ARITH ts2 b -> der p G_CMP (ts1 ++ x :: ts2) (op2 x a b)
| der_cmp_swap : forall ts1 a x ts2 b, der p G_ARITH ts1 a -> cmp_swap_tok x = true ->
    der p G_ARITH ts2 b -> der p G_CMP (ts1 ++ x :: ts2) (op2 x b a)
(* logical operators: only the same operator can be repeated *)
| der_log1 : forall ts a x, der p G_CMP ts a -> der p (G_LOG x) ts a
| der_log : forall ts1 a x ts2 b, der p G_CMP ts1 a -> logical x = true ->
    der p (G_LOG x) ts2 b -> der p (G_LOG x) (ts1 ++ T_OP x :: ts2) (op2 (T_OP x) a b)
(* conditional operator *)
| der_cond1 : forall ts a x, der p (G_LOG x) ts a -> der p G_COND ts a
| der_cond : forall ts1 a x ts2 b ts3 c, der p (G_LOG x) ts1 a ->
    der p G_COND ts2 b -> der p G_COND ts3 c ->
    der p G_COND (ts1 ++ T_OP O_LOGTRI :: ts2 ++ T_SEP S_COLON :: ts3)
      (Node (N_OP (T_OP O_LOGTRI)) [a; b; c])
(* stream operator: left to right *)
| der_stream1 : forall ts a, der p G_COND ts a -> der p G_STREAM ts a
| der_stream : forall ts1 a ts2 g f, der p G_STREAM ts1 a -> der p G_COND ts2 g ->
    callee p g f -> der p G_STREAM (ts1 ++ T_OP O_ARROW :: ts2) (Node N_INVOCATION [f; a])
(* right-hand sides *)
| der_rhs : forall ts a, der p G_STREAM ts a -> der p G_RHS ts a
| der_async : forall ts l, der p G_STREAM ts (Node N_INVOCATION l) ->
    der p G_RHS (T_KW K_ASYNC :: ts) (Node N_ASYNC [Node N_INVOCATION l])
| der_yield : forall ts a, in_ctor p = false -> der p G_STREAM ts a ->
    der p G_RHS (T_KW K_YIELD :: ts) (Node N_YIELD [a])
| der_yield_async : forall ts l, in_ctor p = false ->
    der p G_STREAM ts (Node N_INVOCATION l) ->
    der p G_RHS (T_KW K_YIELD :: T_KW K_ASYNC :: ts)
      (Node N_YIELD [Node N_ASYNC [Node N_INVOCATION l]])
with derL (p : place) : lists -> list body -> list ast -> Prop :=
(* elements of an array: separated by commas, one more comma is allowed *)
| derL_elems0 : derL p L_ELEMS [] []
| derL_elems1 : forall ts a x, der p G_RHS ts a ->
    x = [] \/ x = [T_OP O_MORE] ->
    derL p L_ELEMS (ts ++ x) [if x then a else Node N_EXPAND [a]]
| derL_elems : forall ts a x ts2 l, der p G_RHS ts a ->
    x = [] \/ x = [T_OP O_MORE] -> derL p L_ELEMS ts2 l ->
    derL p L_ELEMS (ts ++ x ++ T_SEP S_COMMA :: ts2)
      ((if x then a else Node N_EXPAND [a]) :: l)
(* properties of an object: separated by commas, one more comma is allowed *)
| derL_props0 : derL p L_PROPS [] []
| derL_props1 : forall b ts a, name_tok b = true -> der p G_RHS ts a ->
    derL p L_PROPS (b :: T_SEP S_COLON :: ts) [Node N_PROPERTY [Node (N_STR b) []; a]]
| derL_props : forall b ts a ts2 l, name_tok b = true -> der p G_RHS ts a ->
    derL p L_PROPS ts2 l ->
    derL p L_PROPS (b :: T_SEP S_COLON :: ts ++ T_SEP S_COMMA :: ts2)
      (Node N_PROPERTY [Node (N_STR b) []; a] :: l)
(* arguments: separated by commas *)
| derL_args1 : forall ts a x, der p G_RHS ts a ->
    x = [] \/ x = [T_OP O_MORE] ->
    derL p L_ARGS (ts ++ x) [if x then a else Node N_EXPAND [a]]
| derL_args : forall ts a x ts2 l, der p G_RHS ts a ->
    x = [] \/ x = [T_OP O_MORE] -> derL p L_ARGS ts2 l ->
    derL p L_ARGS (ts ++ x ++ T_SEP S_COMMA :: ts2)
      ((if x then a else Node N_EXPAND [a]) :: l)
(* named arguments: separated by commas *)
| derL_nargs1 : forall x ts a, der p G_RHS ts a ->
    derL p L_NARGS (T_ID x :: T_OP O_SET :: ts)
      [Node N_PROPERTY [Node (N_STR (T_ID x)) []; a]]
| derL_nargs : forall x ts a ts2 l, der p G_RHS ts a -> derL p L_NARGS ts2 l ->
    derL p L_NARGS (T_ID x :: T_OP O_SET :: ts ++ T_SEP S_COMMA :: ts2)
      (Node N_PROPERTY [Node (N_STR (T_ID x)) []; a] :: l).

(** Tokens which can not continue an expression: anything but an opening
    parenthesis or bracket, a binary operator, [?], [->], [.], [=>], [in],
    [instanceof] and [propertyof]. *)
Definition stops (b : body) : bool :=
  match b with
  | T_OP (O_ADD | O_SUB | O_MUL | O_DIV | O_MOD | O_AND | O_OR | O_XOR
         | O_SHL | O_SHR | O_SHRU | O_LOGAND | O_LOGOR | O_LOGTRI | O_DOT
         | O_ARROW | O_LAMBDA | O_EQ | O_NE | O_GE | O_GT | O_LE | O_LT) => false
  | T_SEP (S_PAREN_OPEN | S_SQUARE_OPEN) => false
  | T_KW (K_IN | K_INSTANCEOF | K_PROPERTYOF) => false
  | _ => true
  end.

(** Nesting depth of a syntax tree. *)
Fixpoint depth (a : ast) : Z :=
  match a with
  | Node _ kids => 1 + fold_right (fun k m => Z.max (depth k) m) 0 kids
  end.
