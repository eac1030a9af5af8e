(** Model of the expression parser: core/kos_parser.c 77-235, 471-517, 838-1947.

    Common simplifications.  Tokens are given as a list, each with the flag
    [had_eol]: [next_token] with [unget] clear (kos_parser.c 77-109) takes the
    first one, [unget = 1] puts it back; at the end of the list every token is
    the end of the file.  [kos_lexer_unget_token] (kos_lexer.c 1065-1070), used
    to look further ahead, puts the tokens back as well; the flag [had_eol] of a
    token read again is cleared by the code, but no code looks at it, since that
    token is a name or an opening parenthesis.  [parser->state.unary_depth] and
    [parser->ast_depth] are restored by every function which succeeds, so they
    are arguments here ([u] and [d]).  [parser->state.in_class_member] and
    [in_constructor] do not change within an expression without function
    literals: they are the parameter [p].  A node keeps what its token says when
    the type of the node does not say it; positions are left out.  Memory
    exhaustion and errors of the lexer are left out.  Function, class and
    lambda literals, interpolated strings and [async do] give [E_UNSUPPORTED],
    which stands for no outcome of the code.

    Recursion is bounded by fuel; [E_FUEL] stands for no outcome of the code
    either, and is proved not to happen. *)
From Coq Require Import ZArith List Lia Bool ZifyBool.
Import ListNotations.
From Verif Require Import Base ListZ ParseSpec.
Local Open Scope Z_scope.

Inductive perr : Type :=
| E_FUEL | E_UNSUPPORTED
| E_DEPTH                (* expression depth exceeded *)
| E_EOL                  (* unexpected end of line before an operator, [ or ( *)
| E_MIXED                (* mixed operators *)
| E_SYNTAX.              (* any other error *)

Inductive res (A : Type) : Type := Ok (a : A) | Err (e : perr).
Arguments Ok {A} _.
Arguments Err {A} _.

Definition pbind {A B : Type} (r : res A) (f : A -> res B) : res B :=
  match r with Ok a => f a | Err e => Err e end.

(** Operator codes: core/kos_lexer.h 91-145. *)
Definition OT_MASK : Z := 0xF8.
Definition OT_ARITHMETIC : Z := 0x80.
Definition OT_UNARY : Z := 0x40.
Definition OT_MULTIPLICATIVE : Z := 0x88.
Definition OT_BITWISE : Z := 0x20.
Definition OT_COMPARISON : Z := 0x28.

Definition op_code (x : oper) : Z :=
  match x with
  | O_ADD => 0xC0 | O_SUB => 0xC1 | O_MUL => 0x89 | O_DIV => 0x88 | O_MOD => 0x8A
  | O_NOT => 0x40 | O_LOGNOT => 0x41
  | O_AND => 0x20 | O_OR => 0x21 | O_XOR => 0x22
  | O_SHL => 0x01 | O_SHR => 0x02 | O_SHRU => 0x03
  | O_LOGAND => 0x04 | O_LOGOR => 0x05 | O_LOGTRI => 0x06
  | O_DOT => 0x07 | O_MORE => 0x08 | O_ARROW => 0x09 | O_LAMBDA => 0x0A
  | O_EQ => 0x28 | O_NE => 0x29 | O_GE => 0x2A | O_GT => 0x2B | O_LE => 0x2C | O_LT => 0x2D
  | O_SET => 0x10 | O_SETADD => 0x11 | O_SETSUB => 0x12 | O_SETMUL => 0x13
  | O_SETDIV => 0x14 | O_SETMOD => 0x15 | O_SETAND => 0x16 | O_SETOR => 0x17
  | O_SETXOR => 0x18 | O_SETSHL => 0x19 | O_SETSHR => 0x1A | O_SETSHRU => 0x1B
  end.

(** token.op: OT_NONE (0) unless the token is an operator. *)
Definition t_op (b : body) : Z := match b with T_OP x => op_code x | _ => 0 end.

(** token.op == x *)
Definition is_op (x : oper) (b : body) : bool := t_op b =? op_code x.

(** token.op & bits *)
Definition has_bits (m : Z) (b : body) : bool := negb (Z.land (t_op b) m =? 0).

(** (token.op & OT_MASK) == m *)
Definition masked (m : Z) (b : body) : bool := Z.land (t_op b) OT_MASK =? m.

(** token.sep == x; core/kos_lexer.h 147-158. *)
Definition sep_code (x : sepr) : Z :=
  match x with
  | S_PAREN_OPEN => 1 | S_PAREN_CLOSE => 2 | S_COMMA => 3 | S_COLON => 4
  | S_SEMICOLON => 5 | S_SQUARE_OPEN => 6 | S_SQUARE_CLOSE => 7
  | S_CURLY_OPEN => 8 | S_CURLY_CLOSE => 9
  end.
Definition t_sep (b : body) : Z := match b with T_SEP x => sep_code x | _ => 0 end.
Definition is_sep (x : sepr) (b : body) : bool := t_sep b =? sep_code x.

(** token.type == TT_IDENTIFIER *)
Definition is_ident (b : body) : bool := match b with T_ID _ => true | _ => false end.

(** next_token: kos_parser.c 77-109. *)
Definition peek (ts : list token) : body := match ts with [] => T_EOF | (b, _) :: _ => b end.
Definition peek_eol (ts : list token) : bool := match ts with [] => true | (_, e) :: _ => e end.
Definition rest (ts : list token) : list token := match ts with [] => [] | _ :: r => r end.

Definition pres : Type := res (ast * list token).
(** a parsing function: unary_depth, ast_depth, tokens *)
Definition parser : Type := Z -> Z -> list token -> pres.

(** assume_separator: kos_parser.c 120-170, for separators other than the
    semicolon. *)
Definition assume_separator (x : sepr) (ts : list token) : res (list token) :=
  if is_sep x (peek ts) then Ok (rest ts) else Err E_SYNTAX.

(** is_lambda_literal: kos_parser.c 471-517; [ts] follows the parenthesis.
    [OT_ASSIGNMENT] has the same code as [OT_SET]. *)
Definition is_lambda (ts : list token) : bool :=
  if is_sep S_PAREN_CLOSE (peek ts) then is_op O_LAMBDA (peek (rest ts))
  else if is_ident (peek ts) then
    let b := peek (rest ts) in
    if is_op O_SET b || is_op O_MORE b || is_sep S_COMMA b then true
    else if is_sep S_PAREN_CLOSE b then is_op O_LAMBDA (peek (rest (rest ts)))
    else false
  else false.

Section Parser.

Variable maxd : Z.       (* KOS_MAX_AST_DEPTH *)
Variable p : place.

(** increase_ast_depth: kos_parser.c 172-184. *)
Definition increase_ast_depth (d : Z) : res Z :=
  if d + 1 >? maxd then Err E_DEPTH else Ok (d + 1).

(** kos_parser.c 1821-1831 (invocation) and 1497-1507 (stream_expr): invocation
    of [super]. *)
Definition call_node (f : ast) : res ast :=
  match f with
  | Node N_SUPER_PROTO kids =>
      if in_ctor p then Ok (Node N_SUPER_CTOR kids) else Err E_SYNTAX
  | _ => Ok f
  end.

Section Levels.

(** right_hand_side_expr, for nested expressions *)
Variable R : parser.

(** "if (parser->token.op == OT_MORE)": kos_parser.c 854-866, 1873-1889; gives
    the element and the tokens after it. *)
Definition expand (a : ast) (ts : list token) : ast * list token :=
  if is_op O_MORE (peek ts) then (Node N_EXPAND [a], rest ts) else (a, ts).

(** array_literal: kos_parser.c 838-882. *)
Fixpoint array_loop (k : nat) (u d : Z) (acc : list ast) (ts : list token) : pres :=
  match k with
  | O => Err E_FUEL
  | S k' =>
      if is_sep S_SQUARE_CLOSE (peek ts) then Ok (Node N_ARRAY acc, rest ts)
      else
        pbind (R u d ts) (fun '(a, ts1) =>
        let '(a, ts2) := expand a ts1 in
        if is_sep S_COMMA (peek ts2) then array_loop k' u d (acc ++ [a]) (rest ts2)
        else if negb (is_sep S_SQUARE_CLOSE (peek ts2)) then Err E_SYNTAX
        else array_loop k' u d (acc ++ [a]) ts2)
  end.

(** object_literal: kos_parser.c 884-960; [set_function_name] concerns only
    function and class literals. *)
Fixpoint object_loop (k : nat) (u d : Z) (comma : bool) (acc : list ast) (ts : list token)
  : pres :=
  match k with
  | O => Err E_FUEL
  | S k' =>
      if is_sep S_COMMA (peek ts) then
        if comma then Err E_SYNTAX else object_loop k' u d true acc (rest ts)
      else if is_sep S_CURLY_CLOSE (peek ts) then Ok (Node N_OBJECT acc, rest ts)
      else if negb comma then Err E_SYNTAX
      else
        match peek ts with
        | T_STR _ | T_ID _ | T_KW _ =>
            pbind (assume_separator S_COLON (rest ts)) (fun ts1 =>
            pbind (R u d ts1) (fun '(a, ts2) =>
            object_loop k' u d false
              (acc ++ [Node N_PROPERTY [Node (N_STR (peek ts)) []; a]]) ts2))
        | _ => Err E_SYNTAX
        end
  end.

(** primary_expr: kos_parser.c 962-1077. *)
Definition primary_expr (k : nat) (u d : Z) (ts : list token) : pres :=
  let r := rest ts in
  match peek ts with
  | T_NUM n => Ok (Node (N_NUM n) [], r)
  | T_STR n => Ok (Node (N_STR (T_STR n)) [], r)
  | T_STR_OPEN => Err E_UNSUPPORTED
  | T_ID x =>
      if is_op O_LAMBDA (peek r) then Err E_UNSUPPORTED else Ok (Node (N_ID x) [], r)
  | T_KW K_FUN => Err E_UNSUPPORTED
  | T_KW K_CLASS => Err E_UNSUPPORTED
  | T_KW K_THIS => Ok (Node N_THIS [], r)
  | T_KW K_SUPER => if in_member p then Ok (Node N_SUPER_PROTO [], r) else Err E_SYNTAX
  | T_KW K_LINE => Ok (Node N_LINE [], r)
  | T_KW K_TRUE => Ok (Node (N_BOOL true) [], r)
  | T_KW K_FALSE => Ok (Node (N_BOOL false) [], r)
  | T_KW K_VOID => Ok (Node N_VOID [], r)
  | T_KW K_UNDERSCORE => Ok (Node N_PLACEHOLDER [], r)
  | T_SEP S_SQUARE_OPEN => array_loop k (u + 1) d [] r
  | T_SEP S_CURLY_OPEN => object_loop k (u + 1) d true [] r
  | T_SEP S_PAREN_OPEN =>
      if is_lambda r then Err E_UNSUPPORTED
      else
        pbind (R (u + 1) d r) (fun '(a, ts1) =>
        pbind (assume_separator S_PAREN_CLOSE ts1) (fun ts2 => Ok (a, ts2)))
  | _ => Err E_SYNTAX
  end.

(** refinement_identifier: kos_parser.c 1647-1685; [ts] follows the dot. *)
Definition refinement_identifier (a : ast) (ts : list token) : pres :=
  let '(t, ts1) :=
    if is_op O_LOGTRI (peek ts) then (N_OPT_REF, rest ts) else (N_REF, ts) in
  match peek ts1 with
  | T_ID _ | T_KW _ | T_STR _ =>
      Ok (Node t [a; Node (N_STR (peek ts1)) []], rest ts1)
  | _ => Err E_SYNTAX
  end.

(** refinement_expr: kos_parser.c 1687-1772; [ts] follows the bracket. *)
Definition refinement_expr (u d : Z) (a : ast) (ts : list token) : pres :=
  let '(t, ts1) :=
    if is_op O_LOGTRI (peek ts) then (N_OPT_REF, rest ts) else (N_REF, ts) in
  pbind
    (if is_sep S_SQUARE_CLOSE (peek ts1) then Err E_SYNTAX
     else if is_sep S_COLON (peek ts1) then
       let ts2 := rest ts1 in
       if is_sep S_SQUARE_CLOSE (peek ts2)
       then Ok (Node N_SLICE [a; Node N_VOID []; Node N_VOID []], ts2)
       else
         pbind (R u d ts2) (fun '(j, ts3) => Ok (Node N_SLICE [a; Node N_VOID []; j], ts3))
     else
       pbind (R u d ts1) (fun '(i, ts2) =>
       if is_sep S_COLON (peek ts2) then
         let ts3 := rest ts2 in
         if is_sep S_SQUARE_CLOSE (peek ts3)
         then Ok (Node N_SLICE [a; i; Node N_VOID []], ts3)
         else pbind (R u d ts3) (fun '(j, ts4) => Ok (Node N_SLICE [a; i; j], ts4))
       else Ok (Node t [a; i], ts2)))
    (fun '(n, ts2) => pbind (assume_separator S_SQUARE_CLOSE ts2) (fun ts3 => Ok (n, ts3))).

(** named_argument: kos_parser.c 1774-1805. *)
Definition named_argument (u d : Z) (ts : list token) : pres :=
  if negb (is_ident (peek ts)) then Err E_SYNTAX
  else if negb (is_op O_SET (peek (rest ts))) then Err E_SYNTAX
  else
    pbind (R u d (rest (rest ts))) (fun '(a, ts1) =>
    Ok (Node N_PROPERTY [Node (N_STR (peek ts)) []; a], ts1)).

(** The loop of invocation: kos_parser.c 1862-1896; gives the arguments. *)
Fixpoint args_loop (k : nat) (named : bool) (u d : Z) (acc : list ast) (ts : list token)
  : res (list ast * list token) :=
  match k with
  | O => Err E_FUEL
  | S k' =>
      pbind (if named then named_argument u d ts else R u d ts) (fun '(a, ts1) =>
      if is_op O_MORE (peek ts1) && named then Err E_SYNTAX
      else
        let '(a, ts2) := expand a ts1 in
        if is_sep S_PAREN_CLOSE (peek ts2) then Ok (acc ++ [a], rest ts2)
        else if negb (is_sep S_COMMA (peek ts2)) then Err E_SYNTAX
        else args_loop k' named u d (acc ++ [a]) (rest ts2))
  end.

(** invocation: kos_parser.c 1807-1900; [ts] follows the parenthesis. *)
Definition invocation (k : nat) (u d : Z) (a : ast) (ts : list token) : pres :=
  pbind (call_node a) (fun f =>
  if is_sep S_PAREN_CLOSE (peek ts) then Ok (Node N_INVOCATION [f], rest ts)
  else
    let named := is_ident (peek ts) && is_op O_SET (peek (rest ts)) in
    pbind (args_loop k named u d [] ts) (fun '(l, ts1) =>
    Ok (Node N_INVOCATION
          (if named then [f; Node N_NAMED_ARGS [Node N_OBJECT l]] else f :: l), ts1))).

(** The loop of member_expr: kos_parser.c 1911-1941. *)
Fixpoint member_loop (k : nat) (u d : Z) (a : ast) (ts : list token) : pres :=
  match k with
  | O => Err E_FUEL
  | S k' =>
      if is_op O_DOT (peek ts) then
        pbind (refinement_identifier a (rest ts)) (fun '(a, ts1) => member_loop k' u d a ts1)
      else if is_sep S_SQUARE_OPEN (peek ts) then
        if peek_eol ts && (u =? 1) then Err E_EOL
        else pbind (refinement_expr u d a (rest ts)) (fun '(a, ts1) => member_loop k' u d a ts1)
      else if is_sep S_PAREN_OPEN (peek ts) then
        if peek_eol ts && (u =? 1) then Err E_EOL
        else pbind (invocation k u d a (rest ts)) (fun '(a, ts1) => member_loop k' u d a ts1)
      else Ok (a, ts)
  end.

(** member_expr: kos_parser.c 1902-1947. *)
Definition member_expr (k : nat) (u d : Z) (ts : list token) : pres :=
  pbind (primary_expr k u d ts) (fun '(a, ts1) => member_loop k (u + 1) d a ts1).

(** unary_expr: kos_parser.c 1079-1119. *)
Fixpoint unary_expr (k : nat) (u d : Z) (ts : list token) : pres :=
  match k with
  | O => Err E_FUEL
  | S k' =>
      if has_bits OT_UNARY (peek ts)
         || match peek ts with T_KW K_TYPEOF | T_KW K_DELETE => true | _ => false end
      then
        pbind (increase_ast_depth d) (fun d' =>
        pbind (unary_expr k' (u + 1) d' (rest ts)) (fun '(a, ts1) =>
        Ok (Node (N_OP (peek ts)) [a], ts1)))
      else member_expr k u d ts
  end.

(** The multiplicative "do while" loop: kos_parser.c 1184-1222.  The first
    operand [x] and the operator [last] stand for the node [*ret], which still
    lacks its second child. *)
Fixpoint mul_loop (k : nat) (u d : Z) (x : ast) (last : body) (node : ast) (ts : list token)
  : res (ast * body * ast * list token) :=
  match k with
  | O => Err E_FUEL
  | S k' =>
      pbind (increase_ast_depth d) (fun d' =>
      pbind (unary_expr k u d' (rest ts)) (fun '(n, ts1) =>
      let '(x, last, node) :=
        if masked OT_MULTIPLICATIVE last then (op2 last x node, peek ts, n)
        else (x, last, op2 (peek ts) node n) in
      if masked OT_MULTIPLICATIVE (peek ts1) then mul_loop k' u d' x last node ts1
      else Ok (x, last, node, ts1)))
  end.

(** The arithmetic loop: kos_parser.c 1154-1241. *)
Fixpoint arith_loop (k : nat) (u d : Z) (x : ast) (last : body) (node : ast) (ts : list token)
  : pres :=
  match k with
  | O => Err E_FUEL
  | S k' =>
      pbind (increase_ast_depth d) (fun d' =>
      if is_op O_ADD (peek ts) || is_op O_SUB (peek ts) then
        if peek_eol ts && (u =? 0) then Err E_EOL
        else
          pbind (unary_expr k u d' (rest ts)) (fun '(n, ts1) =>
          arith_loop k' u d' (op2 last x node) (peek ts) n ts1)
      else if masked OT_MULTIPLICATIVE (peek ts) then
        pbind (mul_loop k u d' x last node ts) (fun '(x, last, node, ts1) =>
        arith_loop k' u d' x last node ts1)
      else if masked OT_BITWISE (peek ts) then Err E_MIXED
      else Ok (op2 last x node, ts))
  end.

(** The bitwise "do while" loop: kos_parser.c 1251-1284. *)
Fixpoint bit_loop (k : nat) (u d : Z) (op : body) (acc : ast) (ts : list token) : pres :=
  match k with
  | O => Err E_FUEL
  | S k' =>
      pbind (increase_ast_depth d) (fun d' =>
      pbind (unary_expr k u d' (rest ts)) (fun '(n, ts1) =>
      let acc := op2 (peek ts) acc n in
      let b := peek ts1 in
      if t_op b =? t_op op then bit_loop k' u d' op acc ts1
      else if masked OT_BITWISE b || masked OT_ARITHMETIC b
              || is_op O_SHL b || is_op O_SHR b || is_op O_SHRU b
      then Err E_MIXED
      else Ok (acc, ts1)))
  end.

(** arithm_bitwise_expr: kos_parser.c 1121-1306. *)
Definition arithm_bitwise_expr (k : nat) (u d : Z) (ts : list token) : pres :=
  pbind (unary_expr k u d ts) (fun '(a, ts1) =>
  let b := peek ts1 in
  if has_bits OT_ARITHMETIC b then
    if (is_op O_ADD b || is_op O_SUB b) && peek_eol ts1 && (u =? 0) then Err E_EOL
    else
      pbind (unary_expr k u d (rest ts1)) (fun '(n, ts2) => arith_loop k u d a b n ts2)
  else if masked OT_BITWISE b then bit_loop k u d b a ts1
  else if is_op O_SHL b || is_op O_SHR b || is_op O_SHRU b then
    pbind (unary_expr k u d (rest ts1)) (fun '(n, ts2) => Ok (op2 b a n, ts2))
  else Ok (a, ts1)).

(** comparison_expr: kos_parser.c 1308-1351. *)
Definition comparison_expr (k : nat) (u d : Z) (ts : list token) : pres :=
  pbind (arithm_bitwise_expr k u d ts) (fun '(a, ts1) =>
  let b := peek ts1 in
  let swap := match b with T_KW K_IN | T_KW K_PROPERTYOF => true | _ => false end in
  if masked OT_COMPARISON b || swap
     || match b with T_KW K_INSTANCEOF => true | _ => false end
  then
    pbind (arithm_bitwise_expr k u d (rest ts1)) (fun '(c, ts2) =>
    Ok (if swap then op2 b c a else op2 b a c, ts2))
  else Ok (a, ts1)).

(** The loop of logical_expr: kos_parser.c 1376-1401; gives the second operand
    of the node whose operator precedes [ts]. *)
Fixpoint logical_loop (k : nat) (u d : Z) (op : body) (ts : list token) : pres :=
  match k with
  | O => Err E_FUEL
  | S k' =>
      pbind (increase_ast_depth d) (fun d' =>
      pbind (comparison_expr k u d' ts) (fun '(a, ts1) =>
      let b := peek ts1 in
      if t_op b =? t_op op then
        pbind (logical_loop k' u d' op (rest ts1)) (fun '(c, ts2) => Ok (op2 b a c, ts2))
      else Ok (a, ts1)))
  end.

(** logical_expr: kos_parser.c 1353-1418. *)
Definition logical_expr (k : nat) (u d : Z) (ts : list token) : pres :=
  pbind (comparison_expr k u d ts) (fun '(a, ts1) =>
  let b := peek ts1 in
  if is_op O_LOGAND b || is_op O_LOGOR b then
    pbind (logical_loop k u d b (rest ts1)) (fun '(c, ts2) =>
    if is_op O_LOGAND (peek ts2) || is_op O_LOGOR (peek ts2) then Err E_MIXED
    else Ok (op2 b a c, ts2))
  else Ok (a, ts1)).

(** conditional_expr: kos_parser.c 1420-1467. *)
Fixpoint conditional_expr (k : nat) (u d : Z) (ts : list token) : pres :=
  match k with
  | O => Err E_FUEL
  | S k' =>
      pbind (logical_expr k u d ts) (fun '(a, ts1) =>
      if is_op O_LOGTRI (peek ts1) then
        pbind (increase_ast_depth d) (fun d' =>
        pbind (conditional_expr k' (u + 1) d' (rest ts1)) (fun '(b, ts2) =>
        pbind (assume_separator S_COLON ts2) (fun ts3 =>
        pbind (conditional_expr k' u d' ts3) (fun '(c, ts4) =>
        Ok (Node (N_OP (peek ts1)) [a; b; c], ts4)))))
      else Ok (a, ts1))
  end.

(** The loop of stream_expr: kos_parser.c 1482-1512. *)
Fixpoint stream_loop (k : nat) (u d : Z) (a : ast) (ts : list token) : pres :=
  match k with
  | O => Err E_FUEL
  | S k' =>
      if is_op O_ARROW (peek ts) then
        pbind (increase_ast_depth d) (fun d' =>
        pbind (conditional_expr k u d' (rest ts)) (fun '(g, ts1) =>
        pbind (call_node g) (fun f =>
        stream_loop k' u d' (Node N_INVOCATION [f; a]) ts1)))
      else Ok (a, ts)
  end.

(** stream_expr: kos_parser.c 1469-1518. *)
Definition stream_expr (k : nat) (u d : Z) (ts : list token) : pres :=
  pbind (increase_ast_depth d) (fun d' =>
  pbind (conditional_expr k u d' ts) (fun '(a, ts1) => stream_loop k u d' a ts1)).

(** async_expr: kos_parser.c 1520-1602; [ts] follows the keyword. *)
Definition async_expr (k : nat) (u d : Z) (ts : list token) : pres :=
  match peek ts with
  | T_KW K_DO => Err E_UNSUPPORTED
  | _ =>
      pbind (stream_expr k u d ts) (fun '(a, ts1) =>
      match a with
      | Node N_INVOCATION _ => Ok (Node N_ASYNC [a], ts1)
      | _ => Err E_SYNTAX
      end)
  end.

(** right_hand_side_expr: kos_parser.c 1604-1645. *)
Definition rhs_expr (k : nat) (u d : Z) (ts : list token) : pres :=
  match peek ts with
  | T_KW K_YIELD =>
      if in_ctor p then Err E_SYNTAX
      else
        let ts1 := rest ts in
        pbind
          (match peek ts1 with
           | T_KW K_ASYNC => async_expr k u d (rest ts1)
           | _ => stream_expr k u d ts1
           end) (fun '(a, ts2) => Ok (Node N_YIELD [a], ts2))
  | T_KW K_ASYNC => async_expr k u d (rest ts)
  | _ => stream_expr k u d ts
  end.

End Levels.

(** The recursion through nested expressions. *)
Fixpoint right_hand_side_expr (k : nat) : parser :=
  match k with
  | O => fun _ _ _ => Err E_FUEL
  | S k' => rhs_expr (right_hand_side_expr k') k
  end.

(** The expression of a statement: unary_depth is 0 (kos_parser.c 3426, 3289)
    and ast_depth is [d], which is 1 outside of any block (kos_parser.c 3424,
    3284). *)
Definition parse_expr (d : Z) (ts : list token) : pres :=
  right_hand_side_expr (S (length ts)) 0 d ts.

End Parser.

(** core/kos_config.h 34 *)
Definition KOS_MAX_AST_DEPTH : Z := 100.
