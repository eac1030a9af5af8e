(* Model of the folding of operators in expressions and of their evaluation:
   core/kos_compiler_optim.c:33-101 (collapse, promote), 104-237 (get_nonzero, kos_node_is_truthy,
   kos_node_is_falsy), 1492-1820 (is_raw_str, add_strings, collapse_typeof, operator_token)
   core/kos_compiler.c:418-450 (get_token_str), core/kos_entity.c:456-487 (kos_is_truthy).
   Simplifications: an expression is a tree.  Parts which operator_token does not look into are
   opaque: [EOpaque k] is any other expression, [EAgg t k] a literal of an array, an object, a
   class, a function or an interpolated string.  What they do is given by a function from k.
   A constant variable refers to the node of its initial value, kos_compiler_optim.c:152-180. *)
From Coq Require Import ZArith List Bool.
From Coq Require Import Floats.SpecFloat.
From Verif Require Import Base ListZ ParseIntModel DblModel FoldModel.
Import ListNotations.
Local Open Scope Z_scope.

(* Types of string tokens: TT_STRING and TT_STRING_OPEN, core/kos_lexer.h *)
Inductive stype := TString | TStringOpen.

(* Opaque literals: arrays, objects, classes, functions, interpolated strings *)
Inductive agg := AArray | AObject | AClass | AFun | AInterp.

Inductive expr :=
| EVoid
| EBool (b : bool)
| ENum (tok : list Z)                       (* TT_NUMERIC *)
| EBin (v : num)                            (* TT_NUMERIC_BINARY *)
| EStr (t : stype) (tok : list Z)
| EAgg (t : agg) (k : Z)
| EVar (x : Z)
| EOpaque (k : Z)
| EOp2 (op : binop) (a b : expr)
| EOp1 (op : unop) (a : expr)
| ELogNot (a : expr)
| ELogAnd (a b : expr)
| ELogOr (a b : expr)
| ELogTri (a b c : expr)
| ETypeof (a : expr).

(* *token->begin *)
Definition first (l : list Z) : Z := match l with c :: _ => c | [] => 0 end.

(* The double with a given 64-bit representation, kos_misc.c:33-36 *)
Definition dbl_of_bits (bits : Z) : dbl :=
  let s := Z.testbit bits 63 in
  let ex := Z.shiftr bits 52 mod 2048 in
  let fr := bits mod 2 ^ 52 in
  if ex =? 2047 then (if fr =? 0 then S754_infinity s else S754_nan)
  else if ex =? 0 then
    match fr with Z.pos m => S754_finite s m (-1074) | _ => S754_zero s end
  else match fr + 2 ^ 52 with Z.pos m => S754_finite s m (ex - 1075) | _ => S754_nan end.

(* core/kos_misc.c:496-516 kos_parse_numeric; None is an error, or undefined behavior of
   kos_parse_int for the text of the lowest integer, which no token has as it needs a sign *)
Definition parse_numeric (l : list Z) : option num :=
  if is_integer l then match parse_int l with PVal v => Some (NI v) | _ => None end
  else match parse_double l with DOk bits => Some (NF (dbl_of_bits bits)) | _ => None end.

(* the value of a numeric token, core/kos_compiler_optim.c:1264-1280 *)
Definition numeric (n : expr) : option num :=
  match n with ENum tok => parse_numeric tok | EBin v => Some v | _ => None end.

Definition num_nonzero (v : num) : bool :=
  match v with NI z => negb (z =? 0) | NF d => negb (is_zero d) end.

(* core/kos_compiler_optim.c:104-150 get_nonzero; None is an error *)
Definition get_nonzero (n : expr) : option bool :=
  match n with
  | EBin v => Some (num_nonzero v)
  | ENum tok =>
      let c := first tok in
      if (49 <=? c) && (c <=? 57) then Some true
      else if (c =? 48) && (len tok =? 1) then Some false
      else match parse_numeric tok with Some v => Some (num_nonzero v) | None => None end
  | _ => None
  end.

(* core/kos_compiler_optim.c:171-180 kos_get_const; [cenv] gives the node of the initial value of a
   constant variable *)
Definition get_const (cenv : Z -> option expr) (n : expr) : option expr :=
  match n with EVar x => cenv x | _ => Some n end.

(* core/kos_compiler_optim.c:182-213 kos_node_is_truthy.  The first test of a numeric literal is
   for tokens of length 1, which binary numbers do not have. *)
Definition node_is_truthy (cenv : Z -> option expr) (n : expr) : bool :=
  match get_const cenv n with
  | None => false
  | Some n =>
      match n with
      | EBool b => b
      | EStr _ _ => true
      | EAgg _ _ => true
      | ENum tok =>
          if (len tok =? 1) && negb (first tok =? 48) then true
          else match get_nonzero n with Some v => v | None => false end
      | EBin _ => match get_nonzero n with Some v => v | None => false end
      | _ => false
      end
  end.

(* core/kos_compiler_optim.c:215-238 kos_node_is_falsy *)
Definition node_is_falsy (cenv : Z -> option expr) (n : expr) : bool :=
  match get_const cenv n with
  | None => false
  | Some n =>
      match n with
      | EBool b => negb b
      | EVoid => true
      | ENum tok =>
          if (len tok =? 1) && (first tok =? 48) then true
          else match get_nonzero n with Some v => negb v | None => false end
      | EBin _ => match get_nonzero n with Some v => negb v | None => false end
      | _ => false
      end
  end.

(* core/kos_compiler_optim.c:1492-1505 is_raw_str *)
Definition is_raw (t : stype) (tok : list Z) : bool :=
  match t with
  | TString => (first tok =? 114) || (first tok =? 82)
  | TStringOpen => false
  end.

Definition slice (l : list Z) (from n : Z) : list Z := firstn (Z.to_nat n) (skipn (Z.to_nat from) l).

(* core/kos_compiler_optim.c:1507-1574 add_strings; None: the sum is too long *)
Definition add_strings (ta : stype) (a : list Z) (tb : stype) (b : list Z) : option (list Z) :=
  let raw := is_raw ta a in
  let a_length := len a - (match ta with TString => 2 | TStringOpen => 3 end) in
  let b_length := len b - (match tb with TString => 2 | TStringOpen => 3 end) in
  let a_begin := if raw then 2 else 1 in
  let b_begin := if raw then 2 else 1 in
  let a_length := if raw then a_length - 1 else a_length in
  let b_length := if raw then b_length - 1 else b_length in
  if a_length + b_length + (if raw then 3 else 2) >=? 0xFFFF then None
  else Some ((if raw then [114] else []) ++ [34] ++ slice a a_begin a_length
             ++ slice b b_begin b_length ++ [34]).

(* core/kos_compiler.c:418-450 get_token_str for string tokens: whether escape sequences are
   replaced, and the text *)
Definition token_str (t : stype) (tok : list Z) : bool * list Z :=
  let raw := (first tok =? 114) || (first tok =? 82) in
  let b := if raw then 2 else 1 in
  let n := (if raw then len tok - 1 else len tok) - 2 - (match t with TString => 0 | TStringOpen => 1 end) in
  (negb raw, slice tok b n).

(* quoted names of types: "integer", "float", "string", "boolean", "void" *)
Definition q_integer : list Z := [34; 105; 110; 116; 101; 103; 101; 114; 34].
Definition q_float : list Z := [34; 102; 108; 111; 97; 116; 34].
Definition q_string : list Z := [34; 115; 116; 114; 105; 110; 103; 34].
Definition q_boolean : list Z := [34; 98; 111; 111; 108; 101; 97; 110; 34].
Definition q_void : list Z := [34; 118; 111; 105; 100; 34].

(* core/kos_compiler_optim.c:1576-1654 collapse_typeof; None: not folded *)
Definition collapse_typeof (n : expr) : option (list Z) :=
  match n with
  | EBin (NI _) => Some q_integer
  | EBin (NF _) => Some q_float
  | ENum tok => Some (if is_integer tok then q_integer else q_float)
  | EStr _ _ => Some q_string
  | EAgg AInterp _ => Some q_string
  | EBool _ => Some q_boolean
  | EVoid => Some q_void
  | _ => None
  end.

(* core/kos_compiler_optim.c:1690-1735 and 1254-1280: both operands are numeric literals which can
   be parsed *)
Definition fold2 (cenv : Z -> option expr) (op : binop) (a b : expr) : res expr :=
  match get_const cenv a, get_const cenv b with
  | Some ca, Some cb =>
      match numeric ca, numeric cb with
      | Some x, Some y =>
          match fold_binop op x y with Ok v => Ok (EBin v) | Err e => Err e | Ub => Ub end
      | _, _ =>
          match op, ca, cb with
          | BAdd, EStr ta a', EStr tb b' =>
              if Bool.eqb (is_raw ta a') (is_raw tb b') then
                match add_strings ta a' tb b' with
                | Some tok => Ok (EStr TString tok)
                | None => Err ELong
                end
              else Ok (EOp2 op a b)
          | _, _, _ => Ok (EOp2 op a b)
          end
      end
  | _, _ => Ok (EOp2 op a b)
  end.

(* core/kos_compiler_optim.c:1708-1711 and 1736-1741 *)
Definition fold1 (cenv : Z -> option expr) (op : unop) (a : expr) : res expr :=
  match get_const cenv a with
  | Some ca =>
      match numeric ca with
      | Some x => match fold_unop op x with Ok v => Ok (EBin v) | Err e => Err e | Ub => Ub end
      | None => Ok (EOp1 op a)
      end
  | None => Ok (EOp1 op a)
  end.

Definition bind {A B} (r : res A) (f : A -> res B) : res B :=
  match r with Ok x => f x | Err e => Err e | Ub => Ub end.

(* core/kos_compiler_optim.c:1656-1820 operator_token: operands are folded first.
   kos_node_is_truthy(ca) does the same as for a, because constants are not identifiers. *)
Fixpoint fold (cenv : Z -> option expr) (e : expr) : res expr :=
  match e with
  | EOp2 op a b =>
      bind (fold cenv a) (fun a => bind (fold cenv b) (fun b => fold2 cenv op a b))
  | EOp1 op a => bind (fold cenv a) (fun a => fold1 cenv op a)
  | ELogNot a =>
      bind (fold cenv a) (fun a =>
        Ok (if node_is_truthy cenv a then EBool false
            else if node_is_falsy cenv a then EBool true else ELogNot a))
  | ELogAnd a b =>
      bind (fold cenv a) (fun a => bind (fold cenv b) (fun b =>
        Ok (if node_is_truthy cenv a then b
            else if node_is_falsy cenv a then a else ELogAnd a b)))
  | ELogOr a b =>
      bind (fold cenv a) (fun a => bind (fold cenv b) (fun b =>
        Ok (if node_is_truthy cenv a then a
            else if node_is_falsy cenv a then b else ELogOr a b)))
  | ELogTri a b c =>
      bind (fold cenv a) (fun a => bind (fold cenv b) (fun b => bind (fold cenv c) (fun c =>
        Ok (if node_is_truthy cenv a then b
            else if node_is_falsy cenv a then c else ELogTri a b c))))
  | ETypeof a =>
      bind (fold cenv a) (fun a =>
        match get_const cenv a with
        | Some ca => match collapse_typeof ca with
                     | Some tok => Ok (EStr TString tok)
                     | None => Ok (ETypeof a)
                     end
        | None => Ok (ETypeof a)
        end)
  | _ => Ok e
  end.

(* ---- run time ---- *)

(* Values; an object is given by the kind of literal which made it and a number *)
Inductive value := VVoid | VBool (b : bool) | VNum (n : num) | VStr (cs : list Z) | VObj (t : agg) (k : Z).

(* core/kos_entity.c:456-487 kos_is_truthy *)
Definition is_truthy (v : value) : bool :=
  match v with
  | VNum (NI z) => negb (z =? 0)
  | VNum (NF d) => negb (is_zero d)
  | VVoid => false
  | VBool b => b
  | _ => true
  end.

(* core/kos_vm.c:2698-2730 TYPE; names without the quotes *)
Definition type_name (v : value) : list Z :=
  match v with
  | VNum (NI _) => [105; 110; 116; 101; 103; 101; 114]
  | VNum (NF _) => [102; 108; 111; 97; 116]
  | VVoid => [118; 111; 105; 100]
  | VBool _ => [98; 111; 111; 108; 101; 97; 110]
  | VStr _ => [115; 116; 114; 105; 110; 103]
  | VObj AArray _ => [97; 114; 114; 97; 121]
  | VObj AClass _ => [99; 108; 97; 115; 115]
  | VObj AFun _ => [102; 117; 110; 99; 116; 105; 111; 110]
  | VObj _ _ => [111; 98; 106; 101; 99; 116]
  end.

(* core/kos_vm.c:2279-2696: the instructions applied to any values, core/kos_string.c:617-703 for
   strings.  Out of memory is not modelled. *)
Definition vm_op2 (op : binop) (v w : value) : res value :=
  match v with
  | VNum a =>
      match w with
      | VNum b => bind (vm_binop op a b) (fun n => Ok (VNum n))
      | _ => if arithmetic op then Err EType else bind (get_integer a) (fun _ => Err EType)
      end
  | VStr s =>
      match w with
      | VStr t => match op with
                  | BAdd => if len (s ++ t) >? 0xFFFF then Err ELong else Ok (VStr (s ++ t))
                  | _ => Err EType
                  end
      | _ => Err EType
      end
  | _ => Err EType
  end.

(* core/kos_compiler.c:4293-4333 pos_neg, core/kos_vm.c:2602-2621 NOT, for any value *)
Definition vm_op1 (op : unop) (v : value) : res value :=
  match v with
  | VNum a => bind (vm_unop op a) (fun n => Ok (VNum n))
  | _ => match op with UPlus => Ok v | _ => Err EType end
  end.
