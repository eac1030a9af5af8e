(* Evaluation of expressions, and when two evaluations are the same. *)
From Coq Require Import ZArith List Bool.
From Coq Require Import Floats.SpecFloat.
From Verif Require Import Base ListZ Utf8Spec FoldModel FoldModel2.
Import ListNotations.
Local Open Scope Z_scope.

(* What an expression can refer to: nodes of the initial values of constants, values of variables,
   what opaque expressions and literals of containers do (events in order and the result), and the
   string denoted by the text of a string literal, with or without escape sequences. *)
Record world := World {
  w_const : Z -> option expr;
  w_var : Z -> value;
  w_opaque : Z -> list Z * res value;
  w_agg : agg -> Z -> list Z * res value;
  w_str : bool -> list Z -> list Z }.

Definition seq (p : list Z * res value) (f : value -> list Z * res value) : list Z * res value :=
  match snd p with
  | Ok v => let q := f v in (fst p ++ fst q, snd q)
  | Err e => p
  | Ub => p
  end.

(* Evaluation without any folding: the events in order, and the result *)
Fixpoint eval (w : world) (e : expr) : list Z * res value :=
  match e with
  | EVoid => ([], Ok VVoid)
  | EBool b => ([], Ok (VBool b))
  | ENum tok => ([], match parse_numeric tok with Some v => Ok (VNum v) | None => Ub end)
  | EBin v => ([], Ok (VNum v))
  | EStr t tok => ([], Ok (VStr (let (esc, body) := token_str t tok in w_str w esc body)))
  | EAgg t k => w_agg w t k
  | EVar x => ([], Ok (w_var w x))
  | EOpaque k => w_opaque w k
  | EOp2 op a b => seq (eval w a) (fun v => seq (eval w b) (fun u => ([], vm_op2 op v u)))
  | EOp1 op a => seq (eval w a) (fun v => ([], vm_op1 op v))
  | ELogNot a => seq (eval w a) (fun v => ([], Ok (VBool (negb (is_truthy v)))))
  | ELogAnd a b => seq (eval w a) (fun v => if is_truthy v then eval w b else ([], Ok v))
  | ELogOr a b => seq (eval w a) (fun v => if is_truthy v then ([], Ok v) else eval w b)
  | ELogTri a b c => seq (eval w a) (fun v => if is_truthy v then eval w b else eval w c)
  | ETypeof a => seq (eval w a) (fun v => ([], Ok (VStr (type_name v))))
  end.

(* Tokens of numbers start with a digit and can be parsed.  A number which starts with 1 to 9 is not
   zero: this excludes 1e-324, see fold_truthy_refuted. *)
Definition good_num (tok : list Z) : Prop :=
  48 <= first tok <= 57 /\
  exists v, parse_numeric tok = Some v /\
    (49 <= first tok -> match v with NI z => z <> 0 | NF d => is_zero d = false end).

(* A string token with its text: in quotes, after r and in quotes, or between a quote and a backslash
   with a parenthesis *)
Inductive str_token : stype -> list Z -> bool -> list Z -> Prop :=
| ST_plain : forall body, str_token TString (34 :: body ++ [34]) true body
| ST_raw : forall c body, c = 114 \/ c = 82 -> str_token TString (c :: 34 :: body ++ [34]) false body
| ST_open : forall body, str_token TStringOpen (34 :: body ++ [92; 40]) true body.

Definition good_str (t : stype) (tok : list Z) : Prop :=
  exists esc body cs, str_token t tok esc body /\ text esc body cs.

(* Literals of containers make values of their kinds *)
Definition agg_value (t : agg) (v : value) : Prop :=
  match t with AInterp => exists cs, v = VStr cs | _ => exists k, v = VObj t k end.

(* A variable holds the value of the literal which initialises it *)
Definition init_ok (w : world) (n : expr) (v : value) : Prop :=
  match n with
  | EVoid => v = VVoid
  | EBool b => v = VBool b
  | ENum tok => good_num tok /\ (forall u, parse_numeric tok = Some u -> v = VNum u)
  | EBin u => v = VNum u
  | EStr t tok => good_str t tok /\ v = VStr (let (esc, body) := token_str t tok in w_str w esc body)
  | EAgg t _ => agg_value t v
  | _ => True
  end.

Definition world_ok (w : world) : Prop :=
  (forall esc body cs, text esc body cs -> w_str w esc body = cs) /\
  (forall t k tr v, w_agg w t k = (tr, Ok v) -> agg_value t v) /\
  (forall x n, w_const w x = Some n -> init_ok w n (w_var w x)).

(* Conditions on the source, [tested] when only the truth or the type of the value may be used:
   - tokens are well formed
   - literals of containers which are only tested have no effects and do not fail
   - ~ is not applied to a float in [-2^63, -2^63 + 1) *)
Fixpoint good (w : world) (tested : bool) (e : expr) : Prop :=
  match e with
  | ENum tok => good_num tok
  | EStr t tok => good_str t tok
  | EAgg t k => tested = true -> exists v, w_agg w t k = ([], Ok v)
  | EOp2 _ a b => good w false a /\ good w false b
  | EOp1 op a => good w false a /\
      (op = UNot -> forall d, snd (eval w a) = Ok (VNum (NF d)) -> to_int d <> Some INT64_MIN)
  | ELogNot a => good w true a
  | ELogAnd a b => good w true a /\ good w tested b
  | ELogOr a b => good w tested a /\ good w tested b
  | ELogTri a b c => good w true a /\ good w tested b /\ good w tested c
  | ETypeof a => good w true a
  | _ => True
  end.

(* No unary minus *)
Fixpoint no_minus (e : expr) : Prop :=
  match e with
  | EOp2 _ a b => no_minus a /\ no_minus b
  | EOp1 op a => op <> UMinus /\ no_minus a
  | ELogNot a => no_minus a
  | ELogAnd a b => no_minus a /\ no_minus b
  | ELogOr a b => no_minus a /\ no_minus b
  | ELogTri a b c => no_minus a /\ no_minus b /\ no_minus c
  | ETypeof a => no_minus a
  | _ => True
  end.

(* The same value; if z, floating-point zeros of different signs count as the same *)
Definition same_value (z : bool) (v u : value) : Prop :=
  v = u \/ (z = true /\ exists s1 s2, v = VNum (NF (S754_zero s1)) /\ u = VNum (NF (S754_zero s2))).

Definition same_res (z : bool) (r q : res value) : Prop :=
  match r, q with
  | Ok v, Ok u => same_value z v u
  | Err e, Err f => e = f
  | Ub, Ub => True
  | _, _ => False
  end.

(* The same events in the same order, and the same result *)
Definition same_eval (z : bool) (p q : list Z * res value) : Prop :=
  fst p = fst q /\ same_res z (snd p) (snd q).

(* s occurs in e *)
Inductive occurs (s : expr) : expr -> Prop :=
| O_self : occurs s s
| O_op2l : forall op a b, occurs s a -> occurs s (EOp2 op a b)
| O_op2r : forall op a b, occurs s b -> occurs s (EOp2 op a b)
| O_op1 : forall op a, occurs s a -> occurs s (EOp1 op a)
| O_not : forall a, occurs s a -> occurs s (ELogNot a)
| O_andl : forall a b, occurs s a -> occurs s (ELogAnd a b)
| O_andr : forall a b, occurs s b -> occurs s (ELogAnd a b)
| O_orl : forall a b, occurs s a -> occurs s (ELogOr a b)
| O_orr : forall a b, occurs s b -> occurs s (ELogOr a b)
| O_tri1 : forall a b c, occurs s a -> occurs s (ELogTri a b c)
| O_tri2 : forall a b c, occurs s b -> occurs s (ELogTri a b c)
| O_tri3 : forall a b c, occurs s c -> occurs s (ELogTri a b c)
| O_typeof : forall a, occurs s a -> occurs s (ETypeof a).

(* Integer arithmetic of the language: exact for + - * / %, undefined when + - * overflow *)
Definition int_op (op : binop) (a b : Z) : res Z :=
  let exact z := if (- 2 ^ 63 <=? z) && (z <? 2 ^ 63) then Ok z else Ub in
  match op with
  | BAdd => exact (a + b)
  | BSub => exact (a - b)
  | BMul => exact (a * b)
  | BDiv => if b =? 0 then Err EDivZero
            else if Z.quot a b =? 2 ^ 63 then Err EDivOver else Ok (Z.quot a b)
  | BMod => if b =? 0 then Err EDivZero
            else if Z.quot a b =? 2 ^ 63 then Err EDivOver else Ok (Z.rem a b)
  | BAnd => Ok (Z.land a b)
  | BOr => Ok (Z.lor a b)
  | BXor => Ok (Z.lxor a b)
  (* multiplication or division by a power of two, for every shift count *)
  | BShl => Ok (if 0 <=? b then s64 (a * 2 ^ b) else a / 2 ^ (- b))
  | BShr => Ok (if 0 <=? b then a / 2 ^ b else s64 (a * 2 ^ (- b)))
  | BShru => Ok (if 0 <=? b then s64 (u64 a / 2 ^ b) else s64 (a * 2 ^ (- b)))
  end.
