(* Model of arithmetic on numbers, at run time and in the compiler:
   core/kos_vm.c:48-390 and 2279-2695 (arithmetic and bitwise instructions)
   core/kos_utils.c:164-200 (KOS_get_integer)
   core/kos_compiler_optim.c:1254-1490 (optimize_binary_op, optimize_unary_op).
   Doubles are IEEE binary64 numbers given by Coq's SpecFloat (round to nearest even), with signed
   zeros and a single NaN. *)
From Coq Require Import ZArith List Bool.
From Coq Require Import Floats.SpecFloat.
From Verif Require Import Base.
Import ListNotations.
Local Open Scope Z_scope.

Notation dbl := spec_float.

(* KOS_NUMERIC, inc/kos_utils.h *)
Inductive num := NI (z : Z) | NF (d : dbl).

(* Reasons of failure: division by zero, overflow of a division, number which does not fit in an
   integer, operand of a wrong type, string too long. *)
Inductive err := EDivZero | EDivOver | ERange | EType | ELong.

Inductive res (A : Type) := Ok (x : A) | Err (e : err) | Ub.
Arguments Ok {A}. Arguments Err {A}. Arguments Ub {A}.

Inductive binop := BAdd | BSub | BMul | BDiv | BMod | BAnd | BOr | BXor | BShl | BShr | BShru.

(* Double arithmetic of the C code: + - * / unary minus, fmod, conversion from int64_t,
   comparison with zero, floor and conversion to int64_t. *)
Definition dadd : dbl -> dbl -> dbl := SFadd 53 1024.
Definition dsub : dbl -> dbl -> dbl := SFsub 53 1024.
Definition dmul : dbl -> dbl -> dbl := SFmul 53 1024.
Definition ddiv : dbl -> dbl -> dbl := SFdiv 53 1024.
Definition of_int (z : Z) : dbl := binary_normalize 53 1024 z 0 false.
Definition is_zero (d : dbl) : bool := match d with S754_zero _ => true | _ => false end.

(* fmod of the C library: the exact remainder of a truncated division, with the sign of x *)
Definition dmod (x y : dbl) : dbl :=
  match x, y with
  | S754_nan, _ => S754_nan
  | _, S754_nan => S754_nan
  | S754_infinity _, _ => S754_nan
  | _, S754_zero _ => S754_nan
  | _, S754_infinity _ => x
  | S754_zero _, _ => x
  | S754_finite s mx ex, S754_finite _ my ey =>
      let e := Z.min ex ey in
      let r := Z.rem (Z.pos mx * 2 ^ (ex - e)) (Z.pos my * 2 ^ (ey - e)) in
      binary_normalize 53 1024 (cond_Zopp s r) e s
  end.

(* d <= z and d >= z for the double with the integer value z; false for NaN *)
Definition dle (d : dbl) (z : Z) : bool :=
  match d with
  | S754_zero _ => 0 <=? z
  | S754_infinity s => s
  | S754_nan => false
  | S754_finite s m e =>
      let v := cond_Zopp s (Z.pos m) in
      if 0 <=? e then v * 2 ^ e <=? z else v <=? z * 2 ^ (- e)
  end.
Definition dge (d : dbl) (z : Z) : bool :=
  match d with
  | S754_zero _ => z <=? 0
  | S754_infinity s => negb s
  | S754_nan => false
  | S754_finite s m e =>
      let v := cond_Zopp s (Z.pos m) in
      if 0 <=? e then z <=? v * 2 ^ e else z * 2 ^ (- e) <=? v
  end.

(* floor *)
Definition floor_int (s : bool) (m : positive) (e : Z) : Z :=
  let v := cond_Zopp s (Z.pos m) in if 0 <=? e then v * 2 ^ e else v / 2 ^ (- e).

(* (int64_t)floor(d); the conversion of a number which does not fit is undefined *)
Definition to_int (d : dbl) : option Z :=
  match d with
  | S754_zero _ => Some 0
  | S754_finite s m e =>
      let z := floor_int s m e in if (INT64_MIN <=? z) && (z <=? INT64_MAX) then Some z else None
  | _ => None
  end.

(* int64_t arithmetic where overflow is undefined *)
Definition sint (z : Z) : option Z := if (INT64_MIN <=? z) && (z <=? INT64_MAX) then Some z else None.
Definition ok_int (o : option Z) : res num := match o with Some z => Ok (NI z) | None => Ub end.

(* ---- run time ---- *)

(* core/kos_vm.c:48-74 *)
Definition add_integer (a : Z) (b : num) : res num :=
  match b with NI b => ok_int (sint (a + b)) | NF b => Ok (NF (dadd (of_int a) b)) end.

(* core/kos_vm.c:76-101 *)
Definition add_float (a : dbl) (b : num) : res num :=
  Ok (NF (dadd a (match b with NI b => of_int b | NF b => b end))).

(* core/kos_vm.c:104-131 *)
Definition sub_integer (a : Z) (b : num) : res num :=
  match b with NI b => ok_int (sint (a - b)) | NF b => Ok (NF (dsub (of_int a) b)) end.

(* core/kos_vm.c:133-159 *)
Definition sub_float (a : dbl) (b : num) : res num :=
  Ok (NF (dsub a (match b with NI b => of_int b | NF b => b end))).

(* core/kos_vm.c:161-188 *)
Definition mul_integer (a : Z) (b : num) : res num :=
  match b with NI b => ok_int (sint (a * b)) | NF b => Ok (NF (dmul (of_int a) b)) end.

(* core/kos_vm.c:190-216 *)
Definition mul_float (a : dbl) (b : num) : res num :=
  Ok (NF (dmul a (match b with NI b => of_int b | NF b => b end))).

(* core/kos_vm.c:218-266; Z.quot truncates like the C operator *)
Definition div_integer (a : Z) (b : num) : res num :=
  match b with
  | NI b => if (b =? -1) && (a =? INT64_MIN) then Err EDivOver
            else if negb (b =? 0) then Ok (NI (Z.quot a b)) else Err EDivZero
  | NF b => if negb (is_zero b) then Ok (NF (ddiv (of_int a) b)) else Err EDivZero
  end.

(* core/kos_vm.c:268-302 *)
Definition div_float (a : dbl) (b : num) : res num :=
  let b := match b with NI b => of_int b | NF b => b end in
  if negb (is_zero b) then Ok (NF (ddiv a b)) else Err EDivZero.

(* core/kos_vm.c:304-352 *)
Definition mod_integer (a : Z) (b : num) : res num :=
  match b with
  | NI b => if (b =? -1) && (a =? INT64_MIN) then Err EDivOver
            else if negb (b =? 0) then Ok (NI (Z.rem a b)) else Err EDivZero
  | NF b => if negb (is_zero b) then Ok (NF (dmod (of_int a) b)) else Err EDivZero
  end.

(* core/kos_vm.c:354-388 *)
Definition mod_float (a : dbl) (b : num) : res num :=
  let b := match b with NI b => of_int b | NF b => b end in
  if negb (is_zero b) then Ok (NF (dmod a b)) else Err EDivZero.

(* core/kos_utils.c:164-200 KOS_get_integer, for numbers *)
Definition get_integer (v : num) : res Z :=
  match v with
  | NI z => Ok z
  | NF d => if dle d (- 2 ^ 63) || dge d (2 ^ 63) then Err ERange
            else match to_int d with Some z => Ok z | None => Ub end
  end.

(* core/kos_vm.c:2509-2538 SHL; >> of a negative number shifts in copies of the sign *)
Definition vm_shl (a b : Z) : Z :=
  if (b >? 63) || (b <? -62) then (if (a <? 0) && (b <? 0) then -1 else 0)
  else if b <? 0 then Z.shiftr a (- b)
  else s64 (Z.shiftl (u64 a) b).

(* core/kos_vm.c:2540-2569 SHR *)
Definition vm_shr (a b : Z) : Z :=
  if (b >? 62) || (b <? -63) then (if (a <? 0) && (b >? 0) then -1 else 0)
  else if b <? 0 then s64 (Z.shiftl (u64 a) (- b))
  else Z.shiftr a b.

(* core/kos_vm.c:2571-2600 SHRU *)
Definition vm_shru (a b : Z) : Z :=
  if (b >? 63) || (b <? -63) then 0
  else if b <? 0 then s64 (Z.shiftl (u64 a) (- b))
  else s64 (Z.shiftr (u64 a) b).

(* the two TRY(KOS_get_integer(...)) of the bitwise instructions, core/kos_vm.c:2509-2695 *)
Definition with_ints (a b : num) (f : Z -> Z -> Z) : res num :=
  match get_integer a with
  | Ok x => match get_integer b with Ok y => Ok (NI (f x y)) | Err e => Err e | Ub => Ub end
  | Err e => Err e
  | Ub => Ub
  end.

(* core/kos_vm.c:2279-2695: the instructions applied to two numbers *)
Definition vm_binop (op : binop) (a b : num) : res num :=
  match op with
  | BAdd => match a with NI a => add_integer a b | NF a => add_float a b end
  | BSub => match a with NI a => sub_integer a b | NF a => sub_float a b end
  | BMul => match a with NI a => mul_integer a b | NF a => mul_float a b end
  | BDiv => match a with NI a => div_integer a b | NF a => div_float a b end
  | BMod => match a with NI a => mod_integer a b | NF a => mod_float a b end
  | BShl => with_ints a b vm_shl
  | BShr => with_ints a b vm_shr
  | BShru => with_ints a b vm_shru
  | BAnd => with_ints a b Z.land
  | BOr => with_ints a b Z.lor
  | BXor => with_ints a b Z.lxor
  end.

Inductive unop := UPlus | UMinus | UNot.

(* core/kos_compiler.c:4293-4333 pos_neg and core/kos_vm.c:2602-2621 NOT: the code generated for
   an unary operator which was not folded.  Unary minus subtracts the operand from the integer 0,
   unary plus leaves the operand unchanged. *)
Definition vm_unop (op : unop) (a : num) : res num :=
  match op with
  | UPlus => Ok a
  | UMinus => vm_binop BSub (NI 0) a
  | UNot => match get_integer a with Ok x => Ok (NI (Z.lnot x)) | Err e => Err e | Ub => Ub end
  end.

(* ---- the compiler ---- *)

Definition arithmetic (op : binop) : bool :=
  match op with BAdd | BSub | BMul | BDiv | BMod => true | _ => false end.

(* core/kos_compiler_optim.c:1283-1300: if either operand is a float, both become floats *)
Definition fold_floats (a b : num) : num * num :=
  match a, b with
  | NI x, NF y => (NF (of_int x), NF y)
  | NF x, NI y => (NF x, NF (of_int y))
  | _, _ => (a, b)
  end.

(* core/kos_compiler_optim.c:1305-1312 and 1315-1322 *)
Definition fold_int (a : num) : res Z :=
  match a with
  | NI z => Ok z
  | NF d => if dle d (- 2 ^ 63) || dge d (2 ^ 63) then Err ERange
            else match to_int d with Some z => Ok z | None => Ub end
  end.

(* core/kos_compiler_optim.c:1327-1433, the operands are integers *)
Definition fold_ints (op : binop) (a b : Z) : res num :=
  match op with
  | BAdd => ok_int (sint (a + b))
  | BSub => ok_int (sint (a - b))
  | BMul => ok_int (sint (a * b))
  | BDiv => if b =? 0 then Err EDivZero
            else if (b =? -1) && (a =? INT64_MIN) then Err EDivOver else Ok (NI (Z.quot a b))
  | BMod => if b =? 0 then Err EDivZero
            else if (b =? -1) && (a =? INT64_MIN) then Err EDivOver else Ok (NI (Z.rem a b))
  | BAnd => Ok (NI (Z.land a b))
  | BOr => Ok (NI (Z.lor a b))
  | BXor => Ok (NI (Z.lxor a b))
  | BShl => Ok (NI (if (b >? 63) || (b <? -62) then (if (a <? 0) && (b <? 0) then -1 else 0)
                    else if b <? 0 then Z.shiftr a (- b)
                    else s64 (Z.shiftl (u64 a) b)))
  | BShr => Ok (NI (if (b >? 62) || (b <? -63) then (if (a <? 0) && (b >? 0) then -1 else 0)
                    else if b <? 0 then s64 (Z.shiftl (u64 a) (- b))
                    else Z.shiftr a b))
  | BShru => Ok (NI (if (b >? 63) || (b <? -63) then 0
                     else if b <? 0 then s64 (Z.shiftl (u64 a) (- b))
                     else s64 (Z.shiftr (u64 a) b)))
  end.

(* core/kos_compiler_optim.c:1327-1390, the operands are floats *)
Definition fold_dbls (op : binop) (a b : dbl) : res num :=
  match op with
  | BAdd => Ok (NF (dadd a b))
  | BSub => Ok (NF (dsub a b))
  | BMul => Ok (NF (dmul a b))
  | BDiv => if is_zero b then Err EDivZero else Ok (NF (ddiv a b))
  | BMod => if is_zero b then Err EDivZero else Ok (NF (dmod a b))
  | _ => Ub
  end.

(* core/kos_compiler_optim.c:1254-1439 optimize_binary_op after the operands have been read;
   Err is a compilation error, which in the source has the same text as the exception *)
Definition fold_binop (op : binop) (a b : num) : res num :=
  if arithmetic op then
    match fold_floats a b with
    | (NI x, NI y) => fold_ints op x y
    | (NF x, NF y) => fold_dbls op x y
    | _ => Ub
    end
  else
    match fold_int a with
    | Ok x => match fold_int b with Ok y => fold_ints op x y | Err e => Err e | Ub => Ub end
    | Err e => Err e
    | Ub => Ub
    end.

(* core/kos_compiler_optim.c:1441-1490 optimize_unary_op after the operand has been read *)
Definition fold_unop (op : unop) (a : num) : res num :=
  match op with
  | UPlus => Ok a
  | UMinus => match a with NI z => ok_int (sint (- z)) | NF d => Ok (NF (SFopp d)) end
  | UNot => match a with
            | NI z => Ok (NI (Z.lnot z))
            | NF d => match to_int d with Some z => Ok (NI (Z.lnot z)) | None => Ub end
            end
  end.
