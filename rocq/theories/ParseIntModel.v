(* Model of integer text parsing and printing:
   core/kos_misc.c:38-164 (kos_is_integer, kos_parse_int)
   core/kos_utils.c:392-425 (int_to_str). *)
From Coq Require Import ZArith List Bool.
From Verif Require Import Base.
Import ListNotations.
Open Scope Z_scope.

(* Outcome of kos_parse_int.  PUB is the signed overflow in "-(int64_t)v"
   (core/kos_misc.c:156-157); it carries the value a wrapping compiler yields. *)
Inductive pres := PVal (v : Z) | PError | PUB (wrapped : Z).

(* core/kos_misc.c:38-54 kos_is_integer.  Texts are lists of character codes. *)
Fixpoint is_integer (l : list Z) : bool :=
  match l with
  | [] => true
  | c :: r =>
    if (c =? 120) || (c =? 88) || (c =? 98) || (c =? 66) then true
    else if (c =? 46) || (c =? 101) || (c =? 69) then false
    else is_integer r
  end.

(* core/kos_misc.c:63-69: the sign. *)
Definition split_sign (l : list Z) : bool * list Z :=
  match l with
  | c :: r => if c =? 45 then (true, r) else if c =? 43 then (false, r) else (false, l)
  | [] => (false, [])
  end.

(* core/kos_misc.c:71-79 and the "begin += 2" of :85 and :100: the radix
   prefix, recognised only when at least one character follows it. *)
Definition split_radix (l : list Z) : Z * list Z :=
  match l with
  | z :: t :: c :: r =>
    if z =? 48 then
      if (t =? 120) || (t =? 88) then (16, c :: r)
      else if (t =? 98) || (t =? 66) then (2, c :: r)
      else (10, l)
    else (10, l)
  | _ => (10, l)
  end.

(* core/kos_misc.c:87-95, :102-107, :113-118: characters accepted per radix. *)
Definition char_ok (radix c : Z) : bool :=
  if radix =? 16 then
    negb (((c <? 48) || (c >? 57)) && ((c <? 97) || (c >? 102)) && ((c <? 65) || (c >? 70)) && negb (c =? 95))
  else if radix =? 2 then (c =? 48) || (c =? 49) || (c =? 95)
  else negb (((c <? 48) || (c >? 57)) && negb (c =? 95)).

(* core/kos_misc.c:126-132: the vmax table, indexed by radix. *)
Definition vmax (radix : Z) : Z :=
  if radix =? 16 then Z.shiftr (2 ^ 64 - 1) 4
  else if radix =? 2 then Z.shiftr (2 ^ 64 - 1) 1
  else (2 ^ 64 - 1) / 20.

(* core/kos_misc.c:132: the dmax table. *)
Definition dmax (radix : Z) (minus : bool) : Z :=
  if radix =? 16 then 15 else if radix =? 2 then 1 else if minus then 8 else 7.

(* core/kos_misc.c:137-138: value of a digit character. *)
Definition digit_of (c : Z) : Z :=
  if c <=? 57 then c - 48 else if c <? 97 then c - 65 + 10 else c - 97 + 10.

(* core/kos_misc.c:134-153: accumulation loop in uint64_t arithmetic. *)
Fixpoint acc_loop (radix : Z) (minus : bool) (v : Z) (l : list Z) : option Z :=
  match l with
  | [] => Some v
  | c :: r =>
    if c =? 95 then acc_loop radix minus v r
    else if v >? vmax radix then None
    else if (v =? vmax radix) && (digit_of c >? dmax radix minus) then None
    else acc_loop radix minus (u64 (v * radix + digit_of c)) r
  end.

(* core/kos_misc.c:155-160: the final conversion to int64_t. *)
Definition finish_int (minus : bool) (v : Z) : pres :=
  if minus then
    let i := s64 v in
    if i =? INT64_MIN then PUB (s64 (- i)) else PVal (- i)
  else PVal (s64 v).

(* core/kos_misc.c:56-164 kos_parse_int. *)
Definition parse_int (l : list Z) : pres :=
  let (minus, l1) := split_sign l in
  let (radix, body) := split_radix l1 in
  if negb (forallb (char_ok radix) body) || (match body with [] => true | _ => false end) then PError
  else match acc_loop radix minus 0 body with
       | None => PError
       | Some v => finish_int minus v
       end.

(* Decimal digits of a non-negative number, most significant first.  Stands for
   snprintf("%" PRId64), the C library call in core/kos_utils.c:407; the fuel
   argument is the number's bit length, which bounds its digit count. *)
Fixpoint dec_digits (fuel : nat) (n : Z) (acc : list Z) : list Z :=
  match fuel with
  | O => acc
  | S k => let acc' := (48 + n mod 10) :: acc in
           if n / 10 =? 0 then acc' else dec_digits k (n / 10) acc'
  end.

(* core/kos_utils.c:392-427 int_to_str.  The 64-byte buffer always suffices for
   an int64_t, so the truncation at :411 is not modelled. *)
Definition int_to_str (v : Z) : list Z :=
  if v <? 0 then 45 :: dec_digits (S (Z.to_nat (Z.log2 (- v)))) (- v) []
  else dec_digits (S (Z.to_nat (Z.log2 v))) v [].
