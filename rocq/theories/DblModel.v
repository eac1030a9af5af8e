(* Model of floating-point text parsing: core/kos_misc.c:166-487.
   A double is its 64-bit pattern (the union at core/kos_misc.c:473-480), a
   uint64_t is a number below 2^64 with explicit wrap, and text is a list of
   character codes.  The int counters (decimal_exponent, num_digits, i_digit,
   dot_pos, exponent) are unbounded here: they overflow only for texts of about
   2^31 characters. *)
From Coq Require Import ZArith List Bool.
From Verif Require Import Base ParseIntModel.
Import ListNotations.
Local Open Scope Z_scope.

(* Outcome of kos_parse_double: the bit pattern, one of the four error codes,
   the undefined operation inside kos_parse_int, or the loop bound of
   denorm_loop running out (shown impossible). *)
Inductive dres :=
| DOk (bits : Z)
| DInvalid | DBadExp | DExpRange | DTooBig
| DUB | DFuel.

(* core/kos_misc.c:166-175 shift_digit *)
Definition shift_digit (digit exponent : Z) : Z :=
  let shift := 59 - exponent in
  if 0 <=? shift then u64 (Z.shiftl digit shift)
  else if -4 <=? shift then Z.shiftr digit (- shift)
  else 0.

(* core/kos_misc.c:192-230 multiply_by_10_and_add; the pair is
   (mantissa, exponent). *)
Definition mul10 (st : Z * Z) (digit : Z) : Z * Z :=
  let (m, e) := st in
  let high1 := u64 (5 * Z.shiftr m 3) in
  let low := u32 (5 * Z.land m 7) in
  let high := u64 (high1 + Z.shiftr low 3 + shift_digit digit e) in
  if Z.testbit high 63 then
    let carry := if negb (Z.land low 15 =? 4) then Z.land low 4 else 0 in
    (u64 (high + Z.shiftr carry 2), e + 4)
  else if Z.testbit high 62 then
    let carry := if negb (Z.land low 7 =? 2) then Z.land low 2 else 0 in
    (u64 (u64 (Z.shiftl high 1) + Z.land (Z.shiftr low 2) 1 + Z.shiftr carry 1), e + 3)
  else if Z.testbit high 61 then
    let lg := Z.land low 3 in
    let carry := if lg =? 3 then 1 else 0 in
    (u64 (u64 (Z.shiftl high 2) + Z.land (Z.shiftr low 1) 3 + carry), e + 2)
  else
    let carry := Z.land low 1 in
    (u64 (u64 (Z.shiftl high 3) + Z.land low 7 + carry), e + 1).

(* core/kos_misc.c:232-261 divide_by_10.  The two asserts are not part of the
   model; they are theorems. *)
Definition div10 (st : Z * Z) : Z * Z :=
  let (m, e) := st in
  let high := (m - Z.land m 4294967295) / 5 in
  let low := u64 (u64 (Z.shiftl m 32) / 5 + Z.land high 4294967295) in
  if Z.testbit high 61 then
    let carry := if negb (Z.land (u32 low) 2147483647 =? 536870912) then Z.land (u32 low) 536870912 else 0 in
    (u64 (u64 (Z.shiftl high 2) + Z.shiftr (u64 (low + carry)) 30), e - 3)
  else
    let carry := if negb (Z.land (u32 low) 1073741823 =? 268435456) then Z.land (u32 low) 268435456 else 0 in
    (u64 (u64 (Z.shiftl high 3) + Z.shiftr (u64 (low + carry)) 29), e - 4).

(* core/kos_misc.c:291-313: leading zeroes, underscores and dots; yields
   decimal_exponent, dot_pos and the rest of the text. *)
Fixpoint lead_loop (dexp dot : Z) (l : list Z) : Z * Z * list Z :=
  match l with
  | [] => (dexp, dot, [])
  | c :: r =>
    if c =? 95 then lead_loop dexp dot r
    else if c =? 48 then lead_loop (if 0 <=? dot then dexp - 1 else dexp) dot r
    else if c =? 46 then lead_loop dexp 0 r
    else (dexp, dot, l)
  end.

(* core/kos_misc.c:320-346: counts the digits; yields num_digits, dot_pos, the
   digit characters (first_digit to exponent_pos) and the rest, which is empty
   or starts with the exponent letter.  None is KOS_ERROR_INVALID_NUMBER. *)
Fixpoint scan_loop (num dot : Z) (l : list Z) : option (Z * Z * list Z * list Z) :=
  match l with
  | [] => Some (num, dot, [], [])
  | c :: r =>
    if (48 <=? c) && (c <=? 57) then
      match scan_loop (num + 1) dot r with
      | Some (n, d, b, x) => Some (n, d, c :: b, x)
      | None => None
      end
    else if (c =? 101) || (c =? 69) then Some (num, dot, [], l)
    else if c =? 95 then
      match scan_loop num dot r with
      | Some (n, d, b, x) => Some (n, d, c :: b, x)
      | None => None
      end
    else if c =? 46 then
      if negb (dot =? -1) then None
      else match scan_loop num num r with
           | Some (n, d, b, x) => Some (n, d, c :: b, x)
           | None => None
           end
    else None
  end.

(* core/kos_misc.c:389-403: the first digit. *)
Definition first_digit (digit exponent : Z) : Z * Z :=
  let e := if 7 <? digit then exponent + 3 else if 3 <? digit then exponent + 2
           else if 1 <? digit then exponent + 1 else exponent in
  (u64 (Z.shiftl digit (63 - e)), e).

(* core/kos_misc.c:375-428: consumes the digits; yields the mantissa and
   exponent, and the decimal exponent. *)
Fixpoint digit_loop (num i dexp : Z) (st : Z * Z) (l : list Z) : (Z * Z) * Z :=
  match l with
  | [] => (st, dexp)
  | c :: r =>
    if (c =? 95) || (c =? 46) then digit_loop num i dexp st r
    else if fst st =? 0 then digit_loop num (i + 1) dexp (first_digit (c - 48) (snd st)) r
    else
      let digit := c - 48 in
      let lost := 53 <? snd st in
      let digit' := if lost then (if 5 <=? digit then 10 else 5) else digit in
      let st' := mul10 st digit' in
      if lost then (st', dexp + (num - (i + 1)))
      else digit_loop num (i + 1) dexp st' r
  end.

(* core/kos_misc.c:431-446: applies the decimal exponent. *)
Definition scale (st : Z * Z) (dexp : Z) : Z * Z :=
  let dexp := if fst st =? 0 then 0 else dexp in
  if dexp <? 0 then Nat.iter (Z.to_nat (- dexp)) div10 st
  else Nat.iter (Z.to_nat dexp) (fun s => mul10 s 0) st.

(* core/kos_misc.c:452-461: the loop for denormalized numbers.  The mantissa
   has 64 bits, so that 66 rounds always suffice. *)
Fixpoint denorm_loop (fuel : nat) (st : Z * Z) : option (Z * Z) :=
  match fuel with
  | O => None
  | S k =>
    let (m, e) := st in
    if e <? -1023 then
      if negb (m =? 0) then denorm_loop k (Z.shiftr m 1, e + 1)
      else denorm_loop k (m, -1023)
    else Some st
  end.

(* core/kos_misc.c:448-483: range check, denormalized numbers, rounding to
   53 bits and the bit pattern.  The exponent is at least -0x3FF there, so the
   unsigned addition does not wrap. *)
Definition finish_dbl (sign : Z) (st : Z * Z) : dres :=
  if 1023 <? snd st then DTooBig
  else
    match denorm_loop 66 st with
    | None => DFuel
    | Some (m, e) =>
      let m := if e =? -1023 then Z.shiftr m 1 else m in
      let e := if m =? 0 then -1023 else e in
      let (m, e) :=
        if negb (m =? 0) then
          let low := u32 m in
          let carry := if negb (Z.land low 4095 =? 1024) then Z.land low 1024 else 0 in
          let m := u64 (Z.shiftr m 11 + Z.shiftr carry 10) in
          if Z.testbit m 53 then (Z.shiftr m 1, e + 1) else (m, e)
        else (m, e) in
      DOk (Z.lor (Z.lor (Z.shiftl sign 63) (u64 (Z.shiftl (u64 (e + 1023)) 52)))
                 (Z.land m 4503599627370495))
    end.

(* core/kos_misc.c:350-371: the decimal exponent in the text; the argument is
   empty or starts with the exponent letter. *)
Definition exp_part (x : list Z) : Z + dres :=
  match x with
  | [] => inl 0
  | _ :: [] => inr DBadExp
  | _ :: t =>
    match parse_int t with
    | PError => inr DBadExp
    | PUB _ => inr DUB
    | PVal e => if (308 <? e) || (e <? -324) then inr DExpRange else inl e
    end
  end.

(* core/kos_misc.c:263-487 kos_parse_double *)
Definition parse_double (l : list Z) : dres :=
  match l with
  | [] => DInvalid
  | _ =>
    let (minus, l1) := split_sign l in
    let sign := if minus then 1 else 0 in
    match l1 with
    | [] => DInvalid
    | _ =>
      let '(dexp, dot, l2) := lead_loop 0 (-1) l1 in
      match l2 with
      | [] => finish_dbl sign (0, 0)
      | _ =>
        match scan_loop 0 dot l2 with
        | None => DInvalid
        | Some (num, dot2, body, x) =>
          match exp_part x with
          | inr r => r
          | inl e =>
            let dexp := dexp + e in
            let dexp := if 0 <=? dot2 then dexp + (dot2 - num) else dexp in
            if negb (num =? 0) then
              let (st, dexp) := digit_loop num 0 dexp (0, 0) body in
              finish_dbl sign (scale st dexp)
            else finish_dbl sign (0, 0)
          end
        end
      end
    end
  end.
