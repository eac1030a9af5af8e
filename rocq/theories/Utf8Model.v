(* Model of core/kos_utf8.c: UTF-8 length query, decoders, encoders and
   escape sequences.  Bytes and code points are Z.  A C buffer is the list of
   its bytes; reading through a pointer which has reached the end of the list
   is the distinct outcome OverRead. *)
From Coq Require Import ZArith List Lia Bool ZifyBool.
From Verif Require Import Base.
Import ListNotations.
Open Scope Z_scope.

Inductive res (A : Type) : Type :=
| Ok (a : A)
| Fail            (* the C function reports an error *)
| OverRead.       (* the C function reads past the end of its input *)
Arguments Ok {A} a.
Arguments Fail {A}.
Arguments OverRead {A}.

(* kos_utf8_len[c >> 3], core/kos_utf8.c:10-34 *)
Definition utf8_len (c : Z) : Z :=
  let i := Z.shiftr c 3 in
  if i <? 16 then 1 else
  if i <? 24 then 0 else
  if i <? 28 then 2 else
  if i <? 30 then 3 else
  if i <? 31 then 4 else 0.

(* Escape classification, core/kos_utf8.c:36-62 and kos_utf8_internal.h:10-14.
   EInvalid: map value 0; EInterp: '(' ; EHex: 'x'; EChar v: other value. *)
Inductive esc_kind := EInvalid | EInterp | EHex | EChar (v : Z).

Definition escape_map (c : Z) : esc_kind :=
  if c =? 34 then EChar 34        (* double quote *)
  else if c =? 40 then EInterp    (* ( *)
  else if c =? 48 then EChar 48   (* 0: map holds '0', see parse_escape *)
  else if c =? 92 then EChar 92   (* backslash *)
  else if c =? 101 then EChar 27  (* e *)
  else if c =? 102 then EChar 12  (* f *)
  else if c =? 110 then EChar 10  (* n *)
  else if c =? 114 then EChar 13  (* r *)
  else if c =? 116 then EChar 9   (* t *)
  else if c =? 117 then EChar 117 (* u, kept as the letter u *)
  else if c =? 118 then EChar 11  (* v *)
  else if c =? 120 then EHex      (* x *)
  else EInvalid.

(* hex_map, core/kos_utf8.c:64-90 *)
Definition hex_map (c : Z) : Z :=
  if (48 <=? c) && (c <=? 57) then c - 48 else
  if (65 <=? c) && (c <=? 70) then c - 55 else
  if (97 <=? c) && (c <=? 102) then c - 87 else 16.

(* Result of parse_escape_sequence: a code, KOS_INVALID_ESC, KOS_NOT_ESC
   (core/kos_utf8.c:92-93) with the remaining bytes, or an over-read. *)
Inductive esc_res :=
| EscCode (code : Z) (rest : list Z)
| EscInvalid (rest : list Z)
| EscNot (rest : list Z)
| EscOver.

(* The loop at core/kos_utf8.c:108-123; l is the text from str to end. *)
Fixpoint parse_hex_brace (l : list Z) (gather : Z) : esc_res :=
  match l with
  | [] => EscOver
  | c :: t =>
    if c =? 125 then EscCode gather t
    else match t with
         | [] => EscInvalid t
         | _ =>
           let v := hex_map c in
           if 15 <? v then EscInvalid t
           else
             let g := Z.lor (u32 (Z.shiftl gather 4)) v in
             if 0xFFFFFF <? g then EscInvalid t
             else parse_hex_brace t g
         end
  end.

(* parse_escape_sequence, core/kos_utf8.c:95-146 *)
Definition parse_escape (l : list Z) : esc_res :=
  match l with
  | [] => EscInvalid []
  | e :: t =>
    match escape_map e with
    | EHex =>
      match t with
      | c0 :: c1 :: t2 =>
        if (c0 =? 123) && negb (c1 =? 125)
        then parse_hex_brace (c1 :: t2) 0
        else
          let hi := hex_map c0 in
          let lo := hex_map c1 in
          if (lo <? 16) && (hi <? 16) then EscCode (Z.lor (Z.shiftl hi 4) lo) t2
          else EscInvalid t2
      | _ => EscInvalid t
      end
    | EChar v => if v =? 48 then EscCode 0 t else EscCode v t
    | EInvalid | EInterp => EscNot l
    end
  end.

(* Machine word of 8 bytes, little endian (sizeof(uintptr_t) == 8). *)
Fixpoint word_of (l : list Z) : Z :=
  match l with [] => 0 | b :: t => b + 256 * word_of t end.

(* Constants of core/kos_utf8.c:160-163 for 64-bit uintptr_t *)
Definition one64 : Z := 0x0101010101010101.
Definition single_byte_mask : Z := one64 * 0x80.
Definition backslash_mask : Z := one64 * 0x23.

(* Inner while of the fast path, core/kos_utf8.c:174-197.  Returns the
   number of bytes skipped and the rest. *)
Fixpoint fast_path (fuel : nat) (escape : bool) (l : list Z) (n : Z) : Z * list Z :=
  match fuel with
  | O => (n, l)
  | S k =>
    if (8 <=? length l)%nat then
      let bytes := word_of (firstn 8 l) in
      if negb (Z.land bytes single_byte_mask =? 0) then (n, l)
      else if escape && negb (Z.land (u64 (Z.lxor bytes backslash_mask + one64)) single_byte_mask =? 0)
           then (n, l)
      else fast_path k escape (skipn 8 l) (n + 8)
    else (n, l)
  end.

(* Continuation bytes in KOS_utf8_get_len, core/kos_utf8.c:218-224: n bytes remain *)
Fixpoint len_cont (n : nat) (code : Z) (l : list Z) : res (Z * list Z) :=
  match n with
  | O => Ok (code, l)
  | S k =>
    match l with
    | [] => OverRead
    | b :: t =>
      if negb (Z.land b 0xC0 =? 0x80) then Fail
      else len_cont k (Z.lor (u32 (Z.shiftl code 6)) (Z.land b 0x3F)) t
    end
  end.

(* KOS_utf8_get_len, core/kos_utf8.c:153-255.  addr is the address of the
   first byte; fuel bounds the number of iterations and is always taken as
   the length of the input (each iteration consumes at least one byte).
   Result: Ok (count, max_code), or Fail for the value ~0U. *)
Fixpoint get_len_loop (fuel : nat) (escape : bool) (addr : Z) (l : list Z) (count max_c : Z)
  : res (Z * Z) :=
  match l with
  | [] => Ok (count, max_c)
  | _ =>
    match fuel with
    | O => OverRead
    | S k =>
      let '(skipped, l1) :=
        if addr mod 8 =? 0 then fast_path (length l) escape l 0 else (0, l) in
      let addr1 := addr + skipped in
      let count1 := count + skipped in
      match l1 with
      | [] => Ok (count1, max_c)
      | c :: t =>
        let after (code : Z) (rest : list Z) (mc : Z) : res (Z * Z) :=
          if escape && (code =? 92) then
            match parse_escape rest with
            | EscOver => OverRead
            | EscInvalid _ => Fail
            | EscNot r =>
              get_len_loop k escape (addr1 + Z.of_nat (length l1 - length r)) r (count1 + 1) mc
            | EscCode code2 r =>
              get_len_loop k escape (addr1 + Z.of_nat (length l1 - length r)) r (count1 + 1)
                           (if mc <? code2 then code2 else mc)
            end
          else get_len_loop k escape (addr1 + Z.of_nat (length l1 - length rest)) rest (count1 + 1) mc
        in
        if c <? 0x80 then after c t max_c
        else
          let code_len := utf8_len c in
          if (code_len =? 0) || (Z.of_nat (length t) <? code_len - 1) || (c <? 0xC2) then Fail
          else
            match len_cont (Z.to_nat (code_len - 1)) (Z.land c (Z.shiftr 0x80 code_len - 1)) t with
            | Ok (code, rest) => after code rest (if max_c <? code then code else max_c)
            | Fail => Fail
            | OverRead => OverRead
            end
      end
    end
  end.

Definition get_len (escape : bool) (addr : Z) (l : list Z) : res (Z * Z) :=
  get_len_loop (length l) escape addr l 0 0.

(* do..while over continuation bytes in the decoders, core/kos_utf8.c:271-277,
   308-314, 345-351; w is the element width, n the value of code_len before
   the loop.  The loop ends when --code_len becomes 0. *)
Fixpoint dec_cont (w n c : Z) (l : list Z) : res (Z * list Z) :=
  match l with
  | [] => OverRead
  | b :: t =>
    if negb (Z.land b 0xC0 =? 0x80) then Fail
    else
      let c1 := uwrap w (Z.lor (Z.shiftl c 6) (Z.land b 0x3F)) in
      if n - 1 =? 0 then Ok (c1, t) else dec_cont w (n - 1) c1 t
  end.

(* KOS_utf8_decode_8/16/32, core/kos_utf8.c:257-366, for w = 8, 16, 32.
   In the C code a failed escape sequence is excluded by an assert only; the
   model stores the truncated KOS_INVALID_ESC as the code does with NDEBUG. *)
Fixpoint decode_loop (fuel : nat) (w : Z) (escape : bool) (l : list Z) (acc : list Z) : res (list Z) :=
  match l with
  | [] => Ok (rev acc)
  | c :: t =>
    match fuel with
    | O => OverRead
    | S k =>
      let after (code : Z) (rest : list Z) : res (list Z) :=
        if escape && (code =? 92) then
          match parse_escape rest with
          | EscOver => OverRead
          | EscInvalid r => decode_loop k w escape r (uwrap w 0xFFFFFFFF :: acc)
          | EscNot r => decode_loop k w escape r (code :: acc)
          | EscCode code2 r => decode_loop k w escape r (uwrap w code2 :: acc)
          end
        else decode_loop k w escape rest (code :: acc)
      in
      if 0x7F <? c then
        let code_len := utf8_len c in
        match dec_cont w (code_len - 1) (Z.land c (Z.shiftr 0x80 code_len - 1)) t with
        | Ok (code, rest) => after code rest
        | Fail => Fail
        | OverRead => OverRead
        end
      else after c t
    end
  end.

Definition decode (w : Z) (escape : bool) (l : list Z) : res (list Z) :=
  decode_loop (length l) w escape l [].

(* KOS_utf8_calc_buf_size_32, core/kos_utf8.c:399-421; None is ~0U.
   The running total is a 32-bit unsigned. *)
Fixpoint calc_buf_size_32 (l : list Z) (size : Z) : option Z :=
  match l with
  | [] => Some size
  | code :: t =>
    if code <? 2 ^ 7 then calc_buf_size_32 t (u32 (size + 1))
    else if code <? 2 ^ 11 then calc_buf_size_32 t (u32 (size + 2))
    else if code <? 2 ^ 16 then calc_buf_size_32 t (u32 (size + 3))
    else if code <? 2 ^ 21 then calc_buf_size_32 t (u32 (size + 4))
    else None
  end.

(* KOS_utf8_calc_buf_size_8, core/kos_utf8.c:368-379 *)
Fixpoint calc_buf_size_8 (l : list Z) (size : Z) : Z :=
  match l with
  | [] => size
  | code :: t => calc_buf_size_8 t (u32 (size + if negb (Z.land code 0x80 =? 0) then 2 else 1))
  end.

(* KOS_utf8_calc_buf_size_16, core/kos_utf8.c:381-397 *)
Fixpoint calc_buf_size_16 (l : list Z) (size : Z) : Z :=
  match l with
  | [] => size
  | code :: t =>
    if code <? 2 ^ 7 then calc_buf_size_16 t (u32 (size + 1))
    else if code <? 2 ^ 11 then calc_buf_size_16 t (u32 (size + 2))
    else calc_buf_size_16 t (u32 (size + 3))
  end.

(* Body of KOS_utf8_encode_32, core/kos_utf8.c:463-480 *)
Definition encode_char_32 (code : Z) : list Z :=
  if code <? 2 ^ 7 then [uwrap 8 code]
  else if code <? 2 ^ 11 then
    [uwrap 8 (Z.lor 0xC0 (Z.shiftr code 6)); uwrap 8 (Z.lor 0x80 (Z.land code 0x3F))]
  else if code <? 2 ^ 16 then
    [uwrap 8 (Z.lor 0xE0 (Z.shiftr code 12));
     uwrap 8 (Z.lor 0x80 (Z.land (Z.shiftr code 6) 0x3F));
     uwrap 8 (Z.lor 0x80 (Z.land code 0x3F))]
  else
    [uwrap 8 (Z.lor 0xF0 (Z.shiftr code 18));
     uwrap 8 (Z.lor 0x80 (Z.land (Z.shiftr code 12) 0x3F));
     uwrap 8 (Z.lor 0x80 (Z.land (Z.shiftr code 6) 0x3F));
     uwrap 8 (Z.lor 0x80 (Z.land code 0x3F))].

Definition encode_32 (l : list Z) : list Z := flat_map encode_char_32 l.

(* Body of KOS_utf8_encode_16, core/kos_utf8.c:443-454 *)
Definition encode_char_16 (code : Z) : list Z :=
  if code <? 2 ^ 7 then [uwrap 8 code]
  else if code <? 2 ^ 11 then
    [uwrap 8 (Z.lor 0xC0 (Z.shiftr code 6)); uwrap 8 (Z.lor 0x80 (Z.land code 0x3F))]
  else
    [uwrap 8 (Z.lor 0xE0 (Z.shiftr code 12));
     uwrap 8 (Z.lor 0x80 (Z.land (Z.shiftr code 6) 0x3F));
     uwrap 8 (Z.lor 0x80 (Z.land code 0x3F))].

Definition encode_16 (l : list Z) : list Z := flat_map encode_char_16 l.

(* Body of KOS_utf8_encode_8, core/kos_utf8.c:428-434 *)
Definition encode_char_8 (code : Z) : list Z :=
  if negb (Z.land code 0x80 =? 0) then
    [uwrap 8 (Z.lor 0xC0 (Z.shiftr code 6)); uwrap 8 (Z.lor 0x80 (Z.land code 0x3F))]
  else [uwrap 8 code].

Definition encode_8 (l : list Z) : list Z := flat_map encode_char_8 l.
