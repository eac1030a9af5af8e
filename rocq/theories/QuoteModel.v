(* Model of quoting a string, as in stringified arrays and objects. *)
From Coq Require Import ZArith List Bool.
Import ListNotations.
From Verif Require Import Base ListZ Utf8Model.
Local Open Scope Z_scope.

Definition u16 (x : Z) : Z := uwrap 16 x.

(* AUB: an access outside of the vector, or a table index out of range *)
Inductive ares (A : Type) := AOk (a : A) | AInvalid | AUB | AFuel.
Arguments AOk {A} a. Arguments AInvalid {A}. Arguments AUB {A}. Arguments AFuel {A}.
Definition abind {A B} (m : ares A) (f : A -> ares B) : ares B :=
  match m with AOk a => f a | AInvalid => AInvalid | AUB => AUB | AFuel => AFuel end.
Notation "'let!' x := m 'in' f" := (abind m (fun x => f)) (at level 200, x pattern, m at level 100, f at level 200, right associativity).

Definition inb (buf : list Z) (i : Z) : bool := (0 <=? i) && (i <? len buf).
Definition rd (buf : list Z) (i : Z) : ares Z :=
  if inb buf i then match nth_error buf (Z.to_nat i) with Some c => AOk c | None => AUB end else AUB.
Definition wr (buf : list Z) (i v : Z) : ares (list Z) :=
  if inb buf i then AOk (firstn (Z.to_nat i) buf ++ v :: skipn (Z.to_nat i + 1) buf) else AUB.
Fixpoint wr_all (buf : list Z) (i : Z) (vs : list Z) : ares (list Z) :=
  match vs with [] => AOk buf | v :: t => let! b := wr buf i v in wr_all b (i + 1) t end.

(* core/kos_utils.c:60-84 extra_len_map *)
Definition extra_len_map (c : Z) : Z :=
  if c <? 32 then 3
  else if (c =? 34) || (c =? 92) then 1
  else if c <? 127 then 0
  else if c =? 127 then 3
  else if c <? 192 then -1
  else if c <? 196 then 3
  else if c <? 224 then 6
  else if c <? 240 then 7
  else if c <? 248 then 8
  else 3.

(* core/kos_utils.c:86 hex_digits; the string has a terminating 0 *)
Definition hex_digit (v : Z) : ares Z :=
  if (0 <=? v) && (v <? 10) then AOk (48 + v) else if (10 <=? v) && (v <? 16) then AOk (87 + v) else if v =? 16 then AOk 0 else AUB.

(* KOS_utf8_decode_32(src, n, KOS_UTF8_NO_ESCAPE, code): the value of code[0]; more than one value would be written behind it.
   When it fails (only possible for text which is not UTF-8), code[0] is not written. *)
Definition decode_code (buf : list Z) (src n : Z) : ares Z :=
  if (0 <=? src) && (src + n <=? len buf) then
    match decode 32 false (firstn (Z.to_nat n) (skipn (Z.to_nat src) buf)) with
    | Ok [code] => AOk code
    | _ => AUB
    end
  else AUB.

(* core/kos_utils.c:594-597 the digits in braces, n of them, before dst *)
Fixpoint put_digits (n : nat) (buf : list Z) (dst code : Z) : ares (list Z * Z) :=
  match n with
  | O => AOk (buf, dst)
  | S k =>
      let! d := hex_digit (Z.land code 0xF) in
      let! b := wr buf (dst - 1) d in
      put_digits k b (dst - 1) (Z.shiftr code 4)
  end.

(* core/kos_utils.c:531-608 the loop, from the end to the beginning *)
Fixpoint quote_loop (fuel : nat) (buf : list Z) (src dst cont : Z) : ares (list Z) :=
  match fuel with
  | O => AFuel
  | S f =>
      if src <? dst then
        let src := src - 1 in
        let! c := rd buf src in
        let esc_len := extra_len_map c in
        if esc_len =? -1 then quote_loop f buf src dst (cont + 1)
        else if esc_len =? 0 then
          let! b := wr buf (dst - 1) c in
          quote_loop f b src (dst - 1) cont
        else if esc_len =? 1 then
          let! b := wr buf (dst - 1) c in
          let! b := wr b (dst - 2) 92 in
          quote_loop f b src (dst - 2) cont
        else if esc_len =? 3 then
          let! code := (if cont =? 0 then AOk c else decode_code buf src (cont + 1)) in
          let! hi := hex_digit (Z.shiftr code 4) in
          let! lo := hex_digit (Z.land code 0xF) in
          let! b := wr_all buf (dst - 4) [92; 120; hi; lo] in
          quote_loop f b src (dst - 4) 0
        else
          let! code := decode_code buf src (cont + 1) in
          let! b := wr buf (dst - 1) 125 in
          let! (b, dst) := put_digits (Z.to_nat (esc_len - 3)) b (dst - 1) code in
          let! b := wr_all b (dst - 3) [92; 120; 123] in
          quote_loop f b src (dst - 3) 0
      else AOk buf
  end.

(* KOS_vector_resize, core/kos_memory.c:172-195: the added bytes are not initialised *)
Definition resize (vec : list Z) (size : Z) (junk : Z) : list Z :=
  firstn (Z.to_nat size) (vec ++ repeat junk (Z.to_nat size)).

(* core/kos_utils.c:508-516 *)
Definition extra_len (bytes : list Z) : Z := fold_left (fun n c => u32 (n + extra_len_map c)) bytes 0.

(* core/kos_utils.c:465-624 vector_append_str for the string with the code points cs; the encoding of the string is that of
   32-bit strings (see utf8_encoders_agree).  Not modelled: out of memory. *)
Definition append_str (vec cs : list Z) (quote : bool) (junk : Z) : ares (list Z) :=
  let pos := if len vec =? 0 then 0 else len vec - 1 in
  let! str_len := (if 0 <? len cs then match calc_buf_size_32 cs 0 with Some n => AOk n | None => AInvalid end else AOk 0) in
  if (str_len =? 0) && negb quote then AOk vec
  else
    let vec := resize vec (pos + str_len + 1 + (if quote then 2 else 0)) junk in
    let! vec := (if quote then wr vec pos 34 else AOk vec) in
    let pos := if quote then pos + 1 else pos in
    let! vec := (if str_len =? 0 then AOk vec else wr_all vec pos (encode_32 cs)) in
    let extra := if quote then extra_len (firstn (Z.to_nat str_len) (skipn (Z.to_nat pos) vec)) else 0 in
    let! vec := (if extra =? 0 then AOk vec
                 else let vec := resize vec (len vec + extra) junk in
                      quote_loop (S (Z.to_nat str_len)) vec (pos + str_len) (pos + str_len + extra) 0) in
    let pos := pos + extra + str_len in
    let! vec := (if quote then wr vec pos 34 else AOk vec) in
    let pos := if quote then pos + 1 else pos in
    wr vec pos 0.

(* core/kos_utils.c:626-656 make_quoted_str: the bytes passed to KOS_new_string, and the vector afterwards.
   Not modelled: out of memory. *)
Definition make_quoted_str (vec cs : list Z) (junk : Z) : ares (list Z * list Z) :=
  let old_size := len vec in
  let! v := append_str vec cs true junk in
  let start := if old_size =? 0 then 0 else old_size - 1 in
  let size := len v - old_size - (if old_size =? 0 then 1 else 0) in
  let str := firstn (Z.to_nat size) (skipn (Z.to_nat start) v) in
  let v := firstn (Z.to_nat old_size) v in
  let! v := (if old_size =? 0 then AOk v else wr v (old_size - 1) 0) in
  AOk (str, v).

(* core/kos_compiler.c:418-451 get_token_str: the bytes of the string and whether they have escape sequences; the bytes of
   the token begin at tok.  The types after TT_STRING are represented by the flag open. *)
Definition get_token_str (tok : list Z) (length : Z) (open : bool) : list Z * bool :=
  let raw := match tok with c :: _ => (c =? 114) || (c =? 82) | [] => false end in
  let begin := if raw then 2 else 1 in
  let n := u16 (length - (if raw then 1 else 0) - 2 - (if open then 1 else 0)) in
  (firstn (Z.to_nat n) (skipn (Z.to_nat begin) tok), negb raw).
