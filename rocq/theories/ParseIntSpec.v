(* What an integer text means, independently of the parser. *)
From Coq Require Import ZArith List Bool.
From Verif Require Import Base.
Import ListNotations.
Open Scope Z_scope.

(* The digit a character stands for, in any radix up to 16. *)
Inductive digit_char : Z -> Z -> Prop :=
| dc_dec : forall c, 48 <= c <= 57 -> digit_char c (c - 48)      (* 0..9 *)
| dc_upper : forall c, 65 <= c <= 70 -> digit_char c (c - 55)    (* A..F *)
| dc_lower : forall c, 97 <= c <= 102 -> digit_char c (c - 87).  (* a..f *)

(* digits_of r l v m: reading the characters l after a prefix worth v gives m;
   underscores separate digits and carry no value. *)
Inductive digits_of (r : Z) : list Z -> Z -> Z -> Prop :=
| do_nil : forall v, digits_of r [] v v
| do_sep : forall l v m, digits_of r l v m -> digits_of r (95 :: l) v m
| do_digit : forall c d l v m, digit_char c d -> d < r ->
    digits_of r l (v * r + d) m -> digits_of r (c :: l) v m.

Inductive sign_text : list Z -> bool -> Prop :=
| st_none : sign_text [] false
| st_plus : sign_text [43] false
| st_minus : sign_text [45] true.

Inductive radix_text : list Z -> Z -> Prop :=
| rt_dec : radix_text [] 10
| rt_hex : forall x, x = 120 \/ x = 88 -> radix_text [48; x] 16
| rt_bin : forall b, b = 98 \/ b = 66 -> radix_text [48; b] 2.

(* The text l is an integer literal with the given sign, radix and magnitude. *)
Definition int_text (l : list Z) (neg : bool) (r m : Z) : Prop :=
  exists s p body, l = s ++ p ++ body /\ sign_text s neg /\ radix_text p r /\
                   body <> [] /\ digits_of r body 0 m.

Definition signed (neg : bool) (m : Z) : Z := if neg then - m else m.

(* Decimal literals must fit int64; hexadecimal and binary literals denote
   64-bit patterns. *)
Definition literal_fits (neg : bool) (r m : Z) : Prop :=
  if r =? 10 then is_int64 (signed neg m) else m < 2 ^ 64.

(* The value of a fitting literal: exact for decimal, two's complement for
   bit patterns. *)
Definition literal_value (neg : bool) (r m : Z) : Z :=
  if r =? 10 then signed neg m else s64 (signed neg m).
