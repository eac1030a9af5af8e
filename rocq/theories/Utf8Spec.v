(* Specification of UTF-8 text, independent of the model's functions. *)
From Coq Require Import ZArith List Lia Bool ZifyBool.
From Verif Require Import Base.
Import ListNotations.
Open Scope Z_scope.

Definition is_byte (b : Z) : Prop := 0 <= b <= 255.
Definition cont_byte (b : Z) : Prop := 0x80 <= b <= 0xBF.

(* Bit layout of UTF-8 with 1..4 bytes: the lead byte selects the number of
   continuation bytes; the two-byte overlong leads C0, C1 are excluded. *)
Inductive layout : Z -> list Z -> Prop :=
| L1 : forall a, 0 <= a <= 0x7F -> layout a [a]
| L2 : forall a b, 0xC2 <= a <= 0xDF -> cont_byte b ->
       layout ((a - 0xC0) * 64 + (b - 0x80)) [a; b]
| L3 : forall a b c, 0xE0 <= a <= 0xEF -> cont_byte b -> cont_byte c ->
       layout ((a - 0xE0) * 4096 + (b - 0x80) * 64 + (c - 0x80)) [a; b; c]
| L4 : forall a b c d, 0xF0 <= a <= 0xF7 -> cont_byte b -> cont_byte c -> cont_byte d ->
       layout ((a - 0xF0) * 262144 + (b - 0x80) * 4096 + (c - 0x80) * 64 + (d - 0x80)) [a; b; c; d].

(* Well-formed UTF-8, Unicode standard table 3-7: shortest form only, no
   surrogates, at most U+10FFFF. *)
Definition well_formed (code : Z) (bs : list Z) : Prop :=
  layout code bs /\
  (length bs = 3%nat -> 0x800 <= code /\ ~ (0xD800 <= code <= 0xDFFF)) /\
  (length bs = 4%nat -> 0x10000 <= code <= 0x10FFFF).

(* A text as a sequence of well-formed characters. *)
Inductive wf_text : list Z -> list Z -> Prop :=
| WF_nil : wf_text [] []
| WF_cons : forall code bs t cs, well_formed code bs -> wf_text t cs -> wf_text (bs ++ t) (code :: cs).

(* Hexadecimal digits *)
Definition hex_val (c v : Z) : Prop :=
  (48 <= c <= 57 /\ v = c - 48) \/ (65 <= c <= 70 /\ v = c - 55) \/ (97 <= c <= 102 /\ v = c - 87).

Inductive hex_number : list Z -> Z -> Z -> Prop :=
| HN_nil : forall acc, hex_number [] acc acc
| HN_cons : forall c v t acc r, hex_val c v -> acc * 16 + v <= 0xFFFFFF ->
            hex_number t (acc * 16 + v) r -> hex_number (c :: t) acc r.

(* Escape sequences of Kos string literals, without the backslash. *)
Inductive escape_seq : list Z -> Z -> Prop :=
| ES_quote : escape_seq [34] 34
| ES_nul   : escape_seq [48] 0
| ES_bs    : escape_seq [92] 92
| ES_e     : escape_seq [101] 27
| ES_f     : escape_seq [102] 12
| ES_n     : escape_seq [110] 10
| ES_r     : escape_seq [114] 13
| ES_t     : escape_seq [116] 9
| ES_u     : escape_seq [117] 117
| ES_v     : escape_seq [118] 11
| ES_hex2  : forall c1 c2 v1 v2, hex_val c1 v1 -> hex_val c2 v2 ->
             escape_seq [120; c1; c2] (v1 * 16 + v2)
| ES_brace : forall ds code, ds <> [] -> hex_number ds 0 code ->
             escape_seq (120 :: 123 :: ds ++ [125]) code.

(* Characters which may begin an escape sequence *)
Definition escape_leads : list Z := [34; 48; 92; 101; 102; 110; 114; 116; 117; 118; 120].

(* Text with the UTF-8 bit layout, with escape sequences when esc is true. *)
Inductive text (esc : bool) : list Z -> list Z -> Prop :=
| T_nil  : text esc [] []
| T_char : forall code bs t cs, layout code bs -> (esc = true -> code <> 92) ->
           text esc t cs -> text esc (bs ++ t) (code :: cs)
| T_esc  : forall bs e code t cs, esc = true -> layout 92 bs -> escape_seq e code ->
           text esc t cs -> text esc (bs ++ e ++ t) (code :: cs)
| T_bs   : forall bs e t cs, esc = true -> layout 92 bs -> ~ In e escape_leads ->
           text esc (e :: t) cs -> text esc (bs ++ e :: t) (92 :: cs).
