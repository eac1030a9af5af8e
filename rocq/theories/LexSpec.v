(* Tokens of the Kos language, after doc/grammar.md:50-419; independent of the lexer's code. *)
From Coq Require Import String Ascii ZArith List Lia Bool.
Import ListNotations.
Local Open Scope Z_scope.

Fixpoint bytes (s : string) : list Z :=
  match s with EmptyString => [] | String a t => Z.of_N (N_of_ascii a) :: bytes t end.

Definition is_byte (c : Z) : Prop := 0 <= c < 256.

(* doc/grammar.md:124-150 *)
Definition Letter (c : Z) : Prop := 65 <= c <= 90 \/ 97 <= c <= 122.
Definition DecimalDigit (c : Z) : Prop := 48 <= c <= 57.
Definition Underscore (c : Z) : Prop := c = 95.
Definition WordChar (c : Z) : Prop := Letter c \/ DecimalDigit c \/ Underscore c.
Definition Word (s : list Z) : Prop := exists c t, s = c :: t /\ (Letter c \/ Underscore c) /\ Forall WordChar t.
(* the text does not start with a character from the set *)
Definition not_next (P : Z -> Prop) (l : list Z) : Prop := match l with [] => True | c :: _ => ~ P c end.

(* doc/grammar.md:153-204 *)
Definition keyword_list : list (list Z) := map bytes
  ["_"; "__line__"; "assert"; "async"; "break"; "case"; "catch"; "class"; "const"; "constructor"; "continue"; "default"; "defer";
   "delete"; "do"; "else"; "extends"; "fallthrough"; "false"; "for"; "fun"; "get"; "if"; "import"; "in"; "instanceof"; "loop";
   "match"; "propertyof"; "public"; "repeat"; "return"; "set"; "static"; "super"; "switch"; "this"; "throw"; "true"; "try";
   "typeof"; "var"; "void"; "while"; "with"; "yield"]%string.
(* core/kos_lexer.h:41-89 KOS_KEYWORD_TYPE_E has the keywords in this order, after KW_NONE *)
Definition is_keyword (s : list Z) (k : Z) : Prop := 1 <= k /\ nth_error keyword_list (Z.to_nat (k - 1)) = Some s.

(* doc/grammar.md:227-276 *)
Definition DigitOrUnderscore (c : Z) : Prop := DecimalDigit c \/ Underscore c.
Definition DecimalNumber (s : list Z) : Prop :=
  s = [48] \/ exists d t, s = d :: t /\ 49 <= d <= 57 /\ Forall DigitOrUnderscore t.
Definition Mantissa (s : list Z) : Prop := exists t, s = 46 :: t /\ Forall DigitOrUnderscore t.
(* the number after the exponent's sign may be something else than what the grammar says *)
Definition ExponentOf (num : list Z -> Prop) (s : list Z) : Prop :=
  exists e sg n, s = e :: sg ++ n /\ In e [101; 69; 112; 80] /\ In sg [[]; [43]; [45]] /\ num n.
Definition Optional (P : list Z -> Prop) (s : list Z) : Prop := s = [] \/ P s.
Definition DecimalOf (num : list Z -> Prop) (s : list Z) : Prop :=
  exists b m e, s = b ++ m ++ e /\ DecimalNumber b /\ Optional Mantissa m /\ Optional (ExponentOf num) e.
Definition DecimalLiteral : list Z -> Prop := DecimalOf DecimalNumber.
(* what the lexer takes: the exponent may also start with an underscore *)
Definition LooseNumber (s : list Z) : Prop :=
  s = [48] \/ exists d t, s = d :: t /\ (49 <= d <= 57 \/ d = 95) /\ Forall DigitOrUnderscore t.
Definition HexDigit (c : Z) : Prop := DecimalDigit c \/ 97 <= c <= 102 \/ 65 <= c <= 70 \/ Underscore c.
Definition HexLiteral (s : list Z) : Prop := exists x d t, s = 48 :: x :: d :: t /\ (x = 120 \/ x = 88) /\ Forall HexDigit (d :: t).
Definition BinaryDigit (c : Z) : Prop := c = 48 \/ c = 49 \/ Underscore c.
Definition BinaryLiteral (s : list Z) : Prop := exists x d t, s = 48 :: x :: d :: t /\ (x = 98 \/ x = 66) /\ Forall BinaryDigit (d :: t).

(* doc/grammar.md:362-377 with the codes of core/kos_lexer.h:147-158 *)
Definition separators : list (Z * Z) := [(40, 1); (41, 2); (44, 3); (58, 4); (59, 5); (91, 6); (93, 7); (123, 8); (125, 9)].

(* doc/grammar.md:380-419 with the codes of core/kos_lexer.h:91-145; the grammar has "/-" for "/=" *)
Definition operators : list (list Z * Z) := map (fun p => (bytes (fst p), snd p))
  [("+", 0xC0); ("-", 0xC1); ("*", 0x89); ("/", 0x88); ("%", 0x8A); ("&", 0x20); ("|", 0x21); ("^", 0x22); ("!", 0x41); ("~", 0x40);
   ("=", 0x10); ("+=", 0x11); ("-=", 0x12); ("*=", 0x13); ("/=", 0x14); ("%=", 0x15); ("&=", 0x16); ("|=", 0x17); ("^=", 0x18);
   ("<<=", 0x19); (">>=", 0x1A); (">>>=", 0x1B); ("<", 0x2D); (">", 0x2B); ("?", 0x06); (".", 0x07); ("...", 0x08); ("<=", 0x2C);
   (">=", 0x2A); ("<<", 0x01); (">>", 0x02); (">>>", 0x03); ("!=", 0x29); ("==", 0x28); ("&&", 0x04); ("||", 0x05); ("->", 0x09);
   ("=>", 0x0A)]%string.
Definition prefix (s l : list Z) : Prop := exists t, l = s ++ t.
(* "the lexer tries to match as many contiguous characters as possible" *)
Definition longest_operator (text s : list Z) (op : Z) : Prop :=
  In (s, op) operators /\ prefix s text /\ forall s' op', In (s', op') operators -> prefix s' text -> (length s' <= length s)%nat.

(* texts for which the lexer finds another operator: >==, >=> and >>== *)
Definition odd_op (text : list Z) : Prop := prefix [62; 61; 61] text \/ prefix [62; 61; 62] text \/ prefix [62; 62; 61; 61] text.

(* doc/grammar.md:88-92 *)
Definition Eol (s rest : list Z) : Prop := s = [10] \/ s = [13; 10] \/ (s = [13] /\ not_next (fun c => c = 10) rest).
Definition is_eol_char (c : Z) : Prop := c = 10 \/ c = 13.

(* doc/grammar.md:71-83 in UTF-8 *)
Definition white_chars : list (list Z) := [[11]; [12]; [32]; [0xC2; 0xA0]; [0xE2; 0x80; 0xA8]; [0xE2; 0x80; 0xA9]; [0xEF; 0xBB; 0xBF]].
Definition White (s : list Z) : Prop := exists l, Forall (fun w => In w white_chars) l /\ s = concat l.

(* UTF-8: the number of continuation bytes after c *)
Definition tail_byte (c : Z) : Prop := 128 <= c <= 191.
Definition needs (c : Z) (n : nat) : Prop := 194 <= c <= 223 /\ n = 1%nat \/ 224 <= c <= 239 /\ n = 2%nat \/ 240 <= c <= 247 /\ n = 3%nat.
(* the text starts with a continuation byte, or with a character which does not have all of its bytes *)
Definition bad_utf8 (l : list Z) : Prop :=
  exists c t, l = c :: t /\ (tail_byte c \/ exists n, needs c n /\ ~ exists w r, t = w ++ r /\ length w = n /\ Forall tail_byte w).

(* doc/grammar.md:100-121; the end of the line is not a part of the comment *)
Definition LineComment (s : list Z) : Prop := (prefix [35] s \/ prefix [47; 47] s) /\ Forall (fun c => ~ is_eol_char c) s.
Definition no_end (s : list Z) : Prop := forall a b, s <> a ++ [42; 47] ++ b.
(* the first end of the comment is the end of the text *)
Definition BlockComment (s : list Z) : Prop := exists body, s = [47; 42] ++ body ++ [42; 47] /\ no_end (body ++ [42]).

(* doc/grammar.md:299-351.  After a backslash there can be any character, and six hexadecimal digits. *)
Definition HexChar (c : Z) : Prop := DecimalDigit c \/ 97 <= c <= 102 \/ 65 <= c <= 70.
Definition Escape (e : list Z) : Prop :=
  (exists c, e = [c] /\ c <> 120 /\ c <> 40) \/ e = [13; 10] \/ (exists a b, e = [120; a; b] /\ HexChar a /\ HexChar b)
  \/ (exists hs, e = [120; 123] ++ hs ++ [125] /\ Forall HexChar hs /\ (1 <= length hs <= 6)%nat).
Inductive StringBody : list Z -> Prop :=
| sb_nil : StringBody []
| sb_plain : forall c l, c <> 34 -> c <> 92 -> ~ is_eol_char c -> StringBody l -> StringBody (c :: l)
| sb_esc : forall e l, Escape e -> StringBody l -> StringBody (92 :: e ++ l).
Inductive RawBody : list Z -> Prop :=
| rb_nil : RawBody []
| rb_plain : forall c l, c <> 34 -> c <> 92 -> RawBody l -> RawBody (c :: l)
| rb_esc : forall c l, RawBody l -> RawBody (92 :: c :: l).

(* positions: the number of lines ends in a text, and the column after it *)
Fixpoint eols (s : list Z) : Z :=
  match s with
  | [] => 0
  | 13 :: t => match t with 10 :: t' => eols t | _ => 1 + eols t end
  | 10 :: t => 1 + eols t
  | _ :: t => eols t
  end.
(* the characters since the last end of a line; continuation bytes are not counted *)
Fixpoint column_loop (n : Z) (s : list Z) : Z :=
  match s with
  | [] => n
  | c :: t =>
      if (c =? 10) || (c =? 13) then column_loop 1 t
      else if (128 <=? c) && (c <=? 191) then column_loop n t
      else column_loop (n + 1) t
  end.
Definition column (s : list Z) : Z := column_loop 1 s.
Definition no_tab (s : list Z) : Prop := ~ In 9 s.

(* a carriage return and a line feed are one end of a line *)
Definition splits_eol (a b : list Z) : Prop := (exists p, a = p ++ [13]) /\ exists t, b = 10 :: t.

(* UTF-8 without overlong encodings *)
Inductive well_formed : list Z -> Prop :=
| wf_nil : well_formed []
| wf_one : forall a t, 0 <= a < 128 -> well_formed t -> well_formed (a :: t)
| wf_two : forall a b t, 194 <= a <= 223 -> tail_byte b -> well_formed t -> well_formed (a :: b :: t)
| wf_three : forall a b c t, 224 <= a <= 239 -> (a = 224 -> 160 <= b) -> tail_byte b -> tail_byte c -> well_formed t -> well_formed (a :: b :: c :: t)
| wf_four : forall a b c d t, 240 <= a <= 247 -> (a = 240 -> 144 <= b) -> tail_byte b -> tail_byte c -> tail_byte d -> well_formed t ->
    well_formed (a :: b :: c :: d :: t).

(* the text without the byte order mark *)
Definition without_bom (buf text : list Z) : Prop := buf = [0xEF; 0xBB; 0xBF] ++ text \/ (buf = text /\ ~ prefix [0xEF; 0xBB; 0xBF] buf).
