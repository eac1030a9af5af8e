(* The lexer: core/kos_lexer.c.  A pointer into the buffer is the list of the bytes from there to buf_end.
   Line and column numbers do not wrap at 2^32, and after an error only the error is kept, not the token and
   the adjusted column.  set_seq_fail is compiled out. *)
From Coq Require Import String Ascii ZArith List Lia Bool ZifyBool.
Import ListNotations.
From Verif Require Import Base ListZ Utf8Model.
Local Open Scope Z_scope.

(* the bytes of a C string literal, without the NUL *)
Fixpoint zs (s : string) : list Z :=
  match s with EmptyString => [] | String a t => Z.of_N (N_of_ascii a) :: zs t end.

(* enum KOS_LEXEM_TYPE_E, core/kos_lexer.c:33-59.  LT_DIGIT, LT_LETTER and LT_UNDERSCORE have the bit LT_ALPHANUMERIC,
   LT_EOL and LT_EOF the bit LT_EOL. *)
Inductive lt := LInvalid | LWhite | LComment | LBackslash | LSep | LOp | LSlash | LString | LTab
  | LDigit | LLetter | LUnder | LEol | LEof | LTail | LUtf (n : Z) | LBadUtf8.

Definition in_range (lo hi c : Z) : bool := (lo <=? c) && (c <=? hi).

(* core/kos_lexer.c:61-177 lexem_types *)
Definition lexem_type (c : Z) : lt :=
  if c =? 9 then LTab
  else if (c =? 10) || (c =? 13) then LEol
  else if (c =? 11) || (c =? 12) || (c =? 32) then LWhite
  else if c <? 32 then LInvalid
  else if c =? 33 then LOp else if c =? 34 then LString else if c =? 35 then LComment else if c =? 36 then LInvalid
  else if (c =? 37) || (c =? 38) then LOp else if c =? 39 then LInvalid
  else if (c =? 40) || (c =? 41) then LSep else if (c =? 42) || (c =? 43) then LOp else if c =? 44 then LSep
  else if (c =? 45) || (c =? 46) then LOp else if c =? 47 then LSlash
  else if in_range 48 57 c then LDigit
  else if (c =? 58) || (c =? 59) then LSep else if in_range 60 63 c then LOp else if c =? 64 then LInvalid
  else if in_range 65 90 c then LLetter
  else if c =? 91 then LSep else if c =? 92 then LBackslash else if c =? 93 then LSep else if c =? 94 then LOp
  else if c =? 95 then LUnder else if c =? 96 then LInvalid
  else if in_range 97 122 c then LLetter
  else if c =? 123 then LSep else if c =? 124 then LOp else if c =? 125 then LSep else if c =? 126 then LOp
  else if c =? 127 then LInvalid
  else if c <? 192 then LTail
  else if c <? 194 then LInvalid
  else if c <? 224 then LUtf 2
  else if c <? 240 then LUtf 3
  else if c <? 248 then LUtf 4
  else LInvalid.

Definition is_alnum (t : lt) : bool := match t with LDigit | LLetter | LUnder => true | _ => false end.
Definition is_eof (t : lt) : bool := match t with LEof => true | _ => false end.
Definition is_op (t : lt) : bool := match t with LOp => true | _ => false end.
Definition is_slash (t : lt) : bool := match t with LSlash => true | _ => false end.
Definition is_bad (t : lt) : bool := match t with LBadUtf8 => true | _ => false end.

(* struct KOS_LEXER_S, core/kos_lexer.h:16-24: prefetch_end, pos, old_pos *)
Record lex := mklex { l_rest : list Z; l_line : Z; l_col : Z; l_oline : Z; l_ocol : Z }.

(* core/kos_lexer.c:352-360 the loop over the continuation bytes: whether all were found, the code and e *)
Fixpoint tails (n : nat) (code : Z) (l : list Z) : bool * Z * list Z :=
  match n with
  | O => (true, code, l)
  | Datatypes.S k =>
      match l with
      | [] => (false, code, l) (* not reached, the length was checked *)
      | c :: t =>
          match lexem_type c with
          | LTail => tails k (Z.lor (u32 (Z.shiftl code 6)) (Z.land c 0x3F)) t
          | _ => (false, code, l)
          end
      end
  end.

(* core/kos_lexer.c:362-365 *)
Definition is_space_code (code : Z) : bool := (code =? 0xA0) || (code =? 0x2028) || (code =? 0x2029) || (code =? 0xFEFF).

(* core/kos_lexer.c:335-377, the type of the next character and what follows it *)
Definition next_char (b : list Z) : lt * list Z :=
  match b with
  | [] => (LEof, b)
  | c :: t =>
      match lexem_type c with
      | LTail => (LBadUtf8, b)
      | LUtf n =>
          if len b <? n then (LBadUtf8, [])
          else
            let '(ok, code, e) := tails (Z.to_nat (n - 1)) (Z.shiftr (Z.land (Z.shiftl c n) 0xFF) n) t in
            (if is_space_code code then LWhite else if ok then LUtf n else LBadUtf8, e)
      | LEol =>
          (LEol, match t with
                 | c1 :: t' => if (c =? 13) && (c1 =? 10) then t' else t
                 | [] => t
                 end)
      | ty => (ty, t)
      end
  end.

(* core/kos_lexer.c:325-397 prefetch_next; the result is the type, begin, and the lexer, whose l_rest is end *)
Definition prefetch (x : lex) : lt * list Z * lex :=
  let b := l_rest x in
  let (ty, e) := next_char b in
  let '(line, col) :=
    match ty with
    | LEol => (l_line x + 1, 1)
    | LTab => (l_line x, Z.land (l_col x + 8) (Z.lnot 7) + 1)
    | _ => (l_line x, l_col x + 1)
    end in
  (ty, b, mklex e line col (l_line x) (l_col x)).

(* core/kos_lexer.c:399-403 retract *)
Definition retract (x : lex) (back : list Z) : lex := mklex back (l_oline x) (l_ocol x) (l_oline x) (l_ocol x).

(* error_str, core/kos_lexer.c:15-31 *)
Inductive lexerr := EBin | EChr | ECont | EEofBin | EEofCont | EEofEsc | EEofHex | EEofStr | EEolStr | EHex | EInvalidChar | EInvalidDec
  | EInvalidUtf8 | ENoHexDigits | ETab | ETooManyHexDigits | ETokenTooLong.

(* LOver: a read outside of the buffer; LFuel: the model's recursion ran out, does not happen *)
Inductive lres (A : Type) := LOk (a : A) | LErr (e : lexerr) | LOver | LFuel.
Arguments LOk {A} a. Arguments LErr {A} e. Arguments LOver {A}. Arguments LFuel {A}.
Definition bind {A B} (m : lres A) (f : A -> lres B) : lres B :=
  match m with LOk a => f a | LErr e => LErr e | LOver => LOver | LFuel => LFuel end.
Notation "'do' x <- m ; f" := (bind m (fun x => f)) (at level 200, x pattern, m at level 100, f at level 200).
(* *begin *)
Definition deref (b : list Z) : lres Z := match b with [] => LOver | c :: _ => LOk c end.

(* core/kos_lexer.c:405-415 collect_whitespace, 417-427 collect_all_until_eol, 583-593 collect_identifier are
   the loop: while ok(c), prefetch; then retract *)
Fixpoint skip_while (fuel : nat) (ok : lt -> bool) (x : lex) : lres lex :=
  match fuel with
  | O => LFuel
  | Datatypes.S f => let '(c, b, x1) := prefetch x in if ok c then skip_while f ok x1 else LOk (retract x1 b)
  end.
Definition is_white (c : lt) : bool := match c with LWhite => true | _ => false end.
Definition in_line (c : lt) : bool := match c with LEol | LEof | LBadUtf8 => false | _ => true end.

(* core/kos_lexer.c:429-432 char_is_hex, 434-437, 439-442 *)
Definition char_is_hex (c : Z) : bool := in_range 48 57 c || in_range 65 70 c || in_range 97 102 c.
Definition char_is_hex_or_underscore (c : Z) : bool := char_is_hex c || (c =? 95).
Definition char_is_bin_or_underscore (c : Z) : bool := (c =? 48) || (c =? 49) || (c =? 95).

(* core/kos_lexer.c:465-480 the loop for \x{...}; the result is count *)
Fixpoint esc_braces (fuel : nat) (x : lex) (count : Z) : lres (Z * lex) :=
  match fuel with
  | O => LFuel
  | Datatypes.S f =>
      let '(c, b, x1) := prefetch x in
      if is_eof c then LErr EEofEsc
      else
        do ch <- deref b;
        if ch =? 125 then LOk (count, x1)
        else if negb (char_is_hex ch) then LErr EHex
        else esc_braces f x1 (count + 1)
  end.

(* core/kos_lexer.c:444-511 collect_escape; true when *format is set.  The error for a \x{ sequence with an error
   inside and no digits is another one in the code. *)
Definition collect_escape (fuel : nat) (x : lex) : lres (bool * lex) :=
  let '(c, b, x1) := prefetch x in
  if is_eof c then LErr EEofEsc
  else
    do ch <- deref b;
    match escape_map ch with
    | Utf8Model.EHex =>
        let '(c2, b2, x2) := prefetch x1 in
        if is_eof c2 then LErr EEofEsc
        else
          do ch2 <- deref b2;
          if ch2 =? 123 then
            do r <- esc_braces fuel x2 0;
            let (count, x3) := r in
            if count =? 0 then LErr ENoHexDigits else if 6 <? count then LErr ETooManyHexDigits else LOk (false, x3)
          else if char_is_hex ch2 then
            let '(c3, b3, x3) := prefetch x2 in
            if is_eof c3 then LErr EEofEsc
            else do ch3 <- deref b3; if char_is_hex ch3 then LOk (false, x3) else LErr EHex
          else LErr EHex
    | EInterp => LOk (true, x1)
    | _ => LOk (false, x1)
    end.

(* core/kos_lexer.c:513-550 collect_string *)
Fixpoint collect_string (fuel : nat) (x : lex) : lres lex :=
  match fuel with
  | O => LFuel
  | Datatypes.S f =>
      let '(c, b, x1) := prefetch x in
      match c with
      | LEof => LErr EEofStr
      | LBadUtf8 => LErr EInvalidUtf8
      | LString => LOk x1
      | LBackslash => do r <- collect_escape f x1; let (format, x2) := r in if format : bool then LOk x2 else collect_string f x2
      | LEol => LErr EEolStr
      | _ => collect_string f x1
      end
  end.

(* core/kos_lexer.c:552-581 collect_raw_string *)
Fixpoint collect_raw_string (fuel : nat) (x : lex) : lres lex :=
  match fuel with
  | O => LFuel
  | Datatypes.S f =>
      let '(c, b, x1) := prefetch x in
      match c with
      | LEof => LErr EEofStr
      | LBadUtf8 => LErr EInvalidUtf8
      | LString => LOk x1
      | LBackslash =>
          let '(c2, b2, x2) := prefetch x1 in
          if is_eof c2 then LErr EEofStr else if is_bad c2 then LErr EInvalidUtf8 else collect_raw_string f x2
      | _ => collect_raw_string f x1
      end
  end.

(* core/kos_lexer.c:601-613 the loop in collect_block_comment; c and b are the results of the previous prefetch_next *)
Fixpoint comment_loop (fuel : nat) (c : lt) (b : list Z) (x : lex) : lres lex :=
  match fuel with
  | O => LFuel
  | Datatypes.S f =>
      if is_eof c then LOk x
      else
        do prev <- deref b;
        let '(c1, b1, x1) := prefetch x in
        if is_bad c1 then LOk (retract x1 b1)
        else if is_eof c1 then comment_loop f c1 b1 x1
        else do ch <- deref b1; if (prev =? 42) && (ch =? 47) then LOk x1 else comment_loop f c1 b1 x1
  end.
(* core/kos_lexer.c:595-614 collect_block_comment *)
Definition collect_block_comment (fuel : nat) (x : lex) : lres lex :=
  let '(c, b, x1) := prefetch x in comment_loop fuel c b x1.

(* core/kos_lexer.c:616-619 is_digit_or_underscore *)
Definition is_digit_or_underscore (c : lt) : bool := match c with LDigit | LUnder => true | _ => false end.

(* do c = prefetch_next() while (is_digit_or_underscore(c)): the last type, begin and lexer *)
Fixpoint digits (fuel : nat) (x : lex) : lres (lt * list Z * lex) :=
  match fuel with
  | O => LFuel
  | Datatypes.S f => let '(c, b, x1) := prefetch x in if is_digit_or_underscore c then digits f x1 else LOk (c, b, x1)
  end.
Definition one_of (l : list Z) (c : Z) : bool := existsb (Z.eqb c) l.
(* c == type && ( *begin is one of l) *)
Definition is_op_char (l : list Z) (c : lt) (b : list Z) : lres bool := match c with LOp => do ch <- deref b; LOk (one_of l ch) | _ => LOk false end.
Definition is_letter_char (l : list Z) (c : lt) (b : list Z) : lres bool :=
  match c with LLetter => do ch <- deref b; LOk (one_of l ch) | _ => LOk false end.

(* core/kos_lexer.c:621-667 collect_decimal; first is *prefetch_begin *)
Definition collect_decimal (fuel : nat) (first : Z) (x : lex) : lres lex :=
  do r <- (if negb (first =? 48) then digits fuel x else LOk (prefetch x));
  let '(c, b, x1) := r in
  do dot <- is_op_char [46] c b;
  do r <- (if dot : bool then digits fuel x1 else LOk (c, b, x1));
  let '(c, b, x1) := r in
  do ex <- is_letter_char [101; 69; 112; 80] c b;
  do r <- (if ex : bool then
             let '(c, b, x2) := prefetch x1 in
             do sg <- is_op_char [43; 45] c b;
             let '(c, b, x2) := if sg : bool then prefetch x2 else (c, b, x2) in
             if is_digit_or_underscore c then
               do ch <- deref b;
               if negb (ch =? 48) then digits fuel x2 else LOk (prefetch x2)
             else LOk (LDigit, b, x2)
           else LOk (c, b, x1));
  let '(c, b, x1) := r in
  if is_alnum c then LErr EInvalidDec else LOk (retract x1 b).

(* core/kos_lexer.c:669-692 collect_hex, 694-717 collect_bin: the loop over ok characters *)
Fixpoint skip_chars (fuel : nat) (ok : Z -> bool) (x : lex) : lres lex :=
  match fuel with
  | O => LFuel
  | Datatypes.S f =>
      let '(c, b, x1) := prefetch x in
      if is_eof c then LOk (retract x1 b)
      else do ch <- deref b; if ok ch then skip_chars f ok x1 else LOk (retract x1 b)
  end.
Definition collect_radix (fuel : nat) (ok : Z -> bool) (eof bad : lexerr) (x : lex) : lres lex :=
  let '(c, b, x1) := prefetch x in
  if is_eof c then LErr eof
  else do ch <- deref b; if ok ch then skip_chars fuel ok x1 else LErr bad.

(* enum KOS_OPERATOR_TYPE_E, core/kos_lexer.h:91-145 *)
Definition OT_NONE := 0. Definition OT_DOT := 0x07. Definition OT_MORE := 0x08.

(* core/kos_lexer.c:256-273 operator_map; every string has its NUL, the entry { KOS_NULL, OT_NONE } is the end of the list *)
Definition ops (l : list (string * Z)) : list (list Z * Z) := map (fun p => (zs (fst p) ++ [0], snd p)) l.
Definition op_group (c : Z) : list (list Z * Z) :=
  if c =? 33 then ops [("!", 0x41); ("!=", 0x29)]%string
   else if c =? 37 then ops [("%", 0x8A); ("%=", 0x15)]%string
   else if c =? 38 then ops [("&", 0x20); ("&&", 0x04); ("&=", 0x16)]%string
   else if c =? 42 then ops [("*", 0x89); ("*=", 0x13)]%string
   else if c =? 43 then ops [("+", 0xC0); ("+=", 0x11)]%string
   else if c =? 45 then ops [("-", 0xC1); ("-=", 0x12); ("->", 0x09)]%string
   else if c =? 46 then ops [(".", OT_DOT); ("...", OT_MORE)]%string
   else if c =? 47 then ops [("/", 0x88); ("/=", 0x14)]%string
   else if c =? 60 then ops [("<", 0x2D); ("<<", 0x01); ("<<=", 0x19)]%string ++ [(zs "<=" ++ [0; 0], 0x2C)]
   else if c =? 61 then ops [("=", 0x10); ("==", 0x28); ("=>", 0x0A)]%string
   else if c =? 62 then ops [(">", 0x2B); (">=", 0x2A); (">>", 0x02); (">>=", 0x1A); (">>>", 0x03); (">>>=", 0x1B)]%string
   else if c =? 63 then ops [("?", 0x06)]%string
   else if c =? 94 then ops [("^", 0x22); ("^=", 0x18)]%string
   else if c =? 124 then ops [("|", 0x21); ("|=", 0x17); ("||", 0x05)]%string
   else if c =? 126 then ops [("~", 0x40)]%string
   else [].

Definition str_at (s : list Z) (idx : nat) : lres Z := match nth_error s idx with Some c => LOk c | None => LOver end.

(* core/kos_lexer.c:740-747 while ( *begin > cur) *)
Fixpoint op_advance (g : list (list Z * Z)) (idx : nat) (ch cur : Z) : lres (list (list Z * Z) * Z) :=
  match g with
  | [] => LOver
  | _ :: g' =>
      if cur <? ch then
        match g' with
        | [] => LOk ([], 0)
        | (s, _) :: _ => do cur' <- str_at s idx; op_advance g' idx ch cur'
        end
      else LOk (g, cur)
  end.

(* core/kos_lexer.c:729-751 *)
Fixpoint op_loop (fuel : nat) (g : list (list Z * Z)) (idx : nat) (x : lex) : lres (Z * lex) :=
  match fuel with
  | O => LFuel
  | Datatypes.S f =>
      match g with
      | [] => LOver
      | (s, op) :: _ =>
          do cur <- str_at s idx;
          let '(c, b, x1) := prefetch x in
          if is_op c then
            do ch <- deref b;
            do r <- op_advance g idx ch cur;
            let (g', cur') := r in
            if negb (cur' =? 0) && (ch =? cur') then op_loop f g' (Datatypes.S idx) x1 else LOk (op, retract x1 b)
          else LOk (op, retract x1 b)
      end
  end.

(* core/kos_lexer.c:719-765 collect_operator; start is prefetch_begin *)
Definition collect_operator (fuel : nat) (start : list Z) (x : lex) : lres (Z * lex) :=
  do first <- deref start;
  do r <- op_loop fuel (op_group first) 1 x;
  let (op, x1) := r in
  if (op =? OT_MORE) && (len start - len (l_rest x1) =? 2)
  then LOk (OT_DOT, mklex (tl start) (l_line x1) (l_col x1 - 1) (l_oline x1) (l_ocol x1))
  else LOk (op, x1).

(* core/kos_lexer.c:275-323 keywords; KW_NONE is 0, and the index in this list plus 1 is the KOS_KEYWORD_TYPE *)
Definition keywords : list (list Z) := map zs
  ["_"; "__line__"; "assert"; "async"; "break"; "case"; "catch"; "class"; "const"; "constructor"; "continue"; "default"; "defer";
   "delete"; "do"; "else"; "extends"; "fallthrough"; "false"; "for"; "fun"; "get"; "if"; "import"; "in"; "instanceof"; "loop";
   "match"; "propertyof"; "public"; "repeat"; "return"; "set"; "static"; "super"; "switch"; "this"; "throw"; "true"; "try";
   "typeof"; "var"; "void"; "while"; "with"; "yield"]%string.

(* strncmp(s, k, length of s) for a text s without NUL and a C string k *)
Fixpoint strncmp (s k : list Z) : Z :=
  match s, k with
  | [], _ => 0
  | c :: _, [] => 1
  | c :: s', d :: k' => if c =? d then strncmp s' k' else if c <? d then -1 else 1
  end.

(* core/kos_lexer.c:774-789 the loop of find_keyword *)
Fixpoint keyword_loop (fuel : nat) (s : list Z) (low high : Z) : option Z :=
  match fuel with
  | O => None
  | Datatypes.S f =>
      if low <=? high then
        let mid := (low + high) / 2 in
        let kw := nth (Z.to_nat (mid - 1)) keywords [] in
        let cmp := strncmp s kw in
        if cmp =? 0 then
          if (length s <? length kw)%nat then keyword_loop f s low (uwrap 8 (mid - 1)) else Some mid
        else if cmp <? 0 then keyword_loop f s low (uwrap 8 (mid - 1))
        else keyword_loop f s (uwrap 8 (mid + 1)) high
      else Some 0
  end.
(* core/kos_lexer.c:767-792 find_keyword *)
Definition find_keyword (s : list Z) : option Z := keyword_loop 8 s 1 (len keywords).

(* core/kos_lexer.c:199-249 hex_and_operator_map for separators, core/kos_lexer.h:147-158 *)
Definition separator (c : Z) : Z :=
  if c =? 40 then 1 else if c =? 41 then 2 else if c =? 44 then 3 else if c =? 58 then 4 else if c =? 59 then 5
  else if c =? 91 then 6 else if c =? 93 then 7 else if c =? 123 then 8 else if c =? 125 then 9 else 0.

(* KOS_TOKEN_TYPE_E, core/kos_lexer.h:26-39, with the keyword, operator or separator *)
Inductive tok := TWhite | TEol | TComment | TEof | TIdent | TKeyword (k : Z) | TNum | TStr | TStrOpen | TOper (op : Z) | TSep (s : Z).

(* struct KOS_TOKEN_S, core/kos_lexer.h:160-170: begin, type, length and position *)
Record token := mktok { t_begin : list Z; t_type : tok; t_len : Z; t_line : Z; t_col : Z }.

(* the bytes from b to e *)
Definition span (b e : list Z) : list Z := firstn (length b - length e) b.
(* *(end - 1) for the text from b to e *)
Definition last_char (b e : list Z) : lres Z := match rev (span b e) with [] => LOver | c :: _ => LOk c end.

Definition string_type (b : list Z) (x : lex) : lres (tok * lex) :=
  do c <- last_char b (l_rest x); LOk (if c =? 40 then TStrOpen else TStr, x).

(* core/kos_lexer.c:914-1037 the switch in kos_lexer_next_token for mode NT_ANY; prefetch_begin is also begin *)
Definition any_token (fuel : nat) (x : lex) : lres (tok * lex) :=
  let '(c, b, x1) := prefetch x in
  match c with
  | LWhite => do x2 <- skip_while fuel is_white x1; LOk (TWhite, x2)
  | LEol => LOk (TEol, x1)
  | LLetter | LUnder =>
      let ident (x1 : lex) :=
        do x2 <- skip_while fuel is_alnum x1;
        match find_keyword (span b (l_rest x2)) with
        | None => LFuel
        | Some k => LOk (if k =? 0 then TIdent else TKeyword k, x2)
        end in
      match c with
      | LLetter =>
          do ch <- deref b;
          if (ch =? 114) || (ch =? 82) then
            let '(c2, b2, x2) := prefetch x1 in
            match c2 with
            | LString => do x3 <- collect_raw_string fuel x2; LOk (TStr, x3)
            | _ => ident (retract x2 b2)
            end
          else ident x1
      | _ => ident x1
      end
  | LString => do x2 <- collect_string fuel x1; string_type b x2
  | LDigit =>
      do ch <- deref b;
      do x2 <-
        (if ch =? 48 then
           let '(c2, b2, x2) := prefetch x1 in
           if is_eof c2 then collect_decimal fuel ch (retract x2 b2)
           else
             do d <- deref b2;
             if (d =? 120) || (d =? 88) then collect_radix fuel char_is_hex_or_underscore EEofHex EHex x2
             else if (d =? 98) || (d =? 66) then collect_radix fuel char_is_bin_or_underscore EEofBin EBin x2
             else collect_decimal fuel ch (retract x2 b2)
         else collect_decimal fuel ch x1);
      LOk (TNum, x2)
  | LOp => do r <- collect_operator fuel b x1; let (op, x2) := r in LOk (TOper op, x2)
  | LSep => do ch <- deref b; LOk (TSep (separator ch), x1)
  | LSlash =>
      let '(c2, b2, x2) := prefetch x1 in
      if is_eof c2 then LOk (TOper OT_NONE, x2)
      else if is_slash c2 then do x3 <- skip_while fuel in_line x2; LOk (TComment, x3)
      else
        do d <- deref b2;
        if d =? 42 then do x3 <- collect_block_comment fuel x2; LOk (TComment, x3)
        else do r <- collect_operator fuel b (retract x2 b2); let (op, x3) := r in LOk (TOper op, x3)
  | LComment => do x2 <- skip_while fuel in_line x1; LOk (TComment, x2)
  | LEof => LOk (TEof, x1)
  | LTab => LErr ETab
  | LInvalid => LErr EInvalidChar
  | LBadUtf8 => LErr EInvalidUtf8
  | _ => LErr EChr
  end.

(* core/kos_lexer.c:889-912 mode NT_CONTINUE_STRING; prefetch_begin is prefetch_end *)
Definition continue_token (fuel : nat) (x : lex) : lres (tok * lex) :=
  match l_rest x with
  | [] => LErr EEofCont
  | c :: _ => if negb (c =? 41) then LErr ECont else do x1 <- collect_string fuel x; string_type (l_rest x) x1
  end.

(* core/kos_lexer.c:875-1063 kos_lexer_next_token *)
Definition next_token (continue : bool) (x : lex) : lres (token * lex) :=
  let fuel := Datatypes.S (length (l_rest x)) in
  do r <- (if continue then continue_token fuel x else any_token fuel x);
  let (ty, x1) := r in
  let n := len (l_rest x) - len (l_rest x1) in
  if 0xFFFF <? n then LErr ETokenTooLong else LOk (mktok (l_rest x) ty n (l_line x) (l_col x), x1).

(* core/kos_lexer.c:823-837 skip_bom, 839-858 kos_lexer_init *)
Definition lexer_init (buf : list Z) : lex :=
  mklex (match buf with 0xEF :: 0xBB :: 0xBF :: t => t | _ => buf end) 1 1 0 0.

(* the calls of the parser for a text without interpolated strings: all tokens up to TT_EOF *)
Fixpoint tokens_from (fuel : nat) (x : lex) : lres (list token) :=
  match fuel with
  | O => LFuel
  | Datatypes.S f =>
      do r <- next_token false x;
      let (t, x1) := r in
      match t_type t with
      | TEof => LOk [t]
      | _ => do ts <- tokens_from f x1; LOk (t :: ts)
      end
  end.
Definition tokenize (buf : list Z) : lres (list token) := tokens_from (Datatypes.S (length buf)) (lexer_init buf).
