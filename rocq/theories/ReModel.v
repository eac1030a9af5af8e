(* Regular expressions, modules/kos_mod_re.c: the compiler to bytecode (parse_re and the functions it uses, 237-1215 and 1305-1387)
   and the matcher (1389-1850 match_string, 2032-2080 re_find).
   Simplifications: the text and the searched string are lists of character codes; error messages and positions in them are not
   modelled, all errors are one outcome RThrow; memory allocation does not fail, in particular the possibility stack can grow without
   limit; the bytecode is a list of 16-bit words and its offsets count words (the code keeps bytes, all offsets are even); the ranges of
   a class are a list of their own (ReClassModel); flags and the disassembler are not modelled; the result of a match is the pair of
   its end and the groups instead of an object; indices passed to find() are already checked and normalized by KOS_get_index_arg. *)
From Coq Require Import ZArith List Lia Bool ZifyBool.
Import ListNotations.
From Verif Require Import Base ListZ ReClassModel.
Local Open Scope Z_scope.

Definition u16 := uwrap 16.
Definition s16 := swrap 16.

(* modules/kos_mod_re.c:140-157 enum RE_INSTR *)
Definition I_CHAR := 0.       Definition I_CHAR32 := 1.      Definition I_ANY := 2.         Definition I_CLASS := 3.
Definition I_NOT_CLASS := 4.  Definition I_BOL := 5.         Definition I_EOL := 6.         Definition I_BOUNDARY := 7.
Definition I_BEGIN := 8.      Definition I_END := 9.         Definition I_FORK := 10.       Definition I_JUMP := 11.
Definition I_GCOUNT := 12.    Definition I_LCOUNT := 13.     Definition I_GJUMP := 14.      Definition I_LJUMP := 15.

(* modules/kos_mod_re.c:159-164 enum BOUNDARY_KIND *)
Definition B_NONE := 1.  Definition B_BEGIN := 2.  Definition B_END := 4.  Definition B_WORD := 6.

(* modules/kos_mod_re.c:193-207 struct RE_PARSE_CTX; None is NO_CLASS_ID *)
Record rctx := Rctx {
  rc_text : list Z;                  (* what the iterator has not read yet *)
  rc_mult : bool;                    (* can_be_multiplicity *)
  rc_groups : Z;
  rc_depth : Z;
  rc_counts : Z;
  rc_buf : list Z;
  rc_classes : list (list range);
  rc_digit : option Z;
  rc_word : option Z
}.
Definition set_text t c := Rctx t (rc_mult c) (rc_groups c) (rc_depth c) (rc_counts c) (rc_buf c) (rc_classes c) (rc_digit c) (rc_word c).
Definition set_mult b c := Rctx (rc_text c) b (rc_groups c) (rc_depth c) (rc_counts c) (rc_buf c) (rc_classes c) (rc_digit c) (rc_word c).
Definition set_groups g c := Rctx (rc_text c) (rc_mult c) g (rc_depth c) (rc_counts c) (rc_buf c) (rc_classes c) (rc_digit c) (rc_word c).
Definition set_depth d c := Rctx (rc_text c) (rc_mult c) (rc_groups c) d (rc_counts c) (rc_buf c) (rc_classes c) (rc_digit c) (rc_word c).
Definition set_counts n c := Rctx (rc_text c) (rc_mult c) (rc_groups c) (rc_depth c) n (rc_buf c) (rc_classes c) (rc_digit c) (rc_word c).
Definition set_buf b c := Rctx (rc_text c) (rc_mult c) (rc_groups c) (rc_depth c) (rc_counts c) b (rc_classes c) (rc_digit c) (rc_word c).
Definition set_classes k c := Rctx (rc_text c) (rc_mult c) (rc_groups c) (rc_depth c) (rc_counts c) (rc_buf c) k (rc_digit c) (rc_word c).
Definition set_digit d c := Rctx (rc_text c) (rc_mult c) (rc_groups c) (rc_depth c) (rc_counts c) (rc_buf c) (rc_classes c) d (rc_word c).
Definition set_word w c := Rctx (rc_text c) (rc_mult c) (rc_groups c) (rc_depth c) (rc_counts c) (rc_buf c) (rc_classes c) (rc_digit c) w.

Inductive rres (A : Type) := ROk (a : A) | RThrow | RFuel.
Arguments ROk {A} a. Arguments RThrow {A}. Arguments RFuel {A}.
Definition rbind {A B} (x : rres A) (f : A -> rres B) : rres B :=
  match x with ROk a => f a | RThrow => RThrow | RFuel => RFuel end.
Notation "'rdo' x <- m ; f" := (rbind m (fun x => f)) (at level 200, x pattern, m at level 100, f at level 200).

(* modules/kos_mod_re.c:237 END_OF_STR, 241-247 peek_next_char, 256-261 consume_next_char *)
Definition END_OF_STR := 4294967295.
Definition peek (c : rctx) : Z := match rc_text c with [] => END_OF_STR | x :: _ => x end.
Definition consume (c : rctx) : rctx := set_text (tl (rc_text c)) c.

(* modules/kos_mod_re.c:263-299 emit_instr *)
Definition emit (code : Z) (args : list Z) (c : rctx) : rres rctx :=
  let b := rc_buf c ++ code :: map u16 args in
  if len b * 2 >? 65535 then RThrow else ROk (set_mult true (set_buf b c)).

(* modules/kos_mod_re.c:341-370 expect_char *)
Definition expect_char (x : Z) (c : rctx) : rres rctx := if peek c =? x then ROk (consume c) else RThrow.

(* modules/kos_mod_re.c:372-386 rotate_instr *)
Definition rotate_instr (bg mid : Z) (c : rctx) : rctx :=
  let b := rc_buf c in
  set_buf (firstn (Z.to_nat bg) b ++ skipn (Z.to_nat mid) b ++ firstn (Z.to_nat (mid - bg)) (skipn (Z.to_nat bg) b)) c.

Definition setz {A} (l : list A) (i : Z) (v : A) : list A := firstn (Z.to_nat i) l ++ v :: skipn (Z.to_nat i + 1) l.

(* modules/kos_mod_re.c:388-397 patch_jump_offs *)
Definition patch_jump_offs (instr target : Z) (c : rctx) : rctx :=
  set_buf (setz (rc_buf c) (instr + 1) (u16 (target - instr))) c.

(* modules/kos_mod_re.c:401-442 parse_number; number_loop is its for loop *)
Fixpoint number_loop (t : list Z) (value : Z) : rres (Z * list Z) :=
  match t with
  | [] => ROk (value, [])
  | x :: t' =>
      if (x <? 48) || (x >? 57) then ROk (value, t)
      else let v := u32 (value * 10 + (x - 48)) in if v >? 65535 then RThrow else number_loop t' v
  end.
Definition parse_number (c : rctx) : rres (Z * rctx) :=
  let code := peek c in
  if code =? END_OF_STR then RThrow
  else if (code <? 48) || (code >? 57) then RThrow
  else rdo r <- number_loop (tl (rc_text c)) (code - 48); ROk (fst r, set_text (snd r) c).

(* modules/kos_mod_re.c:453 esc_whitespace and strchr() in it: the terminating 0 is found as well *)
Definition esc_whitespace (code : Z) : option Z :=
  if code <? 127 then
    if code =? 116 then Some 9 else if code =? 110 then Some 10 else if code =? 118 then Some 11
    else if code =? 102 then Some 12 else if code =? 114 then Some 13 else if code =? 0 then Some 14 else None
  else None.

(* modules/kos_mod_re.c:455-510 parse_class_char_escape_seq *)
Definition parse_class_char_escape_seq (c : rctx) : rres (Z * rctx) :=
  let code := peek c in
  if code =? END_OF_STR then RThrow
  else
    let c1 := consume c in
    if existsb (Z.eqb code) [91; 93; 40; 41; 94; 34; 92; 45] then ROk (code, c1)
    else match esc_whitespace code with Some x => ROk (x, c1) | None => RThrow end.

(* modules/kos_mod_re.c:512-530 parse_class_char *)
Definition parse_class_char (c : rctx) : rres (Z * rctx) :=
  let code := peek c in
  if code =? END_OF_STR then RThrow
  else
    let c1 := consume c in
    if code =? 92 then parse_class_char_escape_seq c1 else ROk (code, c1).

(* modules/kos_mod_re.c:532-555 generate_class: the new class is the last one *)
Definition generate_class (c : rctx) : Z * rctx := (len (rc_classes c), set_classes (rc_classes c ++ [[]]) c).
(* modules/kos_mod_re.c:557-679 add_class_range to a class *)
Definition add_range (id b e : Z) (c : rctx) : rres rctx :=
  match gz (rc_classes c) id with
  | None => RFuel
  | Some rs =>
      match add_class_range rs b e with
      | None => RFuel
      | Some rs' => ROk (set_classes (setz (rc_classes c) id rs') c)
      end
  end.

(* modules/kos_mod_re.c:699-741 the do loop of parse_class *)
Fixpoint class_loop (fuel : nat) (id : Z) (c : rctx) : rres rctx :=
  match fuel with
  | O => RFuel
  | S f =>
      rdo (code, c1) <- parse_class_char c;
      rdo (en, c2) <- (if peek c1 =? 45 then parse_class_char (consume c1) else ROk (code, c1));
      if code >? en then RThrow
      else
        rdo c3 <- add_range id code en c2;
        if peek c3 =? 93 then ROk c3 else class_loop f id c3
  end.
(* modules/kos_mod_re.c:682-745 parse_class *)
Definition parse_class (c : rctx) : rres rctx :=
  let (id, c1) := generate_class c in
  let neg := peek c =? 94 in
  let c2 := if neg then consume c1 else c1 in
  rdo c3 <- class_loop (S (length (rc_text c2))) id c2;
  emit (if neg then I_NOT_CLASS else I_CLASS) [id] (consume c3).

Fixpoint add_ranges (id : Z) (l : list (Z * Z)) (c : rctx) : rres rctx :=
  match l with
  | [] => ROk c
  | (b, e) :: l' => rdo c1 <- add_range id b e c; add_ranges id l' c1
  end.
(* modules/kos_mod_re.c:747-757 get_digit_class_id *)
Definition get_digit_class_id (c : rctx) : rres (Z * rctx) :=
  match rc_digit c with
  | Some id => ROk (id, c)
  | None => let (id, c1) := generate_class c in rdo c2 <- add_ranges id [(48, 57)] c1; ROk (id, set_digit (Some id) c2)
  end.
(* modules/kos_mod_re.c:759-772 get_word_class_id *)
Definition get_word_class_id (c : rctx) : rres (Z * rctx) :=
  match rc_word c with
  | Some id => ROk (id, c)
  | None => let (id, c1) := generate_class c in
            rdo c2 <- add_ranges id [(97, 122); (95, 95); (65, 90); (48, 57)] c1; ROk (id, set_word (Some id) c2)
  end.

(* modules/kos_mod_re.c:774-892 parse_escape_seq *)
Definition parse_escape_seq (c0 : rctx) : rres rctx :=
  let code := peek c0 in
  if code =? END_OF_STR then RThrow
  else
    let c := consume c0 in
    if existsb (Z.eqb code) [46; 42; 43; 63; 123; 94; 36; 92; 91; 93; 124; 40; 41; 34] then emit I_CHAR [code] c
    else if code =? 60 then emit I_BOUNDARY [B_BEGIN] c
    else if code =? 62 then emit I_BOUNDARY [B_END] c
    else if code =? 98 then emit I_BOUNDARY [B_WORD] c
    else if code =? 66 then emit I_BOUNDARY [B_NONE] c
    else if code =? 100 then rdo (id, c1) <- get_digit_class_id c; emit I_CLASS [id] c1
    else if code =? 68 then rdo (id, c1) <- get_digit_class_id c; emit I_NOT_CLASS [id] c1
    else if code =? 119 then rdo (id, c1) <- get_word_class_id c; emit I_CLASS [id] c1
    else if code =? 87 then rdo (id, c1) <- get_word_class_id c; emit I_NOT_CLASS [id] c1
    else match esc_whitespace code with Some x => emit I_CHAR [x] c | None => RThrow end.

(* modules/kos_mod_re.c:1017-1052 emit_multiplicity *)
Definition emit_multiplicity (bg mn mx : Z) (c : rctx) : rres rctx :=
  let pivot := len (rc_buf c) in
  let lazy := peek c =? 63 in
  let id := rc_counts c in
  let c1 := set_counts (id + 1) c in
  let c2 := if lazy then consume c1 else c1 in
  rdo c3 <- emit (if lazy then I_LCOUNT else I_GCOUNT) [0; id; mn] c2;
  let count_size := len (rc_buf c3) - pivot in
  let c4 := rotate_instr bg pivot c3 in
  let jump_offs := len (rc_buf c4) in
  rdo c5 <- emit (if lazy then I_LJUMP else I_GJUMP) [0; id; mn; mx] c4;
  let c6 := patch_jump_offs bg (len (rc_buf c5)) c5 in
  ROk (patch_jump_offs jump_offs (bg + count_size) c6).

(* modules/kos_mod_re.c:1088-1124 the case of a count in braces *)
Definition parse_count (c : rctx) : rres (Z * Z * rctx) :=
  rdo (mn, c1) <- parse_number c;
  rdo (mx, c2) <- (if peek c1 =? 44 then
                     let c2 := consume c1 in
                     rdo (mx, c3) <- (if peek c2 =? 125 then ROk (65535, c2) else parse_number c2);
                     if mx <? mn then RThrow else ROk (mx, c3)
                   else ROk (mn, c1));
  if mx =? 0 then RThrow
  else rdo c3 <- expect_char 125 c2; ROk (mn, mx, c3).

(* modules/kos_mod_re.c:1054-1136 parse_optional_multiplicity *)
Definition parse_optional_multiplicity (bg : Z) (c : rctx) : rres rctx :=
  let code := peek c in
  if (code =? 42) || (code =? 43) || (code =? 63) || (code =? 123) then
    if rc_mult c then
      let c1 := consume c in
      rdo (mn, mx, c2) <- (if code =? 42 then ROk (0, 65535, c1)
                           else if code =? 43 then ROk (1, 65535, c1)
                           else if code =? 63 then ROk (0, 1, c1)
                           else parse_count c1);
      rdo c3 <- emit_multiplicity bg mn mx c2;
      ROk (set_mult false c3)
    else RThrow
  else ROk c.

(* modules/kos_mod_re.c:1160-1215 parse_alternative_match_seq (alt_loop is its while loop and what follows it), 1138-1158 parse_match_seq,
   953-1015 parse_single_match, 899-951 parse_group *)
Fixpoint parse_alternative_match_seq (fuel : nat) (c : rctx) {struct fuel} : rres rctx :=
  match fuel with
  | O => RFuel
  | S f =>
      let fork_offs := len (rc_buf c) in
      rdo c1 <- parse_match_seq f (set_mult false c);
      alt_loop f fork_offs None c1
  end
with alt_loop (fuel : nat) (fork_offs : Z) (jump_offs : option Z) (c : rctx) {struct fuel} : rres rctx :=
  match fuel with
  | O => RFuel
  | S f =>
      let code := peek c in
      let patched c := match jump_offs with Some j => patch_jump_offs j (len (rc_buf c)) c | None => c end in
      if code =? 124 then
        let pivot := len (rc_buf c) in
        rdo c1 <- emit I_FORK [0] (consume c);
        let c2 := patched (rotate_instr fork_offs pivot c1) in
        let jump := len (rc_buf c2) in
        rdo c3 <- emit I_JUMP [0] c2;
        let c4 := patch_jump_offs fork_offs (len (rc_buf c3)) c3 in
        let fork := len (rc_buf c4) in
        rdo c5 <- parse_match_seq f (set_mult false c4);
        alt_loop f fork (Some jump) c5
      else
        let c1 := patched c in
        if negb (code =? 41) || (rc_depth c =? 0) then
          if code =? END_OF_STR then ROk c1 else RThrow
        else ROk c1
  end
with parse_match_seq (fuel : nat) (c : rctx) {struct fuel} : rres rctx :=
  match fuel with
  | O => RFuel
  | S f =>
      let bg := len (rc_buf c) in
      let code := peek c in
      if (code =? END_OF_STR) || (code =? 124) || (code =? 41) then ROk c
      else
        rdo c1 <- parse_single_match f c;
        rdo c2 <- parse_optional_multiplicity bg c1;
        parse_match_seq f c2
  end
with parse_single_match (fuel : nat) (c : rctx) {struct fuel} : rres rctx :=
  match fuel with
  | O => RFuel
  | S f =>
      let code := peek c in
      let dflt := let c1 := consume c in
                  if code <? 65536 then emit I_CHAR [code] c1 else emit I_CHAR32 [Z.shiftr code 16; code] c1 in
      if code =? 46 then emit I_ANY [] (consume c)
      else if code =? 94 then emit I_BOL [] (consume c)
      else if code =? 36 then emit I_EOL [] (consume c)
      else if code =? 92 then parse_escape_seq (consume c)
      else if code =? 91 then parse_class (consume c)
      else if code =? 40 then parse_group f (consume c)
      else if (code =? 124) || (code =? 42) || (code =? 43) || (code =? 63) || (code =? 123) then ROk c
      else if code =? 41 then if rc_depth c =? 0 then dflt else ROk c
      else dflt
  end
with parse_group (fuel : nat) (c : rctx) {struct fuel} : rres rctx :=
  match fuel with
  | O => RFuel
  | S f =>
      rdo (id, c1) <- (if peek c =? 63 then
                         let c1 := consume c in
                         let ty := peek c1 in
                         if ty =? END_OF_STR then RThrow
                         else if ty =? 58 then ROk (65535, consume c1) else RThrow
                       else ROk (rc_groups c, set_groups (rc_groups c + 1) c));
      rdo c2 <- emit I_BEGIN [id] c1;
      rdo c3 <- parse_alternative_match_seq f (set_depth (rc_depth c2 + 1) c2);
      rdo c4 <- expect_char 41 (set_depth (rc_depth c3 - 1) c3);
      emit I_END [id] c4
  end.

(* modules/kos_mod_re.c:223-232 struct RE_OBJ *)
Record robj := Robj { o_groups : Z; o_counts : Z; o_classes : list (list range); o_code : list Z }.

(* modules/kos_mod_re.c:1305-1387 parse_re *)
Definition parse_re (text : list Z) : rres robj :=
  rdo c <- parse_alternative_match_seq (4 * length text + 4)
             (Rctx text false 0 0 0 [] [] None None);
  ROk (Robj (u16 (rc_groups c)) (u16 (rc_counts c)) (rc_classes c) (rc_buf c)).

(* ---- the matcher ---- *)

(* modules/kos_mod_re.c:894-897 is_capturing_group *)
Definition is_capturing_group (id : Z) : bool := id <? 32767.

(* modules/kos_mod_re.c:1608-1614 is_word_char *)
Definition is_word_char (code : Z) : bool :=
  ((code >=? 65) && (code <=? 90)) || ((code >=? 97) && (code <=? 122)) || ((code >=? 48) && (code <=? 57)) || (code =? 95).

(* What one instruction does.  A fork pushes the second address to the possibility stack; both branches have the same position and the
   same counts and groups.  SUb: an access outside of the bytecode, the string, the slots or the classes, or an unknown instruction. *)
Inductive sres :=
| SNext (pc pos : Z) (slots : list Z)
| SFork (pc pc2 pos : Z) (slots : list Z)
| SFail
| SUb.

Section Matcher.
Variable re : robj.
Variable str : list Z.
Variables begin_pos end_pos : Z.

(* modules/kos_mod_re.c:241-247 peek_next_char and 247-254 peek_prev_char on the string *)
Definition peek_at (pos : Z) : option Z := if pos >=? end_pos then Some END_OF_STR else gz str pos.
Definition peek_prev (pos : Z) : option Z := gz str (pos - 1).

Notation code := (o_code re).
Definition with_arg (pc : Z) (f : Z -> sres) : sres := match gz code pc with Some x => f x | None => SUb end.
Definition with_slot (slots : list Z) (i : Z) (f : Z -> sres) : sres := match gz slots i with Some x => f x | None => SUb end.
Definition with_char (c : option Z) (f : Z -> sres) : sres := match c with Some x => f x | None => SUb end.
Definition with_class (id : Z) (ch : Z) (f : bool -> sres) : sres :=
  match gz (o_classes re) id with
  | Some rs => match match_class rs ch with Some b => f b | None => SUb end
  | None => SUb
  end.

(* modules/kos_mod_re.c:1649-1846 the switch of match_string; the groups are the slots after the counts, 1603-1606 get_group *)
Definition step (pc pos : Z) (slots : list Z) : sres :=
  with_arg pc (fun instr =>
  if instr =? I_CHAR then
    with_arg (pc + 1) (fun expected => with_char (peek_at pos) (fun actual =>
      if expected =? actual then SNext (pc + 2) (pos + 1) slots else SFail))
  else if instr =? I_CHAR32 then
    with_arg (pc + 1) (fun h => with_arg (pc + 2) (fun l => with_char (peek_at pos) (fun actual =>
      if Z.lor (Z.shiftl h 16) l =? actual then SNext (pc + 3) (pos + 1) slots else SFail)))
  else if instr =? I_ANY then
    with_char (peek_at pos) (fun actual => if actual =? END_OF_STR then SFail else SNext (pc + 1) (pos + 1) slots)
  else if instr =? I_CLASS then
    with_arg (pc + 1) (fun id => with_char (peek_at pos) (fun ch =>
      if ch =? END_OF_STR then SFail else with_class id ch (fun b => if b then SNext (pc + 2) (pos + 1) slots else SFail)))
  else if instr =? I_NOT_CLASS then
    with_arg (pc + 1) (fun id => with_char (peek_at pos) (fun ch =>
      if ch =? END_OF_STR then SFail else with_class id ch (fun b => if b then SFail else SNext (pc + 2) (pos + 1) slots)))
  else if instr =? I_BOL then
    if pos >? begin_pos then
      with_char (peek_prev pos) (fun prev => if (prev =? 13) || (prev =? 10) then SNext (pc + 1) pos slots else SFail)
    else SNext (pc + 1) pos slots
  else if instr =? I_EOL then
    with_char (peek_at pos) (fun cur =>
      if (cur =? END_OF_STR) || (cur =? 13) || (cur =? 10) then SNext (pc + 1) pos slots else SFail)
  else if instr =? I_BOUNDARY then
    with_arg (pc + 1) (fun boundary =>
    with_char (if pos >? 0 then peek_prev pos else Some 32) (fun prev =>
    with_char (peek_at pos) (fun cur =>
      let state := if is_word_char prev then if is_word_char cur then B_NONE else B_END
                   else if is_word_char cur then B_BEGIN else B_NONE in
      if Z.land boundary state =? 0 then SFail else SNext (pc + 2) pos slots)))
  else if instr =? I_BEGIN then
    with_arg (pc + 1) (fun id =>
      if is_capturing_group id then
        with_slot slots (o_counts re + id * 2) (fun _ => SNext (pc + 2) pos (setz slots (o_counts re + id * 2) (u16 pos)))
      else SNext (pc + 2) pos slots)
  else if instr =? I_END then
    with_arg (pc + 1) (fun id =>
      if is_capturing_group id then
        with_slot slots (o_counts re + id * 2 + 1) (fun _ => SNext (pc + 2) pos (setz slots (o_counts re + id * 2 + 1) (u16 pos)))
      else SNext (pc + 2) pos slots)
  else if instr =? I_FORK then
    with_arg (pc + 1) (fun d => SFork (pc + 2) (pc + s16 d) pos slots)
  else if instr =? I_JUMP then
    with_arg (pc + 1) (fun d => SNext (pc + s16 d) pos slots)
  else if instr =? I_GCOUNT then
    with_arg (pc + 1) (fun d => with_arg (pc + 2) (fun id => with_arg (pc + 3) (fun mn => with_slot slots id (fun _ =>
      let slots' := setz slots id 0 in
      if mn =? 0 then SFork (pc + 4) (pc + s16 d) pos slots' else SNext (pc + 4) pos slots'))))
  else if instr =? I_LCOUNT then
    with_arg (pc + 1) (fun d => with_arg (pc + 2) (fun id => with_arg (pc + 3) (fun mn => with_slot slots id (fun _ =>
      let slots' := setz slots id 0 in
      if mn =? 0 then SFork (pc + s16 d) (pc + 4) pos slots' else SNext (pc + 4) pos slots'))))
  else if instr =? I_GJUMP then
    with_arg (pc + 1) (fun d => with_arg (pc + 2) (fun id => with_arg (pc + 3) (fun mn => with_arg (pc + 4) (fun mx =>
    with_slot slots id (fun n =>
      let count := u16 (n + 1) in
      let slots' := setz slots id count in
      if count <? mn then SNext (pc + s16 d) pos slots'
      else if count <? mx then SFork (pc + s16 d) (pc + 5) pos slots'
      else SNext (pc + 5) pos slots')))))
  else if instr =? I_LJUMP then
    with_arg (pc + 1) (fun d => with_arg (pc + 2) (fun id => with_arg (pc + 3) (fun mn => with_arg (pc + 4) (fun mx =>
    with_slot slots id (fun n =>
      let count := u16 (n + 1) in
      let slots' := setz slots id count in
      if count <? mn then SNext (pc + s16 d) pos slots'
      else if count <? mx then SFork (pc + 5) (pc + s16 d) pos slots'
      else SNext (pc + 5) pos slots')))))
  else SUb).

Inductive vres := VMatch (end_ : Z) (slots : list Z) | VNone | VUb | VFuel.

(* modules/kos_mod_re.c:1389-1393 struct RE_POSS_STACK_ITEM: instr_idx, str_end_offs, counts_and_groups *)
Notation item := (Z * Z * list Z)%type.

(* modules/kos_mod_re.c:1644-1860 the loop of match_string, 1455-1477 push_possibility, 1479-1499 pop_possibility; the first item of the
   stack (current) is the argument slots *)
Fixpoint run (fuel : nat) (pc pos : Z) (slots : list Z) (stack : list item) : vres :=
  match fuel with
  | O => VFuel
  | S f =>
      if pc <? len code then
        match step pc pos slots with
        | SNext pc' pos' slots' => run f pc' pos' slots' stack
        | SFork pc' pc2 pos' slots' => run f pc' pos' slots' ((u16 pc2, u16 (end_pos - pos'), slots') :: stack)
        | SFail =>
            match stack with
            | [] => VNone
            | (idx, offs, sl) :: st => run f idx (end_pos - offs) sl st
            end
        | SUb => VUb
        end
      else VMatch pos slots
  end.

(* modules/kos_mod_re.c:1421-1448 reset_possibility_stack *)
Definition init_slots : list Z := repeat 0 (Z.to_nat (o_counts re)) ++ repeat 65535 (Z.to_nat (o_groups re * 2)).

(* modules/kos_mod_re.c:1535-1589 create_found_groups: None is void *)
Fixpoint group_pairs (n : nat) (l : list Z) : list (option (Z * Z)) :=
  match n, l with
  | S n', b :: e :: l' => (if negb (b =? 65535) && negb (e =? 65535) then Some (b, e) else None) :: group_pairs n' l'
  | _, _ => []
  end.
Definition found_groups (slots : list Z) : list (option (Z * Z)) :=
  group_pairs (Z.to_nat (o_groups re)) (skipn (Z.to_nat (o_counts re)) slots).

Inductive fres := FMatch (begin_ end_ : Z) (groups : list (option (Z * Z))) | FVoid | FUb | FFuel.

(* modules/kos_mod_re.c:2067-2072 the loop of re_find *)
Fixpoint find_loop (fuel : nat) (n : nat) (pos : Z) : fres :=
  match n with
  | O => FVoid
  | S n' =>
      match run fuel 0 pos init_slots [] with
      | VMatch e slots => FMatch pos e (found_groups slots)
      | VNone => find_loop fuel n' (pos + 1)
      | VUb => FUb
      | VFuel => FFuel
      end
  end.
Definition re_find (fuel : nat) : fres := find_loop fuel (Z.to_nat (end_pos - begin_pos + 1)) begin_pos.
End Matcher.

(* whether the class made of the given ranges matches a character, modules/kos_mod_re.c:557-679 and 1501-1532 *)
Definition class_has (l : list range) (c : Z) : bool :=
  match build_class [] l with
  | Some rs => match match_class rs c with Some b => b | None => false end
  | None => false
  end.
