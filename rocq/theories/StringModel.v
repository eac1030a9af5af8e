(* Model of core/kos_string.c and of the string methods of modules/kos_mod_base.c. *)
From Coq Require Import ZArith List Lia Bool ZifyBool.
Import ListNotations.
From Verif Require Import Base IndexModel.
Local Open Scope Z_scope.

(* SExn: exception; SBad: access outside of the string data, or a loop which does not end. *)
Inductive sres (A : Type) : Type := SOk (a : A) | SExn | SBad.
Arguments SOk {A} a.
Arguments SExn {A}.
Arguments SBad {A}.

Notation "'sdo' x <- m ; f" :=
  (match m with SOk x => f | SExn => SExn | SBad => SBad end)
  (at level 200, x pattern, m at level 100, f at level 200, right associativity).

Definition slen {A} (l : list A) : Z := Z.of_nat (length l).

(* inc/kos_entity.h:200-247 KOS_STRING.  k_w: KOS_STRING_ELEM_8/16/32 = 0/1/2, an element has
   8 << k_w bits; k_ascii: flag KOS_STRING_ASCII; k_addr: address of the character data as
   returned by kos_get_string_buffer; k_hash: cached hash, 0 if not computed yet; k_codes: the
   elements.  The storage kinds LOCAL, PTR and REF differ only in the address of the data, the
   lifetime of the data is not modelled.  The fields size_and_type and ref.obj_id are omitted. *)
Record kstr := KStr { k_w : Z; k_ascii : bool; k_addr : Z; k_hash : Z; k_codes : list Z }.

Definition klen (s : kstr) : Z := slen (k_codes s).

(* KOS_STR_EMPTY, core/kos_constants.c; a constant ASCII string without characters *)
Definition str_empty : kstr := KStr 0 true 0 0 [].

(* core/kos_string.c:44-62 string_size_from_max_code, without CONFIG_STRING16 and
   CONFIG_STRING32.  Returns element size and ASCII flag. *)
Definition string_size_from_max_code (max_code : Z) : Z * bool :=
  if max_code <? 0x80 then (0, true)
  else if max_code <? 0x100 then (0, false)
  else if max_code <? 0x10000 then (1, false)
  else (2, false).

(* number of values of an element *)
Definition emax (w : Z) : Z := 2 ^ (8 * 2 ^ w).

(* core/kos_string.c:64-86 new_empty_string.  The storage is sized exactly length elements here;
   the C code allocates 16 times more than needed for ASCII strings (length << 4). *)
Definition new_elems (length : Z) : list Z := repeat 0 (Z.to_nat length).

(* store consecutive elements; outside of the storage is SBad *)
Definition wr_elems (d : list Z) (off : Z) (src : list Z) : sres (list Z) :=
  if (0 <=? off) && (off + slen src <=? slen d)
  then SOk (firstn (Z.to_nat off) d ++ src ++ skipn (Z.to_nat (off + slen src)) d)
  else SBad.

(* core/kos_string.c:204-311 KOS_new_string_from_codes.  The array holds integers; elements which
   are not numbers and the conversion of floats are not modelled. *)
Fixpoint check_codes (codes : list Z) (mash_code : Z) : sres Z :=
  match codes with
  | [] => SOk mash_code
  | code :: t =>
      if (code <? 0) || (0x1FFFFF <? code) then SExn
      else check_codes t (Z.lor mash_code (u32 code))
  end.

Definition new_string_from_codes (addr : Z) (codes : list Z) : sres kstr :=
  if 0xFFFF <? slen codes then SExn
  else match codes with
       | [] => SOk str_empty
       | _ =>
         sdo mash <- check_codes codes 0 ;
         let '(w, a) := string_size_from_max_code mash in
         SOk (KStr w a addr 0 (map (uwrap (8 * 2 ^ w)) codes))
       end.

(* core/kos_string.c:504-561 KOS_string_get_hash; returns the hash and the string with its cache
   updated.  [assert(hash)] is not checked here, see string_hash_asserted. *)
Fixpoint djb2a (l : list Z) (hash : Z) : Z :=
  match l with [] => hash | c :: t => djb2a t (Z.lxor (u32 (hash * 33)) c) end.

Definition string_get_hash (s : kstr) : Z * kstr :=
  if k_hash s =? 0
  then let h := djb2a (k_codes s) 5381 in
       (h, KStr (k_w s) (k_ascii s) (k_addr s) h (k_codes s))
  else (k_hash s, s).

(* the condition asserted at core/kos_string.c:555 *)
Definition string_hash_asserted (s : kstr) : bool :=
  if k_hash s =? 0 then negb (djb2a (k_codes s) 5381 =? 0) else true.

(* core/kos_string.c:563-615 init_empty_string: copies all elements of src to position offs of a
   new string of element size dw.  A destination narrower than the source is excluded by asserts
   in the C code and is SBad here. *)
Definition init_empty_string (dw : Z) (dest : list Z) (offs : Z) (src : kstr) : sres (list Z) :=
  if slen (k_codes src) =? 0 then SOk dest
  else if dw <? k_w src then SBad
  else wr_elems dest offs (k_codes src).

(* core/kos_string.c:617-703 KOS_string_add_n and 705-813 KOS_string_add, first loop; an element
   is None if it is not a string.  [non0] is non_0_str. *)
Record add_acc := Acc { c_mash : Z; c_ascii : bool; c_len : Z; c_num : Z; c_non0 : option kstr }.

Fixpoint add_scan (l : list (option kstr)) (a : add_acc) : option add_acc :=
  match l with
  | [] => Some a
  | None :: _ => None
  | Some s :: t =>
      add_scan t (Acc (Z.lor (c_mash a) (k_w s)) (c_ascii a && k_ascii s) (u32 (c_len a + klen s))
                      (if klen s =? 0 then c_num a else u32 (c_num a + 1))
                      (if klen s =? 0 then c_non0 a else Some s))
  end.

(* core/kos_string.c:690-695 and 791-805, second loop *)
Fixpoint add_copy (dw : Z) (l : list (option kstr)) (pos : Z) (dest : list Z) : sres (list Z) :=
  match l with
  | [] => SOk dest
  | None :: _ => SExn
  | Some s :: t =>
      sdo dest' <- init_empty_string dw dest pos s ;
      add_copy dw t (u32 (pos + klen s)) dest'
  end.

(* core/kos_string.c:705-813 KOS_string_add; 617-703 KOS_string_add_n is the same for C arrays of
   strings.  [addr] is the address of a newly allocated string.  The array is not modified by
   another thread between the two loops. *)
Definition string_add (addr : Z) (strs : list (option kstr)) : sres kstr :=
  match strs with
  | [Some s] => SOk s
  | [None] => SExn
  | _ =>
    match add_scan strs (Acc 0 true 0 0 None) with
    | None => SExn
    | Some a =>
      let '(w, asc) := if Z.land (c_mash a) 2 =? 2 then (2, false)
                       else if Z.land (c_mash a) 1 =? 1 then (1, false)
                       else (0, c_ascii a) in
      if (c_num a =? 1) && negb (c_len a =? 0)
      then match c_non0 a with Some s => SOk s | None => SBad end
      else if c_len a =? 0 then SOk str_empty
      else if c_len a <=? 0xFFFF
      then sdo codes <- add_copy w strs 0 (new_elems (c_len a)) ;
           SOk (KStr w asc addr 0 codes)
      else SExn
    end
  end.

(* core/kos_string.c:815-917 KOS_string_slice.  A short result is copied to a new string at
   address addr, otherwise the new string refers to the data of the source. *)
Definition string_slice (addr : Z) (s : kstr) (begin end_ : Z) : sres kstr :=
  let len := klen s in
  if len =? 0 then SOk str_empty
  else
    let begin := if begin <? 0 then begin + len else begin in
    let end_ := if end_ <? 0 then end_ + len else end_ in
    let begin := if begin <? 0 then 0 else begin in
    let end_ := if len <? end_ then len else end_ in
    let end_ := if end_ <? begin then begin else end_ in
    let new_len := end_ - begin in
    if new_len =? len then SOk s
    else if new_len =? 0 then SOk str_empty
    else if len <? begin + new_len then SBad
    else
      let codes := firstn (Z.to_nat new_len) (skipn (Z.to_nat begin) (k_codes s)) in
      let a := if Z.shiftl new_len (k_w s) <=? 16 then addr else k_addr s + Z.shiftl begin (k_w s) in
      SOk (KStr (k_w s) (k_ascii s) a 0 codes).

(* core/kos_string.c:959-1001 KOS_string_get_char_code *)
Definition string_get_char_code (s : kstr) (idx : Z) : sres Z :=
  let len := klen s in
  let idx := if idx <? 0 then idx + len else idx in
  if (0 <=? idx) && (idx <? len)
  then match nth_error (k_codes s) (Z.to_nat idx) with Some c => SOk c | None => SBad end
  else SExn.

(* core/kos_string.c:919-957 KOS_string_get_char *)
Definition string_get_char (addr : Z) (s : kstr) (idx : Z) : sres kstr :=
  sdo code <- string_get_char_code s idx ;
  let '(w, a) := string_size_from_max_code code in
  SOk (KStr w a addr 0 [uwrap (8 * 2 ^ w) code]).

(* little endian bytes of an element of n bytes *)
Fixpoint le_bytes (n : nat) (c : Z) : list Z :=
  match n with O => [] | S k => c mod 256 :: le_bytes k (c / 256) end.

Definition elem_bytes (w : Z) : nat := Z.to_nat (2 ^ w).

(* memory contents of the string data *)
Definition str_bytes (s : kstr) : list Z := flat_map (le_bytes (elem_bytes (k_w s))) (k_codes s).

(* little endian value of n bytes at offset i; None outside of the data.  Unaligned reads are
   allowed, as on the supported processors. *)
Fixpoint le_value (l : list Z) : Z :=
  match l with [] => 0 | b :: t => b + 256 * le_value t end.
Definition rd (m : list Z) (i n : Z) : option Z :=
  if (0 <=? i) && (i + n <=? slen m)
  then Some (le_value (firstn (Z.to_nat n) (skipn (Z.to_nat i) m)))
  else None.

Section Compare.
(* kos_unicode_compare, core/kos_unicode.h:28-35: wcscoll on two characters, depends on the
   locale; left as a parameter. *)
Variable coll : Z -> Z -> Z.

(* core/kos_string.c:1003-1034 strcmp_8_16, 1036-1067 strcmp_8_32, 1069-1100 strcmp_16_32; the
   lists are the elements from the two begin positions on, n is the remaining cmp_len *)
Fixpoint strcmp_mixed (n : nat) (a b : list Z) (a_len b_len : Z) : sres Z :=
  match n with
  | O => SOk (a_len - b_len)
  | S k =>
    match a, b with
    | ca :: ta, cb :: tb => if ca =? cb then strcmp_mixed k ta tb a_len b_len else SOk (coll ca cb)
    | _, _ => SBad
    end
  end.

(* the loops of compare_slice over n-byte units: while (pa < limit && equal) advance;
   returns the offsets of pa and pb *)
Fixpoint skip_equal (fuel : nat) (ma mb : list Z) (n pa pb limit : Z) : sres (Z * Z) :=
  match fuel with
  | O => SBad
  | S k =>
    if pa <? limit then
      match rd ma pa n, rd mb pb n with
      | Some x, Some y => if x =? y then skip_equal k ma mb n (pa + n) (pb + n) limit else SOk (pa, pb)
      | _, _ => SBad
      end
    else SOk (pa, pb)
  end.

(* core/kos_string.c:1135-1138: byte steps until the address of pa is a multiple of 8 *)
Fixpoint skip_to_aligned (fuel : nat) (addr : Z) (ma mb : list Z) (pa pb : Z) : sres (Z * Z) :=
  match fuel with
  | O => SBad
  | S k =>
    if (addr + pa) mod 8 =? 0 then SOk (pa, pb)
    else match rd ma pa 1, rd mb pb 1 with
         | Some x, Some y => if x =? y then skip_to_aligned k addr ma mb (pa + 1) (pb + 1) else SOk (pa, pb)
         | _, _ => SBad
         end
  end.

(* core/kos_string.c:1102-1228 compare_slice; pa, pb, pend, pend8 are offsets from the beginning
   of the data of the strings.  The asserts on the positions are preconditions. *)
Definition compare_slice (sa : kstr) (a_begin a_end : Z) (sb : kstr) (b_begin b_end : Z) : sres Z :=
  let a_len := a_end - a_begin in
  let b_len := b_end - b_begin in
  let cmp_len := Z.min a_len b_len in
  let wa := k_w sa in
  let wb := k_w sb in
  if wa =? wb then
    let ma := str_bytes sa in
    let mb := str_bytes sb in
    let fuel := S (length ma) in
    let pa := Z.shiftl a_begin wa in
    let pb := Z.shiftl b_begin wa in
    let num_b := Z.shiftl cmp_len wa in
    let pend := pa + num_b in
    let pend8 := (k_addr sa + pend) / 8 * 8 - k_addr sa in
    sdo (pa, pb) <-
      (if ((k_addr sa + pa) mod 8 =? (k_addr sb + pb) mod 8) && (pa + 8 <? pend8)
       then sdo (pa, pb) <- skip_to_aligned 8 (k_addr sa) ma mb pa pb ;
            if (k_addr sa + pa) mod 8 =? 0
            then skip_equal fuel ma mb 8 pa pb pend8
            else SOk (pa, pb)
       else SOk (pa, pb)) ;
    let n := 2 ^ wa in
    sdo (pa, pb) <- skip_equal fuel ma mb n pa pb pend ;
    if pa <? pend
    then match rd ma pa n, rd mb pb n with
         | Some ca, Some cb => SOk (coll ca cb)
         | _, _ => SBad
         end
    else SOk (a_len - b_len)
  else
    let a := skipn (Z.to_nat a_begin) (k_codes sa) in
    let b := skipn (Z.to_nat b_begin) (k_codes sb) in
    if wa <? wb
    then strcmp_mixed (Z.to_nat cmp_len) a b a_len b_len
    else sdo r <- strcmp_mixed (Z.to_nat cmp_len) b a b_len a_len ; SOk (r * -1).

(* core/kos_string.c:1230-1248 KOS_string_compare *)
Definition string_compare (sa sb : kstr) : sres Z :=
  compare_slice sa 0 (klen sa) sb 0 (klen sb).

(* core/kos_string.c:1266-1286, position arguments of KOS_string_compare_slice *)
Definition cmp_positions (begin end_ len : Z) : Z * Z :=
  let begin := if begin <? 0 then begin + len else begin in
  let end_ := if end_ <? 0 then end_ + len else end_ in
  let begin := if begin <? 0 then 0 else begin in
  let end_ := if len <? end_ then len else end_ in
  let end_ := if end_ <? begin then begin else end_ in
  (begin, end_).

(* core/kos_string.c:1250-1294 KOS_string_compare_slice *)
Definition string_compare_slice (sa : kstr) (a_begin a_end : Z) (sb : kstr) (b_begin b_end : Z) : sres Z :=
  let '(ab, ae) := cmp_positions a_begin a_end (klen sa) in
  let '(bb, be) := cmp_positions b_begin b_end (klen sb) in
  compare_slice sa (u32 ab) (u32 ae) sb (u32 bb) (u32 be).

(* core/kos_string.c:1361-1501 KOS_string_scan, the test whether the code is in the pattern *)
Fixpoint pat_match (code : Z) (pat : list Z) : bool :=
  match pat with [] => false | p :: t => if p =? code then true else pat_match code t end.

(* core/kos_string.c:1421-1496 loop over the text; i is the index of location *)
Fixpoint scan_loop (fuel : nat) (text pat : list Z) (tw c_mask i text_end delta : Z) (include : bool) : sres Z :=
  match fuel with
  | O => SBad
  | S k =>
    if i =? text_end then SOk (-1)
    else if i <? 0 then SBad
    else match nth_error text (Z.to_nat i) with
         | None => SBad
         | Some code =>
           if negb (tw =? 0) && negb (Z.land code c_mask =? 0)
           then scan_loop k text pat tw c_mask (i + delta) text_end delta include
           else if Bool.eqb (pat_match code pat) include then SOk i
           else scan_loop k text pat tw c_mask (i + delta) text_end delta include
         end
  end.

(* memchr over the text from index i *)
Fixpoint memchr (l : list Z) (c i : Z) : Z :=
  match l with [] => -1 | x :: t => if x =? c then i else memchr t c (i + 1) end.

(* core/kos_string.c:1361-1501 KOS_string_scan; returns the new value of *pos *)
Definition string_scan (text pattern : kstr) (reverse include : bool) (pos : Z) : sres Z :=
  let pattern_len := klen pattern in
  if pattern_len =? 0 then SOk pos
  else
    let text_len := klen text in
    if (pos <? 0) || (text_len <=? pos) then SOk (-1)
    else if negb reverse && include && (pattern_len =? 1) && (k_w text =? 0) && (k_w pattern =? 0)
    then match k_codes pattern with
         | c :: _ => SOk (memchr (skipn (Z.to_nat pos) (k_codes text)) c pos)
         | [] => SBad
         end
    else
      let text_end := if reverse then -1 else text_len in
      let delta := if reverse then -1 else 1 in
      let c_mask := if k_w pattern =? 0 then 0xFFFFFF00
                    else if k_w pattern =? 1 then 0xFFFF0000 else 0 in
      scan_loop (S (length (k_codes text))) (k_codes text) (k_codes pattern) (k_w text) c_mask
                pos text_end delta include.

(* core/kos_string.c:1296-1320 string_find_brute_force *)
Fixpoint find_loop (fuel : nat) (text pattern : kstr) (pat_len text_pos end_text_pos delta : Z) : sres Z :=
  match fuel with
  | O => SBad
  | S k =>
    if text_pos =? end_text_pos then SOk (-1)
    else
      sdo c <- compare_slice text text_pos (text_pos + pat_len) pattern 0 pat_len ;
      if c =? 0 then SOk text_pos
      else find_loop k text pattern pat_len (text_pos + delta) end_text_pos delta
  end.

Definition string_find_brute_force (text pattern : kstr) (reverse : bool) (pos : Z) : sres Z :=
  let text_len := klen text in
  let pat_len := klen pattern in
  let end_text_pos := if reverse then -1 else text_len - pat_len + 1 in
  let delta := if reverse then -1 else 1 in
  find_loop (S (length (k_codes text))) text pattern pat_len pos end_text_pos delta.

(* core/kos_string.c:1322-1359 KOS_string_find; returns the new value of *pos *)
Definition string_find (text pattern : kstr) (reverse : bool) (pos : Z) : sres Z :=
  let pattern_len := klen pattern in
  if pattern_len =? 0 then SOk pos
  else
    let text_len := klen text in
    if (pos <? 0) || (text_len <? pos + pattern_len) then SOk (-1)
    else if pattern_len =? 1 then string_scan text pattern reverse true pos
    else string_find_brute_force text pattern reverse pos.

(* modules/kos_mod_base.c:4172-4203 find_dir; the position is None for void *)
Definition find_dir (text pattern : kstr) (reverse : bool) (pos : option Z) : sres Z :=
  let this_len := klen text in
  let p := get_index_arg pos (if reverse then -1 else 0)
             (if reverse then Z.max (s32 (this_len - klen pattern)) 0 else this_len)
             (if reverse then VoidIsEnd else VoidIsBegin) in
  string_find text pattern reverse p.

(* modules/kos_mod_base.c:4058-4089 ends_with *)
Definition ends_with (this arg : kstr) : sres bool :=
  if klen this <? klen arg then SOk false
  else sdo c <- string_compare_slice this (klen this - klen arg) (klen this) arg 0 (klen arg) ;
       SOk (c =? 0).

(* modules/kos_mod_base.c:4455-4486 starts_with *)
Definition starts_with (this arg : kstr) : sres bool :=
  if klen this <? klen arg then SOk false
  else sdo c <- string_compare_slice this 0 (klen arg) arg 0 (klen arg) ;
       SOk (c =? 0).

End Compare.

(* modules/kos_mod_base.c:4289-4333 scan_dir *)
Definition scan_dir (text pattern : kstr) (reverse : bool) (pos : option Z) (include : bool) : sres Z :=
  let this_len := klen text in
  let p := get_index_arg pos (if reverse then -1 else 0) this_len
             (if reverse then VoidIsEnd else VoidIsBegin) in
  let p := if reverse && (p =? this_len) then p - 1 else p in
  string_scan text pattern reverse include p.

(* core/kos_string.c:1538-1539, 1547-1548, 1557-1558 loops of KOS_string_reverse *)
Fixpoint reverse_loop (src : list Z) (i : Z) (dest : list Z) : sres (list Z) :=
  match src with
  | [] => SOk dest
  | c :: t => sdo dest' <- wr_elems dest i [c] ; reverse_loop t (i - 1) dest'
  end.

(* core/kos_string.c:1503-1564 KOS_string_reverse *)
Definition string_reverse (addr : Z) (s : kstr) : sres kstr :=
  let len := klen s in
  if len <? 2 then SOk s
  else sdo codes <- reverse_loop (k_codes s) (len - 1) (new_elems len) ;
       SOk (KStr (k_w s) (k_ascii s) addr 0 codes).

(* core/kos_string.c:1614-1617 loop of KOS_string_repeat, in elements *)
Fixpoint repeat_loop (fuel : nat) (src : list Z) (pos end_ : Z) (dest : list Z) : sres (list Z) :=
  match fuel with
  | O => SBad
  | S k =>
    if pos <? end_
    then sdo dest' <- wr_elems dest pos src ; repeat_loop k src (pos + slen src) end_ dest'
    else SOk dest
  end.

(* core/kos_string.c:1566-1620 KOS_string_repeat; num_repeat is an unsigned *)
Definition string_repeat (addr : Z) (s : kstr) (num_repeat : Z) : sres kstr :=
  let len := klen s in
  if (len =? 0) || (num_repeat =? 0) then SOk str_empty
  else if num_repeat =? 1 then SOk s
  else if (0xFFFF <? num_repeat) || (0xFFFF <? u32 (len * num_repeat)) then SExn
  else let total := u32 (len * num_repeat) in
       sdo codes <- repeat_loop (S (Z.to_nat num_repeat)) (k_codes s) 0 total (new_elems total) ;
       SOk (KStr (k_w s) (k_ascii s) addr 0 codes).

(* modules/kos_mod_base.c:4113-4139 repeats; num * text_len is int64_t times unsigned and does not
   overflow because num is at most 0xFFFF there *)
Definition repeats (addr : Z) (s : kstr) (num : Z) : sres kstr :=
  if (num <? 0) || (0xFFFF <? num) || (0xFFFF <? num * klen s) then SExn
  else string_repeat addr s num.

(* core/kos_string.c:1622-1693 KOS_string_lowercase and 1695-1766 KOS_string_uppercase;
   [conv] stands for towlower / towupper, which depend on the locale *)
Definition conv_elem (conv : Z -> Z) (w c : Z) : Z :=
  if w =? 0 then uwrap 8 (conv c)
  else if w =? 1 then uwrap 16 (conv c)
  else if c <? 0x10000 then u32 (conv (uwrap 16 c)) else c.

Definition string_conv_case (conv : Z -> Z) (addr : Z) (s : kstr) : sres kstr :=
  if klen s =? 0 then SOk str_empty
  else SOk (KStr (k_w s) (k_ascii s) addr 0 (map (conv_elem conv (k_w s)) (k_codes s))).

(* modules/kos_mod_base.c:4412-4435 code *)
Definition code_method (s : kstr) (idx : Z) : sres Z :=
  if (idx <? - 2 ^ 31) || (2 ^ 31 - 1 <? idx) then SExn else string_get_char_code s (s32 idx).

(* core/kos_vm.c:1852-1859 indexing of a string *)
Definition index_op (addr : Z) (s : kstr) (idx : Z) : sres kstr :=
  if (2 ^ 31 - 1 <? idx) || (idx <? - 2 ^ 31) then SExn else string_get_char addr s (s32 idx).

(* modules/kos_mod_base.c:4568-4582 get_string_ascii *)
Definition get_string_ascii (s : kstr) : bool := k_ascii s.
