(* Model of the string functions of modules/base.kos written in Kos.  A generator is modelled by
   the list of all values it yields; [addr] is the address of new strings, a multiple of 8. *)
From Coq Require Import ZArith List Lia Bool ZifyBool.
Import ListNotations.
From Verif Require Import Base IndexModel StringModel.
Local Open Scope Z_scope.

(* modules/base.kos:739 and 748; both constants have 16-bit elements *)
Definition whitespace : kstr := KStr 1 false 64 0 [32; 13; 10; 9; 12; 11; 0xA0; 0x2028; 0x2029; 0xFEFF].
Definition eol : kstr := KStr 1 false 64 0 [10; 13; 11; 12; 0x1C; 0x1D; 0x1E; 0x85; 0x2028; 0x2029].

(* core/kos_vm.c:1944-1980 the slice operator on a string; None is void *)
Definition slice_op (addr : Z) (s : kstr) (begin end_ : option Z) : sres kstr :=
  string_slice addr s (match begin with Some b => b | None => 0 end)
                      (match end_ with Some e => e | None => INT64_MAX end).

(* modules/base.kos:767-774 *)
Definition lstrip (addr : Z) (this chars : kstr) : sres kstr :=
  sdo pos <- scan_dir this chars false (Some 0) false ;
  if negb (pos =? -1) then slice_op addr this (Some pos) None else SOk str_empty.

(* modules/base.kos:793-797 *)
Definition rstrip (addr : Z) (this chars : kstr) : sres kstr :=
  sdo pos <- scan_dir this chars true None false ;
  slice_op addr this None (Some (pos + 1)).

(* modules/base.kos:816-824 *)
Definition strip (addr : Z) (this chars : kstr) : sres kstr :=
  sdo lpos <- scan_dir this chars false (Some 0) false ;
  if negb (lpos =? -1)
  then sdo rpos <- scan_dir this chars true None false ;
       slice_op addr this (Some lpos) (Some (rpos + 1))
  else SOk str_empty.

Section Split.
Variable coll : Z -> Z -> Z.
Variable addr : Z.

(* modules/base.kos:873-886, n is the number of remaining iterations of the for loop *)
Fixpoint split_ws_loop (n : nat) (this : kstr) (pos : Z) : sres (list kstr) :=
  match n with
  | O => sdo p <- slice_op addr this (Some pos) None ; SOk [p]
  | S k =>
    sdo end_ <- scan_dir this whitespace false (Some pos) true ;
    if end_ =? -1 then sdo p <- slice_op addr this (Some pos) None ; SOk [p]
    else
      sdo p <- slice_op addr this (Some pos) (Some end_) ;
      sdo pos' <- scan_dir this whitespace false (Some end_) false ;
      if pos' =? -1 then SOk [p]
      else sdo rest <- split_ws_loop k this pos' ; SOk (p :: rest)
  end.

(* modules/base.kos:891-902 *)
Fixpoint split_sep_loop (n : nat) (this sep : kstr) (pos : Z) : sres (list kstr) :=
  match n with
  | O => sdo p <- slice_op addr this (Some pos) None ; SOk [p]
  | S k =>
    sdo end_ <- find_dir coll this sep false (Some pos) ;
    if end_ =? -1 then sdo p <- slice_op addr this (Some pos) None ; SOk [p]
    else
      sdo p <- slice_op addr this (Some pos) (Some end_) ;
      sdo rest <- split_sep_loop k this sep (end_ + klen sep) ;
      SOk (p :: rest)
  end.

(* modules/base.kos:854-905 split; sep is None for void; range(n) has max(n,0) elements *)
Definition split (this : kstr) (sep : option kstr) (max_split : Z) : sres (list kstr) :=
  match sep with
  | Some s => if klen s =? 0 then SExn else
    if max_split =? 0 then SOk []
    else let m := if max_split <? 0 then 0x10000 else max_split in
         split_sep_loop (Z.to_nat (m - 1)) this s 0
  | None =>
    if max_split =? 0 then SOk []
    else let m := if max_split <? 0 then 0x10000 else max_split in
         sdo pos <- scan_dir this whitespace false (Some 0) false ;
         if pos =? -1 then SOk [] else split_ws_loop (Z.to_nat (m - 1)) this pos
  end.

(* this[i] == c *)
Definition char_is (this : kstr) (i c : Z) : sres bool :=
  sdo ch <- string_get_char addr this i ;
  sdo r <- string_compare coll ch (KStr 0 true 64 0 [c]) ;
  SOk (r =? 0).

(* modules/base.kos:929-958 split_lines *)
Fixpoint split_lines_loop (fuel : nat) (this : kstr) (keep_ends : bool) (pos : Z) : sres (list kstr) :=
  match fuel with
  | O => SBad
  | S k =>
    let len := klen this in
    if pos =? len then SOk []
    else
      sdo end_ <- scan_dir this eol false (Some pos) true ;
      if end_ =? -1 then sdo p <- slice_op addr this (Some pos) None ; SOk [p]
      else
        let endp1 := end_ + 1 in
        sdo is_cr <- char_is this end_ 13 ;
        sdo is_crlf <- (if is_cr && (endp1 <? len) then char_is this endp1 10 else SOk false) ;
        if is_crlf
        then let endp2 := end_ + 2 in
             sdo p <- slice_op addr this (Some pos) (Some (if keep_ends then endp2 else end_)) ;
             sdo rest <- split_lines_loop k this keep_ends endp2 ; SOk (p :: rest)
        else sdo p <- slice_op addr this (Some pos) (Some (if keep_ends then endp1 else end_)) ;
             sdo rest <- split_lines_loop k this keep_ends endp1 ; SOk (p :: rest)
  end.

Definition split_lines (this : kstr) (keep_ends : bool) : sres (list kstr) :=
  split_lines_loop (S (length (k_codes this))) this keep_ends 0.

(* modules/base.kos:2103-2117 join of an array of strings *)
Fixpoint set_at {A} (l : list A) (i : nat) (x : A) : list A :=
  match l, i with
  | [], _ => []
  | _ :: t, O => x :: t
  | h :: t, S k => h :: set_at t k x
  end.
Fixpoint join_fill (to_join : list kstr) (dest_i : nat) (pieces : list kstr) : list kstr :=
  match to_join with
  | [] => pieces
  | s :: t => join_fill t (dest_i + 2) (set_at pieces dest_i s)
  end.
Definition join (sep : kstr) (to_join : list kstr) : sres kstr :=
  let num_pieces := slen to_join * 2 - 1 in
  let pieces := repeat sep (Z.to_nat (if 0 <? num_pieces then num_pieces else 0)) in
  string_add addr (map Some (join_fill to_join 0 pieces)).
End Split.
