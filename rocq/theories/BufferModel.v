(* Buffers, core/kos_buffer.c and modules/kos_mod_base.c, executed by a single thread.

   The storage is the list of its bytes, its length is the capacity; a missing storage
   (KOS_BADPTR) is the empty list.  A byte is a Z, fresh storage holds [junk].
   [b_ext] marks a buffer over external memory, KOS_new_external_buffer (core/kos_buffer.c:108-147),
   whose storage object exists even if its capacity is 0.
   After an exception the buffer is taken to be unchanged.  This is so for the checks of
   arguments; the one exception raised after the size has been stored (no storage, see
   has_storage) is only reached with an unchanged size unless reserve wrapped.
   The read-only flag, object type checks, the GC and allocation failures are not modelled;
   generator arguments of the constructor (kos_mod_base.c:1509-1557) are not modelled. *)
From Coq Require Import ZArith List Lia Bool ZifyBool.
Import ListNotations.
From Verif Require Import Base IndexModel.
Local Open Scope Z_scope.

Inductive bres (A : Type) : Type :=
| BOk (a : A)
| BExn            (* KOS exception *)
| BHang           (* endless loop *)
| BBad.           (* access outside of the storage: undefined behaviour *)
Arguments BOk {A} a.
Arguments BExn {A}.
Arguments BHang {A}.
Arguments BBad {A}.

Definition bbind {A B} (x : bres A) (f : A -> bres B) : bres B :=
  match x with BOk a => f a | BExn => BExn | BHang => BHang | BBad => BBad end.
Notation "'bdo' x <- m ; f" := (bbind m (fun x => f)) (at level 200, x name, m at level 100, f at level 200).

Definition blen {A} (l : list A) : Z := Z.of_nat (length l).

Record buf := Buf { b_size : Z; b_data : list Z; b_ext : bool }.

Definition junk : Z := -1.

(* (n + (KOS_BUFFER_CAPACITY_ALIGN-1)) & ~(KOS_BUFFER_CAPACITY_ALIGN-1) on uint32_t *)
Definition align_cap (n : Z) : Z := u32 (n + 63) / 64 * 64.

Definition alloc (cap : Z) : list Z := repeat junk (Z.to_nat cap).

(* core/kos_buffer.c:74-106 KOS_new_buffer *)
Definition new_buffer (size : Z) : buf := Buf size (alloc (align_cap size)) false.

(* core/kos_buffer.c:161-218 KOS_buffer_reserve.  Without other threads the compare-and-swap
   succeeds; when size > capacity the loop allocates again and again. *)
Definition buffer_reserve (b : buf) (new_capacity : Z) : bres buf :=
  let nc := align_cap new_capacity in
  if b_ext b then BExn
  else
    let capacity := blen (b_data b) in
    if capacity <? nc then
      if capacity <? b_size b then BHang
      else BOk (Buf (b_size b)
                    (firstn (Z.to_nat (b_size b)) (b_data b) ++ alloc (nc - b_size b)) false)
    else BOk b.

(* core/kos_buffer.c:220-259 KOS_buffer_resize *)
Definition buffer_resize (b : buf) (size : Z) : bres buf :=
  let capacity := blen (b_data b) in
  bdo b' <- (if (b_size b <? size) && (capacity <? size)
             then buffer_reserve b (if u32 (capacity * 2) <? size then size else u32 (capacity * 2))
             else BOk b);
  BOk (Buf size (b_data b') (b_ext b')).

(* memory accesses through data->ptr *)
Definition wr_range (d : list Z) (off : Z) (bytes : list Z) : bres (list Z) :=
  if (0 <=? off) && (off + blen bytes <=? blen d)
  then BOk (firstn (Z.to_nat off) d ++ bytes ++ skipn (Z.to_nat (off + blen bytes)) d)
  else BBad.
Definition rd_range (d : list Z) (off n : Z) : bres (list Z) :=
  if (0 <=? off) && (off + n <=? blen d)
  then BOk (firstn (Z.to_nat n) (skipn (Z.to_nat off) d))
  else BBad.
(* memset(&data[off], value, n), n >= 0 *)
Definition set_range (d : list Z) (off n value : Z) : bres (list Z) :=
  if (0 <=? off) && (off + n <=? blen d)
  then BOk (firstn (Z.to_nat off) d ++ repeat value (Z.to_nat n) ++ skipn (Z.to_nat (off + n)) d)
  else BBad.

(* core/kos_buffer.c:302-326 KOS_buffer_data_volatile: an exception if there is no storage *)
Definition has_storage (b : buf) : bool := b_ext b || negb (blen (b_data b) =? 0).

(* core/kos_buffer.c:328-381 KOS_buffer_make_room; returns the offset of the new bytes.
   KOS_MAX_HEAP_OBJ_SIZE * 2 = 1024. *)
Definition buffer_make_room (b : buf) (size_delta : Z) : bres (buf * Z) :=
  let old_size := b_size b in
  let new_size := u32 (old_size + size_delta) in
  let capacity := blen (b_data b) in
  let off_heap_size := Z.max new_size 1024 in
  if 4294967295 - old_size <? size_delta then BExn
  else
    bdo b' <- (if capacity <? off_heap_size
               then buffer_reserve b (if u32 (capacity * 2) <? new_size then new_size else u32 (capacity * 2))
               else BOk b);
    let b'' := Buf new_size (b_data b') (b_ext b') in
    if has_storage b'' then BOk (b'', old_size) else BExn.

(* core/kos_buffer.c:383-411 KOS_buffer_fill *)
Definition buffer_fill (b : buf) (begin end_ value : Z) : bres buf :=
  let bg := fix_index begin (b_size b) in
  let en := fix_index end_ (b_size b) in
  if bg <? en then
    bdo d <- set_range (b_data b) bg (en - bg) value;
    BOk (Buf (b_size b) d (b_ext b))
  else BOk b.

(* core/kos_buffer.c:413-457 KOS_buffer_copy.  [src] is None when the source is the destination
   itself.  memcpy is only used for disjoint ranges, memmove otherwise, so both read the source
   bytes before writing. *)
Definition buffer_copy (dest : buf) (dest_begin : Z) (src : option buf) (src_begin src_end : Z) : bres buf :=
  let s := match src with None => dest | Some s => s end in
  let db := fix_index dest_begin (b_size dest) in
  let sb := fix_index src_begin (b_size s) in
  let se := fix_index src_end (b_size s) in
  if (sb <? se) && (db <? b_size dest) then
    let size := Z.min (se - sb) (b_size dest - db) in
    bdo bytes <- rd_range (b_data s) sb size;
    bdo d <- wr_range (b_data dest) db bytes;
    BOk (Buf (b_size dest) d (b_ext dest))
  else BOk dest.

(* core/kos_buffer.c:459-505 KOS_buffer_slice *)
Definition buffer_slice (b : buf) (begin end_ : Z) : bres buf :=
  if b_size b =? 0 then BOk (new_buffer 0)
  else
    let bg := fix_index begin (b_size b) in
    let en := fix_index end_ (b_size b) in
    let en := if en <? bg then bg else en in
    let new_size := u32 (en - bg) in
    let r := new_buffer new_size in
    if new_size =? 0 then BOk r
    else
      bdo bytes <- rd_range (b_data b) bg new_size;
      bdo d <- wr_range (b_data r) 0 bytes;
      BOk (Buf new_size d false).

(* modules/kos_mod_base.c:2116-2141, 3649-3682: void arguments of slice and copy_buffer *)
Definition void_begin (a : option Z) : Z := match a with None => 0 | Some i => i end.
Definition void_end (a : option Z) : Z := match a with None => INT64_MAX | Some i => i end.

(* modules/kos_mod_base.c:2108-2152 slice, buffer part *)
Definition slice_method (b : buf) (begin end_ : option Z) : bres buf :=
  buffer_slice b (void_begin begin) (void_end end_).

(* modules/kos_mod_base.c:3645-3688 copy_buffer *)
Definition copy_method (dest : buf) (dest_begin : option Z) (src : option buf) (src_begin src_end : option Z) : bres buf :=
  buffer_copy dest (void_begin dest_begin) src (void_begin src_begin) (void_end src_end).

(* ---- methods, arguments already converted to integers ---- *)

(* modules/kos_mod_base.c:2540-2592 resize, buffer part *)
Definition resize_method (b : buf) (size value : Z) : bres buf :=
  if (size <? 0) || (2147483647 <? size) then BExn
  else if (value <? 0) || (255 <? value) then BExn
  else
    let old_size := b_size b in
    bdo b' <- buffer_resize b size;
    if old_size <? size then
      if has_storage b' then
        bdo d <- set_range (b_data b') old_size (size - old_size) value;
        BOk (Buf size d (b_ext b'))
      else BExn
    else BOk b'.

(* modules/kos_mod_base.c:2675-2722 fill, buffer part; void begin/end are None *)
Definition fill_method (b : buf) (value : Z) (begin end_ : option Z) : bres buf :=
  let n := s32 (b_size b) in
  let bg := get_index_arg begin 0 n VoidIsBegin in
  let en := get_index_arg end_ bg n VoidIsEnd in
  if (value <? 0) || (255 <? value) then BExn
  else buffer_fill b bg en value.

(* modules/kos_mod_base.c:3719-3754 reserve, buffer part *)
Definition reserve_method (b : buf) (size : Z) : bres buf :=
  if (size <? 0) || (2147483647 <? size) then BExn else buffer_reserve b size.

(* core/kos_vm.c:1166-1188 read_buffer and 1190-1219 write_buffer, after the range check of the
   GET and SET instructions; [idx += (int)size] *)
Definition buf_index (b : buf) (idx : Z) : bres Z :=
  if (2147483647 <? idx) || (idx <? -2147483648) then BExn
  else
    let i := if idx <? 0 then idx + s32 (b_size b) else idx in
    if b_size b <=? u32 i then BExn else BOk i.
Definition get_method (b : buf) (idx : Z) : bres Z :=
  bdo i <- buf_index b idx;
  bdo r <- rd_range (b_data b) i 1;
  match r with [x] => BOk x | _ => BBad end.
Definition set_method (b : buf) (idx value : Z) : bres buf :=
  if (value <? 0) || (255 <? value) then BExn
  else
    bdo i <- buf_index b idx;
    bdo d <- wr_range (b_data b) i [value];
    BOk (Buf (b_size b) d (b_ext b)).

(* appending bytes the way file reading, string packing etc. do: make_room, then memcpy *)
Definition append_bytes (b : buf) (bytes : list Z) : bres buf :=
  bdo r <- buffer_make_room b (blen bytes);
  let (b', off) := r in
  bdo d <- wr_range (b_data b') off bytes;
  BOk (Buf (b_size b') d (b_ext b')).

(* modules/kos_mod_base.c:1382-1568 buffer_constructor for numeric, array, string and buffer
   arguments; an array element list or the bytes of a string are given as the list. *)
Inductive ctor_arg :=
| AArray (bytes : list Z)   (* array of numbers, kos_mod_base.c:1445-1474 *)
| AString (bytes : list Z)  (* UTF-8 of the string, 1476-1492 *)
| ABuffer (bytes : list Z). (* 1494-1507 *)

(* elements of an array argument are checked one by one *)
Fixpoint store_bytes (d : list Z) (off : Z) (l : list Z) : bres (list Z) :=
  match l with
  | [] => BOk d
  | v :: r =>
      if (v <? 0) || (255 <? v) then BExn
      else bdo d' <- wr_range d off [v]; store_bytes d' (off + 1) r
  end.

Definition ctor_step (b : buf) (a : ctor_arg) : bres buf :=
  let cur_size := b_size b in
  match a with
  | AArray l =>
      if blen l =? 0 then BOk b
      else
        bdo b' <- buffer_resize b (u32 (cur_size + blen l));
        if has_storage b' then
          bdo d <- store_bytes (b_data b') cur_size l;
          BOk (Buf (b_size b') d (b_ext b'))
        else BExn
  | AString l | ABuffer l =>
      bdo b' <- buffer_resize b (u32 (cur_size + blen l));
      if has_storage b' then
        bdo d <- wr_range (b_data b') cur_size l;
        BOk (Buf (b_size b') d (b_ext b'))
      else BExn
  end.

Fixpoint ctor_loop (b : buf) (args : list ctor_arg) : bres buf :=
  match args with
  | [] => BOk b
  | a :: r => bdo b' <- ctor_step b a; ctor_loop b' r
  end.

Definition buffer_ctor (args : list ctor_arg) : bres buf := ctor_loop (new_buffer 0) args.

(* the numeric form buffer(size, value = 0), kos_mod_base.c:1407-1441 *)
Definition buffer_ctor_num (size value : Z) : bres buf :=
  if (size <? 0) || (2147483647 <? size) then BExn
  else if (value <? 0) || (255 <? value) then BExn
  else if size =? 0 then BOk (new_buffer 0)
  else
    bdo b' <- buffer_resize (new_buffer 0) size;
    if has_storage b' then
      bdo d <- set_range (b_data b') 0 size value;
      BOk (Buf size d (b_ext b'))
    else BExn.
