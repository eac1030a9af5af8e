(* Arrays, core/kos_array.c, executed by a single thread.

   A storage object is the list of its slots, its length is the capacity.  A slot is
   None for TOMBSTONE, Some v otherwise.  CLOSED slots only exist in storage objects which
   are being replaced or have been replaced; with a single thread they are never reachable
   from array->data when an operation starts, so they do not appear here (the concurrent
   model is in ArrayConcModel.v).  A missing storage (KOS_BADPTR) is the empty list.
   The read-only flag, object type checks and the GC are not modelled.  *)
From Coq Require Import ZArith List Lia Bool ZifyBool.
Import ListNotations.
From Verif Require Import Base IndexModel.
Local Open Scope Z_scope.

Inductive res (A : Type) : Type :=
| Ok  (a : A)      (* success *)
| Exn              (* KOS exception: invalid index, empty array *)
| Oom              (* KOS exception: out of memory *)
| Bad.             (* access outside of the storage: undefined behaviour *)
Arguments Ok {A} a.
Arguments Exn {A}.
Arguments Oom {A}.
Arguments Bad {A}.

Definition bind {A B} (x : res A) (f : A -> res B) : res B :=
  match x with Ok a => f a | Exn => Exn | Oom => Oom | Bad => Bad end.
Notation "'do' x <- m ; f" := (bind m (fun x => f)) (at level 200, x name, m at level 100, f at level 200).

Section Array.
Context {V : Type}.
Variable void : V.                      (* KOS_VOID *)
Variable veq : V -> V -> bool.          (* object identity, used by cas only *)

Notation slot := (option V).

Definition zlen {A} (l : list A) : Z := Z.of_nat (length l).

Record arr := Arr { a_size : Z; a_buf : list slot }.

(* buf->buf[i] as a memory read; outside of the storage is undefined *)
Definition ld (l : list slot) (i : Z) : res slot :=
  if (0 <=? i) && (i <? zlen l)
  then match nth_error l (Z.to_nat i) with Some s => Ok s | None => Bad end
  else Bad.

Fixpoint upd {A} (l : list A) (n : nat) (x : A) : list A :=
  match l, n with
  | [], _ => []
  | _ :: t, O => x :: t
  | h :: t, S k => h :: upd t k x
  end.

Definition st (l : list slot) (i : Z) (x : slot) : res (list slot) :=
  if (0 <=? i) && (i <? zlen l) then Ok (upd l (Z.to_nat i) x) else Bad.

(* core/kos_array.c:38-47 atomic_fill_ptr, also the two loops of KOS_array_resize *)
Fixpoint fill_slots (n : nat) (l : list slot) (i : Z) (x : slot) : res (list slot) :=
  match n with
  | O => Ok l
  | S k => do l' <- st l i x; fill_slots k l' (i + 1) x
  end.

Definition MAX_ARRAY_SIZE : Z := 268435456.   (* 0x10000000, core/kos_config.h *)

(* core/kos_array.c:34-36 and 49-72 alloc_buffer: capacity of the storage allocated for [cap].
   sizeof(KOS_ARRAY_STORAGE) = 32, sizeof(KOS_OBJ_ID) = 8, 1 << KOS_OBJ_ALIGN_BITS = 32. *)
Definition alloc_capacity (cap : Z) : Z :=
  let bytes := u32 (32 + u32 ((cap - 1) * 8)) in
  let buf_alloc_size := u32 (bytes + 31) / 32 * 32 in
  u32 (1 + u32 (buf_alloc_size - 32) / 8).

(* alloc_buffer followed by filling all slots with TOMBSTONE (kos_array.c:373-379);
   allocation failure below the size limit is not modelled *)
Definition alloc_buffer (cap : Z) : res (list slot) :=
  if cap <? MAX_ARRAY_SIZE
  then Ok (repeat None (Z.to_nat (alloc_capacity cap)))
  else Oom.

(* core/kos_array.c:74-152 KOS_new_array *)
Definition new_array (size : Z) : res arr :=
  if size <? MAX_ARRAY_SIZE then
    if size =? 0 then Ok (Arr 0 [])
    else do buf <- alloc_buffer size;
         do buf' <- fill_slots (Z.to_nat size) buf 0 (Some void);
         Ok (Arr size buf')
  else Oom.

(* core/kos_array.c:166-225 copy_buf with one thread: every slot i of the old storage is
   written to dst[i], then closed; finally array->data is replaced. *)
Definition copy_buf (old new : list slot) : res (list slot) :=
  if zlen old <=? zlen new then Ok (old ++ skipn (length old) new) else Bad.

(* core/kos_array.c:362-397 resize_storage *)
Definition resize_storage (a : arr) (new_capacity : Z) : res arr :=
  do new <- alloc_buffer new_capacity;
  do buf <- copy_buf (a_buf a) new;
  Ok (Arr (a_size a) buf).

(* core/kos_array.c:414-447 KOS_array_reserve.  The while loop runs at most once with a single
   thread, since the capacity after resize_storage is at least new_capacity. *)
Definition array_reserve (a : arr) (new_capacity : Z) : res arr :=
  if zlen (a_buf a) <? new_capacity then resize_storage a new_capacity else Ok a.

(* core/kos_array.c:449-511 KOS_array_resize *)
Definition array_resize (a : arr) (size : Z) : res arr :=
  let capacity := zlen (a_buf a) in
  do a' <- (if capacity <? size
            then array_reserve a (Z.max (u32 (capacity * 2)) size)
            else Ok a);
  let old_size := a_size a' in
  if old_size <? size then
    do buf <- fill_slots (Z.to_nat (size - old_size)) (a_buf a') old_size (Some void);
    Ok (Arr size buf)
  else if size <? old_size then
    do buf <- fill_slots (Z.to_nat (old_size - size)) (a_buf a') size None;
    Ok (Arr size buf)
  else Ok (Arr size (a_buf a')).

(* (idx < 0) ? ((uint32_t)idx + size) : (uint32_t)idx, idx is a C int;
   core/kos_array.c:237, 276, 325 *)
Definition bufidx (size idx : Z) : Z :=
  if idx <? 0 then u32 (u32 idx + size) else u32 idx.

(* core/kos_array.c:227-262 KOS_array_read *)
Definition array_read (a : arr) (idx : Z) : res V :=
  let i := bufidx (a_size a) idx in
  if i <? a_size a then
    do s <- ld (a_buf a) i;
    match s with Some v => Ok v | None => Exn end
  else Exn.

(* core/kos_array.c:264-307 KOS_array_write *)
Definition array_write (a : arr) (idx : Z) (v : V) : res arr :=
  let i := bufidx (a_size a) idx in
  if i <? a_size a then
    do s <- ld (a_buf a) i;
    match s with
    | None => Exn
    | Some _ => do buf <- st (a_buf a) i (Some v); Ok (Arr (a_size a) buf)
    end
  else Exn.

(* core/kos_array.c:309-360 KOS_array_cas *)
Definition array_cas (a : arr) (idx : Z) (old new : V) : res (arr * V) :=
  let i := bufidx (a_size a) idx in
  if i <? a_size a then
    do s <- ld (a_buf a) i;
    match s with
    | None => Exn
    | Some cur =>
        if veq cur old
        then do buf <- st (a_buf a) i (Some new); Ok (Arr (a_size a) buf, cur)
        else Ok (a, cur)
    end
  else Exn.

(* modules/kos_mod_base.c:3782-3814 array_cas, the method: pos is an int64 cast to int *)
Definition array_cas_method (a : arr) (pos : Z) (old new : V) : res (arr * V) :=
  array_cas a (s32 pos) old new.

(* core/kos_vm.c:1848-1863 (GET) and 2082-2095 (SET) with a numeric property *)
Definition vm_get (a : arr) (idx : Z) : res V :=
  if (2147483647 <? idx) || (idx <? -2147483648) then Exn else array_read a idx.
Definition vm_set (a : arr) (idx : Z) (v : V) : res arr :=
  if (2147483647 <? idx) || (idx <? -2147483648) then Exn else array_write a idx v.

(* core/kos_array.c:712-778 KOS_array_push; the loop runs at most twice with a single thread:
   after the reserve the length is below the capacity. *)
Definition array_push (a : arr) (v : V) : res (arr * Z) :=
  let capacity := zlen (a_buf a) in
  let len := a_size a in
  do a' <- (if capacity <=? len
            then array_reserve a (Z.max (u32 (capacity * 2)) (len + 1))
            else Ok a);
  do _s <- ld (a_buf a') len;
  do buf <- st (a_buf a') len (Some v);
  Ok (Arr (len + 1) buf, len).

(* core/kos_array.c:780-812 KOS_array_pop *)
Definition array_pop (a : arr) : res (arr * V) :=
  let len := a_size a in
  if len =? 0 then Exn
  else do v <- array_read a (len - 1);
       do a' <- array_resize a (len - 1);
       Ok (a', v).

(* core/kos_array.c:814-858 KOS_array_fill; the loop stops early on a TOMBSTONE *)
Fixpoint fill_loop (n : nat) (l : list slot) (i : Z) (v : V) : res (list slot) :=
  match n with
  | O => Ok l
  | S k =>
      do s <- ld l i;
      match s with
      | None => Ok l
      | Some _ => do l' <- st l i (Some v); fill_loop k l' (i + 1) v
      end
  end.

Definition array_fill (a : arr) (begin end_ : Z) (v : V) : res arr :=
  let len := a_size a in
  let b := fix_index begin len in
  let e := fix_index end_ len in
  do buf <- fill_loop (Z.to_nat (e - b)) (a_buf a) b v;
  Ok (Arr len buf).

(* core/kos_array.c:513-594 KOS_array_slice; [acc] are the slots written so far *)
Fixpoint slice_loop (n : nat) (src : list slot) (i : Z) : res (list V) :=
  match n with
  | O => Ok []
  | S k =>
      do s <- ld src i;
      match s with
      | None => Ok []
      | Some v => do r <- slice_loop k src (i + 1); Ok (v :: r)
      end
  end.

Definition array_slice (a : arr) (begin end_ : Z) : res arr :=
  let len := a_size a in
  if len =? 0 then Ok (Arr 0 [])
  else
    let b := fix_index begin len in
    let e := fix_index end_ len in
    let e := if e <? b then b else e in
    let new_len := u32 (e - b) in
    if new_len =? 0 then Ok (Arr 0 [])
    else
      do dest <- alloc_buffer new_len;
      do vals <- slice_loop (Z.to_nat new_len) (a_buf a) b;
      do buf <- copy_buf (map Some vals) dest;
      Ok (Arr (zlen vals) buf).

(* core/kos_threads.c:57-87 kos_atomic_move_ptr inside one storage, the two loops.
   Both are do-while loops, so at least one element is moved unless src == dest. *)
Fixpoint move_up (n : nat) (l : list slot) (d s : Z) : res (list slot) :=     (* ++src, ++dest *)
  match n with
  | O => Ok l
  | S k => do x <- ld l s; do l' <- st l d x; move_up k l' (d + 1) (s + 1)
  end.
Fixpoint move_down (n : nat) (l : list slot) (d s : Z) : res (list slot) :=   (* --src, --dest *)
  match n with
  | O => Ok l
  | S k => do x <- ld l s; do l' <- st l d x; move_down k l' (d - 1) (s - 1)
  end.

Definition move_ptr (l : list slot) (d s count : Z) : res (list slot) :=
  if s =? d then Ok l
  else if (s <? d) && (d <? s + count)
  then move_down (Z.to_nat (Z.max 1 count)) l (d + count - 1) (s + count - 1)
  else move_up (Z.to_nat (Z.max 1 count)) l d s.

(* the same between two different storage objects: never overlapping *)
Fixpoint move_from (n : nat) (l src : list slot) (d s : Z) : res (list slot) :=
  match n with
  | O => Ok l
  | S k => do x <- ld src s; do l' <- st l d x; move_from k l' src (d + 1) (s + 1)
  end.

(* core/kos_array.c:596-710 KOS_array_insert.  [src] is None when the source is the destination
   array itself.  uint32_t and int64_t arithmetic as in C; int64_t sums stay far below 2^63. *)
Definition array_insert (dest : arr) (dest_begin dest_end : Z) (src : option arr) (src_begin src_end : Z) : res arr :=
  let dest_len := a_size dest in
  let dest_begin := fix_index dest_begin dest_len in
  let dest_end := fix_index dest_end dest_len in
  let dest_end := if dest_end <? dest_begin then dest_begin else dest_end in
  let dest_delta := u32 (dest_end - dest_begin) in
  let src_len := match src with None => a_size dest | Some s => a_size s end in
  let sb := if src_begin =? src_end then src_begin else fix_index src_begin src_len in
  let se := if src_begin =? src_end then src_end else fix_index src_end src_len in
  let se := if src_begin =? src_end then se else if se <? sb then sb else se in
  let src_delta := u32 (se - sb) in
  let new_len := u32 (u32 (dest_len - dest_delta) + src_delta) in
  do dest1 <- (if dest_delta <? src_delta then array_resize dest new_len else Ok dest);
  let buf := a_buf dest1 in
  let is_self := match src with None => true | Some _ => false end in
  do buf' <-
    (if negb is_self || (se <=? dest_begin) || (dest_end <=? sb) || (src_delta =? 0) then
       do buf1 <- (if negb (src_delta =? dest_delta) && (dest_end <? dest_len)
                   then move_ptr buf (dest_end - dest_delta + src_delta) dest_end (dest_len - dest_end)
                   else Ok buf);
       let sb' := if is_self && (dest_end <=? sb) then sb + u32 (src_delta - dest_delta) else sb in
       if src_delta =? 0 then Ok buf1
       else match src with
            | None => move_ptr buf1 dest_begin sb' src_delta
            | Some s => move_from (Z.to_nat src_delta) buf1 (a_buf s) dest_begin sb'
            end
     else if src_delta <=? dest_delta then
       do buf1 <- (if sb =? dest_begin then Ok buf
                   else move_ptr buf dest_begin sb src_delta);
       if dest_end <? dest_len
       then move_ptr buf1 (dest_begin + src_delta) dest_end (dest_len - dest_end)
       else Ok buf1
     else
       let mid := Z.min (dest_begin + src_delta) se in
       do buf1 <- (if dest_end <? dest_len
                   then move_ptr buf (dest_begin + src_delta) dest_end (dest_len - dest_end)
                   else Ok buf);
       do buf2 <- (if sb <? mid then move_ptr buf1 dest_begin sb (mid - sb) else Ok buf1);
       if mid <? se
       then move_ptr buf2 (dest_begin + mid - sb) (mid + src_delta - dest_delta) (se - mid)
       else Ok buf2);
  let dest2 := Arr (a_size dest1) buf' in
  if src_delta <? dest_delta then array_resize dest2 new_len else Ok dest2.

(* modules/kos_mod_base.c:3835-3889 insert_array, arguments already converted to int64
   (void begin is 0, void end is MAX_INT64) *)
Definition insert_array (dest : arr) (begin end_ : Z) (src : option arr) : res arr :=
  array_insert dest begin end_ src 0 INT64_MAX.

End Array.
Arguments arr V : clear implicits.
