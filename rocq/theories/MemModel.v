(* Memory pools and byte vectors: core/kos_memory.c.
   Addresses are 64-bit numbers, 0 is the null pointer.  KOS_malloc is an input of each call: a
   function from the requested size to the address of the new block.  The heap is the list of
   live blocks and the [next] pointers stored in them; access outside of live blocks is the
   outcome None.  kos_seq_fail, which only fails in tests, is not modelled. *)
From Coq Require Import ZArith List Lia Bool ZifyBool.
Import ListNotations.
From Verif Require Import Base.
Local Open Scope Z_scope.

Record block := Block { b_addr : Z; b_size : Z; b_pool : bool }. (* b_pool: allocated by the pool *)
Record heap := Heap { blocks : list block; next_of : Z -> Z }.
(* inc/kos_memory.h:17-21 *)
Record pool := Pool { free_size : Z; next_free : Z; buffers : Z }.

Definition accessible (h : heap) (addr n : Z) : bool :=
  existsb (fun b => (b_addr b <=? addr) && (addr + n <=? b_addr b + b_size b)) (blocks h).

Definition get_next (h : heap) (buf : Z) : option Z :=
  if accessible h buf 8 then Some (next_of h buf) else None.
Definition set_next (h : heap) (buf v : Z) : option heap :=
  if accessible h buf 8 then Some (Heap (blocks h) (fun a => if a =? buf then v else next_of h a)) else None.

Definition malloc (m : Z -> Z) (h : heap) (size : Z) : Z * heap :=
  let a := m size in
  (a, if a =? 0 then h else Heap (Block a size true :: blocks h) (next_of h)).

(* freeing what is not a live block is an error *)
Definition free (h : heap) (addr : Z) : option heap :=
  if existsb (fun b => b_addr b =? addr) (blocks h)
  then Some (Heap (filter (fun b => negb (b_addr b =? addr)) (blocks h)) (next_of h)) else None.

(* kos_config.h *)
Definition BUF_ALLOC_SIZE := 0x10000.

(* kos_memory.c:20-25 *)
Definition mempool_init : pool := Pool 0 0 0.

(* kos_memory.c:27-49; ~1023U has 32 bits *)
Definition mempool_init_small (m : Z -> Z) (h : heap) (initial_size : Z) : option (heap * pool) :=
  let initial_size := Z.land (u64 (initial_size + 1023)) (u32 (Z.lnot 1023)) in
  let (buf, h) := malloc m h initial_size in
  if buf =? 0 then Some (h, mempool_init) else
  match set_next h buf 0 with
  | None => None
  | Some h => Some (h, Pool (u64 (initial_size - 16 + 8)) (buf + 8) buf)
  end.

(* kos_memory.c:51-62 *)
Fixpoint mempool_destroy (fuel : nat) (h : heap) (buf : Z) : option heap :=
  if buf =? 0 then Some h else
  match fuel with
  | O => None
  | S fuel =>
      match get_next h buf with
      | None => None
      | Some next =>
          match free h buf with
          | None => None
          | Some h => mempool_destroy fuel h next
          end
      end
  end.

(* kos_memory.c:64-92 *)
Definition alloc_large (m : Z -> Z) (h : heap) (p : pool) (size : Z) : option (heap * pool * Z) :=
  let alloc_size := u64 (size + 16) in
  let (buf, h) := malloc m h alloc_size in
  if buf =? 0 then Some (h, p, 0) else
  if negb (buffers p =? 0) then
    match get_next h (buffers p) with
    | None => None
    | Some next =>
        match set_next h buf next with
        | None => None
        | Some h =>
            match set_next h (buffers p) buf with
            | None => None
            | Some h => Some (h, p, buf + 16)
            end
        end
    end
  else
    match set_next h buf 0 with
    | None => None
    | Some h => Some (h, Pool 0 (next_free p) buf, buf + 16)
    end.

(* kos_memory.c:119-126 *)
Definition take (h : heap) (p : pool) (size : Z) : option (heap * pool * Z) :=
  if size <=? free_size p then
    Some (h, Pool (free_size p - size) (next_free p + size) (buffers p), next_free p)
  else None.

(* kos_memory.c:94-129; ~7U has 32 bits *)
Definition mempool_alloc (m : Z -> Z) (h : heap) (p : pool) (size : Z) : option (heap * pool * Z) :=
  let size := Z.land (u64 (size + 7)) (u32 (Z.lnot 7)) in
  if free_size p <? size then
    if BUF_ALLOC_SIZE / 16 <? size then alloc_large m h p size else
    let (buf, h) := malloc m h BUF_ALLOC_SIZE in
    if buf =? 0 then Some (h, p, 0) else
    match set_next h buf (buffers p) with
    | None => None
    | Some h => take h (Pool (BUF_ALLOC_SIZE - 16 + 8) (buf + 8) buf) size
    end
  else if buffers p =? 0 then Some (h, p, 0)
  else take h p size.

(* Vectors.  [data] are the bytes of the current buffer: there are [capacity] of them.  KOS_malloc
   and KOS_realloc are inputs: None, or the bytes which a new block contains; KOS_realloc keeps
   the bytes which fit.  inc/kos_memory.h:32-37; sizeof(local_buffer_) is 16. *)
Record vec := Vec { data : list Z; v_size : Z; capacity : Z }.
Definition LOCAL := 16.

(* kos_memory.c:131-136; [local] are the previous contents of the local buffer *)
Definition vector_init (local : list Z) : vec := Vec local 0 LOCAL.

(* kos_memory.c:138-145 *)
Definition vector_destroy (local : list Z) (v : vec) : vec :=
  if LOCAL <? capacity v then vector_init local else v.

Definition zfirstn (n : Z) (l : list Z) := firstn (Z.to_nat n) l.
Definition zskipn (n : Z) (l : list Z) := skipn (Z.to_nat n) l.
Definition zlength (l : list Z) := Z.of_nat (length l).

(* memcpy of n bytes to position pos; None if it leaves either buffer *)
Definition copy (dst : list Z) (pos : Z) (src : list Z) (n : Z) : option (list Z) :=
  if (n <=? zlength src) && (pos + n <=? zlength dst)
  then Some (zfirstn pos dst ++ zfirstn n src ++ zskipn (pos + n) dst) else None.

(* kos_memory.c:147-170; None: access outside of a buffer; the flag is true on success *)
Definition vector_reserve (m : Z -> option (list Z)) (v : vec) (cap : Z) : option (vec * bool) :=
  if capacity v <? cap then
    let in_place := capacity v <=? LOCAL in
    match m cap with
    | None => Some (v, false)
    | Some fresh =>
        if in_place then
          if negb (v_size v =? 0) then
            match copy fresh 0 (data v) (v_size v) with
            | None => None
            | Some d => Some (Vec d (v_size v) cap, true)
            end
          else Some (Vec fresh (v_size v) cap, true)
        else Some (Vec (data v ++ zskipn (capacity v) fresh) (v_size v) cap, true)
    end
  else Some (v, true).

(* kos_config.h *)
Definition VEC_MAX_INC_SIZE := 262144.

(* kos_memory.c:172-195 *)
Definition vector_resize (m : Z -> option (list Z)) (v : vec) (size : Z) : option (vec * bool) :=
  let r :=
    if capacity v <? size then
      let delta := Z.max (Z.min (capacity v) VEC_MAX_INC_SIZE) 64 in
      let new_capacity := if size <? u64 (capacity v + delta) then u64 (capacity v + delta) else size in
      vector_reserve m v new_capacity
    else Some (v, true) in
  match r with
  | None => None
  | Some (v, true) => Some (Vec (data v) size (capacity v), true)
  | Some (v, false) => Some (v, false)
  end.

(* kos_memory.c:197-211, for different vectors *)
Definition vector_concat (m : Z -> option (list Z)) (dest src : vec) : option (vec * bool) :=
  if negb (v_size src =? 0) then
    let pos := v_size dest in
    match vector_resize m dest (u64 (v_size dest + v_size src)) with
    | None => None
    | Some (dest, false) => Some (dest, false)
    | Some (dest, true) =>
        match copy (data dest) pos (data src) (v_size src) with
        | None => None
        | Some d => Some (Vec d (v_size dest) (capacity dest), true)
        end
    end
  else Some (dest, true).

(* kos_memory.c:197-211, where dest and src are the same vector *)
Definition vector_concat_self (m : Z -> option (list Z)) (dest : vec) : option (vec * bool) :=
  if negb (v_size dest =? 0) then
    let pos := v_size dest in
    match vector_resize m dest (u64 (v_size dest + v_size dest)) with
    | None => None
    | Some (dest, false) => Some (dest, false)
    | Some (dest, true) =>
        match copy (data dest) pos (data dest) (v_size dest) with
        | None => None
        | Some d => Some (Vec d (v_size dest) (capacity dest), true)
        end
    end
  else Some (dest, true).
