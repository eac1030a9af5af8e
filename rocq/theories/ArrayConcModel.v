(* Arrays shared by threads, core/kos_array.c: element access, growing of the storage and resizing.

   Threads are interleaved: every access to memory shared by threads (an element, num_slots_open, next, data, size) is one step; steps
   are sequentially consistent although the code uses relaxed and acquire/release atomics.  A weak compare-and-swap may fail for no
   reason.  The object type, the read-only flag, push, pop, slice and insert are not modelled; the garbage collector does not run.
   Reading the capacity, which never changes, is part of the step before it. *)
From Coq Require Import ZArith List Lia Bool ZifyBool.
Import ListNotations.
From Verif Require Import Base ListZ ArrayModel ArrayConcSpec.
Local Open Scope Z_scope.

(* core/kos_array.c:26-32: an element of a storage is TOMBSTONE, CLOSED or an object; objects are numbers *)
Inductive slot := Tomb | Closed | Val (v : Z).
Definition VOID : Z := 0.

Definition slot_eqb (a b : slot) : bool :=
  match a, b with Tomb, Tomb | Closed, Closed => true | Val x, Val y => x =? y | _, _ => false end.

(* core/kos_object_internal.h KOS_ARRAY_STORAGE; the capacity is the length of b_slots; a storage is denoted by its position in the
   list of all storages; None is KOS_BADPTR *)
Record buf := Buf { b_slots : list slot; b_open : Z; b_next : option Z }.
Record mem := Mem { m_bufs : list buf; m_data : option Z; m_size : Z }.

Definition put {A} (l : list A) (i : Z) (x : A) : list A := firstn (Z.to_nat i) l ++ x :: skipn (Z.to_nat i + 1) l.
Definition set_buf (m : mem) (b : Z) (x : buf) : mem := Mem (put (m_bufs m) b x) (m_data m) (m_size m).
Definition set_slot (m : mem) (b : Z) (x : buf) (i : Z) (v : slot) : mem := set_buf m b (Buf (put (b_slots x) i v) (b_open x) (b_next x)).
Definition set_data (m : mem) (d : option Z) : mem := Mem (m_bufs m) d (m_size m).
Definition set_size (m : mem) (n : Z) : mem := Mem (m_bufs m) (m_data m) n.
Definition cap (x : buf) : Z := len (b_slots x).

(* where a thread is in copy_buf; i is the slot, in_dst and value are variables of the code *)
Inductive cpc :=
| CStart
| CLoad (i : Z) (in_dst : slot)                 (* read src[i] *)
| CDst (i : Z) (in_dst value : slot)            (* compare-and-swap of dst[i] *)
| CSrc (i : Z) (value : slot)                   (* compare-and-swap of src[i], in_dst is value *)
| CFail (i : Z)                                 (* read num_slots_open *)
| CDec (i : Z)                                  (* decrement num_slots_open *)
| CEnd.                                         (* compare-and-swap of array->data *)

(* where a thread is in an operation; for reserve, rs is the size if it was called by KOS_array_resize *)
Inductive cont := KAccess (o : op) (i : Z) | KReserve (capacity : Z) (rs : option Z).
Inductive pc :=
| PSize (o : op)                                (* read size *)
| PData (o : op) (i : Z)                        (* read data *)
| PLoad (o : op) (i b : Z)                      (* read the element *)
| PSwap (o : op) (i b cur : Z)                  (* compare-and-swap of the element *)
| PCopy (old new : Z) (c : cpc) (k : cont)
| PRsv (capacity : Z) (rs : option Z)           (* read data and check the capacity *)
| PNew (capacity : Z) (rs : option Z)           (* allocate *)
| PGet (nb capacity : Z) (rs : option Z)        (* read data *)
| PLink (nb : Z) (old : option Z) (capacity : Z) (rs : option Z)
| PRsz (size : Z)                               (* read data *)
| PRsz2 (size : Z)                              (* read data again *)
| PSetSize (size : Z) (b : option Z)
| PFill (b : option Z) (p e : Z) (x : slot).

Inductive out := Next (m : mem) (p : pc) | Ret (m : mem) (r : result) | Ub.

Definition on_buf (m : mem) (b : Z) (f : buf -> out) : out := match gz (m_bufs m) b with Some x => f x | None => Ub end.
Definition on_slot (x : buf) (i : Z) (f : slot -> out) : out := match gz (b_slots x) i with Some v => f v | None => Ub end.

(* core/kos_array.c:166-225 copy_buf; yes: a weak compare-and-swap does not fail by chance *)
Definition copy_step (m : mem) (old new : Z) (c : cpc) (k : cont) (yes : bool) : out :=
  let go m c := Next m (PCopy old new c k) in
  on_buf m old (fun src =>
  let next_slot i := if i + 1 =? cap src then 0 else i + 1 in
  match c with
  | CStart => if cap src =? 0 then Ub else go m (CLoad (u32 (cap src - b_open src) mod cap src) Tomb)
  | CLoad i in_dst => on_slot src i (fun value =>
      match value with Closed => go m (CFail i) | _ => go m (CDst i in_dst value) end)
  | CDst i in_dst value => on_buf m new (fun dst => on_slot dst i (fun cur =>
      if slot_eqb cur in_dst then go (set_slot m new dst i value) (CSrc i value) else go m (CFail i)))
  | CSrc i value => on_slot src i (fun cur =>
      if slot_eqb cur value && yes then go (set_slot m old src i Closed) (CDec i) else go m (CLoad i value))
  | CFail i => if b_open src =? 0 then go m CEnd else go m (CLoad (next_slot i) Tomb)
  | CDec i =>
      let m' := set_buf m old (Buf (b_slots src) (u32 (b_open src - 1)) (b_next src)) in
      if b_open src =? 1 then go m' CEnd else go m' (CLoad (next_slot i) Tomb)
  | CEnd =>
      let m' := match m_data m with Some d => if d =? old then set_data m (Some new) else m | None => m end in
      match k with
      | KAccess o i => Next m' (PLoad o i new)
      | KReserve n rs => Next m' (PRsv n rs)
      end
  end).

(* core/kos_array.c:227-262 KOS_array_read, 264-307 KOS_array_write, 309-360 KOS_array_cas: the index and the number of the element *)
Definition op_index (o : op) : Z := match o with ORead i | OWrite i _ | OCas i _ _ => i | _ => 0 end.
Definition bufidx (idx size : Z) : Z := if idx <? 0 then u32 (idx + size) else idx.

(* core/kos_array.c:227-360 the body of the loops *)
Definition load_step (m : mem) (o : op) (i b : Z) : out :=
  on_buf m b (fun x => on_slot x i (fun v =>
  match v with
  | Tomb => Ret m RExn
  | Closed =>
      match b_next x with
      | None => Ub
      | Some nb => match o with ORead _ => Next m (PLoad o i nb) | _ => Next m (PCopy b nb CStart (KAccess o i)) end
      end
  | Val v =>
      match o with
      | ORead _ => Ret m (RVal v)
      | OCas _ old _ => if v =? old then Next m (PSwap o i b v) else Ret m (RVal v)
      | _ => Next m (PSwap o i b v)
      end
  end)).
Definition swap_step (m : mem) (o : op) (i b cur : Z) (yes : bool) : out :=
  on_buf m b (fun x => on_slot x i (fun v =>
  if slot_eqb v (Val cur) && yes then
    match o with
    | OWrite _ new => Ret (set_slot m b x i (Val new)) RDone
    | OCas _ _ new => Ret (set_slot m b x i (Val new)) (RVal cur)
    | _ => Ub
    end
  else Next m (PLoad o i b))).

(* core/kos_array.c:49-72 alloc_buffer and 376 the fill with TOMBSTONE; yes: memory is available *)
Definition new_buf (capacity : Z) : buf :=
  let n := alloc_capacity capacity in Buf (repeat Tomb (Z.to_nat n)) n None.
Definition data_cap (m : mem) : option Z :=
  match m_data m with
  | None => Some 0
  | Some d => match gz (m_bufs m) d with Some x => Some (cap x) | None => None end
  end.

(* core/kos_array.c:414-447 KOS_array_reserve, 362-397 resize_storage, 449-511 KOS_array_resize *)
Definition thread_step (m : mem) (p : pc) (yes : bool) : out :=
  match p with
  | PSize o => let i := bufidx (op_index o) (m_size m) in if i <? m_size m then Next m (PData o i) else Ret m RExn
  | PData o i => match m_data m with Some d => Next m (PLoad o i d) | None => Ub end
  | PLoad o i b => load_step m o i b
  | PSwap o i b cur => swap_step m o i b cur yes
  | PCopy old new c k => copy_step m old new c k yes
  | PRsv n rs =>
      match data_cap m with
      | None => Ub
      | Some c => if n >? c then Next m (PNew n rs) else match rs with Some s => Next m (PRsz2 s) | None => Ret m RDone end
      end
  | PNew n rs =>
      if (n <? MAX_ARRAY_SIZE) && yes then Next (Mem (m_bufs m ++ [new_buf n]) (m_data m) (m_size m)) (PGet (len (m_bufs m)) n rs)
      else Ret m RExn
  | PGet nb n rs => Next m (PLink nb (m_data m) n rs)
  | PLink nb None n rs => Next (match m_data m with None => set_data m (Some nb) | Some _ => m end) (PRsv n rs)
  | PLink nb (Some old) n rs =>
      on_buf m old (fun x =>
      match b_next x with
      | None => Next (set_buf m old (Buf (b_slots x) (b_open x) (Some nb))) (PCopy old nb CStart (KReserve n rs))
      | Some b => Next m (PCopy old b CStart (KReserve n rs))
      end)
  | PRsz s =>
      match data_cap m with
      | None => Ub
      | Some c => if s >? c then Next m (PRsv (Z.max (u32 (c * 2)) s) (Some s)) else Next m (PSetSize s (m_data m))
      end
  | PRsz2 s => Next m (PSetSize s (m_data m))
  | PSetSize s b =>
      let old := m_size m in
      let m' := set_size m s in
      if s =? old then Ret m' RDone
      else if s >? old then Next m' (PFill b old s (Val VOID)) else Next m' (PFill b s old Tomb)
  | PFill b p e x =>
      if p <? e then
        match b with
        | None => Ub
        | Some b' => on_buf m b' (fun y => on_slot y p (fun _ => Next (set_slot m b' y p x) (PFill b (p + 1) e x)))
        end
      else Ret m RDone
  end.

Definition start (o : op) : pc :=
  match o with OReserve n => PRsv n None | OResize s => PRsz s | _ => PSize o end.

(* Threads: None is idle.  A schedule says which thread does what next: begins an operation if it is idle, or makes one step. *)
Record sys := Sys { y_mem : mem; y_threads : list (option (op * pc)) }.
Inductive action := Invoke (o : op) | Go (yes : bool).

Inductive outcome := Fin (s : sys) (h : list event) | UbAfter (h : list event).
(* the operations which threads have completed, in the order of completion *)
Definition completed (x : outcome) : list event := match x with Fin _ h | UbAfter h => h end.
Fixpoint run (s : sys) (h : list event) (sched : list (Z * action)) : outcome :=
  match sched with
  | [] => Fin s h
  | (t, a) :: rest =>
      match gz (y_threads s) t, a with
      | Some None, Invoke o => run (Sys (y_mem s) (put (y_threads s) t (Some (o, start o)))) h rest
      | Some (Some (o, p)), Go yes =>
          match thread_step (y_mem s) p yes with
          | Next m p' => run (Sys m (put (y_threads s) t (Some (o, p')))) h rest
          | Ret m r => run (Sys m (put (y_threads s) t None)) (h ++ [(t, o, r)]) rest
          | Ub => UbAfter h
          end
      | _, _ => run s h rest
      end
  end.

(* an array with the elements l and the given capacity, or without a storage, and n idle threads *)
Definition init (l : list Z) (capacity : Z) (n : nat) : sys :=
  let tombs := repeat Tomb (Z.to_nat (capacity - len l)) in
  Sys (if capacity =? 0 then Mem [] None 0 else Mem [Buf (map Val l ++ tombs) capacity None] (Some 0) (len l)) (repeat None n).
