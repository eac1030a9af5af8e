(* Model of the garbage collector, core/kos_heap.c: marking by several threads,
   evacuation of the live objects, update of the references to them, and the
   repeated passes made when memory runs out in the middle of an evacuation.
   The mark bitmap is modelled by words in GcBits.v; here it is a map from the
   slots to their 2-bit colors.
   Not modelled: CONFIG_MAD_GC, the debug fill of freed memory, the mutexes and
   condition variables, the time and byte counters of KOS_GC_STATS, malloc
   failures while marking (they end the cycle before anything is moved), and
   pool allocation, which is replaced by a list of pages not yet obtained. *)
From Coq Require Import ZArith List Lia Bool ZifyBool.
Import ListNotations.
From Verif Require Import Base ListZ.
Local Open Scope Z_scope.

(* core/kos_config.h:16-22, core/kos_object_internal.h:364-369 for a 64-bit
   target: 4096-byte pages with 126 slots of 32 bytes, the first at offset 64. *)
Definition PAGE_SIZE : Z := 4096.
Definition SLOTS_OFFS : Z := 64.
Definition SLOTS : Z := 126.
(* core/kos_heap.c:2568, KOS_SLOTS_PER_PAGE * (100 - 90) / 100 *)
Definition UNUSED_SLOTS : Z := 12.

(* core/kos_object_internal.h:21-37.  An object id is the address of the object
   plus one.  KOS_BADPTR is 1. *)
Definition is_bad (v : Z) : bool := v =? 1.
Definition is_heap (v : Z) : bool := Z.land v 31 =? 1.
Definition is_tracked (v : Z) : bool := Z.land v 23 =? 1.

(* core/kos_heap.c:405-408: the id of the object in slot i of the page at
   address p * PAGE_SIZE. *)
Definition slot_id (p i : Z) : Z := p * PAGE_SIZE + SLOTS_OFFS + 32 * i + 1.
(* core/kos_heap.c:1305-1308 *)
Definition page_of (v : Z) : Z := v / PAGE_SIZE.

(* inc/kos_entity.h:169-490, inc/kos_buffer.h:12-30, inc/kos_instance.h:148-155,
   core/kos_object_internal.h:144-196.  The constructor stands for the type
   field of the header; [d] collects the fields which are not object ids. *)
Inductive obj : Type :=
| OInteger (v : Z)
| OFloat (v : Z)
| OOpaque (d : list Z)
| OString (d : list Z)
| OStringRef (d : list Z) (data_ptr ref : Z)
| OObject (props proto : Z) (priv : option Z)
| OArray (d : list Z) (data : Z)
| OBuffer (d : list Z) (data : Z)
| OFunction (d : list Z) (bytecode module name closures defaults arg_map frame : Z)
| OClass (d : list Z) (bytecode module name closures defaults arg_map proto props : Z)
| OObjStorage (d : list Z) (items : list (Z * Z * Z)) (next : Z)
| OArrStorage (d : list Z) (items : list Z) (next : Z)
| OBufStorage (d : list Z) (external : bool) (ptr : Z) (priv : option Z)
| ODynProp (getter setter : Z)
| OIterator (d : list Z) (o prop_obj key_table returned_keys last_key last_value : Z)
| OModule (d : list Z) (name path constants global_names globals module_names priv : Z)
          (finalize : option Z)
| OStack (d : list Z) (items : list Z)
| OTracker (size data object : Z).

(* The size_and_type word of the header: either the size in bytes, or the id of
   the copy once the object was evacuated (inc/kos_entity.h:76-95). *)
Inductive hdr : Type := HSize (size : Z) | HFwd (id : Z).

Record cell : Type := mkcell { c_hdr : hdr; c_obj : obj }.

(* core/kos_object_internal.h:80-85; on a forwarding pointer the shift is
   applied to the pointer. *)
Definition csize (c : cell) : Z :=
  match c_hdr c with HSize s => s | HFwd w => u32 (w / 256) end.

(* KOS_HEAP (inc/kos_instance.h), the page headers and the bitmaps.  [mem] maps
   ids to objects, [bref] maps the id of a huge object to the id of its tracker
   stored in front of it.  [resv] are the pages a pool allocation can still
   supply, [fins] the native data passed to finalizers. *)
Record heap : Type := mkheap {
  mem : Z -> cell;
  bref : Z -> Z;
  nalloc : Z -> Z;
  pflags : Z -> Z;
  color : Z -> Z;
  used : list Z;
  free : list Z;
  resv : list Z;
  cur : option Z;
  usz : Z;
  fins : list Z;
  nfreed : Z;
  nkept : Z
}.

Definition set_mem (h : heap) x := mkheap x (bref h) (nalloc h) (pflags h) (color h) (used h) (free h) (resv h) (cur h) (usz h) (fins h) (nfreed h) (nkept h).
Definition set_bref (h : heap) x := mkheap (mem h) x (nalloc h) (pflags h) (color h) (used h) (free h) (resv h) (cur h) (usz h) (fins h) (nfreed h) (nkept h).
Definition set_nalloc (h : heap) x := mkheap (mem h) (bref h) x (pflags h) (color h) (used h) (free h) (resv h) (cur h) (usz h) (fins h) (nfreed h) (nkept h).
Definition set_pflags (h : heap) x := mkheap (mem h) (bref h) (nalloc h) x (color h) (used h) (free h) (resv h) (cur h) (usz h) (fins h) (nfreed h) (nkept h).
Definition set_color (h : heap) x := mkheap (mem h) (bref h) (nalloc h) (pflags h) x (used h) (free h) (resv h) (cur h) (usz h) (fins h) (nfreed h) (nkept h).
Definition set_used (h : heap) x := mkheap (mem h) (bref h) (nalloc h) (pflags h) (color h) x (free h) (resv h) (cur h) (usz h) (fins h) (nfreed h) (nkept h).
Definition set_free (h : heap) x := mkheap (mem h) (bref h) (nalloc h) (pflags h) (color h) (used h) x (resv h) (cur h) (usz h) (fins h) (nfreed h) (nkept h).
Definition set_resv (h : heap) x := mkheap (mem h) (bref h) (nalloc h) (pflags h) (color h) (used h) (free h) x (cur h) (usz h) (fins h) (nfreed h) (nkept h).
Definition set_cur (h : heap) x := mkheap (mem h) (bref h) (nalloc h) (pflags h) (color h) (used h) (free h) (resv h) x (usz h) (fins h) (nfreed h) (nkept h).
Definition set_usz (h : heap) x := mkheap (mem h) (bref h) (nalloc h) (pflags h) (color h) (used h) (free h) (resv h) (cur h) x (fins h) (nfreed h) (nkept h).
Definition set_fins (h : heap) x := mkheap (mem h) (bref h) (nalloc h) (pflags h) (color h) (used h) (free h) (resv h) (cur h) (usz h) x (nfreed h) (nkept h).
Definition set_nfreed (h : heap) x := mkheap (mem h) (bref h) (nalloc h) (pflags h) (color h) (used h) (free h) (resv h) (cur h) (usz h) (fins h) x (nkept h).
Definition set_nkept (h : heap) x := mkheap (mem h) (bref h) (nalloc h) (pflags h) (color h) (used h) (free h) (resv h) (cur h) (usz h) (fins h) (nfreed h) x.

Definition fupd {A : Type} (f : Z -> A) (k : Z) (a : A) : Z -> A :=
  fun x => if x =? k then a else f x.

Definition set_body (h : heap) (v : Z) (o : obj) : heap :=
  set_mem h (fupd (mem h) v (mkcell (c_hdr (mem h v)) o)).

(* ---------------------------------------------------------------- pages *)

(* core/kos_heap.c:91-94 *)
Definition used_page_size (h : heap) (p : Z) : Z := SLOTS_OFFS + 32 * nalloc h p.

(* core/kos_heap.c:96-121 *)
Definition push_page (h : heap) (p : Z) : heap :=
  if nalloc h p =? SLOTS then set_used h (used h ++ [p]) else set_used h (p :: used h).

(* core/kos_heap.c:828-832 *)
Definition push_page_with_objects (h : heap) (p : Z) : heap :=
  let h1 := push_page h p in set_usz h1 (usz h1 + used_page_size h1 p).

(* core/kos_heap.c:834-852 *)
Definition release_cur (h : heap) : heap :=
  match cur h with
  | None => h
  | Some p => set_cur (push_page_with_objects h p) None
  end.

(* core/kos_heap.c:708-737 with 603-706: a page from the free list or, when it
   is empty, from the system.  The pages of a pool are obtained one by one. *)
Definition alloc_page (h : heap) : option (Z * heap) :=
  match free h with
  | p :: l => Some (p, set_free h l)
  | [] => match resv h with
          | p :: l => Some (p, set_nalloc (set_resv h l) (fupd (nalloc h) p 0))
          | [] => None
          end
  end.

(* core/kos_heap.c:791-826.  The header written at 818 is not modelled: the
   caller (2074-2104) copies the whole object over it. *)
Definition alloc_from_page (h : heap) (p n : Z) : option (Z * heap) :=
  let na := nalloc h p in
  if na + n <=? SLOTS
  then Some (slot_id p na, set_nalloc h (fupd (nalloc h) p (na + n)))
  else None.

(* core/kos_heap.c:932-985: the search for room in the first used pages; [pre]
   are the pages already passed. *)
Fixpoint seek (depth : nat) (h : heap) (pre rest : list Z) (n : Z) : option (Z * heap) :=
  match depth with
  | O => None
  | S d =>
    match rest with
    | [] => None
    | p :: rest' =>
      if nalloc h p =? SLOTS then None
      else if SLOTS - nalloc h p <? n then seek d h (pre ++ [p]) rest' n
      else
        match alloc_from_page h p n with
        | None => seek d h (pre ++ [p]) rest' n
        | Some (v, h1) =>
          let h2 := set_usz h1 (usz h1 + 32 * n) in
          if nalloc h2 p =? SLOTS then
            match rest' with
            | [] => Some (v, h2)
            | _ :: _ => Some (v, push_page (set_used h2 (pre ++ rest')) p)
            end
          else if match cur h with None => true | Some c => nalloc h2 p <? nalloc h2 c end then
            let h3 := set_used h2 (pre ++ rest') in
            let h4 := set_usz h3 (usz h3 - used_page_size h3 p) in
            let h5 := match cur h with None => h4 | Some c => push_page_with_objects h4 c end in
            Some (v, set_cur h5 (Some p))
          else Some (v, h2)
        end
    end
  end.

(* core/kos_heap.c:883-1045 as called during a collection: try_collect_garbage
   and collect_garbage_last_resort_locked return at once (739-789). *)
Definition alloc_object (h : heap) (size : Z) : option Z * heap :=
  let n := (size + 31) / 32 in
  let slow :=
    match seek 8 h [] (used h) n with
    | Some (v, h1) => (Some v, h1)
    | None =>
      let h1 := release_cur h in
      match alloc_page h1 with
      | None => (None, h1)
      | Some (p, h2) =>
        let h3 := set_cur h2 (Some p) in
        match alloc_from_page h3 p n with
        | Some (v, h4) => (Some v, h4)
        | None => (None, h3)
        end
      end
    end in
  match cur h with
  | None => slow
  | Some c =>
    match alloc_from_page h c n with
    | Some (v, h1) => (Some v, h1)
    | None => slow
    end
  end.

(* ---------------------------------------------------------------- marking *)

(* Calls still to be made: mark_object_black, mark_object_gray, and
   set_mark_state(.., BLACK). *)
Inductive op : Type := MBlack (v : Z) | MGray (v : Z) | MSetBlack (v : Z).

(* core/kos_heap.c:1630-1759, the calls made for one object, by type. *)
Definition obj_children (o : obj) : list op :=
  match o with
  | OInteger _ | OFloat _ | OOpaque _ | OBufStorage _ _ _ _ | OString _ => []
  | OStringRef _ _ r => [MGray r]
  | OObject props proto _ => [MBlack props; MGray proto]
  | OArray _ data => [MBlack data]
  | OBuffer _ data => [MSetBlack data]
  | OFunction _ bytecode module name closures defaults arg_map frame =>
      [MGray bytecode; MGray module; MGray name; MGray closures; MGray defaults;
       MGray arg_map; MGray frame]
  | OClass _ bytecode module name closures defaults arg_map proto props =>
      [MGray proto; MBlack props; MGray bytecode; MGray module; MGray name;
       MGray closures; MGray defaults; MGray arg_map]
  | OObjStorage _ items next =>
      flat_map (fun it => [MGray (fst (fst it)); MGray (snd it)]) items ++ [MGray next]
  | OArrStorage _ items next => map MGray items ++ [MGray next]
  | ODynProp getter setter => [MBlack getter; MBlack setter]
  | OIterator _ o prop_obj key_table returned_keys last_key last_value =>
      [MGray o; MGray prop_obj; MGray key_table; MGray returned_keys; MGray last_key;
       MGray last_value]
  | OModule _ name path constants global_names globals module_names priv _ =>
      [MBlack name; MBlack path; MBlack constants; MBlack global_names; MBlack globals;
       MBlack module_names; MBlack priv]
  | OStack _ items => map MGray items
  | OTracker _ _ _ => []
  end.

(* core/kos_heap.c:1630-1759.  A tracker stands for its huge object (1744-1753);
   a huge object is never itself a tracker. *)
Definition children (m : Z -> cell) (v : Z) : list op :=
  match c_obj (m v) with
  | OTracker _ _ o => if is_bad o then [] else obj_children (c_obj (m o))
  | o => obj_children o
  end.

(* core/kos_heap.c:1474-1488: where the mark of an object is kept. *)
Definition mark_loc (h : heap) (v : Z) : Z := if is_heap v then v else bref h v.

(* One marking thread: the calls in progress (mark_object_black calls itself
   through mark_children_gray), the rest of the group being processed and the
   group being filled (mark_ctx->current). *)
Record thr : Type := mkthr {
  t_run : bool; t_ops : list op; t_group : list Z; t_cur : list Z }.

(* The colors and the scheduled groups (heap->objects_to_mark); each group is
   kept with the number of the thread which pushed it. *)
Record mst : Type := mkmst { m_color : Z -> Z; m_pool : list (Z * list Z); m_thr : Z -> thr }.

Definition GROUP : Z := 62.

(* core/kos_heap.c:1424-1439: atomic (compare and swap), true when the bit was
   not set yet. *)
Definition set_mark (c : Z -> Z) (l st : Z) : bool * (Z -> Z) :=
  if Z.land (c l) st =? 0 then (true, fupd c l (Z.lor (c l) st)) else (false, c).

Definition set_mark_state (h : heap) (c : Z -> Z) (v st : Z) : bool * (Z -> Z) :=
  if negb (is_bad v) && is_tracked v then set_mark c (mark_loc h v) st else (false, c).

(* core/kos_heap.c:1503-1538 *)
Definition schedule (t : Z) (pool : list (Z * list Z)) (cu : list Z) (v : Z) :
  list (Z * list Z) * list Z :=
  let cu' := cu ++ [v] in
  if len cu' =? GROUP then ((t, cu') :: pool, []) else (pool, cu').

(* core/kos_heap.c:195-221: a group is taken from any position; [None] is the
   search which found nothing.  Another thread may push a group behind the
   back of the search, but the groups this thread pushed itself are seen. *)
Definition take (pool : list (Z * list Z)) (k : nat) : option (list Z * list (Z * list Z)) :=
  match nth_error pool k with
  | Some (_, g) => Some (g, firstn k pool ++ skipn (S k) pool)
  | None => None
  end.

Definition owns (t : Z) (pool : list (Z * list Z)) : bool :=
  existsb (fun e => fst e =? t) pool.

(* core/kos_heap.c:1540-1551 and 1568-1771: one step of thread [t].  [k] picks the group
   to pop, [skip] says that the search missed the groups pushed meanwhile by
   other threads.  A thread which is not running joins (1596 and 2737-2750). *)
Definition mstep (h : heap) (t : Z) (k : nat) (skip : bool) (s : mst) : mst :=
  let th := m_thr s t in
  let put c pool th' := mkmst c pool (fupd (m_thr s) t th') in
  if t_run th then
    match t_ops th with
    | MSetBlack v :: ops =>
        let (_, c) := set_mark_state h (m_color s) v 2 in
        put c (m_pool s) (mkthr true ops (t_group th) (t_cur th))
    | MBlack v :: ops =>
        let (_, c) := set_mark_state h (m_color s) v 2 in
        let more := if negb (is_bad v) && is_tracked v then children (mem h) v else [] in
        put c (m_pool s) (mkthr true (more ++ ops) (t_group th) (t_cur th))
    | MGray v :: ops =>
        let (fresh, c) := set_mark_state h (m_color s) v 1 in
        if fresh then
          let (pool, cu) := schedule t (m_pool s) (t_cur th) v in
          put c pool (mkthr true ops (t_group th) cu)
        else put c (m_pool s) (mkthr true ops (t_group th) (t_cur th))
    | [] =>
        match t_group th with
        | v :: g => put (m_color s) (m_pool s) (mkthr true [MBlack v] g (t_cur th))
        | [] =>
            match (if skip && negb (owns t (m_pool s)) then None
                   else match take (m_pool s) k with Some r => Some r | None => take (m_pool s) 0 end) with
            | Some (g, pool) => put (m_color s) pool (mkthr true [] g (t_cur th))
            | None =>
                match t_cur th with
                | [] => put (m_color s) (m_pool s) (mkthr false [] [] [])
                | g => put (m_color s) (m_pool s) (mkthr true [] g [])
                end
            end
        end
    end
  else put (m_color s) (m_pool s) (mkthr true (t_ops th) (t_group th) (t_cur th)).

(* KOS_INSTANCE and its threads, the fields which hold objects:
   prototypes, modules, args, the fields of every KOS_THREAD and, for every
   context, exception, stack, local_list and ulocal_list. *)
Record ctxt : Type := mkctxt { x_exc : Z; x_stack : Z; x_locals : list Z; x_ulocals : list Z }.
Record thread : Type := mkthread {
  th_func : Z; th_this : Z; th_args : Z; th_retval : Z; th_exc : Z }.
Record inst : Type := mkinst {
  i_protos : list Z; i_modules : list Z; i_threads : list thread; i_args : Z;
  i_ctxs : list ctxt }.

(* core/kos_heap.c:1788-1883 *)
Definition mark_roots (i : inst) : list op :=
  map MBlack (i_protos i) ++ map MBlack (i_modules i) ++
  flat_map (fun t => [MGray (th_func t); MGray (th_this t); MGray (th_args t);
                      MGray (th_retval t); MGray (th_exc t)]) (i_threads i) ++
  [MBlack (i_args i)] ++
  flat_map (fun x => [MBlack (x_exc x); MBlack (x_stack x)] ++
                     map MBlack (x_locals x) ++ map MBlack (x_ulocals x)) (i_ctxs i).

(* core/kos_heap.c:1272-1296 *)
Definition set_marking_in_pages (h : heap) (pages : list Z) (st fl : Z) : heap :=
  let inp p := existsb (Z.eqb p) pages in
  set_pflags (set_color h (fun v => if inp (page_of v) then st else color h v))
             (fun p => if inp p then fl else pflags h p).

Definition clear_marking (h : heap) : heap := set_marking_in_pages h (used h) 0 0.

(* core/kos_heap.c:2968-2982: the main thread, number 0, has the roots to mark. *)
Definition mark_init (h : heap) (i : inst) : mst :=
  mkmst (color h) []
        (fun t => if t =? 0 then mkthr true (mark_roots i) [] [] else mkthr false [] [] []).

(* A schedule: which thread moves, which group it pops. *)
Fixpoint mark_run (h : heap) (sched : list (Z * nat * bool)) (s : mst) : mst :=
  match sched with
  | [] => s
  | (t, k, skip) :: l => mark_run h l (mstep h t k skip s)
  end.

(* ---------------------------------------------------------------- evacuation *)

(* core/kos_heap.c:323-403.  The data of the finalizer is logged.  A module
   keeps its finalizer (395-399). *)
Definition finalize_leaf (h : heap) (v : Z) : heap :=
  match c_obj (mem h v) with
  | OObject props proto (Some d) =>
      set_fins (set_body h v (OObject props proto None)) (d :: fins h)
  | OBufStorage d true ptr (Some x) =>
      set_fins (set_body h v (OBufStorage d true 0 None)) (x :: fins h)
  | OModule _ _ _ _ _ _ _ _ (Some f) => set_fins h (f :: fins h)
  | _ => h
  end.

Definition finalize_object (h : heap) (v : Z) : heap :=
  match c_obj (mem h v) with
  | OTracker size data o =>
      if data =? 0 then h else
      let h1 := if is_bad o then h else finalize_leaf h o in
      set_body h1 v (OTracker 0 0 1)
  | _ => finalize_leaf h v
  end.

(* core/kos_heap.c:2074-2104 *)
Definition evacuate_object (h : heap) (v size : Z) : bool * heap :=
  match alloc_object h size with
  | (Some w, h1) =>
      let m1 := fupd (mem h1) w (mem h1 v) in
      (true, set_mem h1 (fupd m1 v (mkcell (HFwd w) (c_obj (m1 v)))))
  | (None, h1) => (false, h1)
  end.

(* core/kos_heap.c:1943-1981 *)
Definition reclaim_free_pages (h : heap) (pages : list Z) : heap :=
  set_nfreed
    (set_nalloc (set_free h (pages ++ free h))
       (fun p => if existsb (Z.eqb p) pages then 0 else nalloc h p))
    (nfreed h + len pages).

(* core/kos_heap.c:2039-2071 *)
Definition unlock_pages (h : heap) (freed : list Z) : heap * list Z * bool :=
  let rec := filter (fun p => nalloc h p =? 0) freed in
  let keep := filter (fun p => negb (nalloc h p =? 0)) freed in
  (reclaim_free_pages h rec, keep, match rec with [] => false | _ => true end).

(* core/kos_heap.c:2106-2148.  The size of an evacuated object is read from its
   copy.  The loops over a page go on while the position is below the end; the
   fuel is the number of slots of the page. *)
Definition hsize (h : heap) (v : Z) : Z :=
  match c_hdr (mem h v) with HSize s => s | HFwd w => csize (mem h w) end.

Definition make_opaque (h : heap) (v : Z) : heap :=
  if color h v =? 0 then
    let h1 := finalize_object h v in set_body h1 v (OOpaque [])
  else h.

Fixpoint opaque_loop (fuel : nat) (h : heap) (a e : Z) : heap :=
  match fuel with
  | O => h
  | S k => if a <? e then
             let size := hsize h a in
             opaque_loop k (make_opaque h a) (a + size) e
           else h
  end.

Definition page_start (p : Z) : Z := slot_id p 0.
Definition page_end (h : heap) (p : Z) : Z := slot_id p (nalloc h p).
Definition page_fuel (h : heap) (p : Z) : nat := Z.to_nat (nalloc h p).

Definition mark_unused_objects_opaque (h : heap) (p : Z) : heap :=
  opaque_loop (page_fuel h p) h (page_start p) (page_end h p).

(* core/kos_heap.c:1365-1415 slot by slot (see GcBits.v): the first slot at or
   after [a] which is not white. *)
Fixpoint skip_white (fuel : nat) (c : Z -> Z) (a e : Z) : option Z :=
  match fuel with
  | O => None
  | S k => if a <? e then if c a =? 0 then skip_white k c (a + 32) e else Some a
           else None
  end.

(* core/kos_heap.c:2494-2527 *)
Fixpoint count_loop (fuel : nat) (h : heap) (a e n : Z) : Z :=
  match fuel with
  | O => n
  | S k => match skip_white (Z.to_nat ((e - a) / 32)) (color h) a e with
           | None => n
           | Some b => let size := csize (mem h b) in
                       count_loop k h (b + size) e (n + size / 32)
           end
  end.

Definition get_num_slots_used (h : heap) (p : Z) : Z :=
  count_loop (page_fuel h p) h (page_start p) (page_end h p) 0.

(* core/kos_heap.c:2597-2670, the objects of one page: the heap, the freed
   pages, the number of evacuated objects and the object which did not fit. *)
Fixpoint evac_loop (fuel : nat) (h : heap) (freed : list Z) (a e nevac : Z) :
  heap * list Z * Z * option Z :=
  match fuel with
  | O => (h, freed, nevac, None)
  | S k =>
    if a <? e then
      let size := csize (mem h a) in
      if color h a =? 0 then evac_loop k (finalize_object h a) freed (a + size) e nevac
      else
        match evacuate_object h a size with
        | (true, h1) => evac_loop k h1 freed (a + size) e (nevac + 1)
        | (false, h1) =>
          let h2 := release_cur h1 in
          match unlock_pages h2 freed with
          | (h3, freed3, false) => (h3, freed3, nevac, Some a)
          | (h3, freed3, true) =>
            match evacuate_object h3 a size with
            | (true, h4) => evac_loop k h4 freed3 (a + size) e (nevac + 1)
            | (false, h4) => (h4, freed3, nevac, Some a)
            end
          end
        end
    else (h, freed, nevac, None)
  end.

(* core/kos_heap.c:2645-2650 *)
Fixpoint put_back (h : heap) (pages : list Z) : heap :=
  match pages with
  | [] => h
  | p :: l => put_back (push_page (mark_unused_objects_opaque h p) p) l
  end.

(* core/kos_heap.c:2531-2697: the heap, the freed pages, the incomplete page
   with the first object left on it (2361-2375), and whether memory ran out.
   2589 compares the number of used slots, not the flags of the page, with
   PAGE_ALREADY_EVACED. *)
Fixpoint evac_pages (pages : list Z) (h : heap) (freed : list Z) :
  heap * list Z * option (Z * Z) * bool :=
  match pages with
  | [] => (h, freed, None, false)
  | p :: next =>
    let na := nalloc h p in
    let nused := if pflags h p =? 1 then na else get_num_slots_used h p in
    let h0 := set_usz h (usz h - used_page_size h p) in
    if na - nused <? UNUSED_SLOTS then
      let h1 := if nused <? na then mark_unused_objects_opaque h0 p else h0 in
      let h2 := push_page_with_objects h1 p in
      let h3 := if nused =? 1 then h2
                else set_pflags (set_nkept h2 (nkept h2 + 1)) (fupd (pflags h2) p 1) in
      evac_pages next h3 freed
    else
      match evac_loop (page_fuel h0 p) h0 freed (page_start p) (page_end h0 p) 0 with
      | (h1, freed1, nevac, None) =>
        let h2 := if nevac =? 0 then set_nalloc h1 (fupd (nalloc h1) p 0) else h1 in
        evac_pages next h2 (freed1 ++ [p])
      | (h1, freed1, _, Some v) =>
        let h2 := set_marking_in_pages h1 (used h1) 2 1 in
        let h3 := mark_unused_objects_opaque h2 p in
        let (h4, inc) := if v =? page_start p then (push_page_with_objects h3 p, None)
                         else (h3, Some (p, v)) in
        (put_back h4 next, freed1, inc, true)
      end
  end.

Definition evacuate (h : heap) : heap * list Z * option (Z * Z) * bool :=
  match evac_pages (used h) (set_used h []) [] with
  | (h1, freed, inc, err) => (release_cur h1, freed, inc, err)
  end.

(* ---------------------------------------------------------------- update *)

(* core/kos_heap.c:2150-2173 *)
Definition update_child_ptr (h : heap) (v : Z) : Z :=
  if is_heap v && negb (is_bad v) then
    match c_hdr (mem h v) with
    | HFwd w => if is_heap w then w else v
    | HSize _ => v
    end
  else v.

(* core/kos_heap.c:2175-2313 without the tracker; [v] is the id of the object
   itself, its buffer is 24 bytes behind the header. *)
Definition update_obj (h : heap) (v : Z) (o : obj) : obj :=
  let u := update_child_ptr h in
  match o with
  | OInteger _ | OFloat _ | OOpaque _ | OString _ | OTracker _ _ _ => o
  | OStringRef d data_ptr r =>
      let r' := u r in OStringRef d (data_ptr + (r' - r)) r'
  | OObject props proto priv => OObject (u props) (u proto) priv
  | OArray d data => OArray d (u data)
  | OBuffer d data => OBuffer d (u data)
  | OFunction d bytecode module name closures defaults arg_map frame =>
      OFunction d (u bytecode) (u module) (u name) (u closures) (u defaults) (u arg_map) (u frame)
  | OClass d bytecode module name closures defaults arg_map proto props =>
      OClass d (u bytecode) (u module) (u name) (u closures) (u defaults) (u arg_map)
             (u proto) (u props)
  | OObjStorage d items next =>
      OObjStorage d (map (fun it => (u (fst (fst it)), snd (fst it), u (snd it))) items) (u next)
  | OArrStorage d items next => OArrStorage d (map u items) (u next)
  | OBufStorage d external ptr priv =>
      OBufStorage d external (if external then ptr else v - 1 + 24) priv
  | ODynProp getter setter => ODynProp (u getter) (u setter)
  | OIterator d o prop_obj key_table returned_keys last_key last_value =>
      OIterator d (u o) (u prop_obj) (u key_table) (u returned_keys) (u last_key) (u last_value)
  | OModule d name path constants global_names globals module_names priv fin =>
      OModule d (u name) (u path) (u constants) (u global_names) (u globals) (u module_names)
              (u priv) fin
  | OStack d items => OStack d (map u items)
  end.

Definition update_child_ptrs (h : heap) (v : Z) : heap :=
  match c_obj (mem h v) with
  | OTracker _ _ o =>
      if is_bad o then h
      else let h1 := set_bref h (fupd (bref h) o v) in
           set_body h1 o (update_obj h1 o (c_obj (mem h1 o)))
  | b => set_body h v (update_obj h v b)
  end.

(* core/kos_heap.c:2315-2331 *)
Fixpoint update_loop (fuel : nat) (h : heap) (a e : Z) : heap :=
  match fuel with
  | O => h
  | S k => if a <? e then
             let size := csize (mem h a) in
             update_loop k (update_child_ptrs h a) (a + size) e
           else h
  end.

Definition update_page (h : heap) (p a : Z) : heap :=
  update_loop (page_fuel h p) h a (page_end h p).

(* core/kos_heap.c:2377-2393: every page is taken by one thread (552-568). *)
Fixpoint update_pages (h : heap) (pages : list Z) : heap :=
  match pages with
  | [] => h
  | p :: l => update_pages (update_page h p (page_start p)) l
  end.

(* core/kos_heap.c:2395-2492 *)
Definition update_inst (h : heap) (i : inst) : inst :=
  let u := update_child_ptr h in
  mkinst (map u (i_protos i)) (map u (i_modules i))
         (map (fun t => mkthread (u (th_func t)) (u (th_this t)) (u (th_args t))
                                 (u (th_retval t)) (u (th_exc t))) (i_threads i))
         (u (i_args i))
         (map (fun x => mkctxt (u (x_exc x)) (u (x_stack x)) (map u (x_locals x))
                               (map u (x_ulocals x))) (i_ctxs i)).

(* core/kos_heap.c:1441-1461 (by words in GcBits.v) *)
Definition clear_page_mark_state (h : heap) (p size : Z) : heap :=
  set_color h (fun v => if (page_start p <=? v) && (v <? page_start p + size) then 0
                        else color h v).

(* core/kos_heap.c:2338-2359 *)
Definition update_incomplete_page (h : heap) (inc : option (Z * Z)) : heap :=
  match inc with
  | None => h
  | Some (p, v) =>
    let h1 := update_page h p v in
    let off := v - page_start p in
    let h2 := set_mem h1 (fupd (mem h1) (page_start p) (mkcell (HSize off) (OOpaque []))) in
    push_page_with_objects (clear_page_mark_state h2 p off) p
  end.

(* ---------------------------------------------------------------- cycle *)

(* core/kos_heap.c:2990-3036, one pass: evacuation, update, reclamation. *)
Definition gc_pass (h : heap) (i : inst) : heap * inst * bool * bool :=
  match evacuate h with
  | (h1, freed, inc, err) =>
    let h2 := update_pages h1 (used h1) in
    let i2 := update_inst h2 i in
    let h3 := update_incomplete_page h2 inc in
    let h4 := reclaim_free_pages h3 freed in
    (h4, i2, err, nfreed h3 =? nfreed h4)
  end.

Inductive gcres : Type :=
| GDone (h : heap) (i : inst)
| GOom (h : heap) (i : inst)
| GFuel.

(* core/kos_heap.c:2987-3037 *)
Fixpoint gc_passes (fuel : nat) (h : heap) (i : inst) : gcres :=
  match fuel with
  | O => GFuel
  | S k => match gc_pass h i with
           | (h1, i1, false, _) => GDone h1 i1
           | (h1, i1, true, true) => GOom h1 i1
           | (h1, i1, true, false) => gc_passes k h1 i1
           end
  end.

(* core/kos_heap.c:2905-3062: the cycle for a given schedule of the marking
   threads; [None] when they have not finished at the end of the schedule. *)
Definition idle (ths : list Z) (s : mst) : bool := forallb (fun t => negb (t_run (m_thr s t))) ths.

Definition collect (sched : list (Z * nat * bool)) (h : heap) (i : inst) : option gcres :=
  let h1 := clear_marking (release_cur h) in
  let s := mark_run h1 sched (mark_init h1 i) in
  if idle (0 :: map (fun e => fst (fst e)) sched) s
  then let h2 := set_color h1 (m_color s) in Some (gc_passes (S (length (used h2))) h2 i)
  else None.
