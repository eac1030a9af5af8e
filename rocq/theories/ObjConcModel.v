(* Objects shared by threads, core/kos_object.c: set, get and delete of properties and growing of the property table.

   Threads are interleaved: every access to memory shared by threads is one step; steps are sequentially consistent although the code
   uses relaxed and acquire/release atomics.  A weak compare-and-swap may fail for no reason.  There is one object with own properties
   and no prototype; dynamic properties and iteration are not modelled; the garbage collector does not run.  Tables and slots are as
   in ObjModel. *)
From Coq Require Import ZArith List Lia Bool ZifyBool.
Import ListNotations.
From Verif Require Import Base ListZ ObjConcSpec.
From Verif Require ArrayConcModel.
Local Open Scope Z_scope.

Notation key := (list Z).
Notation put := ArrayConcModel.put.

(* core/kos_object.c:52-64 TOMBSTONE, CLOSED, RESERVED or an object; objects are numbers *)
Inductive pval := Tomb | Closed | Rsvd | Val (v : Z).
Definition pval_eqb (a b : pval) : bool :=
  match a, b with Tomb, Tomb | Closed, Closed | Rsvd, Rsvd => true | Val x, Val y => x =? y | _, _ => false end.
Definition keyb (a b : key) : bool := if list_eq_dec Z.eq_dec a b then true else false.

(* core/kos_object_internal.h:145-162 KOS_PITEM and KOS_OBJECT_STORAGE; None is KOS_BADPTR; tables are denoted by their position in
   the list of all tables; the capacity is the length of t_items *)
Record pitem := PItem { i_key : option key; i_hash : Z; i_val : pval }.
Record table := Table { t_used : Z; t_open : Z; t_copies : Z; t_new : option Z; t_items : list pitem }.
Record mem := Mem { m_tables : list table; m_props : option Z }.
Definition cap (t : table) : Z := len (t_items t).

Definition set_table (m : mem) (n : Z) (t : table) : mem := Mem (put (m_tables m) n t) (m_props m).
Definition set_item (m : mem) (n : Z) (t : table) (i : Z) (it : pitem) : mem :=
  set_table m n (Table (t_used t) (t_open t) (t_copies t) (t_new t) (put (t_items t) i it)).
Definition set_val (m : mem) (n : Z) (t : table) (i : Z) (it : pitem) (v : pval) : mem := set_item m n t i (PItem (i_key it) (i_hash it) v).
Definition add_used (m : mem) (n : Z) (t : table) : mem := set_table m n (Table (u32 (t_used t + 1)) (t_open t) (t_copies t) (t_new t) (t_items t)).
Definition new_table (c : Z) : table := Table 0 c 0 None (repeat (PItem None 0 Tomb) (Z.to_nat c)).

(* where a thread is in salvage_item; i: slot of the old table, j: slot of the new table *)
Inductive spc :=
| VClose (i : Z)                                 (* 214 close an empty slot *)
| VRead (i : Z)                                  (* 217 read the value *)
| VKey (i : Z)                                   (* 221 read the key *)
| VHash (i : Z) (k : key)                        (* 223 read the hash *)
| VClaim (i : Z) (k : key) (hash j : Z)          (* 233 compare-and-swap of the key in the new table *)
| VSetHash (i : Z) (hash j : Z)                  (* 234 *)
| VUsed (i j : Z)                                (* 235 *)
| VDest (i : Z) (k : key) (hash j : Z)           (* 240 read the key in the new table *)
| VSame (i : Z) (k : key) (hash j : Z) (dk : key) (* 242 is_key_equal *)
| VRsv (i j : Z)                                 (* 250 compare-and-swap of the value in the new table *)
| VSwap (i j : Z)                                (* 255 *)
| VStore (i j : Z) (v : pval) (ret : bool)       (* 271 *)
| VDec (i : Z)                                   (* 303 one slot was closed: decrement num_slots_open *)
| VFail (i : Z)                                  (* 310 read num_slots_open *).
(* where a thread is in copy_table *)
Inductive cpc :=
| CStart | CInc (i : Z) | CItem (s : spc) | COut | CWait | CProps.
(* what follows resize_prop_table or help_copy_table: retry with the new table; the end of a set; retry with the table of the object *)
Inductive cont := KTable | KDone | KFull.

Inductive pc :=
(* KOS_set_property, set_property *)
| SProps | SAlloc | SFirst (nt : Z) | STable
| SProbe (n idx nr : Z) | SKey (n idx nr : Z) | SHash (n idx nr : Z) | SUsed (n idx nr : Z)
| SCmp (n idx nr : Z) (ck : key)
| SVal (n idx nr : Z) | SSwap (n idx nr : Z) (old : pval) | SAgain (n idx nr : Z)
| SNeed (n nr : Z)
(* KOS_get_property_with_depth, find_property *)
| GProps | GKey (n idx nr : Z) | GVal (n idx nr : Z) (ck : key) | GCmp (n idx nr : Z) (ck : key) (v : pval)
(* resize_prop_table, help_copy_table, copy_table *)
| RStart (n : Z) (k : cont) | RAlloc (n : Z) (k : cont) | RLink (n nt : Z) (k : cont)
| HNew (n : Z) (k : cont) | HCopies (n nt : Z) (k : cont)
| PCopy (n nt : Z) (c : cpc) (k : cont).

(* Bad: failed assertion or access outside of a table *)
Inductive out := Next (m : mem) (p : pc) | Ret (m : mem) (r : result) | Bad.

Definition on_tab (m : mem) (n : Z) (f : table -> out) : out := match gz (m_tables m) n with Some t => f t | None => Bad end.
Definition on_item (t : table) (i : Z) (f : pitem -> out) : out := match gz (t_items t) i with Some it => f it | None => Bad end.
Definition slot (t : table) (idx : Z) : Z := Z.land idx (cap t - 1).

(* core/kos_object.c:168-193 is_key_equal *)
Definition is_key_equal (k : key) (hash : Z) (prop_key : key) (prop_hash : Z) : bool :=
  if negb (prop_hash =? 0) && negb (hash =? prop_hash) then false else keyb k prop_key.

(* core/kos_object.c:354-377 need_resize with KOS_MAX_PROP_REPROBES = 8, KOS_MIN_PROPS_CAPACITY = 4 *)
Definition need_resize (t : table) (nr : Z) : bool :=
  if (16 <=? cap t) && (nr <? 8) then false else negb (u32 (t_used t * 4) <? u32 (cap t * 3)).

Section Hash.
(* KOS_string_get_hash *)
Variable hash_of : key -> Z.

(* after resize_prop_table or help_copy_table; nt: the new table *)
Definition resume (m : mem) (o : op) (nt : Z) (k : cont) : out :=
  match k with
  | KTable =>
      match o with
      | OSet p _ => Next m (SProbe nt (hash_of p) 0)
      | OGet p => on_tab m nt (fun t => Next m (GKey nt (hash_of p) (cap t)))
      end
  | KDone => Ret m RDone
  | KFull => Next m STable
  end.

(* core/kos_object.c:200-275 salvage_item and 297-316 the loop of copy_table around it: n is the old table, nt the new table *)
Definition salvage_step (m : mem) (o : op) (n nt : Z) (s : spc) (k : cont) : out :=
  let go m s := Next m (PCopy n nt (CItem s) k) in
  on_tab m n (fun ot => on_tab m nt (fun t =>
  let next i := VClose (Z.land (u32 (i + 1)) (cap ot - 1)) in
  match s with
  | VClose i => on_item ot i (fun it =>
      match i_val it with Tomb => go (set_val m n ot i it Closed) (VDec i) | _ => go m (VRead i) end)
  | VRead i => on_item ot i (fun it => match i_val it with Closed => go m (VFail i) | _ => go m (VKey i) end)
  | VKey i => on_item ot i (fun it => match i_key it with None => Bad | Some key => go m (VHash i key) end)
  | VHash i key => on_item ot i (fun it => go m (VClaim i key (i_hash it) (Z.land (i_hash it) (cap t - 1))))
  | VClaim i key hash j => on_item t j (fun it =>
      match i_key it with
      | None => go (set_item m nt t j (PItem (Some key) (i_hash it) (i_val it))) (VSetHash i hash j)
      | Some _ => go m (VDest i key hash j)
      end)
  | VSetHash i hash j => on_item t j (fun it => go (set_item m nt t j (PItem (i_key it) hash (i_val it))) (VUsed i j))
  | VUsed i j => go (add_used m nt t) (VRsv i j)
  | VDest i key hash j => on_item t j (fun it => match i_key it with None => Bad | Some dk => go m (VSame i key hash j dk) end)
  | VSame i key hash j dk => on_item t j (fun it =>
      if is_key_equal key hash dk (i_hash it) then go m (VRsv i j)
      else go m (VClaim i key hash (Z.land (u32 (j + 1)) (cap t - 1))))
  | VRsv i j => on_item t j (fun it =>
      match i_val it with Tomb => go (set_val m nt t j it Rsvd) (VSwap i j) | _ => go m (VFail i) end)
  | VSwap i j => on_item ot i (fun it =>
      go (set_val m n ot i it Closed) (match i_val it with Closed => VStore i j Tomb false | v => VStore i j v true end))
  | VStore i j v ret => on_item t j (fun it =>
      let m' := match i_val it with Rsvd => set_val m nt t j it v | _ => m end in
      go m' (if ret then VDec i else VFail i))
  | VDec i =>
      let m' := set_table m n (Table (t_used ot) (u32 (t_open ot - 1)) (t_copies ot) (t_new ot) (t_items ot)) in
      if t_open ot =? 1 then Next m' (PCopy n nt COut k) else go m' (next i)
  | VFail i => if t_open ot =? 0 then Next m (PCopy n nt COut k) else go m (next i)
  end)).

(* core/kos_object.c:277-338 copy_table *)
Definition copy_step (m : mem) (o : op) (n nt : Z) (c : cpc) (k : cont) : out :=
  on_tab m n (fun ot =>
  let copies d := set_table m n (Table (t_used ot) (t_open ot) (u32 (t_copies ot + d)) (t_new ot) (t_items ot)) in
  match c with
  | CStart => Next m (PCopy n nt (CInc (slot ot (u32 (64 * u32 (cap ot - t_open ot))))) k)
  | CInc i => Next (copies 1) (PCopy n nt (CItem (VClose i)) k)
  | CItem s => salvage_step m o n nt s k
  | COut => Next (copies (-1)) (PCopy n nt (if 1 <? t_copies ot then CWait else CProps) k)
  | CWait => Next m (PCopy n nt (if t_copies ot =? 0 then CProps else CWait) k)
  | CProps =>
      let m' := match m_props m with Some q => if q =? n then Mem (m_tables m) (Some nt) else m | None => m end in
      resume m' o nt k
  end).

(* core/kos_object.c:393-411 allocation of a table in resize_prop_table; yes: memory is available; sizes are below 2^32 bytes *)
Definition alloc_ok (yes : bool) (c : Z) : bool := yes && (c <=? 67108864).

(* core/kos_object.c:730-832 KOS_set_property, 634-728 set_property, 379-456 resize_prop_table, 340-352 help_copy_table,
   548-614 KOS_get_property_with_depth, 498-546 find_property.  yes: a weak compare-and-swap does not fail by chance, an allocation
   succeeds. *)
Definition thread_step (m : mem) (o : op) (p : pc) (yes : bool) : out :=
  let prop := match o with OSet k _ | OGet k => k end in
  let hash := hash_of prop in
  let value := match o with OSet _ (Some v) => Val v | _ => Tomb end in
  match p with
  | SProps =>
      match m_props m, value with
      | None, Tomb => Ret m RDone
      | None, _ => Next m SAlloc
      | Some _, _ => Next m STable
      end
  | SAlloc =>
      if yes then Next (Mem (m_tables m ++ [new_table 4]) (m_props m)) (SFirst (len (m_tables m))) else Ret m RFail
  | SFirst nt => Next (match m_props m with None => Mem (m_tables m) (Some nt) | Some _ => m end) STable
  | STable => match m_props m with Some n => Next m (SProbe n hash 0) | None => Bad end
  | SProbe n idx nr => on_tab m n (fun t => on_item t (slot t idx) (fun it =>
      match i_key it, value with
      | None, Tomb => Next m (SNeed n nr)
      | None, _ => Next m (SKey n (slot t idx) nr)
      | Some ck, _ => Next m (SCmp n (slot t idx) nr ck)
      end))
  | SKey n i nr => on_tab m n (fun t => on_item t i (fun it =>
      match i_key it, yes with
      | None, true => Next (set_item m n t i (PItem (Some prop) (i_hash it) (i_val it))) (SHash n i nr)
      | _, _ => Next m (SProbe n i nr)
      end))
  | SHash n i nr => on_tab m n (fun t => on_item t i (fun it => Next (set_item m n t i (PItem (i_key it) hash (i_val it))) (SUsed n i nr)))
  | SUsed n i nr => on_tab m n (fun t => Next (add_used m n t) (SVal n i nr))
  | SCmp n i nr ck => on_tab m n (fun t => on_item t i (fun it =>
      if is_key_equal prop hash ck (i_hash it) then Next m (SVal n i nr)
      else if 8 <? nr then Next m (RStart n KFull)
      else Next m (SProbe n (u32 (i + 1)) (nr + 1))))
  | SVal n i nr => on_tab m n (fun t => on_item t i (fun it =>
      match i_val it with Closed => Next m (HNew n KTable) | v => Next m (SSwap n i nr v) end))
  | SSwap n i nr old => on_tab m n (fun t => on_item t i (fun it =>
      if pval_eqb (i_val it) old then Next (set_val m n t i it value) (SNeed n nr) else Next m (SAgain n i nr)))
  | SAgain n i nr => on_tab m n (fun t => on_item t i (fun it =>
      match i_val it with Closed => Next m (HNew n KTable) | _ => Next m (SNeed n nr) end))
  | SNeed n nr => on_tab m n (fun t => if need_resize t nr then Next m (RStart n KDone) else Ret m RDone)
  | GProps => match m_props m with None => Ret m RNone | Some n => on_tab m n (fun t => Next m (GKey n hash (cap t))) end
  | GKey n idx nr => on_tab m n (fun t => on_item t (slot t idx) (fun it =>
      match i_key it with None => Ret m RNone | Some ck => Next m (GVal n (slot t idx) nr ck) end))
  | GVal n i nr ck => on_tab m n (fun t => on_item t i (fun it =>
      match i_val it with Closed => Next m (HNew n KTable) | v => Next m (GCmp n i nr ck v) end))
  | GCmp n i nr ck v => on_tab m n (fun t => on_item t i (fun it =>
      if is_key_equal prop hash ck (i_hash it) then
        match v with Tomb => Ret m RNone | Val x => Ret m (RVal x) | _ => Bad end
      else if nr =? 0 then Ret m RNone else Next m (GKey n (u32 (i + 1)) (nr - 1))))
  | RStart n k => on_tab m n (fun t => match t_new t with Some _ => Next m (HNew n k) | None => Next m (RAlloc n k) end)
  | RAlloc n k => on_tab m n (fun t =>
      let c := u32 (cap t * 2) in
      if alloc_ok yes c then Next (Mem (m_tables m ++ [new_table c]) (m_props m)) (RLink n (len (m_tables m)) k) else Ret m RFail)
  | RLink n nt k => on_tab m n (fun t =>
      match t_new t with
      | None => Next (set_table m n (Table (t_used t) (t_open t) (t_copies t) (Some nt) (t_items t))) (PCopy n nt CStart k)
      | Some _ => Next m (HNew n k)
      end)
  | HNew n k => on_tab m n (fun t => match t_new t with Some nt => Next m (HCopies n nt k) | None => Bad end)
  | HCopies n nt k => on_tab m n (fun t => if t_copies t =? 0 then resume m o nt k else Next m (PCopy n nt CStart k))
  | PCopy n nt c k => copy_step m o n nt c k
  end.

Definition start (o : op) : pc := match o with OSet _ _ => SProps | OGet _ => GProps end.

(* Threads: None is idle.  A schedule says which thread does what next: begins an operation if it is idle, or makes one step. *)
Record sys := Sys { y_mem : mem; y_threads : list (option (op * pc)) }.
Inductive action := Invoke (o : op) | Go (yes : bool).
Inductive outcome := Fin (s : sys) (h : list event) | BadAfter (h : list event).
Definition completed (x : outcome) : list event := match x with Fin _ h | BadAfter h => h end.

Fixpoint run (s : sys) (h : list event) (sched : list (Z * action)) : outcome :=
  match sched with
  | [] => Fin s h
  | (t, a) :: rest =>
      match gz (y_threads s) t, a with
      | Some None, Invoke o => run (Sys (y_mem s) (put (y_threads s) t (Some (o, start o)))) h rest
      | Some (Some (o, p)), Go yes =>
          match thread_step (y_mem s) o p yes with
          | Next m p' => run (Sys m (put (y_threads s) t (Some (o, p')))) h rest
          | Ret m r => run (Sys m (put (y_threads s) t None)) (h ++ [(t, o, r)]) rest
          | Bad => BadAfter h
          end
      | _, _ => run s h rest
      end
  end.

(* core/kos_object.c:162-166 kos_init_object: an object without a table, and n idle threads *)
Definition init (n : nat) : sys := Sys (Mem [] None) (repeat None n).
End Hash.
