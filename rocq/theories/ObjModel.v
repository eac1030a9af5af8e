(* Model of the property tables of core/kos_object.c, one thread. *)
From Coq Require Import ZArith List Lia Bool ZifyBool.
Import ListNotations.
From Verif Require Import Base.
Local Open Scope Z_scope.

(* A property name is the text of a string; KOS_string_compare of two names is 0 exactly for equal
   texts (C27) and equal texts have equal hashes (C33). *)
Notation key := (list Z).

(* Values of slots: TOMBSTONE, CLOSED, RESERVED (core/kos_object.c:52-64), an object, or an object
   of type OBJ_DYNAMIC_PROP; objects are numbers. *)
Inductive pval := Tomb | Closed | Rsvd | Val (v : Z) | Dyn (v : Z).

(* core/kos_object_internal.h:145-162 KOS_PITEM and KOS_OBJECT_STORAGE; None is KOS_BADPTR; tables are denoted
   by their position in the list of all tables *)
Record pitem := PItem { i_key : option key; i_hash : Z; i_val : pval }.
Record table := Table { t_cap : Z; t_used : Z; t_open : Z; t_copies : Z; t_new : option nat; t_items : list pitem }.

(* o_props: None for objects without own properties (get_properties returns KOS_NULL), Some None
   if no table is allocated *)
Record obj := Obj { o_props : option (option nat); o_proto : option nat }.
Record world := World { w_tables : list table; w_objs : list obj }.

(* OExn: exception, OSetter: KOS_ERROR_SETTER with the dynamic property; both with the new state.
   OBad: failed assertion, access outside of a table or a loop which does not end. *)
Inductive ores (A : Type) := OOk (a : A) | OExn (w : world) | OSetter (v : Z) (w : world) | OBad.
Arguments OOk {A} a.
Arguments OExn {A} w.
Arguments OSetter {A} v w.
Arguments OBad {A}.

Definition keyb (a b : key) : bool := if list_eq_dec Z.eq_dec a b then true else false.

Fixpoint upd {A} (l : list A) (n : nat) (x : A) : list A :=
  match l, n with
  | [], _ => []
  | _ :: t, O => x :: t
  | h :: t, S k => h :: upd t k x
  end.

Definition item_at (t : table) (idx : Z) : option pitem :=
  if idx <? 0 then None else nth_error (t_items t) (Z.to_nat idx).
Definition set_item (t : table) (idx : Z) (it : pitem) : table :=
  Table (t_cap t) (t_used t) (t_open t) (t_copies t) (t_new t) (upd (t_items t) (Z.to_nat idx) it).
Definition with_used (t : table) (n : Z) : table := Table (t_cap t) n (t_open t) (t_copies t) (t_new t) (t_items t).
Definition with_open (t : table) (n : Z) : table := Table (t_cap t) (t_used t) n (t_copies t) (t_new t) (t_items t).
Definition with_copies (t : table) (n : Z) : table := Table (t_cap t) (t_used t) (t_open t) n (t_new t) (t_items t).
Definition with_new (t : table) (n : option nat) : table := Table (t_cap t) (t_used t) (t_open t) (t_copies t) n (t_items t).

(* core/kos_object.c:168-193 is_key_equal *)
Definition is_key_equal (k : key) (hash : Z) (prop_key : key) (prop_hash : Z) : bool :=
  if negb (prop_hash =? 0) && negb (hash =? prop_hash) then false else keyb k prop_key.

(* core/kos_object.c:225-246 the loop of salvage_item which claims a slot in the new table *)
Fixpoint claim_slot (fuel : nat) (nt : table) (k : key) (hash idx mask : Z) : option (table * Z) :=
  match fuel with
  | O => None
  | S f =>
    match item_at nt idx with
    | None => None
    | Some it =>
      match i_key it with
      | None => Some (with_used (set_item nt idx (PItem (Some k) hash (i_val it))) (u32 (t_used nt + 1)), idx)
      | Some dest_key =>
        if is_key_equal k hash dest_key (i_hash it) then Some (nt, idx)
        else claim_slot f nt k hash (Z.land (u32 (idx + 1)) mask) mask
      end
    end
  end.

(* core/kos_object.c:200-275 salvage_item: slot i of the old table ot is moved to the new table nt *)
Definition salvage_item (ot nt : table) (i : Z) : option (bool * table * table) :=
  let mask := t_cap nt - 1 in
  match item_at ot i with
  | None => None
  | Some it =>
    match i_val it with
    | Tomb => Some (true, set_item ot i (PItem (i_key it) (i_hash it) Closed), nt)
    | Closed => Some (false, ot, nt)
    | value =>
      match i_key it with
      | None => None
      | Some k =>
        let hash := i_hash it in
        match claim_slot (S (Z.to_nat (t_cap nt))) nt k hash (Z.land hash mask) mask with
        | None => None
        | Some (nt, idx) =>
          match item_at nt idx with
          | None => None
          | Some nit =>
            match i_val nit with
            | Tomb =>
              let ot := set_item ot i (PItem (i_key it) hash Closed) in
              Some (true, ot, set_item nt idx (PItem (i_key nit) (i_hash nit) value))
            | _ => Some (false, ot, nt)
            end
          end
        end
      end
    end
  end.

(* core/kos_object.c:297-317 loop of copy_table *)
Fixpoint copy_loop (fuel : nat) (ot nt : table) (i mask : Z) : option (table * table) :=
  match fuel with
  | O => None
  | S f =>
    match salvage_item ot nt i with
    | None => None
    | Some (true, ot, nt) =>
      let o := t_open ot in
      let ot := with_open ot (u32 (o - 1)) in
      if o =? 1 then Some (ot, nt) else copy_loop f ot nt (Z.land (u32 (i + 1)) mask) mask
    | Some (false, ot, nt) =>
      if t_open ot =? 0 then Some (ot, nt) else copy_loop f ot nt (Z.land (u32 (i + 1)) mask) mask
    end
  end.

(* core/kos_object.c:277-338 copy_table, without the update of the props of the object.  Waiting
   for other threads would not end. *)
Definition copy_table (ot nt : table) : option (table * table) :=
  let mask := t_cap ot - 1 in
  let fuzz := u32 (64 * u32 (t_cap ot - t_open ot)) in
  let i := Z.land fuzz mask in
  let ot := with_copies ot (u32 (t_copies ot + 1)) in
  match copy_loop (S (Z.to_nat (t_cap ot))) ot nt i mask with
  | None => None
  | Some (ot, nt) =>
    let c := t_copies ot in
    let ot := with_copies ot (u32 (c - 1)) in
    if 1 <? c then None else Some (ot, nt)
  end.

Definition get_table (w : world) (n : nat) : option table := nth_error (w_tables w) n.
Definition put_table (w : world) (n : nat) (t : table) : world := World (upd (w_tables w) n t) (w_objs w).
Definition props_of (w : world) (o : nat) : option (option nat) :=
  match nth_error (w_objs w) o with Some ob => o_props ob | None => None end.
Definition set_props (w : world) (o : nat) (p : option nat) : world :=
  match nth_error (w_objs w) o with
  | Some ob => World (w_tables w) (upd (w_objs w) o (Obj (Some p) (o_proto ob)))
  | None => w
  end.

(* core/kos_object.c:277-338 copy_table of table n to table m *)
Definition copy_tables (w : world) (o n m : nat) : option world :=
  match get_table w n, get_table w m with
  | Some ot, Some nt =>
    match copy_table ot nt with
    | None => None
    | Some (ot, nt) =>
      let w := put_table (put_table w n ot) m nt in
      match props_of w o with
      | None => None
      | Some p => Some (if match p with Some q => Nat.eqb q n | None => false end then set_props w o (Some m) else w)
      end
    end
  | _, _ => None
  end.

(* core/kos_object.c:340-352 help_copy_table *)
Definition help_copy_table (w : world) (o n : nat) : option (world * nat) :=
  match get_table w n with
  | None => None
  | Some ot =>
    match t_new ot with
    | None => None
    | Some m =>
      if t_copies ot =? 0 then Some (w, m)
      else match copy_tables w o n m with Some w => Some (w, m) | None => None end
    end
  end.

(* core/kos_object.c:354-377 need_resize with KOS_MAX_PROP_REPROBES = 8, KOS_MIN_PROPS_CAPACITY = 4 *)
Definition need_resize (t : table) (num_reprobes : Z) : bool :=
  if (16 <=? t_cap t) && (num_reprobes <? 8) then false
  else negb (u32 (t_used t * 4) <? u32 (t_cap t * 3)).

Definition new_item : pitem := PItem None 0 Tomb.
Definition new_table (cap : Z) : table := Table cap 0 cap 0 None (repeat new_item (Z.to_nat cap)).

Section Alloc.
(* does the allocation of a table of this capacity succeed *)
Variable alloc_ok : Z -> bool.

(* core/kos_object.c:379-456 resize_prop_table.  Every case with another thread which has started
   resizing is included although it does not happen with one thread. *)
Definition resize_prop_table (w : world) (o : nat) (old : option nat) (grow_factor : Z) : ores world :=
  match old with
  | Some n =>
    match get_table w n with
    | None => OBad
    | Some ot =>
      match t_new ot with
      | Some _ => match help_copy_table w o n with Some (w, _) => OOk w | None => OBad end
      | None =>
        let new_capacity := u32 (t_cap ot * grow_factor) in
        if alloc_ok new_capacity
        then let m := length (w_tables w) in
             let w := World (w_tables w ++ [new_table new_capacity]) (w_objs w) in
             let w := put_table w n (with_new ot (Some m)) in
             match copy_tables w o n m with Some w => OOk w | None => OBad end
        else OExn w
      end
    end
  | None =>
    if alloc_ok 4
    then let m := length (w_tables w) in
         let w := World (w_tables w ++ [new_table 4]) (w_objs w) in
         match props_of w o with
         | None => OBad
         | Some None => OOk (set_props w o (Some m))
         | Some (Some _) => OOk w
         end
    else OExn w
  end.

(* core/kos_object.c:498-546 find_property *)
Inductive get_status := GTryNewTable | GTryPrototype | GFound (v : pval) | GBad.

Fixpoint find_property_loop (fuel : nat) (t : table) (prop : key) (hash idx mask num_reprobes : Z) : get_status :=
  match fuel with
  | O => GBad
  | S f =>
    let idx := Z.land idx mask in
    match item_at t idx with
    | None => GBad
    | Some it =>
      match i_key it with
      | None => GTryPrototype
      | Some cur_key =>
        match i_val it with
        | Closed => GTryNewTable
        | cur_value =>
          if is_key_equal prop hash cur_key (i_hash it)
          then match cur_value with
               | Tomb => GTryPrototype
               | Rsvd => GBad
               | v => GFound v
               end
          else if num_reprobes =? 0 then GTryPrototype
          else find_property_loop f t prop hash (u32 (idx + 1)) mask (num_reprobes - 1)
        end
      end
    end
  end.

Definition find_property (t : table) (prop : key) (hash : Z) : get_status :=
  find_property_loop (S (S (Z.to_nat (t_cap t)))) t prop hash hash (t_cap t - 1) (t_cap t).

(* core/kos_object.c:470-491 find_valid_prototype; returns the object found and its table.
   [o] is the object, [props] what get_properties returned for it (None: KOS_NULL) *)
Fixpoint find_valid_prototype (fuel : nat) (w : world) (o : nat) (props : option (option nat)) : option (option (nat * nat)) :=
  match fuel with
  | O => None
  | S f =>
    match props with
    | Some (Some n) => Some (Some (o, n))
    | _ =>
      match nth_error (w_objs w) o with
      | None => None
      | Some ob =>
        match o_proto ob with
        | None => Some None
        | Some p => find_valid_prototype f w p (props_of w p)
        end
      end
    end
  end.

(* core/kos_object.c:590-612 loop of KOS_get_property_with_depth.  GTryPrototype as the result of
   the whole function is the exception "no such property". *)
Fixpoint get_loop (fuel : nat) (w : world) (o n : nat) (prop : key) (hash : Z) (shallow : bool) : get_status * world :=
  match fuel with
  | O => (GBad, w)
  | S f =>
    match get_table w n with
    | None => (GBad, w)
    | Some t =>
      match find_property t prop hash with
      | GFound v => (GFound v, w)
      | GTryPrototype =>
        if shallow then (GTryPrototype, w)
        else match find_valid_prototype (S (length (w_objs w))) w o None with
             | None => (GBad, w)
             | Some None => (GTryPrototype, w)
             | Some (Some (o, n)) => get_loop f w o n prop hash shallow
             end
      | GTryNewTable =>
        match help_copy_table w o n with
        | None => (GBad, w)
        | Some (w, m) => get_loop f w o m prop hash shallow
        end
      | GBad => (GBad, w)
      end
    end
  end.

Section Hash.
(* KOS_string_get_hash *)
Variable hash_of : key -> Z.

(* core/kos_object.c:548-614 KOS_get_property_with_depth; the property name is a string *)
Definition get_property (w : world) (o : nat) (prop : key) (shallow : bool) : get_status * world :=
  let props := props_of w o in
  let found := if shallow
               then match props with Some (Some n) => Some (Some (o, n)) | _ => Some None end
               else find_valid_prototype (S (length (w_objs w))) w o props in
  match found with
  | None => (GBad, w)
  | Some None => (GTryPrototype, w)
  | Some (Some (o, n)) => get_loop (S (length (w_objs w)) + length (w_tables w)) w o n prop (hash_of prop) shallow
  end.

(* core/kos_object.c:634-728 set_property *)
Inductive set_status := SSuccess (num_reprobes : Z) | STryAgain (n : nat) | SFailed | SCallSetter (v : Z) | SBad.

Fixpoint set_loop (fuel : nat) (w : world) (o n : nat) (prop : key) (hash : Z) (value : pval)
    (idx mask num_reprobes : Z) : set_status * world :=
  match fuel with
  | O => (SBad, w)
  | S f =>
    match get_table w n with
    | None => (SBad, w)
    | Some t =>
      let idx := Z.land idx mask in
      match item_at t idx with
      | None => (SBad, w)
      | Some it =>
        (* the slot of the key, and the table with the key in it *)
        let slot : option (table * pitem) :=
          match i_key it with
          | None =>
            let it := PItem (Some prop) hash (i_val it) in
            Some (with_used (set_item t idx it) (u32 (t_used t + 1)), it)
          | Some cur_key => if is_key_equal prop hash cur_key (i_hash it) then Some (t, it) else None
          end in
        match i_key it, value with
        | None, Tomb => (SSuccess num_reprobes, w)
        | _, _ =>
          match slot with
          | None =>
            if 8 <? num_reprobes
            then match resize_prop_table w o (Some n) 2 with
                 | OOk w => match props_of w o with
                            | Some (Some m) => (STryAgain m, w)
                            | _ => (SBad, w)
                            end
                 | OExn w => (SFailed, w)
                 | _ => (SBad, w)
                 end
            else set_loop f w o n prop hash value (u32 (idx + 1)) mask (num_reprobes + 1)
          | Some (t, it) =>
            match i_val it with
            | Closed =>
              let w := put_table w n t in
              match help_copy_table w o n with
              | Some (w, m) => (STryAgain m, w)
              | None => (SBad, w)
              end
            | oldval =>
              match oldval, value with
              | Dyn v, Val _ => (SCallSetter v, put_table w n t)
              | Dyn v, Dyn _ => (SCallSetter v, put_table w n t)
              | _, _ => (SSuccess num_reprobes, put_table w n (set_item t idx (PItem (i_key it) (i_hash it) value)))
              end
            end
          end
        end
      end
    end
  end.

Definition set_property_once (w : world) (o n : nat) (prop : key) (value : pval) : set_status * world :=
  match get_table w n with
  | None => (SBad, w)
  | Some t => set_loop 11 w o n prop (hash_of prop) value (hash_of prop) (t_cap t - 1) 0
  end.

(* core/kos_object.c:793-803 the loop of KOS_set_property; a table doubles with every retry *)
Fixpoint set_retry (fuel : nat) (w : world) (o n : nat) (prop : key) (value : pval) : ores world :=
  match fuel with
  | O => OBad
  | S f =>
    match set_property_once w o n prop value with
    | (SCallSetter v, w) => OSetter v w
    | (SFailed, w) => OExn w
    | (STryAgain m, w) => set_retry f w o m prop value
    | (SSuccess num_reprobes, w) =>
      match get_table w n with
      | None => OBad
      | Some t => if need_resize t num_reprobes then resize_prop_table w o (Some n) 2 else OOk w
      end
    | (SBad, _) => OBad
    end
  end.

(* core/kos_object.c:730-832 KOS_set_property *)
Definition set_property (w : world) (o : nat) (prop : key) (value : pval) : ores world :=
  match props_of w o with
  | None => OExn w
  | Some (Some n) => set_retry 40 w o n prop value
  | Some None =>
    match value with
    | Tomb => OOk w
    | _ =>
      match resize_prop_table w o None 0 with
      | OOk w => match props_of w o with
                 | Some (Some n) => set_retry 40 w o n prop value
                 | _ => OBad
                 end
      | r => r
      end
    end
  end.

(* core/kos_object.c:834-849 KOS_delete_property *)
Definition delete_property (w : world) (o : nat) (prop : key) : ores world :=
  match props_of w o with
  | None => OOk w
  | Some _ => set_property w o prop Tomb
  end.

(* core/kos_object.c:68-90 KOS_new_object_with_prototype *)
Definition new_object (w : world) (proto : option nat) : world * nat :=
  (World (w_tables w) (w_objs w ++ [Obj (Some None) proto]), length (w_objs w)).

(* inc/kos_entity.h KOS_ITERATOR of an object; k_returned is the object returned_keys *)
Record walker := Walker { k_index : Z; k_deep : bool; k_prop_obj : nat; k_table : option nat; k_returned : option nat }.

(* core/kos_object.c:1050-1099 kos_new_object_walk *)
Definition new_object_walk (w : world) (o : nat) (deep : bool) : world * walker :=
  let t := match props_of w o with Some (Some n) => Some n | _ => None end in
  if deep
  then let '(w, r) := new_object w None in (w, Walker 0 true o t (Some r))
  else (w, Walker 0 false o t None).

(* core/kos_object.c:1136-1160, next prototype with a property table *)
Fixpoint next_prototype (fuel : nat) (w : world) (o : nat) : option (option (nat * nat)) :=
  match fuel with
  | O => None
  | S f =>
    match nth_error (w_objs w) o with
    | None => None
    | Some ob =>
      match o_proto ob with
      | None => Some None
      | Some p => match props_of w p with
                  | Some (Some n) => Some (Some (p, n))
                  | _ => next_prototype f w p
                  end
      end
    end
  end.

(* core/kos_object.c:1101-1225 kos_object_walk; returns the key and the value, or None at the end *)
Fixpoint walk_loop (fuel : nat) (w : world) (k : walker) : ores (option (key * pval) * walker * world) :=
  match fuel with
  | O => OBad
  | S f =>
    let capacity := match k_table k with
                    | None => Some 0
                    | Some n => match get_table w n with Some t => Some (t_cap t) | None => None end
                    end in
    match capacity with
    | None => OBad
    | Some capacity =>
      let index := k_index k in
      let k := Walker (u32 (index + 1)) (k_deep k) (k_prop_obj k) (k_table k) (k_returned k) in
      if capacity <=? index
      then
        if k_deep k
        then match next_prototype (S (length (w_objs w))) w (k_prop_obj k) with
             | None => OBad
             | Some None => OOk (None, k, w)
             | Some (Some (p, n)) => walk_loop f w (Walker 0 true p (Some n) (k_returned k))
             end
        else OOk (None, k, w)
      else
        match k_table k with
        | None => OBad
        | Some n =>
          match get_table w n with
          | None => OBad
          | Some t =>
            match item_at t index with
            | None => OBad
            | Some it =>
              match i_key it with
              | None => walk_loop f w k
              | Some prop =>
                (* Some w: continue with this slot *)
                let returned : ores (option world) :=
                  match k_returned k with
                  | None => OOk (Some w)
                  | Some r =>
                    match get_property w r prop true with
                    | (GFound _, w) => OOk None
                    | (GTryPrototype, w) =>
                      match set_property w r prop (Val 0) with
                      | OOk w => OOk (Some w)
                      | OExn w => OExn w
                      | _ => OBad
                      end
                    | _ => OBad
                    end
                  end in
                match returned with
                | OOk None => walk_loop f w k
                | OOk (Some w) =>
                  match i_val it with
                  | Tomb => walk_loop f w k
                  | Closed | Rsvd =>
                    match get_property w (k_prop_obj k) prop true with
                    | (GFound v, w) => OOk (Some (prop, v), k, w)
                    | (GTryPrototype, w) => walk_loop f w k
                    | _ => OBad
                    end
                  | v => OOk (Some (prop, v), k, w)
                  end
                | OExn w => OExn w
                | _ => OBad
                end
              end
            end
          end
        end
    end
  end.

(* number of steps which suffice: all slots, for every object on the way *)
Definition total_slots (w : world) : nat := fold_right (fun t n => (length (t_items t) + n)%nat) 0%nat (w_tables w).
Definition walk_fuel (w : world) : nat := (S (length (w_objs w)) * (total_slots w + 2))%nat.

Definition object_walk (w : world) (k : walker) : ores (option (key * pval) * walker * world) :=
  walk_loop (walk_fuel w) w k.

(* core/kos_object.c:1101-1225 called until the end *)
Fixpoint walk_list (fuel : nat) (w : world) (k : walker) : ores (list (key * pval)) :=
  match fuel with
  | O => OBad
  | S f =>
    match object_walk w k with
    | OOk (None, _, _) => OOk []
    | OOk (Some x, k, w) => match walk_list f w k with
                            | OOk l => OOk (x :: l)
                            | OExn w => OExn w
                            | OSetter v w => OSetter v w
                            | OBad => OBad
                            end
    | OExn w => OExn w
    | OSetter v w => OSetter v w
    | OBad => OBad
    end
  end.

End Hash.
End Alloc.
