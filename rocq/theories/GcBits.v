(* Model of the mark bitmap of a page, core/kos_heap.c: eight 32-bit words with
   two bits for each slot.  A bitmap is given as a map from the number of the
   word to its value; a location is the number of a word and the position of
   the mark in it. *)
From Coq Require Import ZArith List Lia Bool ZifyBool.
Import ListNotations.
From Verif Require Import Base ListZ GcModel.
Local Open Scope Z_scope.

Record loc : Type := mkloc { l_word : Z; l_mask : Z }.

(* core/kos_heap.c:1303-1318.  The address of the page is left out. *)
Definition get_mark_location (obj_id : Z) : loc :=
  let offs := Z.land obj_id (PAGE_SIZE - 1) in
  let slot := Z.shiftr (u32 (offs - SLOTS_OFFS)) 5 in
  mkloc (Z.shiftr slot 4) (u32 (Z.land slot 15 * 2)).

(* core/kos_heap.c:1325-1332 *)
Definition advance_marking (m : loc) (num_slots : Z) : loc :=
  let mask_idx := u32 (l_mask m + u32 (num_slots * 2)) in
  mkloc (l_word m + Z.shiftr mask_idx 5) (Z.land mask_idx 31).

(* core/kos_heap.c:1334-1345, __builtin_ctz: the number of zeros below the
   lowest bit set; undefined for 0. *)
Fixpoint ctz_pos (p : positive) : Z :=
  match p with xO q => 1 + ctz_pos q | _ => 0 end.
Definition ctz (v : Z) : Z := match v with Zpos p => ctz_pos p | _ => 0 end.

(* core/kos_heap.c:1346-1363 *)
Definition de_bruijn_bit_pos : list Z :=
  [0; 1; 28; 2; 29; 14; 24; 3; 30; 22; 20; 15; 25; 17; 4; 8;
   31; 27; 13; 23; 21; 19; 16; 7; 26; 12; 18; 6; 11; 5; 10; 9].
Definition find_first_set_portable (v : Z) : option Z :=
  gz de_bruijn_bit_pos (Z.shiftr (u32 (Z.land v (u32 (- v)) * 125613361)) 27).

(* core/kos_heap.c:1365-1415.  The pointers are slot numbers.  The value
   returned, the slot and the location afterwards; the loop is over the words
   of the page. *)
Fixpoint skip_words (fuel : nat) (bm : Z -> Z) (ptr e w : Z) : option (Z * Z * Z) :=
  match fuel with
  | O => None
  | S k => let w' := w + 1 in
           let ptr' := ptr + 16 in
           if e <=? ptr' then None
           else let v := bm w' in
                if v =? 0 then skip_words k bm ptr' e w' else Some (v, ptr', w')
  end.

Definition skip_white_bits (bm : Z -> Z) (ptr e : Z) (m : loc) : Z * Z * loc :=
  let value := Z.shiftr (bm (l_word m)) (l_mask m) in
  if negb (Z.land value 3 =? 0) then (Z.land value 3, ptr, m)
  else
    let found v p w mi :=
      let slot_idx := Z.shiftr (ctz v) 1 in
      let bit_idx := slot_idx * 2 in
      (Z.land (Z.shiftr v bit_idx) 3, p + slot_idx, mkloc w (u32 (mi + bit_idx))) in
    if value =? 0 then
      match skip_words 8 bm (ptr - Z.shiftr (l_mask m) 1) e (l_word m) with
      | Some (v, p, w) => found v p w 0
      | None => (0, ptr, m)
      end
    else found value ptr (l_word m) (l_mask m).

(* core/kos_heap.c:1417-1422 *)
Definition get_marking (bm : Z -> Z) (m : loc) : Z := Z.land (Z.shiftr (bm (l_word m)) (l_mask m)) 3.

(* core/kos_heap.c:1424-1439: the read and the compare and swap which succeeds
   are taken as one step; a failed one repeats the loop. *)
Definition set_mark_state_loc (bm : Z -> Z) (m : loc) (state : Z) : bool * (Z -> Z) :=
  let mask := u32 (Z.shiftl state (l_mask m)) in
  let value := bm (l_word m) in
  if negb (Z.land value mask =? 0) then (false, bm)
  else (true, fupd bm (l_word m) (Z.lor value mask)).

(* core/kos_heap.c:1441-1461; [fuel] is the number of words. *)
Fixpoint clear_words (fuel : nat) (bm : Z -> Z) (w num_slots : Z) : Z -> Z :=
  match fuel with
  | O => bm
  | S k =>
    if 16 <=? num_slots then clear_words k (fupd bm w 0) (w + 1) (num_slots - 16)
    else if num_slots =? 0 then bm
    else fupd bm w (Z.land (bm w) (u32 (Z.shiftl 4294967295 (num_slots * 2))))
  end.

Definition clear_page_bits (bm : Z -> Z) (size : Z) : Z -> Z :=
  clear_words 9 bm 0 (Z.shiftr size 5).

(* core/kos_heap.c:1272-1287: memset with the byte [state * 0x55]. *)
Definition set_marking_bits (state : Z) : Z -> Z :=
  fun _ => let b := (state * 85) mod 256 in b + 256 * b + 65536 * b + 16777216 * b.
