(* Model of array.prototype.sort, modules/kos_mod_base.c:2154-2430. *)
From Coq Require Import ZArith List Bool Arith.
Open Scope nat_scope.
Import ListNotations.

(* KOS_COMPARE_RESULT, inc/kos_utils.h *)
Inductive cmp_result := CLess | CEqual | CGreater | CIndet.

Definition cmp_eqb (a b : cmp_result) : bool :=
  match a, b with
  | CLess, CLess | CEqual, CEqual | CGreater, CGreater | CIndet, CIndet => true
  | _, _ => false
  end.

Section Sort.

Variable K V : Type.
Variable compare : K -> K -> cmp_result.   (* KOS_compare *)

(* One slot of the expanded array: key, original index, value.  The C code
   stores slots flat, as 2 (no key function, the key is the value) or 3
   consecutive elements; the model always uses 3 and identifies a slot with
   one list element, so pointers advance by 1 instead of by step. *)
Record slot := Slot { s_key : K; s_idx : nat; s_val : V }.

(* expand_for_sort, modules/kos_mod_base.c:2154-2216.  keyf is the effect free
   result of the key function; key functions which modify the array are not
   covered here. *)
Fixpoint expand (keyf : V -> K) (i : nat) (l : list V) : list slot :=
  match l with
  | [] => []
  | v :: r => Slot (keyf v) i v :: expand keyf (S i) r
  end.

(* is_less_for_sort, modules/kos_mod_base.c:2218-2237.  Indexes are tagged
   small integers, whose pointer order is the integer order. *)
Definition is_less (reverse : bool) (l r : slot) : bool :=
  let lt := if reverse then CGreater else CLess in
  let gt := if reverse then CLess else CGreater in
  let c := compare (s_key l) (s_key r) in
  if cmp_eqb c lt then true
  else if cmp_eqb c gt then false
  else if cmp_eqb lt CLess then s_idx l <? s_idx r
  else s_idx r <? s_idx l.

(* Element write; None is an access outside of the array. *)
Fixpoint wr (a : list slot) (i : nat) (x : slot) : option (list slot) :=
  match a, i with
  | [], _ => None
  | _ :: r, O => Some (x :: r)
  | y :: r, S j => match wr r j x with None => None | Some r' => Some (y :: r') end
  end.

(* The loop at modules/kos_mod_base.c:2254-2279; n = number of slots left
   before the pivot slot, mid1 is "mid + step". *)
Fixpoint part_loop (reverse : bool) (pivot : slot) (n : nat) (a : list slot) (p mid1 : nat)
  : option (list slot * nat) :=
  match n with
  | O => Some (a, mid1)
  | S k =>
    match nth_error a p with
    | None => None
    | Some x =>
      if is_less reverse x pivot then
        match nth_error a mid1 with
        | None => None
        | Some m =>
          match wr a p m with
          | None => None
          | Some a1 =>
            match wr a1 mid1 x with
            | None => None
            | Some a2 => part_loop reverse pivot k a2 (S p) (S mid1)
            end
          end
        end
      else part_loop reverse pivot k a (S p) mid1
    end
  end.

(* sort_range, modules/kos_mod_base.c:2239-2308; b and e delimit the range.
   Running out of fuel is reported as None, like an invalid access. *)
Fixpoint sort_range (fuel : nat) (reverse : bool) (a : list slot) (b e : nat) : option (list slot) :=
  match fuel with
  | O => None
  | S k =>
    match nth_error a (e - 1) with
    | None => None
    | Some pivot =>
      match part_loop reverse pivot (e - 1 - b) a b b with
      | None => None
      | Some (a1, mid) =>
        match nth_error a1 mid with
        | None => None
        | Some m =>
          match (if is_less reverse pivot m then
                   match wr a1 (e - 1) m with
                   | None => None
                   | Some a2 => wr a2 mid pivot
                   end
                 else Some a1) with
          | None => None
          | Some a3 =>
            match (if b + 1 <? mid then sort_range k reverse a3 b mid else Some a3) with
            | None => None
            | Some a4 =>
              if mid + 1 <? e - 1 then sort_range k reverse a4 (mid + 1) e else Some a4
            end
          end
        end
      end
    end
  end.

(* sort, modules/kos_mod_base.c:2376-2430, with copy_sort_results :2310-2342. *)
Definition sort (keyf : V -> K) (reverse : bool) (l : list V) : option (list V) :=
  if 1 <? length l then
    match sort_range (length l) reverse (expand keyf 0 l) 0 (length l) with
    | None => None
    | Some a => Some (map s_val a)
    end
  else Some l.

End Sort.

Arguments Slot {K V}.
Arguments s_key {K V}.
Arguments s_idx {K V}.
Arguments s_val {K V}.
Arguments is_less {K V}.
Arguments expand {K V}.
Arguments wr {K V}.
Arguments part_loop {K V}.
Arguments sort_range {K V}.
Arguments sort {K V}.
