(* Model of regular expression character classes:
   modules/kos_mod_re.c:557-679 (add_class_range), :1501-1532 (match_class),
   :747-772 (predefined classes).
   A class is the list of its ranges; uint16_t limits on the number of ranges
   and memory allocation failures are not modelled. *)
From Coq Require Import ZArith List Bool Arith.
From Verif Require Import Base.
Import ListNotations.
Open Scope Z_scope.

Notation range := (Z * Z)%type.   (* struct RE_CLASS_RANGE, :218-221 *)

(* Binary search, modules/kos_mod_re.c:585-603.  None: out of fuel or access
   outside of the array (neither happens, see ReClassProofs). *)
Fixpoint find_pos (fuel : nat) (rs : list range) (code : Z) (lo hi : nat) : option (nat * nat) :=
  if (lo <? hi)%nat then
    match fuel with
    | O => None
    | S k =>
      let mid := ((lo + hi) / 2)%nat in
      match nth_error rs mid with
      | None => None
      | Some (mb, _) =>
        if code =? mb then Some (mid, mid)
        else if code <? mb then find_pos k rs code lo mid
        else find_pos k rs code (S mid) hi
      end
    end
  else Some (lo, hi).

Fixpoint upd (rs : list range) (i : nat) (r : range) : list range :=
  match rs, i with
  | [], _ => []
  | _ :: t, O => r :: t
  | x :: t, S j => x :: upd t j r
  end.

(* modules/kos_mod_re.c:633-635: first range at or after end which does not
   touch the new range. *)
Fixpoint skip_touching (rs : list range) (end_code : Z) (i : nat) : nat :=
  match rs with
  | [] => i
  | (b, _) :: t => if u32 (end_code + 1) <? b then i else skip_touching t end_code (S i)
  end.

(* add_class_range, modules/kos_mod_re.c:557-679 *)
Definition add_class_range (rs : list range) (begin_code end_code : Z) : option (list range) :=
  let num := length rs in
  match find_pos (S num) rs begin_code 0 num with
  | None => None
  | Some (begin, en) =>
    if (begin =? num)%nat then
      (* :605-627 *)
      match num with
      | O => Some [(begin_code, end_code)]
      | S l =>
        match nth_error rs l with
        | None => None
        | Some (lb, le) =>
          if begin_code <=? u32 (le + 1) then
            if end_code >? le then Some (upd rs l (lb, end_code)) else Some rs
          else Some (rs ++ [(begin_code, end_code)])
        end
      end
    else
      (* :630-631 *)
      match (match begin with
             | O => Some (begin, rs)
             | S p =>
               match nth_error rs p with
               | None => None
               | Some (pb, pe) =>
                 if begin_code <=? u32 (pe + 1) then Some (p, upd rs p (pb, end_code))
                 else Some (begin, rs)
               end
             end) with
      | None => None
      | Some (begin1, rs1) =>
        let en1 := skip_touching (skipn en rs1) end_code en in
        if (begin1 <? en1)%nat then
          (* :637-663 *)
          match nth_error rs1 begin1, nth_error rs1 (en1 - 1) with
          | Some (jb, je), Some (_, last_end) =>
            let jb1 := if begin_code <? jb then begin_code else jb in
            let end1 := if last_end >? end_code then last_end else end_code in
            let je1 := if end1 >? je then end1 else je in
            Some (firstn begin1 rs1 ++ (jb1, je1) :: skipn en1 rs1)
          | _, _ => None
          end
        else
          (* :669-678 *)
          Some (firstn begin1 rs1 ++ (begin_code, end_code) :: skipn en1 rs1)
      end
  end.

(* match_class, modules/kos_mod_re.c:1501-1532 *)
Fixpoint match_loop (fuel : nat) (rs : list range) (code : Z) (lo hi : nat) : option bool :=
  match fuel with
  | O => None
  | S k =>
    let mid := ((lo + hi) / 2)%nat in
    match nth_error rs mid with
    | None => None
    | Some (b, e) =>
      if code <? b then
        (if (lo <? mid)%nat then match_loop k rs code lo mid else Some false)
      else if code >? e then
        (if (S mid <? hi)%nat then match_loop k rs code (S mid) hi else Some false)
      else Some true
    end
  end.

Definition match_class (rs : list range) (code : Z) : option bool :=
  match_loop (length rs) rs code 0 (length rs).

(* The ranges of a class added one after another, as in parse_class,
   modules/kos_mod_re.c:681-744; the range syntax itself and the check
   begin <= end of :721-731 are taken as given. *)
Fixpoint build_class (rs : list range) (l : list range) : option (list range) :=
  match l with
  | [] => Some rs
  | (b, e) :: t =>
    match add_class_range rs b e with
    | None => None
    | Some rs1 => build_class rs1 t
    end
  end.

(* \d and \w, modules/kos_mod_re.c:747-772 *)
Definition digit_ranges : list range := [(48, 57)].
Definition word_ranges : list range := [(97, 122); (95, 95); (65, 90); (48, 57)].
