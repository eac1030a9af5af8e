(* Specification of buffers: operations on byte lists.  Positions and slices are those of
   ArraySpec. *)
From Coq Require Import ZArith List Lia Bool.
Import ListNotations.
From Verif Require Import Base ArraySpec.
Local Open Scope Z_scope.

Inductive bop :=
| BResize (n value : Z) | BFill (value : Z) (b e : option Z) | BReserve (n : Z)
| BGet (i : Z) | BSet (i value : Z) | BAppend (bytes : list Z) | BSlice (b e : option Z)
| BCopy (pos : option Z) (src : list Z) (sb se : option Z) | BCopySelf (pos sb se : option Z).

Inductive bout := BVal (v : Z) | BList (l : list Z) | BUnit | BErr.

Definition byte_ok (v : Z) : bool := (0 <=? v) && (v <=? 255).
Definition size_ok (n : Z) : bool := (0 <=? n) && (n <=? 2147483647).

Definition bytes_resize (l : list Z) (n value : Z) : list Z :=
  firstn (Z.to_nat n) l ++ repeat value (Z.to_nat (n - llen l)).

(* an omitted begin is the first position, an omitted end is the position after the last byte *)
Definition from_pos (n : Z) (i : option Z) : Z := match i with None => 0 | Some i => pos_of n i end.
Definition to_pos (n : Z) (i : option Z) : Z := match i with None => n | Some i => pos_of n i end.

(* the end position never precedes the begin position *)
Definition bytes_fill (l : list Z) (value : Z) (b e : option Z) : list Z :=
  let from := from_pos (llen l) b in
  let to := Z.max from (to_pos (llen l) e) in
  splice l from to (repeat value (Z.to_nat (to - from))).

(* bytes of [ins] overwrite those at [pos], whatever does not fit is dropped *)
Definition overwrite (l : list Z) (pos : Z) (ins : list Z) : list Z :=
  let n := Z.min (llen ins) (llen l - pos) in
  splice l pos (pos + n) (firstn (Z.to_nat n) ins).

Definition bytes_slice (l : list Z) (b e : option Z) : list Z :=
  sub l (from_pos (llen l) b) (to_pos (llen l) e).

Definition bytes_step (l : list Z) (o : bop) : list Z * bout :=
  match o with
  | BResize n value => if size_ok n && byte_ok value then (bytes_resize l n value, BUnit) else (l, BErr)
  | BFill value b e => if byte_ok value then (bytes_fill l value b e, BUnit) else (l, BErr)
  | BReserve n => (l, if size_ok n then BUnit else BErr)
  | BGet i => match elem_pos (llen l) i with
              | Some k => match nth_error l k with Some v => (l, BVal v) | None => (l, BErr) end
              | None => (l, BErr) end
  | BSet i value => if byte_ok value then
                      match elem_pos (llen l) i with Some k => (replace l k value, BUnit) | None => (l, BErr) end
                    else (l, BErr)
  | BAppend bytes => (l ++ bytes, BUnit)
  | BSlice b e => (l, BList (bytes_slice l b e))
  | BCopy pos src sb se => (overwrite l (from_pos (llen l) pos) (bytes_slice src sb se), BUnit)
  | BCopySelf pos sb se => (overwrite l (from_pos (llen l) pos) (bytes_slice l sb se), BUnit)
  end.

Fixpoint bytes_run (l : list Z) (os : list bop) : list bout * list Z :=
  match os with
  | [] => ([], l)
  | o :: r => let (l', x) := bytes_step l o in let (xs, lf) := bytes_run l' r in (x :: xs, lf)
  end.

(* every intermediate buffer holds at most INT_MAX bytes; appended data is not empty *)
Definition bop_ok (l : list Z) (o : bop) : Prop :=
  llen (fst (bytes_step l o)) <= 2147483647 /\
  match o with
  | BAppend bytes => bytes <> []
  | BCopy _ src _ _ => llen src <= 2147483647
  | _ => True
  end.
Fixpoint bops_ok (l : list Z) (os : list bop) : Prop :=
  match os with
  | [] => True
  | o :: r => bop_ok l o /\ bops_ok (fst (bytes_step l o)) r
  end.
