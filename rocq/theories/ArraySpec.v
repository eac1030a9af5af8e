(* Specification of arrays: operations on plain lists. *)
From Coq Require Import ZArith List Lia Bool ZifyBool.
Import ListNotations.
From Verif Require Import Base.
Local Open Scope Z_scope.

Section Spec.
Context {V : Type}.
Variable void : V.
Variable veq : V -> V -> bool.

Definition llen {A} (l : list A) : Z := Z.of_nat (length l).

(* position denoted by an index: negative counts from the end, out of range is clamped *)
Definition pos_of (n i : Z) : Z := Z.max 0 (Z.min n (if i <? 0 then n + i else i)).

(* elements at positions from <= i < to *)
Definition sub {A} (l : list A) (from to : Z) : list A :=
  firstn (Z.to_nat (to - from)) (skipn (Z.to_nat from) l).

Definition list_slice {A} (l : list A) (b e : Z) : list A :=
  sub l (pos_of (llen l) b) (pos_of (llen l) e).

(* replace positions from <= i < to by [ins] *)
Definition splice {A} (l : list A) (from to : Z) (ins : list A) : list A :=
  firstn (Z.to_nat from) l ++ ins ++ skipn (Z.to_nat to) l.

Definition list_insert {A} (l : list A) (b e : Z) (ins : list A) : list A :=
  let from := pos_of (llen l) b in
  let to := Z.max from (pos_of (llen l) e) in
  splice l from to ins.

(* element access: 0 is the first, -1 the last, anything outside is an error *)
Definition elem_pos (n i : Z) : option nat :=
  if (0 <=? i) && (i <? n) then Some (Z.to_nat i)
  else if (- n <=? i) && (i <? 0) then Some (Z.to_nat (n + i))
  else None.

Fixpoint replace {A} (l : list A) (k : nat) (x : A) : list A :=
  match l, k with
  | [], _ => []
  | _ :: t, O => x :: t
  | h :: t, S k => h :: replace t k x
  end.

Definition list_resize (l : list V) (n : Z) : list V :=
  firstn (Z.to_nat n) l ++ repeat void (Z.to_nat (n - llen l)).

Definition list_fill (l : list V) (b e : Z) (v : V) : list V :=
  let from := pos_of (llen l) b in
  let to := pos_of (llen l) e in
  if from <? to then splice l from to (repeat v (Z.to_nat (to - from))) else l.

Inductive op :=
| ORead (i : Z) | OWrite (i : Z) (v : V) | OCas (i : Z) (old new : V)
| OPush (v : V) | OPop | OResize (n : Z) | OReserve (n : Z)
| OFill (b e : Z) (v : V) | OSlice (b e : Z)
| OInsert (b e : Z) (src : list V)      (* insert another array *)
| OInsertSelf (b e : Z).                (* insert the array into itself *)

Inductive out :=
| RVal (v : V) | RIdx (i : Z) | RList (l : list V) | RUnit | RExn | ROom.

Definition list_step (l : list V) (o : op) : list V * out :=
  match o with
  | ORead i => match elem_pos (llen l) i with
               | Some k => match nth_error l k with Some v => (l, RVal v) | None => (l, RExn) end
               | None => (l, RExn) end
  | OWrite i v => match elem_pos (llen l) i with Some k => (replace l k v, RUnit) | None => (l, RExn) end
  | OCas i old new => match elem_pos (llen l) i with
               | Some k => match nth_error l k with
                           | Some v => (if veq v old then replace l k new else l, RVal v)
                           | None => (l, RExn) end
               | None => (l, RExn) end
  | OPush v => (l ++ [v], RIdx (llen l))
  | OPop => match rev l with [] => (l, RExn) | v :: r => (rev r, RVal v) end
  | OResize n => (list_resize l n, RUnit)
  | OReserve n => (l, RUnit)
  | OFill b e v => (list_fill l b e v, RUnit)
  | OSlice b e => (l, RList (list_slice l b e))
  | OInsert b e src => (list_insert l b e src, RUnit)
  | OInsertSelf b e => (list_insert l b e l, RUnit)
  end.

(* the only operations allowed to fail for lack of memory: those which would make the array
   (or its capacity) larger than 2^27 elements *)
Definition may_oom (l : list V) (o : op) : Prop :=
  2 ^ 27 < llen (fst (list_step l o)) \/ (exists n, o = OReserve n /\ 2 ^ 28 <= n) .

(* a trace of results agrees with the list semantics; a failed operation changes nothing *)
Inductive trace_ok : list V -> list op -> list out -> list V -> Prop :=
| tr_nil l : trace_ok l [] [] l
| tr_step l o os outs lf : trace_ok (fst (list_step l o)) os outs lf ->
    trace_ok l (o :: os) (snd (list_step l o) :: outs) lf
| tr_oom l o os outs lf : may_oom l o -> trace_ok l os outs lf ->
    trace_ok l (o :: os) (ROom :: outs) lf.

(* argument ranges guaranteed by the callers *)
Definition op_ok (o : op) : Prop :=
  match o with
  | OCas i _ _ => - 2 ^ 31 <= i < 2 ^ 31
  | OResize n | OReserve n => 0 <= n < 2 ^ 32
  | OInsert _ _ src => llen src < 2 ^ 28
  | _ => True
  end.

End Spec.
Arguments op V : clear implicits.
Arguments out V : clear implicits.
