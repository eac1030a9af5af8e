(** Model of the classes queue and stack, modules/threads.kos:4-76, used by many
    threads.

    The statements within [with this.mutex] are one step, like the addition of
    release; acquire is one step for each time it lowers the value of the semaphore
    (see SemModel for both, and C131 for the mutex).

    The argument of pop may be a float.  Counts, [front] and [size] are given in
    halves, so that integers and halves are covered. *)
From Coq Require Import ZArith List Lia Bool ZifyBool.
Import ListNotations.
From Verif Require Import Base QueueSpec SemSpec.
Local Open Scope Z_scope.

Inductive qpc :=
| QIdle
| QRel (k : Z)                          (* push: at line 19 *)
| QAcq (one : bool) (h c : Z)           (* pop: in acquire, [c] units are missing *)
| QTake (one : bool) (h : Z).           (* pop: at line 40 or 70 *)

(** [lost] counts units for which release failed; [hist] is a ghost: the sections
    with the mutex in their order; [thrown] tells that [elems[0]] of no element or
    a pop of an empty array has thrown. *)
Record coll := mkcoll {
  elems : list Z;
  front : Z;      (* halves *)
  size : Z;       (* halves *)
  value : Z;
  lost : Z;
  thrown : bool;
  hist : list event;
  qpcs : list qpc
}.

Fixpoint set_qpc (l : list qpc) (t : nat) (p : qpc) : list qpc :=
  match l, t with
  | [], _ => []
  | _ :: r, O => p :: r
  | x :: r, S k => x :: set_qpc r k p
  end.

(** [collection[b:e]] with indexes of halves, which are rounded down; within the
    array, as [b] and [e] are not negative. *)
Definition slice (l : list Z) (b e : Z) : list Z :=
  firstn (Z.to_nat (e / 2 - b / 2)) (skipn (Z.to_nat (b / 2)) l).

(** The section of queue.pop, lines 40-55. *)
Definition queue_take (one : bool) (h : Z) (s : coll) : list Z * Z * Z * list Z * bool :=
  let size1 := size s - h in
  let oldfr := front s in
  let front1 := oldfr + h in
  let es := slice (elems s) oldfr front1 in
  let throw := one && match es with [] => true | _ => false end in
  if (16 <? front1) && ((size1 <? 4 * front1) || (256 <? front1))
  then (skipn (Z.to_nat (front1 / 2)) (elems s), 0, size1, es, throw)
  else (elems s, front1, size1, es, throw).

(** The section of stack.pop, lines 70-74; collection.pop gives elements one by
    one from the end and throws when there are none. *)
Definition stack_take (h : Z) (s : coll) : list Z * Z * Z * list Z * bool :=
  let n := Z.to_nat (h / 2) in
  if Nat.leb n (length (elems s)) then
    let k := (length (elems s) - n)%nat in
    (firstn k (elems s), front s, size s - h, skipn k (elems s), false)
  else ([], front s, size s, [], true).

Inductive qact := Push (es : list Z) | Pop (one : bool) (h : Z) | QContinue.

Definition MAX_SEM : Z := 2147483647.

Definition qrun (fifo : bool) (t : nat) (p : qpc) (s : coll) : option coll :=
  match p with
  | QIdle => None
  | QRel k =>
      if value s + k <=? MAX_SEM
      then Some (mkcoll (elems s) (front s) (size s) (value s + k) (lost s) (thrown s) (hist s) (set_qpc (qpcs s) t QIdle))
      else Some (mkcoll (elems s) (front s) (size s) (value s) (lost s + k) (thrown s) (hist s) (set_qpc (qpcs s) t QIdle))
  | QAcq one h c =>
      let d := if c <? value s then c else value s in
      if d =? 0 then None
      else Some (mkcoll (elems s) (front s) (size s) (value s - d) (lost s) (thrown s) (hist s)
                   (set_qpc (qpcs s) t (if c - d =? 0 then QTake one h else QAcq one h (c - d))))
  | QTake one h =>
      let '(l, f, sz, es, th) := if fifo then queue_take one h s else stack_take h s in
      Some (mkcoll l f sz (value s) (lost s) (thrown s || th) (hist s ++ [EPop (Z.to_nat (h / 2)) es])
              (set_qpc (qpcs s) t QIdle))
  end.

(** push of no elements (14) and pop of 0 (34-36, 64-66) do nothing and are left
    out; acquire throws for other counts below 1 and above KOS_MAX_SEM. *)
Definition qstep (fifo : bool) (t : nat) (a : qact) (s : coll) : option coll :=
  match nth_error (qpcs s) t with
  | None => None
  | Some p =>
      match a, p with
      | Push (e :: r), QIdle =>
          let es := e :: r in
          Some (mkcoll (elems s ++ es) (front s) (size s + 2 * Z.of_nat (length es)) (value s) (lost s) (thrown s)
                  (hist s ++ [EPush es]) (set_qpc (qpcs s) t (QRel (Z.of_nat (length es)))))
      | Pop one h, QIdle =>
          let h1 := if one then 2 else h in
          if (1 <=? h1 / 2) && (h1 / 2 <=? MAX_SEM)
          then Some (mkcoll (elems s) (front s) (size s) (value s) (lost s) (thrown s) (hist s)
                       (set_qpc (qpcs s) t (QAcq one h1 (h1 / 2))))
          else None
      | QContinue, _ => qrun fifo t p s
      | _, _ => None
      end
  end.

Definition qinit (threads : nat) : coll := mkcoll [] 0 0 0 0 false [] (repeat QIdle threads).

(** [ints]: counts are integers. *)
Inductive qreachable (ints fifo : bool) (threads : nat) : coll -> Prop :=
| QR_init : qreachable ints fifo threads (qinit threads)
| QR_step : forall s t a s', qreachable ints fifo threads s ->
    (ints = true -> forall one h, a = Pop one h -> Z.even h = true) ->
    qstep fifo t a s = Some s' -> qreachable ints fifo threads s'.

Definition held (p : qpc) : Z :=
  match p with QIdle => 0 | QRel k => k | QAcq _ h c => h / 2 - c | QTake _ h => h / 2 end.
