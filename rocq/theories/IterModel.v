(* Generators and sequence functions of modules/base.kos and modules/iter.kos, and the loop
   which core/kos_compiler.c emits for "for x in range(...)".

   A generator is a state machine: one call resumes it until it yields a value, returns, or
   executes undefined behaviour of C.  Values are opaque except where the code computes with
   them; integers are Z within int64.  Errors raised by user-supplied iterables, objects with
   their own iterator() method, floating-point arguments and several threads are not modelled. *)
From Coq Require Import ZArith List Lia Bool ZifyBool.
Import ListNotations.
From Verif Require Import Base IndexModel ArrayModel BufferModel.
Local Open Scope Z_scope.

Inductive step (T A : Type) : Type :=
| Yield (a : A) (s : T)
| Done (s : T)
| Undef.              (* undefined behaviour *)
Arguments Yield {T A} a s.
Arguments Done {T A} s.
Arguments Undef {T A}.

Inductive status (T : Type) : Type :=
| Running (s : T)     (* suspended after the last requested value *)
| Finished (s : T)    (* the generator has returned *)
| Undefined.
Arguments Running {T} s.
Arguments Finished {T} s.
Arguments Undefined {T}.

(* what [n] calls of a generator give *)
Fixpoint take {T A} (next : T -> step T A) (n : nat) (s : T) : list A * status T :=
  match n with
  | O => ([], Running s)
  | S k =>
      match next s with
      | Yield a s' => let (l, r) := take next k s' in (a :: l, r)
      | Done s' => ([], Finished s')
      | Undef => ([], Undefined)
      end
  end.

(* core/kos_vm.c:48-75 add_integer on two integers: signed addition in C.  An overflow is
   undefined behaviour; with [wraps] the compiled code wraps around, which is what common
   compilers produce here. *)
Definition iadd (wraps : bool) (a b : Z) : option Z :=
  if (INT64_MIN <=? a + b) && (a + b <=? INT64_MAX) then Some (a + b)
  else if wraps then Some (s64 (a + b)) else None.

(* ---- modules/base.kos:43-73 range ---- *)

(* [args] are the optional arguments after start; gives start, stop, step *)
Definition range_args (start : Z) (args : list Z) : Z * Z * Z :=
  match args with
  | [] => (0, start, 1)
  | [stop] => (start, stop, 1)
  | stop :: step :: _ => (start, stop, step)
  end.

Inductive rng := RStart (start : Z) | RAfter (start : Z) | REnd.

(* the two while loops; RAfter: suspended at the yield *)
Definition range_next (wraps : bool) (stop stp : Z) (s : rng) : step rng Z :=
  let test start :=
    if 0 <? stp then (if start <? stop then Yield start (RAfter start) else Done REnd)
    else if stp <? 0 then (if stop <? start then Yield start (RAfter start) else Done REnd)
    else Done REnd in
  match s with
  | RStart start => test start
  | RAfter start =>
      match iadd wraps start stp with
      | Some start' => test start'
      | None => Undef
      end
  | REnd => Done REnd
  end.

Definition range (wraps : bool) (n : nat) (start : Z) (args : list Z) : list Z * status rng :=
  let '(b, e, s) := range_args start args in take (range_next wraps e s) n (RStart b).

(* ---- core/kos_compiler.c:2640-2854 for_range ---- *)

(* The emitted code jumps to the test, INSTR_CMP_LT with the operands swapped when the constant
   step is negative, and runs the body with the loop variable set to the iteration register;
   after the body INSTR_ADD.  The values the body sees are those yielded here. *)
Definition for_range_next (wraps : bool) (stop stp : Z) (s : rng) : step rng Z :=
  let test iter :=
    if (if stp <? 0 then stop <? iter else iter <? stop) then Yield iter (RAfter iter) else Done REnd in
  match s with
  | RStart iter => test iter
  | RAfter iter => match iadd wraps iter stp with Some i => test i | None => Undef end
  | REnd => Done REnd
  end.

(* kos_compiler.c:2724-2786: range(end), range(begin, end), range(begin, end, step); a further
   argument is ignored *)
Definition for_range (wraps : bool) (n : nat) (start : Z) (args : list Z) : list Z * status rng :=
  let '(b, e, s) := match args with
                    | [] => (0, start, 1)
                    | [stop] => (start, stop, 1)
                    | stop :: stp :: _ => (start, stop, stp)
                    end in
  take (for_range_next wraps e s) n (RStart b).

(* ---- modules/iter.kos:341-347 iota ---- *)
Definition iota_next (wraps : bool) (s : rng) : step rng Z :=
  match s with
  | RStart i => Yield i (RAfter i)
  | RAfter i =>
      match iadd wraps i 1 with
      | None => Undef
      | Some i' => if i' =? INT64_MIN then Done REnd else Yield i' (RAfter i')
      end
  | REnd => Done REnd
  end.
Definition iota (wraps : bool) (n : nat) (init : Z) : list Z * status rng :=
  take (iota_next wraps) n (RStart init).

(* ---- modules/iter.kos:145-187 iproduct ---- *)

(* the loop over [step] after a yield, lines 174-186; None is the return.  [step[i] + 1] does
   not overflow: step[i] < args[i]. *)
Fixpoint advance (args stp : list Z) : option (list Z) :=
  match args, stp with
  | a :: ra, s :: rs =>
      let next := s + 1 in
      if a <=? next then
        match ra with
        | [] => None
        | _ => match advance ra rs with Some r => Some (0 :: r) | None => None end
        end
      else Some (next :: rs)
  | _, _ => Some stp
  end.

Inductive ipr := IStart | IAfter (stp : list Z) | IEnd.

Definition iproduct_next (args : list Z) (s : ipr) : step ipr (list Z) :=
  match s with
  | IStart =>
      if existsb (fun a => a <=? 0) args then Done IEnd
      else let stp := repeat 0 (length args) in Yield stp (IAfter stp)
  | IAfter stp =>
      match advance args stp with
      | None => Done IEnd
      | Some stp' => Yield stp' (IAfter stp')
      end
  | IEnd => Done IEnd
  end.

(* values yielded by iproduct: integers for one dimension, arrays otherwise *)
Inductive ival := IInt (i : Z) | IArr (l : list Z).

Definition iproduct (n : nat) (args : list Z) : list ival * bool :=
  let fin {T} (r : status T) := match r with Finished _ => true | _ => false end in
  match args with
  | [] => ([], true)
  | [num] => let (l, r) := take (range_next false num 1) n (RStart 0) in (map IInt l, fin r)
  | _ => let (l, r) := take (iproduct_next args) n IStart in (map IArr l, fin r)
  end.

(* ---- modules/iter.kos:25-50 generator, 207-247 product ---- *)

(* An input of product: the elements an iterable object gives every time, or a function (an
   instantiated generator) which gives its elements only once and is cached.
   [initialized] and [cache] are the closure variables of lines 28-29. *)
Record source (A : Type) := Source {
  is_function : bool; elems : list A; initialized : bool; cache : list A }.
Arguments Source {A} is_function elems initialized cache.
Arguments is_function {A} s.
Arguments elems {A} s.
Arguments initialized {A} s.
Arguments cache {A} s.

(* instantiate the generator and run it to its end *)
Definition run_source {A} (g : source A) : list A * source A :=
  if is_function g then
    if initialized g then (cache g, g)
    else (elems g, Source true [] true (cache g ++ elems g))
  else (elems g, g).

(* a[i] = x *)
Fixpoint set_at {A} (l : list A) (i : nat) (x : A) : list A :=
  match l, i with
  | [], _ => []
  | _ :: t, O => x :: t
  | h :: t, S k => h :: set_at t k x
  end.

(* lines 224-244 product_from_generators.  [gens] is in reverse order: the head is the last
   generator, gens.pop().  The elements of [outer] are taken in order; for each of them the
   other generators are run to their end.  Arrays are created at the innermost level.
   The sources are distinct objects; running one of them to its end before the code resumes
   the other ones does not change what they give. *)
Section Product.
Context {A : Type}.
Variable void : A.
Variable dim : nat.

Fixpoint product_gens (fuel : nat) (gens : list (source A)) : list (list A) * list (source A) :=
  match fuel, gens with
  | _, [] | O, _ => ([], gens)
  | _, [g] =>
      let (es, g') := run_source g in
      (map (fun e => set_at (repeat void dim) 0 e) es, [g'])
  | S fuel, g :: others =>
      let (es, g') := run_source g in
      let offs := length others in
      let (rows, others') :=
        fold_left (fun acc e =>
                     let (rows, oth) := acc : list (list A) * list (source A) in
                     let (r, oth') := product_gens fuel oth in
                     (rows ++ map (fun o => set_at o offs e) r, oth'))
                  es ([], others) in
      (rows, g' :: others')
  end.
End Product.

(* values yielded by product: the elements themselves for one iterable, arrays otherwise.
   The recursion depth is the number of iterables. *)
Definition new_source {A} (x : bool * list A) : source A := Source (fst x) (snd x) false [].
Definition product {A} (void : A) (args : list (bool * list A)) : list A + list (list A) :=
  match args with
  | [] => inl []
  | [x] => inl (snd x)
  | _ => inr (fst (product_gens void (length args) (length args) (rev (map new_source args))))
  end.

(* ---- modules/base.kos:277-314 generator.slice ---- *)

(* [that] is any generator.  The skipping loop (285-292) and the two yielding loops (294-308);
   the for statements resume [that].  When [that] ends in the skipping loop the next for
   statement resumes a finished generator, which raises the end-of-generator exception, which
   ends this generator too (core/kos_vm.c:3141-3145, 3708-3715): no value is yielded.
   A negative begin or end is handled by slicing an array (281-283). *)
Inductive slc (T : Type) := SStart (s : T) | SAfter (i : Z) (s : T) | SEnd (s : T).
Arguments SStart {T} s.
Arguments SAfter {T} i s.
Arguments SEnd {T} s.

Section Slice.
Context {T A : Type}.
Variable next : T -> step T A.

(* skip n elements; Done when the source ended *)
Fixpoint skip (n : nat) (s : T) : step T unit :=
  match n with
  | O => Yield tt s
  | S k => match next s with
           | Yield _ s' => skip k s'
           | Done s' => Done s'
           | Undef => Undef
           end
  end.

Definition slice_pull (i : Z) (s : T) : step (slc T) A :=
  match next s with
  | Yield a s' => Yield a (SAfter i s')
  | Done s' => Done (SEnd s')
  | Undef => Undef
  end.

Definition slice_next (begin : Z) (end_ : option Z) (st : slc T) : step (slc T) A :=
  match st with
  | SStart s =>
      match skip (Z.to_nat begin) s with
      | Undef => Undef
      | Done s' => Done (SEnd s')
      | Yield _ s' =>
          let i := Z.max 0 begin in
          match end_ with
          | None => slice_pull i s'
          | Some e => if i <? e then slice_pull i s' else Done (SEnd s')
          end
      end
  | SAfter i s =>
      match end_ with
      | None => slice_pull i s
      | Some e =>
          let i' := i + 1 in
          if e <=? i' then Done (SEnd s) else slice_pull i' s
      end
  | SEnd s => Done (SEnd s)
  end.
End Slice.

(* ---- modules/base.kos:1907-1937 zip ---- *)

(* out[i] = iter[i]() for each i.  A call of a finished generator raises the end-of-generator
   exception, which ends this generator; the iterators before it have been advanced.  An
   iterator over finitely many elements is the list of its remaining elements. *)
Fixpoint pull {A} (its : list (list A)) : option (list A) * list (list A) :=
  match its with
  | [] => (Some [], [])
  | [] :: r => (None, [] :: r)
  | (x :: l) :: r =>
      let (o, r') := pull r in
      (match o with Some out => Some (x :: out) | None => None end, l :: r')
  end.
Definition zip_next {A} (its : list (list A)) : step (list (list A)) (list A) :=
  match pull its with
  | (Some out, its') => Yield out its'
  | (None, its') => Done its'
  end.

(* ---- modules/base.kos:352-407 array.insert, a source which is not an array ---- *)
Section Insert.
Context {V : Type}.
Variable void : V.

(* lines 393-401: overwrite elements from begin to end while there are any; gives the array,
   the new begin and the elements not consumed *)
Fixpoint overwrite_from (src : list V) (a : arr V) (begin end_ : Z) : res (arr V * Z * list V) :=
  match src with
  | [] => Ok (a, begin, [])
  | v :: r =>
      do a' <- vm_set a begin v;
      let begin := begin + 1 in
      if end_ <=? begin then Ok (a', begin, r)
      else overwrite_from r a' begin end_
  end.

(* begin and end are already not void: insert(pos, it) is insert_iter pos pos it, with a void
   pos replaced by the size.  [iterator...] (line 403) makes an array of the rest. *)
Definition array_of (l : list V) : arr V := Arr (zlen l) (map Some l).

Definition insert_iter (a : arr V) (begin end_ : Z) (src : list V) : res (arr V) :=
  let size := a_size a in
  let begin := if begin <? 0 then begin + size else begin in
  let end_ := if end_ <? 0 then end_ + size else end_ in
  let begin := if begin <? 0 then 0 else begin in
  let end_ := if size <? end_ then size else end_ in
  let end_ := if end_ <? begin then begin else end_ in
  if begin <? end_ then
    do r <- overwrite_from src a begin end_;
    let '(a', begin', rest) := r in
    insert_array void a' begin' end_ (Some (array_of rest))
  else insert_array void a begin end_ (Some (array_of src)).
End Insert.

(* ---- modules/base.kos:435-493 buffer.insert ---- *)

(* [src] is None when the buffer is inserted into itself; otherwise a buffer (made from the
   iterable when it is not one, line 474).  begin and end are not void, as above. *)
Definition buffer_insert (b : buf) (begin end_ : Z) (src : option buf) : bres buf :=
  let size := b_size b in
  let begin := if begin <? 0 then begin + size else begin in
  let end_ := if end_ <? 0 then end_ + size else end_ in
  let begin := if begin <? 0 then 0 else begin in
  let end_ := if size <? end_ then size else end_ in
  let end_ := if end_ <? begin then begin else end_ in
  let src_size this := match src with None => b_size this | Some s => b_size s end in
  let new_size := size + src_size b + begin - end_ in
  bdo b1 <- (if size <? new_size then resize_method b new_size 0 else BOk b);
  bdo b2 <- (if end_ <? size then copy_method b1 (Some (begin + src_size b1)) None (Some end_) None else BOk b1);
  bdo b3 <- (if new_size <? size then resize_method b2 new_size 0 else BOk b2);
  if src_size b3 =? 0 then BOk b3
  else copy_method b3 (Some begin) src None None.

(* ---- modules/base.kos:495-505 get_value_from_array ---- *)
Definition get_value {V} (a : arr V) (index : Z) (default : V) : res V :=
  let size := a_size a in
  let index := if index <? 0 then
                 let i := size + index in if i <? 0 then size else i
               else index in
  if index <? size then vm_get a index else Ok default.

(* ---- modules/base.kos:633-730 ljust, rjust, zfill; strings as lists of code points ---- *)
Definition slen {A} (l : list A) : Z := Z.of_nat (length l).

Definition ljust (s : list Z) (size fill : Z) : list Z :=
  if size <=? slen s then s else s ++ repeat fill (Z.to_nat (size - slen s)).
Definition rjust (s : list Z) (size fill : Z) : list Z :=
  if size <=? slen s then s else repeat fill (Z.to_nat (size - slen s)) ++ s.
Definition zfill (s : list Z) (size fill : Z) : list Z :=
  if size <=? slen s then s
  else
    let f := repeat fill (Z.to_nat (size - slen s)) in
    match s with
    | c :: r => if (c =? 43) || (c =? 45) then c :: f ++ r else f ++ s
    | [] => f ++ s
    end.

(* ---- modules/base.kos:1658-1707 hex ---- *)
Definition hex_digits : list Z := [48; 49; 50; 51; 52; 53; 54; 55; 56; 57; 97; 98; 99; 100; 101; 102].

(* codes[i] = x; outside of the buffer is an exception.  A negative index would count from
   the end, see BufferModel.set_method; it does not occur and is an exception here. *)
Definition put (l : list Z) (i x : Z) : option (list Z) :=
  if (0 <=? i) && (i <? slen l) then Some (set_at l (Z.to_nat i) x) else None.

(* lines 1690-1694; value >>>= 4 is a logical shift of the 64-bit pattern, core/kos_vm.c:2571-2597.
   Returns the codes and i.  After 16 rounds the value is 0. *)
Fixpoint hex_loop (fuel : nat) (codes : list Z) (value i : Z) : option (list Z * Z) :=
  match fuel with
  | O => None
  | S k =>
      match put codes i (nth (Z.to_nat (Z.land value 15)) hex_digits 0) with
      | None => None
      | Some codes' =>
          let value' := s64 (u64 value / 16) in
          if value' =? 0 then Some (codes', i - 1) else hex_loop k codes' value' (i - 1)
      end
  end.
(* lines 1698-1701 *)
Fixpoint pad_loop (fuel : nat) (codes : list Z) (i target : Z) : option (list Z * Z) :=
  if i <=? target then Some (codes, i)
  else match fuel with
       | O => None
       | S k => match put codes i 48 with
                | None => None
                | Some codes' => pad_loop k codes' (i - 1) target
                end
       end.
Definition hex (value min_digits : Z) : option (list Z) :=
  if (min_digits <? 0) || (16 <? min_digits) then None
  else
    match hex_loop 17 (repeat 0 18) value 17 with
    | None => None
    | Some (codes, i) =>
        match pad_loop 18 codes i (17 - min_digits) with
        | None => None
        | Some (codes, i) =>
            match put codes i 120 with
            | None => None
            | Some codes =>
                match put codes (i - 1) 48 with
                | None => None
                | Some codes => Some (skipn (Z.to_nat (i - 1)) codes)
                end
            end
        end
    end.

(* ---- modules/base.kos:2100-2127 join; elements already converted to strings ---- *)
Fixpoint put_pieces {A} (pieces : list A) (i : Z) (l : list A) : list A :=
  match l with
  | [] => pieces
  | x :: r => put_pieces (set_at pieces (Z.to_nat i) x) (i + 2) r
  end.
Definition join {A} (sep : list A) (l : list (list A)) : list A :=
  let num_pieces := slen l * 2 - 1 in
  concat (put_pieces (repeat sep (Z.to_nat (if 0 <? num_pieces then num_pieces else 0))) 0 l).
