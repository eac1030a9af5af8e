(* Comparison of values and conversion of numbers: core/kos_utils.c. *)
From Coq Require Import ZArith List Lia Bool ZifyBool.
Import ListNotations.
From Verif Require Import Base.
Local Open Scope Z_scope.

(* A C double: a NaN, an infinity, or the number m * 2^e.  The sign of zero and the payload of NaN
   are not represented; no modelled function depends on them. *)
Inductive dbl := DNan | DInf (neg : bool) | DFin (m e : Z).

(* IEEE 754 binary64: at most 53 bits of significand *)
Definition dwf (d : dbl) : Prop :=
  match d with DFin m e => Z.abs m < 2 ^ 53 /\ -1074 <= e <= 971 | _ => True end.

(* the C comparison of doubles; None: unordered *)
Definition dcompare (x y : dbl) : option comparison :=
  match x, y with
  | DNan, _ | _, DNan => None
  | DInf a, DInf b => Some (if a then if b then Eq else Lt else if b then Gt else Eq)
  | DInf a, DFin _ _ => Some (if a then Lt else Gt)
  | DFin _ _, DInf b => Some (if b then Gt else Lt)
  | DFin m1 e1, DFin m2 e2 =>
      let e := Z.min e1 e2 in Some (m1 * 2 ^ (e1 - e) ?= m2 * 2 ^ (e2 - e))
  end.

(* the C conversion of int64_t to double: nearest, ties to an even significand *)
Definition of_int (n : Z) : dbl :=
  let a := Z.abs n in
  let k := Z.log2 a - 52 in
  if k <=? 0 then DFin n 0
  else
    let q := a / 2 ^ k in
    let r := a mod 2 ^ k in
    let half := 2 ^ (k - 1) in
    let q' := if (r <? half) || ((r =? half) && Z.even q) then q else q + 1 in
    if q' =? 2 ^ 53 then DFin (Z.sgn n * 2 ^ 52) (k + 1) else DFin (Z.sgn n * q') k.

(* Values.  Heap objects carry their address; small integers are stored in the object id.  The
   contents of arrays are in the heap [list of elements of the array at an address]; strings and
   buffers carry their contents, as they are only read here. *)
Inductive val :=
| VSmall (n : Z) | VInt (a n : Z) | VFlt (a : Z) (d : dbl) | VVoid | VBool (b : bool)
| VStr (a : Z) (codes : list Z) | VObj (a : Z) | VArr (a : Z) | VBuf (a : Z) (bytes : list Z)
| VFun (a : Z) | VCls (a : Z) | VMod (a : Z).

(* inc/kos_entity.h:20-33 KOS_TYPE *)
Definition type_of (v : val) : Z :=
  match v with
  | VSmall _ => 0 | VInt _ _ => 2 | VFlt _ _ => 4 | VVoid => 6 | VBool _ => 8 | VStr _ _ => 10
  | VObj _ => 12 | VArr _ => 14 | VBuf _ _ => 16 | VFun _ => 18 | VCls _ => 20 | VMod _ => 22
  end.

(* the comparison a == b of object ids; void, true and false are unique objects *)
Definition same_id (v w : val) : bool :=
  match v, w with
  | VSmall n, VSmall m => n =? m
  | VInt a _, VInt b _ | VFlt a _, VFlt b _ | VStr a _, VStr b _ | VObj a, VObj b | VArr a, VArr b
  | VBuf a _, VBuf b _ | VFun a, VFun b | VCls a, VCls b | VMod a, VMod b => a =? b
  | VVoid, VVoid => true
  | VBool a, VBool b => eqb a b
  | _, _ => false
  end.

(* inc/kos_utils.h:32-37 KOS_COMPARE_RESULT *)
Inductive cres := CEq | CLt | CGt | CInd.
Definition cnum (c : cres) : Z := match c with CEq => 0 | CLt => 1 | CGt => 2 | CInd => 3 end.

(* core/kos_utils.c:1429-1434 compare_int *)
Definition compare_int (a b : Z) : cres := if a <? b then CLt else if a >? b then CGt else CEq.

(* core/kos_utils.c:1436-1444 get_float *)
Definition get_float (v : val) : dbl :=
  match v with VSmall n => of_int n | VInt _ n => of_int n | VFlt _ d => d | _ => DNan end.

(* core/kos_utils.c:1446-1457 compare_float *)
Definition compare_float (v w : val) : cres :=
  match dcompare (get_float v) (get_float w) with
  | None => CInd
  | Some Lt => CLt
  | Some Gt => CGt
  | Some Eq => CEq
  end.

(* memcmp of the common part of two buffers *)
Fixpoint memcmp (a b : list Z) (n : nat) : Z :=
  match n, a, b with
  | S n', x :: a', y :: b' => if x <? y then -1 else if x >? y then 1 else memcmp a' b' n'
  | _, _, _ => 0
  end.

(* core/kos_utils.c:1519-1536 compare_buf *)
Definition compare_buf (a b : list Z) : cres :=
  let cmp_size := Nat.min (length a) (length b) in
  let min_cmp := memcmp a b cmp_size in
  let cmp := match cmp_size with O => 0 | _ => min_cmp end in
  if negb (cmp =? 0) then if cmp >? 0 then CGt else CLt
  else if (length a <? length b)%nat then CLt else if (length b <? length a)%nat then CGt else CEq.

(* The comparison of two string objects is a parameter (core/kos_string.c KOS_string_compare,
   modelled in StringModel). *)
Section Compare.
Variable strcmp : list Z -> list Z -> Z.
Variable heap : Z -> list val.

(* core/kos_utils.c:1488-1501, recursive arrays; refs is the list of the enclosing comparisons *)
Fixpoint check_refs (a b : Z) (refs : list (Z * Z)) : option cres :=
  match refs with
  | [] => None
  | (ra, rb) :: more =>
      let aa := a =? ra in
      let bb := b =? rb in
      let ab := a =? rb in
      let ba := b =? ra in
      if aa && bb then Some CEq
      else if aa || bb || ab || ba then Some (compare_int a b)
      else check_refs a b more
  end.

(* core/kos_utils.c:1503-1511, loop of compare_array *)
Fixpoint compare_elems (cmp : val -> val -> option cres) (l m : list val) : option cres :=
  match l, m with
  | x :: l', y :: m' =>
      match cmp x y with
      | Some CEq => compare_elems cmp l' m'
      | r => r
      end
  | _, _ => Some CEq
  end.

(* core/kos_utils.c:1470-1517 compare_array; other threads which change the arrays are not
   modelled *)
Definition compare_array (cmp : list (Z * Z) -> val -> val -> option cres) (a b : Z) (refs : list (Z * Z))
  : option cres :=
  match check_refs a b refs with
  | Some r => Some r
  | None =>
      let l := heap a in
      let m := heap b in
      match compare_elems (cmp ((a, b) :: refs)) l m with
      | Some CEq =>
          Some (if (length l <? length m)%nat then CLt else if (length m <? length l)%nat then CGt else CEq)
      | r => r
      end
  end.

(* core/kos_utils.c:1538-1605 compare.  fuel bounds the depth of nested arrays; None: more is
   needed.  Small integers are compared by their object ids, twice the value. *)
Fixpoint compare (fuel : nat) (refs : list (Z * Z)) (v w : val) {struct fuel} : option cres :=
  match fuel with
  | O => None
  | S fuel' =>
      if same_id v w then
        match v with
        | VFlt _ d => Some (match d with DNan => CInd | _ => CEq end)
        | _ => Some CEq
        end
      else if (type_of v =? type_of w) || ((type_of v <=? 4) && (type_of w <=? 4)) then
        match v, w with
        | VFlt _ _, _ | _, VFlt _ _ => Some (compare_float v w)
        | VSmall n, VSmall m => Some (compare_int (2 * n) (2 * m))
        | VSmall n, VInt _ m | VInt _ n, VSmall m | VInt _ n, VInt _ m => Some (compare_int n m)
        | VBool a, VBool b => Some (compare_int (if a then 1 else 0) (if b then 1 else 0))
        | VStr _ a, VStr _ b =>
            let c := strcmp a b in
            Some (if c <? 0 then CLt else if negb (c =? 0) then CGt else CEq)
        | VArr a, VArr b => compare_array (compare fuel') a b refs
        | VBuf _ a, VBuf _ b => Some (compare_buf a b)
        | VObj a, VObj b | VFun a, VFun b | VCls a, VCls b | VMod a, VMod b => Some (compare_int a b)
        | _, _ => Some CEq
        end
      else Some (if type_of v <? type_of w then CLt else CGt)
  end.

(* core/kos_utils.c:1607-1611 KOS_compare *)
Definition kos_compare (fuel : nat) (v w : val) : option cres := compare fuel [] v w.

End Compare.

(* core/kos_vm.c:2749-2767 CMP.EQ, 2770-2796 CMP.NE, 2799-2819 CMP.LE, 2822-2842 CMP.LT *)
Definition cmp_eq (c : cres) : bool := cnum c =? 0.
Definition cmp_ne (c : cres) : bool := negb (cnum c =? 0).
Definition cmp_le (c : cres) : bool := cnum c <=? 1.
Definition cmp_lt (c : cres) : bool := cnum c =? 1.

(* ---- conversions ---- *)

(* Results of a conversion: an exception, or a conversion of a double to int64_t with undefined
   behaviour *)
Inductive res (A : Type) := ROk (x : A) | RErr | RUb.
Arguments ROk {A} x. Arguments RErr {A}. Arguments RUb {A}.

(* floor of a finite double *)
Definition dfloor (m e : Z) : Z := if 0 <=? e then m * 2 ^ e else m / 2 ^ (- e).

(* core/kos_utils.c:164-200 KOS_get_integer.  A NaN passes both range checks; its conversion to
   int64_t is undefined. *)
Definition get_integer (v : val) : res Z :=
  match v with
  | VSmall n => ROk n
  | VInt _ n => ROk n
  | VFlt _ d =>
      let le x y := match dcompare x y with Some Lt | Some Eq => true | _ => false end in
      if le d (DFin (-1) 63) || le (DFin 1 63) d then RErr
      else match d with
           | DFin m e =>
               let f := dfloor m e in
               if (INT64_MIN <=? f) && (f <=? INT64_MAX) then ROk f else RUb
           | _ => RUb
           end
  | _ => RErr
  end.

(* inc/kos_utils.h:45-65, the integer types of KOS_CONVERT_TYPE_E *)
Inductive ntype := NU8 | NU16 | NU32 | NU64 | NI8 | NI16 | NI32 | NI64 | NSize | NEnum.

(* core/kos_utils.c:1995-2000 native_to_kos, sizes; 64-bit target, 4-byte enum *)
Definition nsize (t : ntype) : Z :=
  match t with
  | NU8 | NI8 => 1 | NU16 | NI16 => 2 | NU32 | NI32 | NEnum => 4 | NU64 | NI64 | NSize => 8
  end.
(* core/kos_utils.c:2023-2040 int_limits; KOS_MAX_SIZE is the largest size_t cast to int64_t *)
Definition int_limits (t : ntype) : Z * Z :=
  match t with
  | NU8 => (0, 255) | NU16 => (0, 65535) | NU32 => (0, 4294967295)
  | NU64 => (INT64_MIN, INT64_MAX)
  | NI8 => (-128, 127) | NI16 => (-32768, 32767) | NI32 => (-2147483648, 2147483647)
  | NI64 => (INT64_MIN, INT64_MAX)
  | NSize => (0, s64 (2 ^ 64 - 1))
  | NEnum => (0, 2147483647)
  end.

(* little-endian storage *)
Fixpoint le_bytes (n : nat) (x : Z) : list Z :=
  match n with O => [] | S k => x mod 256 :: le_bytes k (x / 256) end.
Fixpoint le_value (l : list Z) : Z := match l with [] => 0 | b :: l' => b + 256 * le_value l' end.

(* core/kos_utils.c:2103-2181, one element of KOS_extract_native_value, integer types; the bytes
   stored *)
Definition extract_int (t : ntype) (v : val) : res (list Z) :=
  if type_of v >? 4 then RErr
  else match get_integer v with
       | ROk n =>
           let (lo, hi) := int_limits t in
           if n <? lo then RErr else if n >? hi then RErr
           else ROk (le_bytes (Z.to_nat (nsize t)) (uwrap (8 * nsize t) n))
       | RErr => RErr
       | RUb => RUb
       end.

(* core/kos_utils.c:2051,2083-2092,2299 number of elements and the loop of
   KOS_extract_native_value: elements of the array, or the value itself *)
Definition num_elems (t : ntype) (size : Z) : Z := if size =? 0 then 1 else size / nsize t.
Fixpoint extract_list (t : ntype) (l : list val) : res (list Z) :=
  match l with
  | [] => ROk []
  | v :: l' =>
      match extract_int t v with
      | ROk b => match extract_list t l' with ROk b' => ROk (b ++ b') | r => r end
      | r => r
      end
  end.
Definition extract_native (heap : Z -> list val) (t : ntype) (size : Z) (v : val) : res (list Z) :=
  let n := num_elems t size in
  if n >? 1 then
    match v with
    | VArr a =>
        if Z.of_nat (length (heap a)) <? n then RErr
        else extract_list t (firstn (Z.to_nat n) (heap a))
    | _ => RErr
    end
  else extract_list t (repeat v (Z.to_nat n)).

(* core/kos_utils.c:2549-2589, integer types of KOS_new_from_native: the value read from memory *)
Definition from_native_int (t : ntype) (mem : list Z) : Z :=
  let u := le_value (firstn (Z.to_nat (nsize t)) mem) in
  match t with
  | NU8 | NU16 | NU32 => u
  | NU64 | NSize => s64 u
  | NI8 => swrap 8 u | NI16 => swrap 16 u | NI32 | NEnum => swrap 32 u | NI64 => s64 u
  end.
Fixpoint from_native_list (t : ntype) (n : nat) (mem : list Z) : list Z :=
  match n with
  | O => []
  | S k => from_native_int t mem :: from_native_list t k (skipn (Z.to_nat (nsize t)) mem)
  end.
