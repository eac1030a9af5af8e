(* Random numbers: core/kos_misc.c:625-729, modules/kos_mod_random.c.
   Entropy sources, the mutex and argument conversion (KOS_get_integer) are not modelled. *)
From Coq Require Import ZArith List Lia Bool ZifyBool.
Import ListNotations.
From Verif Require Import Base NumModel.
Local Open Scope Z_scope.

(* core/kos_misc.h:33-36 struct KOS_RNG_PCG32 *)
Record pcg := mkpcg { p_state : Z; p_stream : Z }.

(* core/kos_misc.c:635, 0x5851F42D4C957F2D *)
Definition multiplier : Z := 6364136223846793005.

(* core/kos_misc.c:632-647 pcg_random *)
Definition pcg_random (p : pcg) : Z * pcg :=
  let state := p_state p in
  let p' := mkpcg (u64 (state * multiplier + p_stream p)) (p_stream p) in
  let xorshifted := u32 (Z.shiftr (Z.lxor (Z.shiftr state 18) state) 27) in
  let rot := Z.shiftr state 59 in
  (Z.lor (Z.shiftr xorshifted rot) (u32 (Z.shiftl xorshifted (Z.land (- rot) 31))), p').

(* core/kos_misc.c:649-656 pcg_init *)
Definition pcg_init (init_state init_stream : Z) : pcg :=
  let stream := Z.lor (u64 (Z.shiftl init_stream 1)) 1 in
  snd (pcg_random (mkpcg (u64 (stream + init_state)) stream)).

(* core/kos_misc.h:38-40 struct KOS_RNG *)
Definition rng : Type := pcg * pcg.

Fixpoint draw (n : nat) (p : pcg) : list Z * pcg :=
  match n with
  | O => ([], p)
  | Datatypes.S n' => let (x, p1) := pcg_random p in let (l, p2) := draw n' p1 in (x :: l, p2)
  end.

(* core/kos_misc.c:658-677 kos_rng_init_seed; [draw 4] is the loop over new_seed *)
Definition rng_init_seed (seed : Z) : rng :=
  let p := pcg_init seed (u64 (Z.lnot seed)) in
  let (a, p) := draw 4 p in
  let (b, p) := draw 4 p in
  let mk (l : list Z) :=
    pcg_init (Z.lor (Z.shiftl (nth 0 l 0) 32) (nth 1 l 0)) (Z.lor (Z.shiftl (nth 2 l 0) 32) (nth 3 l 0)) in
  (mk a, mk b).

(* core/kos_misc.c:679-686 kos_rng_init; the entropy is an input *)
Definition rng_init (e0 e1 e2 e3 : Z) : rng := (pcg_init e0 e1, pcg_init e2 e3).

(* core/kos_misc.c:688-693 kos_rng_random *)
Definition rng_random (r : rng) : Z * rng :=
  let (low, p0) := pcg_random (fst r) in
  let (high, p1) := pcg_random (snd r) in
  (Z.lor (u64 (Z.shiftl high 32)) low, (p0, p1)).

(* core/kos_misc.c:706, 718: (~mask + 1U) % mask with [bits] bits *)
Definition threshold (bits mask : Z) : Z := uwrap bits (uwrap bits (Z.lnot mask) + 1) mod mask.

(* core/kos_misc.c:711-712, 722-723, one raw number: None is another round *)
Definition accept (bits mask r : Z) : option Z := if threshold bits mask <=? r then Some (r mod mask) else None.

(* core/kos_misc.c:709-713 the loop, alternating between the generators; None: out of fuel *)
Fixpoint range_loop32 (fuel : nat) (mask : Z) (sel : bool) (r : rng) : option (Z * rng) :=
  match fuel with
  | O => None
  | Datatypes.S f =>
      let (x, p) := pcg_random (if sel then snd r else fst r) in
      let r' := if sel then (fst r, p) else (p, snd r) in
      match accept 32 mask x with
      | Some v => Some (v, r')
      | None => range_loop32 f mask (negb sel) r'
      end
  end.

(* core/kos_misc.c:720-724 *)
Fixpoint range_loop64 (fuel : nat) (mask : Z) (r : rng) : option (Z * rng) :=
  match fuel with
  | O => None
  | Datatypes.S f =>
      let (x, r') := rng_random r in
      match accept 64 mask x with
      | Some v => Some (v, r')
      | None => range_loop64 f mask r'
      end
  end.

(* core/kos_misc.c:695-726 kos_rng_random_range *)
Definition random_range (fuel : nat) (r : rng) (max_value : Z) : option (Z * rng) :=
  if max_value =? 18446744073709551615 then Some (rng_random r)
  else if max_value =? 4294967295 then let (x, p) := pcg_random (fst r) in Some (x, (p, snd r))
  else if max_value <? 4294967295 then range_loop32 fuel (u32 (max_value + 1)) false r
  else range_loop64 fuel (u64 (max_value + 1)) r.

(* results of random.integer: a value, and whether a signed addition or subtraction overflowed
   (undefined behaviour; the value is then the one of two's complement arithmetic); or an exception *)
Inductive iout := IVal (v : Z) (overflow : bool) | IExn.

(* modules/kos_mod_random.c:195-248 rand_integer; the arguments are None for void *)
Definition rand_integer (fuel : nat) (r : rng) (min_arg max_arg : option Z) : option (iout * rng) :=
  match min_arg, max_arg with
  | None, Some _ | Some _, None => Some (IExn, r)
  | None, None => let (x, r') := rng_random r in Some (IVal (s64 x) false, r')
  | Some mn, Some mx =>
      if mx <? mn then Some (IExn, r)
      else if mn =? mx then Some (IVal mn false, r)
      else
        let diff := mx - mn in
        match random_range fuel r (u64 diff) with
        | None => None
        | Some (x, r') =>
            let sum := mn + s64 x in
            Some (IVal (s64 sum) (negb (is_int64b diff) || negb (is_int64b sum)), r')
        end
  end.

(* modules/kos_mod_random.c:266-292 rand_float.  The 64 bits of value.d are given by sign 0, exponent field 0x3FF
   and 52 bits of fraction, so value.d = 1 + fraction / 2^52, and the subtraction of 1.0 is exact. *)
Definition float_bits (x : Z) : Z := Z.lor (Z.land x (Z.lnot (Z.shiftl 0xFFF00000 32))) (Z.shiftl 0x3FF00000 32).
Definition rand_float (r : rng) : dbl * rng :=
  let (x, r') := rng_random r in
  let bits := float_bits x in
  (DFin (2 ^ 52 + bits mod 2 ^ 52 - 2 ^ 52) (bits / 2 ^ 52 - 1023 - 52), r').
