(* Shared definitions: machine integers on Z, outcomes, list helpers. *)
From Coq Require Import ZArith List Lia Bool ZifyBool.
Import ListNotations.
Open Scope Z_scope.

(* Unsigned w-bit truncation of a C conversion to uintW_t. *)
Definition uwrap (w x : Z) : Z := x mod 2 ^ w.

(* Two's complement reinterpretation as intW_t (implementation defined in C,
   modular on every supported compiler). *)
Definition swrap (w x : Z) : Z :=
  let u := x mod 2 ^ w in if u <? 2 ^ (w - 1) then u else u - 2 ^ w.

Definition u32 := uwrap 32.
Definition u64 := uwrap 64.
Definition s64 := swrap 64.
Definition s32 := swrap 32.

Definition INT64_MIN : Z := - 2 ^ 63.
Definition INT64_MAX : Z := 2 ^ 63 - 1.
Definition is_int64 (x : Z) : Prop := INT64_MIN <= x <= INT64_MAX.
Definition is_int64b (x : Z) : bool := (INT64_MIN <=? x) && (x <=? INT64_MAX).

(* Bit lemmas used to turn masks and shifts into div/mod/plus. *)
Lemma lor_add_low : forall a b n, 0 <= n -> 0 <= b < 2 ^ n -> Z.lor (a * 2 ^ n) b = a * 2 ^ n + b.
Proof.
  intros a b n Hn Hb.
  assert (Hl : Z.land (a * 2 ^ n) b = 0).
  2:{ rewrite <- Z.lxor_lor by assumption. symmetry. apply Z.add_nocarry_lxor; assumption. }
  apply Z.bits_inj'. intros i Hi. rewrite Z.land_spec, Z.bits_0.
  destruct (Z.lt_ge_cases i n).
  - rewrite Z.mul_pow2_bits_low by lia. reflexivity.
  - replace (Z.testbit b i) with false; [ apply andb_false_r | ].
    symmetry. destruct (Z.eq_dec b 0) as [->|Hb0]; [ apply Z.bits_0 | ].
    apply Z.bits_above_log2; [ lia | ].
    apply Z.log2_lt_pow2; [ lia | ].
    apply Z.lt_le_trans with (2 ^ n); [ lia | apply Z.pow_le_mono_r; lia ].
Qed.

Lemma land_low_mask : forall a n, 0 <= n -> Z.land a (Z.ones n) = a mod 2 ^ n.
Proof. intros. apply Z.land_ones. lia. Qed.

Lemma land_63 : forall a, Z.land a 63 = a mod 64.
Proof. intros. change 63 with (Z.ones 6). rewrite Z.land_ones by lia. reflexivity. Qed.
Lemma land_255 : forall a, Z.land a 255 = a mod 256.
Proof. intros. change 255 with (Z.ones 8). rewrite Z.land_ones by lia. reflexivity. Qed.
Lemma shiftr_div : forall a n, 0 <= n -> Z.shiftr a n = a / 2 ^ n.
Proof. intros. apply Z.shiftr_div_pow2. lia. Qed.
Lemma shiftl_mul : forall a n, 0 <= n -> Z.shiftl a n = a * 2 ^ n.
Proof. intros. apply Z.shiftl_mul_pow2. lia. Qed.

(* Exhaustive check over a finite integer interval, turned into a forall. *)
Fixpoint zall (n : nat) (lo : Z) (p : Z -> bool) : bool :=
  match n with
  | O => true
  | S k => p lo && zall k (lo + 1) p
  end.

Lemma zall_spec : forall n lo p, zall n lo p = true -> forall x, lo <= x < lo + Z.of_nat n -> p x = true.
Proof.
  induction n; intros lo p H x Hx; cbn [zall] in H.
  - lia.
  - apply andb_true_iff in H. destruct H as [H1 H2].
    destruct (Z.eq_dec x lo) as [->|]; [ assumption | ].
    apply (IHn (lo + 1) p H2). lia.
Qed.
