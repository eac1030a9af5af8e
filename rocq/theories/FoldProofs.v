From Coq Require Import ZArith List Lia Bool ZifyBool.
From Coq Require Import Floats.SpecFloat.
Import ListNotations.
From Verif Require Import Base ListZ FoldModel FoldModel2 FoldSpec.
Local Open Scope Z_scope.
Ltac Zify.zify_post_hook ::= idtac.

(* ---- folding of a binary operator is the instruction ---- *)

Lemma fold_int_get : forall a, fold_int a = get_integer a.
Proof. destruct a; reflexivity. Qed.

Lemma fold_binop_vm : forall op a b, fold_binop op a b = vm_binop op a b.
Proof.
  intros op a b.
  assert (H : forall x y, (if x =? 0 then Err EDivZero else
     if (x =? -1) && (y =? INT64_MIN) then Err EDivOver else Ok (NI (Z.quot y x))) =
     (if (x =? -1) && (y =? INT64_MIN) then Err EDivOver
      else if negb (x =? 0) then Ok (NI (Z.quot y x)) else Err EDivZero)).
  { intros x y. destruct (x =? 0) eqn:E1; destruct (x =? -1) eqn:E2; cbn [andb negb]; try reflexivity.
    exfalso. lia. }
  assert (H2 : forall x y, (if x =? 0 then Err EDivZero else
     if (x =? -1) && (y =? INT64_MIN) then Err EDivOver else Ok (NI (Z.rem y x))) =
     (if (x =? -1) && (y =? INT64_MIN) then Err EDivOver
      else if negb (x =? 0) then Ok (NI (Z.rem y x)) else Err EDivZero)).
  { intros x y. destruct (x =? 0) eqn:E1; destruct (x =? -1) eqn:E2; cbn [andb negb]; try reflexivity.
    exfalso. lia. }
  destruct (arithmetic op) eqn:A.
  - unfold fold_binop. rewrite A.
    destruct op; try discriminate A; destruct a as [x | x], b as [y | y]; try reflexivity;
      try apply H; try apply H2;
      cbn [fold_floats fold_dbls vm_binop]; unfold div_integer, div_float, mod_integer, mod_float;
      match goal with |- context [is_zero ?d] => destruct (is_zero d); reflexivity end.
  - unfold fold_binop. rewrite A, !fold_int_get.
    destruct op; try discriminate A; cbn [vm_binop]; unfold with_ints; destruct (get_integer a);
      try reflexivity; destruct (get_integer b); reflexivity.
Qed.

(* ---- integers ---- *)

Lemma pow2_gt0 : forall n, 0 <= n -> 0 < 2 ^ n.
Proof. intros. apply Z.pow_pos_nonneg; lia. Qed.

Lemma s64_mod0 : forall x, x mod 2 ^ 64 = 0 -> s64 x = 0.
Proof. intros x H. unfold s64, swrap. rewrite H. reflexivity. Qed.

Lemma s64_shiftl : forall a b, 0 <= b -> s64 (Z.shiftl (u64 a) b) = s64 (a * 2 ^ b).
Proof.
  intros a b Hb. rewrite Z.shiftl_mul_pow2 by assumption. unfold s64, swrap, u64, uwrap.
  rewrite Z.mul_mod_idemp_l by (apply Z.pow_nonzero; lia). reflexivity.
Qed.

Lemma s64_big_shift : forall a b, 64 <= b -> s64 (a * 2 ^ b) = 0.
Proof.
  intros a b Hb. apply s64_mod0. replace b with ((b - 64) + 64) by lia.
  rewrite Z.pow_add_r by lia. rewrite Z.mul_assoc. apply Z.mod_mul. apply Z.pow_nonzero; lia.
Qed.

Lemma div_big_shift : forall a n, is_int64 a -> 63 <= n -> a / 2 ^ n = if a <? 0 then -1 else 0.
Proof.
  intros a n Ha Hn. unfold is_int64, INT64_MIN, INT64_MAX in Ha.
  assert (P : 2 ^ 63 <= 2 ^ n) by (apply Z.pow_le_mono_r; lia).
  change (2 ^ 63) with 9223372036854775808 in *.
  set (p := 2 ^ n) in *. clearbody p.
  destruct (a <? 0) eqn:E.
  - symmetry. apply (Z.div_unique _ _ (-1) (a + p)); lia.
  - apply Z.div_small; lia.
Qed.

Lemma div_big_shift_u : forall a n, 64 <= n -> u64 a / 2 ^ n = 0.
Proof.
  intros a n Hn. apply Z.div_small. unfold u64, uwrap.
  assert (P : 2 ^ 64 <= 2 ^ n) by (apply Z.pow_le_mono_r; lia).
  pose proof (Z.mod_pos_bound a (2 ^ 64) ltac:(apply pow2_gt0; lia)). lia.
Qed.

Lemma shl_spec : forall a b, is_int64 a ->
  vm_shl a b = if 0 <=? b then s64 (a * 2 ^ b) else a / 2 ^ (- b).
Proof.
  intros a b Ha. unfold vm_shl.
  destruct (b >? 63) eqn:E1; cbn [orb].
  - replace (0 <=? b) with true by lia. replace (b <? 0) with false by lia.
    rewrite andb_false_r. symmetry. apply s64_big_shift. lia.
  - destruct (b <? -62) eqn:E2.
    + replace (0 <=? b) with false by lia. replace (b <? 0) with true by lia.
      rewrite andb_true_r. symmetry. apply div_big_shift; [assumption | lia].
    + destruct (b <? 0) eqn:E3.
      * replace (0 <=? b) with false by lia. apply Z.shiftr_div_pow2. lia.
      * replace (0 <=? b) with true by lia. apply s64_shiftl. lia.
Qed.

Lemma shr_spec : forall a b, is_int64 a ->
  vm_shr a b = if 0 <=? b then a / 2 ^ b else s64 (a * 2 ^ (- b)).
Proof.
  intros a b Ha. unfold vm_shr.
  destruct (b >? 62) eqn:E1; cbn [orb].
  - replace (0 <=? b) with true by lia. replace (b >? 0) with true by lia.
    rewrite andb_true_r. symmetry. apply div_big_shift; [assumption | lia].
  - destruct (b <? -63) eqn:E2.
    + replace (0 <=? b) with false by lia. replace (b >? 0) with false by lia.
      rewrite andb_false_r. symmetry. apply s64_big_shift. lia.
    + destruct (b <? 0) eqn:E3.
      * replace (0 <=? b) with false by lia. apply s64_shiftl. lia.
      * replace (0 <=? b) with true by lia. apply Z.shiftr_div_pow2. lia.
Qed.

Lemma shru_spec : forall a b, is_int64 a ->
  vm_shru a b = if 0 <=? b then s64 (u64 a / 2 ^ b) else s64 (a * 2 ^ (- b)).
Proof.
  intros a b Ha. unfold vm_shru.
  destruct (b >? 63) eqn:E1; cbn [orb].
  - replace (0 <=? b) with true by lia. rewrite div_big_shift_u by lia. reflexivity.
  - destruct (b <? -63) eqn:E2.
    + replace (0 <=? b) with false by lia. symmetry. apply s64_big_shift. lia.
    + destruct (b <? 0) eqn:E3.
      * replace (0 <=? b) with false by lia. apply s64_shiftl. lia.
      * replace (0 <=? b) with true by lia. rewrite Z.shiftr_div_pow2 by lia. reflexivity.
Qed.

Lemma quot_overflow : forall a b, is_int64 a -> is_int64 b -> b <> 0 ->
  (Z.quot a b =? 2 ^ 63) = ((b =? -1) && (a =? INT64_MIN)).
Proof.
  intros a b Ha Hb N. unfold is_int64, INT64_MIN, INT64_MAX in *.
  change (2 ^ 63) with 9223372036854775808 in *.
  destruct (b =? -1) eqn:E.
  - assert (b = -1) by lia. subst b.
    replace (Z.quot a (-1)) with (- a). 2:{ replace (-1) with (- (1)) by lia.
      rewrite Z.quot_opp_r by lia. rewrite Z.quot_1_r. reflexivity. }
    cbn [andb]. lia.
  - cbn [andb]. apply Z.eqb_neq. intros Q.
    assert (Z.abs (Z.quot a b) = Z.abs a / Z.abs b).
    { rewrite <- Z.quot_abs by assumption. apply Z.quot_div_nonneg; lia. }
    destruct (Z.eq_dec b 1) as [-> | N1].
    + rewrite Z.quot_1_r in Q. lia.
    + assert (Z.abs a / Z.abs b <= Z.abs a / 2).
      { apply Z.div_le_compat_l; lia. }
      assert (Z.abs a / 2 * 2 <= Z.abs a) by (pose proof (Z.mul_div_le (Z.abs a) 2); lia).
      lia.
Qed.

Lemma vm_ints : forall op a b, is_int64 a -> is_int64 b ->
  vm_binop op (NI a) (NI b) = bind (int_op op a b) (fun z => Ok (NI z)).
Proof.
  intros op a b Ha Hb.
  assert (X : forall z, ok_int (sint z) = bind (if (- 2 ^ 63 <=? z) && (z <? 2 ^ 63) then Ok z else Ub)
     (fun z => Ok (NI z))).
  { intros z. unfold sint, INT64_MIN, INT64_MAX.
    replace (z <=? 2 ^ 63 - 1) with (z <? 2 ^ 63) by lia.
    destruct ((- 2 ^ 63 <=? z) && (z <? 2 ^ 63)); reflexivity. }
  destruct op; cbn [vm_binop int_op add_integer sub_integer mul_integer div_integer mod_integer];
    try apply X; try (unfold with_ints; cbn [get_integer bind]; try reflexivity).
  - destruct (b =? 0) eqn:E.
    + replace (b =? -1) with false by lia. reflexivity.
    + rewrite quot_overflow by (assumption || lia). destruct ((b =? -1) && (a =? INT64_MIN)); reflexivity.
  - destruct (b =? 0) eqn:E.
    + replace (b =? -1) with false by lia. reflexivity.
    + rewrite quot_overflow by (assumption || lia). destruct ((b =? -1) && (a =? INT64_MIN)); reflexivity.
  - rewrite shl_spec by assumption. reflexivity.
  - rewrite shr_spec by assumption. reflexivity.
  - rewrite shru_spec by assumption. reflexivity.
Qed.

(* ---- conversions to integers ---- *)

Lemma get_integer_float : forall d,
  get_integer (NF d) =
  match d with
  | S754_nan => Ub
  | S754_infinity _ => Err ERange
  | S754_zero _ => Ok 0
  | S754_finite s m e =>
      if dle d (- 2 ^ 63) || dge d (2 ^ 63) then Err ERange else Ok (floor_int s m e)
  end.
Proof.
  intros [s | s | | s m e]; try reflexivity; [destruct s; reflexivity |].
  unfold get_integer. destruct (dle _ _ || dge _ _) eqn:D; [reflexivity |].
  apply orb_false_elim in D. destruct D as [D1 D2]. unfold dle, dge in *. unfold to_int, floor_int in *.
  set (v := cond_Zopp s (Z.pos m)) in *. clearbody v.
  assert (X : INT64_MIN <= (if 0 <=? e then v * 2 ^ e else v / 2 ^ (- e)) <= INT64_MAX).
  { unfold INT64_MIN, INT64_MAX. destruct (0 <=? e) eqn:E0.
    - set (p := v * 2 ^ e) in *. clearbody p. change (2 ^ 63) with 9223372036854775808 in *. lia.
    - assert (P : 0 < 2 ^ (- e)) by (apply pow2_gt0; lia).
      set (p := 2 ^ (- e)) in *. clearbody p. change (2 ^ 63) with 9223372036854775808 in *.
      assert (-9223372036854775808 * p < v < 9223372036854775808 * p) by lia.
      split; [apply Z.div_le_lower_bound; lia |].
      assert (v / p < 9223372036854775808); [| lia]. apply Z.div_lt_upper_bound; lia. }
  destruct X as [X1 X2]. apply Z.leb_le in X1. apply Z.leb_le in X2.
  set (z := if 0 <=? e then v * 2 ^ e else v / 2 ^ (- e)) in *. rewrite X1, X2. reflexivity.
Qed.

Lemma to_int_get : forall d z, to_int d = Some z -> z <> INT64_MIN -> get_integer (NF d) = Ok z.
Proof.
  intros [s | s | | s m e] z H N; try discriminate H; [exact (f_equal _ (eq_sym (f_equal (fun o => match o with Some x => x | None => 0 end) (eq_sym H)))) |].
  rewrite get_integer_float. unfold to_int in H.
  destruct ((INT64_MIN <=? floor_int s m e) && (floor_int s m e <=? INT64_MAX)) eqn:R; [| discriminate H].
  assert (floor_int s m e = z) as Ez by congruence. rewrite Ez in *. clear H.
  apply andb_prop in R. destruct R as [R1 R2].
  assert (D : dle (S754_finite s m e) (- 2 ^ 63) || dge (S754_finite s m e) (2 ^ 63) = false).
  { unfold dle, dge. unfold floor_int in Ez. set (v := cond_Zopp s (Z.pos m)) in *. clearbody v.
    unfold INT64_MIN, INT64_MAX in *. change (2 ^ 63) with 9223372036854775808 in *.
    destruct (0 <=? e) eqn:E0.
    - set (p := v * 2 ^ e) in *. clearbody p. lia.
    - assert (P : 0 < 2 ^ (- e)) by (apply pow2_gt0; lia).
      set (p := 2 ^ (- e)) in *. clearbody p.
      pose proof (Z.mul_div_le v p P). pose proof (Z.mul_succ_div_gt v p P). rewrite Ez in *.
      assert (-9223372036854775808 * p < v) by nia. assert (v < 9223372036854775808 * p) by nia. lia. }
  rewrite D. reflexivity.
Qed.
