(* Proofs about the final rounding of the floating-point parser. *)
From Coq Require Import ZArith Znumtheory List Lia Bool ZifyBool.
Import ListNotations.
From Verif Require Import Base ParseIntModel ParseIntSpec DblModel DblSpec DblProofs DblProofs2.
Local Open Scope Z_scope.
Ltac Zify.zify_post_hook ::= idtac.

Lemma denorm_loop_id : forall fuel m e, -1023 <= e -> denorm_loop (S fuel) (m, e) = Some (m, e).
Proof. intros. cbn [denorm_loop]. replace (e <? -1023) with false by lia. reflexivity. Qed.

Lemma denorm_loop_ok : forall k m e, 0 <= m < 2 ^ Z.of_nat k -> e <= -1023 ->
  denorm_loop (S (S k)) (m, e) = Some (m / 2 ^ (-1023 - e), -1023).
Proof.
  induction k as [ | k IH ]; intros m e Hm He.
  - change (Z.of_nat 0) with 0 in Hm. change (2 ^ 0) with 1 in Hm. assert (m = 0) by lia. subst m.
    rewrite Z.div_0_l by (assert (0 < 2 ^ (-1023 - e)) by (apply pow2_pos; lia); lia).
    cbn [denorm_loop]. destruct (e <? -1023) eqn:E.
    + reflexivity.
    + assert (e = -1023) by lia. subst e. reflexivity.
  - assert (Hp : 0 < 2 ^ (-1023 - e)) by (apply pow2_pos; lia).
    remember (S (S k)) as f eqn:Ef. cbn [denorm_loop].
    destruct (e <? -1023) eqn:E.
    + destruct (m =? 0) eqn:E0; cbn [negb].
      * assert (m = 0) by lia. subst m f. rewrite Z.div_0_l by lia. apply denorm_loop_id. lia.
      * subst f. rewrite Z.shiftr_div_pow2 by lia. change (2 ^ 1) with 2.
        rewrite IH.
        -- rewrite Z.div_div by (try lia; apply pow2_pos; lia).
           do 2 f_equal. f_equal. replace (-1023 - e) with (1 + (-1023 - (e + 1))) by lia.
           rewrite Z.pow_add_r by lia. reflexivity.
        -- replace (Z.of_nat (S k)) with (1 + Z.of_nat k) in Hm by lia. rewrite Z.pow_add_r in Hm by lia.
           change (2 ^ 1) with 2 in Hm.
           split; [ apply Z.div_pos; lia | apply Z.div_lt_upper_bound; lia ].
        -- lia.
    + assert (e = -1023) by lia. subst e. change (-1023 - -1023) with 0. change (2 ^ 0) with 1.
      rewrite Z.div_1_r. reflexivity.
Qed.

(* Rounding away eleven bits, to nearest, ties to even. *)
Definition round11 (m : Z) : Z :=
  Z.shiftr m 11 + Z.shiftr (if negb (Z.land (u32 m) 4095 =? 1024) then Z.land (u32 m) 1024 else 0) 10.

Lemma round11_ok : forall m, 0 <= m < 2 ^ 64 ->
  - 2 ^ 10 <= 2 ^ 11 * round11 m - m <= 2 ^ 10 /\
  (Z.abs (2 ^ 11 * round11 m - m) = 2 ^ 10 -> Z.even (round11 m) = true).
Proof.
  intros m Hm. unfold round11.
  assert (Hdiv : forall j, 0 <= j <= 31 -> (u32 m) mod 2 ^ j = m mod 2 ^ j).
  { intros j Hj. unfold u32, uwrap. symmetry. apply Zmod_div_mod.
    - apply Z.pow_pos_nonneg; lia.
    - lia.
    - exists (2 ^ (32 - j)). rewrite <- Z.pow_add_r by lia. f_equal; lia. }
  change 4095 with (Z.ones 12). rewrite Z.land_ones by lia. rewrite (Hdiv 12) by lia.
  replace (Z.land (u32 m) 1024) with (if Z.testbit (u32 m) 10 then 1024 else 0)
    by (symmetry; apply (land_pow2 (u32 m) 10); lia).
  rewrite <- (Z.mod_pow2_bits_low (u32 m) 11 10) by lia. rewrite (Hdiv 11) by lia. clear Hdiv.
  rewrite (testbit_top (m mod 2 ^ 11) 10) by (try apply Z.mod_pos_bound; lia).
  rewrite Z.shiftr_div_pow2 by lia.
  assert (Hq : exists q b g, m = 4096 * q + 2048 * b + g /\ 0 <= b <= 1 /\ 0 <= g < 2048).
  { exists (m / 4096), (m / 2048 mod 2), (m mod 2048). clear. Z.div_mod_to_equations; lia. }
  destruct Hq as (q & b & g & -> & Hb & Hg).
  assert (E12 : (4096 * q + 2048 * b + g) mod 2 ^ 12 = 2048 * b + g).
  { symmetry. apply Z.mod_unique with q; lia. }
  assert (E11 : (4096 * q + 2048 * b + g) mod 2 ^ 11 = g).
  { symmetry. apply Z.mod_unique with (2 * q + b); lia. }
  assert (D11 : (4096 * q + 2048 * b + g) / 2 ^ 11 = 2 * q + b).
  { symmetry. apply Z.div_unique with g; lia. }
  rewrite E12, E11, D11. change (2 ^ 10) with 1024. change (2 ^ 11) with 2048.
  assert (Hev : forall x, Z.even (2 * x) = true) by (intro; rewrite Z.even_mul; reflexivity).
  destruct (2048 * b + g =? 1024) eqn:E; cbn [negb].
  - change (Z.shiftr 0 10) with 0. assert (b = 0) by lia. subst b.
    split; [ lia | ]. intros _. rewrite !Z.add_0_r. apply Hev.
  - destruct (1024 <=? g) eqn:E1.
    + change (Z.shiftr 1024 10) with 1. split; [ lia | ]. intro Ht.
      assert (b = 1) by lia. subst b. replace (2 * q + 1 + 1) with (2 * (q + 1)) by lia. apply Hev.
    + change (Z.shiftr 0 10) with 0. split; [ lia | ]. intro. lia.
Qed.

(* The sign bit, exponent field and fraction field put together. *)
Lemma pack_bits : forall sign ex m, (sign = 0 \/ sign = 1) -> 0 <= ex < 2048 ->
  Z.lor (Z.lor (Z.shiftl sign 63) (u64 (Z.shiftl (u64 ex) 52))) (Z.land m 4503599627370495) =
  sign * 2 ^ 63 + (ex * 2 ^ 52 + m mod 2 ^ 52).
Proof.
  intros sign ex m Hs Hx.
  rewrite (u64_id ex) by lia. rewrite !Z.shiftl_mul_pow2 by lia. rewrite u64_id by lia.
  change 4503599627370495 with (Z.ones 52). rewrite Z.land_ones by lia.
  assert (Hm : 0 <= m mod 2 ^ 52 < 2 ^ 52) by (apply Z.mod_pos_bound; lia).
  set (f := m mod 2 ^ 52) in *. clearbody f.
  assert (E1 : Z.lor (sign * 2 ^ 63) (ex * 2 ^ 52) = sign * 2 ^ 63 + ex * 2 ^ 52).
  { apply lor_add_low; lia. }
  rewrite E1. replace (sign * 2 ^ 63 + ex * 2 ^ 52) with ((sign * 2 ^ 11 + ex) * 2 ^ 52) by lia.
  rewrite lor_add_low by lia. lia.
Qed.

Lemma finish_zero : forall sign, (sign = 0 \/ sign = 1) -> finish_dbl sign (0, 0) = DOk (sign * 2 ^ 63).
Proof. intros sign [-> | ->]; vm_compute; reflexivity. Qed.

Lemma finish_normal : forall sign m e, (sign = 0 \/ sign = 1) -> normal m -> -1022 <= e <= 1023 ->
  exists r, finish_dbl sign (m, e) = DOk (sign * 2 ^ 63 + ((e + 1023) * 2 ^ 52 + (r - 2 ^ 52))) /\
    2 ^ 52 <= r <= 2 ^ 53 /\ - 2 ^ 10 <= 2 ^ 11 * r - m <= 2 ^ 10 /\
    (Z.abs (2 ^ 11 * r - m) = 2 ^ 10 -> Z.even r = true).
Proof.
  intros sign m e Hs Hm He. unfold normal in Hm.
  destruct (round11_ok m ltac:(lia)) as [Hr Hev].
  exists (round11 m). unfold finish_dbl. cbn [snd].
  replace (1023 <? e) with false by lia. rewrite denorm_loop_id by lia.
  replace (e =? -1023) with false by lia.
  replace (m =? 0) with false by lia. cbn [negb]. cbv zeta.
  fold (round11 m). rewrite (u64_id (round11 m)) by lia.
  rewrite (testbit_top (round11 m) 53) by (try change (53 + 1) with 54; lia).
  split; [ | split; [ lia | split; assumption ] ].
  destruct (2 ^ 53 <=? round11 m) eqn:E.
  - assert (R : round11 m = 2 ^ 53) by lia. rewrite R.
    change (Z.shiftr (2 ^ 53) 1) with (2 ^ 52). f_equal.
    replace (e + 1 + 1023) with (e + 1024) by lia. rewrite pack_bits by lia.
    change (2 ^ 52 mod 2 ^ 52) with 0. lia.
  - f_equal. rewrite pack_bits by lia.
    assert (M : round11 m mod 2 ^ 52 = round11 m - 2 ^ 52).
    { symmetry. apply Z.mod_unique with 1; lia. }
    rewrite M. reflexivity.
Qed.

Lemma finish_denormal : forall sign m e, (sign = 0 \/ sign = 1) -> normal m -> e <= -1023 ->
  exists r, finish_dbl sign (m, e) = DOk (sign * 2 ^ 63 + r mod 2 ^ 52) /\
    0 <= r <= 2 ^ 52 /\ - 2 ^ 10 <= 2 ^ 11 * r - m / 2 ^ (-1022 - e) <= 2 ^ 10.
Proof.
  intros sign m e Hs Hm He. unfold normal in Hm.
  unfold finish_dbl. cbn [snd]. replace (1023 <? e) with false by lia.
  rewrite (denorm_loop_ok 64) by (try change (Z.of_nat 64) with 64; lia).
  change (-1023 =? -1023) with true. cbv iota.
  assert (Hp : 0 < 2 ^ (-1023 - e)) by (apply pow2_pos; lia).
  assert (E1 : Z.shiftr (m / 2 ^ (-1023 - e)) 1 = m / 2 ^ (-1022 - e)).
  { rewrite Z.shiftr_div_pow2 by lia. rewrite Z.div_div by lia. f_equal.
    replace (-1022 - e) with ((-1023 - e) + 1) by lia. rewrite Z.pow_add_r by lia. reflexivity. }
  rewrite E1.
  assert (Hb : 0 <= m / 2 ^ (-1022 - e) < 2 ^ 63).
  { assert (2 <= 2 ^ (-1022 - e)) by (apply (Z.pow_le_mono_r 2 1); lia).
    split; [ apply Z.div_pos; lia | apply Z.div_lt_upper_bound; nia ]. }
  clear E1. set (m1 := m / 2 ^ (-1022 - e)) in *. clearbody m1.
  destruct (round11_ok m1 ltac:(lia)) as [Hr _].
  destruct (m1 =? 0) eqn:E0; cbn [negb].
  - assert (m1 = 0) by lia. subst m1. exists 0. split; [ | lia ].
    f_equal. replace (-1023 + 1023) with 0 by lia. rewrite pack_bits by lia. reflexivity.
  - exists (round11 m1). cbv zeta. fold (round11 m1). rewrite (u64_id (round11 m1)) by lia.
    rewrite (testbit_top (round11 m1) 53) by (try change (53 + 1) with 54; lia).
    replace (2 ^ 53 <=? round11 m1) with false by lia.
    split; [ | split; [ lia | assumption ] ].
    f_equal. change (-1023 + 1023) with 0. rewrite pack_bits by lia. lia.
Qed.

Lemma finish_big : forall sign m e, 1023 < e -> finish_dbl sign (m, e) = DTooBig.
Proof. intros. unfold finish_dbl. cbn [snd]. replace (1023 <? e) with true by lia. reflexivity. Qed.
