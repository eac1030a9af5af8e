(* The output of one generator is spread evenly over its states. *)
From Coq Require Import ZArith List Lia Bool ZifyBool.
Import ListNotations.
From Verif Require Import Base NumModel RandModel RandSpec RandProofs.
Local Open Scope Z_scope.
Ltac Zify.zify_post_hook ::= idtac.

(* rotation to the right of 32 bits *)
Definition rotr (x k : Z) : Z := x / 2 ^ k + x mod 2 ^ k * 2 ^ (32 - k).
Definition rotl (y k : Z) : Z := y mod 2 ^ (32 - k) * 2 ^ k + y / 2 ^ (32 - k).

Lemma pow_parts : forall k, 0 <= k < 32 -> 0 < 2 ^ k /\ 0 < 2 ^ (32 - k) /\ 2 ^ (32 - k) * 2 ^ k = 2 ^ 32.
Proof.
  intros k K. split; [apply Z.pow_pos_nonneg; lia |]. split; [apply Z.pow_pos_nonneg; lia |].
  rewrite <- Z.pow_add_r by lia. f_equal. lia.
Qed.
Lemma rotl_range : forall y k, 0 <= k < 32 -> 0 <= y < 2 ^ 32 -> 0 <= rotl y k < 2 ^ 32.
Proof.
  intros y k K Y. destruct (pow_parts k K) as (A & B & C). unfold rotl. set (a := 2 ^ k) in *. set (b := 2 ^ (32 - k)) in *.
  pose proof (Z.mod_pos_bound y b B). assert (0 <= y / b < a).
  { split; [apply Z.div_pos; lia |]. apply Z.div_lt_upper_bound; lia. }
  rewrite <- C. clearbody a b. nia.
Qed.
Lemma rotr_rotl : forall y k, 0 <= k < 32 -> 0 <= y < 2 ^ 32 -> rotr (rotl y k) k = y.
Proof.
  intros y k K Y. destruct (pow_parts k K) as (A & B & C). unfold rotr, rotl. set (a := 2 ^ k) in *. set (b := 2 ^ (32 - k)) in *.
  assert (D : 0 <= y / b < a).
  { split; [apply Z.div_pos; lia |]. apply Z.div_lt_upper_bound; lia. }
  rewrite Z.div_add_l, (Z.add_comm (y mod b * a)), Z.mod_add by lia. rewrite (Z.div_small (y / b)), (Z.mod_small (y / b)) by lia.
  rewrite (Z.div_mod y b) at 3 by lia. lia.
Qed.
Lemma rotl_rotr : forall x k, 0 <= k < 32 -> 0 <= x < 2 ^ 32 -> rotl (rotr x k) k = x.
Proof.
  intros x k K X. destruct (pow_parts k K) as (A & B & C). unfold rotr, rotl. set (a := 2 ^ k) in *. set (b := 2 ^ (32 - k)) in *.
  assert (D : 0 <= x / a < b).
  { split; [apply Z.div_pos; lia |]. apply Z.div_lt_upper_bound; lia. }
  rewrite Z.mod_add, Z.div_add by lia. rewrite (Z.div_small (x / a)), (Z.mod_small (x / a)) by lia.
  rewrite (Z.div_mod x a) at 3 by lia. lia.
Qed.

(* the two mixing steps on the upper 37 bits of the state *)
Definition mix (h : Z) : Z := Z.lxor h (h / 2 ^ 18).
Definition unmix (k : Z) : Z := Z.lxor (Z.lxor k (k / 2 ^ 18)) (k / 2 ^ 36).

Lemma lxor_range : forall n a b, 0 <= n -> 0 <= a < 2 ^ n -> 0 <= b < 2 ^ n -> 0 <= Z.lxor a b < 2 ^ n.
Proof.
  intros n a b N A B.
  assert (E : Z.lxor a b = Z.lxor a b mod 2 ^ n).
  { apply Z.bits_inj'. intros i I. destruct (Z.ltb_spec i n).
    - rewrite Z.mod_pow2_bits_low by lia. reflexivity.
    - rewrite Z.mod_pow2_bits_high by lia. rewrite Z.lxor_spec.
      rewrite <- (Z.mod_small a (2 ^ n)), <- (Z.mod_small b (2 ^ n)) by lia. rewrite !Z.mod_pow2_bits_high by lia. reflexivity. }
  rewrite E. apply Z.mod_pos_bound. apply Z.pow_pos_nonneg; lia.
Qed.
Lemma lxor_div : forall a b n, 0 <= n -> Z.lxor a b / 2 ^ n = Z.lxor (a / 2 ^ n) (b / 2 ^ n).
Proof. intros a b n N. rewrite <- !Z.shiftr_div_pow2 by lia. apply Z.shiftr_lxor. Qed.
Lemma lxor_mod : forall a b n, 0 <= n -> Z.lxor a b mod 2 ^ n = Z.lxor (a mod 2 ^ n) (b mod 2 ^ n).
Proof.
  intros a b n N. apply Z.bits_inj'. intros i I. rewrite Z.lxor_spec. destruct (Z.ltb_spec i n).
  - rewrite !Z.mod_pow2_bits_low by lia. apply Z.lxor_spec.
  - rewrite !Z.mod_pow2_bits_high by lia. reflexivity.
Qed.

Lemma div_range : forall x n m, 0 <= n <= m -> 0 <= x < 2 ^ m -> 0 <= x / 2 ^ n < 2 ^ (m - n).
Proof.
  intros x n m N X. assert (0 < 2 ^ n) by (apply Z.pow_pos_nonneg; lia). split; [apply Z.div_pos; lia |].
  apply Z.div_lt_upper_bound; [lia |]. rewrite <- Z.pow_add_r by lia. replace (n + (m - n)) with m by lia. lia.
Qed.
Lemma div_div18 : forall x, x / 2 ^ 18 / 2 ^ 18 = x / 2 ^ 36.
Proof. intros x. rewrite Z.div_div by lia. reflexivity. Qed.
Lemma div_36_18 : forall x, 0 <= x < 2 ^ 37 -> x / 2 ^ 36 / 2 ^ 18 = 0.
Proof. intros x X. pose proof (div_range x 36 37 ltac:(lia) X). apply Z.div_small. lia. Qed.

Lemma mix_range : forall h, 0 <= h < 2 ^ 37 -> 0 <= mix h < 2 ^ 37.
Proof. intros h H. apply lxor_range; [lia | exact H |]. pose proof (div_range h 18 37 ltac:(lia) H). lia. Qed.
Lemma unmix_range : forall h, 0 <= h < 2 ^ 37 -> 0 <= unmix h < 2 ^ 37.
Proof.
  intros h H. pose proof (div_range h 18 37 ltac:(lia) H). pose proof (div_range h 36 37 ltac:(lia) H).
  apply lxor_range; [lia | apply lxor_range; lia | lia].
Qed.
Lemma mix_unmix : forall k, 0 <= k < 2 ^ 37 -> mix (unmix k) = k.
Proof.
  intros k K. unfold mix, unmix. rewrite !lxor_div by lia. rewrite div_div18, div_36_18 by lia. rewrite Z.lxor_0_r.
  rewrite (Z.lxor_assoc k), Z.lxor_assoc, Z.lxor_nilpotent. apply Z.lxor_0_r.
Qed.
Lemma unmix_mix : forall h, 0 <= h < 2 ^ 37 -> unmix (mix h) = h.
Proof.
  intros h H. unfold mix, unmix. rewrite !lxor_div by lia. rewrite div_div18.
  assert (E : h / 2 ^ 18 / 2 ^ 36 = 0).
  { pose proof (div_range h 18 37 ltac:(lia) H). apply Z.div_small. lia. }
  rewrite E, Z.lxor_0_r. rewrite (Z.lxor_assoc h (h / 2 ^ 18)), <- (Z.lxor_assoc (h / 2 ^ 18) (h / 2 ^ 18)), Z.lxor_nilpotent, Z.lxor_0_l.
  rewrite Z.lxor_assoc, Z.lxor_nilpotent. apply Z.lxor_0_r.
Qed.

(* pcg_random in terms of these *)
Lemma pout_mix : forall s t, 0 <= s < 2 ^ 64 ->
  pout (mkpcg s t) = rotr (mix (s / 2 ^ 27) mod 2 ^ 32) (mix (s / 2 ^ 27) / 2 ^ 32).
Proof.
  intros s t B. unfold pout, pcg_random. cbn [fst p_state p_stream].
  set (h := s / 2 ^ 27). assert (H : 0 <= h < 2 ^ 37) by (apply (div_range s 27 64); lia).
  assert (R : mix h / 2 ^ 32 = Z.shiftr s 59).
  { unfold mix. rewrite lxor_div by lia. pose proof (div_range h 18 37 ltac:(lia) H). rewrite (Z.div_small (h / 2 ^ 18)) by lia.
    rewrite Z.lxor_0_r. unfold h. rewrite Z.div_div by lia. rewrite Z.shiftr_div_pow2 by lia. reflexivity. }
  assert (X : u32 (Z.shiftr (Z.lxor (Z.shiftr s 18) s) 27) = mix h mod 2 ^ 32).
  { unfold u32, uwrap. f_equal. rewrite Z.shiftr_div_pow2, lxor_div, Z.shiftr_div_pow2 by lia. unfold mix, h. rewrite Z.lxor_comm. f_equal.
    rewrite !Z.div_div by lia. reflexivity. }
  rewrite X, <- R. assert (K : 0 <= mix h / 2 ^ 32 < 32).
  { pose proof (div_range (mix h) 32 37 ltac:(lia) (mix_range h H)) as Q. change (2 ^ (37 - 32)) with 32 in Q. exact Q. }
  pose proof (Z.mod_pos_bound (mix h) (2 ^ 32) ltac:(lia)) as Y. revert K Y. generalize (mix h / 2 ^ 32), (mix h mod 2 ^ 32). clear.
  intros k x K X. destruct (pow_parts k K) as (A & B & C). unfold rotr. rewrite shiftr_div by lia.
  change 31 with (Z.ones 5). rewrite Z.land_ones by lia. change (2 ^ 5) with 32.
  destruct (Z.eq_dec k 0) as [-> | N].
  - change (- (0)) with 0. rewrite Z.mod_0_l by lia. change (2 ^ 0) with 1. rewrite Z.div_1_r, Z.mod_1_r, shiftl_mul by lia.
    change (2 ^ 0) with 1. rewrite Z.mul_1_r. unfold u32, uwrap. rewrite Z.mod_small by lia. rewrite Z.lor_diag. lia.
  - assert (E : (- k) mod 32 = 32 - k).
    { replace (- k) with (32 - k + (-1) * 32) by lia. rewrite Z.mod_add by lia. apply Z.mod_small. lia. }
    rewrite E, shiftl_mul by lia. unfold u32, uwrap.
    assert (M : x * 2 ^ (32 - k) mod 2 ^ 32 = x mod 2 ^ k * 2 ^ (32 - k)).
    { rewrite <- C. rewrite (Z.mul_comm (2 ^ (32 - k)) (2 ^ k)). apply Z.mul_mod_distr_r; lia. }
    rewrite M. rewrite Z.lor_comm, lor_add_low; [lia | lia |]. apply (div_range x k 32); lia.
Qed.

Lemma pout_even : forall t, evenly_split (2 ^ 64) (2 ^ 32) (fun s => Some (pout (mkpcg s t))).
Proof.
  intros t. split.
  { intros s v B E. assert (v = pout (mkpcg s t)) as -> by congruence. apply pcg_range. exact B. }
  exists (2 ^ 32). split; [lia |]. intros v V.
  set (k := fun j => j / 2 ^ 27 * 2 ^ 32 + rotl v (j / 2 ^ 27)).
  assert (J : forall j, 0 <= j < 2 ^ 32 -> 0 <= j / 2 ^ 27 < 32).
  { intros j B. pose proof (div_range j 27 32 ltac:(lia) B) as Q. change (2 ^ (32 - 27)) with 32 in Q. exact Q. }
  assert (KR : forall j, 0 <= j < 2 ^ 32 -> 0 <= k j < 2 ^ 37).
  { intros j B. unfold k. pose proof (rotl_range v (j / 2 ^ 27) (J j B) V). specialize (J j B). lia. }
  exists (fun j => unmix (k j) * 2 ^ 27 + j mod 2 ^ 27). split; [| split].
  - intros j B. pose proof (unmix_range (k j) (KR j B)) as U. pose proof (Z.mod_pos_bound j (2 ^ 27) ltac:(lia)) as L.
    assert (S : 0 <= unmix (k j) * 2 ^ 27 + j mod 2 ^ 27 < 2 ^ 64).
    { clear - U L. change (2 ^ 64) with (2 ^ 37 * 2 ^ 27). nia. }
    split; [exact S |]. rewrite pout_mix by exact S. rewrite Z.div_add_l, (Z.div_small (j mod 2 ^ 27)), Z.add_0_r by lia.
    rewrite mix_unmix by (apply KR; exact B). unfold k. rewrite Z.div_add_l by lia.
    pose proof (rotl_range v (j / 2 ^ 27) (J j B) V) as RR. rewrite (Z.div_small (rotl v _)) by exact RR.
    rewrite (Z.add_comm (j / 2 ^ 27 * 2 ^ 32)), Z.mod_add by lia. rewrite (Z.mod_small (rotl v _)) by exact RR. rewrite Z.add_0_r.
    rewrite rotr_rotl by (apply J || exact V; exact B). reflexivity.
  - intros i j A B E. pose proof (Z.mod_pos_bound i (2 ^ 27) ltac:(lia)). pose proof (Z.mod_pos_bound j (2 ^ 27) ltac:(lia)).
    assert (U : unmix (k i) = unmix (k j) /\ i mod 2 ^ 27 = j mod 2 ^ 27) by (clear - E H H0; lia). destruct U as [U M].
    assert (K : k i = k j) by (rewrite <- (mix_unmix (k i)), <- (mix_unmix (k j)), U by (apply KR; assumption); reflexivity).
    assert (D : i / 2 ^ 27 = j / 2 ^ 27).
    { unfold k in K. pose proof (rotl_range v (i / 2 ^ 27) (J i A) V). pose proof (rotl_range v (j / 2 ^ 27) (J j B) V). lia. }
    rewrite (Z.div_mod i (2 ^ 27)), (Z.div_mod j (2 ^ 27)) by lia. rewrite D, M. reflexivity.
  - intros s B E. assert (P : pout (mkpcg s t) = v) by congruence. clear E.
    set (h := s / 2 ^ 27). assert (H : 0 <= h < 2 ^ 37) by (apply (div_range s 27 64); lia).
    pose proof (mix_range h H) as MR. assert (R : 0 <= mix h / 2 ^ 32 < 32).
    { pose proof (div_range (mix h) 32 37 ltac:(lia) MR) as Q. change (2 ^ (37 - 32)) with 32 in Q. exact Q. }
    pose proof (Z.mod_pos_bound s (2 ^ 27) ltac:(lia)) as L. pose proof (Z.mod_pos_bound (mix h) (2 ^ 32) ltac:(lia)) as ML.
    exists (mix h / 2 ^ 32 * 2 ^ 27 + s mod 2 ^ 27). split; [lia |].
    assert (D : (mix h / 2 ^ 32 * 2 ^ 27 + s mod 2 ^ 27) / 2 ^ 27 = mix h / 2 ^ 32).
    { rewrite Z.div_add_l by lia. rewrite (Z.div_small (s mod 2 ^ 27)) by lia. lia. }
    assert (K : k (mix h / 2 ^ 32 * 2 ^ 27 + s mod 2 ^ 27) = mix h).
    { unfold k. rewrite D. rewrite <- P, pout_mix by exact B. fold h. rewrite rotl_rotr by assumption.
      rewrite (Z.div_mod (mix h) (2 ^ 32)) at 3 by lia. lia. }
    rewrite K, unmix_mix by exact H. rewrite (Z.add_comm _ (s mod 2 ^ 27)), Z.mod_add, Z.mod_mod by lia.
    rewrite (Z.div_mod s (2 ^ 27)) at 1 by lia. fold h. lia.
Qed.
