(* The estimate of the year: division of the number of days by the double 365.2425. *)
From Coq Require Import ZArith List Lia Bool ZifyBool SpecFloat.
Import ListNotations.
From Verif Require Import Base ListZ FoldModel FoldProofs DateModel.
Local Open Scope Z_scope.
Ltac Zify.zify_post_hook ::= idtac.

Lemma digits_pos : forall p, Z.pos (digits2_pos p) = Z.log2 (Z.pos p) + 1.
Proof.
  induction p as [p IH|p IH|]; cbn [digits2_pos].
  - rewrite Pos2Z.inj_succ, IH. rewrite Pos2Z.inj_xI. rewrite Z.log2_succ_double by lia. lia.
  - rewrite Pos2Z.inj_succ, IH. rewrite Pos2Z.inj_xO. rewrite Z.log2_double by lia. lia.
  - reflexivity.
Qed.
Lemma digits_z : forall m, 0 < m -> Zdigits2 m = Z.log2 m + 1.
Proof. intros m H. destruct m as [|p|p]; [ lia | apply digits_pos | lia ]. Qed.
Lemma digits_range : forall m k, 0 < k -> 2 ^ (k - 1) <= m < 2 ^ k -> Zdigits2 m = k.
Proof.
  intros m k Hk H. assert (0 < 2 ^ (k - 1)) by (apply Z.pow_pos_nonneg; lia). rewrite digits_z by lia.
  rewrite (Z.log2_unique m (k - 1)); [ lia | lia | ]. replace (Z.succ (k - 1)) with k by lia. exact H.
Qed.

Lemma fexp_norm : forall x, -1021 <= x -> fexp 53 1024 x = x - 53.
Proof. intros x H. unfold fexp, emin. lia. Qed.

(* Rounding of a mantissa with 53 digits. *)
Lemma round_53 : forall m e l, 2 ^ 52 <= m < 2 ^ 53 -> -1000 <= e < 900 ->
  exists m' e', binary_round_aux 53 1024 false m e l = S754_finite false m' e' /\
    (e' = e \/ e' = e + 1) /\ exists v, v = Z.pos m' * 2 ^ (e' - e) /\ m <= v <= m + 1 /\ (l = loc_Exact -> v = m).
Proof.
  intros m e l Hm He. unfold binary_round_aux.
  assert (R : forall m e l, 2 ^ 52 <= m < 2 ^ 53 -> -1000 <= e < 900 ->
     shr_fexp 53 1024 m e l = (shr_record_of_loc m l, e)).
  { clear. intros m e l Hm He. unfold shr_fexp. rewrite (digits_range m 53) by (lia || exact Hm).
    rewrite fexp_norm by lia. replace (53 + e - 53 - e) with 0 by lia. reflexivity. }
  rewrite R by assumption.
  assert (Q : loc_of_shr_record (shr_record_of_loc m l) = l /\ shr_m (shr_record_of_loc m l) = m)
    by (destruct l as [|[]]; split; reflexivity).
  destruct Q as [-> ->].
  set (r := round_nearest_even m l).
  assert (Hr : m <= r <= m + 1 /\ (l = loc_Exact -> r = m)).
  { unfold r, round_nearest_even. destruct l as [|[]]; [ | destruct (Z.even m) | | ]; split; (lia || discriminate). }
  clearbody r. destruct (Z.eq_dec r (2 ^ 53)) as [E | E].
  - rewrite E. unfold shr_fexp. replace (Zdigits2 (2 ^ 53)) with 54 by reflexivity. rewrite fexp_norm by lia.
    replace (54 + e - 53 - e) with 1 by lia. cbn [shr]. 
    change (iter_pos shr_1 1 (shr_record_of_loc (2 ^ 53) loc_Exact)) with (Build_shr_record (Z.pos 4503599627370496) false false).
    cbn [shr_m]. replace (e + 1 <=? 1024 - 53) with true by lia.
    exists 4503599627370496%positive, (e + 1). split; [ reflexivity | ]. split; [ auto | ].
    exists (2 ^ 53). split; [ | split; [ rewrite <- E; apply Hr | intros EL; rewrite <- E; apply (proj2 Hr EL) ] ].
    replace (e + 1 - e) with 1 by lia. reflexivity.
  - rewrite R by lia. change (shr_m (shr_record_of_loc r loc_Exact)) with r.
    destruct r as [|p|p]; [ lia | | lia ]. replace (e <=? 1024 - 53) with true by lia.
    exists p, e. split; [ reflexivity | ]. split; [ auto | ]. exists (Z.pos p). split; [ | exact Hr ].
    replace (e - e) with 0 by lia. rewrite Z.mul_1_r. reflexivity.
Qed.

(* Rounding of a mantissa with 54 digits. *)
Lemma round_54 : forall m e l, 2 ^ 53 <= m < 2 ^ 54 -> -1000 <= e < 899 ->
  exists m' e', binary_round_aux 53 1024 false m e l = S754_finite false m' e' /\
    (e' = e + 1 \/ e' = e + 2) /\ exists v, v = Z.pos m' * 2 ^ (e' - e) /\ m - 1 <= v <= m + 2.
Proof.
  intros m e l Hm He.
  assert (X : exists l', binary_round_aux 53 1024 false m e l = binary_round_aux 53 1024 false (m / 2) (e + 1) l').
  { unfold binary_round_aux. unfold shr_fexp at 1. rewrite (digits_range m 54) by (lia || exact Hm).
    rewrite fexp_norm by lia. replace (54 + e - 53 - e) with 1 by lia. cbn [shr iter_pos].
    set (b := shr_1 (shr_record_of_loc m l)).
    assert (B : shr_m b = m / 2).
    { unfold b. assert (shr_m (shr_1 (shr_record_of_loc m l)) = shr_m (shr_1 (Build_shr_record m false false))) as ->.
      { destruct l as [|[]]; destruct m as [|[]|[]]; reflexivity. }
      clear -Hm. rewrite <- Z.div2_div. destruct m as [|[]|[]]; try reflexivity; lia. }
    clearbody b. exists (loc_of_shr_record b).
    unfold shr_fexp at 2. rewrite (digits_range (m / 2) 53) by (lia || (Z.div_mod_to_equations; lia)).
    rewrite fexp_norm by lia. replace (53 + (e + 1) - 53 - (e + 1)) with 0 by lia. cbn [shr].
    assert (loc_of_shr_record (shr_record_of_loc (m / 2) (loc_of_shr_record b)) = loc_of_shr_record b /\ shr_m (shr_record_of_loc (m / 2) (loc_of_shr_record b)) = m / 2) as [-> ->]
      by (destruct (loc_of_shr_record b) as [|[]]; split; reflexivity).
    rewrite B. reflexivity. }
  destruct X as [l' ->].
  destruct (round_53 (m / 2) (e + 1) l') as [m' [e' [E [Ee [v [Ev [Hv _]]]]]]]; [ Z.div_mod_to_equations; lia | lia | ].
  exists m', e'. split; [ exact E | ]. split; [ lia | ]. exists (v * 2). split.
  - rewrite Ev. replace (e' - e) with (e' - (e + 1) + 1) by lia. rewrite Z.pow_add_r by lia. change (2 ^ 1) with 2. lia.
  - clear - Hv. Z.div_mod_to_equations. lia.
Qed.

Lemma of_int_norm : forall n, 0 < n < 2 ^ 53 ->
  exists m, of_int n = S754_finite false m (Z.log2 n - 52) /\ Z.pos m = n * 2 ^ (52 - Z.log2 n) /\ 2 ^ 52 <= Z.pos m < 2 ^ 53.
Proof.
  intros n Hn. destruct n as [|p|p]; [ lia | | lia ]. unfold of_int, binary_normalize, binary_round.
  rewrite digits_pos. set (d := Z.log2 (Z.pos p)).
  assert (Hd : 0 <= d < 53) by (split; [ apply Z.log2_nonneg | apply Z.log2_lt_pow2; lia ]).
  rewrite fexp_norm by lia. replace (d + 1 + 0 - 53) with (d - 52) by lia.
  pose proof (Z.log2_spec (Z.pos p) ltac:(lia)) as Sp. fold d in Sp.
  assert (Hm : exists m, shl_align p 0 (d - 52) = (m, d - 52) /\ Z.pos m = Z.pos p * 2 ^ (52 - d)).
  { unfold shl_align. rewrite Z.sub_0_r. destruct (d - 52) as [|k|k] eqn:E; [ | lia | ].
    - exists p. split; [ reflexivity | ]. replace (52 - d) with 0 by lia. lia.
    - exists (shift_pos k p). split; [ reflexivity | ]. rewrite Zpower.shift_pos_correct. replace (52 - d) with (Z.pos k) by lia.
      rewrite Z.mul_comm. reflexivity. }
  destruct Hm as [m [-> Em]].
  assert (Hr : 2 ^ 52 <= Z.pos m < 2 ^ 53).
  { rewrite Em. replace (2 ^ 52) with (2 ^ d * 2 ^ (52 - d)) by (rewrite <- Z.pow_add_r by lia; f_equal; lia).
    replace (2 ^ 53) with (2 ^ Z.succ d * 2 ^ (52 - d)) by (rewrite <- Z.pow_add_r by lia; f_equal; lia).
    assert (0 < 2 ^ (52 - d)) by (apply Z.pow_pos_nonneg; lia). nia. }
  destruct (round_53 (Z.pos m) (d - 52) loc_Exact Hr ltac:(lia)) as [m' [e' [E [Ee [v [Ev [Hv Hx]]]]]]].
  rewrite E. exists m. split; [ | split; [ assumption | assumption ] ].
  specialize (Hx eq_refl). destruct Ee as [-> | ->].
  - f_equal. rewrite Z.sub_diag, Z.mul_1_r in Ev. lia.
  - exfalso. (* a mantissa below 2^53 is not shifted *)
    clear - E Hr Hd. revert E. unfold binary_round_aux, shr_fexp. rewrite (digits_range (Z.pos m) 53) by (lia || exact Hr).
    rewrite fexp_norm by lia. replace (53 + (d - 52) - 53 - (d - 52)) with 0 by lia. cbn [shr shr_record_of_loc shr_m loc_of_shr_record round_nearest_even].
    rewrite (digits_range (Z.pos m) 53) by (lia || exact Hr).
    rewrite fexp_norm by lia. replace (53 + (d - 52) - 53 - (d - 52)) with 0 by lia. cbn [shr shr_m].
    destruct (d - 52 <=? 1024 - 53); intros E; [ injection E as _ E; lia | discriminate E ].
Qed.

Definition DAYS : Z := 134217728.   (* 2^27 *)

Lemma round_any : forall m e l, 2 ^ 52 <= m < 2 ^ 54 -> -1000 <= e < 800 ->
  exists m' e', binary_round_aux 53 1024 false m e l = S754_finite false m' e' /\
    e <= e' <= e + 2 /\ exists v, v = Z.pos m' * 2 ^ (e' - e) /\ m - 1 <= v <= m + 2.
Proof.
  intros m e l Hm He. destruct (Z.ltb_spec m (2 ^ 53)) as [L | L].
  - destruct (round_53 m e l) as [m' [e' [E [Ee [v [Ev [Hv _]]]]]]]; [ lia | lia | ].
    exists m', e'. split; [ exact E | ]. split; [ lia | ]. exists v. split; [ exact Ev | lia ].
  - destruct (round_54 m e l) as [m' [e' [E [Ee [v [Ev Hv]]]]]]; [ lia | lia | ].
    exists m', e'. split; [ exact E | ]. split; [ lia | ]. exists v. split; [ exact Ev | lia ].
Qed.

Lemma year_div : forall n, 0 < n < DAYS ->
  exists m e Y, ddiv (of_int n) year_len = S754_finite false m e /\ -100 <= e < -30 /\
    floor_int false m e = Y /\ 3652425 * Y <= 10000 * n <= 3652425 * (Y + 1) /\ 0 <= Y.
Proof.
  intros n Hn. unfold DAYS in Hn. destruct (of_int_norm n ltac:(lia)) as [m1 [-> [Em Hm]]].
  set (L := Z.log2 n) in *.
  assert (HL : 0 <= L < 27) by (split; [ apply Z.log2_nonneg | apply Z.log2_lt_pow2; lia ]).
  unfold ddiv, SFdiv, year_len, SFdiv_core_binary.
  rewrite (digits_range (Z.pos m1) 53) by (lia || exact Hm).
  replace (Zdigits2 6425414011327611) with 53 by reflexivity.
  rewrite fexp_norm by (clear - HL; lia). replace (Z.min (53 + (L - 52) - (53 + -44) - 53) (L - 52 - -44)) with (L - 61) by (clear - HL; lia).
  replace (L - 52 - -44 - (L - 61)) with 53 by (clear; lia). cbv zeta. cbn [xorb].
  rewrite Z.shiftl_mul_pow2 by lia. set (M := Z.pos m1) in *.
  pose proof (Z.div_eucl_eq (M * 2 ^ 53) 6425414011327611 ltac:(lia)) as DE.
  pose proof (Z_div_mod (M * 2 ^ 53) 6425414011327611 ltac:(lia)) as DM.
  destruct (Z.div_eucl (M * 2 ^ 53) 6425414011327611) as [q r]. destruct DM as [_ Hr].
  assert (Hq : 2 ^ 52 <= q < 2 ^ 54) by lia.
  destruct (round_any q (L - 61) (new_location 6425414011327611 r) Hq ltac:(lia)) as [m' [e' [E [Ee [v [Ev Hv]]]]]].
  rewrite E. exists m', e', (floor_int false m' e'). split; [ reflexivity | ]. split; [ lia | ]. split; [ reflexivity | ].
  assert (F : floor_int false m' e' = v / 2 ^ (61 - L)).
  { unfold floor_int. cbn [cond_Zopp]. replace (0 <=? e') with false by lia.
    assert (0 < 2 ^ (e' - (L - 61))) by (apply Z.pow_pos_nonneg; lia).
    assert (0 < 2 ^ (- e')) by (apply Z.pow_pos_nonneg; lia).
    rewrite Ev. replace (2 ^ (61 - L)) with (2 ^ (- e') * 2 ^ (e' - (L - 61))) by (rewrite <- Z.pow_add_r by lia; f_equal; lia).
    rewrite Z.div_mul_cancel_r by lia. reflexivity. }
  rewrite F. clear F E Ev Ee m' e'.
  assert (HP : 2 ^ 35 <= 2 ^ (61 - L)) by (apply Z.pow_le_mono_r; lia).
  assert (EM : M * 2 ^ 53 = n * 2 ^ 44 * 2 ^ (61 - L)).
  { rewrite Em. rewrite <- !Z.mul_assoc, <- !Z.pow_add_r by lia. f_equal. f_equal. lia. }
  rewrite EM in DE. set (P := 2 ^ (61 - L)) in *. clearbody P.
  assert (DY : P * (v / P) <= v < P * (v / P) + P).
  { pose proof (Z.div_mod v P ltac:(lia)). pose proof (Z.mod_pos_bound v P ltac:(lia)). lia. }
  assert (Y0 : 0 <= v / P) by (apply Z.div_pos; lia).
  set (Y := v / P) in *. clearbody Y. clear EM Em Hm HL. clearbody M L.
  change (2 ^ 35) with 34359738368 in HP. change (2 ^ 44) with 17592186044416 in DE.
  assert (A1 : Y * 6425414011327611 * P <= (n * 17592186044416 + 524288) * P) by nia.
  assert (A2 : (n * 17592186044416 - 524288) * P <= (Y + 1) * 6425414011327611 * P) by nia.
  apply Z.mul_le_mono_pos_r in A1; [ | lia ]. apply Z.mul_le_mono_pos_r in A2; [ | lia ].
  clear - A1 A2 Hn Y0. split; [ split | ]; lia.
Qed.

(* The year found by the code, before its correction. *)
Lemma year_estimate : forall n, 0 <= n < DAYS ->
  exists Y, get_integer (NF (ddiv (of_int n) year_len)) = Ok Y /\ 3652425 * Y <= 10000 * n <= 3652425 * (Y + 1) /\ 0 <= Y.
Proof.
  intros n Hn. destruct (Z.eq_dec n 0) as [-> | N].
  - exists 0. split; [ reflexivity | lia ].
  - destruct (year_div n ltac:(lia)) as [m [e [Y [E [He [F [B B0]]]]]]]. exists Y. split; [ | split; assumption ].
    rewrite E. unfold DAYS in Hn.
    apply to_int_get; [ | unfold INT64_MIN; lia ].
    unfold to_int. rewrite F. replace ((INT64_MIN <=? Y) && (Y <=? INT64_MAX)) with true by (unfold INT64_MIN, INT64_MAX; lia). reflexivity.
Qed.
