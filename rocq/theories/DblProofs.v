(* Proofs about the scaling steps of the floating-point parser. *)
From Coq Require Import ZArith Znumtheory List Lia Bool ZifyBool.
Import ListNotations.
From Verif Require Import Base ParseIntModel DblModel.
Local Open Scope Z_scope.
Ltac Zify.zify_post_hook ::= idtac.

Lemma testbit_top : forall h k, 0 <= k -> 0 <= h < 2 ^ (k + 1) -> Z.testbit h k = (2 ^ k <=? h).
Proof.
  intros h k Hk Hh. rewrite Z.testbit_eqb by lia.
  assert (Hp : 0 < 2 ^ k) by (apply Z.pow_pos_nonneg; lia).
  rewrite Z.pow_add_r in Hh by lia. change (2 ^ 1) with 2 in Hh.
  destruct (2 ^ k <=? h) eqn:E.
  - assert (h / 2 ^ k = 1) as ->; [ | reflexivity ].
    symmetry. apply Z.div_unique with (h - 2 ^ k); lia.
  - rewrite Z.div_small by lia. reflexivity.
Qed.

Lemma u64_id : forall x, 0 <= x < 2 ^ 64 -> u64 x = x.
Proof. intros x H. unfold u64, uwrap. apply Z.mod_small. exact H. Qed.

Lemma u32_id : forall x, 0 <= x < 2 ^ 32 -> u32 x = x.
Proof. intros x H. unfold u32, uwrap. apply Z.mod_small. exact H. Qed.

(* The state is normalized: the top bit of the mantissa is set. *)
Definition normal (m : Z) : Prop := 2 ^ 63 <= m < 2 ^ 64.

Definition carry4 (k : Z) : Z := Z.shiftr (if negb (Z.land (5 * k) 15 =? 4) then Z.land (5 * k) 4 else 0) 2.
Definition carry3 (k : Z) : Z := Z.shiftr (if negb (Z.land (5 * k) 7 =? 2) then Z.land (5 * k) 2 else 0) 1.

Lemma carry_facts : forall k, 0 <= k < 8 ->
  0 <= carry4 k <= 1 /\ (carry4 k = 1 -> 4 <= (5 * k) mod 8) /\ (carry4 k = 0 -> (5 * k) mod 8 <= 4) /\
  0 <= carry3 k <= 1 /\ (carry3 k = 1 -> 2 <= (5 * k) mod 4) /\ (carry3 k = 0 -> (5 * k) mod 4 <= 2) /\
  Z.land (Z.shiftr (5 * k) 2) 1 = (5 * k) mod 8 / 4.
Proof.
  intros k H.
  assert (T : forallb (fun k => (0 <=? carry4 k) && (carry4 k <=? 1) &&
     implb (carry4 k =? 1) (4 <=? (5 * k) mod 8) && implb (carry4 k =? 0) ((5 * k) mod 8 <=? 4) &&
     (0 <=? carry3 k) && (carry3 k <=? 1) &&
     implb (carry3 k =? 1) (2 <=? (5 * k) mod 4) && implb (carry3 k =? 0) ((5 * k) mod 4 <=? 2) &&
     (Z.land (Z.shiftr (5 * k) 2) 1 =? (5 * k) mod 8 / 4)) [0;1;2;3;4;5;6;7] = true) by (vm_compute; reflexivity).
  rewrite forallb_forall in T. specialize (T k).
  assert (Hin : In k [0;1;2;3;4;5;6;7]) by (cbn [In]; lia).
  specialize (T Hin).
  generalize dependent (carry4 k). generalize dependent (carry3 k).
  generalize ((5 * k) mod 8 / 4). generalize (Z.land (Z.shiftr (5 * k) 2) 1).
  generalize ((5 * k) mod 4). generalize ((5 * k) mod 8). clear. intros.
  repeat (apply andb_prop in T; destruct T as [T ?]).
  repeat match goal with H : implb ?a ?b = true |- _ => destruct a eqn:?; cbn [implb] in H end; lia.
Qed.

(* What multiply_by_10_and_add does when the shifted digit is dd. *)
Lemma mul10_form : forall m e d dd,
  normal m -> shift_digit d e = dd -> 0 <= dd -> 5 * m / 8 + dd < 2 ^ 64 ->
  exists c k, k = m mod 8 /\ 0 <= c <= 1 /\
    if 2 ^ 63 <=? 5 * m / 8 + dd then
      mul10 (m, e) d = (u64 (5 * m / 8 + dd + c), e + 4) /\
      (c = 1 -> 4 <= (5 * k) mod 8) /\ (c = 0 -> (5 * k) mod 8 <= 4)
    else
      mul10 (m, e) d = (u64 (2 * (5 * m / 8 + dd) + (5 * k) mod 8 / 4 + c), e + 3) /\
      (c = 1 -> 2 <= (5 * k) mod 4) /\ (c = 0 -> (5 * k) mod 4 <= 2).
Proof.
  unfold normal. intros m e d dd Hm Hd Hdd Hlt.
  assert (Hsh : Z.shiftr m 3 = m / 8) by (rewrite Z.shiftr_div_pow2 by lia; reflexivity).
  assert (Hla : Z.land m 7 = m mod 8) by (apply (Z.land_ones m 3); lia).
  set (q := m / 8) in *. set (k := m mod 8) in *.
  assert (Hqk : m = 8 * q + k /\ 0 <= k < 8) by (subst q k; Z.div_mod_to_equations; lia).
  destruct Hqk as [Hqk Hk].
  assert (H5 : 5 * m / 8 = 5 * q + 5 * k / 8).
  { rewrite Hqk. replace (5 * (8 * q + k)) with (5 * k + (5 * q) * 8) by lia.
    rewrite Z.div_add by lia. lia. }
  assert (Hlo : 2 ^ 62 <= 5 * m / 8).
  { apply Z.div_le_lower_bound; lia. }
  unfold mul10. rewrite Hsh, Hla.
  rewrite (u64_id (5 * q)) by (rewrite H5 in *; assert (0 <= 5 * k / 8) by (apply Z.div_pos; lia); lia).
  rewrite (u32_id (5 * k)) by lia.
  assert (Hs3 : Z.shiftr (5 * k) 3 = 5 * k / 8) by (rewrite Z.shiftr_div_pow2 by lia; reflexivity).
  rewrite Hs3, Hd. replace (5 * q + 5 * k / 8 + dd) with (5 * m / 8 + dd) by lia.
  rewrite (u64_id (5 * m / 8 + dd)) by lia.
  set (h := 5 * m / 8 + dd) in *.
  rewrite (testbit_top h 63) by (try change (63 + 1) with 64; lia).
  destruct (2 ^ 63 <=? h) eqn:E63.
  - exists (carry4 k), k. destruct (carry_facts k Hk) as (F1 & F2 & F3 & _).
    split; [ reflexivity | ]. split; [ exact F1 | ]. split; [ reflexivity | ]. split; assumption.
  - rewrite (testbit_top h 62) by (try change (62 + 1) with 63; lia).
    replace (2 ^ 62 <=? h) with true by (symmetry; apply Z.leb_le; subst h; lia).
    destruct (carry_facts k Hk) as (_ & _ & _ & F1 & F2 & F3 & F4).
    replace (Z.shiftl h 1) with (2 * h) by (rewrite Z.shiftl_mul_pow2 by lia; lia).
    rewrite (u64_id (2 * h)) by (subst h; lia).
    exists (carry3 k), k. rewrite F4.
    split; [ reflexivity | ]. split; [ exact F1 | ]. split; [ reflexivity | ]. split; assumption.
Qed.

Lemma shift_digit_0 : forall e, shift_digit 0 e = 0.
Proof.
  intro e. unfold shift_digit. rewrite Z.shiftl_0_l, Z.shiftr_0_l.
  destruct (0 <=? _); [ reflexivity | ]. destruct (_ <=? _); reflexivity.
Qed.

(* One multiplication by ten loses at most one part in 2^64. *)
Lemma mul10_step : forall m e, normal m ->
  exists m' s, mul10 (m, e) 0 = (m', e + s) /\ normal m' /\
    ((s = 4 /\ -4 <= 8 * m' - 5 * m <= 4 /\ 2 ^ 66 <= 5 * m) \/
     (s = 3 /\ -2 <= 4 * m' - 5 * m <= 2 /\ 2 ^ 65 <= 5 * m)).
Proof.
  intros m e Hm.
  destruct (mul10_form m e 0 0 Hm (shift_digit_0 e)) as (c & k & -> & Hc & H).
  - lia.
  - unfold normal in Hm. assert (5 * m / 8 < 2 ^ 63 + 2 ^ 62) by (apply Z.div_lt_upper_bound; lia). lia.
  - unfold normal in *. rewrite Z.add_0_r in H.
    assert (Hq : 5 * m = 8 * (5 * m / 8) + (5 * (m mod 8)) mod 8 /\ 0 <= (5 * (m mod 8)) mod 8 < 8).
    { clear. rewrite Z.mul_mod_idemp_r by lia. Z.div_mod_to_equations; lia. }
    set (h := 5 * m / 8) in *. set (g := (5 * (m mod 8)) mod 8) in *.
    assert (Hg4 : (5 * (m mod 8)) mod 4 = g mod 4).
    { subst g. clear. set (x := 5 * (m mod 8)). Z.div_mod_to_equations; lia. }
    rewrite Hg4 in H. clearbody h g. clear Hg4.
    destruct Hq as [Hq Hg].
    destruct (2 ^ 63 <=? h) eqn:E.
    + destruct H as (-> & H1 & H0). exists (h + c), 4.
      rewrite u64_id by lia. split; [ reflexivity | ]. split; [ lia | ]. left. split; [ reflexivity | ].
      assert (Hc' : c = 0 \/ c = 1) by lia. destruct Hc' as [-> | ->].
      * specialize (H0 eq_refl). lia.
      * specialize (H1 eq_refl). lia.
    + destruct H as (-> & H1 & H0). exists (2 * h + g / 4 + c), 3.
      assert (Hg' : g = 4 * (g / 4) + g mod 4 /\ 0 <= g mod 4 < 4) by (clear; Z.div_mod_to_equations; lia).
      assert (H64 : -2 <= 4 * (2 * h + g / 4 + c) - 5 * m <= 2).
      { assert (Hc' : c = 0 \/ c = 1) by lia. destruct Hc' as [-> | ->].
        - specialize (H0 eq_refl). lia.
        - specialize (H1 eq_refl). lia. }
      assert (Hlt : 5 * m < 2 ^ 66) by lia.
      set (r := 2 * h + g / 4 + c) in *. clearbody r. clear - H64 Hlt Hm.
      assert (2 ^ 63 <= r < 2 ^ 64) by lia.
      rewrite u64_id by lia.
      split; [ reflexivity | ]. split; [ lia | ]. right. lia.
Qed.

(* While few bits are in use the step is exact. *)
Lemma mul10_exact : forall n e d,
  0 <= e <= 57 -> 2 ^ e <= n < 2 ^ (e + 1) -> 0 <= d <= 10 ->
  exists e', mul10 (n * 2 ^ (63 - e), e) d = ((10 * n + d) * 2 ^ (63 - e'), e') /\
    2 ^ e' <= 10 * n + d < 2 ^ (e' + 1) /\ e + 3 <= e' <= e + 4.
Proof.
  intros n e d He Hn Hd.
  set (w := 2 ^ (59 - e)). set (p := 2 ^ e) in *.
  assert (Hw : 4 <= w) by (subst w; apply (Z.pow_le_mono_r 2 2); lia).
  assert (Hp : 1 <= p) by (subst p; apply (Z.pow_le_mono_r 2 0); lia).
  assert (Hwp : w * p = 2 ^ 59) by (subst w p; rewrite <- Z.pow_add_r by lia; f_equal; lia).
  assert (Hpe : 2 ^ (e + 1) = 2 * p) by (subst p; rewrite Z.pow_add_r by lia; lia).
  rewrite Hpe in Hn.
  assert (H63 : 2 ^ (63 - e) = 16 * w).
  { subst w. replace (63 - e) with (4 + (59 - e)) by lia. rewrite Z.pow_add_r by lia. reflexivity. }
  rewrite H63.
  assert (Hwn : 2 ^ 59 <= w * n < 2 ^ 60 ) by nia.
  assert (Hwn1 : w * n + w <= 2 ^ 60) by nia.
  assert (H8 : (n * (16 * w)) mod 8 = 0) by (rewrite <- (Z.mod_mul (2 * n * w) 8) by lia; f_equal; lia).
  assert (H5 : 5 * (n * (16 * w)) / 8 = 10 * (w * n)).
  { replace (5 * (n * (16 * w))) with (10 * (w * n) * 8) by lia. apply Z.div_mul. lia. }
  assert (Hwd : 0 <= w * d <= 10 * w) by nia.
  destruct (mul10_form (n * (16 * w)) e d (w * d)) as (c & k & Hk & Hc & H).
  - unfold normal. lia.
  - unfold shift_digit. replace (0 <=? 59 - e) with true by lia.
    rewrite Z.shiftl_mul_pow2 by lia. fold w. rewrite Z.mul_comm. apply u64_id. lia.
  - lia.
  - rewrite H5. lia.
  - rewrite H5 in H. rewrite H8 in Hk. subst k.
    change ((5 * 0) mod 8) with 0 in H. change ((5 * 0) mod 4) with 0 in H. change (0 / 4) with 0 in H.
    assert (Hpp : 2 ^ (e + 3) = 8 * p /\ 2 ^ (e + 4) = 16 * p /\ 2 ^ (e + 5) = 32 * p).
    { subst p. rewrite !Z.pow_add_r by lia. lia. }
    destruct Hpp as (P3 & P4 & P5).
    destruct (2 ^ 63 <=? 10 * (w * n) + w * d) eqn:E.
    + destruct H as (-> & H1 & _). assert (c = 0) by lia. subst c.
      exists (e + 4). rewrite u64_id by lia.
      replace (63 - (e + 4)) with (59 - e) by lia. fold w.
      replace (e + 4 + 1) with (e + 5) by lia. rewrite P4, P5.
      split; [ f_equal; lia | ]. split; [ | lia ].
      clear - E Hwp Hn Hw Hp Hd. nia.
    + destruct H as (-> & H1 & _). assert (c = 0) by lia. subst c.
      exists (e + 3). rewrite u64_id by lia.
      assert (Hw2 : 2 ^ (63 - (e + 3)) = 2 * w).
      { subst w. replace (63 - (e + 3)) with (1 + (59 - e)) by lia. rewrite Z.pow_add_r by lia. lia. }
      rewrite Hw2. replace (e + 3 + 1) with (e + 4) by lia. rewrite P3, P4.
      split; [ f_equal; lia | ]. split; [ | lia ].
      clear - E Hwp Hn Hw Hp Hd. nia.
Qed.

Lemma land_pow2 : forall x k, 0 <= k -> Z.land x (2 ^ k) = if Z.testbit x k then 2 ^ k else 0.
Proof.
  intros x k Hk. apply Z.bits_inj'. intros i Hi.
  rewrite Z.land_spec, Z.pow2_bits_eqb by lia.
  destruct (k =? i) eqn:E.
  - assert (i = k) by lia. subst i. destruct (Z.testbit x k).
    + rewrite Z.pow2_bits_true by lia. reflexivity.
    + rewrite Z.bits_0. reflexivity.
  - rewrite andb_false_r. destruct (Z.testbit x k).
    + rewrite Z.pow2_bits_false by lia. reflexivity.
    + rewrite Z.bits_0. reflexivity.
Qed.

(* The rounding carry: low is split at bit k; the carry is the guard bit unless
   the rest is an exact tie with an even neighbour. *)
Lemma round_carry : forall low k, 1 <= k <= 30 -> 0 <= low < 2 ^ 64 ->
  let c := if negb (Z.land (u32 low) (2 ^ (k + 1) - 1) =? 2 ^ (k - 1)) then Z.land (u32 low) (2 ^ (k - 1)) else 0 in
  (c = 0 /\ low mod 2 ^ k <= 2 ^ (k - 1)) \/ (c = 2 ^ (k - 1) /\ 2 ^ (k - 1) <= low mod 2 ^ k).
Proof.
  intros low k Hk Hl c.
  assert (Hpk : 2 ^ k = 2 * 2 ^ (k - 1)) by (replace k with (1 + (k - 1)) at 1 by lia; rewrite Z.pow_add_r by lia; lia).
  assert (Hpk1 : 2 ^ (k + 1) = 2 * 2 ^ k) by (rewrite Z.pow_add_r by lia; lia).
  assert (Hp : 0 < 2 ^ (k - 1)) by (apply Z.pow_pos_nonneg; lia).
  assert (Hdiv : forall j, 0 <= j <= 31 -> (u32 low) mod 2 ^ j = low mod 2 ^ j).
  { intros j Hj. unfold u32, uwrap. symmetry. apply Zmod_div_mod.
    - apply Z.pow_pos_nonneg; lia.
    - lia.
    - exists (2 ^ (32 - j)). rewrite <- Z.pow_add_r by lia. f_equal; lia. }
  assert (Hm1 : Z.land (u32 low) (2 ^ (k + 1) - 1) = low mod 2 ^ (k + 1)).
  { replace (2 ^ (k + 1) - 1) with (Z.ones (k + 1)) by (rewrite Z.ones_equiv; lia).
    rewrite Z.land_ones by lia. apply Hdiv. lia. }
  assert (Htb : Z.testbit (u32 low) (k - 1) = (2 ^ (k - 1) <=? low mod 2 ^ k)).
  { rewrite <- (Hdiv k) by lia.
    rewrite <- (Z.mod_pow2_bits_low (u32 low) k (k - 1)) by lia.
    apply testbit_top; [ lia | ]. replace (k - 1 + 1) with k by lia.
    apply Z.mod_pos_bound. lia. }
  assert (Hmm : low mod 2 ^ k = (low mod 2 ^ (k + 1)) mod 2 ^ k).
  { apply Zmod_div_mod; [ lia | lia | exists 2; lia ]. }
  unfold c. rewrite Hm1, land_pow2, Htb by lia.
  set (a := low mod 2 ^ (k + 1)) in *. 
  destruct (a =? 2 ^ (k - 1)) eqn:E1; cbn [negb].
  - left. split; [ reflexivity | ]. rewrite Hmm. replace a with (2 ^ (k - 1)) by lia.
    rewrite Z.mod_small by lia. lia.
  - destruct (2 ^ (k - 1) <=? low mod 2 ^ k) eqn:E2; [ right | left ]; split; lia.
Qed.

Lemma rounded_div : forall low c k, 1 <= k ->
  (c = 0 /\ low mod 2 ^ k <= 2 ^ (k - 1)) \/ (c = 2 ^ (k - 1) /\ 2 ^ (k - 1) <= low mod 2 ^ k) ->
  - 2 ^ (k - 1) <= 2 ^ k * ((low + c) / 2 ^ k) - low <= 2 ^ (k - 1).
Proof.
  intros low c k Hk Hc.
  assert (Hpk : 2 ^ k = 2 * 2 ^ (k - 1)) by (replace k with (1 + (k - 1)) at 1 by lia; rewrite Z.pow_add_r by lia; lia).
  assert (Hp : 0 < 2 ^ (k - 1)) by (apply Z.pow_pos_nonneg; lia).
  set (h := 2 ^ (k - 1)) in *. rewrite Hpk in *.
  pose proof (Z.div_mod low (2 * h) ltac:(lia)) as Hd.
  pose proof (Z.mod_pos_bound low (2 * h) ltac:(lia)) as Hb.
  set (u := low / (2 * h)) in *. set (v := low mod (2 * h)) in *.
  destruct Hc as [[-> Hv] | [-> Hv]].
  - rewrite Z.add_0_r. fold u. lia.
  - assert (E : (low + h) / (2 * h) = u + 1).
    { symmetry. apply Z.div_unique with (v - h); lia. }
    rewrite E. lia.
Qed.

(* The two words of the quotient by five, and what they leave out. *)
Lemma div5_words : forall m, normal m ->
  let high := (m - Z.land m 4294967295) / 5 in
  let low := u64 (u64 (Z.shiftl m 32) / 5 + Z.land high 4294967295) in
  0 <= 2 ^ 32 * m - 5 * (2 ^ 32 * high + low) <= 8 /\
  0 <= high < 2 ^ 62 /\ 0 <= low < 2 ^ 63 /\ (2 ^ 61 <= high -> 5 * 2 ^ 61 <= m) /\ (high < 2 ^ 61 -> m < 5 * 2 ^ 61).
Proof.
  intros m Hm. unfold normal in Hm. cbv zeta.
  change 4294967295 with (Z.ones 32). rewrite !Z.land_ones by lia.
  rewrite Z.shiftl_mul_pow2 by lia.
  set (h := m / 2 ^ 32). set (l := m mod 2 ^ 32).
  assert (Hhl : m = 2 ^ 32 * h + l /\ 0 <= l < 2 ^ 32) by (subst h l; clear; Z.div_mod_to_equations; lia).
  destruct Hhl as [Em Hl]. clearbody h l.
  assert (Hhr : 2 ^ 31 <= h < 2 ^ 32) by lia.
  replace (m - l) with (2 ^ 32 * h) by lia.
  assert (Hsh : u64 (m * 2 ^ 32) = 2 ^ 32 * l).
  { unfold u64, uwrap. rewrite Em. replace ((2 ^ 32 * h + l) * 2 ^ 32) with (2 ^ 32 * l + h * 2 ^ 64) by lia.
    rewrite Z.mod_add by lia. apply Z.mod_small. lia. }
  rewrite Hsh.
  assert (Hf : exists a f, h = 5 * a + f /\ 0 <= f <= 4).
  { exists (h / 5), (h mod 5). clear. Z.div_mod_to_equations; lia. }
  assert (Hg : exists b g, l = 5 * b + g /\ 0 <= g <= 4).
  { exists (l / 5), (l mod 5). clear. Z.div_mod_to_equations; lia. }
  destruct Hf as (a & f & Ef & Hf). destruct Hg as (b & g & Eg & Hg).
  assert (Hhigh : 2 ^ 32 * h / 5 = 2 ^ 32 * a + f * 858993459).
  { symmetry. apply Z.div_unique with f; lia. }
  assert (Hlow : 2 ^ 32 * l / 5 = 2 ^ 32 * b + g * 858993459).
  { symmetry. apply Z.div_unique with g; lia. }
  rewrite Hhigh, Hlow.
  assert (Hmd : (2 ^ 32 * a + f * 858993459) mod 2 ^ 32 = f * 858993459).
  { rewrite Z.add_comm, Z.mul_comm, (Z.mul_comm (2 ^ 32)), Z.mod_add by lia. rewrite Z.mul_comm. apply Z.mod_small. lia. }
  rewrite Hmd. rewrite u64_id by lia. lia.
Qed.

(* One division by ten loses little more than one part in 2^64, and keeps the
   top bit set. *)
Lemma div10_step : forall m e, normal m ->
  exists m' s, div10 (m, e) = (m', e - s) /\ normal m' /\
    ((s = 3 /\ - (5 * 2 ^ 29 + 8) <= 2 ^ 30 * (5 * m' - 4 * m) <= 5 * 2 ^ 29 /\ 5 * 2 ^ 61 <= m) \/
     (s = 4 /\ - (5 * 2 ^ 28 + 8) <= 2 ^ 29 * (5 * m' - 8 * m) <= 5 * 2 ^ 28)).
Proof.
  intros m e Hm. destruct (div5_words m Hm) as (Hr & Hh & Hl & Hbig & Hsmall).
  unfold div10. cbv zeta in Hr, Hh, Hl, Hbig, Hsmall |- *.
  set (high := (m - Z.land m 4294967295) / 5) in *.
  set (low := u64 (u64 (Z.shiftl m 32) / 5 + Z.land high 4294967295)) in *.
  clearbody high low. unfold normal in *.
  rewrite (testbit_top high 61) by (try change (61 + 1) with 62; lia).
  destruct (2 ^ 61 <=? high) eqn:E.
  - pose proof (round_carry low 30 ltac:(lia) ltac:(lia)) as Hc. cbv zeta in Hc.
    change (2 ^ (30 + 1) - 1) with 2147483647 in Hc. change (2 ^ (30 - 1)) with 536870912 in Hc.
    set (c := if negb (Z.land (u32 low) 2147483647 =? 536870912) then Z.land (u32 low) 536870912 else 0) in *.
    clearbody c.
    pose proof (rounded_div low c 30 ltac:(lia) Hc) as Hd.
    change (2 ^ (30 - 1)) with 536870912 in Hd.
    assert (Hcb : 0 <= c <= 536870912) by lia. clear Hc.
    rewrite (u64_id (low + c)) by lia. rewrite Z.shiftr_div_pow2 by lia.
    rewrite Z.shiftl_mul_pow2 by lia.
    assert (Hq : 0 <= (low + c) / 2 ^ 30 < 2 ^ 34) by (split; [ apply Z.div_pos; lia | apply Z.div_lt_upper_bound; lia ]).
    set (q := (low + c) / 2 ^ 30) in *. clearbody q.
    exists (high * 4 + q), 3.
    assert (Hb : 5 * 2 ^ 61 <= m) by (apply Hbig; lia). clear Hbig Hsmall.
    assert (Hk : - (5 * 2 ^ 29 + 8) <= 2 ^ 30 * (5 * (high * 4 + q) - 4 * m) <= 5 * 2 ^ 29) by lia.
    change (2 ^ 2) with 4. rewrite (u64_id (high * 4)) by lia. rewrite u64_id by lia.
    split; [ reflexivity | ]. split; [ lia | ]. left. auto.
  - pose proof (round_carry low 29 ltac:(lia) ltac:(lia)) as Hc. cbv zeta in Hc.
    change (2 ^ (29 + 1) - 1) with 1073741823 in Hc. change (2 ^ (29 - 1)) with 268435456 in Hc.
    set (c := if negb (Z.land (u32 low) 1073741823 =? 268435456) then Z.land (u32 low) 268435456 else 0) in *.
    clearbody c.
    pose proof (rounded_div low c 29 ltac:(lia) Hc) as Hd.
    change (2 ^ (29 - 1)) with 268435456 in Hd.
    assert (Hcb : 0 <= c <= 268435456) by lia. clear Hc.
    rewrite (u64_id (low + c)) by lia. rewrite Z.shiftr_div_pow2 by lia.
    rewrite Z.shiftl_mul_pow2 by lia.
    assert (Hq : 0 <= (low + c) / 2 ^ 29 < 2 ^ 35) by (split; [ apply Z.div_pos; lia | apply Z.div_lt_upper_bound; lia ]).
    set (q := (low + c) / 2 ^ 29) in *. clearbody q.
    exists (high * 8 + q), 4.
    assert (Hb : m < 5 * 2 ^ 61) by (apply Hsmall; lia). clear Hbig Hsmall.
    assert (Hk : - (5 * 2 ^ 28 + 8) <= 2 ^ 29 * (5 * (high * 8 + q) - 8 * m) <= 5 * 2 ^ 28) by lia.
    change (2 ^ 3) with 8. rewrite (u64_id (high * 8)) by lia. rewrite u64_id by lia.
    split; [ reflexivity | ]. split; [ lia | ]. right. auto.
Qed.
