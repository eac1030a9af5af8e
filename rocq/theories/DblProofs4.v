(* Accuracy of the floating-point parser: from the digits to the double. *)
From Coq Require Import ZArith Znumtheory List Lia Bool ZifyBool.
Import ListNotations.
From Verif Require Import Base ParseIntModel ParseIntSpec DblModel DblSpec DblProofs DblProofs2 DblProofs3.
Local Open Scope Z_scope.
Ltac Zify.zify_post_hook ::= idtac.

Lemma scale_up_exp : forall k m0 e0, normal m0 ->
  exists m e, Nat.iter k (fun s => mul10 s 0) (m0, e0) = (m, e) /\ normal m /\ e0 + 3 * Z.of_nat k <= e.
Proof.
  induction k as [ | k IH ]; intros m0 e0 Hm0.
  - exists m0, e0. cbn [Nat.iter nat_rect]. split; [ reflexivity | ]. split; [ assumption | lia ].
  - destruct (IH m0 e0 Hm0) as (m & e & Hi & Hm & He).
    destruct (mul10_step m e Hm) as (m' & s & Hs & Hm' & Hc).
    exists m', (e + s). cbn [Nat.iter nat_rect]. change (nat_rect _ _ _ k) with (Nat.iter k (fun s => mul10 s 0) (m0, e0)).
    rewrite Hi, Hs. split; [ reflexivity | ]. split; [ assumption | lia ].
Qed.

Lemma scale_down_exp : forall k m0 e0, normal m0 ->
  exists m e, Nat.iter k div10 (m0, e0) = (m, e) /\ normal m /\ e <= e0 - 3 * Z.of_nat k.
Proof.
  induction k as [ | k IH ]; intros m0 e0 Hm0.
  - exists m0, e0. cbn [Nat.iter nat_rect]. split; [ reflexivity | ]. split; [ assumption | lia ].
  - destruct (IH m0 e0 Hm0) as (m & e & Hi & Hm & He).
    destruct (div10_step m e Hm) as (m' & s & Hs & Hm' & Hc).
    exists m', (e - s). cbn [Nat.iter nat_rect]. change (nat_rect _ _ _ k) with (Nat.iter k div10 (m0, e0)).
    rewrite Hi, Hs. split; [ reflexivity | ]. split; [ assumption | lia ].
Qed.

Lemma dec_den_pos : forall x, 0 < dec_den x.
Proof. intro x. apply pow10_pos. lia. Qed.

(* The digits kept and the digits written, as fractions. *)
Lemma digits_fraction : forall n n' j x,
  0 < n -> 0 <= j -> 0 <= n' * 10 ^ j - n -> 2 ^ 55 * (n' * 10 ^ j - n) <= n ->
  0 <= dec_num n' (x + j) * dec_den x - dec_num n x * dec_den (x + j) /\
  2 ^ 55 * (dec_num n' (x + j) * dec_den x - dec_num n x * dec_den (x + j)) <= dec_num n x * dec_den (x + j).
Proof.
  intros n n' j x Hn Hj H1 H2. unfold dec_num, dec_den.
  assert (E : 10 ^ Z.max (x + j) 0 * 10 ^ Z.max (- x) 0 = 10 ^ j * (10 ^ Z.max x 0 * 10 ^ Z.max (- (x + j)) 0)).
  { rewrite <- !Z.pow_add_r by lia. f_equal. lia. }
  set (c := 10 ^ Z.max x 0 * 10 ^ Z.max (- (x + j)) 0) in *.
  assert (Hc : 0 < c) by (subst c; apply Z.mul_pos_pos; apply pow10_pos; lia).
  set (t := 2 ^ 1074). assert (Ht : 0 < t) by (apply pow2_pos; lia). clearbody t.
  replace (n' * 10 ^ Z.max (x + j) 0 * t * 10 ^ Z.max (- x) 0) with (n' * 10 ^ j * (c * t))
    by (transitivity (n' * (10 ^ Z.max (x + j) 0 * 10 ^ Z.max (- x) 0) * t); [ rewrite E; ring | ring ]).
  replace (n * 10 ^ Z.max x 0 * t * 10 ^ Z.max (- (x + j)) 0) with (n * (c * t)) by (subst c; ring).
  clearbody c. assert (Hct : 0 < c * t) by nia. set (w := c * t) in *. clearbody w.
  set (p := n' * 10 ^ j) in *. clearbody p. clear - H1 H2 Hct Hn. nia.
Qed.

(* The state after scaling, compared with the kept digits. *)
Lemma scale_err : forall n' e0 y, 0 <= e0 <= 61 -> 2 ^ e0 <= n' < 2 ^ (e0 + 1) -> -400 <= y <= 400 ->
  exists m e z, scale (n' * 2 ^ (63 - e0), e0) y = (m, e) /\ normal m /\ 0 <= z /\ 0 <= e + 1011 + z /\
    let b := dec_num n' y * 2 ^ z in
    - (b * 26000) <= 2 ^ 70 * (m * 2 ^ (e + 1011 + z) * dec_den y - b) <= b * 26000.
Proof.
  intros n' e0 y He0 Hn Hy.
  assert (Hpe : 0 < 2 ^ e0) by (apply pow2_pos; lia).
  assert (Hlog : Z.log2 n' = e0) by (apply log2_eq; lia).
  assert (Hn64 : 0 < n' < 2 ^ 64).
  { split; [ lia | ]. apply Z.lt_le_trans with (2 ^ (e0 + 1)); [ lia | apply Z.pow_le_mono_r; lia ]. }
  assert (Hm0 : normal (n' * 2 ^ (63 - e0))).
  { rewrite <- Hlog. apply exact_normal. assumption. }
  assert (Hw : 0 < 2 ^ (63 - e0)) by (apply pow2_pos; lia).
  assert (Hprod : 2 ^ e0 * (n' * 2 ^ (63 - e0)) = n' * 2 ^ 63).
  { replace (2 ^ 63) with (2 ^ e0 * 2 ^ (63 - e0)); [ ring | ].
    rewrite <- Z.pow_add_r by lia. f_equal. lia. }
  unfold scale. cbn [fst]. replace (n' * 2 ^ (63 - e0) =? 0) with false by (unfold normal in Hm0; lia).
  destruct (y <? 0) eqn:Ey.
  - assert (Hk : Z.of_nat (Z.to_nat (- y)) = - y) by lia.
    destruct (scale_down (Z.to_nat (- y)) _ e0 (1011 + 4 * - y) Hm0 ltac:(lia) ltac:(lia) ltac:(lia))
      as (m & e & Hi & Hm & He & Hb). rewrite Hk in He, Hb. cbv zeta in Hb.
    exists m, e, (4 * - y). rewrite Hi. split; [ reflexivity | ]. split; [ assumption | ].
    split; [ lia | ]. split; [ lia | ]. cbv zeta.
    assert (Eb : 2 ^ (1011 + 4 * - y + e0) * (n' * 2 ^ (63 - e0)) = dec_num n' y * 2 ^ (4 * - y)).
    { unfold dec_num. rewrite Z.max_r by lia. change (10 ^ 0) with 1.
      replace (1011 + 4 * - y + e0) with (1011 + 4 * - y + e0) by lia.
      rewrite (Z.pow_add_r 2 (1011 + 4 * - y) e0) by lia. rewrite <- Z.mul_assoc, Hprod.
      rewrite (Z.pow_add_r 2 1011 (4 * - y)) by lia.
      replace (2 ^ 1074) with (2 ^ 1011 * 2 ^ 63) by (rewrite <- Z.pow_add_r by lia; reflexivity).
      generalize (2 ^ 1011), (2 ^ 63), (2 ^ (4 * - y)). intros. ring. }
    rewrite Eb in Hb.
    assert (Ed : dec_den y = 10 ^ (- y)) by (unfold dec_den; rewrite Z.max_l by lia; reflexivity).
    rewrite Ed. replace (e + 1011 + 4 * - y) with (1011 + 4 * - y + e) by lia.
    replace (m * 2 ^ (1011 + 4 * - y + e) * 10 ^ (- y)) with (10 ^ (- y) * (2 ^ (1011 + 4 * - y + e) * m)) by ring.
    set (q := 10 ^ (- y) * (2 ^ (1011 + 4 * - y + e) * m)) in *. clearbody q.
    assert (Hb0 : 0 <= dec_num n' y * 2 ^ (4 * - y)).
    { apply Z.mul_nonneg_nonneg; [ | apply Z.lt_le_incl, pow2_pos; lia ].
      unfold dec_num. apply Z.mul_nonneg_nonneg; [ | apply Z.lt_le_incl, pow2_pos; lia ].
      apply Z.mul_nonneg_nonneg; [ lia | apply Z.lt_le_incl, pow10_pos; lia ]. }
    set (b := dec_num n' y * 2 ^ (4 * - y)) in *. clearbody b. clear - Hb Hb0 Hy.
    assert (b * (65 * - y) <= b * 26000) by nia. lia.
  - assert (Hk : Z.of_nat (Z.to_nat y) = y) by lia.
    destruct (scale_up (Z.to_nat y) _ e0 Hm0 ltac:(lia) ltac:(lia)) as (m & e & Hi & Hm & He & Hb).
    rewrite Hk in He, Hb. cbv zeta in Hb.
    exists m, e, 0. rewrite Hi. split; [ reflexivity | ]. split; [ assumption | ].
    split; [ lia | ]. split; [ lia | ]. cbv zeta. change (2 ^ 0) with 1. rewrite Z.mul_1_r, Z.add_0_r.
    assert (Ed : dec_den y = 1) by (unfold dec_den; rewrite Z.max_r by lia; reflexivity).
    rewrite Ed, Z.mul_1_r. rewrite Hprod in Hb.
    assert (Eb : dec_num n' y = 10 ^ y * (n' * 2 ^ 63) * 2 ^ 1011).
    { unfold dec_num. rewrite Z.max_l by lia.
      replace (2 ^ 1074) with (2 ^ 63 * 2 ^ 1011) by (rewrite <- Z.pow_add_r by lia; reflexivity).
      generalize (2 ^ 1011), (2 ^ 63). intros. ring. }
    rewrite Eb. rewrite (Z.pow_add_r 2 e 1011) by lia.
    assert (Hb0 : 0 <= 10 ^ y * (n' * 2 ^ 63)).
    { apply Z.mul_nonneg_nonneg; [ apply Z.lt_le_incl, pow10_pos; lia | lia ]. }
    set (b := 10 ^ y * (n' * 2 ^ 63)) in *. clearbody b.
    replace (m * (2 ^ e * 2 ^ 1011)) with (2 ^ e * m * 2 ^ 1011) by ring.
    set (q := 2 ^ e * m) in *. clearbody q.
    assert (Ht : 0 < 2 ^ 1011) by (apply pow2_pos; lia). set (t := 2 ^ 1011) in *. clearbody t.
    clear - Hb Hb0 Hy Ht.
    assert (b * (65 * y) <= b * 26000) by nia.
    assert (- (b * 26000) <= 2 ^ 70 * (q - b) <= b * 26000) by lia. nia.
Qed.

(* The state after scaling, compared with the written number. *)
Lemma total_err : forall n n' e0 j x,
  0 < n -> 0 <= j -> 0 <= n' * 10 ^ j - n -> 2 ^ 55 * (n' * 10 ^ j - n) <= n ->
  0 <= e0 <= 61 -> 2 ^ e0 <= n' < 2 ^ (e0 + 1) -> -400 <= x + j <= 400 ->
  exists m e z, scale (n' * 2 ^ (63 - e0), e0) (x + j) = (m, e) /\ normal m /\ 0 <= z /\ 0 <= e + 1011 + z /\
    let t := dec_num n x * 2 ^ z in
    - (t * 58800) <= 2 ^ 70 * (m * 2 ^ (e + 1011 + z) * dec_den x - t) <= t * 58800.
Proof.
  intros n n' e0 j x Hn Hj H1 H2 He0 Hn' Hy.
  destruct (scale_err n' e0 (x + j) He0 Hn' Hy) as (m & e & z & Hs & Hm & Hz & He & Hb).
  exists m, e, z. split; [ exact Hs | ]. split; [ exact Hm | ]. split; [ exact Hz | ]. split; [ exact He | ].
  destruct (digits_fraction n n' j x Hn Hj H1 H2) as [F1 F2]. cbv zeta in *.
  pose proof (dec_den_pos x) as D0. pose proof (dec_den_pos (x + j)) as D1.
  assert (Hzp : 0 < 2 ^ z) by (apply pow2_pos; lia).
  assert (Ht0 : 0 < dec_num n x).
  { unfold dec_num. apply Z.mul_pos_pos; [ | apply pow2_pos; lia ].
    apply Z.mul_pos_pos; [ lia | apply pow10_pos; lia ]. }
  set (y := m * 2 ^ (e + 1011 + z)) in *. set (d0 := dec_den x) in *. set (d1 := dec_den (x + j)) in *.
  set (z0 := dec_num n x) in *. set (z1 := dec_num n' (x + j)) in *. set (p := 2 ^ z) in *.
  clearbody y d0 d1 z0 z1 p. clear - Hb F1 F2 D0 D1 Hzp Ht0.
  (* everything times d1 * d0 *)
  assert (G1 : - (z1 * d0 * p * 26000) <= 2 ^ 70 * (y * d0 * d1 - z1 * d0 * p) <= z1 * d0 * p * 26000).
  { replace (z1 * d0 * p) with (z1 * p * d0) by ring. replace (y * d0 * d1) with (y * d1 * d0) by ring.
    set (a := z1 * p) in *. set (b := y * d1) in *. clearbody a b. clear - Hb D0. nia. }
  assert (G2 : 0 <= z1 * d0 * p - z0 * d1 * p /\ 2 ^ 55 * (z1 * d0 * p - z0 * d1 * p) <= z0 * d1 * p).
  { set (a := z1 * d0) in *. set (b := z0 * d1) in *. clearbody a b. clear - F1 F2 Hzp. nia. }
  set (a := z1 * d0 * p) in *.
  replace (z0 * d1 * p) with (z0 * p * d1) in G2 by ring.
  set (t := z0 * p) in *. assert (Ht : 0 < t) by (subst t; nia).
  set (w := y * d0) in *. clearbody a t w. clear - G1 G2 D1 Ht.
  assert (H : - (t * d1 * 58800) <= 2 ^ 70 * (w * d1 - t * d1) <= t * d1 * 58800).
  { set (b := w * d1) in *. assert (0 < t * d1) by nia. set (c := t * d1) in *. clearbody b c. lia. }
  clear G1 G2. nia.
Qed.

(* ---- decoding the bits ---- *)

Lemma decode_normal : forall ex r, 1 <= ex -> 2 ^ 52 <= r <= 2 ^ 53 ->
  dbl_mag (ex * 2 ^ 52 + (r - 2 ^ 52)) = r * 2 ^ (ex - 1) /\ 2 ^ (ex - 1) <= dbl_ulp (ex * 2 ^ 52 + (r - 2 ^ 52)).
Proof.
  intros ex r Hx Hr. unfold dbl_mag, dbl_ulp, dbl_exp, dbl_frac.
  destruct (r =? 2 ^ 53) eqn:E.
  - assert (r = 2 ^ 53) by lia. subst r.
    assert (D : (ex * 2 ^ 52 + (2 ^ 53 - 2 ^ 52)) / 2 ^ 52 = ex + 1) by (symmetry; apply Z.div_unique with 0; lia).
    assert (M : (ex * 2 ^ 52 + (2 ^ 53 - 2 ^ 52)) mod 2 ^ 52 = 0) by (symmetry; apply Z.mod_unique with (ex + 1); lia).
    rewrite D, M. replace (ex + 1 =? 0) with false by lia.
    replace (ex + 1 - 1) with (1 + (ex - 1)) by lia. rewrite (Z.pow_add_r 2 1) by lia.
    assert (0 < 2 ^ (ex - 1)) by (apply pow2_pos; lia). split; lia.
  - assert (D : (ex * 2 ^ 52 + (r - 2 ^ 52)) / 2 ^ 52 = ex) by (symmetry; apply Z.div_unique with (r - 2 ^ 52); lia).
    assert (M : (ex * 2 ^ 52 + (r - 2 ^ 52)) mod 2 ^ 52 = r - 2 ^ 52) by (symmetry; apply Z.mod_unique with ex; lia).
    rewrite D, M. replace (ex =? 0) with false by lia. split; [ f_equal; lia | lia ].
Qed.

Lemma decode_denormal : forall r, 0 <= r < 2 ^ 52 -> dbl_mag r = r /\ dbl_ulp r = 1.
Proof.
  intros r Hr. unfold dbl_mag, dbl_ulp, dbl_exp, dbl_frac.
  rewrite Z.div_small, Z.mod_small by lia. split; reflexivity.
Qed.

Definition good_result (sign : Z) (n x : Z) (r : dres) : Prop :=
  match r with
  | DOk bits => exists mag, bits = sign * 2 ^ 63 + mag /\ 0 <= mag <= dbl_inf /\ accurate mag n x
  | DTooBig => overflows n x
  | _ => False
  end.

(* Rounding error and scaling error together stay below one unit u. *)
Lemma sum_err : forall d y t u d0 a,
  0 < d0 -> 0 < u -> 0 <= y -> 0 <= t ->
  y <= 2 ^ 53 * u ->
  - (t * 58800) <= 2 ^ 70 * (y * d0 - t) <= t * 58800 ->
  0 <= a -> 2 ^ 11 * a <= (2 ^ 10 + 1) * u -> - a <= d - y <= a ->
  Z.abs (d * d0 - t) < u * d0.
Proof.
  intros d y t u d0 a H0 Hu Hy Ht Hyu He Ha0 Ha Hd.
  assert (H1 : 0 <= y * d0 <= 2 ^ 53 * (u * d0)) by nia.
  assert (H2 : - ((2 ^ 10 + 1) * (u * d0)) <= 2 ^ 11 * (d * d0 - y * d0) <= (2 ^ 10 + 1) * (u * d0)).
  { assert (- ((2 ^ 10 + 1) * u) <= 2 ^ 11 * (d - y) <= (2 ^ 10 + 1) * u) by lia.
    clear - H H0. nia. }
  assert (H3 : 0 < u * d0) by nia.
  set (p := d * d0) in *. set (q := y * d0) in *. set (v := u * d0) in *. clearbody p q v.
  clear - He H1 H2 H3 Ht. lia.
Qed.

Lemma finish_good : forall sign n x m e z,
  (sign = 0 \/ sign = 1) -> 0 < n -> normal m -> 0 <= z -> 0 <= e + 1011 + z ->
  (let t := dec_num n x * 2 ^ z in
   - (t * 58800) <= 2 ^ 70 * (m * 2 ^ (e + 1011 + z) * dec_den x - t) <= t * 58800) ->
  good_result sign n x (finish_dbl sign (m, e)).
Proof.
  intros sign n x m e z Hs Hn Hm Hz He Herr. cbv zeta in Herr.
  pose proof (dec_den_pos x) as D0.
  assert (Hzp : 0 < 2 ^ z) by (apply pow2_pos; lia).
  assert (Ht0 : 0 < dec_num n x).
  { unfold dec_num. apply Z.mul_pos_pos; [ | apply pow2_pos; lia ].
    apply Z.mul_pos_pos; [ lia | apply pow10_pos; lia ]. }
  assert (Hq : 0 < 2 ^ (e + 1011 + z)) by (apply pow2_pos; lia).
  assert (Hm' := Hm). unfold normal in Hm'.
  assert (Hy0 : 0 <= m * 2 ^ (e + 1011 + z)) by nia.
  destruct (Z_lt_le_dec 1023 e) as [Hbig | Hle].
  - (* too big *)
    rewrite finish_big by lia. cbn [good_result]. unfold overflows.
    assert (Hl : 2 ^ 2098 * 2 ^ z <= m * 2 ^ (e + 1011 + z)).
    { replace (2 ^ 2098 * 2 ^ z) with (2 ^ 63 * 2 ^ (2035 + z)) by (rewrite <- !Z.pow_add_r by lia; f_equal; lia).
      assert (2 ^ (2035 + z) <= 2 ^ (e + 1011 + z)) by (apply Z.pow_le_mono_r; lia).
      assert (0 < 2 ^ (2035 + z)) by (apply pow2_pos; lia). nia. }
    assert (E54 : 2 ^ 2098 = 2 ^ 54 * 2 ^ 2044) by (rewrite <- Z.pow_add_r by lia; reflexivity).
    rewrite E54 in *. assert (Hk : 0 < 2 ^ 2044) by (apply pow2_pos; lia).
    set (k := 2 ^ 2044) in *. clearbody k.
    set (y := m * 2 ^ (e + 1011 + z)) in *. clearbody y.
    set (d0 := dec_den x) in *. set (z0 := dec_num n x) in *. set (p := 2 ^ z) in *. clearbody d0 z0 p.
    clear - Hl Herr D0 Hzp Hk Ht0.
    assert (H1 : 2 ^ 54 * (k * d0 * p) <= y * d0) by nia.
    assert (Hg : ((2 ^ 54 - 1) * (k * d0)) * p <= z0 * p).
    { replace ((2 ^ 54 - 1) * (k * d0) * p) with ((2 ^ 54 - 1) * (k * d0 * p)) by ring.
      assert (Hkp : 0 < k * d0 * p) by (apply Z.mul_pos_pos; [ apply Z.mul_pos_pos | ]; lia).
      assert (Htp : 0 < z0 * p) by nia.
      set (t := z0 * p) in *. set (a := k * d0 * p) in *. set (b := y * d0) in *. clearbody t a b.
      clear - H1 Herr Hkp Htp. lia. }
    apply Z.mul_le_mono_pos_r in Hg; [ | lia ]. lia.
  - destruct (Z_lt_le_dec e (-1022)) as [Hden | Hnor].
    + (* denormalized *)
      destruct (finish_denormal sign m e Hs Hm ltac:(lia)) as (r & -> & Hr & Hrm).
      cbn [good_result].
      assert (E2 : 2 ^ (e + 1011 + z) * 2 ^ (-1022 - e) * 2 ^ 11 = 2 ^ z).
      { rewrite <- !Z.pow_add_r by lia. f_equal. lia. }
      assert (Hs2 : 0 < 2 ^ (-1022 - e)) by (apply pow2_pos; lia).
      assert (Hclose : Z.abs (r * dec_den x - dec_num n x) < 1 * dec_den x).
      { assert (A : Z.abs (r * 2 ^ z * dec_den x - dec_num n x * 2 ^ z) < 2 ^ z * dec_den x).
        { apply sum_err with (y := m * 2 ^ (e + 1011 + z)) (a := (2 ^ 10 + 1) * (2 ^ (e + 1011 + z) * 2 ^ (-1022 - e))).
          - assumption.
          - assumption.
          - assumption.
          - nia.
          - rewrite <- E2.
            assert (2 <= 2 ^ (-1022 - e)) by (apply (Z.pow_le_mono_r 2 1); lia).
            set (a := 2 ^ (e + 1011 + z)) in *. set (b := 2 ^ (-1022 - e)) in *. clearbody a b.
            clear - H Hq Hm'. nia.
          - exact Herr.
          - nia.
          - rewrite <- E2. lia.
          - rewrite <- E2.
            pose proof (Z.div_mod m (2 ^ (-1022 - e)) ltac:(lia)) as Hdm.
            pose proof (Z.mod_pos_bound m (2 ^ (-1022 - e)) ltac:(lia)) as Hmb.
            set (b := 2 ^ (-1022 - e)) in *. set (qq := m / b) in *. set (rr := m mod b) in *.
            set (a := 2 ^ (e + 1011 + z)) in *. clearbody a b qq rr.
            replace (r * (a * b * 2 ^ 11) - m * a) with (a * (b * (2 ^ 11 * r - qq) - rr)) by (rewrite Hdm; ring).
            clear - Hrm Hmb Hq Hs2.
            assert (- ((2 ^ 10 + 1) * b) <= b * (2 ^ 11 * r - qq) - rr <= (2 ^ 10 + 1) * b) by nia.
            nia. }
        set (d0 := dec_den x) in *. set (z0 := dec_num n x) in *. set (p := 2 ^ z) in *. clearbody d0 z0 p.
        clear - A Hzp.
        replace (r * p * d0 - z0 * p) with ((r * d0 - z0) * p) in A by ring.
        rewrite Z.abs_mul, (Z.abs_eq p) in A by lia.
        rewrite (Z.mul_comm p) in A. apply Z.mul_lt_mono_pos_r in A; lia. }
      destruct (r =? 2 ^ 52) eqn:Er.
      * assert (r = 2 ^ 52) by lia. subst r. change (2 ^ 52 mod 2 ^ 52) with 0.
        exists 0. split; [ reflexivity | ]. split; [ unfold dbl_inf; lia | ].
        right. left. split; [ reflexivity | exact Hclose ].
      * rewrite Z.mod_small by lia. exists r.
        split; [ reflexivity | ]. split; [ unfold dbl_inf; lia | ].
        left. split; [ unfold dbl_inf; lia | ].
        unfold within_ulp. destruct (decode_denormal r ltac:(lia)) as [-> ->]. exact Hclose.
    + (* normalized *)
      destruct (finish_normal sign m e Hs Hm ltac:(lia)) as (r & -> & Hr & Hrm & _).
      cbn [good_result].
      assert (E2 : 2 ^ (e + 1011 + z) * 2 ^ 11 = 2 ^ (e + 1022) * 2 ^ z).
      { rewrite <- !Z.pow_add_r by lia. f_equal. lia. }
      assert (Hu : 0 < 2 ^ (e + 1022)) by (apply pow2_pos; lia).
      assert (Hclose : Z.abs (r * 2 ^ (e + 1022) * dec_den x - dec_num n x) < 2 ^ (e + 1022) * dec_den x).
      { assert (A : Z.abs (r * (2 ^ (e + 1022) * 2 ^ z) * dec_den x - dec_num n x * 2 ^ z) < 2 ^ (e + 1022) * 2 ^ z * dec_den x).
        { rewrite <- E2.
          apply sum_err with (y := m * 2 ^ (e + 1011 + z)) (a := (2 ^ 10) * (2 ^ (e + 1011 + z))).
          - assumption.
          - lia.
          - assumption.
          - nia.
          - set (a := 2 ^ (e + 1011 + z)) in *. clearbody a. clear - Hq Hm'. nia.
          - exact Herr.
          - nia.
          - lia.
          - set (a := 2 ^ (e + 1011 + z)) in *. clearbody a. clear - Hrm Hq. nia. }
        set (d0 := dec_den x) in *. set (z0 := dec_num n x) in *. set (p := 2 ^ z) in *.
        set (u := 2 ^ (e + 1022)) in *. clearbody d0 z0 p u.
        clear - A Hzp.
        replace (r * (u * p) * d0 - z0 * p) with ((r * u * d0 - z0) * p) in A by ring.
        rewrite Z.abs_mul, (Z.abs_eq p) in A by lia.
        replace (u * p * d0) with (u * d0 * p) in A by ring. apply Z.mul_lt_mono_pos_r in A; lia. }
      exists ((e + 1023) * 2 ^ 52 + (r - 2 ^ 52)). split; [ reflexivity | ].
      split; [ unfold dbl_inf; lia | ].
      destruct ((e + 1023) * 2 ^ 52 + (r - 2 ^ 52) =? dbl_inf) eqn:Ei.
      * right. right. split; [ lia | ].
        assert (Hxx : e = 1023 /\ r = 2 ^ 53) by (unfold dbl_inf in Ei; lia).
        destruct Hxx as [-> ->]. unfold close_to.
        replace (2 ^ 2098) with (2 ^ 53 * 2 ^ (1023 + 1022)) by (rewrite <- Z.pow_add_r by lia; reflexivity).
        change 2045 with (1023 + 1022). exact Hclose.
      * left. split; [ unfold dbl_inf in *; lia | ].
        unfold within_ulp. destruct (decode_normal (e + 1023) r ltac:(lia) Hr) as [-> Hul].
        replace (e + 1023 - 1) with (e + 1022) in * by lia.
        eapply Z.lt_le_trans; [ exact Hclose | ]. apply Z.mul_le_mono_nonneg_r; lia.
Qed.
