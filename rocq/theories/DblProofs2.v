(* Proofs about repeated scaling and about the digits. *)
From Coq Require Import ZArith List Lia Bool ZifyBool.
Import ListNotations.
From Verif Require Import Base ParseIntModel DblModel DblProofs.
Local Open Scope Z_scope.
Ltac Zify.zify_post_hook ::= idtac.

(* One more step with relative error below 2^-64 + 2^-92. *)
Lemma err_step : forall b y x k, 0 <= b -> 0 <= k <= 2 ^ 20 ->
  - (b * (65 * k)) <= 2 ^ 70 * (y - b) <= b * (65 * k) ->
  - (y * (2 ^ 28 + 1)) <= 2 ^ 92 * (x - y) <= y * (2 ^ 28 + 1) ->
  - (b * (65 * (k + 1))) <= 2 ^ 70 * (x - b) <= b * (65 * (k + 1)).
Proof.
  intros b y x k Hb Hk H1 H2.
  assert (Hp : 0 <= b * k <= 2 ^ 20 * b) by nia.
  replace (b * (65 * k)) with (65 * (b * k)) in H1 by lia.
  replace (b * (65 * (k + 1))) with (65 * (b * k) + 65 * b) by lia.
  set (p := b * k) in *. clearbody p. lia.
Qed.

Lemma pow2_pos : forall k, 0 <= k -> 0 < 2 ^ k.
Proof. intros. apply Z.pow_pos_nonneg; lia. Qed.

Lemma pow10_pos : forall k, 0 <= k -> 0 < 10 ^ k.
Proof. intros. apply Z.pow_pos_nonneg; lia. Qed.

Lemma scale_up : forall k m0 e0, normal m0 -> 0 <= e0 -> Z.of_nat k <= 2 ^ 20 ->
  exists m e, Nat.iter k (fun s => mul10 s 0) (m0, e0) = (m, e) /\ normal m /\
    e0 + 3 * Z.of_nat k <= e <= e0 + 4 * Z.of_nat k /\
    let b := 10 ^ Z.of_nat k * (2 ^ e0 * m0) in
    - (b * (65 * Z.of_nat k)) <= 2 ^ 70 * (2 ^ e * m - b) <= b * (65 * Z.of_nat k).
Proof.
  induction k as [ | k IH ]; intros m0 e0 Hm0 He0 Hk.
  - exists m0, e0. cbv zeta. cbn [Nat.iter nat_rect]. change (Z.of_nat 0) with 0. 
    split; [ reflexivity | ]. split; [ assumption | ]. split; [ lia | ].
    change (10 ^ 0) with 1. lia.
  - destruct (IH m0 e0 Hm0 He0 ltac:(lia)) as (m & e & Hi & Hm & He & Hb). cbv zeta in Hb.
    destruct (mul10_step m e Hm) as (m' & s & Hs & Hm' & Hc).
    exists m', (e + s). cbn [Nat.iter nat_rect]. change (nat_rect _ _ _ k) with (Nat.iter k (fun s => mul10 s 0) (m0, e0)).
    rewrite Hi, Hs. split; [ reflexivity | ]. split; [ assumption | ].
    split; [ lia | ]. cbv zeta.
    replace (Z.of_nat (S k)) with (Z.of_nat k + 1) by lia.
    rewrite (Z.pow_add_r 10) by lia. change (10 ^ 1) with 10.
    assert (Hp : 0 < 2 ^ e) by (apply pow2_pos; lia).
    assert (Hp0 : 0 < 2 ^ e0) by (apply pow2_pos; lia).
    assert (Hpk : 0 < 10 ^ Z.of_nat k) by (apply pow10_pos; lia).
    unfold normal in *.
    set (b := 10 ^ Z.of_nat k * (2 ^ e0 * m0)) in *.
    assert (Hb0 : 0 <= b) by (subst b; nia).
    apply err_step with (y := 10 * (2 ^ e * m)).
    + nia.
    + lia.
    + replace (10 ^ Z.of_nat k * 10 * (2 ^ e0 * m0)) with (10 * b) by (subst b; lia).
      clearbody b. set (x := 2 ^ e * m) in *. clearbody x. clear - Hb. lia.
    + rewrite Z.pow_add_r by lia. set (p := 2 ^ e) in *. clearbody p.
      destruct Hc as [(-> & Hc & Hl) | (-> & Hc & Hl)].
      * change (2 ^ 4) with 16. replace (p * 16 * m') with (p * (16 * m')) by lia.
        assert (- (10 * m * (2 ^ 28 + 1)) <= 2 ^ 92 * (16 * m' - 10 * m) <= 10 * m * (2 ^ 28 + 1)) by lia.
        clear - H Hp. nia.
      * change (2 ^ 3) with 8. replace (p * 8 * m') with (p * (8 * m')) by lia.
        assert (- (10 * m * (2 ^ 28 + 1)) <= 2 ^ 92 * (8 * m' - 10 * m) <= 10 * m * (2 ^ 28 + 1)) by lia.
        clear - H Hp. nia.
Qed.

Lemma scale_down : forall k m0 e0 z, normal m0 -> 0 <= e0 -> Z.of_nat k <= 2 ^ 20 -> 4 * Z.of_nat k <= z ->
  exists m e, Nat.iter k div10 (m0, e0) = (m, e) /\ normal m /\
    e0 - 4 * Z.of_nat k <= e <= e0 - 3 * Z.of_nat k /\
    let b := 2 ^ (z + e0) * m0 in
    - (b * (65 * Z.of_nat k)) <= 2 ^ 70 * (10 ^ Z.of_nat k * (2 ^ (z + e) * m) - b) <= b * (65 * Z.of_nat k).
Proof.
  induction k as [ | k IH ]; intros m0 e0 z Hm0 He0 Hk Hz.
  - exists m0, e0. cbv zeta. cbn [Nat.iter nat_rect]. change (Z.of_nat 0) with 0.
    split; [ reflexivity | ]. split; [ assumption | ]. split; [ lia | ].
    change (10 ^ 0) with 1. lia.
  - destruct (IH m0 e0 z Hm0 He0 ltac:(lia) ltac:(lia)) as (m & e & Hi & Hm & He & Hb). cbv zeta in Hb.
    destruct (div10_step m e Hm) as (m' & s & Hs & Hm' & Hc).
    exists m', (e - s). cbn [Nat.iter nat_rect]. change (nat_rect _ _ _ k) with (Nat.iter k div10 (m0, e0)).
    rewrite Hi, Hs. split; [ reflexivity | ]. split; [ assumption | ].
    split; [ lia | ]. cbv zeta.
    replace (Z.of_nat (S k)) with (Z.of_nat k + 1) by lia.
    rewrite (Z.pow_add_r 10) by lia. change (10 ^ 1) with 10.
    assert (Hp : 0 < 2 ^ (z + e - s)) by (apply pow2_pos; lia).
    assert (Hp0 : 0 < 2 ^ (z + e0)) by (apply pow2_pos; lia).
    assert (Hpk : 0 < 10 ^ Z.of_nat k) by (apply pow10_pos; lia).
    unfold normal in *.
    set (b := 2 ^ (z + e0) * m0) in *.
    assert (Hb0 : 0 <= b) by (subst b; nia).
    apply err_step with (y := 10 ^ Z.of_nat k * (2 ^ (z + e) * m)).
    + assumption.
    + lia.
    + exact Hb.
    + replace (z + (e - s)) with (z + e - s) by lia.
      assert (Es : 2 ^ (z + e) = 2 ^ (z + e - s) * 2 ^ s).
      { rewrite <- Z.pow_add_r by lia. f_equal. lia. }
      rewrite Es. set (p := 2 ^ (z + e - s)) in *. set (t := 10 ^ Z.of_nat k) in *.
      clearbody p t.
      assert (Hq : - (2 ^ s * m * (2 ^ 28 + 1)) <= 2 ^ 92 * (10 * m' - 2 ^ s * m) <= 2 ^ s * m * (2 ^ 28 + 1)).
      { destruct Hc as [(-> & Hc & Hl) | (-> & Hc)].
        - change (2 ^ 3) with 8. lia.
        - change (2 ^ 4) with 16. lia. }
      replace (t * 10 * (p * m')) with ((t * p) * (10 * m')) by lia.
      replace (t * (p * 2 ^ s * m)) with ((t * p) * (2 ^ s * m)) by lia.
      set (w := 2 ^ s * m) in *. clearbody w.
      assert (Htp : 0 < t * p) by nia. set (tp := t * p) in *. clearbody tp.
      clear - Hq Htp. nia.
Qed.

(* ---- exact scaling ---- *)

Lemma log2_bounds : forall a, 0 < a -> 2 ^ Z.log2 a <= a < 2 ^ (Z.log2 a + 1).
Proof. intros a H. pose proof (Z.log2_spec a H). rewrite <- Z.add_1_r in *. exact H0. Qed.

(* The normalized state for the number a * 2^x. *)
Definition exact_state (a x : Z) : Z * Z := (a * 2 ^ (63 - Z.log2 a), Z.log2 a + x).

Lemma exact_normal : forall a, 0 < a < 2 ^ 64 -> normal (a * 2 ^ (63 - Z.log2 a)).
Proof.
  intros a H. pose proof (log2_bounds a ltac:(lia)) as Hl.
  assert (0 <= Z.log2 a < 64).
  { split; [ apply Z.log2_nonneg | ]. apply Z.log2_lt_pow2; lia. }
  assert (E : 2 ^ (63 - Z.log2 a) * 2 ^ Z.log2 a = 2 ^ 63) by (rewrite <- Z.pow_add_r by lia; f_equal; lia).
  rewrite Z.pow_add_r in Hl by lia. change (2 ^ 1) with 2 in Hl.
  assert (0 < 2 ^ (63 - Z.log2 a)) by (apply pow2_pos; lia).
  unfold normal. change (2 ^ 64) with (2 * 2 ^ 63). rewrite <- E. nia.
Qed.

Lemma log2_eq : forall a l, 0 <= l -> 2 ^ l <= a < 2 ^ (l + 1) -> Z.log2 a = l.
Proof. intros. apply Z.log2_unique; [ assumption | ]. rewrite <- Z.add_1_r. assumption. Qed.

Lemma mul10_exact_state : forall a x, 0 < a -> 5 * a < 2 ^ 64 ->
  mul10 (exact_state a x) 0 = exact_state (5 * a) (x + 1).
Proof.
  intros a x Ha H5. unfold exact_state.
  pose proof (exact_normal a ltac:(lia)) as Hn.
  pose proof (log2_bounds a Ha) as Hl.
  assert (Hlr : 0 <= Z.log2 a < 62).
  { split; [ apply Z.log2_nonneg | ]. apply Z.log2_lt_pow2; lia. }
  set (l := Z.log2 a) in *. clearbody l.
  destruct (mul10_step _ (l + x) Hn) as (m' & s & Hs & Hm' & Hc). rewrite Hs. clear Hs.
  assert (Hw : 0 < 2 ^ (63 - l)) by (apply pow2_pos; lia).
  assert (E : 2 ^ (63 - l) * 2 ^ l = 2 ^ 63) by (rewrite <- Z.pow_add_r by lia; f_equal; lia).
  assert (E3 : 2 ^ (l + 3) = 8 * 2 ^ l) by (rewrite Z.pow_add_r by lia; lia).
  assert (E2 : 2 ^ (l + 2) = 4 * 2 ^ l) by (rewrite Z.pow_add_r by lia; lia).
  assert (E1 : 2 ^ (l + 1) = 2 * 2 ^ l) by (rewrite Z.pow_add_r by lia; lia).
  assert (E4 : 2 ^ (l + 4) = 16 * 2 ^ l) by (rewrite Z.pow_add_r by lia; lia).
  destruct Hc as [(-> & Hc & Hb) | (-> & Hc & Hb)].
  - assert (L : Z.log2 (5 * a) = l + 3).
    { apply log2_eq; [ lia | ]. replace (l + 3 + 1) with (l + 4) by lia. rewrite E3, E4. split; [ | lia ]. nia. }
    rewrite L.
    assert (Hl60 : l <= 60).
    { assert (2 ^ (l + 3) < 2 ^ 64) by (rewrite E3; nia).
      apply Z.pow_lt_mono_r_iff in H; lia. }
    assert (E63 : 2 ^ (63 - l) = 8 * 2 ^ (63 - (l + 3))).
    { replace (63 - l) with (3 + (63 - (l + 3))) by lia. rewrite Z.pow_add_r by lia. reflexivity. }
    rewrite E63 in Hc. f_equal; [ | lia ]. lia.
  - assert (Hlt : 5 * (a * 2 ^ (63 - l)) < 2 ^ 66) by (unfold normal in Hm'; lia).
    assert (L : Z.log2 (5 * a) = l + 2).
    { apply log2_eq; [ lia | ]. replace (l + 2 + 1) with (l + 3) by lia. rewrite E2, E3. split; [ lia | ]. nia. }
    rewrite L.
    assert (E63 : 2 ^ (63 - l) = 4 * 2 ^ (63 - (l + 2))).
    { replace (63 - l) with (2 + (63 - (l + 2))) by lia. rewrite Z.pow_add_r by lia. reflexivity. }
    rewrite E63 in Hc. f_equal; [ | lia ]. lia.
Qed.

Lemma div10_exact_state : forall a x, 0 < a -> 5 * a < 2 ^ 64 ->
  div10 (exact_state (5 * a) x) = exact_state a (x - 1).
Proof.
  intros a x Ha H5. unfold exact_state.
  pose proof (exact_normal (5 * a) ltac:(lia)) as Hn.
  pose proof (log2_bounds a Ha) as Hl.
  assert (Hlr : 0 <= Z.log2 a < 62).
  { split; [ apply Z.log2_nonneg | ]. apply Z.log2_lt_pow2; lia. }
  set (l := Z.log2 a) in *. clearbody l.
  assert (E3 : 2 ^ (l + 3) = 8 * 2 ^ l) by (rewrite Z.pow_add_r by lia; lia).
  assert (E2 : 2 ^ (l + 2) = 4 * 2 ^ l) by (rewrite Z.pow_add_r by lia; lia).
  assert (E1 : 2 ^ (l + 1) = 2 * 2 ^ l) by (rewrite Z.pow_add_r by lia; lia).
  assert (E4 : 2 ^ (l + 4) = 16 * 2 ^ l) by (rewrite Z.pow_add_r by lia; lia).
  assert (E : 2 ^ (63 - l) * 2 ^ l = 2 ^ 63) by (rewrite <- Z.pow_add_r by lia; f_equal; lia).
  assert (L : (Z.log2 (5 * a) = l + 2 /\ 5 * a < 8 * 2 ^ l) \/ (Z.log2 (5 * a) = l + 3 /\ 8 * 2 ^ l <= 5 * a)).
  { destruct (5 * a <? 8 * 2 ^ l) eqn:C.
    - left. split; [ | lia ]. apply log2_eq; [ lia | ]. replace (l + 2 + 1) with (l + 3) by lia. lia.
    - right. split; [ | lia ]. apply log2_eq; [ lia | ]. replace (l + 3 + 1) with (l + 4) by lia. lia. }
  destruct (div10_step _ (Z.log2 (5 * a) + x) Hn) as (m' & s & Hs & Hm' & Hc). rewrite Hs. clear Hs.
  destruct L as [(L & Lb) | (L & Lb)]; rewrite L in *.
  - assert (E63 : 2 ^ (63 - l) = 4 * 2 ^ (63 - (l + 2))).
    { replace (63 - l) with (2 + (63 - (l + 2))) by lia. rewrite Z.pow_add_r by lia. reflexivity. }
    set (w := 2 ^ (63 - (l + 2))) in *. rewrite E63 in *.
    assert (Hw : 0 < w) by (subst w; apply pow2_pos; lia). clearbody w.
    destruct Hc as [(-> & Hc & Hb) | (-> & Hc)].
    + f_equal; lia.
    + exfalso. unfold normal in *. nia.
  - assert (Hl60 : l <= 60).
    { assert (2 ^ (l + 3) < 2 ^ 64) by (rewrite E3; nia).
      apply Z.pow_lt_mono_r_iff in H; lia. }
    assert (E63 : 2 ^ (63 - l) = 8 * 2 ^ (63 - (l + 3))).
    { replace (63 - l) with (3 + (63 - (l + 3))) by lia. rewrite Z.pow_add_r by lia. reflexivity. }
    set (w := 2 ^ (63 - (l + 3))) in *. rewrite E63 in *.
    assert (Hw : 0 < w) by (subst w; apply pow2_pos; lia). clearbody w.
    destruct Hc as [(-> & Hc & Hb) | (-> & Hc)].
    + exfalso. unfold normal in *. nia.
    + f_equal; lia.
Qed.

Lemma scale_up_exact : forall k a x, 0 < a -> 5 ^ Z.of_nat k * a < 2 ^ 64 ->
  Nat.iter k (fun s => mul10 s 0) (exact_state a x) = exact_state (5 ^ Z.of_nat k * a) (x + Z.of_nat k).
Proof.
  induction k as [ | k IH ]; intros a x Ha H.
  - cbn [Nat.iter nat_rect]. change (Z.of_nat 0) with 0. change (5 ^ 0) with 1. rewrite Z.mul_1_l, Z.add_0_r. reflexivity.
  - cbn [Nat.iter nat_rect]. change (nat_rect _ _ _ k) with (Nat.iter k (fun s => mul10 s 0) (exact_state a x)).
    assert (E5 : 5 ^ Z.of_nat (S k) = 5 * 5 ^ Z.of_nat k).
    { replace (Z.of_nat (S k)) with (1 + Z.of_nat k) by lia. rewrite Z.pow_add_r by lia. reflexivity. }
    rewrite E5 in *.
    assert (0 < 5 ^ Z.of_nat k) by (apply Z.pow_pos_nonneg; lia).
    rewrite IH by nia. rewrite mul10_exact_state by nia.
    f_equal; lia.
Qed.

Lemma scale_down_exact : forall k a x, 0 < a -> 5 ^ Z.of_nat k * a < 2 ^ 64 ->
  Nat.iter k div10 (exact_state (5 ^ Z.of_nat k * a) x) = exact_state a (x - Z.of_nat k).
Proof.
  induction k as [ | k IH ]; intros a x Ha H.
  - cbn [Nat.iter nat_rect]. change (Z.of_nat 0) with 0. change (5 ^ 0) with 1. rewrite Z.mul_1_l, Z.sub_0_r. reflexivity.
  - cbn [Nat.iter nat_rect].
    assert (E5 : 5 ^ Z.of_nat (S k) = 5 * 5 ^ Z.of_nat k).
    { replace (Z.of_nat (S k)) with (1 + Z.of_nat k) by lia. rewrite Z.pow_add_r by lia. reflexivity. }
    rewrite E5 in *.
    assert (0 < 5 ^ Z.of_nat k) by (apply Z.pow_pos_nonneg; lia).
    change (nat_rect _ _ _ k) with (Nat.iter k div10 (exact_state (5 * 5 ^ Z.of_nat k * a) x)).
    replace (5 * 5 ^ Z.of_nat k * a) with (5 ^ Z.of_nat k * (5 * a)) by lia.
    rewrite IH by nia. rewrite div10_exact_state by nia.
    f_equal; lia.
Qed.

(* ---- the digits ---- *)

(* The value and the number of the digits, dots and underscores left out. *)
Fixpoint dval (n : Z) (l : list Z) : Z :=
  match l with
  | [] => n
  | c :: r => if (c =? 95) || (c =? 46) then dval n r else dval (10 * n + (c - 48)) r
  end.
Fixpoint dcnt (l : list Z) : Z :=
  match l with
  | [] => 0
  | c :: r => if (c =? 95) || (c =? 46) then dcnt r else 1 + dcnt r
  end.
Definition body_char (c : Z) : Prop := c = 95 \/ c = 46 \/ 48 <= c <= 57.

Lemma dcnt_nonneg : forall l, 0 <= dcnt l.
Proof. induction l as [ | c r IH ]; cbn [dcnt]; [ lia | ]. destruct ((c =? 95) || (c =? 46)); lia. Qed.

Lemma dval_range : forall l n, Forall body_char l -> 0 <= n -> n * 10 ^ dcnt l <= dval n l < (n + 1) * 10 ^ dcnt l.
Proof.
  induction l as [ | c r IH ]; intros n Hl Hn; cbn [dval dcnt].
  - change (10 ^ 0) with 1. lia.
  - inversion Hl as [ | ? ? Hc Hr ]; subst. unfold body_char in Hc.
    destruct ((c =? 95) || (c =? 46)) eqn:E; [ apply IH; assumption | ].
    pose proof (dcnt_nonneg r). rewrite Z.pow_add_r by lia. change (10 ^ 1) with 10.
    specialize (IH (10 * n + (c - 48)) Hr ltac:(lia)).
    assert (0 < 10 ^ dcnt r) by (apply pow10_pos; lia). nia.
Qed.

Lemma digit_loop_ok : forall body num i dexp n e,
  Forall body_char body -> 0 <= e <= 57 -> 2 ^ e <= n < 2 ^ (e + 1) -> num = i + dcnt body ->
  exists n' e' j, digit_loop num i dexp (n * 2 ^ (63 - e), e) body = ((n' * 2 ^ (63 - e'), e'), dexp + j) /\
    0 <= j /\ 2 ^ e' <= n' < 2 ^ (e' + 1) /\ 0 <= e' <= 61 /\
    0 <= n' * 10 ^ j - dval n body /\ 2 ^ 55 * (n' * 10 ^ j - dval n body) <= dval n body /\
    (dval n body < 10 * 2 ^ 54 -> j = 0 /\ n' = dval n body).
Proof.
  induction body as [ | c r IH ]; intros num i dexp n e Hb He Hn Hnum; cbn [digit_loop dval dcnt] in *.
  - exists n, e, 0. rewrite Z.add_0_r. change (10 ^ 0) with 1.
    assert (0 < 2 ^ e) by (apply pow2_pos; lia).
    split; [ reflexivity | ]. lia.
  - inversion Hb as [ | ? ? Hc Hr ]; subst. unfold body_char in Hc.
    destruct ((c =? 95) || (c =? 46)) eqn:E.
    + apply IH; auto.
    + assert (Hd : 48 <= c <= 57) by lia.
      assert (Hpe : 0 < 2 ^ e) by (apply pow2_pos; lia).
      assert (Hw : 0 < 2 ^ (63 - e)) by (apply pow2_pos; lia).
      cbn [fst snd]. replace (n * 2 ^ (63 - e) =? 0) with false by (symmetry; apply Z.eqb_neq; nia).
      destruct (53 <? e) eqn:El.
      * set (d := if 5 <=? c - 48 then 10 else 5).
        assert (Hdr : 0 <= d <= 10 /\ c - 48 < d <= c - 48 + 5) by (subst d; destruct (5 <=? c - 48) eqn:?; lia).
        clearbody d. destruct Hdr as [Hdr Hdd].
        destruct (mul10_exact n e d ltac:(lia) Hn Hdr) as (e' & -> & Hn' & He').
        pose proof (dcnt_nonneg r) as Hc0.
        exists (10 * n + d), e', (dcnt r).
        replace (i + (1 + dcnt r) - (i + 1)) with (dcnt r) by lia.
        split; [ reflexivity | ]. split; [ lia | ]. split; [ exact Hn' | ]. split; [ lia | ].
        pose proof (dval_range r (10 * n + (c - 48)) Hr ltac:(lia)) as Hv.
        set (v := dval (10 * n + (c - 48)) r) in *. clearbody v.
        assert (Ht : 0 < 10 ^ dcnt r) by (apply pow10_pos; lia).
        set (t := 10 ^ dcnt r) in *. clearbody t.
        assert (Hn54 : 2 ^ 54 <= n).
        { transitivity (2 ^ e); [ apply Z.pow_le_mono_r; lia | lia ]. }
        clear IH Hb Hr Hn Hw Hpe Hn'.
        split; [ nia | ]. split; [ nia | ]. intro Hv2. exfalso. nia.
      * destruct (mul10_exact n e (c - 48) ltac:(lia) Hn ltac:(lia)) as (e' & -> & Hn' & He').
        apply IH; [ assumption | lia | assumption | lia ].
Qed.

Lemma first_digit_ok : forall d, 1 <= d <= 9 ->
  exists e, first_digit d 0 = (d * 2 ^ (63 - e), e) /\ 2 ^ e <= d < 2 ^ (e + 1) /\ 0 <= e <= 3.
Proof.
  intros d H.
  assert (Hc : d = 1 \/ d = 2 \/ d = 3 \/ d = 4 \/ d = 5 \/ d = 6 \/ d = 7 \/ d = 8 \/ d = 9) by lia.
  decompose [or] Hc; subst d;
    [ exists 0 | exists 1 | exists 1 | exists 2 | exists 2 | exists 2 | exists 2 | exists 3 | exists 3 ];
    (split; [ vm_compute; reflexivity | split; [ split; [ vm_compute; discriminate | reflexivity ] | lia ] ]).
Qed.
