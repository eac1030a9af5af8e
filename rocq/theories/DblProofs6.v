(* Nearest doubles for short texts, and which texts are accepted. *)
From Coq Require Import ZArith Znumtheory List Lia Bool ZifyBool.
Import ListNotations.
From Verif Require Import Base ParseIntModel ParseIntSpec ParseIntProofs ParseIntProps DblModel DblSpec
  DblProofs DblProofs2 DblProofs3 DblProofs4 DblProofs5.
Local Open Scope Z_scope.
Ltac Zify.zify_post_hook ::= idtac.

Lemma dbl_split : forall mag, mag = 2 ^ 52 * dbl_exp mag + dbl_frac mag /\ 0 <= dbl_frac mag < 2 ^ 52.
Proof.
  intro mag. unfold dbl_exp, dbl_frac. split; [ apply Z.div_mod; lia | apply Z.mod_pos_bound; lia ].
Qed.

Lemma dbl_mag_lt : forall a b, 0 <= a -> a < b -> dbl_mag a < dbl_mag b.
Proof.
  intros a b Ha Hab. destruct (dbl_split a) as [Ea Fa]. destruct (dbl_split b) as [Eb Fb].
  unfold dbl_mag. set (ea := dbl_exp a) in *. set (eb := dbl_exp b) in *.
  set (fa := dbl_frac a) in *. set (fb := dbl_frac b) in *. clearbody ea eb fa fb.
  assert (Hea : 0 <= ea) by lia. assert (Heb : ea <= eb) by lia.
  destruct (ea =? 0) eqn:E1; destruct (eb =? 0) eqn:E2; [ lia | | lia | ].
  - assert (0 < 2 ^ (eb - 1)) by (apply pow2_pos; lia).
    assert ((2 ^ 52 + fb) * 1 <= (2 ^ 52 + fb) * 2 ^ (eb - 1)) by (apply Z.mul_le_mono_nonneg_l; lia). lia.
  - destruct (ea =? eb) eqn:E3.
    + assert (ea = eb) by lia. subst eb. assert (0 < 2 ^ (ea - 1)) by (apply pow2_pos; lia). apply Z.mul_lt_mono_pos_r; lia.
    + assert (H2 : 2 * 2 ^ (ea - 1) <= 2 ^ (eb - 1)).
      { replace (2 * 2 ^ (ea - 1)) with (2 ^ (1 + (ea - 1))) by (rewrite Z.pow_add_r by lia; lia).
        apply Z.pow_le_mono_r; lia. }
      assert (0 < 2 ^ (ea - 1)) by (apply pow2_pos; lia). nia.
Qed.

Lemma dbl_mag_inj : forall a b, 0 <= a -> 0 <= b -> dbl_mag a = dbl_mag b -> a = b.
Proof.
  intros a b Ha Hb E. destruct (Z.lt_trichotomy a b) as [H | [H | H]]; [ | exact H | ].
  - apply dbl_mag_lt in H; lia.
  - apply dbl_mag_lt in H; lia.
Qed.

(* Every finite magnitude is a multiple of u, or below 2^52 * u. *)
Lemma dbl_multiple : forall mag k, 0 <= mag -> 0 <= k ->
  (exists c, 0 <= c /\ dbl_mag mag = c * 2 ^ k) \/ dbl_mag mag < 2 ^ 52 * 2 ^ k.
Proof.
  intros mag k Hm Hk. destruct (dbl_split mag) as [E F].
  unfold dbl_mag. set (ex := dbl_exp mag) in *. set (fr := dbl_frac mag) in *. clearbody ex fr.
  assert (Hp : 0 < 2 ^ k) by (apply pow2_pos; lia).
  destruct (ex =? 0) eqn:E0.
  - right. nia.
  - destruct (Z_lt_le_dec (ex - 1) k) as [H | H].
    + right. assert (H2 : 2 * 2 ^ (ex - 1) <= 2 ^ k).
      { replace (2 * 2 ^ (ex - 1)) with (2 ^ (1 + (ex - 1))) by (rewrite Z.pow_add_r by lia; lia).
        apply Z.pow_le_mono_r; lia. }
      assert (0 < 2 ^ (ex - 1)) by (apply pow2_pos; lia). nia.
    + left. exists ((2 ^ 52 + fr) * 2 ^ (ex - 1 - k)).
      split.
      * apply Z.mul_nonneg_nonneg; [ lia | apply Z.lt_le_incl, pow2_pos; lia ].
      * rewrite <- Z.mul_assoc, <- Z.pow_add_r by lia. f_equal. f_equal. lia.
Qed.

(* A rounded mantissa is the nearest double to the unrounded one. *)
Lemma nearest_core : forall r m e mag mag', 0 <= e + 1011 -> normal m ->
  2 ^ 52 <= r <= 2 ^ 53 -> - 2 ^ 10 <= 2 ^ 11 * r - m <= 2 ^ 10 ->
  (Z.abs (2 ^ 11 * r - m) = 2 ^ 10 -> Z.even r = true) ->
  mag = (e + 1023) * 2 ^ 52 + (r - 2 ^ 52) -> 0 <= mag' ->
  let w := m * 2 ^ (e + 1011) in
  Z.abs (dbl_mag mag - w) < Z.abs (dbl_mag mag' - w) \/
  (Z.abs (dbl_mag mag - w) = Z.abs (dbl_mag mag' - w) /\ (mag = mag' \/ Z.even mag = true)).
Proof.
  intros r m e mag mag' He Hm Hr Hd Hev Emag Hmag'. cbv zeta.
  assert (Hmag : dbl_mag mag = r * 2 ^ (e + 1022)).
  { subst mag. destruct (decode_normal (e + 1023) r ltac:(lia) Hr) as [-> _]. do 2 f_equal. lia. }
  assert (Hpar : Z.even mag = Z.even r).
  { subst mag. replace ((e + 1023) * 2 ^ 52 + (r - 2 ^ 52)) with (r + 2 * ((e + 1022) * 2 ^ 51)) by lia.
    rewrite Z.even_add_mul_2. reflexivity. }
  assert (Hu : 2 ^ (e + 1022) = 2 ^ 11 * 2 ^ (e + 1011)) by (rewrite <- Z.pow_add_r by lia; f_equal; lia).
  assert (Hq : 0 < 2 ^ (e + 1011)) by (apply pow2_pos; lia).
  unfold normal in Hm.
  destruct (dbl_multiple mag' (e + 1022) Hmag' ltac:(lia)) as [(c & Hc & Ec) | Hlt].
  - destruct (Z.eq_dec c r) as [-> | Hne].
    + right. rewrite Ec, Hmag. split; [ reflexivity | ]. left. apply dbl_mag_inj; [ lia | lia | congruence ].
    + rewrite Hmag, Ec, Hpar, Hu. set (q := 2 ^ (e + 1011)) in *. clearbody q.
      replace (r * (2 ^ 11 * q) - m * q) with ((2 ^ 11 * r - m) * q) by ring.
      replace (c * (2 ^ 11 * q) - m * q) with ((2 ^ 11 * c - m) * q) by ring.
      rewrite !Z.abs_mul, (Z.abs_eq q) by lia.
      destruct (Z.eq_dec (Z.abs (2 ^ 11 * r - m)) (2 ^ 10)) as [Et | Et].
      * specialize (Hev Et). rewrite Hev.
        assert (2 ^ 10 <= Z.abs (2 ^ 11 * c - m)) by lia.
        set (x1 := Z.abs (2 ^ 11 * r - m)) in *. set (x2 := Z.abs (2 ^ 11 * c - m)) in *. clearbody x1 x2.
        destruct (Z.eq_dec x1 x2) as [-> | ]; [ right; auto | left; nia ].
      * left. apply Z.mul_lt_mono_pos_r; [ exact Hq | ]. lia.
  - left. rewrite Hmag, Hu in *. set (v := dbl_mag mag') in *. clearbody v.
    set (q := 2 ^ (e + 1011)) in *. clearbody q.
    assert (Hw : 2 ^ 52 * (2 ^ 11 * q) <= m * q) by nia.
    assert (H1 : Z.abs (r * (2 ^ 11 * q) - m * q) <= m * q - 2 ^ 52 * (2 ^ 11 * q)).
    { replace (r * (2 ^ 11 * q) - m * q) with ((2 ^ 11 * r - m) * q) by ring.
      replace (m * q - 2 ^ 52 * (2 ^ 11 * q)) with ((m - 2 ^ 63) * q) by ring.
      rewrite Z.abs_mul, (Z.abs_eq q) by lia. apply Z.mul_le_mono_nonneg_r; [ lia | ]. lia. }
    lia.
Qed.

(* From an exact state to the nearest double. *)
Lemma finish_nearest : forall sign a y n x, (sign = 0 \/ sign = 1) ->
  0 < a < 2 ^ 64 -> -900 <= y <= 900 -> dec_num n x = a * 2 ^ (y + 1074) * dec_den x ->
  exists mag, finish_dbl sign (exact_state a y) = DOk (sign * 2 ^ 63 + mag) /\ 0 <= mag < dbl_inf /\
    nearest_even mag n x /\ (a < 2 ^ 53 -> dbl_mag mag * dec_den x = dec_num n x).
Proof.
  intros sign a y n x Hs Ha Hy Hv. unfold exact_state.
  pose proof (exact_normal a Ha) as Hm.
  assert (Hl : 0 <= Z.log2 a < 64).
  { split; [ apply Z.log2_nonneg | ]. apply Z.log2_lt_pow2; lia. }
  assert (Hl53 : a < 2 ^ 53 -> Z.log2 a < 53) by (intro; apply Z.log2_lt_pow2; lia).
  set (l := Z.log2 a) in *. clearbody l.
  destruct (finish_normal sign _ (l + y) Hs Hm ltac:(lia)) as (r & -> & Hr & Hd & Hev).
  exists ((l + y + 1023) * 2 ^ 52 + (r - 2 ^ 52)). split; [ reflexivity | ].
  split; [ unfold dbl_inf; lia | ].
  assert (Ew : a * 2 ^ (63 - l) * 2 ^ (l + y + 1011) = a * 2 ^ (y + 1074)).
  { rewrite <- Z.mul_assoc, <- Z.pow_add_r by lia. f_equal. f_equal. lia. }
  pose proof (dec_den_pos x) as D0.
  split.
  - intros mag' Hmag'. cbv zeta.
    pose proof (nearest_core r _ (l + y) _ mag' ltac:(lia) Hm Hr Hd Hev eq_refl ltac:(lia)) as H.
    cbv zeta in H. rewrite Ew in H. rewrite Hv.
    rewrite <- !Z.mul_sub_distr_r, !Z.abs_mul, (Z.abs_eq (dec_den x)) by lia.
    destruct H as [H | [H H']]; [ left; apply Z.mul_lt_mono_pos_r; assumption | right; split; [ congruence | exact H' ] ].
  - intro H53. rewrite Hv. f_equal. rewrite <- Ew.
    destruct (decode_normal (l + y + 1023) r ltac:(lia) Hr) as [-> _].
    specialize (Hl53 H53).
    assert (E1 : 2 ^ (63 - l) = 2 ^ 11 * 2 ^ (52 - l)) by (rewrite <- Z.pow_add_r by lia; f_equal; lia).
    assert (E2 : 2 ^ (l + y + 1023 - 1) = 2 ^ 11 * 2 ^ (l + y + 1011)) by (rewrite <- Z.pow_add_r by lia; f_equal; lia).
    rewrite E1 in *. assert (Er : r = a * 2 ^ (52 - l)) by lia.
    rewrite Er, E2. ring.
Qed.

Lemma pow5_small : forall k, 0 <= k -> 5 ^ k < 2 ^ 64 -> k < 32.
Proof.
  intros k Hk H. destruct (Z_lt_le_dec k 32) as [ | Hge ]; [ assumption | exfalso ].
  assert (4 ^ 32 <= 5 ^ k).
  { transitivity (4 ^ k); [ apply Z.pow_le_mono_r; lia | apply Z.pow_le_mono_l; lia ]. }
  assert (4 ^ 32 = 2 ^ 64) by reflexivity. lia.
Qed.

Lemma scale_nearest : forall sign n x e0, (sign = 0 \/ sign = 1) -> 0 < n < 2 ^ 64 -> e0 = Z.log2 n ->
  (0 <= x /\ 5 ^ x * n < 2 ^ 64) \/ (x < 0 /\ (5 ^ (- x) | n)) ->
  exists mag, finish_dbl sign (scale (n * 2 ^ (63 - e0), e0) x) = DOk (sign * 2 ^ 63 + mag) /\
    0 <= mag < dbl_inf /\ nearest_even mag n x /\
    (n * 5 ^ Z.max x 0 < 2 ^ 53 * 5 ^ Z.max (- x) 0 -> dbl_mag mag * dec_den x = dec_num n x).
Proof.
  intros sign n x e0 Hs Hn -> Hx.
  assert (Hst : (n * 2 ^ (63 - Z.log2 n), Z.log2 n) = exact_state n 0) by (unfold exact_state; f_equal; lia).
  rewrite Hst.
  unfold scale.
  replace (fst (exact_state n 0) =? 0) with false
    by (pose proof (exact_normal n Hn) as N; unfold normal in N; cbn [fst exact_state]; lia).
  destruct Hx as [[Hx0 H5] | [Hx0 Hdiv]].
  - replace (x <? 0) with false by lia.
    assert (Hp5 : 0 < 5 ^ x) by (apply Z.pow_pos_nonneg; lia).
    assert (Hk : Z.of_nat (Z.to_nat x) = x) by lia.
    rewrite scale_up_exact by (rewrite ?Hk; lia). rewrite Hk, Z.add_0_l.
    assert (Hx32 : x < 32) by (apply pow5_small; [ lia | nia ]).
    assert (E : dec_num n x = 5 ^ x * n * 2 ^ (x + 1074) * dec_den x).
    { unfold dec_num, dec_den. rewrite Z.max_l, Z.max_r by lia. change (10 ^ 0) with 1.
      rewrite (Z.pow_add_r 2 x 1074) by lia. change 10 with (5 * 2). rewrite Z.pow_mul_l.
      generalize (2 ^ 1074). intros. ring. }
    destruct (finish_nearest sign (5 ^ x * n) x n x Hs ltac:(nia) ltac:(lia) E) as (mag & H1 & H2 & H3 & H4).
    exists mag. split; [ exact H1 | ]. split; [ exact H2 | ]. split; [ exact H3 | ].
    rewrite Z.max_l, Z.max_r by lia. change (5 ^ 0) with 1. intro H. apply H4. lia.
  - replace (x <? 0) with true by lia.
    assert (Hp5 : 0 < 5 ^ (- x)) by (apply Z.pow_pos_nonneg; lia).
    destruct Hdiv as [a Ea].
    assert (Ha : 0 < a) by nia.
    assert (Hx32 : - x < 32) by (apply pow5_small; [ lia | nia ]).
    assert (Hk : Z.of_nat (Z.to_nat (- x)) = - x) by lia.
    assert (En : n = 5 ^ Z.of_nat (Z.to_nat (- x)) * a) by (rewrite Hk; lia).
    replace (exact_state n 0) with (exact_state (5 ^ Z.of_nat (Z.to_nat (- x)) * a) 0) by (rewrite <- En; reflexivity).
    rewrite scale_down_exact by (rewrite <- ?En; lia). rewrite Hk.
    replace (0 - - x) with x by lia.
    assert (E : dec_num n x = a * 2 ^ (x + 1074) * dec_den x).
    { unfold dec_num, dec_den. rewrite (Z.max_r x 0), (Z.max_l (- x) 0) by lia. change (10 ^ 0) with 1.
      replace (2 ^ 1074) with (2 ^ (x + 1074) * 2 ^ (- x)) by (rewrite <- Z.pow_add_r by lia; f_equal; lia).
      change 10 with (5 * 2). rewrite Z.pow_mul_l. rewrite Ea. ring. }
    destruct (finish_nearest sign a x n x Hs ltac:(nia) ltac:(lia) E) as (mag & H1 & H2 & H3 & H4).
    exists mag. split; [ exact H1 | ]. split; [ exact H2 | ]. split; [ exact H3 | ].
    rewrite (Z.max_r x 0), (Z.max_l (- x) 0) by lia. change (5 ^ 0) with 1. intro H. apply H4. nia.
Qed.

(* ---- accepted texts ---- *)

Lemma scan_loop_inv : forall l num dot n d b x, scan_loop num dot l = Some (n, d, b, x) ->
  l = b ++ x /\ Forall body_char b /\ exp_head x.
Proof.
  induction l as [ | c r IH ]; intros num dot n d b x H; cbn [scan_loop] in H.
  - assert (b = [] /\ x = []) as [-> ->] by (split; congruence). repeat split; constructor.
  - destruct ((48 <=? c) && (c <=? 57)) eqn:E1.
    + destruct (scan_loop (num + 1) dot r) as [[[[n1 d1] b1] x1] | ] eqn:Es; [ | discriminate ].
      destruct (IH _ _ _ _ _ _ Es) as (-> & Hb & Hx).
      assert (b = c :: b1 /\ x = x1) as [-> ->] by (split; congruence).
      repeat split; auto. constructor; [ unfold body_char; lia | assumption ].
    + destruct ((c =? 101) || (c =? 69)) eqn:E2.
      * assert (b = [] /\ x = c :: r) as [-> ->] by (split; congruence).
        repeat split; [ constructor | ]. cbn [exp_head]. lia.
      * destruct (c =? 95) eqn:E3.
        -- destruct (scan_loop num dot r) as [[[[n1 d1] b1] x1] | ] eqn:Es; [ | discriminate ].
           destruct (IH _ _ _ _ _ _ Es) as (-> & Hb & Hx).
           assert (b = c :: b1 /\ x = x1) as [-> ->] by (split; congruence).
           repeat split; auto. constructor; [ unfold body_char; lia | assumption ].
        -- destruct (c =? 46) eqn:E4; [ | discriminate ].
           destruct (negb (dot =? -1)); [ discriminate | ].
           destruct (scan_loop num num r) as [[[[n1 d1] b1] x1] | ] eqn:Es; [ | discriminate ].
           destruct (IH _ _ _ _ _ _ Es) as (-> & Hb & Hx).
           assert (b = c :: b1 /\ x = x1) as [-> ->] by (split; congruence).
           repeat split; auto. constructor; [ unfold body_char; lia | assumption ].
Qed.

Lemma body_digits : forall l v, Forall body_char l -> dots l = 0 -> digits_of 10 l v (dval v l).
Proof.
  induction l as [ | c r IH ]; intros v Hl Hd; cbn [dval dots] in *.
  - constructor.
  - inversion Hl as [ | ? ? Hc Hr ]; subst. unfold body_char in Hc. pose proof (dots_nonneg r).
    destruct (c =? 46) eqn:E1; [ lia | ]. destruct (c =? 95) eqn:E2; cbn [orb].
    + replace c with 95 by lia. constructor. apply IH; [ assumption | lia ].
    + apply do_digit with (c - 48).
      * constructor. lia.
      * lia.
      * replace (v * 10 + (c - 48)) with (10 * v + (c - 48)) by lia. apply IH; [ assumption | lia ].
Qed.

Lemma body_split : forall l, Forall body_char l -> dots l <= 1 ->
  exists a fr b n, l = a ++ fr /\ frac_text fr b /\ digits_of 10 (a ++ b) 0 n.
Proof.
  intros l Hl Hd.
  assert (H : dots l = 0 \/ exists a b, l = a ++ 46 :: b /\ dots a = 0 /\ dots b = 0).
  { clear Hl. induction l as [ | c r IH ]; [ left; reflexivity | ]. cbn [dots] in *. pose proof (dots_nonneg r).
    destruct (c =? 46) eqn:E.
    - right. exists [], r. replace c with 46 by lia. repeat split; lia.
    - destruct IH as [IH | (a & b & -> & H1 & H2)]; [ lia | left; lia | ].
      right. exists (c :: a), b. cbn [dots]. rewrite E. repeat split; lia. }
  destruct H as [H | (a & b & -> & H1 & H2)].
  - exists l, [], [], (dval 0 l). rewrite !app_nil_r. repeat split; [ constructor | ]. apply body_digits; assumption.
  - apply Forall_app in Hl. destruct Hl as [Ha Hb]. inversion Hb as [ | ? ? _ Hb' ]; subst.
    exists a, (46 :: b), b, (dval 0 (a ++ b)). repeat split; [ constructor | ].
    apply body_digits; [ apply Forall_app; auto | rewrite dots_app; lia ].
Qed.

Lemma exp_part_text : forall x e, exp_head x -> exp_part x = inl e -> exp_text x e.
Proof.
  intros x e Hx H. destruct x as [ | c t ]; cbn [exp_part] in H.
  - assert (e = 0) by congruence. subst e. constructor.
  - destruct t as [ | c1 t ]; [ discriminate | ]. cbn [exp_head] in Hx.
    destruct (parse_int (c1 :: t)) as [ v | | w ] eqn:E; try discriminate.
    destruct ((308 <? v) || (v <? -324)); [ discriminate | ].
    assert (e = v) by congruence. subst e.
    pose proof (parse_int_correct (c1 :: t)) as C. rewrite E in C.
    destruct C as (neg & r & m & Ht & Hf & ->).
    + intros r Ht. rewrite (parse_int_text _ _ _ _ Ht) in E.
      destruct (2 ^ 63 <=? mag_max r true); [ | discriminate ].
      unfold finish_int in E. vm_compute in E. discriminate.
    + constructor; assumption.
Qed.

Lemma lead_body : forall l, Forall lead_char l -> Forall body_char l.
Proof. intros l H. eapply Forall_impl; [ | exact H ]. unfold lead_char, body_char. intros; lia. Qed.

Lemma accepted_text : forall l, (exists bits, parse_double l = DOk bits) \/ parse_double l = DTooBig ->
  dots l <= 1 -> exists neg n f x, float_text l neg n f x.
Proof.
  intros l H Hdots.
  assert (Hr : forall r, parse_double l = r -> match r with DOk _ | DTooBig => True | _ => False end).
  { intros r <-. destruct H as [[bits ->] | ->]; exact I. }
  clear H. unfold parse_double in Hr.
  destruct l as [ | c0 r0 ]; [ destruct (Hr _ eq_refl) | ]. set (l := c0 :: r0) in *. clearbody l. clear c0 r0.
  destruct (split_sign l) as [neg l1] eqn:Es.
  destruct (split_sign_text _ _ _ Es) as (s & -> & Hs). clear Es.
  destruct l1 as [ | c1 r1 ]; [ destruct (Hr _ eq_refl) | ].
  assert (Hne : c1 :: r1 <> []) by discriminate. set (l1 := c1 :: r1) in *. clearbody l1. clear c1 r1.
  destruct (lead_loop 0 (-1) l1) as [[dexp dot] l2] eqn:El.
  destruct (lead_loop_ok _ _ _ _ _ _ (or_introl eq_refl) El) as (z & -> & Hz & _ & _ & _). clear El.
  rewrite dots_app in Hdots. pose proof (dots_nonneg s) as Hds.
  assert (Hfin : forall b xs e, l2 = b ++ xs -> Forall body_char b -> exp_text xs e ->
                 exists neg n f x, float_text (s ++ z ++ l2) neg n f x).
  { intros b xs e -> Hb Hxs.
    rewrite !dots_app in Hdots. pose proof (dots_nonneg xs) as Hdx.
    destruct (body_split (z ++ b)) as (a & fr & b' & n & Ezb & Hfr & Hdg).
    - apply Forall_app. split; [ apply lead_body; exact Hz | exact Hb ].
    - rewrite dots_app. lia.
    - exists neg, n, (digit_count b'), e. exists s, a, fr, b', xs.
      rewrite (app_assoc z), Ezb in *. rewrite <- !app_assoc in *. repeat split; auto. }
  destruct l2 as [ | c2 r2 ].
  - apply (Hfin [] [] 0); [ reflexivity | constructor | constructor ].
  - destruct (scan_loop 0 dot (c2 :: r2)) as [[[[num d2] b] xs] | ] eqn:Esc; [ | destruct (Hr _ eq_refl) ].
    destruct (scan_loop_inv _ _ _ _ _ _ _ Esc) as (E2 & Hb & Hxh).
    destruct (exp_part xs) as [ e | r ] eqn:Ex.
    + apply (Hfin b xs e); [ exact E2 | exact Hb | apply exp_part_text; assumption ].
    + specialize (Hr r eq_refl). exfalso. clear - Ex Hr.
      destruct xs as [ | c [ | c1 t ] ]; cbn [exp_part] in Ex; try discriminate.
      * assert (r = DBadExp) by congruence. subst r. exact Hr.
      * destruct (parse_int (c1 :: t)) as [ v | | w ].
        -- destruct ((308 <? v) || (v <? -324)); [ | discriminate ].
           assert (r = DExpRange) by congruence. subst r. exact Hr.
        -- assert (r = DBadExp) by congruence. subst r. exact Hr.
        -- assert (r = DUB) by congruence. subst r. exact Hr.
Qed.
