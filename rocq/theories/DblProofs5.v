(* Accuracy of the floating-point parser: from the text to the digits. *)
From Coq Require Import ZArith Znumtheory List Lia Bool ZifyBool.
Import ListNotations.
From Verif Require Import Base ParseIntModel ParseIntSpec ParseIntProofs DblModel DblSpec DblProofs DblProofs2 DblProofs3 DblProofs4.
Local Open Scope Z_scope.
Ltac Zify.zify_post_hook ::= idtac.

Lemma pow10_400 : forall k, 400 <= k -> 2 ^ 1200 <= 10 ^ k.
Proof.
  intros k Hk. transitivity (10 ^ 400); [ | apply Z.pow_le_mono_r; lia ].
  change 1200 with (3 * 400). rewrite Z.pow_mul_r by lia. change (2 ^ 3) with 8.
  apply Z.pow_le_mono_l. lia.
Qed.

Lemma scale_good : forall sign n n' e0 j x,
  (sign = 0 \/ sign = 1) -> 0 < n -> 0 <= j -> 0 <= n' * 10 ^ j - n -> 2 ^ 55 * (n' * 10 ^ j - n) <= n ->
  0 <= e0 <= 61 -> 2 ^ e0 <= n' < 2 ^ (e0 + 1) ->
  good_result sign n x (finish_dbl sign (scale (n' * 2 ^ (63 - e0), e0) (x + j))).
Proof.
  intros sign n n' e0 j x Hs Hn Hj H1 H2 He0 Hn'.
  destruct (Z_le_dec (-400) (x + j)) as [Hlo | Hlo]; [ destruct (Z_le_dec (x + j) 400) as [Hhi | Hhi] | ].
  - destruct (total_err n n' e0 j x Hn Hj H1 H2 He0 Hn' (conj Hlo Hhi)) as (m & e & z & -> & Hm & Hz & He & Hb).
    apply finish_good with (z := z); assumption.
  - (* far too large *)
    assert (Hpe : 0 < 2 ^ e0) by (apply pow2_pos; lia).
    assert (Hlog : Z.log2 n' = e0) by (apply log2_eq; lia).
    assert (Hn64 : 0 < n' < 2 ^ 64).
    { split; [ lia | ]. apply Z.lt_le_trans with (2 ^ (e0 + 1)); [ lia | apply Z.pow_le_mono_r; lia ]. }
    assert (Hm0 : normal (n' * 2 ^ (63 - e0))) by (rewrite <- Hlog; apply exact_normal; assumption).
    destruct (digits_fraction n n' j x Hn Hj H1 H2) as [F1 F2].
    unfold scale. cbn [fst]. replace (n' * 2 ^ (63 - e0) =? 0) with false by (unfold normal in Hm0; lia).
    replace (x + j <? 0) with false by lia.
    destruct (scale_up_exp (Z.to_nat (x + j)) _ e0 Hm0) as (m & e & -> & Hm & He).
    rewrite finish_big by lia. cbn [good_result]. unfold overflows.
    assert (Ed : dec_den (x + j) = 1) by (unfold dec_den; rewrite Z.max_r by lia; reflexivity).
    rewrite Ed in *.
    assert (E1 : 2 ^ 2274 <= dec_num n' (x + j)).
    { unfold dec_num. rewrite Z.max_l by lia.
      pose proof (pow10_400 (x + j) ltac:(lia)) as Hk.
      replace (2 ^ 2274) with (2 ^ 1200 * 2 ^ 1074) by (rewrite <- Z.pow_add_r by lia; reflexivity).
      apply Z.mul_le_mono_nonneg_r; [ apply Z.lt_le_incl, pow2_pos; lia | ].
      assert (0 < 2 ^ 1200) by (apply pow2_pos; lia).
      set (a := 10 ^ (x + j)) in *. set (b := 2 ^ 1200) in *. clearbody a b. clear - Hk H Hn64. nia. }
    pose proof (dec_den_pos x) as D0.
    assert (E2 : 2 ^ 2274 = 2 ^ 176 * 2 ^ 2098) by (rewrite <- Z.pow_add_r by lia; reflexivity).
    rewrite E2 in E1.
    assert (Hq : 0 < 2 ^ 2098) by (apply pow2_pos; lia). assert (Hr : 0 < 2 ^ 2044) by (apply pow2_pos; lia).
    set (q := 2 ^ 2098) in *. set (r := 2 ^ 2044) in *. clearbody q r.
    set (d0 := dec_den x) in *. set (z0 := dec_num n x) in *. set (z1 := dec_num n' (x + j)) in *.
    clearbody d0 z0 z1. clear - F1 F2 E1 Hq Hr D0.
    assert (2 ^ 176 * (q * d0) <= z1 * d0) by nia.
    assert (0 < q * d0) by nia. assert ((q - r) * d0 <= q * d0) by nia.
    set (a := q * d0) in *. set (b := z1 * d0) in *. set (c := (q - r) * d0) in *. clearbody a b c.
    lia.
  - (* far too small *)
    assert (Hpe : 0 < 2 ^ e0) by (apply pow2_pos; lia).
    assert (Hlog : Z.log2 n' = e0) by (apply log2_eq; lia).
    assert (Hn62 : 0 < n' < 2 ^ 62).
    { split; [ lia | ]. apply Z.lt_le_trans with (2 ^ (e0 + 1)); [ lia | apply Z.pow_le_mono_r; lia ]. }
    assert (Hm0 : normal (n' * 2 ^ (63 - e0))) by (rewrite <- Hlog; apply exact_normal; lia).
    destruct (digits_fraction n n' j x Hn Hj H1 H2) as [F1 F2].
    unfold scale. cbn [fst]. replace (n' * 2 ^ (63 - e0) =? 0) with false by (unfold normal in Hm0; lia).
    replace (x + j <? 0) with true by lia.
    destruct (scale_down_exp (Z.to_nat (- (x + j))) _ e0 Hm0) as (m & e & -> & Hm & He).
    destruct (finish_denormal sign m e Hs Hm ltac:(lia)) as (r & -> & Hr & Hrm).
    assert (Hz : m / 2 ^ (-1022 - e) = 0).
    { apply Z.div_small. unfold normal in Hm. split; [ lia | ].
      apply Z.lt_le_trans with (2 ^ 64); [ lia | apply Z.pow_le_mono_r; lia ]. }
    rewrite Hz in Hrm. assert (r = 0) by lia. subst r. change (0 mod 2 ^ 52) with 0.
    cbn [good_result]. exists 0. split; [ reflexivity | ]. split; [ unfold dbl_inf; lia | ].
    left. split; [ unfold dbl_inf; lia | ].
    unfold within_ulp. destruct (decode_denormal 0 ltac:(lia)) as [-> ->].
    assert (Ed : dec_den (x + j) = 10 ^ (- (x + j))) by (unfold dec_den; rewrite Z.max_l by lia; reflexivity).
    assert (E1 : dec_num n' (x + j) < dec_den (x + j)).
    { rewrite Ed. apply Z.lt_le_trans with (2 ^ 1200); [ | apply pow10_400; lia ].
      unfold dec_num. rewrite Z.max_r by lia. change (10 ^ 0) with 1. rewrite Z.mul_1_r.
      replace (2 ^ 1200) with (2 ^ 126 * 2 ^ 1074) by (rewrite <- Z.pow_add_r by lia; reflexivity).
      apply Z.mul_lt_mono_pos_r; [ apply pow2_pos; lia | ]. lia. }
    pose proof (dec_den_pos x) as D0. pose proof (dec_den_pos (x + j)) as D1.
    assert (Hz0 : 0 < dec_num n x).
    { unfold dec_num. apply Z.mul_pos_pos; [ | apply pow2_pos; lia ].
      apply Z.mul_pos_pos; [ lia | apply pow10_pos; lia ]. }
    set (d0 := dec_den x) in *. set (d1 := dec_den (x + j)) in *. set (z0 := dec_num n x) in *.
    set (z1 := dec_num n' (x + j)) in *. clearbody d0 d1 z0 z1. clear - F1 E1 D0 D1 Hz0.
    assert (z0 < d0); [ | lia ].
    assert (z0 * d1 < d0 * d1) by nia. nia.
Qed.

(* ---- the text ---- *)

(* Digits after the first dot, and the number of dots. *)
Fixpoint fcnt (seen : bool) (l : list Z) : Z :=
  match l with
  | [] => 0
  | c :: r => if c =? 95 then fcnt seen r
              else if c =? 46 then fcnt true r
              else (if seen then 1 else 0) + fcnt seen r
  end.
Fixpoint dots (l : list Z) : Z :=
  match l with
  | [] => 0
  | c :: r => (if c =? 46 then 1 else 0) + dots r
  end.
Definition lead_char (c : Z) : Prop := c = 95 \/ c = 48 \/ c = 46.

Lemma dots_nonneg : forall l, 0 <= dots l.
Proof. induction l as [ | c r IH ]; cbn [dots]; [ lia | ]. destruct (c =? 46); lia. Qed.

Lemma dots_app : forall a b, dots (a ++ b) = dots a + dots b.
Proof. induction a as [ | c r IH ]; intro b; cbn [dots app]; [ reflexivity | ]. rewrite IH. lia. Qed.

Lemma fcnt_app : forall a b s, fcnt s (a ++ b) = fcnt s a + fcnt (s || (0 <? dots a)) b.
Proof.
  induction a as [ | c r IH ]; intros b s; cbn [fcnt dots app].
  - rewrite orb_false_r. reflexivity.
  - pose proof (dots_nonneg r). destruct (c =? 95) eqn:E1.
    + replace (c =? 46) with false by lia. rewrite IH. reflexivity.
    + destruct (c =? 46) eqn:E2.
      * rewrite IH. replace (0 <? 1 + dots r) with true by lia. rewrite orb_true_r. reflexivity.
      * rewrite IH. replace (0 + dots r) with (dots r) by lia. lia.
Qed.

Lemma dval_app : forall a b n, dval n (a ++ b) = dval (dval n a) b.
Proof.
  induction a as [ | c r IH ]; intros b n; cbn [dval app]; [ reflexivity | ].
  destruct ((c =? 95) || (c =? 46)); apply IH.
Qed.

Lemma dval_lead : forall l, Forall lead_char l -> dval 0 l = 0.
Proof.
  induction l as [ | c r IH ]; intro H; cbn [dval]; [ reflexivity | ].
  inversion H as [ | ? ? Hc Hr ]; subst. unfold lead_char in Hc.
  destruct ((c =? 95) || (c =? 46)) eqn:E; [ auto | ].
  replace (10 * 0 + (c - 48)) with 0 by lia. auto.
Qed.

Lemma fcnt_true : forall l, dots l = 0 -> fcnt true l = dcnt l.
Proof.
  induction l as [ | c r IH ]; intro H; cbn [fcnt dcnt dots] in *; [ reflexivity | ].
  pose proof (dots_nonneg r). destruct (c =? 95) eqn:E1; cbn [orb].
  - apply IH. destruct (c =? 46); lia.
  - destruct (c =? 46) eqn:E2; [ lia | ]. rewrite IH by lia. reflexivity.
Qed.

Lemma fcnt_false : forall l, dots l = 0 -> fcnt false l = 0.
Proof.
  induction l as [ | c r IH ]; intro H; cbn [fcnt dots] in *; [ reflexivity | ].
  pose proof (dots_nonneg r). destruct (c =? 95) eqn:E1.
  - apply IH. destruct (c =? 46); lia.
  - destruct (c =? 46) eqn:E2; [ lia | ]. rewrite IH by lia. reflexivity.
Qed.

Lemma lead_loop_ok : forall l dexp dot d' dot' l2, dot = -1 \/ dot = 0 ->
  lead_loop dexp dot l = (d', dot', l2) ->
  exists z, l = z ++ l2 /\ Forall lead_char z /\ dot' = (if 0 <? dots z then 0 else dot) /\
    d' = dexp - fcnt (0 <=? dot) z /\
    match l2 with [] => True | c :: _ => ~ lead_char c end.
Proof.
  induction l as [ | c r IH ]; intros dexp dot d' dot' l2 Hdot H; cbn [lead_loop] in H.
  - assert (d' = dexp /\ dot' = dot /\ l2 = []) as (-> & -> & ->) by (repeat split; congruence).
    exists []. cbn. repeat split; auto. lia.
  - destruct (c =? 95) eqn:E1; [ | destruct (c =? 48) eqn:E2; [ | destruct (c =? 46) eqn:E3 ] ].
    + destruct (IH _ _ _ _ _ Hdot H) as (z & -> & Hz & -> & -> & Hl).
      exists (c :: z). cbn [app dots fcnt]. rewrite E1. replace (c =? 46) with false by lia.
      repeat split; auto. constructor; [ unfold lead_char; lia | assumption ].
    + destruct (IH _ _ _ _ _ Hdot H) as (z & -> & Hz & -> & -> & Hl).
      exists (c :: z). cbn [app dots fcnt]. rewrite E1. replace (c =? 46) with false by lia.
      repeat split; auto.
      * constructor; [ unfold lead_char; lia | assumption ].
      * destruct (0 <=? dot); lia.
    + destruct (IH _ 0 _ _ _ (or_intror eq_refl) H) as (z & -> & Hz & -> & -> & Hl).
      exists (c :: z). cbn [app dots fcnt]. rewrite E1, E3. pose proof (dots_nonneg z).
      replace (0 <? 1 + dots z) with true by lia.
      repeat split; auto.
      * constructor; [ unfold lead_char; lia | assumption ].
      * destruct (0 <? dots z); reflexivity.
    + assert (d' = dexp /\ dot' = dot /\ l2 = c :: r) as (-> & -> & ->) by (repeat split; congruence).
      exists []. cbn [app dots fcnt]. repeat split; auto.
      * lia.
      * unfold lead_char. lia.
Qed.

Definition exp_head (x : list Z) : Prop :=
  match x with [] => True | c :: _ => c = 101 \/ c = 69 end.

Lemma scan_loop_fwd : forall b num dot x, Forall body_char b -> exp_head x -> 0 <= num ->
  dots b = 0 \/ (dot = -1 /\ dots b <= 1) -> -1 <= dot ->
  exists d2, scan_loop num dot (b ++ x) = Some (num + dcnt b, d2, b, x) /\
    if 0 <? dots b then 0 <= d2 /\ d2 - (num + dcnt b) = - fcnt false b else d2 = dot.
Proof.
  induction b as [ | c r IH ]; intros num dot x Hb Hx Hn Hd Hdot; cbn [app dcnt dots].
  - exists dot. change (0 <? 0) with false. split; [ | reflexivity ].
    rewrite Z.add_0_r. destruct x as [ | c r ]; [ reflexivity | ]. cbn [exp_head] in Hx. cbn [scan_loop].
    replace ((48 <=? c) && (c <=? 57)) with false by lia.
    replace ((c =? 101) || (c =? 69)) with true by lia. reflexivity.
  - inversion Hb as [ | ? ? Hc Hr ]; subst. unfold body_char in Hc.
    cbn [scan_loop dots fcnt] in *. pose proof (dots_nonneg r) as Hdn.
    destruct ((48 <=? c) && (c <=? 57)) eqn:E1.
    + replace (c =? 95) with false by lia. replace (c =? 46) with false in * by lia. cbn [orb].
      destruct (IH (num + 1) dot x Hr Hx ltac:(lia) ltac:(lia) Hdot) as (d2 & -> & Hd2).
      exists d2. replace (num + 1 + dcnt r) with (num + (1 + dcnt r)) in * by lia.
      split; [ reflexivity | ]. change (0 + dots r) with (dots r).
      destruct (0 <? dots r); [ | assumption ]. lia.
    + replace ((c =? 101) || (c =? 69)) with false by lia.
      destruct (c =? 95) eqn:E2.
      * replace (c =? 46) with false in * by lia. cbn [orb].
        destruct (IH num dot x Hr Hx ltac:(lia) ltac:(lia) Hdot) as (d2 & -> & Hd2).
        exists d2. split; [ reflexivity | ]. change (0 + dots r) with (dots r). assumption.
      * replace (c =? 46) with true in * by lia. cbn [orb].
        assert (dot = -1) by lia. subst dot. cbn [negb Z.eqb]. change (-1 =? -1) with true. cbn [negb].
        destruct (IH num num x Hr Hx ltac:(lia) ltac:(lia) ltac:(lia)) as (d2 & -> & Hd2).
        replace (0 <? dots r) with false in Hd2 by lia. subst d2.
        exists num. split; [ reflexivity | ]. replace (0 <? 1 + dots r) with true by lia.
        rewrite fcnt_true by lia. lia.
Qed.

Lemma digits_body : forall l v n, digits_of 10 l v n -> Forall body_char l /\ dots l = 0 /\ dval v l = n /\
  digit_count l = dcnt l.
Proof.
  intros l v n H. induction H as [ v | l v m H IH | c d l v m Hc Hd H IH ].
  - repeat split; constructor.
  - destruct IH as (I1 & I2 & I3 & I4). cbn [dots dval dcnt digit_count]. change (95 =? 95) with true. change (95 =? 46) with false.
    cbn [orb]. repeat split; auto. constructor; [ left; reflexivity | assumption ].
  - destruct IH as (I1 & I2 & I3 & I4). cbn [dots dval dcnt digit_count].
    assert (Hr : 48 <= c <= 57 /\ d = c - 48) by (destruct Hc; lia). destruct Hr as [Hr ->].
    replace (c =? 95) with false by lia. replace (c =? 46) with false by lia. cbn [orb].
    repeat split; auto.
    + constructor; [ unfold body_char; lia | assumption ].
    + rewrite <- I3. f_equal. lia.
    + lia.
Qed.

Lemma float_body : forall a fr b n, frac_text fr b -> digits_of 10 (a ++ b) 0 n ->
  Forall body_char (a ++ fr) /\ dots (a ++ fr) <= 1 /\ dval 0 (a ++ fr) = n /\ fcnt false (a ++ fr) = digit_count b.
Proof.
  intros a fr b n Hf Hd. destruct (digits_body _ _ _ Hd) as (H1 & H2 & H3 & _).
  assert (Hb : digit_count b = dcnt b).
  { clear - Hd. revert Hd. generalize 0 as v. induction a as [ | c r IH ]; intros v Hd.
    - exact (proj2 (proj2 (proj2 (digits_body _ _ _ Hd)))).
    - cbn [app] in Hd. inversion Hd; subst; eauto. }
  apply Forall_app in H1. destruct H1 as [Ha Hbb]. rewrite dots_app in H2.
  pose proof (dots_nonneg a). pose proof (dots_nonneg b).
  destruct Hf.
  - rewrite app_nil_r in *. repeat split; auto; [ lia | ]. cbn [digit_count]. apply fcnt_false. lia.
  - repeat split.
    + apply Forall_app. split; [ assumption | ]. constructor; [ unfold body_char; lia | assumption ].
    + rewrite dots_app. cbn [dots]. change (46 =? 46) with true. cbv iota. lia.
    + rewrite dval_app in *. cbn [dval]. exact H3.
    + rewrite fcnt_app, fcnt_false by lia. cbn [fcnt]. change (46 =? 95) with false. change (46 =? 46) with true.
      cbv iota. rewrite fcnt_true by lia. lia.
Qed.

Lemma exp_part_ok : forall xs x, exp_text xs x -> -324 <= x <= 308 -> exp_part xs = inl x /\ exp_head xs.
Proof.
  intros xs x H Hx. destruct H as [ | c t neg r m Hc Ht Hf ]; [ split; [ reflexivity | exact I ] | ].
  split; [ | exact Hc ]. unfold exp_part.
  pose proof (int_text_nonneg _ _ _ _ Ht) as Hm.
  destruct t as [ | c1 t ].
  - destruct Ht as (s & p & body & E & _ & _ & Hb & _). symmetry in E. apply app_eq_nil in E. destruct E as [_ E].
    apply app_eq_nil in E. destruct E. contradiction.
  - rewrite (parse_int_text _ _ _ _ Ht). apply fits_mag in Hf; [ | exact Hm ].
    replace (m <=? mag_max r neg) with true by lia.
    rewrite (finish_int_value neg r m Hm Hf).
    + replace ((308 <? literal_value neg r m) || (literal_value neg r m <? -324)) with false by lia. reflexivity.
    + intros [-> ->]. unfold literal_value, signed in Hx.
      assert (s64 (- 2 ^ 63) = - 2 ^ 63) as E by (vm_compute; reflexivity). rewrite E in Hx.
      destruct (r =? 10); lia.
Qed.

Lemma exp_part_range : forall xs x, exp_text xs x -> ~ (-324 <= x <= 308) ->
  (exp_part xs = inr DExpRange \/ exp_part xs = inr DUB) /\ exp_head xs.
Proof.
  intros xs x H Hx. destruct H as [ | c t neg r m Hc Ht Hf ]; [ lia | ].
  split; [ | exact Hc ]. unfold exp_part.
  pose proof (int_text_nonneg _ _ _ _ Ht) as Hm.
  destruct t as [ | c1 t ].
  - destruct Ht as (s & p & body & E & _ & _ & Hb & _). symmetry in E. apply app_eq_nil in E. destruct E as [_ E].
    apply app_eq_nil in E. destruct E. contradiction.
  - rewrite (parse_int_text _ _ _ _ Ht). apply fits_mag in Hf; [ | exact Hm ].
    replace (m <=? mag_max r neg) with true by lia.
    destruct (andb neg (m =? 2 ^ 63)) eqn:Eub.
    + right. apply andb_prop in Eub. destruct Eub as [-> Em]. assert (m = 2 ^ 63) by lia. subst m. vm_compute. reflexivity.
    + left. rewrite (finish_int_value neg r m Hm Hf) by (intros [-> ->]; cbn in Eub; discriminate Eub).
      replace ((308 <? literal_value neg r m) || (literal_value neg r m <? -324)) with true by lia. reflexivity.
Qed.

(* What the parser does with a number text, up to the exponent part. *)
Lemma parse_double_shape : forall l neg n f x, float_text l neg n f x ->
  exists xs, exp_text xs x /\
  (forall r, exp_part xs = inr r -> parse_double l = r) /\
  (exp_part xs = inl x ->
    let sign := if neg then 1 else 0 in
    if n =? 0 then parse_double l = DOk (sign * 2 ^ 63)
    else exists n' e0 j, parse_double l = finish_dbl sign (scale (n' * 2 ^ (63 - e0), e0) (x - f + j)) /\
      0 <= j /\ 0 <= n' * 10 ^ j - n /\ 2 ^ 55 * (n' * 10 ^ j - n) <= n /\
      0 <= e0 <= 61 /\ 2 ^ e0 <= n' < 2 ^ (e0 + 1) /\
      (n < 10 * 2 ^ 54 -> j = 0 /\ n' = n)) /\ 0 <= n.
Proof.
  intros l neg n f x (s & a & fr & b & xs & -> & Hne & Hs & Hf & Hx & Hd & ->).
  exists xs. split; [ exact Hx | ].
  destruct (float_body a fr b n Hf Hd) as (Hb & Hdots & Hv & Hfc).
  rewrite (app_assoc a) in Hne |- *. set (bd := a ++ fr) in *. clearbody bd. clear Hd Hf.
  assert (Hxh : exp_head xs) by (destruct Hx; [ exact I | assumption ]).
  assert (Hn0 : 0 <= n).
  { pose proof (dval_range bd 0 Hb ltac:(lia)). rewrite Hv in *. lia. }
  assert (Hsp : split_sign (s ++ bd ++ xs) = (neg, bd ++ xs)).
  { destruct Hs; try reflexivity. cbn [app].
    assert (Hh : match bd ++ xs with [] => True | c :: _ => c <> 45 /\ c <> 43 end).
    { destruct bd as [ | c bd ]; cbn [app].
      - destruct xs as [ | c xs ]; [ exact I | ]. cbn [exp_head] in Hxh. lia.
      - inversion Hb as [ | ? ? Hc _ ]; subst. unfold body_char in Hc. lia. }
    destruct (bd ++ xs) as [ | c r ]; [ reflexivity | ]. cbn [split_sign].
    replace (c =? 45) with false by lia. replace (c =? 43) with false by lia. reflexivity. }
  destruct (s ++ bd ++ xs) as [ | c0 r0 ] eqn:Etext.
  { apply app_eq_nil in Etext. destruct Etext as [_ Etext]. contradiction. }
  unfold parse_double. rewrite Hsp. clear Etext Hsp c0 r0.
  destruct (bd ++ xs) as [ | c0 r0 ] eqn:Etext; [ contradiction | ]. rewrite <- Etext.
  clear Hne.
  destruct (lead_loop 0 (-1) (bd ++ xs)) as [[dexp dot] l2] eqn:El. clear c0 r0 Etext.
  destruct (lead_loop_ok _ _ _ _ _ _ (or_introl eq_refl) El) as (z & Ez & Hz & -> & -> & Hl2). clear El.
  change (0 <=? -1) with false.
  assert (Hsplit : exists b2, bd = z ++ b2 /\ l2 = b2 ++ xs).
  { clear - Ez Hz Hxh. revert bd Ez. induction z as [ | c z IH ]; intros bd Ez.
    - exists bd. split; [ reflexivity | ]. symmetry. exact Ez.
    - inversion Hz as [ | ? ? Hc Hz' ]; subst. destruct bd as [ | c1 bd ].
      + cbn [app] in Ez. subst xs. cbn [exp_head] in Hxh. unfold lead_char in Hc. lia.
      + cbn [app] in Ez. assert (c1 = c /\ bd ++ xs = z ++ l2) as [-> E2] by (split; congruence).
        destruct (IH Hz' bd E2) as (b2 & -> & ->). exists b2. split; reflexivity. }
  destruct Hsplit as (b2 & -> & ->). clear Ez.
  apply Forall_app in Hb. destruct Hb as [_ Hb2].
  rewrite dval_app, (dval_lead z Hz) in Hv. rewrite dots_app in Hdots. rewrite fcnt_app in Hfc. cbn [orb] in Hfc.
  pose proof (dots_nonneg z) as Hdz. pose proof (dots_nonneg b2) as Hdb.
  destruct (scan_loop_fwd b2 0 (if 0 <? dots z then 0 else -1) xs Hb2 Hxh ltac:(lia)) as (d2 & Hscan & Hd2).
  { destruct (0 <? dots z) eqn:?; lia. }
  { destruct (0 <? dots z); lia. }
  rewrite Z.add_0_l in Hscan, Hd2.
  (* the decimal exponent *)
  assert (Hexp : forall e, (if 0 <=? d2 then 0 - fcnt false z + e + (d2 - dcnt b2) else 0 - fcnt false z + e) = e - digit_count b).
  { intro e. rewrite <- Hfc.
    destruct (0 <? dots z) eqn:Ez.
    - replace (0 <? dots b2) with false in Hd2 by lia. subst d2. change (0 <=? 0) with true. cbv iota.
      rewrite fcnt_true by lia. lia.
    - rewrite (fcnt_false z) by lia. destruct (0 <? dots b2) eqn:Eb.
      + replace (0 <=? d2) with true by lia. lia.
      + subst d2. change (0 <=? -1) with false. cbv iota. rewrite fcnt_false by lia. lia. }
  destruct b2 as [ | c b2 ].
  - (* only zeroes *)
    cbn [dval] in Hv. subst n. cbn [app] in *. cbn [dcnt] in *.
    destruct xs as [ | cx xt ].
    + split; [ intros r Er; discriminate Er | ]. split; [ | exact Hn0 ]. intros _. cbv zeta.
      change (0 =? 0) with true. cbv iota. apply finish_zero. destruct neg; auto.
    + rewrite Hscan. split; [ intros r ->; reflexivity | ]. split; [ | exact Hn0 ]. intros ->. cbv zeta.
      change (0 =? 0) with true. cbn [negb]. apply finish_zero. destruct neg; auto.
  - inversion Hb2 as [ | ? ? Hc Hb3 ]; subst. clear Hb2. unfold body_char in Hc.
    cbn [app] in Hl2. unfold lead_char in Hl2.
    assert (Hcd : 49 <= c <= 57) by lia.
    cbn [app] in *.
    rewrite Hscan.
    assert (Hdc : dcnt (c :: b2) = 1 + dcnt b2).
    { cbn [dcnt]. replace ((c =? 95) || (c =? 46)) with false by lia. reflexivity. }
    assert (Hdv : dval 0 (c :: b2) = dval (c - 48) b2).
    { cbn [dval]. replace ((c =? 95) || (c =? 46)) with false by lia. reflexivity. }
    pose proof (dcnt_nonneg b2) as Hcn.
    split; [ intros r ->; reflexivity | ]. split; [ | exact Hn0 ]. intros ->. cbv zeta.
    assert (Hnz : 0 < dval 0 (c :: b2)).
    { rewrite Hdv. pose proof (dval_range b2 (c - 48) Hb3 ltac:(lia)).
      assert (0 < 10 ^ dcnt b2) by (apply pow10_pos; lia). nia. }
    replace (dval 0 (c :: b2) =? 0) with false by lia.
    replace (dcnt (c :: b2) =? 0) with false by lia. cbn [negb].
    rewrite Hexp.
    destruct (first_digit_ok (c - 48) ltac:(lia)) as (e & Hfd & He & Her).
    assert (Hstart : digit_loop (dcnt (c :: b2)) 0 (x - digit_count b) (0, 0) (c :: b2) =
                     digit_loop (dcnt (c :: b2)) 1 (x - digit_count b) ((c - 48) * 2 ^ (63 - e), e) b2).
    { cbn [digit_loop]. replace ((c =? 95) || (c =? 46)) with false by lia. cbn [fst snd].
      change (0 =? 0) with true. cbv iota. rewrite Hfd. reflexivity. }
    rewrite Hstart.
    destruct (digit_loop_ok b2 (dcnt (c :: b2)) 1 (x - digit_count b) (c - 48) e Hb3 ltac:(lia) He Hdc)
      as (n' & e' & j & -> & Hj & Hn' & He' & R1 & R2 & R3).
    rewrite Hdv. exists n', e', j. split; [ reflexivity | ]. auto 10.
Qed.
