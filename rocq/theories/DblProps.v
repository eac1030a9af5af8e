(* C34, C102, C103: floating-point text parsing. *)
From Coq Require Import ZArith Znumtheory List Lia Bool ZifyBool.
Import ListNotations.
From Verif Require Import Base ParseIntModel ParseIntSpec DblModel DblSpec
  DblProofs DblProofs2 DblProofs3 DblProofs4 DblProofs5 DblProofs6.
Local Open Scope Z_scope.
Ltac Zify.zify_post_hook ::= idtac.

Definition sign_bit (neg : bool) : Z := if neg then 2 ^ 63 else 0.

(* Every number text whose exponent part is between -324 and 308 is read as a
   double less than one unit in the last place from the written value, or
   refused because it overflows.  The two exceptions are inside `accurate`: next
   to the smallest normal number the result may be zero, next to 2^1024 it may
   be infinity. *)
Theorem parse_double_within_ulp_partial : forall l neg n f x,
  float_text l neg n f x -> -324 <= x <= 308 ->
  match parse_double l with
  | DOk bits => exists mag, bits = sign_bit neg + mag /\ 0 <= mag <= dbl_inf /\ accurate mag n (x - f)
  | DTooBig => overflows n (x - f)
  | _ => False
  end.
Proof.
  intros l neg n f x Ht Hx.
  destruct (parse_double_shape _ _ _ _ _ Ht) as (xs & Hxs & _ & H & Hn).
  destruct (exp_part_ok _ _ Hxs Hx) as [Hxp _]. specialize (H Hxp). cbv zeta in H.
  assert (Hsb : sign_bit neg = (if neg then 1 else 0) * 2 ^ 63) by (destruct neg; reflexivity).
  destruct (n =? 0) eqn:E.
  - rewrite H. exists 0. split; [ lia | ]. split; [ unfold dbl_inf; lia | ].
    left. split; [ unfold dbl_inf; lia | ]. assert (n = 0) by lia. subst n.
    unfold within_ulp. destruct (decode_denormal 0 ltac:(lia)) as [-> ->].
    unfold dec_num. pose proof (dec_den_pos (x - f)). rewrite !Z.mul_0_l. cbn [Z.sub Z.abs Z.opp Z.add]. lia.
  - destruct H as (n' & e0 & j & -> & Hj & H1 & H2 & He0 & Hn' & _).
    pose proof (scale_good (if neg then 1 else 0) n n' e0 j (x - f) ltac:(destruct neg; auto) ltac:(lia) Hj H1 H2 He0 Hn') as G.
    destruct (finish_dbl _ _); cbn [good_result] in G; try contradiction; [ | exact G ].
    rewrite Hsb. exact G.
Qed.

(* A short text, whose scaling by powers of ten is exact, is read as the
   nearest double; if it has at most 53 significant bits it is read exactly. *)
Theorem parse_double_nearest_partial : forall l neg n f x,
  float_text l neg n f x -> -324 <= x <= 308 -> 0 < n < 10 * 2 ^ 54 ->
  (f <= x /\ 5 ^ (x - f) * n < 2 ^ 64) \/ (x < f /\ (5 ^ (f - x) | n)) ->
  exists mag, parse_double l = DOk (sign_bit neg + mag) /\ 0 <= mag < dbl_inf /\
    nearest_even mag n (x - f) /\
    (n * 5 ^ Z.max (x - f) 0 < 2 ^ 53 * 5 ^ Z.max (f - x) 0 -> dbl_mag mag * dec_den (x - f) = dec_num n (x - f)).
Proof.
  intros l neg n f x Ht Hx Hn Hs.
  destruct (parse_double_shape _ _ _ _ _ Ht) as (xs & Hxs & _ & H & _).
  destruct (exp_part_ok _ _ Hxs Hx) as [Hxp _]. specialize (H Hxp). cbv zeta in H.
  assert (Hsb : sign_bit neg = (if neg then 1 else 0) * 2 ^ 63) by (destruct neg; reflexivity).
  replace (n =? 0) with false in H by lia.
  destruct H as (n' & e0 & j & -> & Hj & _ & _ & He0 & Hn' & Hex).
  destruct (Hex ltac:(lia)) as [-> ->]. rewrite Z.add_0_r.
  destruct (scale_nearest (if neg then 1 else 0) n (x - f) e0) as (mag & H1 & H2 & H3 & H4).
  - destruct neg; auto.
  - lia.
  - symmetry. apply log2_eq; lia.
  - destruct Hs as [[Hs1 Hs2] | [Hs1 Hs2]]; [ left; split; [ lia | assumption ] | right; split; [ lia | ] ].
    replace (- (x - f)) with (f - x) by lia. assumption.
  - exists mag. rewrite Hsb. split; [ exact H1 | ]. split; [ exact H2 | ]. split; [ exact H3 | ].
    replace (- (x - f)) with (f - x) in H4 by lia. exact H4.
Qed.

(* ---- concrete texts ---- *)

(* A text without exponent, given its digits before and after the dot. *)
Lemma float_text_dot : forall a b, Forall body_char (a ++ b) -> dots (a ++ b) = 0 -> 
  float_text (a ++ 46 :: b) false (dval 0 (a ++ b)) (digit_count b) 0.
Proof.
  intros a b Hb Hd. exists [], a, (46 :: b), b, []. rewrite app_nil_r. cbn [app].
  repeat split; try constructor.
  - destruct a; discriminate.
  - apply body_digits; assumption.
Qed.

(* The same with a decimal exponent. *)
Lemma float_text_exp : forall a b s t neg, Forall body_char (a ++ b) -> dots (a ++ b) = 0 ->
  Forall body_char t -> dots t = 0 -> t <> [] -> sign_text s neg -> is_int64 (signed neg (dval 0 t)) ->
  float_text (a ++ 46 :: b ++ 101 :: s ++ t) false (dval 0 (a ++ b)) (digit_count b) (signed neg (dval 0 t)).
Proof.
  intros a b s t neg Hb Hd Ht Hdt Hne Hs Hf.
  exists [], a, (46 :: b), b, (101 :: s ++ t). cbn [app].
  repeat split; try constructor.
  - destruct a; discriminate.
  - assert (E : signed neg (dval 0 t) = literal_value neg 10 (dval 0 t)) by reflexivity.
    rewrite E. apply et_some.
    + left. reflexivity.
    + exists s, [], t. repeat split; auto; [ constructor | apply body_digits; assumption ].
    + exact Hf.
  - apply body_digits; assumption.
Qed.

Ltac body_chars := repeat (apply Forall_cons; [ unfold body_char; lia | ]); apply Forall_nil.

(* "0.375" *)
Example parse_double_0375 : parse_double [48; 46; 51; 55; 53] = DOk 4600427019358961664 /\
  dbl_mag 4600427019358961664 * 1000 = 375 * 2 ^ 1074.
Proof. split; vm_compute; reflexivity. Qed.

Example parse_double_0375_text : float_text [48; 46; 51; 55; 53] false 375 3 0 /\ (5 ^ (3 - 0) | 375).
Proof.
  split; [ apply (float_text_dot [48] [51; 55; 53]); [ body_chars | reflexivity ] | exists 3; reflexivity ].
Qed.

(* "6.02214076e23" is within one unit of the value written. *)
Example parse_double_avogadro :
  parse_double [54; 46; 48; 50; 50; 49; 52; 48; 55; 54; 101; 50; 51] = DOk 4962933279127225623 /\
  within_ulp 4962933279127225623 602214076 15.
Proof. split; vm_compute; reflexivity. Qed.

(* "1e309" and "1e-324" *)
Example parse_double_big : parse_double [49; 101; 51; 48; 57] = DExpRange /\
  parse_double [49; 55; 101; 51; 48; 55] = DOk 9218378953502702454 /\
  parse_double [57; 57; 101; 51; 48; 56] = DTooBig /\
  parse_double [49; 101; 45; 51; 50; 52] = DOk 0.
Proof. repeat (apply conj; [ vm_compute; reflexivity | ]). vm_compute; reflexivity. Qed.

(* "36028797018963972.0" lies in the middle of two doubles and is not read as
   the even one, because the eighteenth digit 0 is replaced by a 5. *)
Theorem parse_double_nearest_refuted : exists l n f x mag,
  float_text l false n f x /\ -324 <= x <= 308 /\ parse_double l = DOk mag /\ ~ nearest_even mag n (x - f).
Proof.
  exists [51; 54; 48; 50; 56; 55; 57; 55; 48; 49; 56; 57; 54; 51; 57; 55; 50; 46; 48],
    360287970189639720, 1, 0, 4854880398305394689.
  split; [ apply (float_text_dot [51; 54; 48; 50; 56; 55; 57; 55; 48; 49; 56; 57; 54; 51; 57; 55; 50] [48]); [ body_chars | reflexivity ] | ].
  split; [ lia | ]. split; [ vm_compute; reflexivity | ].
  intro H. specialize (H 4854880398305394688 ltac:(unfold dbl_inf; lia)). cbv zeta in H.
  destruct H as [H | [_ [H | H]]].
  - vm_compute in H. discriminate.
  - discriminate.
  - discriminate.
Qed.

(* "36028797018963979.5" is below the middle of two doubles and read as the
   upper one: the neighbour is strictly nearer. *)
Theorem parse_double_closest_refuted : exists l n f x mag mag',
  float_text l false n f x /\ -324 <= x <= 308 /\ parse_double l = DOk mag /\ 0 <= mag' < dbl_inf /\
  Z.abs (dbl_mag mag' * dec_den (x - f) - dec_num n (x - f)) < Z.abs (dbl_mag mag * dec_den (x - f) - dec_num n (x - f)).
Proof.
  exists [51; 54; 48; 50; 56; 55; 57; 55; 48; 49; 56; 57; 54; 51; 57; 55; 57; 46; 53],
    360287970189639795, 1, 0, 4854880398305394690, 4854880398305394689.
  split; [ apply (float_text_dot [51; 54; 48; 50; 56; 55; 57; 55; 48; 49; 56; 57; 54; 51; 57; 55; 57] [53]); [ body_chars | reflexivity ] | ].
  split; [ lia | ]. split; [ vm_compute; reflexivity | ]. split; [ unfold dbl_inf; lia | ].
  vm_compute. reflexivity.
Qed.

(* "2.2250738585072012e-308" rounds to the smallest normal number, 2^-1022, but
   is read as zero: the carry out of the denormalized mantissa is lost. *)
Theorem parse_double_denormal_carry_refuted : exists l n f x mag,
  float_text l false n f x /\ -324 <= x <= 308 /\ parse_double l = DOk mag /\
  mag = 0 /\ ~ within_ulp mag n (x - f) /\ nearest_even (2 ^ 52) n (x - f).
Proof.
  exists [50; 46; 50; 50; 53; 48; 55; 51; 56; 53; 56; 53; 48; 55; 50; 48; 49; 50; 101; 45; 51; 48; 56],
    22250738585072012, 16, (-308), 0.
  split. { apply (float_text_exp [50] [50; 50; 53; 48; 55; 51; 56; 53; 56; 53; 48; 55; 50; 48; 49; 50] [45] [51; 48; 56] true);
    try reflexivity; try body_chars; try discriminate; try constructor; vm_compute; discriminate. }
  split; [ lia | ]. split; [ vm_compute; reflexivity | ]. split; [ reflexivity | ].
  split; [ vm_compute; discriminate | ].
  intros mag' Hmag'. cbv zeta.
  assert (Em : dbl_mag (2 ^ 52) = 2 ^ 52) by (vm_compute; reflexivity).
  rewrite Em. change (-308 - 16) with (-324).
  assert (Hb : 2 * Z.abs (2 ^ 52 * dec_den (-324) - dec_num 22250738585072012 (-324)) < dec_den (-324)) by (vm_compute; reflexivity).
  destruct (Z.eq_dec mag' (2 ^ 52)) as [-> | Hne].
  - right. rewrite Em. split; [ reflexivity | left; reflexivity ].
  - left. assert (Hd : dbl_mag mag' <> 2 ^ 52) by (rewrite <- Em; intro E; apply dbl_mag_inj in E; lia).
    pose proof (dec_den_pos (-324)) as D0.
    set (d0 := dec_den (-324)) in *. set (z0 := dec_num _ _) in *. set (v := dbl_mag mag') in *.
    clearbody d0 z0 v. clear - Hb Hd D0.
    assert (v <= 2 ^ 52 - 1 \/ 2 ^ 52 + 1 <= v) by lia.
    assert (v * d0 <= 2 ^ 52 * d0 - d0 \/ 2 ^ 52 * d0 + d0 <= v * d0) by (destruct H; [ left | right ]; nia).
    set (w := v * d0) in *. clearbody w. lia.
Qed.

(* "1.7976931348623159e308" is beyond the largest double; instead of an error
   the result is infinity. *)
Theorem parse_double_overflow_refuted : exists l n f x,
  float_text l false n f x /\ -324 <= x <= 308 /\ overflows n (x - f) /\ parse_double l = DOk dbl_inf.
Proof.
  exists [49; 46; 55; 57; 55; 54; 57; 51; 49; 51; 52; 56; 54; 50; 51; 49; 53; 57; 101; 51; 48; 56],
    17976931348623159, 16, 308.
  split. { apply (float_text_exp [49] [55; 57; 55; 54; 57; 51; 49; 51; 52; 56; 54; 50; 51; 49; 53; 57] [] [51; 48; 56] false);
    try reflexivity; try body_chars; try discriminate; try constructor; vm_compute; discriminate. }
  split; [ lia | ]. split; vm_compute; [ discriminate | reflexivity ].
Qed.

(* An exponent part outside -324..308 is refused whatever the digits are. *)
Theorem parse_double_range : forall l neg n f x,
  float_text l neg n f x -> ~ (-324 <= x <= 308) -> parse_double l = DExpRange \/ parse_double l = DUB.
Proof.
  intros l neg n f x Ht Hx.
  destruct (parse_double_shape _ _ _ _ _ Ht) as (xs & Hxs & H & _).
  destruct (exp_part_range _ _ Hxs Hx) as [[E | E] _]; [ left | right ]; apply H; exact E.
Qed.

(* "0.0001e310" denotes 1e306, which is in range, and is refused. *)
Theorem parse_double_range_refuted : exists l n f x mag,
  float_text l false n f x /\ parse_double l = DExpRange /\ mag < dbl_inf /\ within_ulp mag n (x - f).
Proof.
  exists [48; 46; 48; 48; 48; 49; 101; 51; 49; 48], 1, 4, 310, 9184749379333099561.
  split. { apply (float_text_exp [48] [48; 48; 48; 49] [] [51; 49; 48] false);
    try reflexivity; try body_chars; try discriminate; try constructor; vm_compute; discriminate. }
  split; [ vm_compute; reflexivity | ]. split; [ vm_compute; reflexivity | ].
  vm_compute. reflexivity.
Qed.

(* ---- accepted texts ---- *)

Lemma dots_count : forall l, dots l = Z.of_nat (count_occ Z.eq_dec l 46).
Proof.
  induction l as [ | c r IH ]; [ reflexivity | ]. cbn [dots]. rewrite IH.
  destruct (c =? 46) eqn:E.
  - rewrite count_occ_cons_eq by lia. lia.
  - rewrite count_occ_cons_neq by lia. lia.
Qed.

(* A text with at most one dot is accepted only if it is a number text. *)
Theorem parse_double_accepts_partial : forall l bits,
  parse_double l = DOk bits -> (count_occ Z.eq_dec l 46%Z <= 1)%nat ->
  exists neg n f x, float_text l neg n f x.
Proof.
  intros l bits H Hc. apply accepted_text; [ left; eauto | rewrite dots_count; lia ].
Qed.

Lemma digits_dots : forall r l v m, digits_of r l v m -> dots l = 0.
Proof.
  intros r l v m H. induction H as [ v | l v m H IH | c d l v m Hc Hd H IH ]; cbn [dots].
  - reflexivity.
  - exact IH.
  - replace (c =? 46) with false by (destruct Hc; lia). exact IH.
Qed.

Lemma float_text_dots : forall l neg n f x, float_text l neg n f x -> dots l <= 1.
Proof.
  intros l neg n f x (s & a & fr & b & xs & -> & _ & Hs & Hf & Hx & Hd & _).
  destruct (float_body a fr b n Hf Hd) as (_ & H & _).
  rewrite !dots_app in *.
  assert (dots s = 0) by (destruct Hs; reflexivity).
  assert (dots xs = 0).
  { destruct Hx as [ | c t ng r m Hc (s' & p & body & -> & Hs' & Hp & _ & Hb) _ ]; [ reflexivity | ].
    cbn [dots]. replace (c =? 46) with false by lia. rewrite !dots_app.
    assert (dots s' = 0) by (destruct Hs'; reflexivity).
    assert (dots p = 0).
    { destruct Hp as [ | y Hy | y Hy ]; [ reflexivity | | ]; cbn [dots]; replace (y =? 46) with false by lia; reflexivity. }
    rewrite (digits_dots _ _ _ _ Hb). lia. }
  lia.
Qed.

(* "0..5" is not a number text and is accepted as 0.5. *)
Theorem parse_double_accepts_refuted : exists l bits,
  parse_double l = DOk bits /\ dbl_mag bits * 10 = 5 * 2 ^ 1074 /\ forall neg n f x, ~ float_text l neg n f x.
Proof.
  exists [48; 46; 46; 53], 4602678819172646912.
  split; [ vm_compute; reflexivity | ]. split; [ vm_compute; reflexivity | ].
  intros neg n f x H. apply float_text_dots in H. vm_compute in H. apply H. reflexivity.
Qed.

(* Texts without any digit, such as "." and "_", are accepted as zero. *)
Theorem parse_double_requires_digit_refuted :
  parse_double [46] = DOk 0 /\ parse_double [95] = DOk 0 /\ parse_double [45; 46; 101; 55] = DOk (2 ^ 63).
Proof. repeat (apply conj; [ vm_compute; reflexivity | ]). vm_compute; reflexivity. Qed.

(* ---- the loops ---- *)

Lemma u64_range : forall x, 0 <= u64 x < 2 ^ 64.
Proof. intro x. unfold u64, uwrap. apply Z.mod_pos_bound. lia. Qed.

Lemma mul10_range : forall st d, 0 <= fst (mul10 st d) < 2 ^ 64.
Proof.
  intros [m e] d. unfold mul10. cbv zeta.
  destruct (Z.testbit _ 63); [ apply u64_range | ]. destruct (Z.testbit _ 62); [ apply u64_range | ].
  destruct (Z.testbit _ 61); apply u64_range.
Qed.

Lemma div10_range : forall st, 0 <= fst (div10 st) < 2 ^ 64.
Proof. intros [m e]. unfold div10. cbv zeta. destruct (Z.testbit _ 61); apply u64_range. Qed.

Lemma digit_loop_range : forall l num i dexp st, 0 <= fst st < 2 ^ 64 ->
  0 <= fst (fst (digit_loop num i dexp st l)) < 2 ^ 64.
Proof.
  induction l as [ | c r IH ]; intros num i dexp st Hst; cbn [digit_loop]; [ exact Hst | ].
  destruct ((c =? 95) || (c =? 46)); [ apply IH; exact Hst | ].
  destruct (fst st =? 0); [ apply IH; apply u64_range | ]. cbv zeta.
  destruct (53 <? snd st); [ apply mul10_range | apply IH; apply mul10_range ].
Qed.

Lemma scale_range : forall st dexp, 0 <= fst st < 2 ^ 64 -> 0 <= fst (scale st dexp) < 2 ^ 64.
Proof.
  intros st dexp H. unfold scale.
  assert (H1 : forall k, 0 <= fst (Nat.iter k div10 st) < 2 ^ 64).
  { destruct k; cbn [Nat.iter nat_rect]; [ exact H | apply div10_range ]. }
  assert (H2 : forall k, 0 <= fst (Nat.iter k (fun s => mul10 s 0) st) < 2 ^ 64).
  { destruct k; cbn [Nat.iter nat_rect]; [ exact H | apply mul10_range ]. }
  destruct ((if fst st =? 0 then 0 else dexp) <? 0); [ apply H1 | apply H2 ].
Qed.

(* The loop for denormalized numbers always ends within its bound, so parsing
   any text ends with a double or one of the error codes. *)
Theorem parse_double_total : forall l, parse_double l <> DFuel.
Proof.
  assert (Hfin : forall sign st, 0 <= fst st < 2 ^ 64 -> finish_dbl sign st <> DFuel).
  { intros sign [m e] Hm. cbn [fst] in Hm. unfold finish_dbl. cbn [snd].
    destruct (1023 <? e); [ discriminate | ].
    assert (Hd : exists st', denorm_loop 66 (m, e) = Some st').
    { destruct (Z_le_dec e (-1023)).
      - rewrite (denorm_loop_ok 64) by (try change (Z.of_nat 64) with 64; lia). eauto.
      - rewrite denorm_loop_id by lia. eauto. }
    destruct Hd as [[m' e'] ->]. cbv zeta. destruct (negb _); [ destruct (Z.testbit _ _) | ]; discriminate. }
  intro l. unfold parse_double. destruct l as [ | c r ]; [ discriminate | ].
  destruct (split_sign (c :: r)) as [neg l1]. destruct l1 as [ | c1 r1 ]; [ discriminate | ].
  destruct (lead_loop 0 (-1) (c1 :: r1)) as [[dexp dot] l2].
  destruct l2 as [ | c2 r2 ]; [ apply Hfin; cbn [fst]; lia | ].
  destruct (scan_loop 0 dot (c2 :: r2)) as [[[[num d2] b] x] | ]; [ | discriminate ].
  destruct (exp_part x) as [ e | r' ] eqn:Ex.
  - cbv zeta. destruct (negb (num =? 0)); [ | apply Hfin; cbn [fst]; lia ].
    destruct (digit_loop num 0 _ (0, 0) b) as [st dx] eqn:Ed.
    apply Hfin. apply scale_range.
    pose proof (digit_loop_range b num 0 (if 0 <=? d2 then dexp + e + (d2 - num) else dexp + e) (0, 0) ltac:(cbn [fst]; lia)) as R.
    rewrite Ed in R. exact R.
  - destruct x as [ | y [ | y1 t ] ]; cbn [exp_part] in Ex; try discriminate.
    + congruence.
    + destruct (parse_int (y1 :: t)) as [ v | | w ]; try congruence.
      destruct ((308 <? v) || (v <? -324)); congruence.
Qed.

(* divide_by_10 is only called with the top bit of the mantissa set, and keeps
   it set: its two asserts hold. *)
Theorem divide_asserts : forall m e, 2 ^ 63 <= m < 2 ^ 64 ->
  Z.shiftr ((m - Z.land m 4294967295) / 5) 62 = 0 /\ 2 ^ 63 <= fst (div10 (m, e)) < 2 ^ 64.
Proof.
  intros m e Hm. destruct (div5_words m Hm) as (_ & Hh & _). cbv zeta in Hh.
  destruct (div10_step m e Hm) as (m' & s & -> & Hm' & _).
  split; [ | exact Hm' ]. rewrite Z.shiftr_div_pow2 by lia. apply Z.div_small. exact Hh.
Qed.

Example divide_example : div10 (2 ^ 63, 0) = (14757395258967641293, -4).
Proof. vm_compute. reflexivity. Qed.

Print Assumptions parse_double_within_ulp_partial.
Print Assumptions parse_double_nearest_partial.
Print Assumptions parse_double_nearest_refuted.
Print Assumptions parse_double_closest_refuted.
Print Assumptions parse_double_denormal_carry_refuted.
Print Assumptions parse_double_overflow_refuted.
Print Assumptions parse_double_range.
Print Assumptions parse_double_range_refuted.
Print Assumptions parse_double_accepts_partial.
Print Assumptions parse_double_accepts_refuted.
Print Assumptions parse_double_requires_digit_refuted.
Print Assumptions parse_double_total.
Print Assumptions divide_asserts.
