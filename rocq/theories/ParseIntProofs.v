From Coq Require Import ZArith List Bool Lia ZifyBool.
From Verif Require Import Base ParseIntModel ParseIntSpec.
Import ListNotations.
Open Scope Z_scope.
Ltac Zify.zify_post_hook ::= Z.div_mod_to_equations.

Lemma digit_char_of : forall c d, digit_char c d -> d = digit_of c /\ c <> 95.
Proof.
  intros c d H; destruct H; unfold digit_of; split; try lia;
    repeat match goal with |- context [if ?b then _ else _] => destruct b eqn:? end; lia.
Qed.

Definition radix_ok (r : Z) : Prop := r = 10 \/ r = 16 \/ r = 2.

Lemma char_ok_spec : forall r c, radix_ok r ->
  char_ok r c = true <-> (c = 95 \/ (digit_char c (digit_of c) /\ 0 <= digit_of c < r)).
Proof.
  intros r c Hr. split.
  - intros H. destruct (Z.eq_dec c 95); [ now left | right ].
    destruct Hr as [ -> | [ -> | -> ] ]; unfold char_ok in H; cbn [Z.eqb Pos.eqb] in H.
    + assert (48 <= c <= 57) by lia. unfold digit_of. replace (c <=? 57) with true by lia.
      split; [ now constructor | lia ].
    + unfold digit_of. destruct (c <=? 57) eqn:E1.
      { split; [ constructor; lia | lia ]. }
      destruct (c <? 97) eqn:E2.
      { split; [ replace (c - 65 + 10) with (c - 55) by lia; constructor; lia | lia ]. }
      split; [ replace (c - 97 + 10) with (c - 87) by lia; apply dc_lower; lia | lia ].
    + assert (48 <= c <= 49) by lia. unfold digit_of. replace (c <=? 57) with true by lia.
      split; [ constructor; lia | lia ].
  - intros [ -> | [Hd Hlt] ].
    + destruct Hr as [ -> | [ -> | -> ] ]; reflexivity.
    + remember (digit_of c) as d. clear Heqd. destruct Hr as [ -> | [ -> | -> ] ]; unfold char_ok;
        cbn [Z.eqb Pos.eqb]; destruct Hd; lia.
Qed.

(* Body without overflow considerations. *)
Lemma digits_det : forall r l v m1 m2, digits_of r l v m1 -> digits_of r l v m2 -> m1 = m2.
Proof.
  intros r l v m1 m2 H1. revert m2. induction H1; intros m2 H2; inversion H2; subst; auto.
  - match goal with H : digit_char 95 _ |- _ => apply digit_char_of in H; lia end.
  - match goal with H : digit_char 95 _ |- _ => apply digit_char_of in H; lia end.
  - apply digit_char_of in H. apply IHdigits_of.
    match goal with H' : digit_char c d0 |- _ => apply digit_char_of in H' end.
    replace d with d0 by lia. assumption.
Qed.

Lemma digits_chars : forall r l v m, radix_ok r -> digits_of r l v m -> forallb (char_ok r) l = true.
Proof.
  intros r l v m Hr H. induction H; cbn [forallb]; auto.
  - rewrite IHdigits_of, andb_true_r. apply char_ok_spec; auto.
  - rewrite IHdigits_of, andb_true_r. apply char_ok_spec; auto. right.
    destruct (digit_char_of c d H) as [ E _ ]. rewrite <- E. split; [ assumption | ].
    destruct H; lia.
Qed.

Lemma chars_digits : forall r l, radix_ok r -> forallb (char_ok r) l = true ->
  forall v, exists m, digits_of r l v m.
Proof.
  intros r l Hr. induction l; cbn [forallb]; intros H v.
  - exists v. constructor.
  - apply andb_true_iff in H. destruct H as [Hc Hl].
    apply char_ok_spec in Hc; auto. destruct Hc as [ -> | [Hd Hlt] ].
    + destruct (IHl Hl v) as [m Hm]. exists m. now constructor.
    + destruct (IHl Hl (v * r + digit_of a)) as [m Hm]. exists m. econstructor; eauto. lia.
Qed.

Lemma digits_mono : forall r l v m, radix_ok r -> 0 <= v -> digits_of r l v m -> v <= m.
Proof.
  intros r l v m Hr Hv H. induction H; auto; try lia.
  assert (0 <= d) by (destruct H; lia).
  assert (v <= v * r + d) by (destruct Hr as [ -> | [ -> | -> ] ]; lia).
  assert (v * r + d <= m) by (apply IHdigits_of; lia). lia.
Qed.

(* Largest magnitude the accumulation accepts. *)
Definition mag_max (r : Z) (minus : bool) : Z :=
  if r =? 10 then (if minus then 2 ^ 63 else 2 ^ 63 - 1) else 2 ^ 64 - 1.

Lemma vmax_10 : vmax 10 = 922337203685477580. Proof. reflexivity. Qed.
Lemma vmax_16 : vmax 16 = 1152921504606846975. Proof. reflexivity. Qed.
Lemma vmax_2 : vmax 2 = 9223372036854775807. Proof. reflexivity. Qed.

Lemma step_bound : forall r minus v d, radix_ok r -> 0 <= v -> 0 <= d < r ->
  (v * r + d <= mag_max r minus <-> (v <= vmax r /\ (v = vmax r -> d <= dmax r minus))).
Proof.
  intros r minus v d Hr Hv Hd.
  destruct Hr as [ -> | [ -> | -> ] ]; rewrite ?vmax_10, ?vmax_16, ?vmax_2;
    unfold mag_max, dmax; cbn [Z.eqb Pos.eqb]; destruct minus; 
    change (2 ^ 63) with 9223372036854775808; change (2 ^ 64) with 18446744073709551616; lia.
Qed.

Lemma mag_max_u64 : forall r minus, mag_max r minus < 2 ^ 64.
Proof. intros. unfold mag_max. destruct (r =? 10), minus; reflexivity. Qed.

Lemma acc_loop_spec : forall r minus l v m, radix_ok r -> 0 <= v -> v <= mag_max r minus ->
  digits_of r l v m ->
  acc_loop r minus v l = if m <=? mag_max r minus then Some m else None.
Proof.
  intros r minus l v m Hr Hv Hm H. induction H; cbn [acc_loop].
  - replace (v <=? mag_max r minus) with true by lia. reflexivity.
  - rewrite Z.eqb_refl. auto.
  - destruct (digit_char_of c d H) as [E Hc]. rewrite <- E.
    replace (c =? 95) with false by lia.
    assert (Hd : 0 <= d < r) by (destruct H; lia).
    pose proof (step_bound r minus v d Hr Hv Hd) as B.
    assert (0 <= v * r + d) by (destruct Hr as [ -> | [ -> | -> ] ]; lia).
    pose proof (digits_mono r l (v * r + d) m Hr ltac:(lia) H1) as Hmono.
    destruct (v >? vmax r) eqn:E1.
    { replace (m <=? mag_max r minus) with false by lia. reflexivity. }
    destruct ((v =? vmax r) && (d >? dmax r minus)) eqn:E2.
    { replace (m <=? mag_max r minus) with false by lia. reflexivity. }
    assert (Hs : v * r + d <= mag_max r minus) by (apply B; lia).
    pose proof (mag_max_u64 r minus).
    replace (u64 (v * r + d)) with (v * r + d).
    + apply IHdigits_of; lia.
    + unfold u64, uwrap. rewrite Z.mod_small; lia.
Qed.

(* Splitting the text. *)
Lemma int_text_split : forall l neg r m,
  int_text l neg r m ->
  exists l1 body, split_sign l = (neg, l1) /\ split_radix l1 = (r, body) /\ radix_ok r /\
                  body <> [] /\ digits_of r body 0 m.
Proof.
  intros l neg r m (s & p & body & -> & Hs & Hp & Hb & Hd).
  exists (p ++ body), body.
  assert (Hr : radix_ok r) by (unfold radix_ok; destruct Hp; auto).
  pose proof (digits_chars r body 0 m Hr Hd) as Hc.
  destruct body as [ | c body ]; [ congruence | ].
  cbn [forallb] in Hc. apply andb_true_iff in Hc. destruct Hc as [Hc Hc'].
  split; [ | split; [ | auto ] ].
  - destruct Hs; cbn [app split_sign Z.eqb Pos.eqb]; try reflexivity.
    destruct Hp; cbn [app split_sign Z.eqb Pos.eqb]; try reflexivity.
    unfold char_ok in Hc. cbn [Z.eqb Pos.eqb] in Hc.
    replace (c =? 45) with false by lia. replace (c =? 43) with false by lia. reflexivity.
  - destruct Hp; cbn [app split_radix].
    + destruct body as [ | c2 [ | c3 body ] ]; try reflexivity.
      destruct (c =? 48); try reflexivity.
      cbn [forallb] in Hc'. apply andb_true_iff in Hc'. destruct Hc' as [Hc2 _].
      unfold char_ok in Hc2. cbn [Z.eqb Pos.eqb] in Hc2.
      replace ((c2 =? 120) || (c2 =? 88)) with false by lia.
      replace ((c2 =? 98) || (c2 =? 66)) with false by lia. reflexivity.
    + destruct H as [ -> | -> ]; reflexivity.
    + destruct H as [ -> | -> ]; reflexivity.
Qed.

Lemma split_sign_text : forall l neg l1, split_sign l = (neg, l1) ->
  exists s, l = s ++ l1 /\ sign_text s neg.
Proof.
  intros l neg l1 H. destruct l as [ | c r ]; cbn [split_sign] in H.
  - injection H as <- <-. exists []. split; [ reflexivity | constructor ].
  - destruct (c =? 45) eqn:E1; [ | destruct (c =? 43) eqn:E2 ]; injection H as <- <-.
    + exists [45]. replace c with 45 by lia. split; [ reflexivity | constructor ].
    + exists [43]. replace c with 43 by lia. split; [ reflexivity | constructor ].
    + exists []. split; [ reflexivity | constructor ].
Qed.

Lemma split_radix_text : forall l r body, split_radix l = (r, body) ->
  exists p, l = p ++ body /\ radix_text p r.
Proof.
  intros l r body H.
  assert (D : (10, l) = (r, body) -> exists p, l = p ++ body /\ radix_text p r).
  { intros E. injection E as <- <-. exists []. split; [ reflexivity | constructor ]. }
  destruct l as [ | a [ | b [ | c l ] ] ]; cbn [split_radix] in H; auto.
  destruct (a =? 48) eqn:E1; auto.
  destruct ((b =? 120) || (b =? 88)) eqn:E2.
  { injection H as <- <-. exists [48; b]. replace a with 48 by lia. split; [ reflexivity | ].
    constructor. lia. }
  destruct ((b =? 98) || (b =? 66)) eqn:E3; auto.
  injection H as <- <-. exists [48; b]. replace a with 48 by lia. split; [ reflexivity | ].
  constructor. lia.
Qed.

Lemma radix_text_ok : forall p r, radix_text p r -> radix_ok r.
Proof. intros p r H; unfold radix_ok; destruct H; auto. Qed.

(* The parser as a function of the denotation. *)
Lemma parse_int_text : forall l neg r m, int_text l neg r m ->
  parse_int l = if m <=? mag_max r neg then finish_int neg m else PError.
Proof.
  intros l neg r m H.
  destruct (int_text_split l neg r m H) as (l1 & body & E1 & E2 & Hr & Hb & Hd).
  unfold parse_int. rewrite E1, E2.
  rewrite (digits_chars r body 0 m Hr Hd).
  destruct body as [ | c body ]; [ congruence | ]. cbn [negb orb].
  rewrite (acc_loop_spec r neg (c :: body) 0 m Hr); auto; try lia.
  - destruct (m <=? mag_max r neg); reflexivity.
  - unfold mag_max. destruct (r =? 10), neg; discriminate.
Qed.

Lemma parse_int_not_text : forall l, (forall neg r m, ~ int_text l neg r m) -> parse_int l = PError.
Proof.
  intros l H. unfold parse_int.
  destruct (split_sign l) as [neg l1] eqn:E1. destruct (split_radix l1) as [r body] eqn:E2.
  destruct (split_sign_text _ _ _ E1) as (s & -> & Hs).
  destruct (split_radix_text _ _ _ E2) as (p & -> & Hp).
  destruct (forallb (char_ok r) body) eqn:E3; [ | reflexivity ].
  destruct body as [ | c body ]; [ reflexivity | ].
  exfalso.
  destruct (chars_digits r (c :: body) (radix_text_ok _ _ Hp) E3 0) as [m Hm].
  apply (H neg r m). exists s, p, (c :: body). repeat split; auto. discriminate.
Qed.

Lemma int_text_det : forall l n1 r1 m1 n2 r2 m2, int_text l n1 r1 m1 -> int_text l n2 r2 m2 ->
  n1 = n2 /\ r1 = r2 /\ m1 = m2.
Proof.
  intros l n1 r1 m1 n2 r2 m2 H1 H2.
  destruct (int_text_split _ _ _ _ H1) as (l1 & b1 & E1 & E2 & Hr & _ & D1).
  destruct (int_text_split _ _ _ _ H2) as (l2 & b2 & E3 & E4 & _ & _ & D2).
  rewrite E1 in E3. injection E3 as <- <-. rewrite E2 in E4. injection E4 as <- <-.
  repeat split; auto. eapply digits_det; eauto.
Qed.

Lemma int_text_nonneg : forall l neg r m, int_text l neg r m -> 0 <= m.
Proof.
  intros l neg r m H. destruct (int_text_split _ _ _ _ H) as (l1 & b1 & E1 & E2 & Hr & _ & D1).
  eapply digits_mono; eauto. lia.
Qed.

Lemma int_text_radix : forall l neg r m, int_text l neg r m -> radix_ok r.
Proof. intros l neg r m H. destruct (int_text_split _ _ _ _ H) as (l1 & b1 & E1 & E2 & Hr & _). auto. Qed.

Lemma fits_mag : forall neg r m, 0 <= m -> (literal_fits neg r m <-> m <= mag_max r neg).
Proof.
  intros neg r m Hm. unfold literal_fits, mag_max, is_int64, signed, INT64_MIN, INT64_MAX.
  change (2 ^ 63) with 9223372036854775808; change (2 ^ 64) with 18446744073709551616.
  destruct (r =? 10), neg; lia.
Qed.

Lemma finish_int_value : forall neg r m, 0 <= m -> m <= mag_max r neg ->
  ~ (neg = true /\ m = 2 ^ 63) -> finish_int neg m = PVal (literal_value neg r m).
Proof.
  intros neg r m Hm Hmax Hub.
  unfold finish_int, literal_value, mag_max, signed, s64, swrap, INT64_MIN in *.
  cbv zeta.
  change (2 ^ (64 - 1)) with 9223372036854775808 in *.
  change (2 ^ 63) with 9223372036854775808 in *; change (2 ^ 64) with 18446744073709551616 in *.
  assert (Hne : neg = true -> m <> 9223372036854775808) by intuition.
  assert (Hlt : m < 18446744073709551616) by (destruct (r =? 10), neg; lia).
  rewrite (Z.mod_small m) by lia.
  destruct neg.
  - specialize (Hne eq_refl).
    destruct (m <? 9223372036854775808) eqn:E1.
    + replace (m =? Z.opp 9223372036854775808) with false by lia.
      destruct (r =? 10) eqn:Er; [ reflexivity | ].
      destruct (Z.eq_dec m 0) as [ -> | Hnz ]; [ reflexivity | ].
      replace ((- m) mod 18446744073709551616) with (18446744073709551616 - m) by lia.
      replace (18446744073709551616 - m <? 9223372036854775808) with false by lia. f_equal. lia.
    + replace (m - 18446744073709551616 =? Z.opp 9223372036854775808) with false by lia.
      destruct (r =? 10) eqn:Er; [ lia | ].
      replace ((- m) mod 18446744073709551616) with (18446744073709551616 - m) by lia.
      replace (18446744073709551616 - m <? 9223372036854775808) with true by lia. f_equal. lia.
  - destruct (r =? 10) eqn:Er; [ | rewrite (Z.mod_small m) by lia; reflexivity ].
    replace (m <? 9223372036854775808) with true by lia. reflexivity.
Qed.

(* Printing. *)
Lemma dec_digits_spec : forall fuel n acc v m, 0 <= v ->
  0 <= n < 2 ^ Z.of_nat fuel ->
  (forall w, 0 <= w -> w = n -> digits_of 10 acc w m) -> v = 0 ->
  digits_of 10 (dec_digits fuel n acc) v m.
Proof.
  induction fuel; intros n acc v m Hv Hn Hacc Hz; cbn [dec_digits].
  - change (2 ^ Z.of_nat 0) with 1 in Hn. apply Hacc; lia.
  - assert (Hp : 2 ^ Z.of_nat (S fuel) = 2 * 2 ^ Z.of_nat fuel) by
      (rewrite Nat2Z.inj_succ, Z.pow_succ_r; lia).
    assert (Hd : digit_char (48 + n mod 10) (n mod 10)).
    { replace (n mod 10) with (48 + n mod 10 - 48) at 2 by lia. constructor. lia. }
    destruct (n / 10 =? 0) eqn:E.
    + econstructor; [ exact Hd | lia | ]. apply Hacc; lia.
    + apply IHfuel; [ lia | lia | | assumption ].
      intros w Hw ->. econstructor; [ exact Hd | lia | ]. apply Hacc; lia.
Qed.

Lemma dec_digits_nonempty : forall fuel n acc, acc <> [] \/ fuel <> O -> dec_digits fuel n acc <> [].
Proof.
  induction fuel; intros n acc H; cbn [dec_digits].
  - destruct H; congruence.
  - destruct (n / 10 =? 0); [ discriminate | ]. apply IHfuel. left. discriminate.
Qed.

Lemma log2_fuel : forall n, 0 <= n -> 0 <= n < 2 ^ Z.of_nat (S (Z.to_nat (Z.log2 n))).
Proof.
  intros n Hn. rewrite Nat2Z.inj_succ, Z2Nat.id by apply Z.log2_nonneg.
  destruct (Z.eq_dec n 0) as [ -> | ]; [ cbn; lia | ].
  pose proof (Z.log2_spec n ltac:(lia)). lia.
Qed.

Lemma int_to_str_text : forall v, int_text (int_to_str v) (v <? 0) 10 (Z.abs v).
Proof.
  intros v. unfold int_to_str, int_text.
  assert (Hd : forall n, 0 <= n -> digits_of 10 (dec_digits (S (Z.to_nat (Z.log2 n))) n []) 0 n).
  { intros n Hn. apply dec_digits_spec; try lia.
    - apply log2_fuel; lia.
    - intros w Hw ->. constructor. }
  destruct (v <? 0) eqn:E.
  - exists [45], [], (dec_digits (S (Z.to_nat (Z.log2 (- v)))) (- v) []).
    repeat split; try constructor.
    + apply dec_digits_nonempty. right. discriminate.
    + replace (Z.abs v) with (- v) by lia. apply Hd. lia.
  - exists [], [], (dec_digits (S (Z.to_nat (Z.log2 v))) v []).
    repeat split; try constructor.
    + apply dec_digits_nonempty. right. discriminate.
    + replace (Z.abs v) with v by lia. apply Hd. lia.
Qed.
