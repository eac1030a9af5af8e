(* C03, C35: integer text parsing and printing. *)
From Coq Require Import ZArith List Bool Lia ZifyBool.
From Verif Require Import Base ParseIntModel ParseIntSpec ParseIntProofs.
Import ListNotations.
Open Scope Z_scope.

(* A text is accepted iff it is an integer literal which fits, and the result
   is the literal's value.  The literals with a minus sign and magnitude 2^63
   are handled by parse_int_min_refuted below. *)
Theorem parse_int_correct : forall l,
  (forall r, ~ int_text l true r (2 ^ 63)) ->
  match parse_int l with
  | PVal v => exists neg r m, int_text l neg r m /\ literal_fits neg r m /\ v = literal_value neg r m
  | PError => forall neg r m, int_text l neg r m -> ~ literal_fits neg r m
  | PUB _ => False
  end.
Proof.
  intros l Hub.
  destruct (parse_int l) as [ v | | w ] eqn:E.
  - assert (Hex : exists neg r m, int_text l neg r m).
    { unfold parse_int in E.
      destruct (split_sign l) as [neg l1] eqn:E1. destruct (split_radix l1) as [r body] eqn:E2.
      destruct (split_sign_text _ _ _ E1) as (s & -> & Hs).
      destruct (split_radix_text _ _ _ E2) as (p & -> & Hp).
      destruct (forallb (char_ok r) body) eqn:E3; [ | discriminate ].
      destruct body as [ | c body ]; [ discriminate | ].
      destruct (chars_digits r (c :: body) (radix_text_ok _ _ Hp) E3 0) as [m Hm].
      exists neg, r, m. exists s, p, (c :: body). repeat split; auto. discriminate. }
    destruct Hex as (neg & r & m & Ht). exists neg, r, m.
    pose proof (int_text_nonneg _ _ _ _ Ht) as Hm.
    rewrite (parse_int_text _ _ _ _ Ht) in E.
    destruct (m <=? mag_max r neg) eqn:E1; [ | discriminate ].
    split; [ assumption | ]. split; [ apply fits_mag; lia | ].
    rewrite (finish_int_value neg r m) in E; try lia.
    + congruence.
    + intros [ -> -> ]. exact (Hub r Ht).
  - intros neg r m Ht Hf. pose proof (int_text_nonneg _ _ _ _ Ht) as Hm.
    rewrite (parse_int_text _ _ _ _ Ht) in E.
    apply fits_mag in Hf; [ | lia ].
    replace (m <=? mag_max r neg) with true in E by lia.
    rewrite (finish_int_value neg r m) in E; try lia; [ discriminate | ].
    intros [ -> -> ]. exact (Hub r Ht).
  - assert (Hex : exists neg r m, int_text l neg r m).
    { unfold parse_int in E.
      destruct (split_sign l) as [neg l1] eqn:E1. destruct (split_radix l1) as [r body] eqn:E2.
      destruct (split_sign_text _ _ _ E1) as (s & -> & Hs).
      destruct (split_radix_text _ _ _ E2) as (p & -> & Hp).
      destruct (forallb (char_ok r) body) eqn:E3; [ | discriminate ].
      destruct body as [ | c body ]; [ discriminate | ].
      destruct (chars_digits r (c :: body) (radix_text_ok _ _ Hp) E3 0) as [m Hm].
      exists neg, r, m. exists s, p, (c :: body). repeat split; auto. discriminate. }
    destruct Hex as (neg & r & m & Ht).
    rewrite (parse_int_text _ _ _ _ Ht) in E.
    destruct (m <=? mag_max r neg) eqn:E1; [ | discriminate ].
    rewrite (finish_int_value neg r m) in E; try lia; [ discriminate | | ].
    + exact (int_text_nonneg _ _ _ _ Ht).
    + intros [ -> -> ]. exact (Hub r Ht).
Qed.

(* The reading of a text is unique, so the value above is the only candidate. *)
Theorem int_text_unambiguous : forall l n1 r1 m1 n2 r2 m2,
  int_text l n1 r1 m1 -> int_text l n2 r2 m2 -> n1 = n2 /\ r1 = r2 /\ m1 = m2.
Proof. exact int_text_det. Qed.

(* "-0x7F_ff" *)
Example parse_int_ex_hex : parse_int [45; 48; 120; 55; 70; 95; 102; 102] = PVal (-32767)
  /\ (forall r, ~ int_text [45; 48; 120; 55; 70; 95; 102; 102] true r (2 ^ 63)).
Proof.
  split; [ reflexivity | ]. intros r H.
  pose proof (parse_int_text _ _ _ _ H) as E.
  unfold mag_max in E. destruct (r =? 10); vm_compute in E; discriminate.
Qed.
(* "9223372036854775807" is the largest decimal, one more is refused. *)
Example parse_int_ex_max :
  parse_int [57;50;50;51;51;55;50;48;51;54;56;53;52;55;55;53;56;48;55] = PVal INT64_MAX /\
  parse_int [57;50;50;51;51;55;50;48;51;54;56;53;52;55;55;53;56;48;56] = PError.
Proof. split; vm_compute; reflexivity. Qed.

(* "-9223372036854775808" is a fitting literal, yet the parser negates INT64_MIN. *)
Theorem parse_int_min_refuted : exists l r,
  int_text l true r (2 ^ 63) /\ literal_fits true r (2 ^ 63) /\ parse_int l = PUB INT64_MIN.
Proof.
  exists (int_to_str INT64_MIN), 10. split; [ | split ].
  - exact (int_to_str_text INT64_MIN).
  - vm_compute. split; discriminate.
  - vm_compute. reflexivity.
Qed.

(* A text made of separators only is accepted as the number 0. *)
Theorem parse_int_requires_digit_refuted : exists l,
  (forall c, In c l -> c = 95) /\ l <> [] /\ parse_int l = PVal 0.
Proof.
  exists [95; 95]. split; [ | split ]; [ | discriminate | reflexivity ].
  intros c [ <- | [ <- | [] ] ]; reflexivity.
Qed.

(* C35: printing then parsing gives the number back. *)
Theorem int_print_parse : forall v, INT64_MIN < v <= INT64_MAX -> parse_int (int_to_str v) = PVal v.
Proof.
  intros v Hv. pose proof (int_to_str_text v) as Ht.
  rewrite (parse_int_text _ _ _ _ Ht).
  assert (Hf : literal_fits (v <? 0) 10 (Z.abs v)).
  { unfold literal_fits, signed, is_int64. cbn [Z.eqb Pos.eqb]. unfold INT64_MIN, INT64_MAX in *.
    destruct (v <? 0) eqn:E; lia. }
  apply fits_mag in Hf; [ | lia ].
  replace (Z.abs v <=? mag_max 10 (v <? 0)) with true by lia.
  rewrite (finish_int_value (v <? 0) 10 (Z.abs v)); try lia.
  - f_equal. unfold literal_value, signed. cbn [Z.eqb Pos.eqb]. destruct (v <? 0) eqn:E; lia.
  - unfold INT64_MIN in *. intros [ A B ]. lia.
Qed.

(* The printed text never contains the characters which make kos_parse_numeric
   choose the floating-point parser. *)
Theorem int_print_is_integer : forall v, is_integer (int_to_str v) = true.
Proof.
  assert (D : forall fuel n acc, is_integer acc = true -> 0 <= n -> is_integer (dec_digits fuel n acc) = true).
  { induction fuel; intros n acc H Hn; cbn [dec_digits]; auto.
    assert (Hs : is_integer ((48 + n mod 10) :: acc) = true).
    { cbn [is_integer]. pose proof (Z.mod_pos_bound n 10 ltac:(lia)).
      replace ((48 + n mod 10 =? 120) || (48 + n mod 10 =? 88) || (48 + n mod 10 =? 98) || (48 + n mod 10 =? 66))
        with false by lia.
      replace ((48 + n mod 10 =? 46) || (48 + n mod 10 =? 101) || (48 + n mod 10 =? 69)) with false by lia.
      assumption. }
    destruct (n / 10 =? 0); auto. apply IHfuel; auto. apply Z.div_pos; lia. }
  intros v. unfold int_to_str. destruct (v <? 0) eqn:E.
  - cbn [is_integer Z.eqb Pos.eqb orb]. apply D; [ reflexivity | lia ].
  - apply D; [ reflexivity | lia ].
Qed.

Example int_print_ex : int_to_str (-1000) = [45; 49; 48; 48; 48] /\ int_to_str 0 = [48].
Proof. split; reflexivity. Qed.

Print Assumptions parse_int_correct.
Print Assumptions int_text_unambiguous.
Print Assumptions parse_int_min_refuted.
Print Assumptions parse_int_requires_digit_refuted.
Print Assumptions int_print_parse.
Print Assumptions int_print_is_integer.
