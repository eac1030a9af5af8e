From Coq Require Import ZArith List Lia Bool ZifyBool.
Import ListNotations.
From Verif Require Import Base ListZ IterModel IterSpec IterProofs2 ParseIntModel ParseIntSpec ParseIntProofs.
Local Open Scope Z_scope.
Ltac Zify.zify_post_hook ::= Z.div_mod_to_equations.

(* ---- hex ---- *)

Lemma hex_text_snoc : forall k v, 0 <= v -> hex_text (S k) v = hex_text k (v / 16) ++ [hex_char (v mod 16)].
Proof.
  intros k v Hv. unfold hex_text. replace (seq 0 (S k)) with (seq 0 k ++ [k]) by (rewrite seq_S; reflexivity).
  rewrite map_app. cbn [map]. f_equal.
  - apply map_ext_in. intros i Hi. apply in_seq in Hi. f_equal.
    replace (S k - 1 - i)%nat with (S (k - 1 - i)) by lia.
    rewrite Nat2Z.inj_succ, Z.pow_succ_r by lia. rewrite Z.div_div by (try apply Z.pow_pos_nonneg; lia). reflexivity.
  - replace (S k - 1 - k)%nat with O by lia. cbn [Z.of_nat Z.pow]. change (16 ^ 0) with 1. rewrite Z.div_1_r. reflexivity.
Qed.
Lemma hex_text_len : forall k v, length (hex_text k v) = k.
Proof. intros. unfold hex_text. rewrite map_length, seq_length. reflexivity. Qed.

Lemma hex_text_pad : forall j k v, 0 <= v < 16 ^ Z.of_nat k -> hex_text (j + k) v = repeat 48 j ++ hex_text k v.
Proof.
  intros j k. revert j. induction k as [|k IH]; intros j v Hv.
  - change (16 ^ Z.of_nat 0) with 1 in Hv. assert (v = 0) by lia. subst v. rewrite Nat.add_0_r.
    induction j as [|j IHj]; [ reflexivity | ]. rewrite hex_text_snoc by lia.
    change (0 / 16) with 0. rewrite IHj. unfold hex_text. cbn [seq map]. rewrite !app_nil_r.
    change (hex_char (0 mod 16)) with 48. rewrite <- repeat_cons. reflexivity.
  - rewrite Nat2Z.inj_succ, Z.pow_succ_r in Hv by lia.
    rewrite Nat.add_succ_r, !hex_text_snoc by lia. rewrite IH by lia. rewrite app_assoc. reflexivity.
Qed.

Lemma put_last : forall n x t, put (repeat 0 (S n) ++ t) (Z.of_nat n) x = Some (repeat 0 n ++ x :: t).
Proof.
  intros n x t. unfold put, slen. rewrite app_length, repeat_length.
  destruct (_ && _) eqn:E; [ | lia ]. rewrite Nat2Z.id. cbn [repeat]. rewrite repeat_cons, <- app_assoc. cbn [app].
  rewrite <- (repeat_length 0 n) at 2. rewrite set_at_app. reflexivity.
Qed.

Lemma digit_nth : forall value, nth (Z.to_nat (Z.land value 15)) hex_digits 0 = hex_char (u64 value mod 16).
Proof.
  intros value. change 15 with (Z.ones 4). rewrite Z.land_ones by lia.
  replace (u64 value mod 16) with (value mod 16) by (unfold u64, uwrap; change (2 ^ 64) with (16 * 2 ^ 60); lia).
  change (2 ^ 4) with 16.
  assert (H : 0 <= value mod 16 < 16) by lia. revert H. generalize (value mod 16) as d. intros d H.
  assert (C : d = 0 \/ d = 1 \/ d = 2 \/ d = 3 \/ d = 4 \/ d = 5 \/ d = 6 \/ d = 7 \/ d = 8 \/ d = 9 \/ d = 10 \/ d = 11 \/ d = 12 \/ d = 13 \/ d = 14 \/ d = 15) by lia.
  repeat destruct C as [->|C]; try reflexivity. subst d. reflexivity.
Qed.

Lemma hex_loop_ok : forall fuel value n tail, 0 <= u64 value < 16 ^ Z.of_nat fuel -> (fuel <= S n)%nat -> (0 < fuel)%nat ->
  exists k, hex_loop fuel (repeat 0 (S n) ++ tail) value (Z.of_nat n) =
            Some (repeat 0 (S n - k) ++ hex_text k (u64 value) ++ tail, Z.of_nat n - Z.of_nat k) /\
    (1 <= k <= fuel)%nat /\ u64 value < 16 ^ Z.of_nat k /\ (k = 1%nat \/ 16 ^ Z.of_nat (k - 1) <= u64 value).
Proof.
  induction fuel as [|fuel IH]; intros value n tail Hv Hf Hf0; [ lia | ].
  cbn [hex_loop]. rewrite put_last, digit_nth.
  set (v := u64 value) in *. assert (Hv64 : 0 <= v < 2 ^ 64) by (unfold v, u64, uwrap; lia). clearbody v.
  assert (Es : s64 (v / 16) = v / 16) by (clear - Hv64; unfold s64, swrap, uwrap; change (2 ^ (64 - 1)) with 9223372036854775808; change (2 ^ 64) with 18446744073709551616 in *; destruct (_ <? _) eqn:?; lia).
  assert (Eu : u64 (v / 16) = v / 16) by (unfold u64, uwrap; lia).
  rewrite Es. destruct (Z.eqb_spec (v / 16) 0) as [H0|H0].
  - exists 1%nat. split; [ | split; [ lia | split; [ change (16 ^ Z.of_nat 1) with 16; lia | left; reflexivity ] ] ].
    rewrite hex_text_snoc by lia. replace (S n - 1)%nat with n by lia. reflexivity.
  - destruct fuel as [|fuel].
    { exfalso. change (16 ^ Z.of_nat 1) with 16 in Hv. lia. }
    destruct n as [|n]; [ lia | ].
    rewrite (Nat2Z.inj_succ (S fuel)), Z.pow_succ_r in Hv by lia.
    specialize (IH (v / 16) n (hex_char (v mod 16) :: tail)). rewrite Eu in IH.
    destruct IH as (k & K1 & K2 & K3 & K4); [ lia | lia | lia | ].
    replace (Z.of_nat (S n) - 1) with (Z.of_nat n) by lia. rewrite K1.
    exists (S k). split; [ | split; [ lia | split ] ].
    + rewrite hex_text_snoc by lia. rewrite <- app_assoc. cbn [app]. do 2 f_equal. lia.
    + rewrite Nat2Z.inj_succ, Z.pow_succ_r by lia. lia.
    + right. replace (S k - 1)%nat with k by lia. destruct K4 as [->|K4].
      * change (16 ^ Z.of_nat 1) with 16. lia.
      * replace (Z.of_nat k) with (Z.succ (Z.of_nat (k - 1))) by lia. rewrite Z.pow_succ_r by lia. lia.
Qed.

Lemma pad_loop_ok : forall fuel n target tail, (Z.of_nat n - target <= Z.of_nat fuel) -> -1 <= target ->
  let j := Z.to_nat (Z.max 0 (Z.of_nat n - target)) in
  pad_loop fuel (repeat 0 (S n) ++ tail) (Z.of_nat n) target =
    Some (repeat 0 (S n - j) ++ repeat 48 j ++ tail, Z.of_nat n - Z.of_nat j).
Proof.
  induction fuel as [|fuel IH]; intros n target tail Hf Ht j.
  - cbn [pad_loop]. destruct (Z.leb_spec (Z.of_nat n) target); [ | lia ].
    replace j with O by lia. rewrite Nat.sub_0_r. cbn [repeat app]. do 2 f_equal. lia.
  - cbn [pad_loop]. destruct (Z.leb_spec (Z.of_nat n) target) as [H|H].
    + replace j with O by lia. rewrite Nat.sub_0_r. cbn [repeat app]. do 2 f_equal. lia.
    + rewrite put_last. destruct n as [|n].
      * assert (target = -1) by lia. subst target. replace j with 1%nat by lia.
        cbn [repeat app]. destruct fuel; cbn [pad_loop]; reflexivity.
      * replace (Z.of_nat (S n) - 1) with (Z.of_nat n) by lia. rewrite IH by lia.
        replace j with (S (Z.to_nat (Z.max 0 (Z.of_nat n - target)))) by lia.
        set (i := Z.to_nat (Z.max 0 (Z.of_nat n - target))).
        replace (S (S n) - S i)%nat with (S n - i)%nat by lia. do 2 f_equal; [ | lia ].
        f_equal. cbn [repeat]. rewrite repeat_cons, <- app_assoc. reflexivity.
Qed.

Lemma hex_ok : forall value md, is_int64 value -> 0 <= md <= 16 ->
  exists k, hex value md = Some ([48; 120] ++ hex_text k (u64 value)) /\
    (1 <= k <= 16)%nat /\ md <= Z.of_nat k /\ u64 value < 16 ^ Z.of_nat k /\
    (k = 1%nat \/ Z.of_nat k = md \/ 16 ^ Z.of_nat (k - 1) <= u64 value).
Proof.
  intros value md Hv Hmd. unfold hex. destruct (_ || _) eqn:E; [ lia | ]. clear E.
  assert (Hu : 0 <= u64 value < 2 ^ 64) by (unfold u64, uwrap; lia).
  destruct (hex_loop_ok 17 value 17 []) as (k & K1 & K2 & K3 & K4).
  { change (16 ^ Z.of_nat 17) with (16 * 2 ^ 64). lia. } { lia. } { lia. }
  rewrite app_nil_r in K1. change (Z.of_nat 17) with 17 in K1. change (repeat 0 18) with (repeat 0 (S 17)). rewrite K1.
  assert (Hk16 : (k <= 16)%nat).
  { destruct (Nat.eq_dec k 17) as [->|]; [ | lia ]. destruct K4 as [K4|K4]; [ lia | ].
    change (16 ^ Z.of_nat (17 - 1)) with (2 ^ 64) in K4. lia. }
  clear K1. rewrite app_nil_r.
  replace (18 - k)%nat with (S (17 - k)) by lia. replace (17 - Z.of_nat k) with (Z.of_nat (17 - k)) by lia.
  rewrite (pad_loop_ok 18 (17 - k) (17 - md) (hex_text k (u64 value))) by lia.
  set (j := Z.to_nat (Z.max 0 (Z.of_nat (17 - k) - (17 - md)))).
  assert (Hj : (k + j <= 16)%nat /\ md <= Z.of_nat (k + j) /\ (j = 0%nat \/ Z.of_nat (k + j) = md)) by lia. clearbody j.
  rewrite <- hex_text_pad by lia.
  replace (S (17 - k) - j)%nat with (S (17 - k - j)) by lia.
  replace (Z.of_nat (17 - k) - Z.of_nat j) with (Z.of_nat (17 - k - j)) by lia.
  rewrite put_last. destruct (17 - k - j)%nat as [|i] eqn:Ei; [ lia | ].
  replace (Z.of_nat (S i) - 1) with (Z.of_nat i) by lia. rewrite put_last. rewrite Nat2Z.id.
  rewrite skipn_app, repeat_length, Nat.sub_diag. cbn [skipn].
  rewrite skipn_all2 by (rewrite repeat_length; lia). cbn [app].
  exists (j + k)%nat. split; [ reflexivity | ]. split; [ lia | ]. split; [ lia | ].
  assert (Hle : 16 ^ Z.of_nat k <= 16 ^ Z.of_nat (j + k)) by (apply Z.pow_le_mono_r; lia).
  split; [ lia | ]. destruct Hj as (_ & _ & [->|Hj]); [ | right; left; lia ].
  cbn [Nat.add]. tauto.
Qed.

Lemma hex_char_digit : forall d, 0 <= d < 16 -> digit_char (hex_char d) d.
Proof.
  intros d H. unfold hex_char. destruct (Z.ltb_spec d 10).
  - replace d with (48 + d - 48) at 2 by lia. constructor. lia.
  - replace d with (87 + d - 87) at 2 by lia. constructor. lia.
Qed.
Lemma hex_text_value : forall k v w l m, 0 <= v < 16 ^ Z.of_nat k -> digits_of 16 l (w * 16 ^ Z.of_nat k + v) m ->
  digits_of 16 (hex_text k v ++ l) w m.
Proof.
  induction k as [|k IH]; intros v w l m Hv Hd.
  - change (16 ^ Z.of_nat 0) with 1 in *. cbn. replace w with (w * 1 + v) by lia. exact Hd.
  - rewrite Nat2Z.inj_succ, Z.pow_succ_r in * by lia. rewrite hex_text_snoc by lia. rewrite <- app_assoc.
    apply IH; [ lia | ]. cbn [app]. apply do_digit with (d := v mod 16); [ apply hex_char_digit; lia | lia | ].
    replace ((w * 16 ^ Z.of_nat k + v / 16) * 16 + v mod 16) with (w * (16 * 16 ^ Z.of_nat k) + v); [ exact Hd | ].
    rewrite (Z.div_mod v 16) at 1 by lia. ring.
Qed.

Lemma hex_parses : forall value md, is_int64 value -> 0 <= md <= 16 ->
  exists t, hex value md = Some t /\ parse_int t = PVal value.
Proof.
  intros value md Hv Hmd. destruct (hex_ok value md Hv Hmd) as (k & E & Hk & _ & Hu & _).
  assert (Hu0 : 0 <= u64 value < 2 ^ 64) by (unfold u64, uwrap; lia).
  exists ([48; 120] ++ hex_text k (u64 value)). split; [ exact E | ].
  assert (T : int_text ([48; 120] ++ hex_text k (u64 value)) false 16 (u64 value)).
  { exists [], [48; 120], (hex_text k (u64 value)). split; [ reflexivity | ]. split; [ constructor | ].
    split; [ apply rt_hex; left; reflexivity | ]. split.
    - intros H. apply (f_equal (@length Z)) in H. rewrite hex_text_len in H. cbn in H. lia.
    - rewrite <- (app_nil_r (hex_text k (u64 value))). apply hex_text_value; [ lia | ]. cbn [Z.mul]. rewrite Z.add_0_l. constructor. }
  rewrite (parse_int_text _ _ _ _ T). unfold mag_max. change (16 =? 10) with false. cbv iota.
  destruct (Z.leb_spec (u64 value) (2 ^ 64 - 1)); [ | lia ]. cbn [finish_int]. f_equal.
  clear - Hv. unfold is_int64, INT64_MIN, INT64_MAX in Hv. unfold s64, u64, swrap, uwrap. rewrite Z.mod_mod by lia.
  change (2 ^ (64 - 1)) with 9223372036854775808. change (2 ^ 63) with 9223372036854775808 in *. change (2 ^ 64) with 18446744073709551616.
  cbv zeta. destruct (_ <? _) eqn:?; lia.
Qed.

(* ---- join ---- *)
Lemma put_pieces_app : forall A (l : list (list A)) pre r i, i = Z.of_nat (length pre) ->
  put_pieces (pre ++ r) i l = pre ++ put_pieces r 0 l.
Proof.
  assert (G : forall A (l : list (list A)) pre r i j, i = Z.of_nat (length pre) + j -> 0 <= j ->
     put_pieces (pre ++ r) i l = pre ++ put_pieces r j l).
  { induction l as [|x l IH]; intros pre r i j Hi Hj; [ reflexivity | ]. cbn [put_pieces].
    replace (set_at (pre ++ r) (Z.to_nat i) x) with (pre ++ set_at r (Z.to_nat j) x).
    - apply IH; lia.
    - replace (Z.to_nat i) with (length pre + Z.to_nat j)%nat by lia. clear.
      induction pre; cbn; [ reflexivity | f_equal; assumption ]. }
  intros. apply G; lia.
Qed.

Lemma join_ok : forall A (sep : list A) l, join sep l = join_text sep l.
Proof.
  intros A sep l. unfold join, slen. destruct l as [|x l]; [ reflexivity | ].
  replace (Z.to_nat (if 0 <? Z.of_nat (length (x :: l)) * 2 - 1 then Z.of_nat (length (x :: l)) * 2 - 1 else 0))
    with (1 + 2 * length l)%nat by (cbn [length]; destruct (_ <? _) eqn:?; lia).
  cbn [join_text]. revert x. induction l as [|y l IH]; intros x; [ cbn; reflexivity | ].
  replace (1 + 2 * length (y :: l))%nat with (S (S (1 + 2 * length l))) by (cbn [length]; lia).
  cbn [repeat]. change (put_pieces (sep :: sep :: repeat sep (1 + 2 * length l)) 0 (x :: y :: l))
    with (put_pieces ([x; sep] ++ repeat sep (1 + 2 * length l)) 2 (y :: l)).
  rewrite put_pieces_app by reflexivity. cbn [app concat]. rewrite IH. cbn [flat_map]. rewrite <- app_assoc. reflexivity.
Qed.
