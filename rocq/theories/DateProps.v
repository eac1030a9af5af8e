(* Dates and times of modules/datetime.kos follow the Gregorian calendar. *)
From Coq Require Import ZArith List Lia Bool ZifyBool SpecFloat.
Import ListNotations.
From Verif Require Import Base ListZ FoldModel FoldProofs DateModel DateSpec DateProofs DateProofs2.
Local Open Scope Z_scope.
Ltac Zify.zify_post_hook ::= idtac.

Lemma chk_ok : forall z, -9223372036854775808 <= z <= 9223372036854775807 -> chk z = Ok z.
Proof.
  intros z H. unfold chk, sint. replace ((INT64_MIN <=? z) && (z <=? INT64_MAX)) with true by (unfold INT64_MIN, INT64_MAX; lia). reflexivity.
Qed.
Lemma iadd_ok : forall a b, -9223372036854775808 <= a + b <= 9223372036854775807 -> iadd a b = Ok (a + b).
Proof. intros. apply chk_ok. assumption. Qed.
Lemma isub_ok : forall a b, -9223372036854775808 <= a - b <= 9223372036854775807 -> isub a b = Ok (a - b).
Proof. intros. apply chk_ok. assumption. Qed.
Lemma imul_ok : forall a b, -9223372036854775808 <= a * b <= 9223372036854775807 -> imul a b = Ok (a * b).
Proof. intros. apply chk_ok. assumption. Qed.

Lemma first_day_ok : forall y, 1970 <= y <= 1000000000 -> first_day_from_year y = Ok (ynum y).
Proof.
  intros y H. unfold first_day_from_year.
  rewrite isub_ok by lia. cbn [bind]. rewrite imul_ok by lia. cbn [bind]. rewrite isub_ok by lia. cbn [bind].
  assert (S2 : vm_shr (y - 1969) 2 = (y - 1969) / 4).
  { change (vm_shr (y - 1969) 2) with (Z.shiftr (y - 1969) 2). rewrite Z.shiftr_div_pow2 by lia. reflexivity. }
  rewrite S2.
  assert (B4 : 0 <= (y - 1969) / 4 <= 1000000000) by (Z.div_mod_to_equations; lia).
  assert (B1 : 0 <= (y - 1901) / 100 <= 1000000000) by (Z.div_mod_to_equations; lia).
  assert (B0 : 0 <= (y - 1601) / 400 <= 1000000000) by (Z.div_mod_to_equations; lia).
  rewrite iadd_ok by lia. cbn [bind]. rewrite isub_ok by lia. cbn [bind]. rewrite Z.quot_div_nonneg by lia. rewrite isub_ok by lia. cbn [bind].
  rewrite isub_ok by lia. cbn [bind]. rewrite Z.quot_div_nonneg by lia. rewrite iadd_ok by lia. reflexivity.
Qed.

(* ------------------------------------------------------------- decoding *)

Lemma split_ts : forall ts, 0 <= ts ->
  let t1 := Z.quot ts 1000000 in let t2 := Z.quot t1 60 in let t3 := Z.quot t2 60 in let n := Z.quot t3 24 in
  Z.rem ts 1000000 = ts mod 1000000 /\ Z.rem t1 60 = ts / 1000000 mod 60 /\ Z.rem t2 60 = ts / 60000000 mod 60 /\
  Z.rem t3 24 = ts / 3600000000 mod 24 /\ n = ts / 86400000000 /\
  ts = instant n (Z.rem t3 24) (Z.rem t2 60) (Z.rem t1 60) (Z.rem ts 1000000).
Proof.
  intros ts H. cbv zeta.
  assert (H1 : 0 <= ts / 1000000) by (apply Z.div_pos; lia).
  rewrite (Z.quot_div_nonneg ts) by lia.
  assert (H2 : 0 <= ts / 1000000 / 60) by (apply Z.div_pos; lia).
  rewrite (Z.quot_div_nonneg (ts / 1000000)) by lia.
  assert (H3 : 0 <= ts / 1000000 / 60 / 60) by (apply Z.div_pos; lia).
  rewrite (Z.quot_div_nonneg (ts / 1000000 / 60)) by lia.
  rewrite (Z.quot_div_nonneg (ts / 1000000 / 60 / 60)) by lia.
  rewrite !Z.rem_mod_nonneg by lia. rewrite !Z.div_div by lia. cbn [Z.mul Pos.mul].
  repeat split; try reflexivity. unfold instant.
  clear H1 H2 H3. Z.div_mod_to_equations. lia.
Qed.

Definition date_fields (r : dt) : date := (d_year r, d_month r, d_day r).

(* Decoding a timestamp from 1970 on gives the date and the time of the day. *)
Theorem datetime_decode : forall ts, 0 <= ts <= INT64_MAX -> exists r, decode ts = Ok r /\
  date_fields r = date_of (ts / 86400000000) /\
  d_hour r = ts / 3600000000 mod 24 /\ d_minute r = ts / 60000000 mod 60 /\
  d_second r = ts / 1000000 mod 60 /\ d_us r = Some (ts mod 1000000) /\
  (d_leap r = true <-> leap (d_year r)) /\ d_timestamp r = ts.
Proof.
  intros ts Hts. unfold INT64_MAX in Hts.
  destruct (split_ts ts ltac:(lia)) as [E1 [E2 [E3 [E4 [E5 _]]]]]. cbv zeta in E1, E2, E3, E4, E5.
  unfold decode. cbv zeta. rewrite E1, E2, E3, E4, E5.
  set (n := ts / 86400000000).
  assert (Hn : 0 <= n < DAYS) by (unfold n, DAYS; Z.div_mod_to_equations; lia).
  clear E1 E2 E3 E4 E5. unfold n at 1 2 3 4. fold n. clearbody n.
  destruct (year_estimate n Hn) as [Y [-> [HY HY0]]]. cbn [bind].
  destruct (estimate_near n Y HY HY0) as [Lo Hi]. unfold DAYS in Hn.
  rewrite iadd_ok by lia. cbn [bind]. rewrite (Z.add_comm Y 1970). rewrite first_day_ok by lia. cbn [bind].
  pose proof (ynum_bounds (1970 + Y) ltac:(lia)) as YB. pose proof (ylen_range (1970 + Y)) as YL.
  match goal with |- context [bind ?c _] => set (ydl := c) end.
  assert (C : exists y, ydl = Ok (y, ynum y, leapb y) /\ ynum y <= n < ynum (y + 1) /\ 1970 <= y <= 2000000).
  { unfold ydl. destruct (n <? ynum (1970 + Y)) eqn:L.
    - assert (1 <= Y). { destruct (Z.eq_dec Y 0) as [-> | ]; [ exfalso | lia ]. change (1970 + 0) with 1970 in L. rewrite ynum_1970 in L. lia. }
      specialize (Lo ltac:(lia)). exists (1970 + Y - 1). pose proof (ynum_succ (1970 + Y - 1)) as SU. replace (1970 + Y - 1 + 1) with (1970 + Y) in * by lia.
      rewrite isub_ok by lia. cbn [bind]. rewrite leap_model by lia.
      unfold ylen in SU. rewrite isub_ok by (destruct (leapb (1970 + Y - 1)); lia). cbn [bind]. split; [ | lia ].
      do 3 f_equal. destruct (leapb (1970 + Y - 1)); lia.
    - rewrite leap_model by lia. pose proof (ynum_succ (1970 + Y)) as SU. unfold ylen in SU. rewrite iadd_ok by (destruct (leapb (1970 + Y)); lia). cbn [bind].
      rewrite <- SU. destruct (ynum (1970 + Y + 1) <=? n) eqn:L2.
      + rewrite iadd_ok by lia. cbn [bind]. exists (1970 + Y + 1). split; [ | split; [ split; [ lia | ] | lia ] ].
        * do 2 f_equal. change (Z.land (1970 + Y + 1) 3) with (Z.land (1970 + Y + 1) (Z.ones 2)). rewrite Z.land_ones by lia. change (2 ^ 2) with 4.
          destruct (leapb (1970 + Y) || negb ((1970 + Y + 1) mod 4 =? 0)) eqn:Q.
          -- symmetry. apply leap_next. apply orb_true_iff in Q. destruct Q as [Q | Q]; [ left; exact Q | right; lia ].
          -- apply leap_model. lia.
        * replace (1970 + Y + 1 + 1) with (1970 + Y + 2) by lia. exact Hi.
      + exists (1970 + Y). split; [ reflexivity | lia ]. }
  destruct C as [y [-> [Ry By]]]. cbn [bind]. clear Lo Hi YB YL HY HY0 Y.
  pose proof (ynum_bounds y ltac:(lia)) as YB. rewrite ynum_succ in Ry.
  rewrite isub_ok by lia. cbn [bind].
  destruct (get_month_ok (leapb y) (n - ynum y)) as [i [-> [Hi Fi]]]; [ rewrite fd_12; lia | ]. cbn [bind].
  rewrite iadd_ok by lia. cbn [bind].
  assert (B : 0 <= fd (leapb y) i) by (pose proof (fd_mono (leapb y) 0 i ltac:(lia) ltac:(lia) ltac:(lia)); rewrite fd_0 in *; lia).
  rewrite isub_ok by lia. cbn [bind]. rewrite iadd_ok by lia. cbn [bind].
  eexists. split; [ reflexivity | ]. cbn [d_year d_month d_day d_hour d_minute d_second d_us d_leap d_timestamp date_fields].
  split; [ | repeat split; try reflexivity; apply leapb_leap ].
  unfold date_fields. cbn [d_year d_month d_day].
  destruct (fd_table (leapb y) (i + 1) ltac:(lia)) as [F [_ [_ [L _]]]]. replace (i + 1 - 1) with i in F by lia.
  destruct (date_of_ok n ltac:(lia)) as [V [D _]]. apply dnum_inj; [ | exact V | rewrite D ].
  - split; [ lia | ]. rewrite month_len_mlen. lia.
  - unfold dnum. replace (i + 1 - 1) with i by lia. lia.
Qed.
Print Assumptions datetime_decode.

(* Before 1970 the fields are not those of the instant: -1 microsecond is
   decoded as 1970-01-01 with the microsecond -1, and one second before
   1970-01-01 is decoded as second -1. *)
Theorem datetime_decode_negative_refuted :
  (exists r, decode (-1) = Ok r /\ date_fields r = (1970, 1, 1) /\ d_us r = Some (-1)) /\
  (exists r, decode (-1000000) = Ok r /\ date_fields r = (1970, 1, 1) /\ d_second r = -1).
Proof.
  split.
  - exists (mkdt 1970 1 1 0 0 0 (Some (-1)) false (-1)). split; [ vm_compute; reflexivity | split; reflexivity ].
  - exists (mkdt 1970 1 1 0 0 (-1) (Some 0) false (-1000000)). split; [ vm_compute; reflexivity | split; reflexivity ].
Qed.
Print Assumptions datetime_decode_negative_refuted.

(* ------------------------------------------------------------- encoding *)

Lemma check_int : forall v mn mx, date_check (Some (NI v)) mn mx = if (v <? mn) || (mx <? v) then Err ERange else Ok v.
Proof. reflexivity. Qed.

Definition ni (z : Z) : option num := Some (NI z).

Lemma encode_day : forall y m d h mi s us, 1970 <= y <= 290307 -> 1 <= m <= 12 -> 1 <= d <= 31 ->
  d <= month_len y m + 1 -> valid_time h mi s us ->
  encode (ni y) (ni m) (ni d) (ni h) (ni mi) (ni s) (ni us) =
  Ok (mkdt y m d h mi s (Some us) (leapb y) (instant (dnum (y, m, d)) h mi s us)).
Proof.
  intros y m d h mi s us Hy Hm Hd Hd2 [Hh [Hmi [Hs Hus]]]. unfold encode, ni. rewrite !check_int.
  replace ((y <? 1970) || (290307 <? y)) with false by lia. cbn [bind].
  replace ((m <? 1) || (12 <? m)) with false by lia. cbn [bind].
  replace ((d <? 1) || (31 <? d)) with false by lia. cbn [bind].
  replace ((h <? 0) || (23 <? h)) with false by lia. cbn [bind].
  replace ((mi <? 0) || (59 <? mi)) with false by lia. cbn [bind]. cbv zeta. rewrite ?check_int.
  replace ((s <? 0) || (59 <? s)) with false by lia. cbn [bind].
  replace ((us <? 0) || (999999 <? us)) with false by lia. cbn [bind].
  rewrite first_day_ok by lia. cbn [bind]. rewrite leap_model by lia.
  destruct (fd_table (leapb y) m Hm) as [F [-> [-> [L [L0 L1]]]]]. rewrite fd_12 in L1. pose proof (ylen_range y). pose proof (ynum_bounds y ltac:(lia)).
  rewrite month_len_mlen in Hd2. cbn [bind].
  rewrite iadd_ok by lia. cbn [bind]. rewrite ?check_int.
  replace ((d <? 1) || (fd (leapb y) m - fd (leapb y) (m - 1) + 1 <? d)) with false by lia. cbn [bind].
  rewrite isub_ok by lia. cbn [bind]. rewrite iadd_ok by lia. cbn [bind].
  rewrite imul_ok by lia. cbn [bind]. rewrite iadd_ok by lia. cbn [bind].
  rewrite imul_ok by lia. cbn [bind]. rewrite iadd_ok by lia. cbn [bind].
  rewrite imul_ok by lia. cbn [bind]. rewrite iadd_ok by lia. cbn [bind].
  set (t := ynum y + fd (leapb y) (m - 1) + (d - 1)).
  assert (T : 0 <= t <= 105400000) by (unfold t, ynum in *; clear - Hy L0 L1 Hd H F Hd2 L; Z.div_mod_to_equations; lia).
  assert (ET : dnum (y, m, d) = t) by (unfold dnum, t; lia). rewrite ET. clearbody t.
  rewrite imul_ok by lia. cbn [bind]. destruct (us =? 0) eqn:U.
  - cbn [bind]. do 2 f_equal. unfold instant. lia.
  - rewrite iadd_ok by lia. reflexivity.
Qed.

(* A valid date is encoded as its instant. *)
Theorem datetime_encode : forall n y m d h mi s us, 0 <= n -> date_of n = (y, m, d) -> y <= 290307 -> valid_time h mi s us ->
  encode (ni y) (ni m) (ni d) (ni h) (ni mi) (ni s) (ni us) =
  Ok (mkdt y m d h mi s (Some us) (leapb y) (instant n h mi s us)).
Proof.
  intros n y m d h mi s us Hn E Hy V. destruct (date_of_ok n Hn) as [VD [DN Y0]]. rewrite E in *. cbn [fst] in Y0.
  assert (Hd : d <= 31). { destruct VD as [Hm Hd]. rewrite month_len_mlen in Hd. destruct (fd_table (leapb y) m Hm) as [_ [_ [_ [L _]]]]. lia. }
  destruct VD as [Hm Hd2]. rewrite encode_day by (assumption || lia). rewrite DN. reflexivity.
Qed.
Print Assumptions datetime_encode.

(* Every valid date from 1970 on is the date of some day. *)
Theorem datetime_all_dates : forall y m d, valid_date (y, m, d) -> 1970 <= y -> exists n, 0 <= n /\ date_of n = (y, m, d).
Proof. intros y m d V H. destruct (date_of_dnum (y, m, d) V H) as [A B]. exists (dnum (y, m, d)). split; assumption. Qed.
Print Assumptions datetime_all_dates.

(* Exactly what the code accepts. *)
Theorem datetime_accepts : forall y m d h mi s us,
  (exists r, encode (ni y) (ni m) (ni d) (ni h) (ni mi) (ni s) (ni us) = Ok r) <->
  1970 <= y <= 290307 /\ 1 <= m <= 12 /\ 1 <= d <= 31 /\ d <= month_len y m + 1 /\ valid_time h mi s us.
Proof.
  intros y m d h mi s us. split.
  - intros [r E]. unfold encode, ni in E. rewrite !check_int in E.
    destruct ((y <? 1970) || (290307 <? y)) eqn:Ey; cbn [bind] in E; [ discriminate E | ].
    destruct ((m <? 1) || (12 <? m)) eqn:Em; cbn [bind] in E; [ discriminate E | ].
    destruct ((d <? 1) || (31 <? d)) eqn:Ed; cbn [bind] in E; [ discriminate E | ].
    destruct ((h <? 0) || (23 <? h)) eqn:Eh; cbn [bind] in E; [ discriminate E | ].
    destruct ((mi <? 0) || (59 <? mi)) eqn:Emi; cbn [bind] in E; [ discriminate E | ]. cbv zeta in E. rewrite ?check_int in E.
    destruct ((s <? 0) || (59 <? s)) eqn:Es; cbn [bind] in E; [ discriminate E | ].
    destruct ((us <? 0) || (999999 <? us)) eqn:Eus; cbn [bind] in E; [ discriminate E | ].
    rewrite first_day_ok in E by lia. cbn [bind] in E. rewrite leap_model in E by lia.
    destruct (fd_table (leapb y) m ltac:(lia)) as [F [E1 [E2 [L [L0 L1]]]]]. rewrite E1, E2 in E. cbn [bind] in E.
    rewrite fd_12 in L1. pose proof (ylen_range y). pose proof (ynum_bounds y ltac:(lia)).
    rewrite iadd_ok in E by lia. cbn [bind] in E. rewrite ?check_int in E.
    destruct ((d <? 1) || (fd (leapb y) m - fd (leapb y) (m - 1) + 1 <? d)) eqn:Q; cbn [bind] in E; [ discriminate E | ].
    rewrite month_len_mlen. unfold valid_time. lia.
  - intros [Hy [Hm [Hd [Hd2 V]]]]. rewrite encode_day by assumption. eexists. reflexivity.
Qed.
Print Assumptions datetime_accepts.

(* Only valid dates are accepted: false, one day more than the month has is
   accepted.  February 29, 2001 is encoded as the instant of March 1. *)
Theorem datetime_accepts_refuted : ~ valid_date (2001, 2, 29) /\
  exists r, encode (ni 2001) (ni 2) (ni 29) (ni 0) (ni 0) (ni 0) (ni 0) = Ok r /\ date_fields r = (2001, 2, 29) /\
  exists r', decode (d_timestamp r) = Ok r' /\ date_fields r' = (2001, 3, 1).
Proof.
  split; [ intros [_ H]; change (month_len 2001 2) with 28 in H; lia | ].
  exists (mkdt 2001 2 29 0 0 0 (Some 0) false 983404800000000). split; [ vm_compute; reflexivity | ]. split; [ reflexivity | ].
  exists (mkdt 2001 3 1 0 0 0 (Some 0) false 983404800000000). split; [ vm_compute; reflexivity | reflexivity ].
Qed.
Print Assumptions datetime_accepts_refuted.

(* A field given as a float is replaced by its floor. *)
Theorem datetime_float_field : forall f z mn mx, to_int f = Some z -> z <> INT64_MIN ->
  date_check (Some (NF f)) mn mx = date_check (Some (NI z)) mn mx.
Proof. intros f z mn mx H N. unfold date_check. rewrite (to_int_get f z H N). reflexivity. Qed.
Print Assumptions datetime_float_field.

(* ------------------------------------------------------------- round trip *)

Definition encode_fields (r : dt) : res dt :=
  encode (ni (d_year r)) (ni (d_month r)) (ni (d_day r)) (ni (d_hour r)) (ni (d_minute r)) (ni (d_second r)) (option_map NI (d_us r)).

Theorem datetime_round_trip_partial : forall ts r, 0 <= ts <= INT64_MAX -> decode ts = Ok r -> d_year r <= 290307 ->
  encode_fields r = Ok r.
Proof.
  intros ts r H E Y. destruct (datetime_decode ts H) as [r' [E' [D [Hh [Hm [Hs [Hus [Hl Ht]]]]]]]].
  assert (r' = r) by congruence. subst r'. unfold encode_fields. rewrite Hus. cbn [option_map].
  pose proof (split_ts ts ltac:(lia)) as S. cbv zeta in S. destruct S as [S1 [S2 [S3 [S4 [S5 S6]]]]]. rewrite S1, S2, S3, S4, S5 in S6.
  destruct r as [y m d h mi s us l t]. unfold date_fields in D. cbn [d_year d_month d_day d_hour d_minute d_second d_us d_leap d_timestamp] in *.
  change (Some (NI (ts mod 1000000))) with (ni (ts mod 1000000)). rewrite (datetime_encode (ts / 86400000000) y m d h mi s (ts mod 1000000)).
  - subst h mi s us t. rewrite <- S6. do 2 f_equal. destruct l, (leapb y) eqn:Q; try reflexivity.
    + exfalso. pose proof (proj1 Hl eq_refl) as X. apply leapb_leap in X. congruence.
    + exfalso. apply leapb_leap in Q. apply Hl in Q. discriminate Q.
  - apply Z.div_pos; lia.
  - symmetry. exact D.
  - exact Y.
  - subst h mi s. unfold valid_time.
    pose proof (Z.mod_pos_bound (ts / 3600000000) 24 ltac:(lia)). pose proof (Z.mod_pos_bound (ts / 60000000) 60 ltac:(lia)).
    pose proof (Z.mod_pos_bound (ts / 1000000) 60 ltac:(lia)). pose proof (Z.mod_pos_bound ts 1000000 ltac:(lia)). lia.
Qed.
Print Assumptions datetime_round_trip_partial.

(* The fields of the last timestamp of year 294247 are not accepted. *)
Theorem datetime_round_trip_refuted : exists r, decode INT64_MAX = Ok r /\ date_fields r = (294247, 1, 10) /\ encode_fields r = Err ERange.
Proof.
  exists (mkdt 294247 1 10 4 0 54 (Some 775807) false INT64_MAX).
  split; [ vm_compute; reflexivity | split; [ reflexivity | vm_compute; reflexivity ] ].
Qed.
Print Assumptions datetime_round_trip_refuted.

(* The instant recovered from an encoded date. *)
Theorem datetime_encode_decode : forall n y m d h mi s us r, 0 <= n -> date_of n = (y, m, d) -> y <= 290307 -> valid_time h mi s us ->
  encode (ni y) (ni m) (ni d) (ni h) (ni mi) (ni s) (ni us) = Ok r -> decode (d_timestamp r) = Ok r.
Proof.
  intros n y m d h mi s us r Hn E Hy V Er. rewrite (datetime_encode n y m d h mi s us Hn E Hy V) in Er.
  assert (r = mkdt y m d h mi s (Some us) (leapb y) (instant n h mi s us)) by congruence. subst r. clear Er. cbn [d_timestamp].
  destruct (date_of_ok n Hn) as [VD [DN Y0]]. rewrite E in VD, DN, Y0. cbn [fst] in Y0.
  pose proof (valid_in_year _ _ _ VD) as IY. pose proof (ylen_range y) as YL.
  assert (Bn : n <= 105400000).
  { unfold dnum in DN. assert (ynum y <= 105312930) by (unfold ynum; clear - Y0 Hy; Z.div_mod_to_equations; lia). lia. }
  destruct V as [Hh [Hmi [Hs Hus]]].
  assert (R : 0 <= instant n h mi s us <= INT64_MAX) by (unfold instant, INT64_MAX; lia).
  destruct (datetime_decode _ R) as [r' [E' [D [H1 [H2 [H3 [H4 [H5 H6]]]]]]]]. rewrite E'. f_equal.
  assert (Q : instant n h mi s us / 86400000000 = n /\ instant n h mi s us / 3600000000 mod 24 = h /\
    instant n h mi s us / 60000000 mod 60 = mi /\ instant n h mi s us / 1000000 mod 60 = s /\ instant n h mi s us mod 1000000 = us).
  { assert (N0 : 0 <= instant n h mi s us) by lia.
    replace (instant n h mi s us / 3600000000) with (n * 24 + h) by (apply Z.div_unique with ((mi * 60 + s) * 1000000 + us); unfold instant; lia).
    replace (instant n h mi s us / 60000000) with ((n * 24 + h) * 60 + mi) by (apply Z.div_unique with (s * 1000000 + us); unfold instant; lia).
    replace (instant n h mi s us / 1000000) with (((n * 24 + h) * 60 + mi) * 60 + s) by (apply Z.div_unique with us; unfold instant; lia).
    repeat split.
    - symmetry. apply Z.div_unique with (((h * 60 + mi) * 60 + s) * 1000000 + us); unfold instant; lia.
    - symmetry. apply Z.mod_unique with n; lia.
    - symmetry. apply Z.mod_unique with (n * 24 + h); lia.
    - symmetry. apply Z.mod_unique with ((n * 24 + h) * 60 + mi); lia.
    - symmetry. apply Z.mod_unique with (((n * 24 + h) * 60 + mi) * 60 + s); unfold instant; lia. }
  destruct Q as [Q1 [Q2 [Q3 [Q4 Q5]]]]. rewrite Q1 in D. rewrite Q2 in H1. rewrite Q3 in H2. rewrite Q4 in H3. rewrite Q5 in H4.
  rewrite E in D. destruct r' as [y' m' d' h' mi' s' us' l' t']. unfold date_fields in D.
  cbn [d_year d_month d_day d_hour d_minute d_second d_us d_leap d_timestamp] in *.
  assert (y' = y /\ m' = m /\ d' = d) as [-> [-> ->]] by (repeat split; congruence). subst. f_equal.
  destruct l', (leapb y) eqn:Q; try reflexivity.
  - exfalso. pose proof (proj1 H5 eq_refl) as X. apply leapb_leap in X. congruence.
  - exfalso. apply leapb_leap in Q. apply H5 in Q. discriminate Q.
Qed.
Print Assumptions datetime_encode_decode.

(* ------------------------------------------------------------- examples *)

(* The examples of the documentation, a leap day, and a float field. *)
Example datetime_examples :
  datetime (ni 1000000000000000) None None None None None None None =
    Ok (mkdt 2001 9 9 1 46 40 (Some 0) false 1000000000000000) /\
  datetime (ni 2000) (ni 2) (ni 29) (ni 13) (ni 0) None None None =
    Ok (mkdt 2000 2 29 13 0 0 None true 951829200000000) /\
  datetime (ni 2100) (ni 2) (Some (NF (ddiv (of_int 57) (of_int 2)))) (ni 0) (ni 0) None (ni 5) None =
    Ok (mkdt 2100 2 28 0 0 0 (Some 5) false 4107456000000005) /\
  datetime None None None None None None None (Some 946684799999999) =
    Ok (mkdt 1999 12 31 23 59 59 (Some 999999) false 946684799999999) /\
  datetime (ni 2001) (ni 2) (ni 30) (ni 0) (ni 0) None None None = Err ERange /\
  datetime (ni 2001) None None None None None None (Some 5) = Err EType /\
  date_of 59 = (1970, 3, 1) /\ date_of 11016 = (2000, 2, 29).
Proof. vm_compute. repeat split. Qed.
