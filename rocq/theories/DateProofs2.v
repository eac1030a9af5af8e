(* Day numbers. *)
From Coq Require Import ZArith List Lia Bool ZifyBool SpecFloat.
Import ListNotations.
From Verif Require Import Base ListZ FoldModel FoldProofs DateModel DateSpec DateProofs.
Local Open Scope Z_scope.
Ltac Zify.zify_post_hook ::= idtac.

(* ------------------------------------------------------------- years *)

Definition ylen (y : Z) : Z := if leapb y then 366 else 365.
Definition ynum (y : Z) : Z := 365 * (y - 1970) + (y - 1969) / 4 - (y - 1901) / 100 + (y - 1601) / 400.

Lemma ynum_succ : forall y, ynum (y + 1) = ynum y + ylen y.
Proof.
  intros y. unfold ynum, ylen, leapb.
  assert (A : (y + 1 - 1969) / 4 = (y - 1969) / 4 + (if y mod 4 =? 0 then 1 else 0)) by (destruct (y mod 4 =? 0) eqn:E; Z.div_mod_to_equations; lia).
  assert (B : (y + 1 - 1901) / 100 = (y - 1901) / 100 + (if y mod 100 =? 0 then 1 else 0)) by (destruct (y mod 100 =? 0) eqn:E; Z.div_mod_to_equations; lia).
  assert (C : (y + 1 - 1601) / 400 = (y - 1601) / 400 + (if y mod 400 =? 0 then 1 else 0)) by (destruct (y mod 400 =? 0) eqn:E; Z.div_mod_to_equations; lia).
  assert (D1 : y mod 100 = 0 -> y mod 4 = 0) by (clear; intros H; Z.div_mod_to_equations; lia).
  assert (D2 : y mod 400 = 0 -> y mod 100 = 0) by (clear; intros H; Z.div_mod_to_equations; lia).
  rewrite A, B, C.
  destruct (y mod 4 =? 0) eqn:E4; destruct (y mod 100 =? 0) eqn:E1; destruct (y mod 400 =? 0) eqn:E0; cbn [andb orb negb]; lia.
Qed.

Lemma ylen_range : forall y, 365 <= ylen y <= 366.
Proof. intros y. unfold ylen. destruct (leapb y); lia. Qed.

Lemma ynum_mono : forall y y', y <= y' -> ynum y <= ynum y'.
Proof. intros y y' H. unfold ynum. Z.div_mod_to_equations. lia. Qed.

Lemma ynum_1970 : ynum 1970 = 0.
Proof. reflexivity. Qed.

Lemma ynum_bounds : forall y, 1970 <= y -> 365 * (y - 1970) <= ynum y <= 366 * (y - 1970).
Proof. intros y H. unfold ynum. Z.div_mod_to_equations. lia. Qed.

(* The estimate is wrong by at most one year. *)
Lemma estimate_near : forall n Y, 3652425 * Y <= 10000 * n <= 3652425 * (Y + 1) -> 0 <= Y ->
  (1 <= Y -> ynum (1970 + Y - 1) <= n) /\ n < ynum (1970 + Y + 2).
Proof. intros n Y H H0. unfold ynum. split; [ intros H1 | ]; Z.div_mod_to_equations; lia. Qed.

Lemma leap_model : forall y, 0 <= y -> is_leap_year y = leapb y.
Proof.
  intros y H. unfold is_leap_year, leapb. rewrite !Z.rem_mod_nonneg by lia.
  assert (D1 : y mod 100 = 0 -> y mod 4 = 0) by (clear; intros H; Z.div_mod_to_equations; lia).
  assert (D2 : y mod 400 = 0 -> y mod 100 = 0) by (clear; intros H; Z.div_mod_to_equations; lia).
  destruct (y mod 4 =? 0) eqn:E4; destruct (y mod 100 =? 0) eqn:E1; destruct (y mod 400 =? 0) eqn:E0; cbn [andb orb negb]; lia.
Qed.

Lemma leapb_leap : forall y, leapb y = true <-> leap y.
Proof.
  intros y. unfold leapb, leap. rewrite orb_true_iff, andb_true_iff, negb_true_iff, Z.eqb_eq, Z.eqb_neq, Z.eqb_eq. tauto.
Qed.

Lemma leap_next : forall y, leapb y = true \/ (y + 1) mod 4 <> 0 -> leapb (y + 1) = false.
Proof.
  intros y H. rewrite <- not_true_iff_false. intros L. apply leapb_leap in L. unfold leap in L.
  assert (M : (y + 1) mod 4 = 0) by (destruct L as [[L _] | L]; [ exact L | clear - L; Z.div_mod_to_equations; lia ]).
  destruct H as [H | H]; [ | contradiction ]. apply leapb_leap in H. unfold leap in H.
  assert (M2 : y mod 4 = 0) by (destruct H as [[H _] | H]; [ exact H | clear - H; Z.div_mod_to_equations; lia ]).
  clear - M M2. Z.div_mod_to_equations. lia.
Qed.

(* ------------------------------------------------------------- months *)

Definition fd (l : bool) (i : Z) : Z := nth (Z.to_nat i) (first_days l) 0.
Definition mlen (l : bool) (m : Z) : Z :=
  if m =? 2 then (if l then 29 else 28) else if (m =? 4) || (m =? 6) || (m =? 9) || (m =? 11) then 30 else 31.

Lemma month_len_mlen : forall y m, month_len y m = mlen (leapb y) m.
Proof. reflexivity. Qed.

Lemma fd_table : forall l m, 1 <= m <= 12 -> fd l m = fd l (m - 1) + mlen l m /\ elem (first_days l) m = Ok (fd l m) /\
  elem (first_days l) (m - 1) = Ok (fd l (m - 1)) /\ 28 <= mlen l m <= 31 /\ 0 <= fd l (m - 1) /\ fd l m <= fd l 12.
Proof.
  intros l m Hm.
  assert (T : zall 12 1 (fun m => (fd l m =? fd l (m - 1) + mlen l m) &&
     match elem (first_days l) m with Ok z => z =? fd l m | _ => false end &&
     match elem (first_days l) (m - 1) with Ok z => z =? fd l (m - 1) | _ => false end && (28 <=? mlen l m) && (mlen l m <=? 31) &&
     (0 <=? fd l (m - 1)) && (fd l m <=? fd l 12)) = true) by (destruct l; reflexivity).
  pose proof (zall_spec _ _ _ T m ltac:(lia)) as X. cbv beta in X. rewrite !andb_true_iff in X.
  destruct X as [[[[[[X1 X2] X3] X4] X5] X6] X7].
  destruct (elem (first_days l) m) as [z| |]; try discriminate X2. destruct (elem (first_days l) (m - 1)) as [z'| |]; try discriminate X3.
  repeat split; try lia; f_equal; lia.
Qed.

Lemma fd_0 : forall l, fd l 0 = 0.
Proof. destruct l; reflexivity. Qed.
Lemma fd_12 : forall y, fd (leapb y) 12 = ylen y.
Proof. intros y. unfold ylen. destruct (leapb y); reflexivity. Qed.

Lemma fd_mono : forall l i j, 0 <= i -> i <= j -> j <= 12 -> fd l i <= fd l j.
Proof.
  intros l i j Hi Hij Hj.
  assert (T : zall 13 0 (fun i => zall 13 0 (fun j => negb (i <=? j) || (fd l i <=? fd l j))) = true) by (destruct l; reflexivity).
  pose proof (zall_spec _ _ _ (zall_spec _ _ _ T i ltac:(lia)) j ltac:(lia)) as X. cbv beta in X. lia.
Qed.

Lemma get_month_ok : forall l r, 0 <= r < fd l 12 ->
  exists i, get_month r l = Ok (i, fd l i) /\ 0 <= i < 12 /\ fd l i <= r < fd l (i + 1).
Proof.
  intros l r Hr.
  assert (T : zall 366 0 (fun r => negb (r <? fd l 12) || match get_month r l with
     | Ok (i, f) => (f =? fd l i) && (0 <=? i) && (i <? 12) && (fd l i <=? r) && (r <? fd l (i + 1)) | _ => false end) = true)
    by (destruct l; vm_compute; reflexivity).
  assert (B : fd l 12 <= 366) by (destruct l; vm_compute; discriminate).
  pose proof (zall_spec _ _ _ T r ltac:(lia)) as X. cbv beta in X. replace (r <? fd l 12) with true in X by lia. cbn [negb orb] in X.
  destruct (get_month r l) as [[i f]| |]; try discriminate X. rewrite !andb_true_iff in X.
  destruct X as [[[[X1 X2] X3] X4] X5]. exists i. split; [ repeat f_equal; lia | lia ].
Qed.

(* ------------------------------------------------------------- dates *)

Definition dnum (d : date) : Z := let '(y, m, d) := d in ynum y + fd (leapb y) (m - 1) + d - 1.

Lemma next_day_ok : forall d, valid_date d -> valid_date (next_day d) /\ dnum (next_day d) = dnum d + 1 /\
  fst (fst d) <= fst (fst (next_day d)).
Proof.
  intros [[y m] d] [Hm Hd]. unfold next_day, valid_date, dnum in *. cbn [fst]. rewrite month_len_mlen in *.
  destruct (fd_table (leapb y) m Hm) as [F [_ [_ [L _]]]].
  destruct (d <? mlen (leapb y) m) eqn:E1.
  - repeat split; cbn [fst]; rewrite ?month_len_mlen; lia.
  - destruct (m <? 12) eqn:E2.
    + destruct (fd_table (leapb y) (m + 1) ltac:(lia)) as [_ [_ [_ [L' _]]]]. rewrite month_len_mlen.
      replace (m + 1 - 1) with m by lia. cbn [fst]. lia.
    + assert (m = 12) by lia. subst m. destruct (fd_table (leapb (y + 1)) 1 ltac:(lia)) as [_ [_ [_ [L' _]]]]. rewrite month_len_mlen.
      change (1 - 1) with 0. rewrite fd_0, ynum_succ, <- fd_12. change (12 - 1) with 11 in *. cbn [fst]. lia.
Qed.

Lemma date_of_ok : forall n, 0 <= n -> valid_date (date_of n) /\ dnum (date_of n) = n /\ 1970 <= fst (fst (date_of n)).
Proof.
  intros n H. unfold date_of. rewrite <- (Z2Nat.id n) at 3 by assumption. generalize (Z.to_nat n). clear n H. intros k.
  induction k as [|k [IH1 [IH2 IH3]]].
  - cbn [Nat.iter nat_rect]. split; [ | split; [ reflexivity | cbn; lia ] ]. cbn. lia.
  - change (Nat.iter (S k) next_day (1970, 1, 1)) with (next_day (Nat.iter k next_day (1970, 1, 1))).
    destruct (next_day_ok _ IH1) as [A [B C]]. split; [ exact A | ]. split; lia.
Qed.

Lemma valid_in_year : forall y m d, valid_date (y, m, d) -> 0 <= fd (leapb y) (m - 1) + d - 1 < ylen y.
Proof.
  intros y m d [Hm Hd]. rewrite month_len_mlen in Hd. destruct (fd_table (leapb y) m Hm) as [F [_ [_ [L [L0 L1]]]]].
  rewrite fd_12 in L1. lia.
Qed.

Lemma dnum_inj : forall d d', valid_date d -> valid_date d' -> dnum d = dnum d' -> d = d'.
Proof.
  intros [[y m] d] [[y' m'] d'] V V' E. pose proof (valid_in_year _ _ _ V) as R. pose proof (valid_in_year _ _ _ V') as R'.
  unfold dnum in E.
  assert (y = y').
  { destruct (Z.lt_trichotomy y y') as [L | [L | L]]; [ exfalso | assumption | exfalso ].
    - pose proof (ynum_mono (y + 1) y' ltac:(lia)) as M. rewrite ynum_succ in M. lia.
    - pose proof (ynum_mono (y' + 1) y ltac:(lia)) as M. rewrite ynum_succ in M. lia. }
  subst y'. destruct V as [Hm Hd], V' as [Hm' Hd']. rewrite month_len_mlen in Hd, Hd'.
  destruct (fd_table (leapb y) m Hm) as [F _], (fd_table (leapb y) m' Hm') as [F' _].
  assert (m = m').
  { destruct (Z.lt_trichotomy m m') as [L | [L | L]]; [ exfalso | assumption | exfalso ].
    - pose proof (fd_mono (leapb y) m (m' - 1) ltac:(lia) ltac:(lia) ltac:(lia)). lia.
    - pose proof (fd_mono (leapb y) m' (m - 1) ltac:(lia) ltac:(lia) ltac:(lia)). lia. }
  subst m'. f_equal. lia.
Qed.

Lemma date_of_dnum : forall d, valid_date d -> 1970 <= fst (fst d) -> 0 <= dnum d /\ date_of (dnum d) = d.
Proof.
  intros [[y m] d] V H. cbn [fst] in H. pose proof (valid_in_year _ _ _ V). pose proof (ynum_bounds y H).
  assert (P : 0 <= dnum (y, m, d)) by (unfold dnum; lia). split; [ exact P | ].
  destruct (date_of_ok _ P) as [A [B _]]. apply dnum_inj; assumption.
Qed.
