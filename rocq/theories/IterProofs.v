From Coq Require Import ZArith List Lia Bool ZifyBool.
Import ListNotations.
From Verif Require Import Base ListZ IndexModel ArrayModel ArraySpec ArrayProofs BufferModel BufferSpec BufferProofs
  IterModel IterSpec.
Local Open Scope Z_scope.

(* ---- range ---- *)

Lemma iadd_in : forall w a b, is_int64 (a + b) -> iadd w a b = Some (a + b).
Proof. intros w a b H. unfold iadd. unfold is_int64 in H. destruct (_ && _) eqn:E; [ reflexivity | lia ]. Qed.

Lemma prog_cons : forall s d k, 0 < k -> progression s d k = s :: progression (s + d) d (k - 1).
Proof.
  intros s d k H. unfold progression. replace (Z.to_nat k) with (Datatypes.S (Z.to_nat (k - 1))) by lia.
  cbn [seq map]. f_equal; [ lia | ]. rewrite <- seq_shift, map_map. apply map_ext. intros i. lia.
Qed.
Lemma prog_nil : forall s d k, k <= 0 -> progression s d k = [].
Proof. intros s d k H. unfold progression. replace (Z.to_nat k) with O by lia. reflexivity. Qed.
Lemma prog_len : forall s d k, length (progression s d k) = Z.to_nat k.
Proof. intros. unfold progression. rewrite map_length, seq_length. reflexivity. Qed.

Lemma range_size_next : forall s e d k, range_size s e d k -> 0 < k -> range_size (s + d) e d (k - 1).
Proof.
  intros s e d k [H1 H2] Hk. split; [ lia | ]. intros i Hi. specialize (H2 (i + 1) ltac:(lia)).
  unfold in_range in *. replace (s + (i + 1) * d) with (s + d + i * d) in H2 by ring. lia.
Qed.

Lemma range_size_0 : forall s e d k, range_size s e d k -> (0 < k <-> in_range s e d 0).
Proof. intros s e d k [H1 H2]. apply (H2 0). lia. Qed.

(* the common loop: a test and an addition *)
Lemma loop_take : forall w e d next,
  (forall s, next (RStart s) = if (if 0 <? d then s <? e else if d <? 0 then e <? s else false)
                              then Yield s (RAfter s) else Done REnd) ->
  (forall s, next (RAfter s) = match iadd w s d with Some s' => next (RStart s') | None => Undef end) ->
  forall n s k st, range_size s e d k ->
  (forall i, 0 <= i < k -> is_int64 (s + i * d)) ->
  next st = next (RStart s) ->
  (Z.of_nat n <= k -> fst (take next n st) = progression s d (Z.of_nat n) /\
     exists s', snd (take next n st) = Running s') /\
  (k < Z.of_nat n -> is_int64 (s + k * d) -> take next n st = (progression s d k, Finished REnd)) /\
  (k < Z.of_nat n -> 0 < k -> ~ is_int64 (s + k * d) -> w = false -> take next n st = (progression s d k, Undefined)).
Proof.
  intros w e d next H1 H2. induction n as [|n IH]; intros s k st Hk Hi Hst.
  - split; [ | split; [ | intros; destruct Hk; lia ] ].
    + intros _. cbn [take fst snd]. rewrite prog_nil by lia. eauto.
    + intros. destruct Hk; lia.
  - pose proof (range_size_0 _ _ _ _ Hk) as H0. unfold in_range in H0.
    cbn [take]. rewrite Hst, H1.
    destruct (Z.ltb_spec 0 k) as [Hp|Hp].
    + replace (if 0 <? d then s <? e else if d <? 0 then e <? s else false) with true
        by (destruct H0 as [H0 _]; specialize (H0 Hp); destruct (0 <? d) eqn:?; destruct (d <? 0) eqn:?; lia).
      pose proof (range_size_next _ _ _ _ Hk Hp) as Hk'.
      destruct (Z.eq_dec k 1) as [->|Hk1].
      * (* last term *)
        assert (P1 : progression s d 1 = [s]) by (rewrite prog_cons by lia; rewrite prog_nil by lia; reflexivity).
        split; [ | split ].
        -- intros Hn. replace n with O by lia. cbn [take fst snd]. change (Z.of_nat 1) with 1. rewrite P1. eauto.
        -- intros Hn Hin. replace (s + 1 * d) with (s + d) in Hin by ring.
           destruct n as [|n]; [ lia | ].
           assert (Hst' : next (RAfter s) = next (RStart (s + d))) by (rewrite H2, iadd_in by exact Hin; reflexivity).
           assert (Hi' : forall i, 0 <= i < 1 - 1 -> is_int64 (s + d + i * d)) by (intros; lia).
           destruct (IH (s + d) (1 - 1) (RAfter s) Hk' Hi' Hst') as [_ [IH2 _]].
           rewrite IH2; [ | lia | replace (s + d + (1 - 1) * d) with (s + d) by ring; exact Hin ].
           rewrite P1, prog_nil by lia. reflexivity.
        -- intros Hn _ Hin Hw. replace (s + 1 * d) with (s + d) in Hin by ring.
           destruct n as [|n]; [ lia | ]. cbn [take]. rewrite H2. subst w. unfold iadd.
           unfold is_int64 in Hin. destruct (_ && _) eqn:E; [ lia | ]. rewrite P1. reflexivity.
      * assert (Hin1 : is_int64 (s + d)) by (specialize (Hi 1 ltac:(lia)); replace (s + 1 * d) with (s + d) in Hi by ring; exact Hi).
        assert (Hst' : next (RAfter s) = next (RStart (s + d))) by (rewrite H2, iadd_in by exact Hin1; reflexivity).
        assert (Hi' : forall i, 0 <= i < k - 1 -> is_int64 (s + d + i * d)).
        { intros i Hj. specialize (Hi (i + 1) ltac:(lia)). replace (s + (i + 1) * d) with (s + d + i * d) in Hi by ring. exact Hi. }
        destruct (IH (s + d) (k - 1) (RAfter s) Hk' Hi' Hst') as [IH1 [IH2 IH3]].
        destruct (take next n (RAfter s)) as [l r] eqn:Et. cbn [fst snd] in IH1 |- *.
        split; [ | split ].
        -- intros Hn. destruct (IH1 ltac:(lia)) as [IHa [s' IHb]]. split; [ | eauto ].
           rewrite (prog_cons s d (Z.of_nat (Datatypes.S n))) by lia. subst l. do 2 f_equal. lia.
        -- intros Hn Hin. assert (E : (l, r) = (progression (s + d) d (k - 1), Finished REnd)).
           { apply IH2; [ lia | ]. replace (s + d + (k - 1) * d) with (s + k * d) by ring. exact Hin. }
           injection E as -> ->. rewrite (prog_cons s d k) by lia. reflexivity.
        -- intros Hn _ Hin Hw. assert (E : (l, r) = (progression (s + d) d (k - 1), Undefined)).
           { apply IH3; [ lia | lia | | exact Hw ]. replace (s + d + (k - 1) * d) with (s + k * d) by ring. exact Hin. }
           injection E as -> ->. rewrite (prog_cons s d k) by lia. reflexivity.
    + replace (if 0 <? d then s <? e else if d <? 0 then e <? s else false) with false
        by (destruct (0 <? d) eqn:?; destruct (d <? 0) eqn:?; lia).
      destruct Hk as [Hk _]. split; [ | split ]; intros; try lia.
      rewrite prog_nil by lia. reflexivity.
Qed.

Lemma range_next_start : forall w e d s,
  range_next w e d (RStart s) = if (if 0 <? d then s <? e else if d <? 0 then e <? s else false)
                                then Yield s (RAfter s) else Done REnd.
Proof. intros. cbn [range_next]. destruct (0 <? d); [ | destruct (d <? 0) ]; reflexivity. Qed.
Lemma range_next_after : forall w e d s,
  range_next w e d (RAfter s) = match iadd w s d with Some s' => range_next w e d (RStart s') | None => Undef end.
Proof. intros. reflexivity. Qed.

Lemma range_size_in : forall s e d k, range_size s e d k -> is_int64 s -> is_int64 e ->
  forall i, 0 <= i < k -> is_int64 (s + i * d).
Proof.
  intros s e d k [H1 H2] Hs He i Hi. specialize (H2 i ltac:(lia)). unfold in_range, is_int64 in *. nia.
Qed.

Lemma range_size_exists : forall s e d, exists k, range_size s e d k.
Proof.
  intros s e d. destruct (Z.lt_trichotomy d 0) as [H|[H|H]].
  - exists (Z.max 0 ((s - e - d - 1) / - d)). split; [ lia | ]. intros i Hi.
    pose proof (Z.div_mod (s - e - d - 1) (- d) ltac:(lia)) as E.
    pose proof (Z.mod_pos_bound (s - e - d - 1) (- d) ltac:(lia)) as B.
    set (q := (s - e - d - 1) / - d) in *. set (r := (s - e - d - 1) mod - d) in *. clearbody q r.
    unfold in_range. split; intros Hx.
    + right. split; [ lia | ]. nia.
    + assert (i < q) by nia. lia.
  - exists 0. split; [ lia | ]. intros i Hi. unfold in_range. lia.
  - exists (Z.max 0 ((e - s + d - 1) / d)). split; [ lia | ]. intros i Hi.
    pose proof (Z.div_mod (e - s + d - 1) d ltac:(lia)) as E.
    pose proof (Z.mod_pos_bound (e - s + d - 1) d ltac:(lia)) as B.
    set (q := (e - s + d - 1) / d) in *. set (r := (e - s + d - 1) mod d) in *. clearbody q r.
    unfold in_range. split; intros Hx.
    + left. split; [ lia | ]. nia.
    + assert (i < q) by nia. lia.
Qed.

Lemma for_range_eq : forall w e d n st, d <> 0 -> take (for_range_next w e d) n st = take (range_next w e d) n st.
Proof.
  intros w e d n st Hd. revert st. induction n as [|n IH]; intros st; [ reflexivity | ].
  assert (E : for_range_next w e d st = range_next w e d st).
  { destruct st as [s|s|]; cbn [for_range_next range_next]; [ | destruct (iadd w s d) as [x|] | ]; try reflexivity;
      destruct (0 <? d) eqn:?; destruct (d <? 0) eqn:?; try lia; reflexivity. }
  cbn [take]. rewrite E. destruct (range_next w e d st); try reflexivity. rewrite IH. reflexivity.
Qed.

(* ---- iota ---- *)
Lemma iota_take : forall w n i st, is_int64 i ->
  iota_next w st = Yield i (RAfter i) ->
  (Z.of_nat n <= INT64_MAX - i + 1 -> fst (take (iota_next w) n st) = progression i 1 (Z.of_nat n) /\
     exists s', snd (take (iota_next w) n st) = Running s') /\
  (INT64_MAX - i + 1 < Z.of_nat n ->
     take (iota_next w) n st = (progression i 1 (INT64_MAX - i + 1), if w then Finished REnd else Undefined)).
Proof.
  intros w. induction n as [|n IH]; intros i st Hi Hst.
  - split; intros H; [ | unfold is_int64, INT64_MAX in *; lia ]. cbn [take fst snd]. rewrite prog_nil by lia. eauto.
  - cbn [take]. rewrite Hst. destruct (Z.eq_dec i INT64_MAX) as [->|Hm].
    + split; intros H.
      * replace n with O by lia. cbn [take fst snd]. split; [ reflexivity | eauto ].
      * destruct n as [|n]; [ lia | ]. cbn [take iota_next]. unfold iadd.
        destruct w; reflexivity.
    + assert (Hi' : is_int64 (i + 1)) by (unfold is_int64 in *; lia).
      assert (Hst' : iota_next w (RAfter i) = Yield (i + 1) (RAfter (i + 1))).
      { cbn [iota_next]. rewrite iadd_in by exact Hi'. destruct (Z.eqb_spec (i + 1) INT64_MIN); [ unfold is_int64 in *; lia | reflexivity ]. }
      destruct (IH (i + 1) (RAfter i) Hi' Hst') as [IH1 IH2].
      destruct (take (iota_next w) n (RAfter i)) as [l r]. cbn [fst snd] in IH1 |- *. split; intros H.
      * destruct (IH1 ltac:(lia)) as [-> [s' ->]]. split; [ | eauto ].
        rewrite (prog_cons i 1 (Z.of_nat (Datatypes.S n))) by lia. do 2 f_equal. lia.
      * assert (E : (l, r) = (progression (i + 1) 1 (INT64_MAX - (i + 1) + 1), if w then Finished REnd else Undefined)) by (apply IH2; lia).
        apply pair_equal_spec in E. destruct E as [-> ->]. rewrite (prog_cons i 1 (INT64_MAX - i + 1)) by (unfold is_int64 in *; lia). do 2 f_equal. f_equal. lia.
Qed.
