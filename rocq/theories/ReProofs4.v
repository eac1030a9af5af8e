(* The matches which are tried are those which exist; the bound of repetitions does not matter. *)
From Coq Require Import ZArith List Lia Bool ZifyBool.
Import ListNotations.
From Verif Require Import Base ListZ ReModel ReSpec ReProofs1 ReProofs2.
Local Open Scope Z_scope.
Ltac Zify.zify_post_hook ::= idtac.

Section Matches.
Variable s : list Z.
Variables lo hi : Z.
Variable in_set : list (Z * Z) -> Z -> bool.
Notation found := (Z * list (option (Z * Z)))%type.
Notation mt := (matches s lo hi in_set).

Lemma next_is_lt : forall f i, next_is s hi f i = true -> i < hi.
Proof. intros f i H. unfold next_is in H. apply andb_true_iff in H. lia. Qed.

Lemma chain_le : forall (R : Z -> Z -> Prop) n i j, (forall i j, R i j -> i <= j /\ (i <= hi -> j <= hi)) -> chain R n i j -> i <= j /\ (i <= hi -> j <= hi).
Proof.
  intros R n. induction n as [|n IH]; intros i j HR C; cbn [chain] in C; [lia |]. destruct C as (k & C1 & C2).
  apply HR in C1. apply IH in C2; [lia | exact HR].
Qed.
Lemma matches_le : forall r i j, mt r i j -> i <= j /\ (i <= hi -> j <= hi).
Proof.
  induction r as [| a IHa b IHb | a IHa b IHb | c | | neg l | | | k | g a IHa | lz n m a IHa]; intros i j M; cbn [matches] in M.
  - lia.
  - destruct M as (k & M1 & M2). apply IHa in M1. apply IHb in M2. lia.
  - destruct M as [M | M]; auto.
  - destruct M as [M ->]. apply next_is_lt in M. lia.
  - destruct M as [M ->]. apply next_is_lt in M. lia.
  - destruct M as [M ->]. apply next_is_lt in M. lia.
  - lia.
  - lia.
  - lia.
  - auto.
  - destruct M as (k & _ & _ & C). eapply chain_le; eassumption.
Qed.

Lemma repeated_sound : forall (f : found -> list found) (R : Z -> Z -> Prop) lz min, (forall x y, In y (f x) -> R (fst x) (fst y)) ->
  forall n k m m', min <= k + Z.of_nat n -> In m' (repeated f lz min n k m) ->
  exists j : nat, (j <= n)%nat /\ min <= k + Z.of_nat j /\ chain R j (fst m) (fst m').
Proof.
  intros f R lz min HR. induction n as [|n IH]; intros k m m' Hk Hin.
  - cbn in Hin. destruct Hin as [<- | []]. exists O. cbn [chain]. repeat split; lia.
  - assert (Hin' : In m' (flat_map (repeated f lz min n (k + 1)) (f m)) \/ (min <= k /\ m' = m)).
    { cbn [repeated] in Hin. cbv zeta in Hin. destruct (Z.ltb_spec k min); [left; exact Hin |].
      destruct lz; [destruct Hin as [<- | Hin]; [right; split; [lia | reflexivity] | left; exact Hin] |].
      apply in_app_or in Hin. destruct Hin as [Hin | [<- | []]]; [left; exact Hin | right; split; [lia | reflexivity]]. }
    destruct Hin' as [Hin' | [Hm ->]].
    + apply in_flat_map in Hin'. destruct Hin' as (y & Hy & Hin'). destruct (IH (k + 1) y m' ltac:(lia) Hin') as (j & J1 & J2 & J3).
      exists (S j). split; [lia |]. split; [lia |]. cbn [chain]. exists (fst y). split; [apply HR; exact Hy | exact J3].
    + exists O. split; [lia |]. split; [lia |]. reflexivity.
Qed.
Lemma repeated_complete : forall (f : found -> list found) (R : Z -> Z -> Prop) lz min,
  (forall x j, 0 <= fst x <= hi -> R (fst x) j -> exists y, In y (f x) /\ fst y = j) ->
  (forall i j, R i j -> i <= j /\ (i <= hi -> j <= hi)) ->
  forall j n k m e, 0 <= fst m <= hi -> (j <= n)%nat -> min <= k + Z.of_nat j -> chain R j (fst m) e ->
  exists m', In m' (repeated f lz min n k m) /\ fst m' = e.
Proof.
  intros f R lz min HR HL. induction j as [|j IH]; intros n k m e Hp Hn Hk C; cbn [chain] in C.
  - subst e. exists m. split; [| reflexivity]. destruct n as [|n]; [left; reflexivity |]. cbn [repeated]. cbv zeta.
    rewrite (proj2 (Z.ltb_ge k min)) by lia. destruct lz; [left; reflexivity |]. apply in_or_app. right. left. reflexivity.
  - destruct C as (i & C1 & C2). destruct (HR m i Hp C1) as (y & Y1 & Y2). subst i. apply HL in C1.
    destruct n as [|n]; [lia |]. destruct (IH n (k + 1) y e ltac:(lia) ltac:(lia) ltac:(lia) C2) as (m' & M1 & M2).
    exists m'. split; [| exact M2]. cbn [repeated]. cbv zeta.
    assert (In m' (flat_map (repeated f lz min n (k + 1)) (f m))) by (apply in_flat_map; eauto).
    destruct (k <? min); [assumption |]. destruct lz; [right; assumption |]. apply in_or_app. left. assumption.
Qed.

(* more repetitions than characters include an empty one, which can be left out *)
Lemma chain_shrink : forall R : Z -> Z -> Prop, (forall i j, R i j -> i <= j /\ (i <= hi -> j <= hi)) ->
  forall k i j, chain R (S k) i j -> Z.of_nat (S k) > j - i -> chain R k i j.
Proof.
  intros R HR. induction k as [|k IH]; intros i j C Hk.
  - cbn [chain] in *. destruct C as (x & C1 & <-). apply HR in C1. lia.
  - change (exists x, R i x /\ chain R (S k) x j) in C. destruct C as (x & C1 & C2). pose proof (HR _ _ C1) as L1. pose proof (chain_le _ _ _ _ HR C2) as L2.
    destruct (Z.eq_dec x i) as [-> | Hne]; [exact C2 |].
    change (exists x, R i x /\ chain R k x j). exists x. split; [exact C1 |]. apply IH; [exact C2 | lia].
Qed.
Lemma chain_bound : forall R : Z -> Z -> Prop, (forall i j, R i j -> i <= j /\ (i <= hi -> j <= hi)) ->
  forall N k i j, chain R k i j -> Z.of_nat N >= j - i -> exists k', (k' <= N)%nat /\ (k <= N -> k' = k)%nat /\ ((N < k)%nat -> k' = N) /\ chain R k' i j.
Proof.
  intros R HR N. induction k as [|k IH]; intros i j C HN.
  - exists O. repeat split; try lia. exact C.
  - destruct (Nat.le_gt_cases (S k) N) as [H | H].
    + exists (S k). repeat split; try lia. exact C.
    + destruct (IH i j) as (k' & K1 & K2 & K3 & K4); [apply chain_shrink; [exact HR | exact C | lia] | exact HN |].
      exists k'. repeat split; try lia. exact K4.
Qed.

Variable U : Z.
Hypothesis HU : 65535 <= U.
Notation am := (all_matches s lo hi in_set U).

Lemma all_matches_sound : forall r m m', counts_ok r -> In m' (am r m) -> mt r (fst m) (fst m').
Proof.
  assert (One : forall f m m', In m' (step_one s hi f m) -> next_is s hi f (fst m) = true /\ fst m' = fst m + 1).
  { intros f m m' H. unfold step_one in H. destruct (next_is s hi f (fst m)); [destruct H as [<- | []]; auto | contradiction]. }
  assert (St : forall b (m m' : found), In m' (stay b m) -> b = true /\ fst m = fst m').
  { intros b m m' H. unfold stay in H. destruct b; [destruct H as [<- | []]; auto | contradiction]. }
  induction r as [| a IHa b IHb | a IHa b IHb | c | | neg l | | | k | g a IHa | lz n mx a IHa]; intros m m' Hc Hin; cbn [all_matches matches counts_ok] in *.
  - destruct Hin as [<- | []]. reflexivity.
  - apply in_flat_map in Hin. destruct Hin as (x & X1 & X2). exists (fst x). split; [apply IHa | apply IHb]; tauto.
  - apply in_app_or in Hin. destruct Hin; [left; apply IHa | right; apply IHb]; tauto.
  - apply One. exact Hin.
  - apply One. exact Hin.
  - apply One. exact Hin.
  - apply St. exact Hin.
  - apply St. exact Hin.
  - apply St. exact Hin.
  - destruct g as [g|]; [| auto]. apply in_map_iff in Hin. destruct Hin as (x & <- & X). apply IHa in X; [exact X | exact Hc].
  - destruct Hc as (H1 & H2 & H3).
    apply (repeated_sound (am a) (mt a) lz n) in Hin; [| intros x y Hy; apply IHa; assumption | destruct mx; lia].
    destruct Hin as (j & J1 & J2 & J3). exists j. split; [lia |]. split; [| exact J3]. destruct mx; [lia | exact I].
Qed.

Lemma all_matches_complete : forall r m j, counts_ok r -> 0 <= fst m <= hi -> hi <= 65535 -> mt r (fst m) j -> exists m', In m' (am r m) /\ fst m' = j.
Proof.
  induction r as [| a IHa b IHb | a IHa b IHb | c | | neg l | | | k | g a IHa | lz n mx a IHa]; intros m j Hc Hp Hhi M; cbn [all_matches matches counts_ok] in *;
    try (unfold step_one; destruct M as [M ->]; rewrite M; eexists; split; [left; reflexivity | reflexivity]);
    try (unfold stay; destruct M as [M <-]; rewrite M; eexists; split; [left; reflexivity | reflexivity]).
  - subst j. exists m. split; [left; reflexivity | reflexivity].
  - destruct M as (i & M1 & M2). destruct (IHa m i) as (x & X1 & X2); try tauto. subst i. pose proof (matches_le _ _ _ M1).
    destruct (IHb x j) as (y & Y1 & Y2); try tauto; [lia |]. exists y. split; [apply in_flat_map; eauto | exact Y2].
  - destruct M as [M | M]; [destruct (IHa m j) as (x & X1 & X2) | destruct (IHb m j) as (x & X1 & X2)]; try tauto;
      exists x; (split; [apply in_or_app | exact X2]); auto.
  - destruct (IHa m j Hc Hp Hhi M) as (x & X1 & X2). destruct g as [g|]; [| eauto].
    eexists. split; [apply in_map_iff; exists x; split; [reflexivity | exact X1] | exact X2].
  - destruct Hc as (H1 & H2 & H3). destruct M as (k & K1 & K2 & C). pose proof (chain_le _ _ _ _ (matches_le a) C) as L.
    set (N := Z.to_nat (match mx with Some x => x | None => U end)).
    assert (HN : exists k', (k' <= N)%nat /\ n <= Z.of_nat k' /\ chain (mt a) k' (fst m) j).
    { destruct mx as [x|].
      - exists k. unfold N. repeat split; try lia. exact C.
      - assert (EN : Z.of_nat N = U) by (unfold N; lia). destruct (chain_bound (mt a) (matches_le a) N k (fst m) j C ltac:(lia)) as (k' & K3 & K4 & K5 & K6).
        exists k'. repeat split; [exact K3 | | exact K6]. destruct (Nat.le_gt_cases k N); [rewrite K4 by lia; lia | rewrite K5 by lia; lia]. }
    destruct HN as (k' & N1 & N2 & N3).
    apply (repeated_complete (am a) (mt a) lz n) with (j := k'); [intros x e Hx Mx; apply IHa; assumption | apply matches_le | exact Hp | exact N1 | lia | exact N3].
Qed.

(* group positions *)
Lemma captured : forall r g0 ng m m', counts_ok r -> groups_ok r g0 ng -> 0 <= g0 -> len (snd m) = ng -> In m' (am r m) ->
  len (snd m') = ng /\ fst m <= fst m' /\
  forall g, gz (snd m') g = gz (snd m) g \/
    exists a b e, has_group r g a /\ gz (snd m') g = Some (Some (b, e)) /\ mt a b e /\ fst m <= b /\ b <= e /\ e <= fst m'.
Proof.
  assert (Rep : forall (a : re) lz min ng m0 n k m m',
    (forall m m', len (snd m) = ng -> In m' (am a m) -> len (snd m') = ng /\ fst m <= fst m' /\
      forall g, gz (snd m') g = gz (snd m) g \/ exists x b e, has_group a g x /\ gz (snd m') g = Some (Some (b, e)) /\ mt x b e /\ fst m <= b /\ b <= e /\ e <= fst m') ->
    len (snd m) = ng -> fst m0 <= fst m ->
    (forall g, gz (snd m) g = gz (snd m0) g \/ exists x b e, has_group a g x /\ gz (snd m) g = Some (Some (b, e)) /\ mt x b e /\ fst m0 <= b /\ b <= e /\ e <= fst m) ->
    In m' (repeated (am a) lz min n k m) ->
    len (snd m') = ng /\ fst m0 <= fst m' /\
    forall g, gz (snd m') g = gz (snd m0) g \/ exists x b e, has_group a g x /\ gz (snd m') g = Some (Some (b, e)) /\ mt x b e /\ fst m0 <= b /\ b <= e /\ e <= fst m').
  { intros a lz min ng m0 n. induction n as [|n IH]; intros k m m' Ha Hl H0 Hg Hin.
    - destruct Hin as [<- | []]. auto.
    - assert (Hin' : In m' (flat_map (repeated (am a) lz min n (k + 1)) (am a m)) \/ m' = m).
      { cbn [repeated] in Hin. cbv zeta in Hin. destruct (k <? min); [left; exact Hin |].
        destruct lz; [destruct Hin as [<- | Hin]; auto |]. apply in_app_or in Hin. destruct Hin as [Hin | [<- | []]]; auto. }
      destruct Hin' as [Hin' | ->]; [| auto]. apply in_flat_map in Hin'. destruct Hin' as (y & Hy & Hin').
      destruct (Ha m y Hl Hy) as (Y1 & Y2 & Y3). apply (IH (k + 1) y m' Ha Y1); [lia | | exact Hin'].
      intros g. destruct (Y3 g) as [-> | (x & b & e & X1 & X2 & X3 & X4)].
      + destruct (Hg g) as [E | (x & b & e & X1 & X2 & X3 & X4 & X5 & X6)]; [left; exact E |]. right. exists x, b, e. repeat split; auto; lia.
      + right. exists x, b, e. repeat split; auto; lia. }
  induction r as [| a IHa b IHb | a IHa b IHb | c | | neg l | | | k | g a IHa | lz n mx a IHa]; intros g0 ng m m' Hc Hgr Hg0 Hl Hin; cbn [all_matches counts_ok groups_ok has_group] in *;
    try (unfold step_one in Hin; destruct (next_is s hi _ (fst m)); [destruct Hin as [<- | []]; cbn [fst snd]; split; [exact Hl |]; split; [lia | auto] | contradiction]);
    try (unfold stay in Hin; match type of Hin with context [if ?c then _ else _] => destruct c end; [destruct Hin as [<- | []]; split; [exact Hl |]; split; [lia | auto] | contradiction]).
  - destruct Hin as [<- | []]. split; [exact Hl |]. split; [lia | auto].
  - apply in_flat_map in Hin. destruct Hin as (x & X1 & X2). destruct Hc as [C1 C2]. destruct Hgr as [G1 G2].
    destruct (IHa g0 ng m x C1 G1 Hg0 Hl X1) as (P1 & P2 & P3). destruct (IHb g0 ng x m' C2 G2 Hg0 P1 X2) as (Q1 & Q2 & Q3).
    split; [exact Q1 |]. split; [lia |]. intros g. destruct (Q3 g) as [-> | (y & b' & e & Y1 & Y2 & Y3 & Y4)].
    + destruct (P3 g) as [E | (y & b' & e & Y1 & Y2 & Y3 & Y4 & Y5 & Y6)]; [left; exact E |]. right. exists y, b', e. repeat split; auto; lia.
    + right. exists y, b', e. repeat split; auto; lia.
  - destruct Hc as [C1 C2]. destruct Hgr as [G1 G2]. apply in_app_or in Hin. destruct Hin as [Hin | Hin].
    + destruct (IHa g0 ng m m' C1 G1 Hg0 Hl Hin) as (P1 & P2 & P3). split; [exact P1 |]. split; [exact P2 |]. intros g.
      destruct (P3 g) as [E | (y & b' & e & Y1 & Y2)]; [left; exact E |]. right. exists y, b', e. auto.
    + destruct (IHb g0 ng m m' C2 G2 Hg0 Hl Hin) as (P1 & P2 & P3). split; [exact P1 |]. split; [exact P2 |]. intros g.
      destruct (P3 g) as [E | (y & b' & e & Y1 & Y2)]; [left; exact E |]. right. exists y, b', e. auto.
  - destruct g as [g|].
    + destruct Hgr as [G1 G2]. apply in_map_iff in Hin. destruct Hin as (x & <- & X). destruct (IHa (g + 1) ng m x Hc G2 ltac:(lia) Hl X) as (P1 & P2 & P3).
      cbn [fst snd]. change (set_group (snd x) g (fst m, fst x)) with (setz (snd x) g (Some (fst m, fst x))).
      split; [rewrite len_setz by lia; exact P1 |]. split; [exact P2 |]. intros h. rewrite gz_setz by lia. destruct (Z.eqb_spec h g) as [-> | Hne].
      * right. exists a, (fst m), (fst x). repeat split; auto; try lia. apply all_matches_sound; assumption.
      * destruct (P3 h) as [E | (y & b' & e & Y1 & Y2)]; [left; exact E |]. right. exists y, b', e. auto.
    + destruct (IHa g0 ng m m' Hc Hgr Hg0 Hl Hin) as (P1 & P2 & P3). split; [exact P1 |]. split; [exact P2 |]. intros h.
      destruct (P3 h) as [E | (y & b' & e & Y1 & Y2)]; [left; exact E |]. right. exists y, b', e. auto.
  - destruct Hc as (C1 & C2 & C3). eapply (Rep a lz n ng m); [| exact Hl | lia | intros; left; reflexivity | exact Hin].
    intros x y Hx Hy. apply (IHa g0 ng x y C3 Hgr Hg0 Hx Hy).
Qed.
End Matches.

(* The order of matches does not depend on the bound of repetitions if every unbounded repetition advances. *)
Section Bound.
Variable s : list Z.
Variables lo hi : Z.
Variable in_set : list (Z * Z) -> Z -> bool.
Notation found := (Z * list (option (Z * Z)))%type.

Lemma matches_advance : forall r i j, advances r = true -> matches s lo hi in_set r i j -> i < j.
Proof.
  induction r as [| a IHa b IHb | a IHa b IHb | c | | neg l | | | k | g a IHa | lz n m a IHa]; intros i j A M; cbn [matches advances] in *; try discriminate A; try lia.
  - destruct M as (k & M1 & M2). pose proof (matches_le s lo hi in_set _ _ _ M1). pose proof (matches_le s lo hi in_set _ _ _ M2).
    apply orb_true_iff in A. destruct A as [A | A]; [pose proof (IHa _ _ A M1) | pose proof (IHb _ _ A M2)]; lia.
  - apply andb_true_iff in A. destruct A as [A1 A2]. destruct M; auto.
  - auto.
  - apply andb_true_iff in A. destruct A as [A1 A2]. destruct M as (k & K1 & _ & C). destruct k as [|k]; [lia |].
    destruct C as (x & C1 & C2). apply IHa in C1; [| exact A2]. pose proof (chain_le hi _ _ _ _ (matches_le s lo hi in_set a) C2). lia.
Qed.

Lemma repeated_bound : forall (f : found -> list found) lz min, (forall x y, In y (f x) -> fst x <= hi -> fst x < fst y <= hi) ->
  forall n1 n2 k m, fst m <= hi -> hi - fst m <= Z.of_nat n1 -> hi - fst m <= Z.of_nat n2 -> min <= k + Z.of_nat n1 -> min <= k + Z.of_nat n2 ->
  repeated f lz min n1 k m = repeated f lz min n2 k m.
Proof.
  intros f lz min Hf. assert (None_ : forall m, fst m = hi -> f m = []).
  { intros m Hm. destruct (f m) as [|y l] eqn:E; [reflexivity |]. destruct (Hf m y); [rewrite E; left; reflexivity | lia | lia]. }
  induction n1 as [|n1 IH]; intros n2 k m Hm B1 B2 M1 M2.
  - destruct n2 as [|n2]; [reflexivity |]. cbn [repeated]. cbv zeta. rewrite (None_ m) by lia. cbn [flat_map].
    rewrite (proj2 (Z.ltb_ge _ _)) by lia. destruct lz; reflexivity.
  - destruct n2 as [|n2].
    + cbn [repeated]. cbv zeta. rewrite (None_ m) by lia. cbn [flat_map]. rewrite (proj2 (Z.ltb_ge _ _)) by lia. destruct lz; reflexivity.
    + cbn [repeated]. cbv zeta. assert (E : flat_map (repeated f lz min n1 (k + 1)) (f m) = flat_map (repeated f lz min n2 (k + 1)) (f m)).
      { assert (G : forall l, (forall y, In y l -> In y (f m)) -> flat_map (repeated f lz min n1 (k + 1)) l = flat_map (repeated f lz min n2 (k + 1)) l).
        { induction l as [|y l IHl]; intros H; [reflexivity |]. cbn [flat_map]. rewrite IHl by (intros; apply H; right; assumption).
          f_equal. pose proof (Hf m y (H y (or_introl eq_refl)) Hm). apply IH; lia. }
        apply G. auto. }
      rewrite E. reflexivity.
Qed.

Lemma all_matches_bound : forall U V, 65535 <= U -> 65535 <= V -> hi <= 65535 -> forall r m, counts_ok r -> loops_advance r = true -> 0 <= fst m <= hi ->
  all_matches s lo hi in_set U r m = all_matches s lo hi in_set V r m.
Proof.
  intros U V HU HV Hhi.
  assert (Pos : forall r x y, counts_ok r -> In y (all_matches s lo hi in_set U r x) -> fst x <= fst y /\ (fst x <= hi -> fst y <= hi)).
  { intros r x y C H. apply all_matches_sound in H; auto. apply matches_le in H. exact H. }
  induction r as [| a IHa b IHb | a IHa b IHb | c | | neg l | | | k | g a IHa | lz n mx a IHa]; intros m Hc Hl Hm; cbn [all_matches counts_ok loops_advance] in *; try reflexivity.
  - apply andb_true_iff in Hl. destruct Hl as [L1 L2]. destruct Hc as [C1 C2]. rewrite <- (IHa m) by assumption.
    assert (G : forall l, (forall y, In y l -> In y (all_matches s lo hi in_set U a m)) -> flat_map (all_matches s lo hi in_set U b) l = flat_map (all_matches s lo hi in_set V b) l).
    { induction l as [|y l IHl]; intros H; [reflexivity |]. cbn [flat_map]. rewrite IHl by (intros; apply H; right; assumption). f_equal.
      apply IHb; [assumption | assumption |]. pose proof (Pos a m y C1 (H y (or_introl eq_refl))). lia. }
    apply G. auto.
  - apply andb_true_iff in Hl. destruct Hl as [L1 L2]. destruct Hc as [C1 C2]. rewrite IHa, IHb by assumption. reflexivity.
  - destruct g; rewrite IHa by assumption; reflexivity.
  - destruct Hc as (C1 & C2 & C3). destruct mx as [x|].
    + assert (G : forall k m, 0 <= fst m <= hi -> repeated (all_matches s lo hi in_set U a) lz n (Z.to_nat x) k m = repeated (all_matches s lo hi in_set V a) lz n (Z.to_nat x) k m).
      { generalize (Z.to_nat x). induction n0 as [|n0 IHn]; intros k y Hy; cbn [repeated]; [reflexivity |]. cbv zeta. rewrite <- (IHa y C3 Hl Hy).
        assert (G : forall l, (forall z, In z l -> In z (all_matches s lo hi in_set U a y)) ->
          flat_map (repeated (all_matches s lo hi in_set U a) lz n n0 (k + 1)) l = flat_map (repeated (all_matches s lo hi in_set V a) lz n n0 (k + 1)) l).
        { induction l as [|z l IHl]; intros H; [reflexivity |]. cbn [flat_map]. rewrite IHl by (intros; apply H; right; assumption). f_equal.
          apply IHn. pose proof (Pos a y z C3 (H z (or_introl eq_refl))). lia. }
        rewrite G by auto. reflexivity. }
      apply G. exact Hm.
    + apply andb_true_iff in Hl. destruct Hl as [L1 L2].
      transitivity (repeated (all_matches s lo hi in_set U a) lz n (Z.to_nat V) 0 m).
      * apply repeated_bound; try lia. intros x y Hy Hx. pose proof (Pos a x y C3 Hy). apply all_matches_sound in Hy; auto. apply matches_advance in Hy; [lia | exact L1].
      * assert (G : forall n0 k m, 0 <= fst m <= hi -> repeated (all_matches s lo hi in_set U a) lz n n0 k m = repeated (all_matches s lo hi in_set V a) lz n n0 k m).
        { induction n0 as [|n0 IHn]; intros k y Hy; cbn [repeated]; [reflexivity |]. cbv zeta. rewrite <- (IHa y C3 L2 Hy).
          assert (G : forall l, (forall z, In z l -> In z (all_matches s lo hi in_set U a y)) ->
            flat_map (repeated (all_matches s lo hi in_set U a) lz n n0 (k + 1)) l = flat_map (repeated (all_matches s lo hi in_set V a) lz n n0 (k + 1)) l).
          { induction l as [|z l IHl]; intros H; [reflexivity |]. cbn [flat_map]. rewrite IHl by (intros; apply H; right; assumption). f_equal.
            apply IHn. pose proof (Pos a y z C3 (H z (or_introl eq_refl))). lia. }
          rewrite G by auto. reflexivity. }
        apply G. exact Hm.
Qed.
End Bound.
