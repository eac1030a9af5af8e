(* Lemmas on doubles, rounding and the comparison of numbers. *)
From Coq Require Import ZArith List Lia Bool ZifyBool.
Import ListNotations.
From Verif Require Import Base NumModel NumSpec.
Local Open Scope Z_scope.
Ltac Zify.zify_post_hook ::= idtac.

Definition mcompare (x y : mval) : option comparison :=
  match x, y with
  | MNan, _ | _, MNan => None
  | MNeg, MNeg | MPos, MPos => Some Eq
  | MNeg, _ => Some Lt
  | _, MNeg => Some Gt
  | MPos, _ => Some Gt
  | _, MPos => Some Lt
  | MVal a, MVal b => Some (a ?= b)
  end.

Lemma pow_pos : forall k, 0 <= k -> 0 < 2 ^ k. Proof. intros. apply Z.pow_pos_nonneg; lia. Qed.
Lemma pow_split : forall a b, 0 <= a -> 0 <= b -> 2 ^ (a + b) = 2 ^ a * 2 ^ b.
Proof. intros. apply Z.pow_add_r; lia. Qed.
Lemma compare_scale : forall a b p, 0 < p -> (a * p ?= b * p) = (a ?= b).
Proof. intros a b p H. symmetry. rewrite !(Z.mul_comm _ p). apply Zmult_compare_compat_l. lia. Qed.

Lemma dcompare_value : forall x y, dwf x -> dwf y -> dcompare x y = mcompare (dval x) (dval y).
Proof.
  intros [ | [] | m1 e1] [ | [] | m2 e2] H1 H2; try reflexivity.
  cbn [dcompare dval mcompare]. f_equal. cbn [dwf] in *.
  set (e := Z.min e1 e2).
  replace (e1 + 1074) with ((e1 - e) + (e + 1074)) by lia.
  replace (e2 + 1074) with ((e2 - e) + (e + 1074)) by lia.
  assert (-1074 <= e <= e1 /\ e <= e2) by (unfold e; lia).
  rewrite (pow_split (e1 - e) (e + 1074)), (pow_split (e2 - e) (e + 1074)) by lia. rewrite !Z.mul_assoc. symmetry. apply compare_scale. apply pow_pos. lia.
Qed.

(* ---- rounding ---- *)
Definition kof (a : Z) : Z := Z.log2 a - 52.
Definition qof (a : Z) : Z := a / 2 ^ kof a.
Definition rof (a : Z) : Z := a mod 2 ^ kof a.
Definition up (a : Z) : bool :=
  negb ((rof a <? 2 ^ (kof a - 1)) || ((rof a =? 2 ^ (kof a - 1)) && Z.even (qof a))).
Definition rndp (a : Z) : Z :=
  if kof a <=? 0 then a else (if up a then qof a + 1 else qof a) * 2 ^ kof a.
Definition rnd (n : Z) : Z := Z.sgn n * rndp (Z.abs n).

Lemma kof_bounds : forall a, 0 < a -> 0 < kof a -> 2 ^ (52 + kof a) <= a < 2 ^ (53 + kof a).
Proof.
  intros a H K. unfold kof in *. pose proof (Z.log2_spec a H).
  replace (52 + (Z.log2 a - 52)) with (Z.log2 a) by lia.
  replace (53 + (Z.log2 a - 52)) with (Z.succ (Z.log2 a)) by lia. assumption.
Qed.
Lemma div_parts : forall a p, 0 < p -> a = (a / p) * p + a mod p /\ 0 <= a mod p < p.
Proof. intros a p H. pose proof (Z.div_mod a p ltac:(lia)). pose proof (Z.mod_pos_bound a p H). split; lia. Qed.
Lemma parts : forall a, 0 < a -> 0 < kof a ->
  a = qof a * 2 ^ kof a + rof a /\ 0 <= rof a < 2 ^ kof a /\ 2 ^ 52 <= qof a < 2 ^ 53.
Proof.
  intros a H K. pose proof (pow_pos (kof a) ltac:(lia)) as P.
  destruct (div_parts a (2 ^ kof a) P) as [E R]. fold (qof a) in E. fold (rof a) in E, R.
  split; [ exact E | split; [ exact R | ] ].
  pose proof (kof_bounds a H K) as B. rewrite !pow_split in B by lia.
  change (2 ^ 52) with 4503599627370496 in *. change (2 ^ 53) with 9007199254740992 in *.
  generalize dependent (2 ^ kof a). generalize (qof a), (rof a). intros. nia.
Qed.
Lemma kof_small : forall a, 0 <= a -> (0 < kof a <-> 2 ^ 53 <= a).
Proof.
  intros a H. unfold kof. destruct (Z.eq_dec a 0) as [-> | N].
  - change (Z.log2 0) with 0. change (2 ^ 53) with 9007199254740992. lia.
  - pose proof (Z.log2_le_pow2 a 53 ltac:(lia)). lia.
Qed.
Lemma rndp_small : forall a, 0 <= a < 2 ^ 53 -> rndp a = a.
Proof.
  intros a H. unfold rndp. destruct (kof a <=? 0) eqn:K; [ reflexivity | ].
  apply Z.leb_gt in K. apply kof_small in K; lia.
Qed.
Lemma rndp_exact : forall a, 0 <= a <= 2 ^ 53 -> rndp a = a.
Proof.
  intros a H. destruct (Z.eq_dec a (2 ^ 53)) as [-> | N]; [ vm_compute; reflexivity | ]. apply rndp_small. lia.
Qed.
Lemma rndp_big : forall a, 2 ^ 53 <= a ->
  0 < kof a /\ rndp a = (if up a then qof a + 1 else qof a) * 2 ^ kof a /\
  a = qof a * 2 ^ kof a + rof a /\ 0 <= rof a < 2 ^ kof a /\ 2 ^ 52 <= qof a < 2 ^ 53 /\
  (up a = true -> 0 < rof a).
Proof.
  intros a H. assert (0 < a) by (change (2 ^ 53) with 9007199254740992 in H; lia).
  assert (K : 0 < kof a) by (apply kof_small; lia).
  destruct (parts a ltac:(lia) K) as [E [R Q]].
  split; [ exact K | ]. split; [ unfold rndp; destruct (kof a <=? 0) eqn:?; [ lia | reflexivity ] | ].
  split; [ exact E | ]. split; [ exact R | ]. split; [ exact Q | ].
  unfold up. pose proof (pow_pos (kof a - 1) ltac:(lia)). intros U.
  destruct (rof a <? 2 ^ (kof a - 1)) eqn:L; [ discriminate | ]. lia.
Qed.
Lemma rndp_nonneg : forall a, 0 <= a -> 0 <= rndp a.
Proof.
  intros a H. destruct (Z.lt_ge_cases a (2 ^ 53)) as [L | G]; [ rewrite rndp_small; lia | ].
  destruct (rndp_big a G) as (K & -> & E & R & Q & U). pose proof (pow_pos (kof a) ltac:(lia)).
  change (2 ^ 52) with 4503599627370496 in Q. destruct (up a); nia.
Qed.

Lemma rndp_mono : forall a b, 0 <= a <= b -> rndp a <= rndp b.
Proof.
  intros a b H.
  destruct (Z.lt_ge_cases b (2 ^ 53)) as [L | G].
  { rewrite !rndp_small by lia. lia. }
  destruct (rndp_big b G) as (K & E & Eb & R & Q & U).
  pose proof (pow_pos (kof b) ltac:(lia)) as P.
  assert (Low : 2 ^ (52 + kof b) <= rndp b).
  { rewrite pow_split by lia. rewrite E. change (2 ^ 52) with 4503599627370496 in *. destruct (up b); nia. }
  destruct (Z.lt_ge_cases a (2 ^ 53)) as [L2 | G2].
  { rewrite rndp_small by lia. apply Z.le_trans with (2 ^ (52 + kof b)); [ | exact Low ].
    apply Z.le_trans with (2 ^ 53); [ lia | ]. apply Z.pow_le_mono_r; lia. }
  destruct (rndp_big a G2) as (K2 & E2 & Ea & R2 & Q2 & U2).
  pose proof (pow_pos (kof a) ltac:(lia)) as P2.
  assert (KK : kof a <= kof b) by (unfold kof; pose proof (Z.log2_le_mono a b ltac:(lia)); lia).
  destruct (Z.eq_dec (kof a) (kof b)) as [Ek | Nk].
  - rewrite E2, E. unfold up in *. rewrite Ek in *. clear Low E E2 G G2 Ek.
    assert (HP : 2 ^ kof b = 2 * 2 ^ (kof b - 1)).
    { rewrite <- Z.pow_succ_r by lia. f_equal. lia. }
    set (p := 2 ^ kof b) in *. set (h := 2 ^ (kof b - 1)) in *. clearbody p h.
    set (qa := qof a) in *. set (qb := qof b) in *. set (ra := rof a) in *. set (rb := rof b) in *.
    clearbody qa qb ra rb. apply Z.mul_le_mono_nonneg_r; [ lia | ].
    assert (QQ : qa <= qb) by nia.
    destruct (Z.eq_dec qa qb) as [-> | Nq].
    + assert (ra <= rb) by nia.
      destruct (ra <? h) eqn:X1; destruct (rb <? h) eqn:X2; destruct (ra =? h) eqn:X3; destruct (rb =? h) eqn:X4;
        destruct (Z.even qb); cbn [orb andb negb]; lia.
    + destruct (negb ((ra <? h) || (ra =? h) && Z.even qa)), (negb ((rb <? h) || (rb =? h) && Z.even qb)); lia.
  - apply Z.le_trans with (2 ^ (52 + kof b)); [ | exact Low ].
    apply Z.le_trans with (2 ^ (53 + kof a)); [ | apply Z.pow_le_mono_r; lia ].
    rewrite E2, pow_split by lia. apply Z.mul_le_mono_nonneg_r; [ lia | ].
    change (2 ^ 53) with 9007199254740992 in *. destruct (up a); lia.
Qed.

Lemma sgn_mul_abs : forall n, Z.sgn n * Z.abs n = n. Proof. lia. Qed.
Lemma rnd_opp : forall n, rnd (- n) = - rnd n.
Proof. intros. unfold rnd. rewrite Z.abs_opp, Z.sgn_opp. lia. Qed.
Lemma rnd_nonneg : forall n, 0 <= n -> rnd n = rndp n.
Proof.
  intros n H. unfold rnd. rewrite Z.abs_eq by lia. destruct (Z.eq_dec n 0) as [-> | N]; [ reflexivity | ].
  rewrite Z.sgn_pos by lia. lia.
Qed.
Lemma rnd_mono : forall a b, a <= b -> rnd a <= rnd b.
Proof.
  intros a b H.
  destruct (Z.le_gt_cases 0 a) as [A | A].
  - rewrite !rnd_nonneg by lia. apply rndp_mono. lia.
  - replace a with (- (- a)) by lia. rewrite rnd_opp, (rnd_nonneg (- a)) by lia.
    destruct (Z.le_gt_cases 0 b) as [B | B].
    + rewrite rnd_nonneg by lia. pose proof (rndp_nonneg (- a) ltac:(lia)). pose proof (rndp_nonneg b ltac:(lia)). lia.
    + replace b with (- (- b)) by lia. rewrite rnd_opp, (rnd_nonneg (- b)) by lia.
      pose proof (rndp_mono (- b) (- a) ltac:(lia)). lia.
Qed.
Lemma rnd_exact : forall n, Z.abs n <= 2 ^ 53 -> rnd n = n.
Proof. intros n H. unfold rnd. rewrite rndp_exact by lia. apply sgn_mul_abs. Qed.

(* rounding does not pass a double, here given as m * 2^e in units of 2^-1074 *)
Lemma grid : forall m e q k, Z.abs m < 2 ^ 53 -> -1074 <= e -> 0 < k -> 2 ^ 52 <= q ->
  q * 2 ^ k * 2 ^ 1074 < m * 2 ^ (e + 1074) -> exists j, m * 2 ^ (e + 1074) = j * 2 ^ k * 2 ^ 1074.
Proof.
  intros m e q k Hm He Hk Hq H.
  assert (k <= e).
  { destruct (Z.le_gt_cases k e) as [ | G]; [ assumption | exfalso ].
    assert (A : m * 2 ^ (e + 1074) < 2 ^ 53 * 2 ^ (k - 1 + 1074)).
    { pose proof (pow_pos (e + 1074) ltac:(lia)). 
      apply Z.lt_le_trans with (2 ^ 53 * 2 ^ (e + 1074)); [ nia | ].
      apply Z.mul_le_mono_nonneg_l; [ vm_compute; discriminate | apply Z.pow_le_mono_r; lia ]. }
    assert (B : 2 ^ 52 * 2 ^ k * 2 ^ 1074 <= q * 2 ^ k * 2 ^ 1074).
    { pose proof (pow_pos k ltac:(lia)). pose proof (pow_pos 1074 ltac:(lia)). 
      apply Z.mul_le_mono_nonneg_r; [ lia | ]. apply Z.mul_le_mono_nonneg_r; lia. }
    assert (C : 2 ^ 53 * 2 ^ (k - 1 + 1074) = 2 ^ 52 * 2 ^ k * 2 ^ 1074).
    { rewrite <- !pow_split by lia. f_equal. lia. }
    lia. }
  exists (m * 2 ^ (e - k)). rewrite <- !Z.mul_assoc, <- !pow_split by lia. do 2 f_equal. lia.
Qed.
Lemma rndp_le : forall a m e, 0 <= a -> Z.abs m < 2 ^ 53 -> -1074 <= e ->
  a * 2 ^ 1074 <= m * 2 ^ (e + 1074) -> rndp a * 2 ^ 1074 <= m * 2 ^ (e + 1074).
Proof.
  intros a m e Ha Hm He H.
  destruct (Z.lt_ge_cases a (2 ^ 53)) as [L | G]; [ rewrite rndp_small by lia; lia | ].
  destruct (rndp_big a G) as (K & E & Ea & R & Q & U). pose proof (pow_pos 1074 ltac:(lia)) as P.
  destruct (up a) eqn:Up.
  - specialize (U eq_refl).
    destruct (grid m e (qof a) (kof a) Hm He K ltac:(lia)) as [j Ej].
    { apply Z.lt_le_trans with (a * 2 ^ 1074); [ | exact H ]. apply Z.mul_lt_mono_pos_r; lia. }
    rewrite Ej in *. rewrite E. apply Z.mul_le_mono_nonneg_r; [ lia | ].
    assert (A : a <= j * 2 ^ kof a) by (apply Z.mul_le_mono_pos_r with (2 ^ 1074); lia).
    pose proof (pow_pos (kof a) ltac:(lia)) as PK. apply Z.mul_le_mono_nonneg_r; [ lia | ].
    clear - A U Ea R PK. generalize dependent (2 ^ kof a). intros. nia.
  - apply Z.le_trans with (a * 2 ^ 1074); [ | exact H ]. apply Z.mul_le_mono_nonneg_r; lia.
Qed.
Lemma rndp_ge : forall a m e, 0 <= a -> Z.abs m < 2 ^ 53 -> -1074 <= e ->
  m * 2 ^ (e + 1074) <= a * 2 ^ 1074 -> m * 2 ^ (e + 1074) <= rndp a * 2 ^ 1074.
Proof.
  intros a m e Ha Hm He H.
  destruct (Z.lt_ge_cases a (2 ^ 53)) as [L | G]; [ rewrite rndp_small by lia; lia | ].
  destruct (rndp_big a G) as (K & E & Ea & R & Q & U). pose proof (pow_pos 1074 ltac:(lia)) as P.
  destruct (up a) eqn:Up.
  - apply Z.le_trans with (a * 2 ^ 1074); [ exact H | ]. apply Z.mul_le_mono_nonneg_r; lia.
  - rewrite E. destruct (Z.le_gt_cases (m * 2 ^ (e + 1074)) (qof a * 2 ^ kof a * 2 ^ 1074)) as [ | B]; [ assumption | ].
    exfalso. destruct (grid m e (qof a) (kof a) Hm He K ltac:(lia) B) as [j Ej].
    rewrite Ej in *.
    assert (A : j * 2 ^ kof a <= a) by (apply Z.mul_le_mono_pos_r with (2 ^ 1074); lia).
    assert (C : qof a * 2 ^ kof a < j * 2 ^ kof a) by (apply Z.mul_lt_mono_pos_r with (2 ^ 1074); lia).
    pose proof (pow_pos (kof a) ltac:(lia)) as PK. clear - A C Ea R PK.
    generalize dependent (2 ^ kof a). intros p R Ea A C PK. apply Z.mul_lt_mono_pos_r in C; [ | exact PK ]. nia.
Qed.
Lemma opp_le : forall a b x y, - a * x <= - b * y -> b * y <= a * x. Proof. intros. nia. Qed.
Lemma opp_le2 : forall a b x y, a * x <= b * y -> - b * y <= - a * x. Proof. intros. nia. Qed.
Lemma rnd_le : forall n m e, Z.abs m < 2 ^ 53 -> -1074 <= e ->
  n * 2 ^ 1074 <= m * 2 ^ (e + 1074) -> rnd n * 2 ^ 1074 <= m * 2 ^ (e + 1074).
Proof.
  intros n m e Hm He H. destruct (Z.le_gt_cases 0 n) as [A | A].
  - rewrite (rnd_nonneg n A). apply (rndp_le n m e A Hm He H).
  - apply (opp_le m (rnd n) (2 ^ (e + 1074)) (2 ^ 1074)). rewrite <- rnd_opp, (rnd_nonneg (- n)) by (clear - A; lia).
    apply rndp_ge; [ clear - A; lia | rewrite Z.abs_opp; exact Hm | exact He | apply opp_le2; exact H ].
Qed.
Lemma rnd_ge : forall n m e, Z.abs m < 2 ^ 53 -> -1074 <= e ->
  m * 2 ^ (e + 1074) <= n * 2 ^ 1074 -> m * 2 ^ (e + 1074) <= rnd n * 2 ^ 1074.
Proof.
  intros n m e Hm He H. apply (opp_le (rnd n) m (2 ^ 1074) (2 ^ (e + 1074))). rewrite <- rnd_opp.
  apply rnd_le; [ rewrite Z.abs_opp; exact Hm | exact He | apply opp_le2; exact H ].
Qed.

Lemma of_int_value : forall n, is_int64 n -> dwf (of_int n) /\ dval (of_int n) = MVal (rnd n * 2 ^ 1074).
Proof.
  intros n H. unfold of_int, rnd. set (a := Z.abs n).
  assert (Ha : 0 <= a <= 2 ^ 63) by (unfold is_int64, INT64_MIN, INT64_MAX in H; unfold a; lia).
  destruct (Z.lt_ge_cases a (2 ^ 53)) as [L | G].
  - destruct (Z.log2 a - 52 <=? 0) eqn:K.
    + rewrite rndp_small by lia. cbn [dwf dval]. fold a. unfold a. rewrite sgn_mul_abs. split; [ lia | reflexivity ].
    + apply Z.leb_gt in K. fold (kof a) in K. apply kof_small in K; lia.
  - destruct (rndp_big a G) as (K & E & Ea & R & Q & U).
    fold (kof a). destruct (kof a <=? 0) eqn:KK; [ lia | ]. clear KK.
    fold (qof a). fold (rof a).
    assert (K11 : kof a <= 11).
    { unfold kof. pose proof (Z.log2_le_mono a (2 ^ 63) ltac:(lia)). rewrite Z.log2_pow2 in * by lia. lia. }
    assert (S1 : Z.abs (Z.sgn n) <= 1) by lia.
    unfold up in E. rewrite <- (negb_involutive ((rof a <? 2 ^ (kof a - 1)) || _)).
    fold (up a). fold (up a) in E.
    replace (if negb (up a) then qof a else qof a + 1) with (if up a then qof a + 1 else qof a) by (destruct (up a); reflexivity).
    set (q' := if up a then qof a + 1 else qof a) in *.
    change (2 ^ 53) with 9007199254740992 in *. change (2 ^ 52) with 4503599627370496 in *.
    assert (Hq : 0 <= q' <= 9007199254740992) by (unfold q'; destruct (up a); lia).
    destruct (q' =? 9007199254740992) eqn:X.
    + cbn [dwf dval]. change (2 ^ 53) with 9007199254740992. split; [ lia | ].
      rewrite E. apply Z.eqb_eq in X. rewrite X. f_equal.
      replace (kof a + 1 + 1074) with (1 + (kof a + 1074)) by lia. rewrite !pow_split by lia. change (2 ^ 1) with 2.
      generalize (2 ^ 1074), (2 ^ kof a). intros. lia.
    + cbn [dwf dval]. change (2 ^ 53) with 9007199254740992. apply Z.eqb_neq in X. split; [ nia | ].
      rewrite E, pow_split by lia. f_equal. generalize (2 ^ 1074), (2 ^ kof a). intros. lia.
Qed.
