(* Random numbers: lemmas. *)
From Coq Require Import ZArith List Lia Bool ZifyBool.
Import ListNotations.
From Verif Require Import Base NumModel RandModel RandSpec.
Local Open Scope Z_scope.
Ltac Zify.zify_post_hook ::= idtac.

(* ---- the threshold ---- *)

Lemma threshold_ok : forall bits mask, 0 <= bits -> 0 < mask < 2 ^ bits -> threshold bits mask = 2 ^ bits mod mask.
Proof.
  intros bits mask B M. unfold threshold, uwrap. assert (P : 0 < 2 ^ bits) by lia.
  assert (E : Z.lnot mask mod 2 ^ bits = 2 ^ bits - 1 - mask).
  { unfold Z.lnot. replace (Z.pred (- mask)) with (2 ^ bits - 1 - mask + (-1) * 2 ^ bits) by lia. rewrite Z.mod_add by lia. apply Z.mod_small. lia. }
  rewrite E. replace (2 ^ bits - 1 - mask + 1) with (2 ^ bits - mask) by lia. rewrite (Z.mod_small (2 ^ bits - mask)) by lia.
  replace (2 ^ bits) with (2 ^ bits - mask + 1 * mask) at 2 by lia. rewrite Z.mod_add by lia. reflexivity.
Qed.

Lemma accept_even : forall bits mask, 0 <= bits -> 0 < mask < 2 ^ bits -> evenly_split (2 ^ bits) mask (accept bits mask).
Proof.
  intros bits mask B M. unfold evenly_split, accept. rewrite threshold_ok by assumption. set (N := 2 ^ bits) in *. clearbody N.
  pose proof (Z.div_mod N mask ltac:(lia)) as DM. pose proof (Z.mod_pos_bound N mask ltac:(lia)) as MB.
  set (t := N mod mask) in *. set (q := N / mask) in *. clearbody t q.
  assert (QP : 0 < q) by nia.
  split.
  { intros r v R H. destruct (Z.leb_spec t r); [| discriminate]. assert (E : v = r mod mask) by congruence. rewrite E. apply Z.mod_pos_bound. lia. }
  exists q. split; [exact QP |]. intros v V.
  (* the smallest accepted number for v *)
  set (v0 := if t <=? v then v else v + mask).
  assert (V0 : t <= v0 < t + mask) by (unfold v0; destruct (Z.leb_spec t v); lia).
  assert (VM : forall j, (v0 + j * mask) mod mask = v).
  { intros j. rewrite Z.mod_add by lia. unfold v0. destruct (t <=? v); [| rewrite <- (Z.mul_1_l mask) at 1; rewrite Z.mod_add by lia]; apply Z.mod_small; lia. }
  exists (fun j => v0 + j * mask). split; [| split].
  - intros j J. assert (0 <= j * mask) by nia. assert (j * mask <= (q - 1) * mask) by nia. split; [nia |].
    rewrite VM. destruct (Z.leb_spec t (v0 + j * mask)); [reflexivity | lia].
  - intros i j _ _ E. nia.
  - intros r R H. destruct (Z.leb_spec t r); [| discriminate]. assert (E : r mod mask = v) by congruence.
    pose proof (Z.div_mod (r - v0) mask ltac:(lia)) as D2.
    assert (Z0 : (r - v0) mod mask = 0).
    { rewrite Zminus_mod, E. replace (v0 mod mask) with v; [rewrite Z.sub_diag; reflexivity |]. rewrite <- (VM 0) at 1. f_equal. lia. }
    rewrite Z0, Z.add_0_r in D2. exists ((r - v0) / mask). set (j := (r - v0) / mask) in *. clearbody j. split; nia.
Qed.

(* ---- raw numbers ---- *)

Lemma u_range : forall bits x, 0 <= bits -> 0 <= uwrap bits x < 2 ^ bits.
Proof. intros. unfold uwrap. apply Z.mod_pos_bound. apply Z.pow_pos_nonneg; lia. Qed.

Lemma lor_range : forall n a b, 0 <= n -> 0 <= a < 2 ^ n -> 0 <= b < 2 ^ n -> 0 <= Z.lor a b < 2 ^ n.
Proof.
  intros n a b N A B. assert (0 <= Z.lor a b) by (apply Z.lor_nonneg; lia). split; [assumption |].
  destruct (Z.eq_dec (Z.lor a b) 0) as [-> | NZ]; [lia |]. apply Z.log2_lt_pow2; [lia |]. rewrite Z.log2_lor by lia.
  destruct (Z.eq_dec n 0) as [-> | NN].
  { change (2 ^ 0) with 1 in *. assert (a = 0) by lia. assert (b = 0) by lia. subst. exfalso; apply NZ; reflexivity. }
  apply Z.max_lub_lt.
  - destruct (Z.eq_dec a 0) as [-> |]; [change (Z.log2 0) with 0; lia | apply Z.log2_lt_pow2; lia].
  - destruct (Z.eq_dec b 0) as [-> |]; [change (Z.log2 0) with 0; lia | apply Z.log2_lt_pow2; lia].
Qed.

Definition pwf (p : pcg) : Prop := 0 <= p_state p < 2 ^ 64 /\ 0 <= p_stream p < 2 ^ 64 /\ Z.odd (p_stream p) = true.
Definition rwf (r : rng) : Prop := pwf (fst r) /\ pwf (snd r).

Definition pnext (p : pcg) : pcg := snd (pcg_random p).
Definition pout (p : pcg) : Z := fst (pcg_random p).

Lemma pcg_range : forall p, 0 <= p_state p < 2 ^ 64 -> 0 <= pout p < 2 ^ 32.
Proof.
  intros p S. unfold pout, pcg_random. cbn [fst].
  assert (R : 0 <= Z.shiftr (p_state p) 59 < 32).
  { rewrite Z.shiftr_div_pow2 by lia. split; [apply Z.div_pos; lia |]. apply Z.div_lt_upper_bound; [lia |].
    change (2 ^ 59 * 32) with (2 ^ 64). lia. }
  set (x := u32 (Z.shiftr (Z.lxor (Z.shiftr (p_state p) 18) (p_state p)) 27)).
  assert (X : 0 <= x < 2 ^ 32) by (apply u_range; lia). clearbody x. set (rot := Z.shiftr (p_state p) 59) in *. clearbody rot.
  apply lor_range; [lia | | apply u_range; lia]. rewrite Z.shiftr_div_pow2 by lia.
  assert (0 < 2 ^ rot) by (apply Z.pow_pos_nonneg; lia). split; [apply Z.div_pos; lia |].
  apply Z.div_lt_upper_bound; [lia |]. nia.
Qed.

Lemma pnext_wf : forall p, pwf p -> pwf (pnext p).
Proof.
  intros p (S & T & O). unfold pnext, pcg_random, pwf. cbn [snd p_state p_stream]. split; [apply u_range; lia | auto].
Qed.
Lemma pcg_pair : forall p, pcg_random p = (pout p, pnext p).
Proof. intros p. unfold pout, pnext. apply surjective_pairing. Qed.

Lemma rng_pair : forall r, rng_random r = (pout (fst r) + pout (snd r) * 2 ^ 32, (pnext (fst r), pnext (snd r))) \/ ~ rwf r.
Proof.
  intros r. destruct (Z_le_gt_dec 0 (p_state (fst r))) as [A |]; [| right; intros ((? & _) & _); lia].
  destruct (Z_lt_ge_dec (p_state (fst r)) (2 ^ 64)) as [B |]; [| right; intros ((? & _) & _); lia].
  destruct (Z_le_gt_dec 0 (p_state (snd r))) as [C |]; [| right; intros (_ & (? & _)); lia].
  destruct (Z_lt_ge_dec (p_state (snd r)) (2 ^ 64)) as [D |]; [| right; intros (_ & (? & _)); lia].
  left. unfold rng_random. rewrite !pcg_pair. f_equal.
  pose proof (pcg_range (fst r) ltac:(lia)) as L. pose proof (pcg_range (snd r) ltac:(lia)) as H.
  rewrite Z.shiftl_mul_pow2 by lia. unfold u64, uwrap. rewrite Z.mod_small by nia.
  rewrite Z.lor_comm, <- Z.add_nocarry_lxor, <- Z.add_nocarry_lxor || idtac.
  assert (Z.land (pout (fst r)) (pout (snd r) * 2 ^ 32) = 0).
  { apply Z.bits_inj'. intros k K. rewrite Z.land_spec, Z.bits_0. destruct (Z.lt_ge_cases k 32).
    - rewrite (Z.mul_pow2_bits_low _ 32 k) by lia. apply andb_false_r.
    - rewrite <- (Z.mod_small (pout (fst r)) (2 ^ 32)) by lia. rewrite Z.mod_pow2_bits_high by lia. reflexivity. }
  rewrite Z.add_nocarry_lxor, Z.lxor_lor by assumption. try rewrite Z.lor_comm; reflexivity.
Qed.

(* ---- the period of the generator ---- *)

Lemma iter_add : forall A n m (f : A -> A) x, iter (n + m) f x = iter m f (iter n f x).
Proof. induction n as [| n IH]; intros m f x; [reflexivity |]. cbn [Nat.add iter]. apply IH. Qed.

Section Lcg.
Variables a c u v : Z.
Hypothesis Ha : a = 1 + 4 * u.
Hypothesis Hc : c = 2 * v + 1.
Let f (x : Z) : Z := a * x + c.

Lemma lcg_pow : forall k : nat, exists A C, (forall x, iter (2 ^ k) f x = A * x + C) /\
  (exists t, A = 1 + t * 2 ^ (Z.of_nat k + 2)) /\ (exists t, C = 2 ^ Z.of_nat k * (2 * t + 1)).
Proof.
  induction k as [| k (A & C & H & (t & HA) & (w & HC))].
  - exists a, c. split; [intros x; reflexivity |]. split; [exists u; change (2 ^ (Z.of_nat 0 + 2)) with 4; lia | exists v; change (2 ^ Z.of_nat 0) with 1; lia].
  - exists (A * A), (A * C + C). split; [| split].
    + intros x. cbn [Nat.pow]. rewrite Nat.mul_succ_l, Nat.mul_1_l, iter_add, !H. ring.
    + exists (t + t * t * 2 ^ (Z.of_nat k + 1)). rewrite HA.
      replace (Z.of_nat (S k) + 2) with (Z.of_nat k + 1 + 2) by lia. replace (Z.of_nat k + 2) with (Z.of_nat k + 1 + 1) by lia.
      rewrite !(Z.pow_add_r 2 (Z.of_nat k + 1)) by lia. change (2 ^ 2) with 4. change (2 ^ 1) with 2. ring.
    + exists (w + t * 2 ^ Z.of_nat k * (2 * w + 1)). rewrite HC, HA. replace (Z.of_nat (S k)) with (Z.of_nat k + 1) by lia.
      rewrite !(Z.pow_add_r 2 (Z.of_nat k)) by lia. change (2 ^ 2) with 4. change (2 ^ 1) with 2. ring.
Qed.

Lemma lcg_reach : forall (k : nat) x y, exists n m, iter n f x = y + m * 2 ^ Z.of_nat k.
Proof.
  induction k as [| k IH]; intros x y.
  - exists O, (x - y). cbn [iter]. change (2 ^ Z.of_nat 0) with 1. lia.
  - destruct (IH x y) as (n & m & E). replace (Z.of_nat (S k)) with (Z.of_nat k + 1) by lia. rewrite Z.pow_add_r by lia. change (2 ^ 1) with 2.
    pose proof (Z.div_mod m 2 ltac:(lia)) as DM. pose proof (Z.mod_pos_bound m 2 ltac:(lia)) as MB.
    destruct (Z.eq_dec (m mod 2) 0) as [M0 | M1].
    + exists n, (m / 2). rewrite E. rewrite DM at 1. rewrite M0. ring.
    + destruct (lcg_pow k) as (A & C & H & (t & HA) & (w & HC)).
      exists (n + 2 ^ k)%nat, (m / 2 + 1 + w + t * 2 * (y + m * 2 ^ Z.of_nat k)). rewrite iter_add, H, E, HA, HC.
      replace (m mod 2) with 1 in DM by lia. rewrite Z.pow_add_r by lia. change (2 ^ 2) with 4.
      set (p := 2 ^ Z.of_nat k) in *. clearbody p. replace (m * p) with ((2 * (m / 2) + 1) * p) at 1 by (rewrite <- DM; reflexivity).
      rewrite <- DM. set (h := m / 2) in *. clearbody h. subst m. ring.
Qed.
End Lcg.

Lemma iter_mod : forall n a c x, iter n (fun s => u64 (s * a + c)) (x mod 2 ^ 64) = (iter n (fun s => a * s + c) x) mod 2 ^ 64.
Proof.
  induction n as [| n IH]; intros a c x; [reflexivity |]. cbn [iter]. rewrite <- IH. f_equal.
  unfold u64, uwrap. rewrite <- (Z.add_mod_idemp_l (x mod 2 ^ 64 * a)), Z.mul_mod_idemp_l, Z.add_mod_idemp_l by lia. f_equal. ring.
Qed.

Lemma pnext_iter : forall n p, iter n pnext p = mkpcg (iter n (fun s => u64 (s * multiplier + p_stream p)) (p_state p)) (p_stream p).
Proof.
  induction n as [| n IH]; intros p; [destruct p; reflexivity |]. cbn [iter]. rewrite IH. reflexivity.
Qed.

(* every state is reached from every state *)
Lemma pcg_reaches : forall p s, pwf p -> 0 <= s < 2 ^ 64 -> exists n, iter n pnext p = mkpcg s (p_stream p).
Proof.
  intros p s (P1 & P2 & PO) S. pose proof (proj1 (Z.odd_spec _) PO) as [v PV].
  destruct (lcg_reach multiplier (p_stream p) 1591034055961698251 v eq_refl PV 64 (p_state p) s) as (n & m & E).
  exists n. rewrite pnext_iter. f_equal. rewrite <- (Z.mod_small (p_state p) (2 ^ 64)) by lia. rewrite iter_mod, E.
  change (Z.of_nat 64) with 64. rewrite Z.mod_add by lia. apply Z.mod_small. lia.
Qed.

(* a state whose output is the largest number *)
Definition top_state : Z := 576458553280167936.
Lemma top_out : forall t, pout (mkpcg top_state t) = 4294967295.
Proof. intros t. reflexivity. Qed.

Lemma pcg_top : forall p, pwf p -> exists n, pout (iter n pnext p) = 4294967295.
Proof.
  intros p W. destruct (pcg_reaches p top_state W) as [n E]; [unfold top_state; lia |]. exists n. rewrite E. apply top_out.
Qed.

(* ---- the loops end ---- *)

Lemma accept_top32 : forall mask, 0 < mask < 2 ^ 32 -> accept 32 mask 4294967295 <> None.
Proof.
  intros mask M. unfold accept. rewrite threshold_ok by lia. pose proof (Z.mod_pos_bound (2 ^ 32) mask ltac:(lia)).
  destruct (Z.leb_spec (2 ^ 32 mod mask) 4294967295); [discriminate | lia].
Qed.

Lemma loop32_ends : forall n mask r, accept 32 mask (pout (iter n pnext (fst r))) <> None ->
  exists fuel x, range_loop32 fuel mask false r = Some x.
Proof.
  induction n as [| n IH]; intros mask [p q] H; cbn [fst iter] in H.
  - exists 1%nat. cbn [range_loop32 fst snd]. rewrite pcg_pair. destruct (accept 32 mask (pout p)); [eauto | contradiction].
  - specialize (IH mask (pnext p, pnext q) H). destruct IH as (fuel & x & IH). exists (S (S fuel)). cbn [range_loop32 fst snd negb].
    rewrite pcg_pair. destruct (accept 32 mask (pout p)); [eauto |]. cbn [fst snd negb]. rewrite pcg_pair.
    destruct (accept 32 mask (pout q)); [eauto |]. exists x. exact IH.
Qed.

Lemma rng_pair' : forall r, rwf r -> rng_random r = (pout (fst r) + pout (snd r) * 2 ^ 32, (pnext (fst r), pnext (snd r))).
Proof. intros r W. destruct (rng_pair r) as [H | H]; [exact H | contradiction]. Qed.
Lemma rwf_next : forall r, rwf r -> rwf (pnext (fst r), pnext (snd r)).
Proof. intros r [W1 W2]. split; apply pnext_wf; assumption. Qed.
Lemma rng_range : forall r, rwf r -> 0 <= fst (rng_random r) < 2 ^ 64.
Proof.
  intros r W. rewrite rng_pair' by exact W. cbn [fst]. destruct W as [(W1 & _) (W2 & _)].
  pose proof (pcg_range _ W1). pose proof (pcg_range _ W2). change (2 ^ 64) with (2 ^ 32 * 2 ^ 32). nia.
Qed.

Lemma accept_top64 : forall mask x, 0 < mask < 2 ^ 64 -> 2 ^ 63 <= x -> accept 64 mask x <> None.
Proof.
  intros mask x M X. unfold accept. rewrite threshold_ok by lia. pose proof (Z.mod_pos_bound (2 ^ 64) mask ltac:(lia)).
  assert (2 ^ 64 mod mask < 2 ^ 63 \/ 2 ^ 63 < mask) as [T | T] by lia.
  - destruct (Z.leb_spec (2 ^ 64 mod mask) x); [discriminate | lia].
  - assert (E : 2 ^ 64 mod mask = 2 ^ 64 - mask).
    { replace (2 ^ 64) with (2 ^ 64 - mask + 1 * mask) at 1 by lia. rewrite Z.mod_add by lia. apply Z.mod_small. lia. }
    destruct (Z.leb_spec (2 ^ 64 mod mask) x); [discriminate | lia].
Qed.

Lemma loop64_ends : forall n mask r, rwf r -> 0 < mask < 2 ^ 64 -> pout (iter n pnext (snd r)) = 4294967295 ->
  exists fuel x, range_loop64 fuel mask r = Some x.
Proof.
  induction n as [| n IH]; intros mask [p q] W M H; cbn [snd iter] in H.
  - exists 1%nat. cbn [range_loop64]. rewrite rng_pair' by exact W. cbn [fst snd]. rewrite H.
    destruct W as [(W1 & _) _]. pose proof (pcg_range _ W1). cbn [fst] in *.
    pose proof (accept_top64 mask (pout p + 4294967295 * 2 ^ 32) M ltac:(lia)) as A.
    destruct (accept 64 mask (pout p + 4294967295 * 2 ^ 32)); [eauto | contradiction].
  - destruct (IH mask (pnext p, pnext q) (rwf_next (p, q) W) M H) as (fuel & x & E). exists (S fuel). cbn [range_loop64].
    rewrite rng_pair' by exact W. cbn [fst snd]. destruct (accept 64 mask (pout p + pout q * 2 ^ 32)); [eauto |]. eauto.
Qed.

Lemma range_ends : forall r m, rwf r -> 0 <= m < 2 ^ 64 -> exists fuel x, random_range fuel r m = Some x.
Proof.
  intros r m W M. change (2 ^ 64) with 18446744073709551616 in M. unfold random_range.
  destruct (Z.eqb_spec m 18446744073709551615); [exists O; eauto |].
  destruct (Z.eqb_spec m 4294967295); [exists O; rewrite pcg_pair; eauto |].
  destruct (Z.ltb_spec m 4294967295).
  - destruct (pcg_top (fst r) (proj1 W)) as [k E]. apply loop32_ends with (n := k). rewrite E. apply accept_top32.
    unfold u32, uwrap. rewrite Z.mod_small by lia. lia.
  - destruct (pcg_top (snd r) (proj2 W)) as [k E]. apply (loop64_ends k); [exact W | | exact E].
    unfold u64, uwrap. rewrite Z.mod_small by lia. lia.
Qed.

(* more fuel does not change the result *)
Lemma loop32_mono : forall fuel k mask sel r x, range_loop32 fuel mask sel r = Some x -> range_loop32 (fuel + k) mask sel r = Some x.
Proof.
  induction fuel as [| f IH]; intros k mask sel r x H; [discriminate |]. cbn [range_loop32 Nat.add] in *. rewrite pcg_pair in *.
  destruct (accept 32 mask (pout (if sel then snd r else fst r))); [exact H | apply IH; exact H].
Qed.
Lemma loop64_mono : forall fuel k mask r x, range_loop64 fuel mask r = Some x -> range_loop64 (fuel + k) mask r = Some x.
Proof.
  induction fuel as [| f IH]; intros k mask r x H; [discriminate |]. cbn [range_loop64 Nat.add] in *. destruct (rng_random r) as [y r'].
  destruct (accept 64 mask y); [exact H | apply IH; exact H].
Qed.
Lemma range_mono : forall fuel k r m x, random_range fuel r m = Some x -> random_range (fuel + k) r m = Some x.
Proof.
  intros fuel k r m x H. unfold random_range in *. destruct (m =? 18446744073709551615); [exact H |].
  destruct (m =? 4294967295); [exact H |]. destruct (m <? 4294967295); [apply loop32_mono | apply loop64_mono]; exact H.
Qed.

(* ---- results ---- *)

Lemma accept_range : forall bits mask r v, 0 < mask -> accept bits mask r = Some v -> 0 <= v < mask.
Proof.
  intros bits mask r v M H. unfold accept in H. destruct (threshold bits mask <=? r); [| discriminate].
  assert (E : v = r mod mask) by congruence. rewrite E. apply Z.mod_pos_bound. exact M.
Qed.
Lemma loop32_result : forall fuel mask sel r v r', rwf r -> 0 < mask -> range_loop32 fuel mask sel r = Some (v, r') ->
  0 <= v < mask /\ rwf r'.
Proof.
  induction fuel as [| f IH]; intros mask sel [p q] v r' W M H; [discriminate |]. cbn [range_loop32 fst snd] in H. rewrite pcg_pair in H.
  assert (W' : rwf (if sel then (p, pnext (if sel then q else p)) else (pnext (if sel then q else p), q))).
  { destruct W as [W1 W2]. cbn [fst snd] in *. destruct sel; split; cbn [fst snd]; try assumption; apply pnext_wf; assumption. }
  destruct (accept 32 mask (pout (if sel then q else p))) as [w |] eqn:A.
  - assert (w = v /\ (if sel then (p, pnext (if sel then q else p)) else (pnext (if sel then q else p), q)) = r') as [<- <-] by (split; congruence).
    split; [eapply accept_range; eassumption | exact W'].
  - apply (IH _ _ _ _ _ W' M H).
Qed.
Lemma loop64_result : forall fuel mask r v r', rwf r -> 0 < mask -> range_loop64 fuel mask r = Some (v, r') -> 0 <= v < mask /\ rwf r'.
Proof.
  induction fuel as [| f IH]; intros mask r v r' W M H; [discriminate |]. cbn [range_loop64] in H. rewrite rng_pair' in H by exact W.
  pose proof (rwf_next r W) as W'.
  destruct (accept 64 mask (pout (fst r) + pout (snd r) * 2 ^ 32)) as [w |] eqn:A.
  - assert (w = v /\ (pnext (fst r), pnext (snd r)) = r') as [<- <-] by (split; congruence).
    split; [eapply accept_range; eassumption | exact W'].
  - apply (IH _ _ _ _ W' M H).
Qed.
Lemma range_result : forall fuel r m v r', rwf r -> 0 <= m < 2 ^ 64 -> random_range fuel r m = Some (v, r') -> 0 <= v <= m /\ rwf r'.
Proof.
  intros fuel r m v r' W M H. change (2 ^ 64) with 18446744073709551616 in M. unfold random_range in H.
  destruct (Z.eqb_spec m 18446744073709551615).
  { apply (f_equal (fun o => match o with Some x => x | None => (0, r) end)) in H. pose proof (rng_range r W) as R. rewrite H in R. cbn [fst] in R. split; [lia |].
    rewrite rng_pair' in H by exact W. assert (r' = (pnext (fst r), pnext (snd r))) as -> by congruence. apply rwf_next. exact W. }
  destruct (Z.eqb_spec m 4294967295).
  { rewrite pcg_pair in H. assert (v = pout (fst r) /\ r' = (pnext (fst r), snd r)) as [-> ->] by (split; congruence).
    destruct W as [W1 W2]. pose proof (pcg_range _ (proj1 W1)). split; [lia |]. split; [apply pnext_wf; exact W1 | exact W2]. }
  destruct (Z.ltb_spec m 4294967295).
  - assert (E : u32 (m + 1) = m + 1) by (unfold u32, uwrap; apply Z.mod_small; lia). rewrite E in H.
    destruct (loop32_result _ (m + 1) _ _ _ _ W ltac:(lia) H). split; [lia | assumption].
  - assert (E : u64 (m + 1) = m + 1) by (unfold u64, uwrap; apply Z.mod_small; lia). rewrite E in H.
    destruct (loop64_result _ (m + 1) _ _ _ W ltac:(lia) H). split; [lia | assumption].
Qed.

(* ---- seeds ---- *)

Lemma pcg_init_wf : forall s t, pwf (pcg_init s t).
Proof.
  intros s t. unfold pcg_init. apply pnext_wf. unfold pwf. cbn [p_state p_stream].
  pose proof (u_range 64 (Z.shiftl t 1) ltac:(lia)) as R. split; [apply u_range; lia |]. split.
  - apply lor_range; [lia | exact R | lia].
  - rewrite <- Z.bit0_odd, Z.lor_spec. change (Z.testbit 1 0) with true. apply orb_true_r.
Qed.
Lemma seed_wf : forall seed, rwf (rng_init_seed seed).
Proof.
  intros seed. unfold rng_init_seed. destruct (draw 4 (pcg_init seed (u64 (Z.lnot seed)))) as [a p]. destruct (draw 4 p) as [b p'].
  split; apply pcg_init_wf.
Qed.

(* ---- random.integer ---- *)

Lemma s64_add_wrap : forall mn d x, - 2 ^ 63 <= mn -> 0 <= x <= d -> mn + d < 2 ^ 63 -> s64 (mn + s64 x) = mn + x.
Proof.
  intros mn d x A B C. unfold s64, swrap. change (2 ^ (64 - 1)) with 9223372036854775808. change (2 ^ 64) with 18446744073709551616.
  change (2 ^ 63) with 9223372036854775808 in *.
  rewrite (Z.mod_small x) by lia. destruct (x <? 9223372036854775808) eqn:X.
  - assert ((mn + x) mod 18446744073709551616 = if mn + x <? 0 then mn + x + 18446744073709551616 else mn + x) as ->.
    { destruct (mn + x <? 0) eqn:Q; [| apply Z.mod_small; lia].
      rewrite <- (Z.mod_add _ 1) by lia. rewrite Z.mod_small by lia. lia. }
    destruct (mn + x <? 0) eqn:Q; match goal with |- (if ?c then _ else _) = _ => destruct c eqn:? end; lia.
  - assert ((mn + (x - 18446744073709551616)) mod 18446744073709551616 = if mn + x <? 0 then mn + x + 18446744073709551616 else mn + x) as ->.
    { replace (mn + (x - 18446744073709551616)) with (mn + x + (-1) * 18446744073709551616) by lia. rewrite Z.mod_add by lia.
      destruct (mn + x <? 0) eqn:Q; [| apply Z.mod_small; lia].
      rewrite <- (Z.mod_add _ 1) by lia. rewrite Z.mod_small by lia. lia. }
    destruct (mn + x <? 0) eqn:Q; match goal with |- (if ?c then _ else _) = _ => destruct c eqn:? end; lia.
Qed.

Lemma integer_result : forall fuel r mn mx out r', rwf r -> is_int64 mn -> is_int64 mx -> mn <= mx ->
  rand_integer fuel r (Some mn) (Some mx) = Some (out, r') ->
  exists v o, out = IVal v o /\ mn <= v <= mx /\ rwf r' /\ (mx - mn <= INT64_MAX -> o = false).
Proof.
  intros fuel r mn mx out r' W I1 I2 L H. unfold is_int64, INT64_MIN, INT64_MAX in *. change (2 ^ 63) with 9223372036854775808 in *.
  unfold rand_integer in H. destruct (Z.ltb_spec mx mn); [lia |]. destruct (Z.eqb_spec mn mx).
  { assert (out = IVal mn false /\ r' = r) as [-> ->] by (split; congruence). exists mn, false. repeat split; try lia; try apply W. }
  assert (E : u64 (mx - mn) = mx - mn) by (unfold u64, uwrap; apply Z.mod_small; lia).
  destruct (random_range fuel r (u64 (mx - mn))) as [[x r1] |] eqn:Q; [| discriminate].
  assert (Some (IVal (s64 (mn + s64 x)) (negb (is_int64b (mx - mn)) || negb (is_int64b (mn + s64 x))), r1) = Some (out, r')) as H' by exact H. clear H.
  rewrite E in Q. destruct (range_result fuel r (mx - mn) x r1 W ltac:(lia) Q) as [B W'].
  assert (out = IVal (s64 (mn + s64 x)) (negb (is_int64b (mx - mn)) || negb (is_int64b (mn + s64 x))) /\ r' = r1) as [-> ->] by (split; congruence).
  exists (s64 (mn + s64 x)), (negb (is_int64b (mx - mn)) || negb (is_int64b (mn + s64 x))).
  rewrite (s64_add_wrap mn (mx - mn) x) by lia. split; [reflexivity |]. split; [lia |]. split; [exact W' |].
  intros D. assert (S : s64 x = x).
  { unfold s64, swrap. change (2 ^ (64 - 1)) with 9223372036854775808. change (2 ^ 64) with 18446744073709551616. rewrite Z.mod_small by lia.
    destruct (_ <? _) eqn:?; lia. }
  rewrite S. unfold is_int64b, INT64_MIN, INT64_MAX. change (2 ^ 63) with 9223372036854775808. lia.
Qed.

Lemma integer_ends : forall r mn mx, rwf r -> is_int64 mn -> is_int64 mx -> mn <= mx ->
  exists fuel x, rand_integer fuel r (Some mn) (Some mx) = Some x.
Proof.
  intros r mn mx W I1 I2 L. unfold is_int64, INT64_MIN, INT64_MAX in *. change (2 ^ 63) with 9223372036854775808 in *.
  assert (E : u64 (mx - mn) = mx - mn) by (unfold u64, uwrap; apply Z.mod_small; lia).
  destruct (range_ends r (mx - mn) W ltac:(lia)) as (fuel & [x r'] & Q). exists fuel. unfold rand_integer.
  destruct (mx <? mn); [eauto |]. destruct (mn =? mx); [eauto |]. rewrite E, Q. eauto.
Qed.

(* ---- random.float ---- *)
Lemma float_bits_ok : forall x, 0 <= x < 2 ^ 64 -> float_bits x = 1023 * 2 ^ 52 + x mod 2 ^ 52.
Proof.
  intros x R. unfold float_bits. change (Z.shiftl 1072693248 32) with (1023 * 2 ^ 52).
  assert (A : Z.land x (Z.lnot (Z.shiftl 4293918720 32)) = x mod 2 ^ 52).
  { rewrite <- Z.land_ones by lia. apply Z.bits_inj'. intros n N. rewrite !Z.land_spec, Z.lnot_spec by lia.
    change (Z.shiftl 4293918720 32) with (Z.shiftl (Z.ones 12) 52). rewrite Z.shiftl_spec by lia.
    rewrite (Z.testbit_ones_nonneg 52) by lia.
    destruct (Z.ltb_spec n 52).
    - rewrite (Z.testbit_neg_r _ (n - 52)) by lia. reflexivity.
    - rewrite Z.testbit_ones_nonneg by lia. destruct (Z.ltb_spec (n - 52) 12); [reflexivity |].
      assert (Z.testbit x n = false) as ->; [| reflexivity].
      destruct (Z.eq_dec x 0) as [-> | X]; [apply Z.bits_0 |]. apply Z.bits_above_log2; [lia |].
      assert (Z.log2 x < 64) by (apply Z.log2_lt_pow2; lia). lia. }
  rewrite A. rewrite Z.lor_comm. symmetry. rewrite <- Z.lxor_lor, <- Z.add_nocarry_lxor; [reflexivity | |].
  - rewrite <- Z.shiftl_mul_pow2 by lia. apply Z.bits_inj'. intros n N. rewrite Z.land_spec, Z.bits_0, Z.shiftl_spec by lia.
    destruct (Z.ltb_spec n 52); [rewrite (Z.testbit_neg_r _ (n - 52)) by lia; reflexivity |].
    rewrite Z.mod_pow2_bits_high by lia. apply andb_false_r.
  - rewrite <- Z.shiftl_mul_pow2 by lia. apply Z.bits_inj'. intros n N. rewrite Z.land_spec, Z.bits_0, Z.shiftl_spec by lia.
    destruct (Z.ltb_spec n 52); [rewrite (Z.testbit_neg_r _ (n - 52)) by lia; reflexivity |].
    rewrite Z.mod_pow2_bits_high by lia. apply andb_false_r.
Qed.
Lemma float_result : forall r, rwf r -> rand_float r = (DFin (fst (rng_random r) mod 2 ^ 52) (-52), snd (rng_random r)).
Proof.
  intros r W. pose proof (rng_range r W) as R. unfold rand_float. destruct (rng_random r) as [x r']. cbn [fst snd] in *.
  rewrite float_bits_ok by exact R. pose proof (Z.mod_pos_bound x (2 ^ 52) ltac:(lia)) as B.
  rewrite (Z.add_comm (1023 * 2 ^ 52)), Z.mod_add, Z.div_add by lia. rewrite Z.mod_mod, (Z.div_small (x mod 2 ^ 52)) by lia.
  replace (2 ^ 52 + x mod 2 ^ 52 - 2 ^ 52) with (x mod 2 ^ 52) by lia. reflexivity.
Qed.
