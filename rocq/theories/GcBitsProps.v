(* The mark bitmap stores a color for each slot. *)
From Coq Require Import ZArith List Lia Bool ZifyBool.
Import ListNotations.
From Verif Require Import Base ListZ GcModel GcBits.
Local Open Scope Z_scope.
Ltac Zify.zify_post_hook ::= idtac.

(* ------------------------------------------------------------- spec *)

(* The color of slot [i] in a bitmap: the digit [i mod 16] of its word in
   base 4. *)
Definition slot_color (bm : Z -> Z) (i : Z) : Z := bm (i / 16) / 4 ^ (i mod 16) mod 4.
Definition slot_loc (i : Z) : loc := mkloc (i / 16) (2 * (i mod 16)).
Definition words_ok (bm : Z -> Z) : Prop := forall w, 0 <= bm w < 2 ^ 32.

(* ------------------------------------------------------------- digits *)

Definition digit (v k : Z) : Z := v / 4 ^ k mod 4.

Lemma pow4 : forall k, 0 <= k -> 4 ^ k = 2 ^ (2 * k).
Proof. intros k H. rewrite Z.pow_mul_r by lia. reflexivity. Qed.

Lemma digit_land : forall v k, 0 <= k -> digit v k = Z.land (Z.shiftr v (2 * k)) 3.
Proof.
  intros v k H. unfold digit. rewrite pow4 by lia. rewrite Z.shiftr_div_pow2 by lia.
  change 3 with (Z.ones 2). rewrite Z.land_ones by lia. reflexivity.
Qed.

Lemma digit_bits : forall v k n, 0 <= k -> 0 <= n -> Z.testbit (digit v k) n = (n <? 2) && Z.testbit v (2 * k + n).
Proof.
  intros v k n Hk Hn. rewrite digit_land by lia. rewrite Z.land_spec, Z.shiftr_spec by lia.
  change 3 with (Z.ones 2). rewrite Z.testbit_ones by lia. rewrite (Z.add_comm n).
  destruct (n <? 2) eqn:E; [ replace (0 <=? n) with true by lia | ]; cbn [andb]; [ apply andb_true_r | rewrite andb_false_r; apply andb_false_r ].
Qed.

Lemma digit_range : forall v k, 0 <= digit v k < 4.
Proof. intros. apply Z.mod_pos_bound. lia. Qed.

Lemma digit_ext : forall v v' k k', 0 <= k -> 0 <= k' ->
  Z.testbit v (2 * k) = Z.testbit v' (2 * k') -> Z.testbit v (2 * k + 1) = Z.testbit v' (2 * k' + 1) ->
  digit v k = digit v' k'.
Proof.
  intros v v' k k' Hk Hk' A B. apply Z.bits_inj'. intros n Hn. rewrite !digit_bits by lia.
  destruct (n <? 2) eqn:E; [ | reflexivity ]. cbn [andb].
  assert (n = 0 \/ n = 1) as [-> | ->] by lia; [ rewrite !Z.add_0_r | ]; assumption.
Qed.

Lemma digit_zero : forall v k, 0 <= k -> digit v k = 0 <-> Z.testbit v (2 * k) = false /\ Z.testbit v (2 * k + 1) = false.
Proof.
  intros v k Hk. split.
  - intros E. pose proof (digit_bits v k 0 Hk ltac:(lia)) as A. pose proof (digit_bits v k 1 Hk ltac:(lia)) as B.
    rewrite E in A, B. rewrite Z.add_0_r in A. rewrite Z.testbit_0_l in A, B. cbn [Z.ltb Z.compare Pos.compare Pos.compare_cont andb] in A, B. auto.
  - intros [A B]. rewrite (digit_ext v 0 k 0) by (rewrite ?Z.testbit_0_l; lia || assumption). reflexivity.
Qed.

Lemma word_digits : forall v, 0 <= v < 2 ^ 32 -> (forall k, 0 <= k < 16 -> digit v k = 0) -> v = 0.
Proof.
  intros v Hv H. apply Z.bits_inj'. intros n Hn. rewrite Z.testbit_0_l.
  destruct (Z.ltb_spec n 32) as [L | L].
  - assert (E : n = 2 * (n / 2) \/ n = 2 * (n / 2) + 1) by (Z.div_mod_to_equations; lia).
    assert (R : 0 <= n / 2 < 16) by (Z.div_mod_to_equations; lia).
    pose proof (proj1 (digit_zero v (n / 2) (proj1 R)) (H _ R)) as [A B]. destruct E as [-> | ->]; assumption.
  - destruct (Z.eq_dec v 0) as [-> | N]; [ apply Z.testbit_0_l | ].
    apply Z.bits_above_log2; [ lia | ]. apply Z.log2_lt_pow2; [ lia | ].
    eapply Z.lt_le_trans; [ apply Hv | ]. apply Z.pow_le_mono_r; lia.
Qed.

(* ------------------------------------------------------------- locations *)

Theorem mark_location : forall p i, 0 <= i < SLOTS -> get_mark_location (slot_id p i) = slot_loc i.
Proof.
  intros p i H. unfold SLOTS in H. unfold get_mark_location, slot_loc. cbv zeta.
  assert (E : Z.land (slot_id p i) (PAGE_SIZE - 1) = 64 + 32 * i + 1).
  { change (PAGE_SIZE - 1) with (Z.ones 12). rewrite Z.land_ones by lia. change (2 ^ 12) with 4096.
    unfold slot_id, PAGE_SIZE, SLOTS_OFFS. symmetry. apply Z.mod_unique with (q := p); lia. }
  rewrite E. unfold SLOTS_OFFS. replace (64 + 32 * i + 1 - 64) with (32 * i + 1) by lia.
  assert (U : u32 (32 * i + 1) = 32 * i + 1) by (unfold u32, uwrap; apply Z.mod_small; change (2 ^ 32) with 4294967296; lia).
  rewrite U. rewrite !Z.shiftr_div_pow2 by lia. change (2 ^ 5) with 32. change (2 ^ 4) with 16.
  assert (D : (32 * i + 1) / 32 = i) by (Z.div_mod_to_equations; lia). rewrite D.
  change 15 with (Z.ones 4). rewrite Z.land_ones by lia. change (2 ^ 4) with 16.
  assert (0 <= i mod 16 < 16) by (apply Z.mod_pos_bound; lia).
  f_equal. unfold u32, uwrap. rewrite Z.mod_small by (change (2 ^ 32) with 4294967296; lia). lia.
Qed.
Print Assumptions mark_location.

Theorem advance_location : forall i n, 0 <= i < SLOTS -> 0 <= n <= SLOTS ->
  advance_marking (slot_loc i) n = slot_loc (i + n).
Proof.
  intros i n Hi Hn. unfold SLOTS in *. unfold advance_marking, slot_loc. cbn [l_word l_mask].
  assert (0 <= i mod 16 < 16) by (apply Z.mod_pos_bound; lia).
  assert (U : u32 (2 * (i mod 16) + u32 (n * 2)) = 2 * (i mod 16 + n)).
  { unfold u32, uwrap. change (2 ^ 32) with 4294967296. rewrite (Z.mod_small (n * 2)) by lia. rewrite Z.mod_small by lia. lia. }
  rewrite U. rewrite Z.shiftr_div_pow2 by lia. change (2 ^ 5) with 32.
  change 31 with (Z.ones 5). rewrite Z.land_ones by lia. change (2 ^ 5) with 32.
  f_equal; clear U; Z.div_mod_to_equations; lia.
Qed.
Print Assumptions advance_location.

Lemma get_marking_slot : forall bm i, get_marking bm (slot_loc i) = slot_color bm i.
Proof.
  intros bm i. unfold get_marking, slot_loc, slot_color. cbn [l_word l_mask].
  pose proof (Z.mod_pos_bound i 16 ltac:(lia)). symmetry. apply digit_land. lia.
Qed.

(* ------------------------------------------------------------- setting a mark *)

Lemma state_bits : forall st k, (st = 1 \/ st = 2) -> 0 <= k < 16 -> u32 (Z.shiftl st (2 * k)) = st * 4 ^ k.
Proof.
  intros st k Hs Hk. rewrite Z.shiftl_mul_pow2 by lia. rewrite pow4 by lia.
  unfold u32, uwrap. apply Z.mod_small.
  assert (2 ^ (2 * k) <= 2 ^ 30) by (apply Z.pow_le_mono_r; lia). assert (0 < 2 ^ (2 * k)) by (apply Z.pow_pos_nonneg; lia).
  change (2 ^ 32) with (4 * 2 ^ 30). nia.
Qed.

Lemma mask_bits : forall st k n, (st = 1 \/ st = 2) -> 0 <= k -> 0 <= n ->
  Z.testbit (st * 4 ^ k) n = (n =? 2 * k + (st - 1)).
Proof.
  intros st k n Hs Hk Hn. rewrite pow4 by lia.
  replace (st * 2 ^ (2 * k)) with (2 ^ (2 * k + (st - 1))).
  - rewrite Z.pow2_bits_eqb by lia. rewrite Z.eqb_sym. reflexivity.
  - rewrite Z.pow_add_r by lia. destruct Hs as [-> | ->]; [ change (2 ^ (1 - 1)) with 1 | change (2 ^ (2 - 1)) with 2 ]; lia.
Qed.

Lemma digit_mask : forall st k v, (st = 1 \/ st = 2) -> 0 <= k ->
  Z.land v (st * 4 ^ k) = 0 <-> Z.land (digit v k) st = 0.
Proof.
  intros st k v Hs Hk.
  assert (A : Z.land v (st * 4 ^ k) = 0 <-> Z.testbit v (2 * k + (st - 1)) = false).
  { split.
    - intros E. pose proof (f_equal (fun x => Z.testbit x (2 * k + (st - 1))) E) as Q. cbv beta in Q.
      rewrite Z.land_spec, mask_bits, Z.eqb_refl, andb_true_r, Z.testbit_0_l in Q by lia. exact Q.
    - intros E. apply Z.bits_inj'. intros n Hn. rewrite Z.land_spec, mask_bits, Z.testbit_0_l by lia.
      destruct (n =? 2 * k + (st - 1)) eqn:Q; [ assert (n = 2 * k + (st - 1)) as -> by lia; rewrite E; reflexivity | apply andb_false_r ]. }
  rewrite A. assert (B : Z.testbit v (2 * k + (st - 1)) = Z.testbit (digit v k) (st - 1)).
  { rewrite digit_bits by lia. replace (st - 1 <? 2) with true by lia. reflexivity. }
  rewrite B. pose proof (digit_range v k) as R. set (d := digit v k) in *. clearbody d. clear A B.
  assert (d = 0 \/ d = 1 \/ d = 2 \/ d = 3) as Hd by lia.
  destruct Hs as [-> | ->]; destruct Hd as [-> | [-> | [-> | ->]]]; vm_compute; split; congruence.
Qed.

Lemma digit_set : forall st k j v, (st = 1 \/ st = 2) -> 0 <= k -> 0 <= j ->
  digit (Z.lor v (st * 4 ^ k)) j = if j =? k then Z.lor (digit v k) st else digit v j.
Proof.
  intros st k j v Hs Hk Hj. apply Z.bits_inj'. intros n Hn. rewrite digit_bits, Z.lor_spec, mask_bits by lia.
  destruct (j =? k) eqn:E.
  - assert (j = k) as -> by lia. rewrite Z.lor_spec, digit_bits by lia.
    replace (2 * k + n =? 2 * k + (st - 1)) with (n =? st - 1) by lia.
    assert (Q : Z.testbit st n = (n =? st - 1)).
    { pose proof (mask_bits st 0 n Hs ltac:(lia) Hn) as Q. change (4 ^ 0) with 1 in Q. rewrite Z.mul_1_r in Q. rewrite Q. reflexivity. }
    rewrite Q. destruct (n <? 2) eqn:N; cbn [andb]; [ reflexivity | ]. replace (n =? st - 1) with false by lia. reflexivity.
  - rewrite digit_bits by lia. destruct (n <? 2) eqn:N; cbn [andb]; [ | reflexivity ].
    replace (2 * j + n =? 2 * k + (st - 1)) with false by lia. apply orb_false_r.
Qed.

(* Setting a mark changes the color of one slot, as in GcModel.set_mark. *)
Theorem set_mark_bits : forall bm i st, 0 <= i -> (st = 1 \/ st = 2) ->
  let (b, bm') := set_mark_state_loc bm (slot_loc i) st in
  let (b2, c) := set_mark (slot_color bm) i st in
  b = b2 /\ (forall j, 0 <= j -> slot_color bm' j = c j) /\ (words_ok bm -> words_ok bm').
Proof.
  intros bm i st Hi Hs. unfold set_mark_state_loc, set_mark, slot_loc. cbn [l_word l_mask]. cbv zeta.
  pose proof (Z.mod_pos_bound i 16 ltac:(lia)) as R. rewrite state_bits by (assumption || lia).
  pose proof (digit_mask st (i mod 16) (bm (i / 16)) Hs ltac:(lia)) as DM.
  change (digit (bm (i / 16)) (i mod 16)) with (slot_color bm i) in DM.
  destruct (Z.land (slot_color bm i) st =? 0) eqn:E.
  - assert (Q : Z.land (bm (i / 16)) (st * 4 ^ (i mod 16)) = 0) by (apply DM; lia). rewrite Q. cbn [Z.eqb negb].
    split; [ reflexivity | ]. split.
    + intros j Hj. unfold slot_color at 1. unfold fupd at 1.
      pose proof (Z.mod_pos_bound j 16 ltac:(lia)) as Rj.
      destruct (j / 16 =? i / 16) eqn:W.
      * change (digit (Z.lor (bm (i / 16)) (st * 4 ^ (i mod 16))) (j mod 16) = fupd (slot_color bm) i (Z.lor (slot_color bm i) st) j).
        rewrite digit_set by lia. unfold fupd. destruct (j =? i) eqn:Ji.
        -- assert (j = i) as -> by lia. rewrite Z.eqb_refl. reflexivity.
        -- destruct (j mod 16 =? i mod 16) eqn:Jm.
           ++ exfalso. pose proof (Z.div_mod j 16 ltac:(lia)). pose proof (Z.div_mod i 16 ltac:(lia)). lia.
           ++ unfold slot_color. replace (j / 16) with (i / 16) by lia. reflexivity.
      * unfold fupd. destruct (j =? i) eqn:Ji; [ assert (j = i) by lia; subst; lia | reflexivity ].
    + intros WO w. unfold fupd. destruct (w =? i / 16); [ | apply WO ].
      specialize (WO (i / 16)).
      assert (Hm : 0 <= st * 4 ^ (i mod 16) < 2 ^ 32).
      { rewrite <- state_bits by (assumption || lia). unfold u32, uwrap. apply Z.mod_pos_bound. lia. }
      split; [ apply Z.lor_nonneg; lia | ].
      destruct (Z.eq_dec (Z.lor (bm (i / 16)) (st * 4 ^ (i mod 16))) 0) as [-> | N]; [ lia | ].
      assert (0 <= Z.lor (bm (i / 16)) (st * 4 ^ (i mod 16))) by (apply Z.lor_nonneg; lia).
      apply Z.log2_lt_pow2; [ lia | ]. rewrite Z.log2_lor by lia.
      assert (L : forall x, 0 <= x < 2 ^ 32 -> Z.log2 x < 32).
      { intros x Hx. destruct (Z.eq_dec x 0) as [-> | Nx]; [ reflexivity | apply Z.log2_lt_pow2; lia ]. }
      pose proof (L _ WO). pose proof (L _ Hm). lia.
  - destruct (Z.land (bm (i / 16)) (st * 4 ^ (i mod 16)) =? 0) eqn:Q; [ exfalso; apply Z.eqb_eq in Q; apply DM in Q; lia | ].
    cbn [negb]. split; [ reflexivity | ]. split; [ reflexivity | auto ].
Qed.
Print Assumptions set_mark_bits.

(* ------------------------------------------------------------- all marks of a page *)

Theorem set_marking_page : forall st i, 0 <= st < 3 -> 0 <= i -> slot_color (set_marking_bits st) i = st.
Proof.
  intros st i Hs Hi. unfold slot_color, set_marking_bits. pose proof (Z.mod_pos_bound i 16 ltac:(lia)) as R.
  set (k := i mod 16) in *. clearbody k.
  assert (T : zall 3 0 (fun st => zall 16 0 (fun k => ((let b := (st * 85) mod 256 in b + 256 * b + 65536 * b + 16777216 * b) / 4 ^ k mod 4 =? st))) = true) by (vm_compute; reflexivity).
  pose proof (zall_spec _ _ _ T st ltac:(lia)) as T2. cbv beta in T2. pose proof (zall_spec _ _ _ T2 k ltac:(lia)) as T3. cbv beta in T3.
  apply Z.eqb_eq. exact T3.
Qed.
Print Assumptions set_marking_page.

(* ------------------------------------------------------------- the lowest bit *)

Lemma ctz_spec : forall v, 0 < v -> 0 <= ctz v /\ Z.testbit v (ctz v) = true /\ forall n, 0 <= n < ctz v -> Z.testbit v n = false.
Proof.
  intros [|p|p] H; [ lia | | lia ]. clear H. cbn [ctz]. induction p as [p IH|p IH|]; cbn [ctz_pos].
  - split; [ lia | ]. split; [ reflexivity | intros; lia ].
  - destruct IH as [A [B C]]. split; [ lia | ]. split.
    + change (Zpos p~0) with (2 * Zpos p). replace (1 + ctz_pos p) with (Z.succ (ctz_pos p)) by lia.
      rewrite Z.testbit_even_succ by lia. assumption.
    + intros n Hn. change (Zpos p~0) with (2 * Zpos p). destruct (Z.eq_dec n 0) as [-> | N]; [ apply Z.testbit_even_0 | ].
      replace n with (Z.succ (n - 1)) by lia. rewrite Z.testbit_even_succ by lia. apply C. lia.
  - split; [ lia | ]. split; [ reflexivity | intros; lia ].
Qed.

Lemma ctz_lt : forall v m, 0 < v < 2 ^ m -> 0 <= m -> ctz v < m.
Proof.
  intros v m Hv Hm. destruct (ctz_spec v ltac:(lia)) as [A [B C]]. destruct (Z.ltb_spec (ctz v) m); [ assumption | exfalso ].
  rewrite Z.bits_above_log2 in B; [ discriminate | lia | ]. eapply Z.lt_le_trans; [ | eassumption ]. apply Z.log2_lt_pow2; lia.
Qed.

(* The portable version agrees with the builtin. *)
Theorem find_first_set_same : forall v, 0 < v < 2 ^ 32 -> find_first_set_portable v = Some (ctz v).
Proof.
  intros v Hv. destruct (ctz_spec v ltac:(lia)) as [A [B C]]. pose proof (ctz_lt v 32 Hv ltac:(lia)) as L.
  set (b := ctz v) in *. clearbody b.
  assert (E : Z.land v (u32 (- v)) = 2 ^ b).
  { assert (D : exists q, v = 2 ^ b * (2 * q + 1)).
    { assert (Dv : v = 2 ^ b * (v / 2 ^ b)).
      { pose proof (Z.pow_pos_nonneg 2 b ltac:(lia) A) as P. apply Z.div_exact; [ lia | ].
        rewrite <- Z.land_ones by lia. apply Z.bits_inj'. intros n Hn. rewrite Z.land_spec, Z.testbit_ones, Z.testbit_0_l by lia.
        destruct (n <? b) eqn:Q; [ rewrite C by lia; reflexivity | rewrite andb_false_r; apply andb_false_r ]. }
      assert (O : Z.odd (v / 2 ^ b) = true).
      { rewrite <- Z.bit0_odd, <- Z.shiftr_div_pow2 by lia. rewrite Z.shiftr_spec by lia. rewrite Z.add_0_l. assumption. }
      apply Z.odd_spec in O. destruct O as [q Q]. exists q. rewrite <- Q. assumption. }
    destruct D as [q Dq].
    assert (N : u32 (- v) = 2 ^ b * ((2 * (2 ^ (31 - b) - 1 - q)) + 1)).
    { unfold u32, uwrap. pose proof (Z.pow_pos_nonneg 2 b ltac:(lia) A) as P.
      assert (S32 : 2 ^ 32 = 2 ^ b * (2 * 2 ^ (31 - b))).
      { replace (2 * 2 ^ (31 - b)) with (2 ^ (32 - b)) by (rewrite <- Z.pow_succ_r by lia; f_equal; lia).
        rewrite <- Z.pow_add_r by lia. f_equal. lia. }
      symmetry. apply Z.mod_unique with (q := -1); [ left | ].
      - rewrite S32 in *. clear B C. nia.
      - rewrite S32, Dq. ring. }
    apply Z.bits_inj'. intros n Hn. rewrite Z.land_spec, N, Z.pow2_bits_eqb by lia.
    rewrite Dq. rewrite !(Z.mul_comm (2 ^ b)). rewrite !Z.mul_pow2_bits by lia.
    destruct (Z.ltb_spec n b) as [Ln | Ln].
    - rewrite !Z.testbit_neg_r by lia. cbn [andb]. lia.
    - destruct (Z.eq_dec n b) as [-> | Nb]; [ rewrite Z.sub_diag, !Z.testbit_odd_0, Z.eqb_refl; reflexivity | ].
      replace (n - b) with (Z.succ (n - b - 1)) by lia. rewrite !Z.testbit_odd_succ by lia.
      replace (b =? n) with false by lia.
      replace (2 ^ (31 - b) - 1 - q) with ((Z.lnot q) + 2 ^ (31 - b)) by (unfold Z.lnot; lia).
      assert (Hq : 0 <= q < 2 ^ (31 - b)).
      { pose proof (Z.pow_pos_nonneg 2 b ltac:(lia) A) as P.
        assert (S32 : 2 ^ 32 = 2 ^ b * (2 * 2 ^ (31 - b))).
        { replace (2 * 2 ^ (31 - b)) with (2 ^ (32 - b)) by (rewrite <- Z.pow_succ_r by lia; f_equal; lia).
          rewrite <- Z.pow_add_r by lia. f_equal. lia. }
        rewrite S32 in Hv. clear B C N. nia. }
      replace (Z.lnot q + 2 ^ (31 - b)) with (Z.ones (31 - b) - q) by (rewrite Z.ones_equiv; unfold Z.lnot; lia).
      assert (X : Z.ones (31 - b) - q = Z.ldiff (Z.ones (31 - b)) q).
      { apply Z.sub_nocarry_ldiff. apply Z.bits_inj'. intros j Hj. rewrite Z.ldiff_spec, Z.testbit_ones, Z.testbit_0_l by lia.
        destruct (Z.ltb_spec j (31 - b)) as [Lj | Lj]; [ replace (0 <=? j) with true by lia; apply andb_false_r | ].
        destruct (Z.eq_dec q 0) as [-> | Nq]; [ rewrite Z.testbit_0_l; reflexivity | ].
        rewrite (Z.bits_above_log2 q j); [ reflexivity | lia | ]. apply Z.lt_le_trans with (31 - b); [ | assumption ].
        apply (proj1 (Z.log2_lt_pow2 q (31 - b) ltac:(clear - Nq Hq; lia))). apply Hq. }
      rewrite X, Z.ldiff_spec. destruct (Z.testbit q (n - b - 1)); [ cbn [negb andb]; rewrite andb_false_r; reflexivity | reflexivity ]. }
  unfold find_first_set_portable. rewrite E.
  assert (T : zall 32 0 (fun b => match gz de_bruijn_bit_pos (Z.shiftr (u32 (2 ^ b * 125613361)) 27) with Some x => x =? b | None => false end) = true)
    by (vm_compute; reflexivity).
  pose proof (zall_spec _ _ _ T b ltac:(lia)) as Q. cbv beta in Q.
  destruct (gz de_bruijn_bit_pos (Z.shiftr (u32 (2 ^ b * 125613361)) 27)) as [x|]; [ | discriminate ].
  f_equal. lia.
Qed.
Print Assumptions find_first_set_same.

(* ------------------------------------------------------------- clearing *)

Lemma digit_clear : forall v n k, 0 <= n < 16 -> 0 <= k < 16 ->
  digit (Z.land v (u32 (Z.shiftl 4294967295 (n * 2)))) k = if k <? n then 0 else digit v k.
Proof.
  intros v n k Hn Hk.
  assert (M : forall m, 0 <= m < 32 -> Z.testbit (u32 (Z.shiftl 4294967295 (n * 2))) m = (2 * n <=? m)).
  { intros m Hm. unfold u32, uwrap. rewrite Z.mod_pow2_bits_low by lia. rewrite Z.shiftl_spec by lia.
    change 4294967295 with (Z.ones 32). destruct (Z.leb_spec (2 * n) m) as [L | L].
    - rewrite Z.testbit_ones by lia. lia.
    - apply Z.testbit_neg_r. lia. }
  destruct (k <? n) eqn:E.
  - apply digit_zero; [ lia | ]. rewrite !Z.land_spec, !M by lia.
    replace (2 * n <=? 2 * k) with false by lia. replace (2 * n <=? 2 * k + 1) with false by lia. rewrite !andb_false_r. auto.
  - apply digit_ext; try lia; rewrite Z.land_spec, M by lia.
    + replace (2 * n <=? 2 * k) with true by lia. apply andb_true_r.
    + replace (2 * n <=? 2 * k + 1) with true by lia. apply andb_true_r.
Qed.

Lemma word_of : forall j, 0 <= j -> 16 * (j / 16) <= j < 16 * (j / 16) + 16 /\ j mod 16 = j - 16 * (j / 16) /\ 0 <= j / 16.
Proof. intros j H. Z.div_mod_to_equations. lia. Qed.

Lemma clear_words_ok : forall fuel bm w n, 0 <= w -> 0 <= n < 16 * Z.of_nat fuel -> forall j, 0 <= j ->
  slot_color (clear_words fuel bm w n) j = if (16 * w <=? j) && (j <? 16 * w + n) then 0 else slot_color bm j.
Proof.
  induction fuel as [|k IH]; intros bm w n Hw Hn j Hj; cbn [clear_words]; [ lia | ].
  destruct (word_of j Hj) as [R [Em R0]].
  destruct (16 <=? n) eqn:E.
  - rewrite IH by lia. unfold slot_color. unfold fupd.
    destruct ((16 * (w + 1) <=? j) && (j <? 16 * (w + 1) + (n - 16))) eqn:A.
    + replace ((16 * w <=? j) && (j <? 16 * w + n)) with true by lia. reflexivity.
    + destruct (j / 16 =? w) eqn:B.
      * replace ((16 * w <=? j) && (j <? 16 * w + n)) with true by lia. rewrite Z.div_0_l by (apply Z.pow_nonzero; lia). reflexivity.
      * replace ((16 * w <=? j) && (j <? 16 * w + n)) with false by lia. reflexivity.
  - destruct (n =? 0) eqn:N.
    + replace ((16 * w <=? j) && (j <? 16 * w + n)) with false by lia. reflexivity.
    + unfold slot_color, fupd. destruct (j / 16 =? w) eqn:B.
      * assert (j / 16 = w) as W by lia. rewrite W in *.
        change (digit (Z.land (bm w) (u32 (Z.shiftl 4294967295 (n * 2)))) (j mod 16) =
                if (16 * w <=? j) && (j <? 16 * w + n) then 0 else digit (bm w) (j mod 16)).
        rewrite digit_clear by lia. replace ((16 * w <=? j) && (j <? 16 * w + n)) with (j mod 16 <? n) by lia. reflexivity.
      * replace ((16 * w <=? j) && (j <? 16 * w + n)) with false by lia. reflexivity.
Qed.

Theorem clear_page_slots : forall bm n j, 0 <= n <= SLOTS -> 0 <= j ->
  slot_color (clear_page_bits bm (32 * n)) j = if j <? n then 0 else slot_color bm j.
Proof.
  intros bm n j Hn Hj. unfold SLOTS in Hn. unfold clear_page_bits. rewrite Z.shiftr_div_pow2 by lia. change (2 ^ 5) with 32.
  rewrite (Z.mul_comm 32), Z.div_mul by lia. rewrite clear_words_ok by lia.
  replace ((16 * 0 <=? j) && (j <? 16 * 0 + n)) with (j <? n) by lia. reflexivity.
Qed.
Print Assumptions clear_page_slots.

(* ------------------------------------------------------------- skipping *)

Lemma skip_words_ok : forall fuel bm e w, words_ok bm -> 0 <= w ->
  match skip_words fuel bm (16 * w) e w with
  | Some (v, p, w') => w < w' /\ p = 16 * w' /\ p < e /\ v = bm w' /\ v <> 0 /\
                       forall j, 16 * (w + 1) <= j < 16 * w' -> slot_color bm j = 0
  | None => forall j, 16 * (w + 1) <= j < e -> j < 16 * (w + 1 + Z.of_nat fuel) -> slot_color bm j = 0
  end.
Proof.
  assert (Zw : forall bm w j, bm w = 0 -> 16 * w <= j < 16 * (w + 1) -> slot_color bm j = 0).
  { intros bm w j E Hj. unfold slot_color. replace (j / 16) with w by (Z.div_mod_to_equations; lia). rewrite E.
    rewrite Z.div_0_l; [ reflexivity | ]. pose proof (Z.mod_pos_bound j 16 ltac:(lia)). apply Z.pow_nonzero; lia. }
  induction fuel as [|k IH]; intros bm e w WO Hw; cbn [skip_words].
  - intros j A B. lia.
  - destruct (e <=? 16 * w + 16) eqn:E; [ intros j A B; lia | ].
    destruct (bm (w + 1) =? 0) eqn:V.
    + specialize (IH bm e (w + 1) WO ltac:(lia)). replace (16 * (w + 1)) with (16 * w + 16) in IH by lia.
      destruct (skip_words k bm (16 * w + 16) e (w + 1)) as [[[v p] w']|].
      * destruct IH as [A [B [C [D [F G]]]]]. repeat split; try lia; try assumption.
        intros j Hj. destruct (Z.ltb_spec j (16 * (w + 1 + 1))); [ apply (Zw bm (w + 1)); lia | apply G; lia ].
      * intros j A B. destruct (Z.ltb_spec j (16 * (w + 1 + 1))); [ apply (Zw bm (w + 1)); lia | apply IH; lia ].
    + repeat split; try lia.
Qed.

Lemma found_ok : forall v, 0 < v < 2 ^ 32 ->
  let s := Z.shiftr (ctz v) 1 in
  0 <= s < 16 /\ Z.land (Z.shiftr v (s * 2)) 3 = digit v s /\ digit v s <> 0 /\ forall k, 0 <= k < s -> digit v k = 0.
Proof.
  intros v Hv s. destruct (ctz_spec v ltac:(lia)) as [A [B C]]. pose proof (ctz_lt v 32 Hv ltac:(lia)) as L.
  unfold s. rewrite Z.shiftr_div_pow2 by lia. change (2 ^ 1) with 2. clear s.
  assert (R : 0 <= ctz v / 2 < 16 /\ (ctz v = 2 * (ctz v / 2) \/ ctz v = 2 * (ctz v / 2) + 1)) by (Z.div_mod_to_equations; lia).
  destruct R as [R1 R2]. set (s := ctz v / 2) in *. clearbody s.
  split; [ lia | ]. split; [ rewrite digit_land by lia; f_equal; f_equal; lia | ]. split.
  - intros E. apply digit_zero in E; [ | lia ]. destruct E as [E1 E2]. destruct R2 as [Q | Q]; rewrite Q in B; congruence.
  - intros k Hk. apply digit_zero; [ lia | ]. split; apply C; lia.
Qed.

Lemma digit_shift : forall v k j, 0 <= k -> 0 <= j -> digit (Z.shiftr v (2 * k)) j = digit v (k + j).
Proof.
  intros v k j Hk Hj. apply digit_ext; try lia; rewrite Z.shiftr_spec by lia; f_equal; lia.
Qed.

(* The next slot with a mark. *)
Theorem skip_white_slots : forall bm i e, words_ok bm -> 0 <= i < 128 -> e <= 128 ->
  (forall j, e <= j < 128 -> slot_color bm j = 0) ->
  match skip_white_bits bm i e (slot_loc i) with
  | (v, p, m) =>
      (v = 0 /\ forall j, i <= j < e -> slot_color bm j = 0) \/
      (v <> 0 /\ i <= p < e /\ v = slot_color bm p /\ m = slot_loc p /\ forall j, i <= j < p -> slot_color bm j = 0)
  end.
Proof.
  intros bm i e WO Hi He Hz. unfold skip_white_bits. cbv zeta. cbn [slot_loc l_word l_mask].
  destruct (word_of i ltac:(lia)) as [R [Em R0]]. pose proof (WO (i / 16)) as Hv.
  assert (Lt : forall p, 0 <= p < 128 -> slot_color bm p <> 0 -> p < e).
  { intros p Hp N. destruct (Z.ltb_spec p e); [ assumption | exfalso; apply N; apply Hz; lia ]. }
  assert (Col : forall w k, 0 <= k < 16 -> slot_color bm (16 * w + k) = digit (bm w) k).
  { intros w k Hk. unfold slot_color, digit. replace ((16 * w + k) / 16) with w by (Z.div_mod_to_equations; lia).
    replace ((16 * w + k) mod 16) with k by (Z.div_mod_to_equations; lia). reflexivity. }
  set (w := i / 16) in *. set (k := i mod 16) in *. assert (Ei : i = 16 * w + k) by lia.
  assert (Hk : 0 <= k < 16) by lia. clearbody w k.
  set (value := Z.shiftr (bm w) (2 * k)).
  assert (DV : forall j, 0 <= j -> digit value j = digit (bm w) (k + j)) by (intros j Hj; apply digit_shift; lia).
  assert (Vr : 0 <= value < 2 ^ 32).
  { unfold value. rewrite Z.shiftr_div_pow2 by lia. pose proof (Z.pow_pos_nonneg 2 (2 * k) ltac:(lia) ltac:(lia)).
    split; [ apply Z.div_pos; lia | ]. apply Z.div_lt_upper_bound; [ lia | nia ]. }
  assert (D0 : Z.land value 3 = digit (bm w) k).
  { replace k with (k + 0) at 1 by lia. rewrite <- DV by lia. rewrite digit_land by lia. rewrite Z.mul_0_r, Z.shiftr_0_r. reflexivity. }
  rewrite D0. destruct (digit (bm w) k =? 0) eqn:E0; cbn [negb].
  2:{ right. subst i. rewrite Col by lia. pose proof (Lt (16 * w + k) Hi) as L. rewrite Col in L by lia.
      repeat split; try lia. }
  assert (S1 : Z.shiftr (2 * k) 1 = k).
  { rewrite Z.shiftr_div_pow2 by lia. change (2 ^ 1) with 2. rewrite (Z.mul_comm 2). apply Z.div_mul. lia. }
  destruct (value =? 0) eqn:V0.
  - assert (Value0 : value = 0) by lia.
    assert (W0 : forall j, i <= j < 16 * (w + 1) -> slot_color bm j = 0).
    { intros j Hj. replace j with (16 * w + (j - 16 * w)) by lia. rewrite Col by lia.
      replace (j - 16 * w) with (k + (j - i)) by lia. rewrite <- DV by lia. rewrite Value0. unfold digit.
      rewrite Z.div_0_l; [ reflexivity | apply Z.pow_nonzero; lia ]. }
    rewrite S1. replace (i - k) with (16 * w) by lia.
    pose proof (skip_words_ok 8 bm e w WO R0) as SW. destruct (skip_words 8 bm (16 * w) e w) as [[[v p] w']|].
    + destruct SW as [A [B [C [D [F G]]]]]. pose proof (WO w') as Hw'.
      destruct (found_ok v ltac:(lia)) as [Q1 [Q2 [Q3 Q4]]]. cbv zeta in Q1, Q2, Q3, Q4.
      set (s := Z.shiftr (ctz v) 1) in *. clearbody s. right. rewrite Q2. subst p v.
      rewrite <- (Col w' s Q1) in Q3 |- *.
      assert (w' < 8) by lia.
      split; [ assumption | ]. split; [ split; [ lia | apply Lt; [ lia | assumption ] ] | ]. split; [ reflexivity | ]. split.
      * unfold slot_loc. f_equal; [ Z.div_mod_to_equations; lia | ].
        unfold u32, uwrap. rewrite Z.mod_small by (change (2 ^ 32) with 4294967296; lia). Z.div_mod_to_equations; lia.
      * intros j Hj. destruct (Z.ltb_spec j (16 * (w + 1))); [ apply W0; lia | ].
        destruct (Z.ltb_spec j (16 * w')); [ apply G; lia | ]. replace j with (16 * w' + (j - 16 * w')) by lia. rewrite Col by lia. apply Q4. lia.
    + left. split; [ reflexivity | ]. intros j Hj. destruct (Z.ltb_spec j (16 * (w + 1))); [ apply W0; lia | apply SW; lia ].
  - destruct (found_ok value ltac:(lia)) as [Q1 [Q2 [Q3 Q4]]]. cbv zeta in Q1, Q2, Q3, Q4.
    set (s := Z.shiftr (ctz value) 1) in *. clearbody s. right. rewrite Q2. rewrite DV in Q3 |- * by lia.
    assert (Ks : k + s < 16).
    { destruct (Z.ltb_spec (k + s) 16); [ assumption | exfalso ]. apply Q3. apply digit_zero; [ lia | ].
      assert (B : forall n, 32 <= n -> Z.testbit (bm w) n = false).
      { intros n Hn. destruct (Z.eq_dec (bm w) 0) as [-> | N]; [ apply Z.testbit_0_l | ].
        apply Z.bits_above_log2; [ lia | ]. apply Z.lt_le_trans with 32; [ | assumption ]. apply Z.log2_lt_pow2; lia. }
      split; apply B; lia. }
    rewrite <- (Col w (k + s) ltac:(lia)) in Q3 |- *. replace (16 * w + (k + s)) with (i + s) in * by lia.
    split; [ assumption | ]. split; [ split; [ lia | apply Lt; [ lia | assumption ] ] | ]. split; [ reflexivity | ]. split.
    + unfold slot_loc. f_equal; [ clear - Ei Ks Hk Q1; Z.div_mod_to_equations; lia | ].
      unfold u32, uwrap. rewrite Z.mod_small by (change (2 ^ 32) with 4294967296; lia). clear - Ei Ks Hk Q1. Z.div_mod_to_equations; lia.
    + intros j Hj. replace j with (16 * w + (k + (j - i))) by lia. rewrite Col by lia. rewrite <- DV by lia. apply Q4. lia.
Qed.
Print Assumptions skip_white_slots.

(* The search agrees with the one in GcModel.v. *)
Theorem skip_white_model : forall bm c page i e fuel, words_ok bm -> 0 <= i < 128 -> e <= 128 ->
  (forall j, e <= j < 128 -> slot_color bm j = 0) ->
  (forall j, 0 <= j < 128 -> c (slot_id page j) = slot_color bm j) -> e - i <= Z.of_nat fuel ->
  skip_white fuel c (slot_id page i) (slot_id page e) =
  match skip_white_bits bm i e (slot_loc i) with
  | (v, p, _) => if v =? 0 then None else Some (slot_id page p)
  end.
Proof.
  intros bm c page i e fuel WO Hi He Hz Hc Hf.
  pose proof (skip_white_slots bm i e WO Hi He Hz) as K.
  destruct (skip_white_bits bm i e (slot_loc i)) as [[v p] m].
  assert (N : forall fuel i, 0 <= i < 128 -> (forall j, i <= j < e -> slot_color bm j = 0) -> skip_white fuel c (slot_id page i) (slot_id page e) = None).
  { clear - Hc He. induction fuel as [|n IH]; intros i Hi H; cbn [skip_white]; [ reflexivity | ].
    destruct (slot_id page i <? slot_id page e) eqn:L; [ | reflexivity ].
    assert (i < e) by (unfold slot_id in L; lia). rewrite Hc by lia. rewrite H by lia. cbn [Z.eqb].
    replace (slot_id page i + 32) with (slot_id page (i + 1)) by (unfold slot_id; lia).
    destruct (Z.eq_dec (i + 1) 128) as [E | E].
    - destruct n as [|n]; cbn [skip_white]; [ reflexivity | ].
      replace (slot_id page (i + 1) <? slot_id page e) with false by (unfold slot_id; lia). reflexivity.
    - apply IH; [ lia | ]. intros j Hj. apply H. lia. }
  assert (Y : forall fuel i, 0 <= i <= p -> p < e -> slot_color bm p <> 0 -> (forall j, i <= j < p -> slot_color bm j = 0) ->
     e - i <= Z.of_nat fuel -> skip_white fuel c (slot_id page i) (slot_id page e) = Some (slot_id page p)).
  { clear - Hc He. induction fuel as [|n IH]; intros i Hi Hp Hn H Hf; cbn [skip_white]; [ lia | ].
    replace (slot_id page i <? slot_id page e) with true by (unfold slot_id; lia). rewrite Hc by lia.
    destruct (Z.eq_dec i p) as [-> | D].
    - replace (slot_color bm p =? 0) with false by lia. reflexivity.
    - rewrite H by lia. cbn [Z.eqb]. replace (slot_id page i + 32) with (slot_id page (i + 1)) by (unfold slot_id; lia).
      apply IH; try lia. intros j Hj. apply H. lia. }
  destruct K as [[-> K] | [V [Hp [Ev [_ K]]]]].
  - cbn [Z.eqb]. apply N; assumption.
  - replace (v =? 0) with false by lia. apply Y; try lia. assumption.
Qed.
Print Assumptions skip_white_model.

(* ------------------------------------------------------------- example *)

Definition bits_example : Z -> Z :=
  let set bm i st := snd (set_mark_state_loc bm (get_mark_location (slot_id 7 i)) st) in
  set (set (set (set_marking_bits 0) 5 1) 5 2) 70 2.

Example bits_example_ok :
  map (slot_color bits_example) [4; 5; 6; 69; 70; 71] = [0; 3; 0; 0; 2; 0] /\
  skip_white_bits bits_example 0 100 (slot_loc 0) = (3, 5, slot_loc 5) /\
  skip_white_bits bits_example 6 100 (slot_loc 6) = (2, 70, slot_loc 70) /\
  skip_white_bits bits_example 71 100 (slot_loc 71) = (0, 71, slot_loc 71) /\
  map (slot_color (clear_page_bits bits_example (32 * 70))) [5; 69; 70] = [0; 0; 2] /\
  find_first_set_portable 5120 = Some 10.
Proof. vm_compute. repeat split. Qed.
