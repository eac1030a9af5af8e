(* Proofs about unpack. *)
From Coq Require Import ZArith List Lia Bool ZifyBool.
Import ListNotations.
From Verif Require Import Base ListZ IndexModel ArraySpec Utf8Model Utf8Spec Utf8Main BufferModel BufferSpec BufferProofs ArrayProofs
  PackModel PackSpec PackProofs PackProofs2 PackProofs3.
Local Open Scope Z_scope.
Ltac Zify.zify_post_hook ::= idtac.

(* ---- the directives read before an error are the directives of a prefix of the format ---- *)
Lemma parse_prefix : forall fuel big s, (length s <= fuel)%nat ->
  exists s1 s2, s = s1 ++ s2 /\ format big s1 (fst (parse fuel big s)).
Proof.
  assert (NIL : forall big s, exists s1 s2 : list Z, s = s1 ++ s2 /\ format big s1 []).
  { intros big s. exists [], s. split; [reflexivity |]. constructor. constructor. }
  induction fuel as [| fuel IH]; intros big s L.
  - destruct s; [apply NIL | cbn [length] in L; lia].
  - destruct s as [| c0 s0] eqn:ES; [apply NIL |]. cbn [parse]. rewrite <- ES in *.
    destruct (skip_spaces_split s) as (sp & SP & E1 & NS).
    destruct (skip_spaces s) as [| c1 s1'] eqn:SS; [apply NIL |].
    set (s1 := c1 :: s1') in *. clear ES.
    destruct (read_count s1) as [[n s2] |] eqn:RC; [| apply NIL].
    destruct (read_count_inv s1 n s2 NS RC) as (pre & CP & E2 & NE).
    destruct s2 as [| c t] eqn:ES2; [contradiction |].
    assert (LT : (length t <= fuel)%nat) by (pose proof (shorter s sp s1 pre (c :: t) t c E1 E2 eq_refl); lia).
    assert (APP : forall a b : list Z, sp ++ pre ++ c :: a ++ b = (sp ++ pre ++ c :: a) ++ b).
    { intros a b. rewrite <- !app_assoc. reflexivity. }
    destruct (Z.eqb_spec c 60) as [-> |].
    { destruct (IH false t LT) as (x & y & E & F). exists (sp ++ pre ++ 60 :: x), y. split; [rewrite E1, E2, E; apply APP | eapply F_little; eauto]. }
    destruct (Z.eqb_spec c 62) as [-> |].
    { destruct (IH true t LT) as (x & y & E & F). exists (sp ++ pre ++ 62 :: x), y. split; [rewrite E1, E2, E; apply APP | eapply F_big; eauto]. }
    cbv zeta.
    destruct (Z.eqb_spec c 120) as [-> | N120].
    { destruct (IH big t LT) as (x & y & E & F). destruct (parse fuel big t) as [ds ok]. cbn [fst] in *.
      change (1 =? NOSIZE) with false. exists (sp ++ pre ++ 120 :: x), y. split; [rewrite E1, E2, E; apply APP | apply F_pad; auto]. }
    destruct ((c =? 117) || (c =? 105) || (c =? 102) || (c =? 98) || (c =? 115)) eqn:SC; [| apply NIL].
    apply sized_in in SC.
    destruct (read_size c t) as [[size r] |] eqn:RS; [| apply NIL].
    assert (ND : forall a b : list Z, no_digit (a ++ b) -> no_digit a) by (intros [| q a] b H; [exact Logic.I | exact H]).
    destruct (read_size_inv c t size r RS) as [(num & HN & E3 & NDG) | (C & EN & E3 & NDG)].
    + assert (LR : (length r <= fuel)%nat) by (rewrite E3, app_length in LT; lia).
      destruct (IH big r LR) as (x & y & E & F). destruct (parse fuel big r) as [ds ok]. cbn [fst] in *.
      pose proof (number_bound num size HN). destruct (Z.eqb_spec size NOSIZE); [unfold NOSIZE in *; lia |].
      exists (sp ++ pre ++ c :: num ++ x), y. split.
      * rewrite E1, E2, E3, E, <- APP, <- app_assoc. reflexivity.
      * apply F_sized; auto. apply (ND x y). rewrite <- E. exact NDG.
    + subst c size t. destruct (IH big r LT) as (x & y & E & F). destruct (parse fuel big r) as [ds ok]. cbn [fst] in *. rewrite Z.eqb_refl.
      exists (sp ++ pre ++ 115 :: x), y. split; [rewrite E1, E2, E; apply APP | apply F_string; auto].
      apply (ND x y). rewrite <- E. exact NDG.
Qed.

(* ---- integers ---- *)

Lemma step_lor : forall v x, 0 <= v < 2 ^ 56 -> is_byte x -> Z.lor (u64 (Z.shiftl v 8)) x = v * 256 + x.
Proof.
  intros v x V B. unfold is_byte in B. rewrite Z.shiftl_mul_pow2 by lia. change (2 ^ 8) with 256.
  unfold u64, uwrap. rewrite Z.mod_small by (change (2 ^ 56) with 72057594037927936 in V; lia).
  apply (lor_hi (v * 256) x v 8); change (2 ^ 8) with 256; lia.
Qed.

Lemma le_value_app : forall a b, le_value (a ++ b) = le_value a + 256 ^ len a * le_value b.
Proof.
  induction a as [| x a IH]; intros b; [change (len (@nil Z)) with 0; cbn [app le_value]; change (256 ^ 0) with 1; lia |].
  cbn [app le_value]. rewrite IH, len_cons, Z.pow_add_r by (try lia; apply len_nonneg). change (256 ^ 1) with 256. ring.
Qed.
Lemma le_value_range : forall l, Forall is_byte l -> 0 <= le_value l < 256 ^ len l.
Proof.
  induction 1 as [| x l B F IH]; [cbn; lia |]. cbn [le_value]. rewrite len_cons, Z.pow_add_r by (try lia; apply len_nonneg).
  change (256 ^ 1) with 256. unfold is_byte in B. lia.
Qed.
Lemma be_value_cons : forall x l, be_value (x :: l) = be_value l + 256 ^ len l * x.
Proof.
  intros x l. unfold be_value. cbn [rev]. rewrite le_value_app. f_equal. f_equal; [f_equal; unfold len; rewrite rev_length; reflexivity |].
  cbn [le_value]. lia.
Qed.
Lemma rev_len : forall l : list Z, len (rev l) = len l.
Proof. intros l. unfold len. rewrite rev_length. reflexivity. Qed.
Lemma be_value_range : forall l, Forall is_byte l -> 0 <= be_value l < 256 ^ len l.
Proof. intros l F. unfold be_value. rewrite <- (rev_len l). apply le_value_range. apply Forall_rev. exact F. Qed.

Lemma pow256_step : forall i v x, 0 <= i -> 0 <= v < 256 ^ i -> is_byte x -> 0 <= v * 256 + x < 256 ^ (i + 1).
Proof. intros i v x I V B. rewrite Z.pow_add_r by lia. change (256 ^ 1) with 256. unfold is_byte in B. lia. Qed.
Lemma pow256_56 : forall i v, 0 <= i < 8 -> 0 <= v < 256 ^ i -> 0 <= v < 2 ^ 56.
Proof.
  intros i v I V. assert (256 ^ i <= 256 ^ 7) by (apply Z.pow_le_mono_r; lia). change (256 ^ 7) with (2 ^ 56) in *. lia.
Qed.

Lemma get_be : forall x1 i v pre x post size, i = len x1 -> 0 <= v < 256 ^ i -> Forall is_byte x -> i + len x <= 8 ->
  get_uint (length x) i size true v (pre ++ x1 ++ x ++ post) (len pre) = BOk (v * 256 ^ len x + be_value x).
Proof.
  intros x1 i v pre x. revert x1 i v. induction x as [| a x IH]; intros x1 i v post size I V F L8.
  - cbn [length get_uint]. f_equal. change (len (@nil Z)) with 0. change (256 ^ 0) with 1. change (be_value []) with 0. lia.
  - inversion F as [| a0 x0 Fa Fx]; subst a0 x0. rewrite len_cons in *. pose proof (len_nonneg _ x). pose proof (len_nonneg _ x1).
    cbn [length get_uint].
    replace (pre ++ x1 ++ (a :: x) ++ post) with ((pre ++ x1) ++ [a] ++ (x ++ post)) by (rewrite <- !app_assoc; reflexivity).
    rewrite rd_range_ok by (rewrite ?len_app; try reflexivity; lia). cbn [bbind nth].
    rewrite step_lor by (try assumption; apply (pow256_56 i); lia).
    specialize (IH (x1 ++ [a]) (i + 1) (v * 256 + a) post size).
    replace (pre ++ (x1 ++ [a]) ++ x ++ post) with ((pre ++ x1) ++ [a] ++ x ++ post) in IH by (rewrite <- !app_assoc; reflexivity).
    rewrite IH; [| rewrite len_app; change (len [a]) with 1; lia | apply pow256_step; auto; lia | exact Fx | lia].
    f_equal. rewrite be_value_cons, Z.pow_add_r by lia. change (256 ^ 1) with 256. ring.
Qed.

Lemma get_le : forall n i v pre x post size, length x = n -> size - i = len x -> 0 <= i -> 0 <= v < 256 ^ i -> Forall is_byte x -> size <= 8 ->
  get_uint n i size false v (pre ++ x ++ post) (len pre) = BOk (v * 256 ^ len x + le_value x).
Proof.
  induction n as [| n IH]; intros i v pre x post size LX SI I0 V F S8.
  - destruct x; [| discriminate]. cbn [get_uint]. f_equal. change (len (@nil Z)) with 0. change (256 ^ 0) with 1. change (le_value []) with 0. lia.
  - destruct (rev x) as [| a r] eqn:R; [apply (f_equal (@length Z)) in R; rewrite rev_length in R; cbn [length] in R; lia |].
    assert (EX : x = rev r ++ [a]) by (rewrite <- (rev_involutive x), R; reflexivity).
    set (x0 := rev r) in *. subst x. rewrite len_app in *. change (len [a]) with 1 in *. rewrite app_length in LX. cbn [length] in LX.
    apply Forall_app in F. destruct F as [F0 Fa]. inversion Fa as [| a0 l0 Fa1 _]; subst a0 l0. pose proof (len_nonneg _ x0).
    cbn [get_uint].
    replace (pre ++ (x0 ++ [a]) ++ post) with ((pre ++ x0) ++ [a] ++ post) by (rewrite <- !app_assoc; reflexivity).
    rewrite rd_range_ok by (rewrite ?len_app; try reflexivity; lia). cbn [bbind nth].
    rewrite step_lor by (try assumption; apply (pow256_56 i); lia).
    rewrite <- app_assoc. rewrite (IH (i + 1) (v * 256 + a) pre x0 ([a] ++ post)); try lia; try assumption; [| apply pow256_step; auto; lia].
    f_equal. rewrite le_value_app. cbn [le_value]. rewrite Z.pow_add_r by lia. change (256 ^ 1) with 256. ring.
Qed.

Lemma get_uint_ok : forall n big pre x post, len x = n -> n <= 8 -> Forall is_byte x ->
  get_uint (Z.to_nat n) 0 n big 0 (pre ++ x ++ post) (len pre) = BOk (if big then be_value x else le_value x).
Proof.
  intros n big pre x post L N8 F. rewrite <- L, to_nat_len. pose proof (len_nonneg _ x). destruct big.
  - pose proof (get_be [] 0 0 pre x post (len x) eq_refl ltac:(cbn; lia) F ltac:(lia)) as G. cbn [app] in G. rewrite G. reflexivity.
  - rewrite (get_le (length x) 0 0 pre x post (len x)); [f_equal; lia | reflexivity | lia | lia | cbn; lia | exact F | lia].
Qed.

(* ---- strings ---- *)

Lemma text_codes : forall l cs c, text false l cs -> In c cs -> 0 <= c < 2 ^ 21.
Proof.
  intros l cs c T. induction T as [| code bs t cs L N T IH | | ]; try discriminate; [intros [] |].
  intros [<- | I]; [| auto]. change (2 ^ 21) with 2097152. destruct L; unfold cont_byte in *; lia.
Qed.

Lemma string_from_ok : forall addr pre x post sz, Forall is_byte x -> len pre + len x <= sz ->
  match string_from_buffer addr (Buf sz (pre ++ x ++ post) false) (len pre) (len pre + len x) with
  | POk cs => text false x cs /\ len cs <= 65535
  | PExn _ => forall cs, text false x cs -> len cs <= 65535 -> False
  | PBad => False
  end.
Proof.
  intros addr pre x post sz F L. unfold string_from_buffer. cbn [b_size b_data]. pose proof (len_nonneg _ x).
  destruct (Z.ltb_spec (len pre + len x) (len pre)); [lia |]. destruct (Z.ltb_spec sz (len pre + len x)); [lia |]. cbn [orb].
  rewrite rd_range_ok by (try reflexivity; lia).
  pose proof (get_len_loop_spec (length x) false (addr + len pre) x 0 0 F ltac:(lia) ltac:(lia)) as P.
  unfold get_len. destruct (get_len_loop (length x) false (addr + len pre) x 0 0) as [[n m] | |]; cbn [len_post] in P.
  - destruct P as (cs & T & EN & M0 & CB & MC).
    assert (M21 : m < 2 ^ 21).
    { destruct MC as [-> | [M | M]]; [reflexivity | change (2 ^ 21) with 2097152; lia | apply (text_codes x cs m T M)]. }
    destruct (Z.ltb_spec 65535 n) as [BIG | SM].
    + intros cs' T' L'. rewrite (text_det _ _ _ T' _ T) in L'. unfold len in L'. lia.
    + assert (DE : forall w, (w = 8 \/ w = 16 \/ w = 32) -> m < 2 ^ w -> decode w false x = Ok cs).
      { intros w W MW. unfold decode. rewrite (decode_loop_spec w false x cs W T); [reflexivity | | lia].
        intros c I. destruct (CB c I) as [_ [C | C]]; [| lia]. assert (128 <= 2 ^ w) by (destruct W as [-> | [-> | ->]]; cbn; lia). lia. }
      change (2 ^ 21) with 2097152 in M21.
      destruct (Z.ltb_spec m 256); [rewrite DE; [split; [exact T | unfold len; lia] | auto | exact H2] |].
      destruct (Z.ltb_spec m 65536); [rewrite DE; [split; [exact T | unfold len; lia] | auto | exact H3] |].
      rewrite DE; [split; [exact T | unfold len; lia] | auto | change (2 ^ 32) with 4294967296; lia].
  - intros cs T _. apply P. exists cs. exact T.
  - exact P.
Qed.

(* ---- one field ---- *)

Lemma reads_det : forall fp big c x v, reads_as fp big c x v -> forall v', reads_as fp big c x v' -> v = v'.
Proof.
  intros fp big c x v H. destruct H; intros v' H'; inversion H'; subst; try reflexivity; try lia.
  f_equal. eapply text_det; eassumption.
Qed.

Lemma pow_consts : forall n, n = 1 \/ n = 2 \/ n = 4 -> forall x, 0 <= x < 256 ^ n ->
  Z.shiftr (s64 (Z.shiftl x (64 - 8 * n))) (64 - 8 * n) = if x <? 2 ^ (8 * n - 1) then x else x - 2 ^ (8 * n).
Proof.
  assert (G : forall k x, 8 <= k <= 56 -> 0 <= x < 2 ^ k -> Z.shiftr (s64 (Z.shiftl x (64 - k))) (64 - k) =
     if x <? 2 ^ (k - 1) then x else x - 2 ^ k).
  { intros k x K X. rewrite Z.shiftl_mul_pow2 by lia. rewrite Z.shiftr_div_pow2 by lia. unfold s64, swrap.
    assert (P : 0 < 2 ^ (64 - k)) by (apply Z.pow_pos_nonneg; lia).
    assert (E64 : 2 ^ 64 = 2 ^ (64 - k) * 2 ^ k) by (rewrite <- Z.pow_add_r by lia; f_equal; lia).
    assert (E63 : 2 ^ (64 - 1) = 2 ^ (64 - k) * 2 ^ (k - 1)) by (rewrite <- Z.pow_add_r by lia; f_equal; lia).
    cbv zeta. rewrite Z.mod_small by (rewrite E64; nia). rewrite E63.
    destruct (Z.ltb_spec x (2 ^ (k - 1))).
    - destruct (Z.ltb_spec (x * 2 ^ (64 - k)) (2 ^ (64 - k) * 2 ^ (k - 1))); [| nia]. apply Z.div_mul. lia.
    - destruct (Z.ltb_spec (x * 2 ^ (64 - k)) (2 ^ (64 - k) * 2 ^ (k - 1))); [nia |].
      rewrite E64. replace (x * 2 ^ (64 - k) - 2 ^ (64 - k) * 2 ^ k) with ((x - 2 ^ k) * 2 ^ (64 - k)) by ring. apply Z.div_mul. lia. }
  intros n N x X. apply G; [lia |]. rewrite Z.pow_mul_r by lia. exact X.
Qed.

Lemma s64_val : forall x, 0 <= x < 256 ^ 8 -> s64 x = if x <? 2 ^ 63 then x else x - 2 ^ 64.
Proof.
  intros x X. unfold s64, swrap. change (256 ^ 8) with (2 ^ 64) in X. cbv zeta. rewrite Z.mod_small by lia. change (64 - 1) with 63. reflexivity.
Qed.

Lemma unpack_one_ok : forall fp addr big c n sz pre x post, len x = n -> Forall is_byte x -> field_ok c (Some n) = true ->
  len pre + n <= sz -> sz < 2 ^ 32 - 64 ->
  match unpack_one fp addr (Buf sz (pre ++ x ++ post) false) big c n (len pre) with
  | POk v => reads_as fp big c x v
  | PExn _ => forall v, ~ reads_as fp big c x v
  | PBad => False
  end.
Proof.
  intros fp addr big c n sz pre x post L F FO SZ SM. pose proof (len_nonneg _ x). pose proof (len_nonneg _ pre).
  change (2 ^ 32 - 64) with CAP in SM. unfold unpack_one.
  destruct (field_chars c n FO) as [[C HS] | [[-> HS] | [-> | ->]]].
  - assert (C2 : (c =? 102) || (c =? 105) || (c =? 117) = true) by lia. rewrite C2. cbn [b_data].
    rewrite get_uint_ok by (try assumption; lia).
    set (val := if big then be_value x else le_value x).
    assert (RV : 0 <= val < 256 ^ n).
    { unfold val. rewrite <- L. destruct big; [apply be_value_range | apply le_value_range]; exact F. }
    assert (RV8 : 0 <= val < 256 ^ 8).
    { assert (256 ^ n <= 256 ^ 8) by (apply Z.pow_le_mono_r; lia). lia. }
    destruct (Z.eqb_spec c 105) as [-> | NI]; cbn [andb].
    + destruct (Z.ltb_spec n 8).
      * cbv zeta. rewrite pow_consts by (try assumption; lia). rewrite <- L. apply R_i.
      * assert (n = 8) by lia. change (105 =? 102) with false. cbv iota. rewrite s64_val by exact RV8.
        pose proof (R_i fp big x) as R. cbv zeta in R. fold val in R. rewrite L, H2 in R. exact R.
    + assert (c = 117) by lia. subst c. change (117 =? 102) with false. cbv iota.
      rewrite s64_val by exact RV8. apply (R_u fp big x).
  - change ((102 =? 102) || (102 =? 105) || (102 =? 117)) with true. change ((102 =? 105) && (n <? 8)) with false.
    change (102 =? 102) with true. cbv iota. cbn [b_data]. rewrite get_uint_ok by (try assumption; lia).
    destruct HS as [-> | ->].
    + change (4 =? 4) with true. cbv iota.
      assert (RV : 0 <= (if big then be_value x else le_value x) < 256 ^ 4).
      { rewrite <- L. destruct big; [apply be_value_range | apply le_value_range]; exact F. }
      rewrite u32_small by (change (256 ^ 4) with 4294967296 in RV; lia). apply R_f4. exact L.
    + change (8 =? 4) with false. cbv iota. apply R_f8. exact L.
  - change ((98 =? 102) || (98 =? 105) || (98 =? 117)) with false. change (98 =? 98) with true. cbv iota.
    destruct (Z.eqb_spec n 0) as [N0 | N0].
    { destruct x; [apply R_b | rewrite len_cons in L; pose proof (len_nonneg _ x); lia]. }
    cbn [b_data]. rewrite rd_range_ok by (try reflexivity; lia). cbn [bbind].
    pose proof (align_cap_ok n ltac:(lia)) as [Ha Hb]. unfold new_buffer. cbn [b_data].
    assert (Ea : alloc (align_cap n) = [] ++ repeat junk (Z.to_nat n) ++ alloc (align_cap n - n)).
    { unfold alloc. cbn [app]. rewrite <- repeat_app. f_equal. lia. }
    rewrite Ea, wr_range_ok by (try reflexivity; rewrite len_repeat; lia). cbn [bbind app].
    rewrite firstn_app_len by lia. apply R_b.
  - change ((115 =? 102) || (115 =? 105) || (115 =? 117)) with false. change (115 =? 98) with false. cbv iota.
    destruct (Z.eqb_spec n 0) as [N0 | N0].
    { destruct x; [apply R_s; [constructor | discriminate] | rewrite len_cons in L; pose proof (len_nonneg _ x); lia]. }
    rewrite u32_small by lia. rewrite <- L.
    pose proof (string_from_ok addr pre x post sz F ltac:(lia)) as P.
    destruct (string_from_buffer addr (Buf sz (pre ++ x ++ post) false) (len pre) (len pre + len x)) as [cs | |].
    + apply R_s; apply P.
    + intros v R. inversion R; subst; eauto.
    + exact P.
Qed.
