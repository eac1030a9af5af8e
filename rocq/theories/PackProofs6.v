(* pack followed by unpack. *)
From Coq Require Import ZArith List Lia Bool ZifyBool.
Import ListNotations.
From Verif Require Import Base ListZ IndexModel ArraySpec Utf8Model Utf8Spec Utf8Main BufferModel BufferSpec BufferProofs ArrayProofs
  PackModel PackSpec PackProofs PackProofs2 PackProofs3 PackProofs4 PackProofs5.
Local Open Scope Z_scope.
Ltac Zify.zify_post_hook ::= idtac.

Lemma mod_byte : forall z, 0 <= z mod 256 < 256.
Proof. intros z. apply Z.mod_pos_bound. lia. Qed.

Lemma le_value_le_bytes : forall n z, le_value (le_bytes n z) = z mod 256 ^ Z.of_nat n.
Proof.
  induction n as [| n IH]; intros z.
  - change (256 ^ Z.of_nat 0) with 1. rewrite Z.mod_1_r. reflexivity.
  - rewrite le_bytes_S. cbn [le_value]. rewrite IH. replace (Z.of_nat (Datatypes.S n)) with (1 + Z.of_nat n) by lia.
    rewrite Z.pow_add_r by lia. change (256 ^ 1) with 256. rewrite Z.rem_mul_r; [lia | lia |]. apply Z.pow_pos_nonneg; lia.
Qed.
Lemma le_bytes_are_bytes : forall n z, Forall is_byte (le_bytes n z).
Proof.
  intros n z. unfold le_bytes. apply Forall_forall. intros x I. apply in_map_iff in I. destruct I as (k & <- & _).
  unfold is_byte. pose proof (mod_byte (z / 256 ^ Z.of_nat k)). lia.
Qed.
Lemma int_bytes_are_bytes : forall big n z, Forall is_byte (int_bytes big n z).
Proof. intros big n z. unfold int_bytes. destruct big; [apply Forall_rev |]; apply le_bytes_are_bytes. Qed.
Lemma int_bytes_value : forall (big : bool) n z, 0 <= n ->
  (if big then be_value (int_bytes big n z) else le_value (int_bytes big n z)) = z mod 256 ^ n.
Proof.
  intros big n z N. unfold int_bytes, be_value. destruct big; rewrite ?rev_involutive, le_value_le_bytes, Z2Nat.id by lia; reflexivity.
Qed.

Lemma utf8_layout : forall c, 0 <= c < 2 ^ 21 -> layout c (utf8_char c).
Proof.
  intros c C. change (2 ^ 21) with 2097152 in C. unfold utf8_char.
  assert (DM : forall k, 0 < k -> c = k * (c / k) + c mod k /\ 0 <= c mod k < k).
  { intros k K. split; [apply Z.div_mod; lia | apply Z.mod_pos_bound; lia]. }
  destruct (Z.ltb_spec c 128); [constructor; lia |].
  destruct (Z.ltb_spec c 2048).
  { destruct (DM 64 ltac:(lia)). replace c with ((192 + c / 64 - 0xC0) * 64 + (128 + c mod 64 - 0x80)) at 1 by lia.
    constructor; unfold cont_byte; lia. }
  assert (M2 : forall k, 0 < k -> 0 <= c / k mod 64 < 64 /\ c / k = 64 * (c / k / 64) + c / k mod 64).
  { intros k K. split; [apply Z.mod_pos_bound; lia | apply Z.div_mod; lia]. }
  assert (D1 : c / 64 / 64 = c / 4096) by (rewrite Z.div_div by lia; reflexivity).
  assert (D2 : c / 4096 / 64 = c / 262144) by (rewrite Z.div_div by lia; reflexivity).
  destruct (DM 64 ltac:(lia)). destruct (M2 64 ltac:(lia)). destruct (M2 4096 ltac:(lia)).
  destruct (Z.ltb_spec c 65536).
  - replace c with ((224 + c / 4096 - 0xE0) * 4096 + (128 + c / 64 mod 64 - 0x80) * 64 + (128 + c mod 64 - 0x80)) at 1 by lia.
    constructor; unfold cont_byte; lia.
  - replace c with ((240 + c / 262144 - 0xF0) * 262144 + (128 + c / 4096 mod 64 - 0x80) * 4096 + (128 + c / 64 mod 64 - 0x80) * 64 + (128 + c mod 64 - 0x80)) at 1 by lia.
    constructor; unfold cont_byte; lia.
Qed.

Lemma utf8_text : forall cs, Forall (fun x => 0 <= x < 2 ^ 21) cs -> text false (utf8 cs) cs.
Proof.
  induction 1 as [| c cs C F IH]; [constructor |]. unfold utf8 in *. cbn [flat_map]. apply T_char; [apply utf8_layout; exact C | discriminate | exact IH].
Qed.
Lemma layout_bytes : forall c bs, layout c bs -> Forall is_byte bs.
Proof. intros c bs L. destruct L; unfold cont_byte in *; repeat constructor; unfold is_byte; lia. Qed.
Lemma utf8_bytes : forall cs, Forall (fun x => 0 <= x < 2 ^ 21) cs -> Forall is_byte (utf8 cs).
Proof.
  induction 1 as [| c cs C F IH]; [constructor |]. unfold utf8 in *. cbn [flat_map]. apply Forall_app. split; [| exact IH].
  eapply layout_bytes. apply utf8_layout. exact C.
Qed.
Lemma fit_exact : forall l, fit (len l) l = l.
Proof.
  intros l. unfold fit. rewrite Z.sub_diag, to_nat_len. cbn [Z.to_nat repeat]. rewrite firstn_all, app_nil_r. reflexivity.
Qed.
Lemma codes_range : forall cs, Forall (fun x => 0 <= x) cs -> forallb (fun x => x <? 2 ^ 21) cs = true -> Forall (fun x => 0 <= x < 2 ^ 21) cs.
Proof.
  intros cs F H. rewrite forallb_forall in H. rewrite Forall_forall in *. intros x I. specialize (F x I). specialize (H x I).
  cbv beta in H. lia.
Qed.

Lemma pow256 : forall n, 0 <= n -> 256 ^ n = 2 ^ (8 * n).
Proof. intros n N. rewrite Z.pow_mul_r by lia. reflexivity. Qed.

(* one field with a size *)
Lemma field_reads : forall fp self big c n v x, exact fp c (Some n) v -> field_ok c (Some n) = true -> 0 <= n ->
  field fp self big c (Some n) v = Some x -> len x = n /\ Forall is_byte x /\ reads_as fp big c x v.
Proof.
  intros fp self big c n v x EX FO N0 FD.
  assert (HS : (c = 117 \/ c = 105) -> n = 1 \/ n = 2 \/ n = 4 \/ n = 8).
  { intros C. destruct (field_chars c n FO) as [[_ HS] | [[C2 _] | [C2 | C2]]]; [exact HS | lia | lia | lia]. }
  destruct v as [z | f | l | | cs | l |]; try contradiction.
  - destruct EX as (n' & E & EX). assert (n' = n) by congruence. subst n'. clear E.
    destruct EX as [[-> EX] | [-> EX]].
    + specialize (HS (or_introl eq_refl)). unfold field in FD. change ((117 =? 117) || (117 =? 105)) with true in FD. cbn [int_value option_map] in FD.
      assert (x = int_bytes big n z) by congruence. subst x. clear FD. split; [apply int_bytes_len; lia |]. split; [apply int_bytes_are_bytes |].
      pose proof (R_u fp big (int_bytes big n z)) as R. cbv zeta in R. rewrite int_bytes_value in R by lia.
      assert (EV : (if z mod 256 ^ n <? 2 ^ 63 then z mod 256 ^ n else z mod 256 ^ n - 2 ^ 64) = z).
      { destruct EX as [[N8 Z8] | [-> Z8]].
        - rewrite pow256 by lia. rewrite Z.mod_small by lia.
          assert (2 ^ (8 * n) <= 2 ^ 63) by (apply Z.pow_le_mono_r; lia). destruct (Z.ltb_spec z (2 ^ 63)); lia.
        - change (256 ^ 8) with (2 ^ 64). change (2 ^ 64) with 18446744073709551616. change (2 ^ 63) with 9223372036854775808 in *.
          destruct (Z.lt_ge_cases z 0).
          + assert (EM : z mod 18446744073709551616 = z + 18446744073709551616).
            { replace z with (z + 18446744073709551616 + (-1) * 18446744073709551616) at 1 by lia. rewrite Z.mod_add by lia. apply Z.mod_small. lia. }
            rewrite EM. destruct (Z.ltb_spec (z + 18446744073709551616) 9223372036854775808); lia.
          + rewrite Z.mod_small by lia. destruct (Z.ltb_spec z 9223372036854775808); lia. }
      rewrite EV in R. exact R.
    + specialize (HS (or_intror eq_refl)). unfold field in FD. change ((105 =? 117) || (105 =? 105)) with true in FD. cbn [int_value option_map] in FD.
      assert (x = int_bytes big n z) by congruence. subst x. clear FD. split; [apply int_bytes_len; lia |]. split; [apply int_bytes_are_bytes |].
      pose proof (R_i fp big (int_bytes big n z)) as R. cbv zeta in R. rewrite int_bytes_value, int_bytes_len in R by lia. rewrite pow256 in R by lia.
      assert (D : 2 ^ (8 * n) = 2 * 2 ^ (8 * n - 1)) by (rewrite <- Z.pow_succ_r by lia; f_equal; lia).
      assert (EV : (if z mod 2 ^ (8 * n) <? 2 ^ (8 * n - 1) then z mod 2 ^ (8 * n) else z mod 2 ^ (8 * n) - 2 ^ (8 * n)) = z).
      { rewrite D. set (p := 2 ^ (8 * n - 1)) in *. clearbody p. destruct (Z.lt_ge_cases z 0).
        - assert (EM : z mod (2 * p) = z + 2 * p).
          { replace z with (z + 2 * p + (-1) * (2 * p)) at 1 by lia. rewrite Z.mod_add by lia. apply Z.mod_small. lia. }
          rewrite EM. destruct (Z.ltb_spec (z + 2 * p) p); lia.
        - rewrite Z.mod_small by lia. destruct (Z.ltb_spec z p); lia. }
      rewrite EV in R. exact R.
  - destruct EX as (-> & EX). unfold field in FD. change ((102 =? 117) || (102 =? 105)) with false in FD. change (102 =? 102) with true in FD.
    cbn [float_value option_map] in FD. destruct EX as [[E F8] | (E & FE & F4)].
    + assert (n = 8) by congruence. subst n. change (8 =? 4) with false in FD. cbv iota in FD.
      assert (x = int_bytes big 8 f) by congruence. subst x. clear FD. split; [apply int_bytes_len; lia |]. split; [apply int_bytes_are_bytes |].
      pose proof (R_f8 fp big (int_bytes big 8 f) ltac:(apply int_bytes_len; lia)) as R. rewrite int_bytes_value in R by lia.
      change (256 ^ 8) with (2 ^ 64) in R. rewrite Z.mod_small in R by lia. exact R.
    + assert (n = 4) by congruence. subst n. change (4 =? 4) with true in FD. cbv iota in FD.
      assert (x = int_bytes big 4 (f_to32 fp f)) by congruence. subst x. clear FD. split; [apply int_bytes_len; lia |]. split; [apply int_bytes_are_bytes |].
      pose proof (R_f4 fp big (int_bytes big 4 (f_to32 fp f)) ltac:(apply int_bytes_len; lia)) as R. rewrite int_bytes_value in R by lia.
      change (256 ^ 4) with (2 ^ 32) in R. rewrite Z.mod_small, FE in R by lia. exact R.
  - destruct EX as (-> & E & FB). assert (n = len l) by congruence. subst n. unfold field in FD. change ((98 =? 117) || (98 =? 105)) with false in FD.
    change (98 =? 102) with false in FD. change (98 =? 98) with true in FD. cbv iota in FD. rewrite fit_exact in FD.
    assert (x = l) by congruence. subst x. split; [reflexivity |]. split; [exact FB | apply R_b].
  - destruct EX as (-> & LC & F0 & E). destruct E as [E | E]; [discriminate |]. assert (n = len (utf8 cs)) by congruence. subst n.
    unfold field in FD. change ((115 =? 117) || (115 =? 105)) with false in FD. change (115 =? 102) with false in FD. change (115 =? 98) with false in FD.
    cbv iota in FD. destruct (forallb (fun x => x <? 2 ^ 21) cs) eqn:FB; [| discriminate]. rewrite fit_exact in FD.
    assert (x = utf8 cs) by congruence. subst x. pose proof (codes_range cs F0 FB) as FR. split; [reflexivity |]. split; [apply utf8_bytes; exact FR |].
    apply R_s; [apply utf8_text; exact FR | exact LC].
Qed.

Lemma fields_reads : forall fp big c n, field_ok c (Some n) = true -> 0 <= n -> forall vs self x,
  Forall (exact fp c (Some n)) vs -> fields fp self big c (Some n) vs = Some x ->
  Forall is_byte x /\ reads_n fp big c n (len vs) x vs.
Proof.
  intros fp big c n FO N0. induction vs as [| v vs IH]; intros self x EX FD; cbn [fields] in FD.
  - assert (x = []) by congruence. subst x. split; constructor.
  - inversion EX as [| v0 vs0 E1 E2]; subst v0 vs0. destruct (field fp self big c (Some n) v) as [a |] eqn:FV; [| discriminate].
    destruct (fields fp (self ++ a) big c (Some n) vs) as [y |] eqn:FR; [| discriminate]. cbn [option_map] in FD.
    assert (x = a ++ y) by congruence. subst x. destruct (field_reads fp self big c n v a E1 FO N0 FV) as (La & Fa & Ra).
    destruct (IH (self ++ a) y E2 FR) as [Fy Ry]. split; [apply Forall_app; auto |].
    rewrite len_cons. rewrite (Z.add_comm 1). constructor; auto. apply len_nonneg.
Qed.

Lemma layout_unpacks : forall fp ds vs self x, Forall dir_wf ds -> exact_all fp ds vs -> layout_of fp self ds vs = Some x ->
  Forall is_byte x /\ unpacks fp ds x (used ds vs).
Proof.
  intros fp. induction ds as [| d ds IH]; intros vs self x WD EX LO; cbn [layout_of exact_all used] in *.
  - assert (x = []) by congruence. subst x. split; constructor.
  - inversion WD as [| d0 ds0 W1 W2]; subst d0 ds0.
    destruct (dir_bytes fp self d vs) as [[a vs'] |] eqn:DB; [| discriminate].
    destruct (layout_of fp (self ++ a) ds vs') as [y |] eqn:LY; [| discriminate]. cbn [option_map] in LO.
    assert (x = a ++ y) by congruence. subst x. clear LO. unfold dir_bytes in DB. destruct d as [big c size count].
    unfold dir_wf in W1. cbn [d_big d_chr d_size d_count] in *. destruct W1 as [CNT W1].
    destruct (Z.eqb_spec c 120) as [-> | NX].
    + assert (a = repeat 0 (Z.to_nat count) /\ vs' = vs) as [-> ->] by (split; congruence).
      destruct (IH vs _ y W2 EX LY) as [Fy Uy]. split.
      * apply Forall_app. split; [| exact Fy]. apply Forall_forall. intros b I. apply repeat_spec in I. subst b. unfold is_byte. lia.
      * assert (size = Some 1) as ->. { destruct size as [n |]; [| discriminate W1]. destruct W1 as [_ [[_ ->] | W1]]; [reflexivity | apply sized_in in W1; discriminate W1]. }
        apply U_pad; [rewrite len_repeat; lia | exact Uy].
    + destruct (field_ok c size && (count <=? len vs)) eqn:FC; [| discriminate]. apply andb_prop in FC. destruct FC as [FO LE].
      destruct (fields fp self big c size (firstn (Z.to_nat count) vs)) as [b |] eqn:FD; [| discriminate]. cbn [option_map] in DB.
      assert (a = b /\ vs' = skipn (Z.to_nat count) vs) as [-> ->] by (split; congruence). clear DB.
      destruct EX as (E1 & E2 & E3). destruct (IH _ _ y W2 E3 LY) as [Fy Uy].
      assert (LF : len (firstn (Z.to_nat count) vs) = count) by (rewrite len_firstn; lia).
      destruct size as [n |].
      * destruct W1 as [NB _]. destruct (fields_reads fp big c n FO ltac:(lia) _ _ _ E1 FD) as [Fb Rb]. split; [apply Forall_app; auto |].
        rewrite LF in Rb. destruct (Z.eq_dec count 0) as [-> | C0].
        -- destruct (reads_n_inv_0 _ _ _ _ _ _ Rb) as [-> Ev]. rewrite Ev. cbn [app]. apply U_none; assumption.
        -- apply U_some; try assumption. lia.
      * destruct (E2 eq_refl) as [-> C1]. rewrite C1 in *. subst c. cbn [layout_of] in LY. assert (y = []) by congruence. subst y. cbn [used]. rewrite !app_nil_r.
        change (Z.to_nat 1) with 1%nat in *. destruct vs as [| v vs]; [cbn in LF; discriminate LF |]. cbn [firstn] in *.
        inversion E1 as [| v0 l0 EV _]; subst v0 l0. destruct v as [z | f | l | | cs | l |]; cbn [exact] in EV; try contradiction.
        -- destruct EV as (n & E & _). discriminate E.
        -- destruct EV as [E _]. discriminate E.
        -- destruct EV as [E _]. discriminate E.
        -- destruct EV as (_ & LC & F0 & _). cbn [fields field] in FD. destruct (forallb (fun x => x <? 2 ^ 21) cs) eqn:FB; [| discriminate].
           cbn [option_map] in FD. rewrite app_nil_r in FD. assert (b = utf8 cs) by congruence. subst b.
           pose proof (codes_range cs F0 FB) as FR. split; [apply utf8_bytes; exact FR |]. apply U_rest; [apply utf8_text; exact FR | exact LC | constructor].
Qed.
