(* Main lemmas: length query, decoder and encoder against the text specification. *)
From Coq Require Import ZArith List Lia Bool ZifyBool.
From Verif Require Import Base Utf8Model Utf8Spec Utf8Proofs.
Import ListNotations.
Open Scope Z_scope.
Ltac Zify.zify_post_hook ::= Z.div_mod_to_equations.

Lemma text_inv : forall esc l cs, text esc l cs ->
  (l = [] /\ cs = []) \/
  exists code bs t c cs', l = bs ++ t /\ layout code bs /\ cs = c :: cs' /\
    (((esc = true -> code <> 92) /\ c = code /\ text esc t cs') \/
     (esc = true /\ code = 92 /\ exists e t', t = e ++ t' /\ escape_seq e c /\ text esc t' cs') \/
     (esc = true /\ code = 92 /\ c = 92 /\ exists e t', t = e :: t' /\ ~ In e escape_leads /\ text esc t cs')).
Proof.
  intros esc l cs H. destruct H as [|code bs t cs L N H|bs e code t cs E L S H|bs e t cs E L S H].
  - left; split; reflexivity.
  - right. exists code, bs, t, code, cs. repeat split; try assumption. left. repeat split; assumption.
  - right. exists 92, bs, (e ++ t), code, cs. repeat split; try assumption. right; left.
    repeat split; try assumption. exists e, t. repeat split; assumption.
  - right. exists 92, bs, (e :: t), 92, cs. repeat split; try assumption. right; right.
    repeat split; try assumption. exists e, t. repeat split; assumption.
Qed.

Lemma layout_ascii_head : forall c t code bs rest, 0 <= c < 128 -> c :: t = bs ++ rest -> layout code bs ->
  code = c /\ bs = [c] /\ rest = t.
Proof.
  intros c t code bs rest Hc E L.
  destruct (layout_det c [c] code bs t rest (L1 c ltac:(lia)) L E) as [A [B C]].
  subst. repeat split.
Qed.

(* After the first character with code `code` and remaining text `rest`:
   characterisation of the full text. *)
Definition finish (esc : bool) (code : Z) (rest : list Z) (c : Z) (rest' : list Z) : Prop :=
  ((esc = true -> code <> 92) /\ c = code /\ rest' = rest) \/
  (esc = true /\ code = 92 /\ exists e, rest = e ++ rest' /\ escape_seq e c) \/
  (esc = true /\ code = 92 /\ c = 92 /\ rest' = rest /\ exists e t', rest = e :: t' /\ ~ In e escape_leads).

Lemma text_cons : forall esc code bs rest c rest' cs, layout code bs -> finish esc code rest c rest' ->
  text esc rest' cs -> text esc (bs ++ rest) (c :: cs).
Proof.
  intros esc code bs rest c rest' cs L F T.
  destruct F as [[N [-> ->]]|[[E [-> [e [-> S]]]]|[E [-> [-> [-> [e [t' [-> S]]]]]]]]].
  - apply T_char; assumption.
  - apply T_esc; assumption.
  - apply T_bs; assumption.
Qed.

Lemma text_uncons : forall esc code bs rest cs, layout code bs -> text esc (bs ++ rest) cs ->
  exists c rest' cs', cs = c :: cs' /\ finish esc code rest c rest' /\ text esc rest' cs'.
Proof.
  intros esc code bs rest cs L T.
  destruct (text_inv _ _ _ T) as [[E _]|[code' [bs' [t [c [cs' [E [L' [-> D]]]]]]]]].
  - apply app_eq_nil in E. destruct E as [E _]. apply layout_nonempty in L. congruence.
  - destruct (layout_det _ _ _ _ _ _ L L' E) as [<- [<- <-]].
    destruct D as [[N [-> T']]|[[E1 [-> [e [t' [-> [S T']]]]]]|[E1 [-> [-> [e [t' [-> [S T']]]]]]]]].
    + exists code, rest, cs'. repeat split; try assumption. left. repeat split. assumption.
    + exists c, t', cs'. repeat split; try assumption. right; left. repeat split; try assumption.
      exists e. split; [ reflexivity | assumption ].
    + exists 92, (e :: t'), cs'. repeat split; try assumption. right; right. repeat split; try assumption.
      exists e, t'. split; [ reflexivity | assumption ].
Qed.

Lemma finish_det : forall esc code rest c1 r1 c2 r2, finish esc code rest c1 r1 -> finish esc code rest c2 r2 ->
  c1 = c2 /\ r1 = r2.
Proof.
  intros esc code rest c1 r1 c2 r2 F1 F2.
  destruct F1 as [[N1 [-> ->]]|[[E1 [K1 [e1 [Q1 S1]]]]|[E1 [K1 [-> [-> [e1 [t1 [Q1 S1]]]]]]]]];
  destruct F2 as [[N2 [-> ->]]|[[E2 [K2 [e2 [Q2 S2]]]]|[E2 [K2 [-> [-> [e2 [t2 [Q2 S2]]]]]]]]];
  try (split; reflexivity); try (exfalso; apply N1; assumption); try (exfalso; apply N2; assumption).
  - pose proof (parse_escape_complete e1 c1 r1 S1) as P1.
    pose proof (parse_escape_complete e2 c2 r2 S2) as P2.
    rewrite <- Q1 in P1. rewrite <- Q2 in P2. rewrite P1 in P2. injection P2 as -> ->. split; reflexivity.
  - pose proof (parse_escape_complete e1 c1 r1 S1) as P1.
    rewrite <- Q1 in P1. rewrite Q2 in P1. rewrite parse_escape_not in P1 by assumption. discriminate.
  - pose proof (parse_escape_complete e2 c2 r2 S2) as P1.
    rewrite <- Q2 in P1. rewrite Q1 in P1. rewrite parse_escape_not in P1 by assumption. discriminate.
Qed.

(* Postcondition of the length query *)
Definition len_post (esc : bool) (l : list Z) (count mc : Z) (r : res (Z * Z)) : Prop :=
  match r with
  | Ok (n, m) => exists cs, text esc l cs /\ n = count + Z.of_nat (length cs) /\ mc <= m /\
                   (forall c, In c cs -> 0 <= c /\ (c < 128 \/ c <= m)) /\ (m = mc \/ m < 128 \/ In m cs)
  | Fail => ~ exists cs, text esc l cs
  | OverRead => False
  end.

Lemma escape_seq_nonneg : forall e c, escape_seq e c -> 0 <= c.
Proof.
  intros e c H. destruct H; try lia.
  - apply hex_val_range in H, H0. lia.
  - eapply hex_number_mono in H0; lia.
Qed.

Lemma escape_seq_nonempty : forall e c, escape_seq e c -> e <> [].
Proof. intros e c H. destruct H; discriminate. Qed.

(* Composition: one character then the rest *)
Lemma len_post_cons : forall esc code bs rest c rest' count mc mc' r,
  layout code bs -> finish esc code rest c rest' -> 0 <= c ->
  mc <= mc' -> (c < 128 \/ c <= mc') -> (mc' = mc \/ mc' < 128 \/ mc' = c) ->
  len_post esc rest' (count + 1) mc' r ->
  len_post esc (bs ++ rest) count mc r.
Proof.
  intros esc code bs rest c rest' count mc mc' r L F Hc H1 H2 H3 HP.
  destruct r as [[n m]| |]; cbn [len_post] in *.
  - destruct HP as [cs [T [E1 [E2 [E3 E4]]]]]. exists (c :: cs). split; [ eapply text_cons; eassumption | ].
    split; [ cbn [length]; lia | ]. split; [ lia | ]. split.
    + intros x [<-|Hx]; [ split; [ assumption | lia ] | apply E3; assumption ].
    + destruct E4 as [->|[E4|E4]]; [ | right; left; assumption | right; right; right; assumption ].
      destruct H3 as [->|[H3| ->]]; [ left; reflexivity | right; left; assumption | right; right; left; reflexivity ].
  - intros [cs T]. destruct (text_uncons _ _ _ _ _ L T) as [c2 [r2 [cs2 [-> [F2 T2]]]]].
    destruct (finish_det _ _ _ _ _ _ _ F F2) as [<- <-]. apply HP. exists cs2. assumption.
  - exact HP.
Qed.

Lemma len_post_plain : forall esc pre rest count mc r, Forall (plain esc) pre ->
  len_post esc rest (count + Z.of_nat (length pre)) mc r -> len_post esc (pre ++ rest) count mc r.
Proof.
  induction pre as [|b pre IH]; intros rest count mc r Hp H.
  - cbn [length app] in *. replace (count + Z.of_nat 0) with count in H by lia. exact H.
  - inversion Hp as [|? ? Hb Hpre]; subst. destruct Hb as [Hb Hne].
    change ((b :: pre) ++ rest) with ([b] ++ (pre ++ rest)).
    apply len_post_cons with (code := b) (c := b) (rest' := pre ++ rest) (mc' := mc);
      try lia; [ apply L1; lia | left; repeat split; assumption | ].
    apply IH; [ assumption | ].
    cbn [length] in H. replace (count + 1 + Z.of_nat (length pre)) with (count + Z.of_nat (S (length pre))) by lia.
    exact H.
Qed.

Lemma len_post_nil : forall esc count mc, len_post esc [] count mc (Ok (count, mc)).
Proof.
  intros. exists []. split; [ constructor | ]. split; [ cbn; lia | ]. split; [ lia | ].
  split; [ intros c [] | left; reflexivity ].
Qed.

Lemma get_len_loop_spec : forall fuel esc addr l count mc, Forall is_byte l -> (length l <= fuel)%nat -> 0 <= mc ->
  len_post esc l count mc (get_len_loop fuel esc addr l count mc).
Proof.
  induction fuel as [|fuel IH]; intros esc addr l count mc Hl Hfuel Hmc.
  - destruct l; [ | cbn in Hfuel; lia ]. apply len_post_nil.
  - destruct l as [|c0 t0].
    { apply len_post_nil. }
    cbn [get_len_loop].
    assert (Hfp : exists pre l1,
      c0 :: t0 = pre ++ l1 /\ Forall (plain esc) pre /\
      (if addr mod 8 =? 0 then fast_path (length (c0 :: t0)) esc (c0 :: t0) 0 else (0, c0 :: t0))
      = (Z.of_nat (length pre), l1)).
    { destruct (addr mod 8 =? 0).
      - destruct (fast_path_spec (length (c0 :: t0)) esc (c0 :: t0) 0 Hl) as [pre [rest [A [B C]]]].
        exists pre, rest. repeat split; assumption.
      - exists [], (c0 :: t0). repeat split. constructor. }
    destruct Hfp as [pre [l1 [E1 [Hpre Efp]]]].
    rewrite Efp. clear Efp.
    rewrite E1 in Hl, Hfuel |- *. apply Forall_app in Hl. destruct Hl as [_ Hl].
    rewrite app_length in Hfuel.
    apply len_post_plain; [ assumption | ].
    set (count1 := count + Z.of_nat (length pre)).
    clear E1 Hpre c0 t0.
    destruct l1 as [|c t].
    { apply len_post_nil. }
    (* step after the first character *)
    assert (Hafter : forall code bs rest mc1 ad, c :: t = bs ++ rest -> layout code bs ->
       mc <= mc1 -> (code < 128 \/ code <= mc1) -> (mc1 = mc \/ mc1 = code) ->
       len_post esc (c :: t) count1 mc
         (if esc && (code =? 92) then
            match parse_escape rest with
            | EscOver => OverRead
            | EscInvalid _ => Fail
            | EscNot r => get_len_loop fuel esc (ad r) r (count1 + 1) mc1
            | EscCode code2 r => get_len_loop fuel esc (ad r) r (count1 + 1)
                                   (if mc1 <? code2 then code2 else mc1)
            end
          else get_len_loop fuel esc (ad rest) rest (count1 + 1) mc1)).
    { intros code bs rest mc1 ad E L H1 H2 H3.
      rewrite E in Hl |- *. apply Forall_app in Hl. destruct Hl as [_ Hrest].
      assert (Hlr : (length rest <= fuel)%nat).
      { assert (length (c :: t) = length (bs ++ rest)) by (rewrite E; reflexivity).
        rewrite app_length in H. cbn [length] in H, Hfuel.
        pose proof (layout_nonempty _ _ L). destruct bs; [ congruence | ]. cbn [length] in H. lia. }
      pose proof (layout_nonneg _ _ L) as Hcode.
      destruct (esc && (code =? 92)) eqn:E92.
      - apply andb_true_iff in E92. destruct E92 as [-> E92]. apply Z.eqb_eq in E92. subst code.
        pose proof (parse_escape_sound rest Hrest) as HS.
        destruct (parse_escape rest) as [code2 r|r|r|] eqn:EP.
        + destruct HS as [e [-> S]]. apply Forall_app in Hrest. destruct Hrest as [_ Hr].
          rewrite app_length in Hlr.
          pose proof (escape_seq_nonneg _ _ S).
          apply len_post_cons with (code := 92) (c := code2) (rest' := r)
            (mc' := if mc1 <? code2 then code2 else mc1); try assumption;
            try (destruct (Z.ltb_spec mc1 code2); lia).
          * right; left. repeat split. exists e. split; [ reflexivity | assumption ].
          * apply IH; [ assumption | lia | ]. destruct (Z.ltb_spec mc1 code2); lia.
        + intros [cs T]. destruct (text_uncons _ _ _ _ _ L T) as [c2 [r2 [cs2 [-> [F2 T2]]]]].
          destruct F2 as [[N2 _]|[[_ [_ [e2 [-> S2]]]]|[_ [_ [_ [_ [e2 [t2 [-> S2]]]]]]]]].
          * apply N2; reflexivity.
          * rewrite (parse_escape_complete _ _ _ S2) in EP. discriminate.
          * rewrite parse_escape_not in EP by assumption. discriminate.
        + destruct HS as [<- [e [t' [-> S]]]].
          apply len_post_cons with (code := 92) (c := 92) (rest' := e :: t') (mc' := mc1); try assumption; try lia.
          * right; right. repeat split. exists e, t'. split; [ reflexivity | assumption ].
          * apply IH; [ assumption | assumption | lia ].
        + contradiction.
      - apply len_post_cons with (code := code) (c := code) (rest' := rest) (mc' := mc1); try assumption.
        + left. repeat split. intros -> ->. cbn in E92. discriminate.
        + lia.
        + apply IH; [ assumption | assumption | lia ]. }
    destruct (Z.ltb_spec c 0x80) as [Hc|Hc].
    + inversion Hl as [|? ? Hcb Ht]; subst. unfold is_byte in Hcb.
      apply (Hafter c [c] t mc (fun r => addr + Z.of_nat (length pre) + Z.of_nat (length (c :: t) - length r)));
        [ reflexivity | apply L1; lia | lia | lia | lia ].
    + pose proof (multi_spec c t Hl Hc) as HM. unfold multi in HM.
      destruct ((utf8_len c =? 0) || (Z.of_nat (length t) <? utf8_len c - 1) || (c <? 0xC2)) eqn:EF.
      * intros [cs T]. apply HM.
        destruct (text_inv _ _ _ T) as [[E _]|[code' [bs' [t' [c' [cs' [E [L' _]]]]]]]]; [ discriminate | ].
        exists code', bs', t'. split; assumption.
      * destruct (len_cont (Z.to_nat (utf8_len c - 1)) (Z.land c (Z.shiftr 0x80 (utf8_len c) - 1)) t) as [[code rest]| |].
        -- destruct HM as [bs [E L]].
           apply (Hafter code bs rest (if mc <? code then code else mc)
                    (fun r => addr + Z.of_nat (length pre) + Z.of_nat (length (c :: t) - length r)));
             try assumption; destruct (Z.ltb_spec mc code); lia.
        -- intros [cs T]. apply HM.
           destruct (text_inv _ _ _ T) as [[E _]|[code' [bs' [t' [c' [cs' [E [L' _]]]]]]]]; [ discriminate | ].
           exists code', bs', t'. split; assumption.
        -- contradiction.
Qed.

(* ---------- decoders ---------- *)

Lemma layout_dec : forall w code bs rest c t, (w = 8 \/ w = 16 \/ w = 32) -> layout code bs -> code < 2 ^ w ->
  bs ++ rest = c :: t ->
  (if 0x7F <? c then
     dec_cont w (utf8_len c - 1) (Z.land c (Z.shiftr 0x80 (utf8_len c) - 1)) t
   else Ok (c, t)) = Ok (code, rest).
Proof.
  intros w code bs rest c t Hw L Hlt E.
  assert (Hw0 : 0 <= w) by lia.
  destruct L as [a Ha|a b Ha Hb|a b b2 Ha Hb Hb2|a b b2 b3 Ha Hb Hb2 Hb3]; cbn [app] in E; injection E as <- <-.
  - destruct (Z.ltb_spec 0x7F a); [ lia | reflexivity ].
  - destruct (Z.ltb_spec 0x7F a); [ | lia ].
    assert (Hby : is_byte a) by (unfold is_byte; lia).
    rewrite lead_mask by (assumption || lia). rewrite utf8_len_spec by assumption.
    destruct (Z.ltb_spec a 224); [ | lia ]. destruct (Z.ltb_spec a 128); [ lia | ]. destruct (Z.ltb_spec a 192); [ lia | ].
    change (b :: rest) with ([b] ++ rest). change (2 - 1) with (Z.of_nat (length [b])).
    rewrite dec_cont_spec; [ | discriminate | repeat constructor; unfold cont_byte in *; lia | lia | lia | cbn [fold_left]; lia ].
    cbn [fold_left]. f_equal.
  - destruct (Z.ltb_spec 0x7F a); [ | lia ].
    assert (Hby : is_byte a) by (unfold is_byte; lia).
    rewrite lead_mask by (assumption || lia). rewrite utf8_len_spec by assumption.
    destruct (Z.ltb_spec a 224); [ lia | ]. destruct (Z.ltb_spec a 240); [ | lia ].
    destruct (Z.ltb_spec a 128); [ lia | ]. destruct (Z.ltb_spec a 192); [ lia | ].
    change (b :: b2 :: rest) with ([b; b2] ++ rest). change (3 - 1) with (Z.of_nat (length [b; b2])).
    rewrite dec_cont_spec; [ | discriminate | repeat constructor; unfold cont_byte in *; lia | lia | lia | cbn [fold_left]; lia ].
    cbn [fold_left]. f_equal. f_equal. lia.
  - destruct (Z.ltb_spec 0x7F a); [ | lia ].
    assert (Hby : is_byte a) by (unfold is_byte; lia).
    rewrite lead_mask by (assumption || lia). rewrite utf8_len_spec by assumption.
    destruct (Z.ltb_spec a 224); [ lia | ]. destruct (Z.ltb_spec a 240); [ lia | ]. destruct (Z.ltb_spec a 248); [ | lia ].
    destruct (Z.ltb_spec a 128); [ lia | ]. destruct (Z.ltb_spec a 192); [ lia | ].
    change (b :: b2 :: b3 :: rest) with ([b; b2; b3] ++ rest). change (4 - 1) with (Z.of_nat (length [b; b2; b3])).
    rewrite dec_cont_spec; [ | discriminate | repeat constructor; unfold cont_byte in *; lia | lia | lia | cbn [fold_left]; lia ].
    cbn [fold_left]. f_equal. f_equal. lia.
Qed.

Lemma decode_loop_spec : forall w esc l cs, (w = 8 \/ w = 16 \/ w = 32) -> text esc l cs ->
  (forall c, In c cs -> c < 2 ^ w) ->
  forall fuel acc, (length l <= fuel)%nat -> decode_loop fuel w esc l acc = Ok (rev acc ++ cs).
Proof.
  intros w esc l cs Hw T.
  assert (H92 : 92 < 2 ^ w) by (destruct Hw as [->|[->| ->]]; lia).
  induction T as [|code bs t cs L N T IH|bs e code t cs E L S T IH|bs e t cs E L S T IH];
    intros Hcs fuel acc Hfuel.
  - destruct fuel; cbn [decode_loop]; rewrite app_nil_r; reflexivity.
  - assert (Hc : code < 2 ^ w) by (apply Hcs; left; reflexivity).
    assert (Ht : forall c, In c cs -> c < 2 ^ w) by (intros c Hin; apply Hcs; right; assumption).
    rewrite app_length in Hfuel.
    destruct (bs ++ t) as [|c0 t0] eqn:E0;
      [ apply app_eq_nil in E0; destruct E0 as [E0 _]; exfalso; revert E0; apply (layout_nonempty _ _ L) | ].
    destruct fuel as [|fuel];
      [ exfalso; pose proof (layout_nonempty _ _ L); destruct bs; [ congruence | cbn in Hfuel; lia ] | ].
    cbn [decode_loop].
    pose proof (layout_dec w code bs t c0 t0 Hw L Hc E0) as HD.
    assert (Hb : bs <> []) by (apply (layout_nonempty _ _ L)).
    assert (Hlt : (length t <= fuel)%nat) by (destruct bs; [ congruence | cbn in Hfuel; lia ]).
    assert (E92 : esc && (code =? 92) = false).
    { destruct esc; [ | reflexivity ]. cbn. apply Z.eqb_neq. apply N. reflexivity. }
    destruct (0x7F <? c0).
    + rewrite HD. rewrite E92. rewrite IH by assumption. cbn [rev]. rewrite <- app_assoc. reflexivity.
    + injection HD as -> ->. rewrite E92. rewrite IH by assumption. cbn [rev]. rewrite <- app_assoc. reflexivity.
  - assert (Hc : code < 2 ^ w) by (apply Hcs; left; reflexivity).
    assert (Hc0 : 0 <= code) by (apply (escape_seq_nonneg _ _ S)).
    assert (Ht : forall c, In c cs -> c < 2 ^ w) by (intros c Hin; apply Hcs; right; assumption).
    rewrite !app_length in Hfuel.
    destruct (bs ++ e ++ t) as [|c0 t0] eqn:E0;
      [ apply app_eq_nil in E0; destruct E0 as [E0 _]; exfalso; revert E0; apply (layout_nonempty _ _ L) | ].
    destruct fuel as [|fuel];
      [ exfalso; pose proof (layout_nonempty _ _ L); destruct bs; [ congruence | cbn in Hfuel; lia ] | ].
    cbn [decode_loop].
    pose proof (layout_dec w 92 bs (e ++ t) c0 t0 Hw L H92 E0) as HD.
    assert (Hlt : (length t <= fuel)%nat).
    { pose proof (layout_nonempty _ _ L). destruct bs; [ congruence | cbn in Hfuel; lia ]. }
    subst esc. cbn [andb].
    destruct (0x7F <? c0).
    + rewrite HD. change (92 =? 92) with true. cbn match. rewrite (parse_escape_complete _ _ _ S).
      rewrite uwrap_small by lia. rewrite IH by assumption. cbn [rev]. rewrite <- app_assoc. reflexivity.
    + injection HD as -> ->. change (92 =? 92) with true. cbn match. rewrite (parse_escape_complete _ _ _ S).
      rewrite uwrap_small by lia. rewrite IH by assumption. cbn [rev]. rewrite <- app_assoc. reflexivity.
  - assert (Ht : forall c, In c cs -> c < 2 ^ w) by (intros c Hin; apply Hcs; right; assumption).
    rewrite app_length in Hfuel.
    destruct (bs ++ e :: t) as [|c0 t0] eqn:E0;
      [ apply app_eq_nil in E0; destruct E0 as [E0 _]; exfalso; revert E0; apply (layout_nonempty _ _ L) | ].
    destruct fuel as [|fuel];
      [ exfalso; pose proof (layout_nonempty _ _ L); destruct bs; [ congruence | cbn in Hfuel; lia ] | ].
    cbn [decode_loop].
    pose proof (layout_dec w 92 bs (e :: t) c0 t0 Hw L H92 E0) as HD.
    assert (Hlt : (length (e :: t) <= fuel)%nat).
    { pose proof (layout_nonempty _ _ L). destruct bs; [ congruence | cbn [length] in *; lia ]. }
    subst esc. cbn [andb].
    destruct (0x7F <? c0).
    + rewrite HD. change (92 =? 92) with true. cbn match. rewrite (parse_escape_not _ _ S).
      rewrite IH by assumption. cbn [rev]. rewrite <- app_assoc. reflexivity.
    + injection HD as -> ->. change (92 =? 92) with true. cbn match. rewrite (parse_escape_not _ _ S).
      rewrite IH by assumption. cbn [rev]. rewrite <- app_assoc. reflexivity.
Qed.

(* ---------- encoders ---------- *)

Lemma lor_const : forall k n x, 0 <= n -> 0 <= x < 2 ^ n -> Z.lor (k * 2 ^ n) x = k * 2 ^ n + x.
Proof. intros. apply lor_add_low; assumption. Qed.

Lemma lor_C0 : forall x, 0 <= x < 32 -> Z.lor 0xC0 x = 0xC0 + x.
Proof. intros. change 0xC0 with (6 * 2 ^ 5). apply lor_const; lia. Qed.
Lemma lor_80 : forall x, 0 <= x < 64 -> Z.lor 0x80 x = 0x80 + x.
Proof. intros. change 0x80 with (2 * 2 ^ 6). apply lor_const; lia. Qed.
Lemma lor_E0 : forall x, 0 <= x < 16 -> Z.lor 0xE0 x = 0xE0 + x.
Proof. intros. change 0xE0 with (14 * 2 ^ 4). apply lor_const; lia. Qed.
Lemma lor_F0 : forall x, 0 <= x < 8 -> Z.lor 0xF0 x = 0xF0 + x.
Proof. intros. change 0xF0 with (30 * 2 ^ 3). apply lor_const; lia. Qed.

Definition shortest (code : Z) (bs : list Z) : Prop :=
  (length bs = 1%nat <-> code < 0x80) /\ (length bs = 2%nat <-> 0x80 <= code < 0x800) /\
  (length bs = 3%nat <-> 0x800 <= code < 0x10000) /\ (length bs = 4%nat <-> 0x10000 <= code).

Lemma encode_char_layout : forall c, 0 <= c < 2 ^ 21 ->
  layout c (encode_char_32 c) /\ shortest c (encode_char_32 c).
Proof.
  intros c Hc. unfold encode_char_32.
  rewrite !land_63, !shiftr_div by lia.
  change (2 ^ 6) with 64. change (2 ^ 12) with 4096. change (2 ^ 18) with 262144.
  change (2 ^ 7) with 128. change (2 ^ 11) with 2048. change (2 ^ 16) with 65536. change (2 ^ 21) with 2097152 in *.
  destruct (Z.ltb_spec c 128); [ | destruct (Z.ltb_spec c 2048); [ | destruct (Z.ltb_spec c 65536) ] ].
  - rewrite uwrap_small by lia. split; [ apply L1; lia | unfold shortest; cbn [length]; lia ].
  - rewrite ?lor_C0, ?lor_80, ?lor_E0, ?lor_F0 by lia. rewrite !uwrap_small by lia.
    split; [ | unfold shortest; cbn [length]; lia ].
    replace c with ((0xC0 + c / 64 - 0xC0) * 64 + (0x80 + c mod 64 - 0x80)) at 1 by lia.
    apply L2; unfold cont_byte; lia.
  - rewrite ?lor_C0, ?lor_80, ?lor_E0, ?lor_F0 by lia. rewrite !uwrap_small by lia.
    split; [ | unfold shortest; cbn [length]; lia ].
    replace c with ((0xE0 + c / 4096 - 0xE0) * 4096 + (0x80 + (c / 64) mod 64 - 0x80) * 64 + (0x80 + c mod 64 - 0x80)) at 1 by lia.
    apply L3; unfold cont_byte; lia.
  - rewrite ?lor_C0, ?lor_80, ?lor_E0, ?lor_F0 by lia. rewrite !uwrap_small by lia.
    split; [ | unfold shortest; cbn [length]; lia ].
    replace c with ((0xF0 + c / 262144 - 0xF0) * 262144 + (0x80 + (c / 4096) mod 64 - 0x80) * 4096 + (0x80 + (c / 64) mod 64 - 0x80) * 64 + (0x80 + c mod 64 - 0x80)) at 1 by lia.
    apply L4; unfold cont_byte; lia.
Qed.

Lemma encode_text : forall cs, (forall c, In c cs -> 0 <= c < 2 ^ 21) -> text false (encode_32 cs) cs.
Proof.
  induction cs as [|c cs IH]; intros H; [ constructor | ].
  cbn [encode_32 flat_map]. apply T_char.
  - apply encode_char_layout. apply H. left; reflexivity.
  - discriminate.
  - apply IH. intros x Hx. apply H. right; assumption.
Qed.

Lemma text_bytes : forall esc l cs, text esc l cs -> Forall is_byte l.
Proof.
  intros esc l cs T.
  assert (HN : forall ds acc r, hex_number ds acc r -> Forall is_byte ds).
  { intros ds acc r N. induction N; constructor; [ eapply hex_val_byte; eassumption | assumption ]. }
  assert (HE : forall e c, escape_seq e c -> Forall is_byte e).
  { intros e c S. destruct S; try (repeat constructor; unfold is_byte; lia).
    - repeat constructor; try (unfold is_byte; lia); eapply hex_val_byte; eassumption.
    - constructor; [ unfold is_byte; lia | ]. constructor; [ unfold is_byte; lia | ].
      apply Forall_app. split; [ eapply HN; eassumption | repeat constructor; unfold is_byte; lia ]. }
  induction T as [|code bs t cs L N T IH|bs e code t cs E L S T IH|bs e t cs E L S T IH]; [ constructor | .. ].
  - apply Forall_app; split; [ eapply layout_bytes; eassumption | assumption ].
  - apply Forall_app; split; [ eapply layout_bytes; eassumption | ].
    apply Forall_app; split; [ eapply HE; eassumption | assumption ].
  - apply Forall_app; split; [ eapply layout_bytes; eassumption | assumption ].
Qed.

Lemma text_det : forall esc l cs, text esc l cs -> forall cs', text esc l cs' -> cs = cs'.
Proof.
  intros esc l cs T. induction T as [|code bs t cs L N T IH|bs e code t cs E L S T IH|bs e t cs E L S T IH]; intros cs' T'.
  - destruct (text_inv _ _ _ T') as [[_ ->]|[code' [bs' [t' [c' [cs'' [E [L' _]]]]]]]]; [ reflexivity | ].
    symmetry in E. apply app_eq_nil in E. destruct E as [E _]. apply layout_nonempty in L'. congruence.
  - destruct (text_uncons _ _ _ _ _ L T') as [c2 [r2 [cs2 [-> [F2 T2]]]]].
    assert (F : finish esc code t code t) by (left; repeat split; assumption).
    destruct (finish_det _ _ _ _ _ _ _ F F2) as [<- <-]. f_equal. apply IH. assumption.
  - destruct (text_uncons _ _ _ _ _ L T') as [c2 [r2 [cs2 [-> [F2 T2]]]]].
    assert (F : finish esc 92 (e ++ t) code t) by (right; left; repeat split; try assumption; exists e; split; [ reflexivity | assumption ]).
    destruct (finish_det _ _ _ _ _ _ _ F F2) as [<- <-]. f_equal. apply IH. assumption.
  - destruct (text_uncons _ _ _ _ _ L T') as [c2 [r2 [cs2 [-> [F2 T2]]]]].
    assert (F : finish esc 92 (e :: t) 92 (e :: t)) by (right; right; repeat split; try assumption; exists e, t; split; [ reflexivity | assumption ]).
    destruct (finish_det _ _ _ _ _ _ _ F F2) as [<- <-]. f_equal. apply IH. assumption.
Qed.

Lemma encode_char_len : forall c, 0 <= c < 2 ^ 21 ->
  (length (encode_char_32 c) <= 4)%nat.
Proof.
  intros c Hc. unfold encode_char_32.
  destruct (c <? 2 ^ 7); [ cbn; lia | ]. destruct (c <? 2 ^ 11); [ cbn; lia | ]. destruct (c <? 2 ^ 16); cbn; lia.
Qed.

Lemma calc_size_spec : forall cs size, (forall c, In c cs -> 0 <= c < 2 ^ 21) -> 0 <= size ->
  size + 4 * Z.of_nat (length cs) < 2 ^ 32 ->
  calc_buf_size_32 cs size = Some (size + Z.of_nat (length (encode_32 cs))).
Proof.
  induction cs as [|c cs IH]; intros size Hc H0 Hlt; cbn [calc_buf_size_32 encode_32 flat_map].
  - cbn [length]. f_equal. lia.
  - assert (Hcc : 0 <= c < 2 ^ 21) by (apply Hc; left; reflexivity).
    assert (Hcs : forall x, In x cs -> 0 <= x < 2 ^ 21) by (intros x Hx; apply Hc; right; assumption).
    cbn [length] in Hlt. rewrite app_length. fold (encode_32 cs). unfold encode_char_32.
    destruct (c <? 2 ^ 7); [ | destruct (c <? 2 ^ 11); [ | destruct (c <? 2 ^ 16); [ | destruct (Z.ltb_spec c (2 ^ 21)); [ | lia ] ] ] ];
      rewrite u32_small by lia; rewrite IH by (assumption || lia); cbn [length]; f_equal; lia.
Qed.

Lemma encode_16_32 : forall cs, (forall c, In c cs -> 0 <= c < 2 ^ 16) -> encode_16 cs = encode_32 cs.
Proof.
  induction cs as [|c cs IH]; intros H; [ reflexivity | ].
  cbn [encode_16 encode_32 flat_map]. fold (encode_16 cs) (encode_32 cs).
  rewrite IH by (intros x Hx; apply H; right; assumption).
  f_equal. unfold encode_char_16, encode_char_32.
  assert (Hc : 0 <= c < 2 ^ 16) by (apply H; left; reflexivity).
  destruct (c <? 2 ^ 7); [ reflexivity | ]. destruct (c <? 2 ^ 11); [ reflexivity | ].
  destruct (Z.ltb_spec c (2 ^ 16)); [ reflexivity | lia ].
Qed.

Lemma encode_8_32 : forall cs, (forall c, In c cs -> 0 <= c < 2 ^ 8) -> encode_8 cs = encode_32 cs.
Proof.
  induction cs as [|c cs IH]; intros H; [ reflexivity | ].
  cbn [encode_8 encode_32 flat_map]. fold (encode_8 cs) (encode_32 cs).
  rewrite IH by (intros x Hx; apply H; right; assumption).
  f_equal. unfold encode_char_8, encode_char_32.
  assert (Hc : 0 <= c < 2 ^ 8) by (apply H; left; reflexivity).
  assert (K : byte_all (fun b => Bool.eqb (Z.land b 128 =? 0) (b <? 128)) = true) by (vm_compute; reflexivity).
  assert (Hb : is_byte c) by (unfold is_byte; lia).
  pose proof (byte_all_spec _ K c Hb) as K1. cbn beta in K1. apply eqb_prop in K1. rewrite K1.
  change (2 ^ 7) with 128. change (2 ^ 11) with 2048.
  destruct (Z.ltb_spec c 128); [ reflexivity | ]. cbn [negb]. destruct (Z.ltb_spec c 2048); [ reflexivity | lia ].
Qed.

Lemma wf_text_text : forall l cs, wf_text l cs -> text false l cs.
Proof.
  intros l cs H. induction H as [|code bs t cs W T IH]; [ constructor | ].
  apply T_char; [ apply W | discriminate | assumption ].
Qed.

Lemma text_code_max : forall code bs, layout code bs -> code < 2 ^ 21.
Proof. intros code bs L. destruct L; unfold cont_byte in *; lia. Qed.

Lemma escape_code_max : forall e code, escape_seq e code -> code <= 0xFFFFFF.
Proof.
  intros e c H. destruct H; try lia.
  - apply hex_val_range in H, H0. lia.
  - eapply hex_number_max; [ | eassumption ]. lia.
Qed.

Lemma text_max : forall esc l cs, text esc l cs -> forall c, In c cs -> c <= 0xFFFFFF.
Proof.
  intros esc l cs T. induction T as [|code bs t cs L N T IH|bs e code t cs E L S T IH|bs e t cs E L S T IH];
    intros c Hin; [ destruct Hin | .. ]; destruct Hin as [<-|Hin]; try (apply IH; assumption).
  - apply text_code_max in L. lia.
  - eapply escape_code_max; eassumption.
  - lia.
Qed.
