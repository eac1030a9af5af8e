From Coq Require Import ZArith List Lia Bool ZifyBool.
From Verif Require Import Base Utf8Model Utf8Spec.
Import ListNotations.
Open Scope Z_scope.
Ltac Zify.zify_post_hook ::= Z.div_mod_to_equations.

(* ---------- single byte facts, by exhaustion ---------- *)

Definition byte_all (p : Z -> bool) : bool := zall 256 0 p.

Lemma byte_all_spec : forall p, byte_all p = true -> forall b, is_byte b -> p b = true.
Proof. intros p H b Hb. apply (zall_spec 256 0 p H). unfold is_byte in Hb. lia. Qed.

Lemma cont_test : forall b, is_byte b ->
  (Z.land b 0xC0 =? 0x80) = ((0x80 <=? b) && (b <=? 0xBF)).
Proof.
  intros b Hb.
  assert (H : byte_all (fun b => Bool.eqb (Z.land b 0xC0 =? 0x80) ((0x80 <=? b) && (b <=? 0xBF))) = true)
    by (vm_compute; reflexivity).
  apply (byte_all_spec _ H) in Hb. apply eqb_prop in Hb. exact Hb.
Qed.

Lemma utf8_len_spec : forall c, is_byte c ->
  utf8_len c = if c <? 128 then 1 else if c <? 192 then 0 else if c <? 224 then 2
               else if c <? 240 then 3 else if c <? 248 then 4 else 0.
Proof.
  intros b Hb.
  assert (H : byte_all (fun c => utf8_len c =? if c <? 128 then 1 else if c <? 192 then 0 else if c <? 224 then 2
               else if c <? 240 then 3 else if c <? 248 then 4 else 0) = true)
    by (vm_compute; reflexivity).
  apply (byte_all_spec _ H) in Hb. apply Z.eqb_eq in Hb. exact Hb.
Qed.

Lemma lead_mask : forall c, is_byte c -> 192 <= c < 248 ->
  Z.land c (Z.shiftr 0x80 (utf8_len c) - 1) =
  if c <? 224 then c - 192 else if c <? 240 then c - 224 else c - 240.
Proof.
  intros b Hb Hr.
  assert (H : byte_all (fun c => (c <? 192) || (248 <=? c) ||
     (Z.land c (Z.shiftr 0x80 (utf8_len c) - 1) =?
      if c <? 224 then c - 192 else if c <? 240 then c - 224 else c - 240)) = true)
    by (vm_compute; reflexivity).
  apply (byte_all_spec _ H) in Hb.
  apply orb_true_iff in Hb. destruct Hb as [Hb|Hb]; [ lia | ].
  apply Z.eqb_eq in Hb. exact Hb.
Qed.

Lemma hex_map_val : forall c, is_byte c -> forall v, (hex_map c = v /\ v <= 15) <-> hex_val c v.
Proof.
  intros c Hc v. unfold hex_map, hex_val.
  destruct ((48 <=? c) && (c <=? 57)) eqn:E1;
  destruct ((65 <=? c) && (c <=? 70)) eqn:E2;
  destruct ((97 <=? c) && (c <=? 102)) eqn:E3; lia.
Qed.

Lemma hex_val_range : forall c v, hex_val c v -> 0 <= v <= 15.
Proof. unfold hex_val. intros. lia. Qed.

Lemma hex_val_byte : forall c v, hex_val c v -> is_byte c.
Proof. unfold hex_val, is_byte. intros. lia. Qed.

Lemma shl_or : forall a b n, 0 <= n -> 0 <= b < 2 ^ n -> Z.lor (Z.shiftl a n) b = a * 2 ^ n + b.
Proof. intros. rewrite Z.shiftl_mul_pow2 by lia. apply lor_add_low; assumption. Qed.

Lemma u32_small : forall x, 0 <= x < 2 ^ 32 -> u32 x = x.
Proof. intros. unfold u32, uwrap. apply Z.mod_small. lia. Qed.

Lemma uwrap_small : forall w x, 0 <= x < 2 ^ w -> uwrap w x = x.
Proof. intros. unfold uwrap. apply Z.mod_small. lia. Qed.

(* ---------- escape sequences ---------- *)

Lemma hex_number_mono : forall ds acc r, 0 <= acc -> hex_number ds acc r -> acc <= r.
Proof.
  intros ds acc r Ha H. induction H; [ lia | ].
  apply hex_val_range in H. lia.
Qed.

Lemma hex_number_max : forall ds acc r, acc <= 0xFFFFFF -> hex_number ds acc r -> r <= 0xFFFFFF.
Proof. intros ds acc r Ha H. induction H; [ lia | ]. apply IHhex_number. lia. Qed.

Lemma parse_hex_brace_sound : forall l g code r, Forall is_byte l -> 0 <= g <= 0xFFFFFF ->
  parse_hex_brace l g = EscCode code r ->
  exists ds, l = ds ++ [125] ++ r /\ hex_number ds g code.
Proof.
  induction l as [|c t IH]; intros g code r Hl Hg H; cbn [parse_hex_brace] in H; [ discriminate | ].
  inversion Hl as [|? ? Hc Ht]; subst.
  destruct (c =? 125) eqn:Ec.
  - injection H as -> ->. exists []. apply Z.eqb_eq in Ec. subst c.
    split; [ reflexivity | constructor ].
  - destruct t as [|c' t']; [ discriminate | ].
    destruct (15 <? hex_map c) eqn:Ev; [ discriminate | ].
    apply Z.ltb_ge in Ev.
    destruct (proj1 (hex_map_val c Hc (hex_map c))) as [Hv|[Hv|Hv]]; try (split; [ reflexivity | lia ]);
    (assert (Hr : 0 <= hex_map c <= 15) by lia;
     rewrite (u32_small (Z.shiftl g 4)) in H by (rewrite Z.shiftl_mul_pow2 by lia; lia);
     rewrite shl_or in H by lia;
     change (2 ^ 4) with 16 in H;
     destruct (0xFFFFFF <? g * 16 + hex_map c) eqn:Eg; [ discriminate | ];
     apply Z.ltb_ge in Eg;
     destruct (IH (g * 16 + hex_map c) code r) as [ds [Hds Hn]]; [ assumption | lia | assumption | ];
     exists (c :: ds); split; [ rewrite Hds; reflexivity | ];
     apply HN_cons with (hex_map c); [ apply hex_map_val; [ assumption | split; [ reflexivity | lia ] ] | lia | assumption ]).
Qed.

Lemma hex_not_brace : forall c v, hex_val c v -> c <> 125.
Proof. unfold hex_val. intros. lia. Qed.

Lemma parse_hex_brace_complete : forall ds g code r, 0 <= g <= 0xFFFFFF ->
  hex_number ds g code ->
  parse_hex_brace (ds ++ [125] ++ r) g = EscCode code r.
Proof.
  intros ds g code r Hg H. revert Hg. induction H as [acc|c v t acc r' Hv Hmax Hn IH]; intros Hg.
  - reflexivity.
  - pose proof (hex_val_range _ _ Hv) as Hvr.
    pose proof (hex_val_byte _ _ Hv) as Hcb.
    pose proof (proj2 (hex_map_val c Hcb v) Hv) as [Hm _].
    cbn [app parse_hex_brace].
    destruct (c =? 125) eqn:Ec; [ apply Z.eqb_eq in Ec; exfalso; revert Ec; apply (hex_not_brace c v Hv) | ].
    destruct (t ++ 125 :: r) as [|x y] eqn:Et; [ destruct t; discriminate | ].
    rewrite <- Et. rewrite Hm.
    destruct (15 <? v) eqn:Ev; [ lia | ].
    rewrite (u32_small (Z.shiftl acc 4)) by (rewrite Z.shiftl_mul_pow2 by lia; lia).
    rewrite shl_or by lia. change (2 ^ 4) with 16.
    destruct (0xFFFFFF <? acc * 16 + v) eqn:Eg; [ lia | ].
    apply IH. lia.
Qed.

Lemma parse_hex_brace_no_over : forall l g, l <> [] -> parse_hex_brace l g <> EscOver.
Proof.
  induction l as [|c t IH]; intros g Hl H; [ congruence | ].
  cbn [parse_hex_brace] in H.
  destruct (c =? 125); [ discriminate | ].
  destruct t as [|c' t']; [ discriminate | ].
  destruct (15 <? hex_map c); [ discriminate | ].
  destruct (0xFFFFFF <? _); [ discriminate | ].
  revert H. apply IH. discriminate.
Qed.

Lemma parse_hex_brace_not_not : forall l g r, parse_hex_brace l g <> EscNot r.
Proof.
  induction l as [|c t IH]; intros g r H; cbn [parse_hex_brace] in H; [ discriminate | ].
  destruct (c =? 125); [ discriminate | ].
  destruct t as [|c' t']; [ discriminate | ].
  destruct (15 <? hex_map c); [ discriminate | ].
  destruct (0xFFFFFF <? _); [ discriminate | ].
  revert H. apply IH.
Qed.

Lemma escape_map_cases : forall e,
  match escape_map e with
  | EInvalid | EInterp => ~ In e escape_leads
  | EHex => e = 120
  | EChar v => (v = 48 /\ e = 48) \/ (v <> 48 /\ escape_seq [e] v)
  end.
Proof.
  intros e. unfold escape_map.
  repeat match goal with
  | |- context [?a =? ?b] => destruct (Z.eqb_spec a b); [ subst; try (cbn; right; split; [ lia | constructor ]) | ]
  end; try (left; split; reflexivity); try reflexivity;
  unfold escape_leads; cbn; lia.
Qed.

Lemma parse_escape_sound : forall l, Forall is_byte l ->
  match parse_escape l with
  | EscCode code r => exists e, l = e ++ r /\ escape_seq e code
  | EscNot r => l = r /\ exists e t, l = e :: t /\ ~ In e escape_leads
  | EscInvalid _ => True
  | EscOver => False
  end.
Proof.
  intros l Hl. destruct l as [|e t]; cbn [parse_escape]; [ exact I | ].
  inversion Hl as [|? ? He Ht]; subst.
  pose proof (escape_map_cases e) as Hm.
  destruct (escape_map e) as [| | |v].
  - split; [ reflexivity | ]. exists e, t. split; [ reflexivity | assumption ].
  - split; [ reflexivity | ]. exists e, t. split; [ reflexivity | assumption ].
  - subst e. destruct t as [|c0 [|c1 t2]]; [ exact I | exact I | ].
    inversion Ht as [|? ? Hc0 Ht1]; subst. inversion Ht1 as [|? ? Hc1 Ht2]; subst.
    destruct ((c0 =? 123) && negb (c1 =? 125)) eqn:E.
    + apply andb_true_iff in E. destruct E as [E0 E1].
      apply Z.eqb_eq in E0. subst c0.
      destruct (parse_hex_brace (c1 :: t2) 0) as [code r|r|r|] eqn:Ep; try exact I.
      * destruct (parse_hex_brace_sound (c1 :: t2) 0 code r Ht1 ltac:(lia) Ep) as [ds [Hd Hn]].
        exists (120 :: 123 :: ds ++ [125]). split.
        -- rewrite Hd. cbn. rewrite <- app_assoc. reflexivity.
        -- constructor; [ | assumption ]. intros ->. cbn in Hd. injection Hd as -> _.
           cbn in E1. discriminate.
      * exfalso. revert Ep. apply parse_hex_brace_not_not.
      * exfalso. revert Ep. apply parse_hex_brace_no_over. discriminate.
    + destruct ((hex_map c1 <? 16) && (hex_map c0 <? 16)) eqn:E2; [ | exact I ].
      apply andb_true_iff in E2. destruct E2 as [E2 E3].
      assert (H0 : hex_val c0 (hex_map c0)) by (apply hex_map_val; [ assumption | split; [ reflexivity | lia ] ]).
      assert (H1 : hex_val c1 (hex_map c1)) by (apply hex_map_val; [ assumption | split; [ reflexivity | lia ] ]).
      exists [120; c0; c1]. split; [ reflexivity | ].
      pose proof (hex_val_range _ _ H1).
      rewrite shl_or by lia. change (2 ^ 4) with 16. constructor; assumption.
  - destruct Hm as [[-> ->]|[Hv Hs]].
    + exists [48]. split; [ reflexivity | constructor ].
    + destruct (Z.eqb_spec v 48); [ congruence | ]. exists [e]. split; [ reflexivity | assumption ].
Qed.

Lemma parse_escape_complete : forall e code r, escape_seq e code ->
  parse_escape (e ++ r) = EscCode code r.
Proof.
  intros e code r H. destruct H; try reflexivity.
  - pose proof (hex_val_range _ _ H) as R1. pose proof (hex_val_range _ _ H0) as R2.
    pose proof (proj2 (hex_map_val c1 (hex_val_byte _ _ H) v1) H) as [M1 _].
    pose proof (proj2 (hex_map_val c2 (hex_val_byte _ _ H0) v2) H0) as [M2 _].
    cbn [app parse_escape]. change (escape_map 120) with EHex. cbn match.
    assert (c1 <> 123) by (unfold hex_val in H; lia).
    destruct (Z.eqb_spec c1 123); [ congruence | ]. cbn [andb].
    rewrite M1, M2.
    destruct (v2 <? 16) eqn:E1; [ | lia ]. destruct (v1 <? 16) eqn:E2; [ | lia ]. cbn [andb].
    rewrite shl_or by lia. reflexivity.
  - destruct ds as [|d ds]; [ congruence | ].
    assert (Hd : d <> 125) by (inversion H0; subst; eapply hex_not_brace; eassumption).
    cbn [app]. cbn [parse_escape]. change (escape_map 120) with EHex. cbn match.
    destruct (Z.eqb_spec d 125); [ congruence | ]. cbn [negb andb Z.eqb].
    change (123 =? 123) with true. cbn [andb].
    rewrite <- app_assoc.
    apply (parse_hex_brace_complete (d :: ds) 0 code r); [ lia | assumption ].
Qed.

Lemma parse_escape_not : forall e t, ~ In e escape_leads -> parse_escape (e :: t) = EscNot (e :: t).
Proof.
  intros e t H. cbn [parse_escape]. pose proof (escape_map_cases e) as Hm.
  destruct (escape_map e) as [| | |v]; try reflexivity.
  - subst e. exfalso. apply H. unfold escape_leads. cbn. tauto.
  - exfalso. apply H. destruct Hm as [[_ ->]|[_ Hs]]; [ unfold escape_leads; cbn; tauto | ].
    inversion Hs; subst; unfold escape_leads; cbn; tauto.
Qed.

(* ---------- continuation bytes ---------- *)

Lemma cont_land : forall b, cont_byte b -> Z.land b 0x3F = b - 0x80.
Proof. intros b H. rewrite land_63. unfold cont_byte in H. lia. Qed.

Lemma len_cont_spec : forall n code l, Forall is_byte l -> 0 <= code -> (code + 1) * 64 ^ Z.of_nat n <= 2 ^ 31 ->
  (n <= length l)%nat ->
  match len_cont n code l with
  | Ok (code', rest) => exists bs, l = bs ++ rest /\ length bs = n /\ Forall cont_byte bs /\
                        code' = fold_left (fun a b => a * 64 + (b - 0x80)) bs code
  | Fail => ~ exists bs rest, l = bs ++ rest /\ length bs = n /\ Forall cont_byte bs
  | OverRead => False
  end.
Proof.
  induction n as [|n IH]; intros code l Hl H0 Hmax Hlen; cbn [len_cont].
  - exists []. repeat split; constructor.
  - destruct l as [|b t]; [ cbn in Hlen; lia | ].
    inversion Hl as [|? ? Hb Ht]; subst.
    rewrite (cont_test b Hb).
    rewrite Nat2Z.inj_succ, Z.pow_succ_r in Hmax by lia.
    destruct ((0x80 <=? b) && (b <=? 0xBF)) eqn:E; cbn [negb].
    + assert (Hcb : cont_byte b) by (unfold cont_byte; lia).
      assert (Hp : 0 < 64 ^ Z.of_nat n) by (apply Z.pow_pos_nonneg; lia).
      set (P := 64 ^ Z.of_nat n) in *.
      assert (Hc1 : (code + 1) * 64 <= 2 ^ 31) by nia.
      rewrite (u32_small (Z.shiftl code 6)) by (rewrite Z.shiftl_mul_pow2 by lia; lia).
      rewrite (cont_land b Hcb). pose proof Hcb as Hcb'. unfold cont_byte in Hcb'.
      rewrite shl_or by lia. change (2 ^ 6) with 64.
      assert (Hq : (code * 64 + (b - 128) + 1) * P <= 2 ^ 31) by nia.
      specialize (IH (code * 64 + (b - 128)) t Ht ltac:(lia) Hq ltac:(cbn in *; lia)).
      destruct (len_cont n (code * 64 + (b - 128)) t) as [[code' rest]| |].
      * destruct IH as [bs [E1 [E2 [E3 E4]]]]. exists (b :: bs).
        subst t. repeat split; cbn; try lia; try assumption.
        constructor; [ exact Hcb | assumption ].
      * intros [bs [rest [E1 [E2 E3]]]]. apply IH.
        destruct bs as [|x bs]; [ discriminate | ]. injection E1 as -> ->.
        inversion E3; subst. exists bs, rest. repeat split; [ cbn in E2; lia | assumption ].
      * exact IH.
    + intros [bs [rest [E1 [E2 E3]]]].
      destruct bs as [|x bs]; [ discriminate | ]. injection E1 as -> ->.
      inversion E3 as [|? ? Hx ?]; subst. unfold cont_byte in Hx. lia.
Qed.

(* Decoder continuation loop on a prefix of continuation bytes. *)
Lemma dec_cont_spec : forall w bs c rest, bs <> [] -> Forall cont_byte bs -> 0 <= c -> 0 <= w ->
  fold_left (fun a b => a * 64 + (b - 0x80)) bs c < 2 ^ w ->
  dec_cont w (Z.of_nat (length bs)) c (bs ++ rest) =
  Ok (fold_left (fun a b => a * 64 + (b - 0x80)) bs c, rest).
Proof.
  intros w bs. induction bs as [|b bs IH]; intros c rest Hne Hf Hc Hw Hlt; [ congruence | ].
  inversion Hf as [|? ? Hb Hbs]; subst.
  assert (Hmono : forall bs c, Forall cont_byte bs -> 0 <= c ->
            c <= fold_left (fun a b => a * 64 + (b - 0x80)) bs c).
  { clear. induction bs as [|b bs IH]; intros c Hf Hc; cbn [fold_left]; [ lia | ].
    inversion Hf as [|? ? Hb Hbs]; subst. unfold cont_byte in Hb.
    specialize (IH (c * 64 + (b - 0x80)) Hbs ltac:(lia)). lia. }
  cbn [app dec_cont]. rewrite cont_test by (unfold cont_byte, is_byte in *; lia).
  destruct ((0x80 <=? b) && (b <=? 0xBF)) eqn:E; [ | unfold cont_byte in Hb; lia ].
  cbn [negb]. rewrite (cont_land b Hb). pose proof Hb as Hb'. unfold cont_byte in Hb'.
  rewrite shl_or by lia. change (2 ^ 6) with 64.
  cbn [fold_left] in Hlt |- *.
  pose proof (Hmono bs (c * 64 + (b - 0x80)) Hbs ltac:(lia)) as Hm.
  rewrite uwrap_small by lia.
  destruct bs as [|b2 bs].
  - cbn [length]. change (Z.of_nat 1 - 1 =? 0) with true. reflexivity.
  - replace (Z.of_nat (length (b :: b2 :: bs)) - 1) with (Z.of_nat (length (b2 :: bs)))
      by (cbn [length]; lia).
    destruct (Z.eqb_spec (Z.of_nat (length (b2 :: bs))) 0) as [E0|E0]; [ exfalso; clear - E0; cbn [length] in E0; lia | ].
    apply IH; [ discriminate | assumption | lia | assumption | assumption ].
Qed.

(* ---------- layout ---------- *)

Lemma layout_nonempty : forall code bs, layout code bs -> bs <> [].
Proof. intros code bs H; destruct H; discriminate. Qed.

Lemma layout_nonneg : forall code bs, layout code bs -> 0 <= code.
Proof. intros code bs H; destruct H; unfold cont_byte in *; lia. Qed.

Lemma layout_bytes : forall code bs, layout code bs -> Forall is_byte bs.
Proof. intros code bs H; destruct H; unfold cont_byte in *; repeat constructor; unfold is_byte; lia. Qed.

Lemma layout_det : forall code bs code' bs' t t', layout code bs -> layout code' bs' ->
  bs ++ t = bs' ++ t' -> code = code' /\ bs = bs' /\ t = t'.
Proof.
  intros code bs code' bs' t t' H H' E.
  destruct H; destruct H'; cbn [app] in E; injection E; intros; subst; try lia; auto.
Qed.

(* First multi-byte character as read by KOS_utf8_get_len *)
Definition multi (c : Z) (t : list Z) : res (Z * list Z) :=
  if (utf8_len c =? 0) || (Z.of_nat (length t) <? utf8_len c - 1) || (c <? 0xC2) then Fail
  else len_cont (Z.to_nat (utf8_len c - 1)) (Z.land c (Z.shiftr 0x80 (utf8_len c) - 1)) t.

Lemma list_len1 : forall (A : Type) (l : list A), length l = 1%nat -> exists a, l = [a].
Proof. intros A [|a [|b l]] H; try discriminate. exists a; reflexivity. Qed.
Lemma list_len2 : forall (A : Type) (l : list A), length l = 2%nat -> exists a b, l = [a; b].
Proof. intros A [|a [|b [|c l]]] H; try discriminate. exists a, b; reflexivity. Qed.
Lemma list_len3 : forall (A : Type) (l : list A), length l = 3%nat -> exists a b c, l = [a; b; c].
Proof. intros A [|a [|b [|c [|d l]]]] H; try discriminate. exists a, b, c; reflexivity. Qed.

Lemma multi_spec : forall c t, Forall is_byte (c :: t) -> 0x80 <= c ->
  match multi c t with
  | Ok (code, rest) => exists bs, c :: t = bs ++ rest /\ layout code bs
  | Fail => ~ exists code bs rest, c :: t = bs ++ rest /\ layout code bs
  | OverRead => False
  end.
Proof.
  intros c t Hf Hc. inversion Hf as [|? ? Hb Ht]; subst. unfold multi.
  pose proof (utf8_len_spec c Hb) as Hl. unfold is_byte in Hb.
  destruct ((utf8_len c =? 0) || (Z.of_nat (length t) <? utf8_len c - 1) || (c <? 0xC2)) eqn:E.
  - intros [code [bs [rest [E1 HL]]]].
    destruct HL; cbn [app] in E1; injection E1; intros; subst;
    repeat match goal with H : context [if ?a <? ?b then _ else _] |- _ => destruct (Z.ltb_spec a b) end;
    try lia; rewrite Hl in E; cbn [length] in E; lia.
  - pose proof (lead_mask c Hb) as Hm.
    assert (Hr : 0xC2 <= c < 248).
    { repeat match goal with H : context [if ?a <? ?b then _ else _] |- _ => destruct (Z.ltb_spec a b) end; lia. }
    rewrite Hm by lia. clear Hm.
    destruct (Z.ltb_spec c 224) as [G1|G1]; [ | destruct (Z.ltb_spec c 240) as [G2|G2] ].
    + assert (Hu : utf8_len c = 2).
      { rewrite Hl. repeat match goal with |- context [if ?a <? ?b then _ else _] => destruct (Z.ltb_spec a b) end; lia. }
      rewrite Hu in *. clear Hl.
      pose proof (len_cont_spec 1 (c - 192) t Ht ltac:(lia) ltac:(lia) ltac:(lia)) as HS.
      change (Z.to_nat (2 - 1)) with 1%nat.
      destruct (len_cont 1 (c - 192) t) as [[code rest]| |].
      * destruct HS as [bs [E1 [E2 [E3 E4]]]]. destruct (list_len1 _ _ E2) as [b ->].
        exists [c; b]. subst t code. inversion E3; subst. split; [ reflexivity | ].
        cbn [fold_left]. apply L2; [ lia | assumption ].
      * intros [code [bs [rest [E1 HL]]]]. apply HS.
        destruct HL; cbn [app] in E1; injection E1; intros; subst; try lia.
        exists [b], rest. repeat split. repeat constructor; unfold cont_byte in *; lia.
      * exact HS.
    + assert (Hu : utf8_len c = 3).
      { rewrite Hl. repeat match goal with |- context [if ?a <? ?b then _ else _] => destruct (Z.ltb_spec a b) end; lia. }
      rewrite Hu in *. clear Hl.
      pose proof (len_cont_spec 2 (c - 224) t Ht ltac:(lia) ltac:(lia) ltac:(lia)) as HS.
      change (Z.to_nat (3 - 1)) with 2%nat.
      destruct (len_cont 2 (c - 224) t) as [[code rest]| |].
      * destruct HS as [bs [E1 [E2 [E3 E4]]]]. destruct (list_len2 _ _ E2) as [b [b2 ->]].
        exists [c; b; b2]. subst t code. inversion E3 as [|? ? K1 K2]; subst. inversion K2; subst.
        split; [ reflexivity | ].
        cbn [fold_left].
        replace (((c - 224) * 64 + (b - 128)) * 64 + (b2 - 128)) with ((c - 0xE0) * 4096 + (b - 0x80) * 64 + (b2 - 0x80)) by lia.
        apply L3; [ lia | assumption | assumption ].
      * intros [code [bs [rest [E1 HL]]]]. apply HS.
        destruct HL; cbn [app] in E1; injection E1; intros; subst; try lia.
        exists [b; c0], rest. repeat split. repeat constructor; unfold cont_byte in *; lia.
      * exact HS.
    + assert (Hu : utf8_len c = 4).
      { rewrite Hl. repeat match goal with |- context [if ?a <? ?b then _ else _] => destruct (Z.ltb_spec a b) end; lia. }
      rewrite Hu in *. clear Hl.
      pose proof (len_cont_spec 3 (c - 240) t Ht ltac:(lia) ltac:(lia) ltac:(lia)) as HS.
      change (Z.to_nat (4 - 1)) with 3%nat.
      destruct (len_cont 3 (c - 240) t) as [[code rest]| |].
      * destruct HS as [bs [E1 [E2 [E3 E4]]]]. destruct (list_len3 _ _ E2) as [b [b2 [b3 ->]]].
        exists [c; b; b2; b3]. subst t code. inversion E3 as [|? ? K1 K2]; subst.
        inversion K2 as [|? ? K3 K4]; subst. inversion K4; subst.
        split; [ reflexivity | ].
        cbn [fold_left].
        replace ((((c - 240) * 64 + (b - 128)) * 64 + (b2 - 128)) * 64 + (b3 - 128))
          with ((c - 0xF0) * 262144 + (b - 0x80) * 4096 + (b2 - 0x80) * 64 + (b3 - 0x80)) by lia.
        apply L4; [ lia | assumption | assumption | assumption ].
      * intros [code [bs [rest [E1 HL]]]]. apply HS.
        destruct HL; cbn [app] in E1; injection E1; intros; subst; try lia.
        exists [b; c0; d], rest. repeat split. repeat constructor; unfold cont_byte in *; lia.
      * exact HS.
Qed.

(* ---------- fast path ---------- *)

Lemma land_split : forall x y, Z.land x y = 256 * Z.land (x / 256) (y / 256) + Z.land (x mod 256) (y mod 256).
Proof.
  intros x y.
  assert (H1 : Z.land x y / 256 = Z.land (x / 256) (y / 256)).
  { change 256 with (2 ^ 8). rewrite <- !Z.shiftr_div_pow2 by lia. apply Z.shiftr_land. }
  assert (H2 : Z.land x y mod 256 = Z.land (x mod 256) (y mod 256)).
  { change 256 with (2 ^ 8). rewrite <- !Z.land_ones by lia.
    apply Z.bits_inj'. intros n Hn. rewrite !Z.land_spec.
    destruct (Z.testbit x n), (Z.testbit y n), (Z.testbit (Z.ones 8) n); reflexivity. }
  rewrite <- H1, <- H2. lia.
Qed.

Lemma lxor_split : forall x y, Z.lxor x y = 256 * Z.lxor (x / 256) (y / 256) + Z.lxor (x mod 256) (y mod 256).
Proof.
  intros x y.
  assert (H1 : Z.lxor x y / 256 = Z.lxor (x / 256) (y / 256)).
  { change 256 with (2 ^ 8). rewrite <- !Z.shiftr_div_pow2 by lia. apply Z.shiftr_lxor. }
  assert (H2 : Z.lxor x y mod 256 = Z.lxor (x mod 256) (y mod 256)).
  { change 256 with (2 ^ 8). rewrite <- !Z.land_ones by lia.
    apply Z.bits_inj'. intros n Hn. rewrite !Z.land_spec, !Z.lxor_spec, !Z.land_spec.
    destruct (Z.testbit x n), (Z.testbit y n), (Z.testbit (Z.ones 8) n); reflexivity. }
  rewrite <- H1, <- H2. lia.
Qed.

Lemma word_of_div : forall b t, is_byte b -> (b + 256 * word_of t) / 256 = word_of t.
Proof. unfold is_byte. intros. lia. Qed.
Lemma word_of_mod : forall b t, is_byte b -> (b + 256 * word_of t) mod 256 = b.
Proof. unfold is_byte. intros. lia. Qed.

Lemma word_of_bound : forall l, Forall is_byte l -> 0 <= word_of l < 256 ^ Z.of_nat (length l).
Proof.
  induction l as [|b t IH]; intros H; [ cbn; lia | ].
  inversion H as [|? ? Hb Ht]; subst. specialize (IH Ht).
  cbn [word_of length]. rewrite Nat2Z.inj_succ, Z.pow_succ_r by lia.
  unfold is_byte in Hb. lia.
Qed.

Lemma word_mask : forall l, Forall is_byte l ->
  Z.land (word_of l) (word_of (repeat 128 (length l))) = 0 -> Forall (fun b => b < 128) l.
Proof.
  induction l as [|b t IH]; intros H E; [ constructor | ].
  inversion H as [|? ? Hb Ht]; subst. cbn [length repeat word_of] in E.
  rewrite land_split in E.
  rewrite !word_of_div, !word_of_mod in E by (assumption || (unfold is_byte; lia)).
  assert (N1 : 0 <= Z.land b 128) by (apply Z.land_nonneg; unfold is_byte in Hb; lia).
  assert (N2 : 0 <= Z.land (word_of t) (word_of (repeat 128 (length t)))).
  { apply Z.land_nonneg. left. pose proof (word_of_bound t Ht). lia. }
  constructor; [ | apply IH; [ assumption | lia ] ].
  assert (E1 : Z.land b 128 = 0) by lia.
  assert (K : byte_all (fun b => negb (Z.land b 128 =? 0) || (b <? 128)) = true) by (vm_compute; reflexivity).
  pose proof (byte_all_spec _ K b Hb) as K1. cbn beta in K1. rewrite E1 in K1. cbn in K1. lia.
Qed.

Lemma byte_lxor : forall b, is_byte b -> b < 128 -> 0 <= Z.lxor b 0x23 < 128 /\ (Z.lxor b 0x23 = 127 <-> b = 92).
Proof.
  intros b Hb Hlt.
  assert (K : byte_all (fun b => (128 <=? b) || ((0 <=? Z.lxor b 0x23) && (Z.lxor b 0x23 <? 128) &&
     Bool.eqb (Z.lxor b 0x23 =? 127) (b =? 92))) = true) by (vm_compute; reflexivity).
  pose proof (byte_all_spec _ K b Hb) as K1. cbn beta in K1.
  apply orb_true_iff in K1. destruct K1 as [K1|K1]; [ lia | ].
  apply andb_true_iff in K1. destruct K1 as [K1 K2]. apply eqb_prop in K2.
  split; [ lia | ].
  split; intros; [ apply Z.eqb_eq; rewrite <- K2; apply Z.eqb_eq; assumption
                 | apply Z.eqb_eq; rewrite K2; apply Z.eqb_eq; assumption ].
Qed.

Lemma word_lxor_add : forall l, Forall is_byte l -> Forall (fun b => b < 128) l ->
  Z.lxor (word_of l) (word_of (repeat 0x23 (length l))) + word_of (repeat 1 (length l)) =
  word_of (map (fun b => Z.lxor b 0x23 + 1) l).
Proof.
  induction l as [|b t IH]; intros H Hlt; [ reflexivity | ].
  inversion H as [|? ? Hb Ht]; subst. inversion Hlt as [|? ? Hb' Ht']; subst.
  specialize (IH Ht Ht'). cbn [length repeat word_of map].
  rewrite lxor_split.
  rewrite !word_of_div, !word_of_mod by (assumption || (unfold is_byte; lia)).
  lia.
Qed.

Definition plain (esc : bool) (b : Z) : Prop := 0 <= b < 128 /\ (esc = true -> b <> 92).

Lemma fast_path_spec : forall fuel esc l n, Forall is_byte l ->
  exists pre rest, l = pre ++ rest /\ Forall (plain esc) pre /\
    fast_path fuel esc l n = (n + Z.of_nat (length pre), rest).
Proof.
  induction fuel as [|fuel IH]; intros esc l n Hl; cbn [fast_path].
  - exists [], l. cbn. repeat split; [ constructor | f_equal; lia ].
  - destruct (8 <=? length l)%nat eqn:E8.
    2:{ exists [], l. cbn. repeat split; [ constructor | f_equal; lia ]. }
    assert (Hlen : length (firstn 8 l) = 8%nat) by (rewrite firstn_length; apply Nat.leb_le in E8; lia).
    assert (Hsplit : l = firstn 8 l ++ skipn 8 l) by (symmetry; apply firstn_skipn).
    assert (Hf : Forall is_byte (firstn 8 l) /\ Forall is_byte (skipn 8 l)).
    { rewrite Hsplit in Hl. apply Forall_app in Hl. exact Hl. }
    destruct Hf as [Hf1 Hf2].
    set (wd := firstn 8 l) in *.
    destruct (Z.eqb_spec (Z.land (word_of wd) single_byte_mask) 0) as [E1|E1]; cbn [negb].
    2:{ exists [], l. cbn. repeat split; [ constructor | f_equal; lia ]. }
    assert (M1 : single_byte_mask = word_of (repeat 128 (length wd))) by (rewrite Hlen; vm_compute; reflexivity).
    rewrite M1 in E1. pose proof (word_mask wd Hf1 E1) as Hlt.
    assert (Hcont : Forall (plain esc) wd ->
      exists pre rest, l = pre ++ rest /\ Forall (plain esc) pre /\
        fast_path fuel esc (skipn 8 l) (n + 8) = (n + Z.of_nat (length pre), rest)).
    { intros Hp. destruct (IH esc (skipn 8 l) (n + 8) Hf2) as [pre [rest [A1 [A2 A3]]]].
      exists (wd ++ pre), rest. split; [ | split ].
      - rewrite <- app_assoc, <- A1. exact Hsplit.
      - apply Forall_app; split; assumption.
      - rewrite A3, app_length, Hlen. f_equal. lia. }
    assert (Hlow : Forall (fun b => 0 <= b < 128) wd).
    { rewrite Forall_forall in *. intros x Hx. specialize (Hlt x Hx). specialize (Hf1 x Hx). unfold is_byte in Hf1. lia. }
    destruct esc; cbn [andb].
    2:{ apply Hcont. rewrite Forall_forall in *. intros x Hx. split; [ apply Hlow; assumption | discriminate ]. }
    destruct (Z.eqb_spec (Z.land (u64 (Z.lxor (word_of wd) backslash_mask + one64)) single_byte_mask) 0) as [E2|E2]; cbn [negb].
    2:{ exists [], l. cbn. repeat split; [ constructor | f_equal; lia ]. }
    apply Hcont.
    assert (M2 : backslash_mask = word_of (repeat 0x23 (length wd))) by (rewrite Hlen; vm_compute; reflexivity).
    assert (M3 : one64 = word_of (repeat 1 (length wd))) by (rewrite Hlen; vm_compute; reflexivity).
    rewrite M1, M2, M3 in E2. rewrite word_lxor_add in E2 by assumption.
    assert (Hmap : Forall is_byte (map (fun b => Z.lxor b 0x23 + 1) wd)).
    { apply Forall_forall. intros x Hx. apply in_map_iff in Hx. destruct Hx as [b [<- Hb]].
      rewrite Forall_forall in Hf1, Hlt. destruct (byte_lxor b (Hf1 b Hb) (Hlt b Hb)) as [R _]. unfold is_byte. lia. }
    pose proof (word_of_bound _ Hmap) as Hbnd. rewrite map_length, Hlen in Hbnd.
    change (256 ^ Z.of_nat 8) with (2 ^ 64) in Hbnd.
    unfold u64 in E2. rewrite uwrap_small in E2 by exact Hbnd.
    rewrite <- (map_length (fun b => Z.lxor b 0x23 + 1) wd) in E2.
    pose proof (word_mask _ Hmap E2) as Hlt2.
    rewrite Forall_forall in *. intros x Hx. split; [ apply Hlow; assumption | ].
    intros _ ->. assert (Hin : In (Z.lxor 92 35 + 1) (map (fun b => Z.lxor b 35 + 1) wd)).
    { apply in_map_iff. exists 92. split; [ reflexivity | assumption ]. }
    specialize (Hlt2 _ Hin). vm_compute in Hlt2. discriminate.
Qed.
