(* The compiler of regular expressions terminates. *)
From Coq Require Import ZArith List Lia Bool ZifyBool.
Import ListNotations.
From Verif Require Import Base ListZ ReClassModel ReClassSpec ReClassProofs ReModel ReSpec ReProofs1 ReProofs5.
Local Open Scope Z_scope.
Ltac Zify.zify_post_hook ::= idtac.

Definition ends {A} (x : rres A) : Prop := x <> RFuel.
Lemma ends_bind : forall A B (m : rres A) (f : A -> rres B), ends m -> (forall a, m = ROk a -> ends (f a)) -> ends (rbind m f).
Proof. intros A B m f H1 H2. destruct m; cbn [rbind]; [apply H2; reflexivity | intros X; discriminate X | contradiction (H1 eq_refl)]. Qed.
Lemma ends_ok : forall A (a : A), ends (ROk a).
Proof. intros A a X. discriminate X. Qed.
Lemma ends_throw : forall A, ends (@RThrow A).
Proof. intros A X. discriminate X. Qed.
Lemma emit_ends : forall code args c, ends (emit code args c).
Proof. intros code args c. unfold emit. cbv zeta. destruct (_ >? _); [apply ends_throw | apply ends_ok]. Qed.
Lemma expect_ends : forall x c, ends (expect_char x c).
Proof. intros x c. unfold expect_char. destruct (_ =? _); [apply ends_ok | apply ends_throw]. Qed.
Lemma number_ends : forall t v, ends (number_loop t v).
Proof.
  induction t as [|x t IH]; intros v; cbn [number_loop]; [apply ends_ok |]. destruct (_ || _); [apply ends_ok |]. cbv zeta.
  destruct (_ >? _); [apply ends_throw | apply IH].
Qed.
Lemma parse_number_ends : forall c, ends (parse_number c).
Proof.
  intros c. unfold parse_number. cbv zeta. destruct (_ =? _); [apply ends_throw |]. destruct (_ || _); [apply ends_throw |].
  apply ends_bind; [apply number_ends | intros; apply ends_ok].
Qed.
Lemma multiplicity_ends : forall bg c, ends (parse_optional_multiplicity bg c).
Proof.
  intros bg c. unfold parse_optional_multiplicity. cbv zeta. destruct (_ || _); [| apply ends_ok]. destruct (rc_mult c); [| apply ends_throw].
  apply ends_bind.
  - destruct (_ =? _); [apply ends_ok |]. destruct (_ =? _); [apply ends_ok |]. destruct (_ =? _); [apply ends_ok |]. unfold parse_count.
    apply ends_bind; [apply parse_number_ends |]. intros [mn c1] _. apply ends_bind.
    + destruct (_ =? _); [| apply ends_ok]. cbv zeta. apply ends_bind; [destruct (_ =? _); [apply ends_ok | apply parse_number_ends] |].
      intros [mx c3] _. destruct (_ <? _); [apply ends_throw | apply ends_ok].
    + intros [mx c2] _. destruct (_ =? _); [apply ends_throw |]. apply ends_bind; [apply expect_ends | intros; apply ends_ok].
  - intros [[mn mx] c2] _. apply ends_bind; [| intros; apply ends_ok]. unfold emit_multiplicity. cbv zeta.
    apply ends_bind; [apply emit_ends |]. intros. apply ends_bind; [apply emit_ends | intros; apply ends_ok].
Qed.

(* classes *)
Lemma gz_last : forall A (l : list A) x, gz (l ++ [x]) (len l) = Some x.
Proof. intros. rewrite gz_app, Z.ltb_irrefl, Z.sub_diag. reflexivity. Qed.
Lemma setz_last : forall A (l : list A) x y, setz (l ++ [x]) (len l) y = l ++ [y].
Proof. intros. rewrite setz_app_r by lia. rewrite Z.sub_diag. reflexivity. Qed.

Lemma add_range_ok : forall c cl rs b e, rc_classes c = cl ++ [rs] -> ok (-1) rs -> 0 <= b <= e -> e < 2 ^ 24 ->
  exists rs', add_class_range rs b e = Some rs' /\ ok (-1) rs' /\ add_range (len cl) b e c = ROk (set_classes (cl ++ [rs']) c).
Proof.
  intros c cl rs b e Hc Hok Hb He. destruct (add_spec rs b e Hok Hb He) as (rs' & E1 & E2 & _). exists rs'. split; [exact E1 |]. split; [exact E2 |].
  unfold add_range. rewrite Hc, gz_last, E1, setz_last. reflexivity.
Qed.
Lemma class_char_valid : forall w x, chars w -> class_char w x -> 0 <= x < 2 ^ 24.
Proof.
  intros w x Hw H. destruct H as [c H | c H | c d H].
  - inversion Hw. assumption.
  - inversion Hw as [|? ? _ H2]. inversion H2. assumption.
  - destruct H; change (2 ^ 24) with 16777216; lia.
Qed.
Lemma chars_prefix : forall w t, chars (w ++ t) -> chars w.
Proof. intros w t H. apply Forall_app in H. tauto. Qed.

Lemma parse_class_char_ends : forall c, ends (parse_class_char c).
Proof.
  intros c. unfold parse_class_char. cbv zeta. destruct (_ =? _); [apply ends_throw |]. destruct (_ =? _); [| apply ends_ok].
  unfold parse_class_char_escape_seq. cbv zeta. destruct (_ =? _); [apply ends_throw |]. destruct (existsb _ _); [apply ends_ok |].
  destruct (esc_whitespace _); [apply ends_ok | apply ends_throw].
Qed.
Lemma class_loop_ends : forall f c cl rs, chars (rc_text c) -> (length (rc_text c) < f)%nat -> rc_classes c = cl ++ [rs] -> ok (-1) rs ->
  ends (class_loop f (len cl) c).
Proof.
  induction f as [|f IH]; intros c cl rs Hc Hf Hcl Hok; [lia |]. cbn [class_loop].
  apply ends_bind; [apply parse_class_char_ends |]. intros [b c1] E1. apply class_char_sound in E1; [| exact Hc]. destruct E1 as (w & T1 & K1 & C1).
  assert (Hw : chars w /\ chars (rc_text c1)) by (rewrite T1 in Hc; split; [apply chars_prefix in Hc; exact Hc | apply chars_suffix in Hc; exact Hc]).
  destruct Hw as [Hw Hc1]. pose proof (class_char_valid _ _ Hw K1) as Vb.
  assert (L1 : (length (rc_text c1) < length (rc_text c))%nat).
  { rewrite T1, app_length. apply class_char_nonempty in K1. destruct w; [congruence | cbn [length]; lia]. }
  apply ends_bind; [destruct (_ =? _); [apply parse_class_char_ends | apply ends_ok] |]. intros [e c2] E2.
  assert (K : 0 <= e < 2 ^ 24 /\ chars (rc_text c2) /\ (length (rc_text c2) <= length (rc_text c1))%nat /\ rc_classes c2 = rc_classes c1).
  { destruct (Z.eqb_spec (peek c1) 45) as [P | P].
    - pose proof (peek_is c1 45 P ltac:(unfold END_OF_STR; lia)) as T. assert (Hx : chars (rc_text (consume c1))) by (rewrite T in Hc1; apply (chars_suffix [45]) in Hc1; exact Hc1).
      apply class_char_sound in E2; [| exact Hx]. destruct E2 as (v & T2 & K2 & C2). rewrite T2 in Hx. split; [apply (class_char_valid v); [apply chars_prefix in Hx; exact Hx | exact K2] |].
      split; [apply chars_suffix in Hx; exact Hx |]. split; [rewrite T, T2; cbn [length]; rewrite app_length; lia | rewrite C2; reflexivity].
    - assert (e = b /\ c2 = c1) as [-> ->] by (split; congruence). auto. }
  destruct K as (Ve & Hc2 & L2 & C2). destruct (Z.gtb_spec b e); [apply ends_throw |].
  assert (Hcl2 : rc_classes c2 = cl ++ [rs]) by (rewrite C2, C1; exact Hcl).
  destruct (add_range_ok c2 cl rs b e Hcl2 Hok ltac:(lia) ltac:(lia)) as (rs' & _ & Ok' & E3). rewrite E3. cbn [rbind].
  destruct (_ =? 93); [apply ends_ok |]. apply (IH _ cl rs'); [exact Hc2 | cbn [rc_text set_classes]; lia | reflexivity | exact Ok'].
Qed.
Lemma parse_class_ends : forall c, chars (rc_text c) -> ends (parse_class c).
Proof.
  intros c Hc. unfold parse_class. cbn [generate_class]. cbv zeta. apply ends_bind; [| intros; apply emit_ends].
  destruct (peek c =? 94) eqn:P.
  - apply (class_loop_ends _ _ (rc_classes c) []); [| cbn [consume set_text rc_text set_classes]; lia | reflexivity | exact I].
    cbn [consume set_text rc_text set_classes]. destruct (rc_text c); [apply Forall_nil | inversion Hc; assumption].
  - apply (class_loop_ends _ _ (rc_classes c) []); [exact Hc | cbn [consume set_text rc_text set_classes]; lia | reflexivity | exact I].
Qed.

Lemma add_ranges_ok : forall l c cl rs, rc_classes c = cl ++ [rs] -> ok (-1) rs -> Forall valid_range l ->
  exists rs', build_class rs l = Some rs' /\ add_ranges (len cl) l c = ROk (set_classes (cl ++ [rs']) c).
Proof.
  induction l as [|[b e] l IH]; intros c cl rs Hcl Hok Hv; cbn [build_class add_ranges].
  - exists rs. split; [reflexivity |]. rewrite <- Hcl. destruct c; reflexivity.
  - inversion Hv as [|? ? [Hb He] Hv']. cbn [fst snd] in Hb, He. destruct (add_range_ok c cl rs b e Hcl Hok Hb He) as (rs1 & E1 & Ok1 & E2). rewrite E1, E2. cbn [rbind].
    destruct (IH (set_classes (cl ++ [rs1]) c) cl rs1 eq_refl Ok1 Hv') as (rs' & E3 & E4). exists rs'. split; [exact E3 | exact E4].
Qed.
Lemma digits_valid : Forall valid_range digits.
Proof. apply Forall_cons; [split; cbn; lia | apply Forall_nil]. Qed.
Lemma words_valid : Forall valid_range word_chars.
Proof. repeat (apply Forall_cons; [split; cbn; lia |]). apply Forall_nil. Qed.
Lemma digit_ends : forall c, ends (get_digit_class_id c).
Proof.
  intros c. unfold get_digit_class_id. destruct (rc_digit c); [apply ends_ok |]. cbn [generate_class].
  destruct (add_ranges_ok digits (set_classes (rc_classes c ++ [[]]) c) (rc_classes c) [] eq_refl I digits_valid) as (rs' & _ & E).
  fold digits. rewrite E. cbn [rbind]. apply ends_ok.
Qed.
Lemma word_ends : forall c, ends (get_word_class_id c).
Proof.
  intros c. unfold get_word_class_id. destruct (rc_word c); [apply ends_ok |]. cbn [generate_class].
  destruct (add_ranges_ok word_chars (set_classes (rc_classes c ++ [[]]) c) (rc_classes c) [] eq_refl I words_valid) as (rs' & _ & E).
  fold word_chars. rewrite E. cbn [rbind]. apply ends_ok.
Qed.
Lemma escape_ends : forall c, ends (parse_escape_seq c).
Proof.
  intros c. unfold parse_escape_seq. cbv zeta. destruct (_ =? _); [apply ends_throw |]. destruct (existsb _ _); [apply emit_ends |].
  repeat match goal with |- ends (if ?a =? ?b then emit _ _ _ else _) => destruct (a =? b); [apply emit_ends |] end.
  destruct (_ =? 100); [apply ends_bind; [apply digit_ends | intros [? ?] _; apply emit_ends] |].
  destruct (_ =? 68); [apply ends_bind; [apply digit_ends | intros [? ?] _; apply emit_ends] |].
  destruct (_ =? 119); [apply ends_bind; [apply word_ends | intros [? ?] _; apply emit_ends] |].
  destruct (_ =? 87); [apply ends_bind; [apply word_ends | intros [? ?] _; apply emit_ends] |].
  destruct (esc_whitespace _); [apply emit_ends | apply ends_throw].
Qed.

(* expressions *)
Lemma atom_nonempty : forall g w r g', atom_text g w r g' -> w <> [].
Proof. intros g w r g' H. destruct H; discriminate. Qed.
Lemma quantifier_nonempty : forall q lz n m, quantifier q lz n m -> q <> [].
Proof. intros q lz n m H. destruct H as [w n m H | w n m H]; [destruct H; discriminate | destruct w; discriminate]. Qed.
Lemma consume_length : forall c, peek c <> END_OF_STR -> length (rc_text c) = S (length (rc_text (consume c))).
Proof. intros c H. rewrite (peek_cons c H) at 1. reflexivity. Qed.
Lemma consume_chars : forall c, chars (rc_text c) -> chars (rc_text (consume c)).
Proof. intros c H. unfold consume. cbn [rc_text set_text]. destruct (rc_text c); [apply Forall_nil | inversion H; assumption]. Qed.

Notation tlen c := (length (rc_text c)).
Lemma parse_ends : forall f,
  (forall c, chars (rc_text c) -> (4 * tlen c + 3 <= f)%nat -> ends (parse_alternative_match_seq f c)) /\
  (forall fork j c, chars (rc_text c) -> (4 * tlen c + 2 <= f)%nat -> ends (alt_loop f fork j c)) /\
  (forall c, chars (rc_text c) -> (4 * tlen c + 2 <= f)%nat -> ends (parse_match_seq f c)) /\
  (forall c, chars (rc_text c) -> peek c <> END_OF_STR -> (4 * tlen c + 1 <= f)%nat -> ends (parse_single_match f c)) /\
  (forall c, chars (rc_text c) -> (4 * tlen c + 4 <= f)%nat -> ends (parse_group f c)).
Proof.
  induction f as [|f (IHalt & IHloop & IHseq & IHone & IHgroup)].
  { split; [| split; [| split; [| split]]]; intros; lia. }
  destruct (parse_sound f) as (Salt & Sloop & Sseq & Sone & Sgroup).
  assert (Shorter : forall c w t, rc_text c = w ++ t -> chars (rc_text c) -> chars t /\ (length t + length w = tlen c)%nat).
  { intros c w t E H. rewrite E in H. split; [apply chars_suffix in H; exact H | rewrite E, app_length; lia]. }
  split; [| split; [| split; [| split]]].
  - intros c Hc Hf. cbn [parse_alternative_match_seq]. cbv zeta. apply ends_bind; [apply IHseq; [exact Hc | cbn; lia] |].
    intros a E. apply Sseq in E; [| exact Hc | intros X; discriminate X]. destruct E as (w & r & T & _). destruct (Shorter c w _ T Hc) as [H1 H2].
    apply IHloop; [exact H1 | lia].
  - intros fork j c Hc Hf. cbn [alt_loop]. cbv zeta. destruct (Z.eqb_spec (peek c) 124) as [P | P].
    + pose proof (consume_length c ltac:(rewrite P; unfold END_OF_STR; lia)) as L. pose proof (consume_chars c Hc) as Hc1.
      apply ends_bind; [apply emit_ends |]. intros c1 E1. apply emit_ok in E1. destruct E1 as [-> _].
      apply ends_bind; [apply emit_ends |]. intros c3 E3. apply emit_ok in E3. destruct E3 as [-> _].
      apply ends_bind; [apply IHseq; [destruct j; exact Hc1 | destruct j; cbn; cbn in L; lia] |].
      intros a E. apply Sseq in E; [| destruct j; exact Hc1 | intros X; discriminate X]. destruct E as (w & r & T & _).
      assert (T' : rc_text (consume c) = w ++ rc_text a) by (destruct j; exact T). destruct (Shorter _ w _ T' Hc1) as [H1 H2]. apply IHloop; [exact H1 | lia].
    + destruct (_ || _); [destruct (_ =? END_OF_STR); [apply ends_ok | apply ends_throw] | apply ends_ok].
  - intros c Hc Hf. cbn [parse_match_seq]. cbv zeta. destruct ((peek c =? END_OF_STR) || (peek c =? 124) || (peek c =? 41)) eqn:B; [apply ends_ok |].
    apply orb_false_iff in B. destruct B as [B B3]. apply orb_false_iff in B. destruct B as [B1 B2].
    apply ends_bind; [apply IHone; [exact Hc | lia | lia] |]. intros a E. apply Sone in E; [| exact Hc | lia | lia | lia].
    apply ends_bind; [apply multiplicity_ends |]. intros a0 E0. apply multiplicity_sound in E0.
    assert (K : chars (rc_text a0) /\ (tlen a0 < tlen c)%nat).
    { destruct E as [(-> & Q) | (w & r & T & G & _)].
      - destruct E0 as [(_ & Q') | (_ & _ & _ & _ & q & lz & n & m & T2 & Hq)]; [congruence |]. destruct (Shorter _ _ _ T2 Hc) as [H1 H2].
        split; [exact H1 |]. apply quantifier_nonempty in Hq. destruct q; [congruence | cbn [length] in H2; lia].
      - destruct (Shorter _ _ _ T Hc) as [H1 H2]. apply atom_nonempty in G. destruct w as [|x w]; [congruence |]. cbn [length] in H2.
        destruct E0 as [(-> & Q) | (_ & _ & _ & _ & q & lz & n & m & T2 & Hq)]; [split; [exact H1 | lia] |]. destruct (Shorter _ _ _ T2 H1) as [H3 H4].
        split; [exact H3 | lia]. }
    destruct K as [K1 K2]. apply IHseq; [exact K1 | lia].
  - intros c Hc Ne Hf. pose proof (consume_length c Ne) as L. pose proof (consume_chars c Hc) as Hc1. cbn [parse_single_match]. cbv zeta.
    destruct (_ =? 46); [apply emit_ends |]. destruct (_ =? 94); [apply emit_ends |]. destruct (_ =? 36); [apply emit_ends |].
    destruct (_ =? 92); [apply escape_ends |]. destruct (_ =? 91); [apply parse_class_ends; exact Hc1 |].
    destruct (_ =? 40); [apply IHgroup; [exact Hc1 | lia] |]. destruct (_ || _); [apply ends_ok |].
    destruct (_ =? 41); [destruct (_ =? 0); [destruct (_ <? _); apply emit_ends | apply ends_ok] | destruct (_ <? _); apply emit_ends].
  - intros c Hc Hf. cbn [parse_group]. apply ends_bind.
    + destruct (_ =? 63); [| apply ends_ok]. cbv zeta. destruct (_ =? END_OF_STR); [apply ends_throw |]. destruct (_ =? 58); [apply ends_ok | apply ends_throw].
    + intros [id c1] E. assert (K : chars (rc_text c1) /\ (tlen c1 <= tlen c)%nat).
      { destruct (_ =? 63) in E.
        - cbv zeta in E. destruct (_ =? END_OF_STR) in E; [discriminate E |]. destruct (_ =? 58) in E; [| discriminate E].
          assert (c1 = consume (consume c)) by congruence. subst c1. split; [apply consume_chars, consume_chars; exact Hc |].
          unfold consume. cbn [rc_text set_text]. destruct (rc_text c) as [|x [|y t]]; cbn [tl length]; lia.
        - assert (c1 = set_groups (rc_groups c + 1) c) by congruence. subst c1. split; [exact Hc | cbn; lia]. }
      destruct K as [K1 K2]. apply ends_bind; [apply emit_ends |]. intros c2 E2. apply emit_ok in E2. destruct E2 as [-> _].
      apply ends_bind; [apply IHalt; [exact K1 | cbn; lia] |]. intros c3 _. apply ends_bind; [apply expect_ends | intros; apply emit_ends].
Qed.

Lemma parse_re_ends : forall text, chars text -> ends (parse_re text).
Proof.
  intros text Hc. unfold parse_re. apply ends_bind; [| intros; apply ends_ok]. apply (proj1 (parse_ends _)); [exact Hc | cbn; lia].
Qed.
