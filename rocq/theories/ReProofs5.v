(* Accepted texts are regular expressions. *)
From Coq Require Import ZArith List Lia Bool ZifyBool.
Import ListNotations.
From Verif Require Import Base ListZ ReClassModel ReClassSpec ReModel ReSpec ReProofs1.
Local Open Scope Z_scope.
Ltac Zify.zify_post_hook ::= idtac.

Definition chars (t : list Z) : Prop := Forall (fun c => 0 <= c < 2 ^ 24) t.
Lemma chars_suffix : forall w t, chars (w ++ t) -> chars t.
Proof. intros w t H. apply Forall_app in H. tauto. Qed.

Lemma peek_end : forall c, chars (rc_text c) -> peek c = END_OF_STR -> rc_text c = [].
Proof.
  intros c H E. unfold peek in E. destruct (rc_text c) as [|x t]; [reflexivity |]. inversion H as [|? ? H1 H2]. unfold END_OF_STR in E.
  change (2 ^ 24) with 16777216 in H1. lia.
Qed.
Lemma peek_is : forall c x, peek c = x -> x <> END_OF_STR -> rc_text c = x :: rc_text (consume c).
Proof. intros c x E N. unfold peek in E. unfold consume. destruct c as [t ? ? ? ? ? ? ? ?]. cbn in *. destruct t; [congruence | cbn; congruence]. Qed.
Lemma peek_cons : forall c, peek c <> END_OF_STR -> rc_text c = peek c :: rc_text (consume c).
Proof. intros c N. apply peek_is; auto. Qed.

(* what does not change except for the text *)
Definition framed (c c' : rctx) : Prop := rc_groups c' = rc_groups c /\ rc_depth c' = rc_depth c.
Lemma framed_refl : forall c, framed c c.
Proof. intros. split; reflexivity. Qed.
Lemma framed_trans : forall a b c, framed a b -> framed b c -> framed a c.
Proof. intros a b c [H1 H2] [H3 H4]. split; congruence. Qed.

Lemma emit_ok : forall code args c c', emit code args c = ROk c' ->
  c' = set_mult true (set_buf (rc_buf c ++ code :: map u16 args) c) /\ len (rc_buf c ++ code :: map u16 args) * 2 <= 65535.
Proof.
  intros code args c c' H. unfold emit in H. destruct (Z.gtb_spec (len (rc_buf c ++ code :: map u16 args) * 2) 65535); [discriminate H |].
  split; [congruence | assumption].
Qed.
Lemma emit_frame : forall code args c c', emit code args c = ROk c' -> rc_text c' = rc_text c /\ framed c c' /\ rc_mult c' = true.
Proof. intros code args c c' H. apply emit_ok in H. destruct H as [-> _]. repeat split. Qed.

Ltac rb H := match type of H with rbind ?m _ = ROk _ => let E := fresh "E" in destruct m eqn:E; cbn [rbind] in H; [| discriminate H | discriminate H] end.

(* numbers *)
Lemma number_loop_sound : forall t w0 v n t', number w0 v -> 0 <= v <= 65535 -> number_loop t v = ROk (n, t') ->
  exists w, t = w ++ t' /\ number (w0 ++ w) n /\ 0 <= n <= 65535.
Proof.
  induction t as [|x t IH]; intros w0 v n t' Hn Hv H; cbn [number_loop] in H.
  - assert (v = n /\ t' = []) as [-> ->] by (split; congruence). exists []. rewrite (app_nil_r w0). auto.
  - destruct ((x <? 48) || (x >? 57)) eqn:D.
    + assert (v = n /\ t' = x :: t) as [-> ->] by (split; congruence). exists []. rewrite (app_nil_r w0). auto.
    + apply orb_false_iff in D. destruct D as [D1 D2]. assert (Hd : is_digit x) by (unfold is_digit; lia).
      cbv zeta in H. assert (Eu : u32 (v * 10 + (x - 48)) = v * 10 + (x - 48)).
      { unfold u32, uwrap. apply Z.mod_small. unfold is_digit in Hd. change (2 ^ 32) with 4294967296. lia. }
      rewrite Eu in H. destruct (Z.gtb_spec (v * 10 + (x - 48)) 65535); [discriminate H |].
      apply (IH (w0 ++ [x])) in H; [| apply num_more; assumption | unfold is_digit in Hd; lia].
      destruct H as (w & -> & H2 & H3). exists (x :: w). rewrite <- app_assoc in H2. auto.
Qed.
Lemma parse_number_sound : forall c n c', parse_number c = ROk (n, c') ->
  exists w, rc_text c = w ++ rc_text c' /\ number w n /\ 0 <= n <= 65535 /\ c' = set_text (rc_text c') c.
Proof.
  intros c n c' H. unfold parse_number in H. cbv zeta in H. destruct (Z.eqb_spec (peek c) END_OF_STR) as [|Ne]; [discriminate H |].
  destruct ((peek c <? 48) || (peek c >? 57)) eqn:D; [discriminate H |]. apply orb_false_iff in D. destruct D as [D1 D2].
  assert (Hd : is_digit (peek c)) by (unfold is_digit; lia). rb H. destruct a as [n' t']. cbn [fst snd] in H.
  assert (n' = n /\ c' = set_text t' c) as [-> ->] by (split; congruence). cbn [rc_text set_text].
  apply (number_loop_sound _ [peek c]) in E; [| apply num_one; exact Hd | unfold is_digit in Hd; lia].
  destruct E as (w & E1 & E2 & E3). exists (peek c :: w). split; [| auto]. rewrite (peek_cons c Ne). cbn [app consume set_text rc_text]. rewrite E1. reflexivity.
Qed.

(* quantifiers *)
Definition quant_char (x : Z) : bool := (x =? 42) || (x =? 43) || (x =? 63) || (x =? 123).

Lemma emit_multiplicity_frame : forall bg mn mx c c', emit_multiplicity bg mn mx c = ROk c' ->
  framed c c' /\ ((peek c <> 63 /\ rc_text c' = rc_text c) \/ (peek c = 63 /\ rc_text c = 63 :: rc_text c')).
Proof.
  intros bg mn mx c c' H. unfold emit_multiplicity in H. cbv zeta in H. rb H. rb H. apply emit_ok in E. apply emit_ok in E0. destruct E as [-> _]. destruct E0 as [-> _].
  match type of H with ROk ?x = _ => assert (Ec : c' = x) by congruence end. clear H. subst c'.
  destruct (Z.eqb_spec (peek c) 63) as [Hq | Hq].
  - split; [split; reflexivity |]. right. split; [exact Hq |]. apply peek_is; [exact Hq | unfold END_OF_STR; lia].
  - split; [split; reflexivity |]. left. split; [exact Hq | reflexivity].
Qed.

Lemma parse_count_sound : forall c mn mx c', parse_count c = ROk (mn, mx, c') ->
  exists w m, rc_text c = w ++ rc_text c' /\ counted (123 :: w) mn m /\ mx = (match m with Some x => x | None => 65535 end) /\ framed c c' /\ rc_mult c' = rc_mult c /\
    0 <= mn <= mx /\ 1 <= mx <= 65535.
Proof.
  intros c mn mx c' H. unfold parse_count in H. rb H. destruct a as [n c1]. apply parse_number_sound in E. destruct E as (w & T1 & N1 & B1 & C1).
  rb H. destruct a as [x c2]. cbv beta iota in H. destruct (Z.eqb_spec x 0) as [|Hx]; [discriminate H |]. rb H.
  unfold expect_char in E0. destruct (Z.eqb_spec (peek c2) 125) as [P2|]; [| discriminate E0].
  assert (a = consume c2) by congruence. subst a. clear E0. assert (n = mn /\ x = mx /\ c' = consume c2) as (-> & -> & ->) by (repeat split; congruence). clear H.
  pose proof (peek_is c2 125 P2 ltac:(unfold END_OF_STR; lia)) as T2.
  destruct (Z.eqb_spec (peek c1) 44) as [P1 | P1].
  - pose proof (peek_is c1 44 P1 ltac:(unfold END_OF_STR; lia)) as T3. cbv zeta in E. destruct (Z.eqb_spec (peek (consume c1)) 125) as [P3 | P3].
    + cbn [rbind] in E. destruct (Z.ltb_spec 65535 mn); [discriminate E |]. assert (mx = 65535 /\ c2 = consume c1) as [-> ->] by (split; congruence).
      exists (w ++ [44; 125]), None. split; [rewrite T1, T3, T2, <- app_assoc; reflexivity |]. split; [apply (q_least w mn N1); lia |].
      split; [reflexivity |]. rewrite C1. split; [split; reflexivity |]. split; [reflexivity |]. lia.
    + rb E. destruct a as [x c3]. cbv beta iota in E. destruct (Z.ltb_spec x mn); [discriminate E |]. assert (x = mx /\ c3 = c2) as [-> ->] by (split; congruence).
      apply parse_number_sound in E0. destruct E0 as (v & T4 & N2 & B2 & C2).
      exists (w ++ 44 :: v ++ [125]), (Some mx). split; [rewrite T1, T3, T4, T2, <- app_assoc; cbn [app]; rewrite <- app_assoc; reflexivity |].
      split; [apply (q_range w mn v mx N1 N2); lia |]. split; [reflexivity |]. rewrite C2, C1. split; [split; reflexivity |]. split; [reflexivity |]. lia.
  - assert (mn = mx /\ c1 = c2) as [<- <-] by (split; congruence). exists (w ++ [125]), (Some mn).
    split; [rewrite T1, T2, <- app_assoc; reflexivity |]. split; [apply (q_exact w mn N1); lia |]. split; [reflexivity |].
    rewrite C1. split; [split; reflexivity |]. split; [reflexivity |]. lia.
Qed.

Lemma multiplicity_sound : forall bg c c', parse_optional_multiplicity bg c = ROk c' ->
  (c' = c /\ quant_char (peek c) = false) \/
  (rc_mult c = true /\ quant_char (peek c) = true /\ rc_mult c' = false /\ framed c c' /\
   exists q lazy n m, rc_text c = q ++ rc_text c' /\ quantifier q lazy n m).
Proof.
  intros bg c c' H. unfold parse_optional_multiplicity in H. cbv zeta in H. fold (quant_char (peek c)) in H.
  destruct (quant_char (peek c)) eqn:Q; [| left; split; [congruence | reflexivity]]. right. destruct (rc_mult c) eqn:M; [| discriminate H].
  split; [reflexivity |]. split; [reflexivity |].
  assert (Hq : peek c = 42 \/ peek c = 43 \/ peek c = 63 \/ peek c = 123) by (unfold quant_char in Q; rewrite !orb_true_iff in Q; lia).
  assert (Tc : rc_text c = peek c :: rc_text (consume c)) by (apply peek_cons; unfold END_OF_STR; lia).
  rb H. destruct a as [[mn mx] c2]. cbv beta iota in H. rb H. assert (Ec' : c' = set_mult false a) by congruence. clear H. subst c'.
  apply emit_multiplicity_frame in E0. destruct E0 as [F E0]. split; [reflexivity |].
  assert (K : exists q m, rc_text c = q ++ rc_text c2 /\ counted q mn m /\ framed c c2).
  { destruct (Z.eqb_spec (peek c) 42) as [P|P]; [|destruct (Z.eqb_spec (peek c) 43) as [P'|P']; [|destruct (Z.eqb_spec (peek c) 63) as [P''|P'']]].
    - assert (0 = mn /\ consume c = c2) as [<- <-] by (split; congruence). exists [42], None. rewrite Tc, P. repeat split. apply q_star.
    - assert (1 = mn /\ consume c = c2) as [<- <-] by (split; congruence). exists [43], None. rewrite Tc, P'. repeat split. apply q_plus.
    - assert (0 = mn /\ consume c = c2) as [<- <-] by (split; congruence). exists [63], (Some 1). rewrite Tc, P''. repeat split. apply q_opt.
    - apply parse_count_sound in E. destruct E as (w & m & E1 & E2 & _ & E3 & _). exists (123 :: w), m.
      rewrite Tc. replace (peek c) with 123 by lia. rewrite E1. split; [reflexivity |]. split; [exact E2 |]. destruct E3 as [E3 E4]. split; [rewrite E3 | rewrite E4]; reflexivity. }
  destruct K as (q & m & K1 & K2 & K3). split; [apply (framed_trans _ _ _ K3); destruct F as [F1 F2]; split; [exact F1 | exact F2] |].
  cbn [rc_text set_mult]. destruct E0 as [[P T] | [P T]].
  - exists q, false, mn, m. rewrite T. split; [exact K1 | apply q_greedy; exact K2].
  - exists (q ++ [63]), true, mn, m. split; [rewrite K1, T, <- app_assoc; reflexivity | apply q_lazy; exact K2].
Qed.

(* classes *)
Lemma existsb_in : forall x l, existsb (Z.eqb x) l = true <-> In x l.
Proof.
  intros x l. rewrite existsb_exists. split; [intros (y & H1 & H2); apply Z.eqb_eq in H2; subst; exact H1 | intros H; exists x; split; [exact H | apply Z.eqb_refl]].
Qed.
Lemma esc_whitespace_ok : forall x y, esc_whitespace x = Some y <-> space_escape x y.
Proof.
  intros x y. unfold esc_whitespace. split.
  - destruct (x <? 127); [| discriminate].
    repeat match goal with |- (if ?a =? ?b then _ else _) = _ -> _ => destruct (Z.eqb_spec a b) as [-> | ]; [intros H; injection H as <-; constructor |] end.
    discriminate.
  - intros H. destruct H; reflexivity.
Qed.
Lemma class_char_sound : forall c x c', chars (rc_text c) -> parse_class_char c = ROk (x, c') ->
  exists w, rc_text c = w ++ rc_text c' /\ class_char w x /\ c' = set_text (rc_text c') c.
Proof.
  intros c x c' Hc H. unfold parse_class_char in H. cbv zeta in H. destruct (Z.eqb_spec (peek c) END_OF_STR) as [|Ne]; [discriminate H |].
  pose proof (peek_cons c Ne) as T. destruct (Z.eqb_spec (peek c) 92) as [P | P].
  - unfold parse_class_char_escape_seq in H. cbv zeta in H. destruct (Z.eqb_spec (peek (consume c)) END_OF_STR) as [|Ne2]; [discriminate H |].
    pose proof (peek_cons _ Ne2) as T2. destruct (existsb (Z.eqb (peek (consume c))) [91; 93; 40; 41; 94; 34; 92; 45]) eqn:X.
    + apply existsb_in in X. assert (x = peek (consume c) /\ c' = consume (consume c)) as [-> ->] by (split; congruence).
      exists [92; peek (consume c)]. split; [rewrite T, P, T2; reflexivity |]. split; [apply cc_literal; exact X | reflexivity].
    + destruct (esc_whitespace (peek (consume c))) as [y|] eqn:Es; [| discriminate H]. apply esc_whitespace_ok in Es.
      assert (x = y /\ c' = consume (consume c)) as [-> ->] by (split; congruence).
      exists [92; peek (consume c)]. split; [rewrite T, P, T2; reflexivity |]. split; [apply cc_space; exact Es | reflexivity].
  - assert (x = peek c /\ c' = consume c) as [-> ->] by (split; congruence). exists [peek c]. split; [rewrite T; reflexivity |]. split; [apply cc_plain; exact P | reflexivity].
Qed.
Lemma class_char_nonempty : forall w x, class_char w x -> w <> [].
Proof. intros w x H. destruct H; discriminate. Qed.
Lemma class_items_nonempty : forall w l, class_items w l -> w <> [].
Proof. intros w l H. destruct H as [w c H | w b v e H | w c v l H | w b v e u l H]; apply class_char_nonempty in H; (destruct w; [congruence | cbn [app]; intros X; discriminate X]). Qed.

Lemma add_range_frame : forall id b e c c', add_range id b e c = ROk c' -> rc_text c' = rc_text c /\ framed c c' /\ rc_mult c' = rc_mult c.
Proof.
  intros id b e c c' H. unfold add_range in H. destruct (gz (rc_classes c) id); [| discriminate H]. destruct (add_class_range l b e); [| discriminate H].
  match type of H with ROk ?x = _ => assert (Ec : c' = x) by congruence end. subst c'. repeat split.
Qed.

Lemma class_loop_sound : forall f id c c', chars (rc_text c) -> class_loop f id c = ROk c' ->
  exists w l, rc_text c = w ++ rc_text c' /\ class_items w l /\ peek c' = 93 /\ framed c c'.
Proof.
  induction f as [|f IH]; intros id c c' Hc H; cbn [class_loop] in H; [discriminate H |].
  rb H. destruct a as [b c1]. cbv beta iota in H. apply class_char_sound in E; [| exact Hc]. destruct E as (w & T1 & K1 & C1).
  assert (Hc1 : chars (rc_text c1)) by (rewrite T1 in Hc; apply chars_suffix in Hc; exact Hc).
  rb H. destruct a as [e c2]. cbv beta iota in H. destruct (Z.gtb_spec b e); [discriminate H |]. rb H. pose proof E0 as Ea. apply add_range_frame in Ea. destruct Ea as (Ta & Fa & _).
  assert (F1 : framed c c1) by (rewrite C1; split; reflexivity).
  assert (K : (exists v, rc_text c1 = 45 :: v ++ rc_text c2 /\ class_char v e /\ framed c1 c2) \/ (c2 = c1 /\ e = b /\ peek c1 <> 45)).
  { destruct (Z.eqb_spec (peek c1) 45) as [P | P].
    - pose proof (peek_is c1 45 P ltac:(unfold END_OF_STR; lia)) as T. apply class_char_sound in E; [| rewrite T in Hc1; apply (chars_suffix [45]) in Hc1; exact Hc1].
      destruct E as (v & T2 & K2 & C2). left. exists v. rewrite T, T2. split; [reflexivity |]. split; [exact K2 |]. rewrite C2. split; reflexivity.
    - right. assert (e = b /\ c2 = c1) by (split; congruence). tauto. }
  clear E.
  assert (F2 : framed c a).
  { apply (framed_trans _ c2); [| exact Fa]. destruct K as [(v & _ & _ & Fk) | (-> & _)]; [apply (framed_trans _ c1); assumption | exact F1]. }
  destruct (Z.eqb_spec (peek a) 93) as [P | P].
  - assert (Ec : c' = a) by congruence. subst c'. destruct K as [(v & T2 & K2 & _) | (-> & -> & N)].
    + exists (w ++ 45 :: v), [(b, e)]. split; [rewrite T1, T2, Ta, <- app_assoc; reflexivity |]. split; [apply ci_range; [exact K1 | exact K2 | lia] |]. auto.
    + exists w, [(b, b)]. split; [rewrite T1, Ta; reflexivity |]. split; [apply ci_char; exact K1 |]. auto.
  - assert (Hca : chars (rc_text a)).
    { rewrite Ta. destruct K as [(v & T2 & _) | (-> & _)]; [rewrite T2 in Hc1; apply (chars_suffix (45 :: v)) in Hc1; exact Hc1 | exact Hc1]. }
    destruct (IH id a c' Hca H) as (u & l & T3 & K3 & P3 & F3). pose proof (class_items_nonempty _ _ K3) as Ne.
    assert (N93 : ~ starts_with u 93) by (intros (v & ->); apply P; unfold peek; rewrite T3; reflexivity).
    destruct K as [(v & T2 & K2 & _) | (-> & -> & N)].
    + exists (w ++ 45 :: v ++ u), ((b, e) :: l). split; [rewrite T1, T2, <- Ta, T3, <- !app_assoc; cbn [app]; rewrite <- app_assoc; reflexivity |].
      split; [apply ci_range_more; auto; lia |]. split; [exact P3 | apply (framed_trans _ a); assumption].
    + exists (w ++ u), ((b, b) :: l). split; [rewrite T1, <- Ta, T3, <- app_assoc; reflexivity |].
      split; [apply ci_char_more; auto; intros (v & ->); apply N; unfold peek; rewrite <- Ta, T3; reflexivity |]. split; [exact P3 | apply (framed_trans _ a); assumption].
Qed.

Lemma parse_class_sound : forall c c', chars (rc_text c) -> parse_class c = ROk c' ->
  exists w neg l, rc_text c = w ++ rc_text c' /\ class_text w neg l /\ framed c c' /\ rc_mult c' = true.
Proof.
  intros c c' Hc H. unfold parse_class in H. cbn [generate_class] in H. cbv zeta in H. rb H. apply emit_frame in H. destruct H as (T & F & M).
  destruct (Z.eqb_spec (peek c) 94) as [P | P].
  - pose proof (peek_is c 94 P ltac:(unfold END_OF_STR; lia)) as T0. apply class_loop_sound in E; [| cbn; rewrite T0 in Hc; apply (chars_suffix [94]) in Hc; exact Hc].
    destruct E as (w & l & T1 & K & P1 & F1). cbn in T1. pose proof (peek_is a 93 P1 ltac:(unfold END_OF_STR; lia)) as T2.
    exists (94 :: w ++ [93]), true, l. split; [rewrite T0, T; cbn [app]; cbn in T1 |- *; rewrite T1, T2, <- app_assoc; reflexivity |].
    split; [apply ct_neg; exact K |]. split; [destruct F as [Fa Fb]; destruct F1 as [Fc Fd]; split; [rewrite Fa | rewrite Fb]; assumption | exact M].
  - apply class_loop_sound in E; [| exact Hc]. destruct E as (w & l & T1 & K & P1 & F1). cbn in T1. pose proof (peek_is a 93 P1 ltac:(unfold END_OF_STR; lia)) as T2.
    exists (w ++ [93]), false, l. split; [rewrite T, T1, T2, <- app_assoc; reflexivity |].
    split; [apply ct_pos; [exact K |]; intros (v & ->); apply P; unfold peek; rewrite T1; reflexivity |].
    split; [destruct F as [Fa Fb]; destruct F1 as [Fc Fd]; split; [rewrite Fa | rewrite Fb]; assumption | exact M].
Qed.

Lemma add_ranges_frame : forall l id c c', add_ranges id l c = ROk c' -> rc_text c' = rc_text c /\ framed c c'.
Proof.
  induction l as [|[b e] l IH]; intros id c c' H; cbn [add_ranges] in H.
  - assert (Ec : c' = c) by congruence. subst c'. split; [reflexivity | apply framed_refl].
  - rb H. apply add_range_frame in E. destruct E as (T & F & _). apply IH in H. destruct H as [T2 F2]. split; [congruence | apply (framed_trans _ a); assumption].
Qed.
Lemma digit_frame : forall c id c', get_digit_class_id c = ROk (id, c') -> rc_text c' = rc_text c /\ framed c c'.
Proof.
  intros c id c' H. unfold get_digit_class_id in H. destruct (rc_digit c); [assert (c' = c) by congruence; subst; split; [reflexivity | apply framed_refl] |].
  cbn [generate_class] in H. cbv beta iota zeta in H. rb H. apply add_ranges_frame in E. destruct E as [T [F1 F2]].
  assert (Ec : c' = set_digit (Some (len (rc_classes c))) a) by congruence. subst c'. split; [exact T | split; [exact F1 | exact F2]].
Qed.
Lemma word_frame : forall c id c', get_word_class_id c = ROk (id, c') -> rc_text c' = rc_text c /\ framed c c'.
Proof.
  intros c id c' H. unfold get_word_class_id in H. destruct (rc_word c); [assert (c' = c) by congruence; subst; split; [reflexivity | apply framed_refl] |].
  cbn [generate_class] in H. cbv beta iota zeta in H. rb H. apply add_ranges_frame in E. destruct E as [T [F1 F2]].
  assert (Ec : c' = set_word (Some (len (rc_classes c))) a) by congruence. subst c'. split; [exact T | split; [exact F1 | exact F2]].
Qed.

Lemma escape_sound : forall c c', parse_escape_seq c = ROk c' ->
  exists x r, rc_text c = x :: rc_text c' /\ escape x r /\ framed c c' /\ rc_mult c' = true.
Proof.
  intros c c' H. unfold parse_escape_seq in H. cbv zeta in H. destruct (Z.eqb_spec (peek c) END_OF_STR) as [|Ne]; [discriminate H |].
  pose proof (peek_cons c Ne) as T.
  assert (K : forall code args r, emit code args (consume c) = ROk c' -> escape (peek c) r ->
    exists x r, rc_text c = x :: rc_text c' /\ escape x r /\ framed c c' /\ rc_mult c' = true).
  { intros code args r E Hr. apply emit_frame in E. destruct E as (E1 & [E2 E3] & E4). exists (peek c), r. rewrite E1. repeat split; auto. }
  assert (K2 : forall code id c1 r, rc_text c1 = rc_text (consume c) /\ framed (consume c) c1 -> emit code [id] c1 = ROk c' -> escape (peek c) r ->
    exists x r, rc_text c = x :: rc_text c' /\ escape x r /\ framed c c' /\ rc_mult c' = true).
  { intros code id c1 r [T1 F1] E Hr. apply emit_frame in E. destruct E as (E1 & E2 & E4). exists (peek c), r. rewrite E1, T1. repeat split; auto;
      destruct F1 as [F1 F1']; destruct E2 as [E2 E2']; [rewrite E2 | rewrite E2']; assumption. }
  destruct (existsb (Z.eqb (peek c)) [46; 42; 43; 63; 123; 94; 36; 92; 91; 93; 124; 40; 41; 34]) eqn:X.
  { apply existsb_in in X. eapply K; [exact H | apply es_literal; exact X]. }
  destruct (Z.eqb_spec (peek c) 60) as [P|]; [eapply K; [exact H | rewrite P; apply es_word_begin] |].
  destruct (Z.eqb_spec (peek c) 62) as [P|]; [eapply K; [exact H | rewrite P; apply es_word_end] |].
  destruct (Z.eqb_spec (peek c) 98) as [P|]; [eapply K; [exact H | rewrite P; apply es_b] |].
  destruct (Z.eqb_spec (peek c) 66) as [P|]; [eapply K; [exact H | rewrite P; apply es_B] |].
  destruct (Z.eqb_spec (peek c) 100) as [P|]; [rb H; destruct a as [id c1]; eapply K2; [apply (digit_frame _ _ _ E) | exact H | rewrite P; apply es_d] |].
  destruct (Z.eqb_spec (peek c) 68) as [P|]; [rb H; destruct a as [id c1]; eapply K2; [apply (digit_frame _ _ _ E) | exact H | rewrite P; apply es_D] |].
  destruct (Z.eqb_spec (peek c) 119) as [P|]; [rb H; destruct a as [id c1]; eapply K2; [apply (word_frame _ _ _ E) | exact H | rewrite P; apply es_w] |].
  destruct (Z.eqb_spec (peek c) 87) as [P|]; [rb H; destruct a as [id c1]; eapply K2; [apply (word_frame _ _ _ E) | exact H | rewrite P; apply es_W] |].
  destruct (esc_whitespace (peek c)) as [y|] eqn:Es; [| discriminate H]. apply esc_whitespace_ok in Es. eapply K; [exact H | apply es_space; exact Es].
Qed.

(* expressions *)
Definition at_end (c : rctx) : Prop := rc_text c = [] \/ (rc_depth c <> 0 /\ exists t, rc_text c = 41 :: t).
Definition not_mult (c : rctx) : Prop := rc_mult c = true -> quant_char (peek c) = false.

Lemma parse_sound : forall f,
  (forall c c', chars (rc_text c) -> parse_alternative_match_seq f c = ROk c' ->
     exists w r, rc_text c = w ++ rc_text c' /\ alt_text (rc_groups c) w r (rc_groups c') /\ rc_depth c' = rc_depth c /\ at_end c') /\
  (forall fork j c c', chars (rc_text c) -> alt_loop f fork j c = ROk c' -> rc_depth c' = rc_depth c /\ at_end c' /\
     ((rc_text c = rc_text c' /\ rc_groups c' = rc_groups c) \/
      exists w r, rc_text c = 124 :: w ++ rc_text c' /\ alt_text (rc_groups c) w r (rc_groups c'))) /\
  (forall c c', chars (rc_text c) -> not_mult c -> parse_match_seq f c = ROk c' ->
     exists w r, rc_text c = w ++ rc_text c' /\ seq_text (rc_groups c) w r (rc_groups c') /\ rc_depth c' = rc_depth c) /\
  (forall c c', chars (rc_text c) -> peek c <> END_OF_STR -> peek c <> 124 -> peek c <> 41 -> parse_single_match f c = ROk c' ->
     (c' = c /\ quant_char (peek c) = true) \/
     exists w r, rc_text c = w ++ rc_text c' /\ atom_text (rc_groups c) w r (rc_groups c') /\ rc_depth c' = rc_depth c /\ rc_mult c' = true) /\
  (forall c c', chars (rc_text c) -> parse_group f c = ROk c' ->
     exists w r, 40 :: rc_text c = w ++ rc_text c' /\ atom_text (rc_groups c) w r (rc_groups c') /\ rc_depth c' = rc_depth c /\ rc_mult c' = true).
Proof.
  induction f as [|f (IHalt & IHloop & IHseq & IHone & IHgroup)].
  { split; [| split; [| split; [| split]]]; intros; discriminate. }
  split; [| split; [| split; [| split]]].
  - intros c c' Hc H. cbn [parse_alternative_match_seq] in H. cbv zeta in H. rb H.
    apply IHseq in E; [| exact Hc | intros X; discriminate X]. destruct E as (w & r & T & G & D). cbn in T, G, D.
    assert (Ha : chars (rc_text a)) by (rewrite T in Hc; apply chars_suffix in Hc; exact Hc).
    apply IHloop in H; [| exact Ha]. destruct H as (D2 & En & [(T2 & G2) | (v & r2 & T2 & G2)]).
    + exists w, r. rewrite <- T2. rewrite G2. split; [exact T |]. split; [apply at_one; exact G |]. split; [congruence | exact En].
    + exists (w ++ 124 :: v), (RAlt r r2). split; [rewrite T, T2, <- app_assoc; reflexivity |]. split; [eapply at_or; eassumption |]. split; [congruence | exact En].
  - intros fork j c c' Hc H. cbn [alt_loop] in H. cbv zeta in H. destruct (Z.eqb_spec (peek c) 124) as [P | P].
    + pose proof (peek_is c 124 P ltac:(unfold END_OF_STR; lia)) as T0. rb H. apply emit_ok in E. destruct E as [-> _].
      rb H. apply emit_ok in E. destruct E as [-> _]. rb H.
      assert (Hc1 : chars (rc_text (consume c))) by (rewrite T0 in Hc; apply (chars_suffix [124]) in Hc; exact Hc).
      apply IHseq in E; [| destruct j; exact Hc1 | intros X; discriminate X]. destruct E as (w & r & T & G & D).
      assert (T' : rc_text (consume c) = w ++ rc_text a /\ seq_text (rc_groups c) w r (rc_groups a) /\ rc_depth a = rc_depth c) by (destruct j; exact (conj T (conj G D))).
      clear T G D. destruct T' as (T & G & D). assert (Ha : chars (rc_text a)) by (rewrite T in Hc1; apply chars_suffix in Hc1; exact Hc1).
      apply IHloop in H; [| exact Ha]. destruct H as (D2 & En & K). split; [congruence |]. split; [exact En |]. right.
      destruct K as [(T2 & G2) | (v & r2 & T2 & G2)].
      * exists w, r. rewrite G2, <- T2, T0, T. split; [reflexivity | apply at_one; exact G].
      * exists (w ++ 124 :: v), (RAlt r r2). split; [rewrite T0, T, T2, <- app_assoc; reflexivity | eapply at_or; eassumption].
    + assert (K : c' = match j with Some x => patch_jump_offs x (len (rc_buf c)) c | None => c end /\ at_end c).
      { destruct (negb (peek c =? 41) || (rc_depth c =? 0)) eqn:B.
        - destruct (Z.eqb_spec (peek c) END_OF_STR) as [Pe|]; [| discriminate H]. split; [congruence |]. left. apply peek_end; assumption.
        - apply orb_false_iff in B. destruct B as [B1 B2]. apply negb_false_iff in B1. split; [congruence |]. right. split; [lia |].
          exists (rc_text (consume c)). apply peek_is; [lia | unfold END_OF_STR; lia]. }
      clear H. destruct K as [-> K]. assert (E : forall x, rc_depth (match j with Some x => patch_jump_offs x (len (rc_buf c)) c | None => c end) = x <-> rc_depth c = x) by (intros; destruct j; reflexivity).
      split; [destruct j; reflexivity |]. split; [destruct j; exact K |]. left. destruct j; split; reflexivity.
  - intros c c' Hc Hm H. cbn [parse_match_seq] in H. cbv zeta in H.
    destruct ((peek c =? END_OF_STR) || (peek c =? 124) || (peek c =? 41)) eqn:B.
    + assert (Ec : c' = c) by congruence. subst c'. exists [], REmpty. split; [reflexivity |]. split; [apply st_nil | reflexivity].
    + apply orb_false_iff in B. destruct B as [B B3]. apply orb_false_iff in B. destruct B as [B1 B2]. rb H. rb H.
      apply IHone in E; [| exact Hc | lia | lia | lia]. apply multiplicity_sound in E0. destruct E as [(-> & Q) | (w & r & T & G & D & M)].
      * destruct E0 as [(_ & Q') | (Mt & _)]; [congruence |]. exfalso. specialize (Hm Mt). congruence.
      * assert (Ha : chars (rc_text a)) by (rewrite T in Hc; apply chars_suffix in Hc; exact Hc).
        assert (K : exists v i, rc_text c = v ++ rc_text a0 /\ item_text (rc_groups c) v i (rc_groups a0) /\ rc_depth a0 = rc_depth c /\ not_mult a0).
        { destruct E0 as [(-> & Q) | (_ & _ & M2 & [F1 F2] & q & lz & n & m & T2 & Hq)].
          - exists w, r. split; [exact T |]. split; [apply it_atom; exact G |]. split; [exact D | intros _; exact Q].
          - exists (w ++ q), (RRep lz n m r). split; [rewrite T, T2, app_assoc; reflexivity |]. rewrite F1. split; [eapply it_rep; eassumption |].
            split; [congruence | intros X; congruence]. }
        destruct K as (v & i & T3 & G3 & D3 & M3).
        apply IHseq in H; [| rewrite T3 in Hc; apply chars_suffix in Hc; exact Hc | exact M3]. destruct H as (u & r3 & T4 & G4 & D4).
        exists (v ++ u), (RSeq i r3). split; [rewrite T3, T4, app_assoc; reflexivity |]. split; [eapply st_cons; eassumption | congruence].
  - intros c c' Hc N1 N2 N3 H. cbn [parse_single_match] in H. cbv zeta in H. pose proof (peek_cons c N1) as T.
    assert (Hc1 : chars (rc_text (consume c))) by (rewrite T in Hc; apply (chars_suffix [peek c]) in Hc; exact Hc).
    assert (K : forall code args r, emit code args (consume c) = ROk c' -> atom_text (rc_groups c) [peek c] r (rc_groups c) ->
      exists w r, rc_text c = w ++ rc_text c' /\ atom_text (rc_groups c) w r (rc_groups c') /\ rc_depth c' = rc_depth c /\ rc_mult c' = true).
    { intros code args r E Hr. apply emit_frame in E. destruct E as (E1 & [E2 E3] & E4). exists [peek c], r. rewrite E1, E2, E3, E4. repeat split; [exact T | exact Hr]. }
    destruct (Z.eqb_spec (peek c) 46) as [P|P1]; [right; eapply K; [exact H | rewrite P; apply tx_any] |].
    destruct (Z.eqb_spec (peek c) 94) as [P|P2]; [right; eapply K; [exact H | rewrite P; apply tx_bol] |].
    destruct (Z.eqb_spec (peek c) 36) as [P|P3]; [right; eapply K; [exact H | rewrite P; apply tx_eol] |].
    destruct (Z.eqb_spec (peek c) 92) as [P|P4].
    { right. apply escape_sound in H. destruct H as (x & r & T2 & Es & [F1 F2] & M). exists [92; x], r. rewrite F1, F2. split; [rewrite T, P, T2; reflexivity |].
      split; [apply tx_escape; exact Es |]. split; [reflexivity | exact M]. }
    destruct (Z.eqb_spec (peek c) 91) as [P|P5].
    { right. apply parse_class_sound in H; [| exact Hc1]. destruct H as (w & neg & l & T2 & Es & [F1 F2] & M). exists (91 :: w), (RSet neg l). rewrite F1, F2.
      split; [rewrite T, P, T2; reflexivity |]. split; [apply tx_class; exact Es |]. split; [reflexivity | exact M]. }
    destruct (Z.eqb_spec (peek c) 40) as [P|P6].
    { right. apply IHgroup in H; [| exact Hc1]. destruct H as (w & r & T2 & G & D & M). exists w, r. rewrite T, P, T2. auto. }
    destruct ((peek c =? 124) || (peek c =? 42) || (peek c =? 43) || (peek c =? 63) || (peek c =? 123)) eqn:B.
    { left. split; [congruence |]. unfold quant_char. rewrite !orb_true_iff in B. rewrite !orb_true_iff. lia. }
    rewrite (proj2 (Z.eqb_neq (peek c) 41) N3) in H. right.
    assert (NS : ~ In (peek c) special).
    { rewrite !orb_false_iff in B. unfold special. cbn [In]. lia. }
    destruct (peek c <? 65536); (eapply K; [exact H | apply tx_char; exact NS]).
  - intros c c' Hc H. cbn [parse_group] in H. rb H. destruct a as [id c1]. cbv beta iota in H. rb H. apply emit_frame in E0. destruct E0 as (T1 & [F1 F1'] & _).
    rb H. rb H. unfold expect_char in E1. destruct (Z.eqb_spec (peek (set_depth (rc_depth a0 - 1) a0)) 41) as [P|]; [| discriminate E1].
    assert (a1 = consume (set_depth (rc_depth a0 - 1) a0)) by congruence. subst a1. clear E1.
    pose proof (peek_is _ 41 P ltac:(unfold END_OF_STR; lia)) as T3. cbn [rc_text set_depth] in T3.
    apply emit_frame in H. destruct H as (T4 & [F4 F4'] & M4).
    assert (K : (exists t, rc_text c = 63 :: 58 :: t /\ rc_text c1 = t /\ framed c c1) \/ (rc_text c1 = rc_text c /\ rc_groups c1 = rc_groups c + 1 /\ rc_depth c1 = rc_depth c)).
    { destruct (Z.eqb_spec (peek c) 63) as [P1|P1].
      - cbv zeta in E. destruct (Z.eqb_spec (peek (consume c)) END_OF_STR); [discriminate E |]. destruct (Z.eqb_spec (peek (consume c)) 58) as [P2|]; [| discriminate E].
        assert (c1 = consume (consume c)) by congruence. subst c1. left. exists (rc_text (consume (consume c))).
        rewrite (peek_is c 63 P1) by (unfold END_OF_STR; lia). rewrite (peek_is (consume c) 58 P2) by (unfold END_OF_STR; lia). repeat split.
      - assert (c1 = set_groups (rc_groups c + 1) c) by congruence. subst c1. right. repeat split. }
    clear E. assert (Ha : chars (rc_text a)).
    { rewrite T1. destruct K as [(t & K1 & K2 & _) | (K1 & _)]; [rewrite K2; rewrite K1 in Hc; apply (chars_suffix [63; 58]) in Hc; exact Hc | rewrite K1; exact Hc]. }
    apply IHalt in E0; [| exact Ha]. destruct E0 as (w & r & T2 & G & D & _). cbn [rc_text rc_groups rc_depth set_depth] in T2, G, D.
    assert (D' : rc_depth c' = rc_depth c).
    { rewrite F4'. cbn [consume set_depth rc_depth set_text]. rewrite D, F1'. destruct K as [(t & _ & _ & [_ K]) | (_ & _ & K)]; rewrite K; lia. }
    assert (Tw : rc_text c1 = w ++ 41 :: rc_text c') by (rewrite <- T1, T2, T3, T4; reflexivity).
    assert (G' : alt_text (rc_groups c1) w r (rc_groups c')) by (rewrite F4; cbn [consume set_depth rc_groups set_text]; rewrite <- F1; exact G).
    destruct K as [(t & K1 & K2 & [K3 _]) | (K1 & K2 & _)].
    + exists (40 :: 63 :: 58 :: w ++ [41]), (RGroup None r). split; [rewrite K1, <- K2, Tw; cbn [app]; rewrite <- app_assoc; reflexivity |].
      split; [apply tx_plain_group; rewrite <- K3; exact G' |]. auto.
    + exists (40 :: w ++ [41]), (RGroup (Some (rc_groups c)) r). split; [rewrite <- K1, Tw; cbn [app]; rewrite <- app_assoc; reflexivity |].
      split; [apply tx_group; rewrite <- K2; exact G' |]. auto.
Qed.

Lemma parse_re_sound : forall text o, chars text -> parse_re text = ROk o -> exists r n, re_text text r n.
Proof.
  intros text o Hc H. unfold parse_re in H. rb H. destruct (parse_sound (4 * length text + 4)) as (S1 & _). apply S1 in E; [| exact Hc].
  destruct E as (w & r & T & G & D & En). cbn [rc_text rc_groups rc_depth] in T, G, D. exists r, (rc_groups a). unfold re_text.
  destruct En as [En | [En _]]; [| lia]. rewrite En, app_nil_r in T. subst w. exact G.
Qed.
