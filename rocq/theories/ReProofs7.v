(* Every regular expression is compiled to its code, unless the code is too long. *)
From Coq Require Import ZArith List Lia Bool ZifyBool.
Import ListNotations.
From Verif Require Import Base ListZ ReClassModel ReClassSpec ReClassProofs ReModel ReSpec ReProofs1 ReProofs2 ReProofs5 ReProofs6.
Local Open Scope Z_scope.
Ltac Zify.zify_post_hook ::= idtac.

Lemma peek_text : forall c x t, rc_text c = x :: t -> peek c = x /\ consume c = set_text t c.
Proof. intros c x t E. unfold peek, consume. rewrite E. auto. Qed.
Lemma set_text_same : forall c t, rc_text c = t -> set_text t c = c.
Proof. intros c t <-. destruct c; reflexivity. Qed.
Lemma ends_inv : forall A B (m : rres A) (f : A -> rres B), ends (rbind m f) -> ends m.
Proof. intros A B m f H. destruct m; [apply ends_ok | apply ends_throw |]. exfalso. apply H. reflexivity. Qed.
Lemma rbind_assoc : forall A B C (m : rres A) (f : A -> rres B) (g : B -> rres C), rbind m (fun a => rbind (f a) g) = rbind (rbind m f) g.
Proof. intros. destruct m; reflexivity. Qed.

(* classes *)
Lemma chars_head : forall x t, chars (x :: t) -> 0 <= x < 2 ^ 24 /\ x <> END_OF_STR.
Proof. intros x t H. inversion H as [|? ? H1 _]. split; [exact H1 |]. unfold END_OF_STR. change (2 ^ 24) with 16777216 in H1. lia. Qed.
Lemma class_char_ok : forall w x c rest, class_char w x -> rc_text c = w ++ rest -> chars (w ++ rest) -> parse_class_char c = ROk (x, set_text rest c).
Proof.
  intros w x c rest H T Hc. unfold parse_class_char. cbv zeta. destruct H as [c0 H | c0 H | c0 d H]; cbn [app] in T, Hc; destruct (peek_text _ _ _ T) as [-> ->].
  - rewrite (proj2 (Z.eqb_neq c0 END_OF_STR)) by apply (chars_head _ _ Hc). rewrite (proj2 (Z.eqb_neq c0 92) H). reflexivity.
  - change (92 =? END_OF_STR) with false. change (92 =? 92) with true. cbv iota. unfold parse_class_char_escape_seq. cbv zeta.
    change (peek (set_text (c0 :: rest) c)) with c0. assert (Hc0 : chars (c0 :: rest)) by (inversion Hc; assumption).
    rewrite (proj2 (Z.eqb_neq c0 END_OF_STR)) by apply (chars_head _ _ Hc0). fold class_escapes. rewrite (proj2 (existsb_in c0 _) H). reflexivity.
  - change (92 =? END_OF_STR) with false. change (92 =? 92) with true. cbv iota. unfold parse_class_char_escape_seq. cbv zeta.
    change (peek (set_text (c0 :: rest) c)) with c0. destruct H; reflexivity.
Qed.

Lemma not_start : forall w x t, w <> [] -> ~ starts_with w x -> forall c, rc_text c = w ++ t -> peek c <> x.
Proof. intros w x t Hw H c T P. destruct w as [|y w]; [congruence |]. apply H. destruct (peek_text c y (w ++ t) T) as [P' _]. exists w. congruence. Qed.

Lemma class_items_ok : forall w l, class_items w l -> forall f c cl rs rest, rc_text c = w ++ 93 :: rest -> chars (rc_text c) -> rc_classes c = cl ++ [rs] ->
  ok (-1) rs -> ends (class_loop f (len cl) c) ->
  exists rs', build_class rs l = Some rs' /\ class_loop f (len cl) c = ROk (set_classes (cl ++ [rs']) (set_text (93 :: rest) c)) /\ Forall valid_range l.
Proof.
  intros w l H. induction H as [w x Hx | w b v e Hb He Hbe | w x v l Hx Hv IH N1 N2 | w b v e u l Hb He Hbe Hu IH N1]; intros f c cl rs rest T Hc Hcl Hok En;
    (destruct f as [|f]; [contradiction (En eq_refl) |]); cbn [class_loop] in En |- *.
  - rewrite T in Hc. rewrite (class_char_ok w x c (93 :: rest) Hx T Hc). cbn [rbind]. change (peek (set_text (93 :: rest) c)) with 93. change (93 =? 45) with false.
    cbv iota. cbn [rbind]. replace (x >? x) with false by lia.
    pose proof (class_char_valid w x (chars_prefix _ _ Hc) Hx) as Vx.
    destruct (add_range_ok (set_text (93 :: rest) c) cl rs x x Hcl Hok ltac:(lia) ltac:(lia)) as (rs' & E1 & _ & E2). rewrite E2. cbn [rbind].
    exists rs'. cbn [build_class]. rewrite E1. split; [reflexivity |]. split; [reflexivity |]. apply Forall_cons; [split; cbn [fst snd]; lia | apply Forall_nil].
  - rewrite T in Hc. rewrite <- app_assoc in T, Hc. cbn [app] in T, Hc. rewrite (class_char_ok w b c (45 :: v ++ 93 :: rest) Hb T Hc). cbn [rbind].
    change (peek (set_text (45 :: v ++ 93 :: rest) c)) with 45. change (45 =? 45) with true. cbv iota.
    assert (Hc2 : chars (v ++ 93 :: rest)) by (apply chars_suffix in Hc; inversion Hc; assumption).
    rewrite (class_char_ok v e (consume (set_text (45 :: v ++ 93 :: rest) c)) (93 :: rest) He eq_refl Hc2). cbn [rbind]. replace (b >? e) with false by lia.
    pose proof (class_char_valid w b (chars_prefix _ _ Hc) Hb) as Vb. pose proof (class_char_valid v e (chars_prefix _ _ Hc2) He) as Ve.
    change (set_text (93 :: rest) (consume (set_text (45 :: v ++ 93 :: rest) c))) with (set_text (93 :: rest) c).
    destruct (add_range_ok (set_text (93 :: rest) c) cl rs b e Hcl Hok ltac:(lia) ltac:(lia)) as (rs' & E1 & _ & E2). rewrite E2. cbn [rbind].
    exists rs'. cbn [build_class]. rewrite E1. split; [reflexivity |]. split; [reflexivity |]. apply Forall_cons; [split; cbn [fst snd]; lia | apply Forall_nil].
  - rewrite T in Hc. rewrite <- app_assoc in T, Hc. rewrite (class_char_ok w x c (v ++ 93 :: rest) Hx T Hc) in En |- *. cbn [rbind] in En |- *.
    pose proof (class_items_nonempty _ _ Hv) as Ne.
    pose proof (not_start v 45 (93 :: rest) Ne N2 (set_text (v ++ 93 :: rest) c) eq_refl) as P1. rewrite (proj2 (Z.eqb_neq _ _) P1) in En |- *. cbn [rbind] in En |- *.
    replace (x >? x) with false in En |- * by lia. pose proof (class_char_valid w x (chars_prefix _ _ Hc) Hx) as Vx.
    destruct (add_range_ok (set_text (v ++ 93 :: rest) c) cl rs x x Hcl Hok ltac:(lia) ltac:(lia)) as (rs1 & E1 & Ok1 & E2). rewrite E2 in En |- *. cbn [rbind] in En |- *.
    pose proof (not_start v 93 (93 :: rest) Ne N1 (set_classes (cl ++ [rs1]) (set_text (v ++ 93 :: rest) c)) eq_refl) as P2. rewrite (proj2 (Z.eqb_neq _ _) P2) in En |- *.
    apply chars_suffix in Hc. destruct (IH f _ cl rs1 rest (eq_refl : rc_text (set_classes (cl ++ [rs1]) (set_text (v ++ 93 :: rest) c)) = _) Hc eq_refl Ok1 En) as (rs' & E3 & E4 & V).
    exists rs'. cbn [build_class]. rewrite E1. split; [exact E3 |]. split; [exact E4 |]. apply Forall_cons; [split; cbn [fst snd]; lia | exact V].
  - rewrite T in Hc. rewrite <- app_assoc in T, Hc. cbn [app] in T, Hc. rewrite <- app_assoc in T, Hc. rewrite (class_char_ok w b c (45 :: v ++ u ++ 93 :: rest) Hb T Hc) in En |- *.
    cbn [rbind] in En |- *. change (peek (set_text (45 :: v ++ u ++ 93 :: rest) c)) with 45 in En |- *. change (45 =? 45) with true in En |- *. cbv iota in En |- *.
    assert (Hc2 : chars (v ++ u ++ 93 :: rest)) by (apply chars_suffix in Hc; inversion Hc; assumption).
    rewrite (class_char_ok v e (consume (set_text (45 :: v ++ u ++ 93 :: rest) c)) (u ++ 93 :: rest) He eq_refl Hc2) in En |- *. cbn [rbind] in En |- *.
    replace (b >? e) with false in En |- * by lia.
    pose proof (class_char_valid w b (chars_prefix _ _ Hc) Hb) as Vb. pose proof (class_char_valid v e (chars_prefix _ _ Hc2) He) as Ve.
    change (set_text (u ++ 93 :: rest) (consume (set_text (45 :: v ++ u ++ 93 :: rest) c))) with (set_text (u ++ 93 :: rest) c) in En |- *.
    destruct (add_range_ok (set_text (u ++ 93 :: rest) c) cl rs b e Hcl Hok ltac:(lia) ltac:(lia)) as (rs1 & E1 & Ok1 & E2). rewrite E2 in En |- *. cbn [rbind] in En |- *.
    pose proof (class_items_nonempty _ _ Hu) as Ne.
    pose proof (not_start u 93 (93 :: rest) Ne N1 (set_classes (cl ++ [rs1]) (set_text (u ++ 93 :: rest) c)) eq_refl) as P2. rewrite (proj2 (Z.eqb_neq _ _) P2) in En |- *.
    apply chars_suffix in Hc2. destruct (IH f _ cl rs1 rest (eq_refl : rc_text (set_classes (cl ++ [rs1]) (set_text (u ++ 93 :: rest) c)) = _) Hc2 eq_refl Ok1 En) as (rs' & E3 & E4 & V).
    exists rs'. cbn [build_class]. rewrite E1. split; [exact E3 |]. split; [exact E4 |]. apply Forall_cons; [split; cbn [fst snd]; lia | exact V].
Qed.
Lemma class_items_some : forall w l, class_items w l -> l <> [].
Proof. intros w l H. destruct H; discriminate. Qed.

(* numbers *)
Lemma number_nonneg : forall w n, number w n -> 0 <= n.
Proof. intros w n H. induction H as [c H | w n c _ IH H]; unfold is_digit in H; lia. Qed.
Lemma number_head : forall w n, number w n -> exists x t, w = x :: t /\ is_digit x.
Proof. intros w n H. induction H as [c H | w n c _ (x & t & -> & Hx) H]; [exists c, [] | exists x, (t ++ [c])]; auto. Qed.
Definition no_digit (t : list Z) : Prop := match t with x :: _ => ~ is_digit x | [] => True end.
Lemma number_loop_ok : forall w n, number w n -> n <= 65535 -> exists x t, w = x :: t /\ is_digit x /\ forall u v, number_loop u n = v -> number_loop (t ++ u) (x - 48) = v.
Proof.
  intros w n H. induction H as [c H | w n c Hn IH H]; intros Hb.
  - exists c, []. auto.
  - pose proof (number_nonneg _ _ Hn) as N0. unfold is_digit in H. destruct IH as (x & t & -> & Hx & E); [lia |]. exists x, (t ++ [c]).
    split; [reflexivity |]. split; [exact Hx |]. intros u v Eu. rewrite <- app_assoc. apply E. cbn [app number_loop].
    rewrite (proj2 (Z.ltb_ge c 48)) by lia. replace (c >? 57) with false by lia. cbn [orb]. cbv zeta.
    replace (u32 (n * 10 + (c - 48))) with (n * 10 + (c - 48)) by (symmetry; apply u32_small; change (2 ^ 32) with 4294967296; lia).
    replace (n * 10 + (c - 48) >? 65535) with false by lia. exact Eu.
Qed.
Lemma parse_number_ok : forall w n c rest, number w n -> n <= 65535 -> rc_text c = w ++ rest -> no_digit rest -> parse_number c = ROk (n, set_text rest c).
Proof.
  intros w n c rest Hn Hb T Hd. destruct (number_loop_ok w n Hn Hb) as (x & t & -> & Hx & E). cbn [app] in T. unfold parse_number. cbv zeta.
  destruct (peek_text _ _ _ T) as [-> _]. unfold is_digit in Hx. rewrite (proj2 (Z.eqb_neq x END_OF_STR)) by (unfold END_OF_STR; lia).
  rewrite (proj2 (Z.ltb_ge x 48)) by lia. replace (x >? 57) with false by lia. cbn [orb]. rewrite T. cbn [tl]. rewrite (E rest (ROk (n, rest))); [reflexivity |].
  destruct rest as [|y rest]; cbn [number_loop]; [reflexivity |]. cbn [no_digit] in Hd. unfold is_digit in Hd.
  destruct ((y <? 48) || (y >? 57)) eqn:B; [reflexivity |]. apply orb_false_iff in B. lia.
Qed.

Lemma counted_bounds : forall q n m, counted q n m -> 0 <= n <= max_of m /\ 1 <= max_of m <= 65535.
Proof.
  intros q n m H. destruct H as [ | | | w n Hn | w n Hn | w n v m Hn Hm]; cbn [max_of]; try lia; apply number_nonneg in Hn; lia.
Qed.

(* what parse_optional_multiplicity reads before it emits instructions *)
Lemma counted_read : forall q n m bg c rest, counted q n m -> rc_text c = q ++ rest -> rc_mult c = true ->
  parse_optional_multiplicity bg c = rdo c3 <- emit_multiplicity bg n (max_of m) (set_text rest c); ROk (set_mult false c3).
Proof.
  intros q n m bg c rest H T M. unfold parse_optional_multiplicity. cbv zeta.
  destruct H as [ | | | w n Hn Hb | w n Hn Hb | w n v m Hn Hm Hb H0]; cbn [app] in T; destruct (peek_text _ _ _ T) as [-> ->]; rewrite M; try reflexivity.
  all: change ((123 =? 42) || (123 =? 43) || (123 =? 63) || (123 =? 123)) with true; change (123 =? 42) with false; change (123 =? 43) with false; change (123 =? 63) with false; cbv iota;
    unfold parse_count; rewrite <- app_assoc; cbn [app].
  - rewrite (parse_number_ok w n (set_text (w ++ 125 :: rest) c) (125 :: rest) Hn ltac:(lia) eq_refl) by (cbn [no_digit]; unfold is_digit; lia). cbn [rbind].
    change (peek (set_text (125 :: rest) (set_text (w ++ 125 :: rest) c))) with 125. change (125 =? 44) with false. cbv iota. cbn [rbind]. rewrite (proj2 (Z.eqb_neq n 0)) by lia.
    reflexivity.
  - rewrite (parse_number_ok w n (set_text (w ++ 44 :: 125 :: rest) c) (44 :: 125 :: rest) Hn ltac:(lia) eq_refl) by (cbn [no_digit]; unfold is_digit; lia). cbn [rbind].
    change (peek (set_text (44 :: 125 :: rest) (set_text (w ++ 44 :: 125 :: rest) c))) with 44. change (44 =? 44) with true. cbv iota.
    change (consume (set_text (44 :: 125 :: rest) (set_text (w ++ 44 :: 125 :: rest) c))) with (set_text (125 :: rest) c). cbv zeta.
    change (peek (set_text (125 :: rest) c)) with 125. change (125 =? 125) with true. cbv iota. cbn [rbind]. rewrite (proj2 (Z.ltb_ge 65535 n)) by lia.
    reflexivity.
  - rewrite <- app_assoc. cbn [app]. rewrite (parse_number_ok w n (set_text (w ++ 44 :: v ++ 125 :: rest) c) (44 :: v ++ 125 :: rest) Hn ltac:(lia) eq_refl) by (cbn [no_digit]; unfold is_digit; lia). cbn [rbind].
    change (peek (set_text (44 :: v ++ 125 :: rest) (set_text (w ++ 44 :: v ++ 125 :: rest) c))) with 44. change (44 =? 44) with true. cbv iota.
    change (consume (set_text (44 :: v ++ 125 :: rest) (set_text (w ++ 44 :: v ++ 125 :: rest) c))) with (set_text (v ++ 125 :: rest) c). cbv zeta.
    destruct (number_head _ _ Hm) as (x & t & Ev & Hx).
    replace (peek (set_text (v ++ 125 :: rest) c)) with x by (rewrite Ev; reflexivity). unfold is_digit in Hx. rewrite (proj2 (Z.eqb_neq x 125)) by lia.
    rewrite (parse_number_ok v m (set_text (v ++ 125 :: rest) c) (125 :: rest) Hm ltac:(lia) eq_refl) by (cbn [no_digit]; unfold is_digit; lia). cbn [rbind]. rewrite (proj2 (Z.ltb_ge m n)) by lia.
    cbn [rbind]. rewrite (proj2 (Z.eqb_neq m 0)) by lia. reflexivity.
Qed.
Lemma quantifier_read : forall q lz n m bg c rest, quantifier q lz n m -> rc_text c = q ++ rest -> rc_mult c = true ->
  parse_optional_multiplicity bg c = rdo c3 <- emit_multiplicity bg n (max_of m) (set_text ((if lz then [63] else []) ++ rest) c); ROk (set_mult false c3).
Proof.
  intros q lz n m bg c rest H T M. destruct H as [q n m H | q n m H]; [apply (counted_read q); assumption |]. rewrite <- app_assoc in T. apply (counted_read q); assumption.
Qed.

(* instructions *)
Definition words (l : list Z) : Prop := Forall (fun x => 0 <= x <= 65535) l.
Lemma map_u16 : forall l, words l -> map u16 l = l.
Proof. intros l H. induction H as [|x l Hx _ IH]; cbn [map]; [reflexivity |]. rewrite IH, u16_small by exact Hx. reflexivity. Qed.
Lemma emit_fits : forall code args c, words args -> len (rc_buf c) + len (code :: args) <= 32767 ->
  emit code args c = ROk (set_mult true (set_buf (rc_buf c ++ code :: args) c)).
Proof.
  intros code args c W H. unfold emit. cbv zeta. rewrite map_u16 by exact W. rewrite len_app.
  replace ((len (rc_buf c) + len (code :: args)) * 2 >? 65535) with false by lia. reflexivity.
Qed.
Lemma emit_long : forall code args c, words args -> 32767 < len (rc_buf c) + len (code :: args) -> emit code args c = RThrow.
Proof.
  intros code args c W H. unfold emit. cbv zeta. rewrite map_u16 by exact W. rewrite len_app.
  replace ((len (rc_buf c) + len (code :: args)) * 2 >? 65535) with true by lia. reflexivity.
Qed.
Lemma firstn_len : forall (l m : list Z), firstn (Z.to_nat (len l)) (l ++ m) = l.
Proof. intros l m. unfold len. rewrite Nat2Z.id, firstn_app, Nat.sub_diag, firstn_all. apply app_nil_r. Qed.
Lemma skipn_len : forall (l m : list Z), skipn (Z.to_nat (len l)) (l ++ m) = m.
Proof. intros l m. unfold len. rewrite Nat2Z.id, skipn_app, Nat.sub_diag, skipn_all. reflexivity. Qed.
Lemma rotate_app : forall pre la x c, rc_buf c = pre ++ la ++ x -> rotate_instr (len pre) (len (pre ++ la)) c = set_buf (pre ++ x ++ la) c.
Proof.
  intros pre la x c E. unfold rotate_instr. cbv zeta. rewrite E. rewrite firstn_len, (skipn_len pre), (app_assoc pre la x), (skipn_len (pre ++ la)).
  rewrite len_app. replace (len pre + len la - len pre) with (len la) by lia. rewrite firstn_len. reflexivity.
Qed.
Lemma patch_app : forall pre op old post target c, rc_buf c = pre ++ op :: old :: post ->
  patch_jump_offs (len pre) target c = set_buf (pre ++ op :: u16 (target - len pre) :: post) c.
Proof.
  intros pre op old post target c E. unfold patch_jump_offs. rewrite E. rewrite setz_app_r by lia. replace (len pre + 1 - len pre) with 1 by lia. reflexivity.
Qed.
