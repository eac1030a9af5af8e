(* The lexer stays in its buffer and makes progress. *)
From Coq Require Import String Ascii ZArith List Lia Bool ZifyBool.
Import ListNotations.
From Verif Require Import Base ListZ Utf8Model LexModel.
Local Open Scope Z_scope.
Ltac Zify.zify_post_hook ::= idtac.

Definition suf (e b : list Z) : Prop := exists p, b = p ++ e.
Lemma suf_refl : forall b, suf b b.
Proof. intros b. exists []. reflexivity. Qed.
Lemma suf_trans : forall a b c, suf a b -> suf b c -> suf a c.
Proof. intros a b c [p ->] [q ->]. exists (q ++ p). rewrite app_assoc. reflexivity. Qed.
Lemma suf_cons : forall c e b, suf e b -> suf e (c :: b).
Proof. intros c e b [p ->]. exists (c :: p). reflexivity. Qed.
Lemma suf_nil : forall b, suf [] b.
Proof. intros b. exists b. rewrite app_nil_r. reflexivity. Qed.
Lemma suf_len : forall e b, suf e b -> (length e <= length b)%nat.
Proof. intros e b [p ->]. rewrite app_length. lia. Qed.

Lemma tails_suf : forall n code l ok code' e, tails n code l = (ok, code', e) -> suf e l.
Proof.
  induction n as [| n IH]; intros code l ok code' e H; cbn [tails] in H.
  - assert (l = e) as -> by congruence. apply suf_refl.
  - destruct l as [| c t]; [assert (e = []) as -> by congruence; apply suf_refl |].
    destruct (lexem_type c); try (assert (e = c :: t) as -> by congruence; apply suf_refl).
    apply suf_cons. eapply IH. exact H.
Qed.

(* characters make progress unless they are invalid; only the end of the text is LEof *)
Lemma next_char_suf : forall b ty e, next_char b = (ty, e) ->
  suf e b /\ (b = [] <-> ty = LEof) /\ (ty <> LEof -> ty <> LBadUtf8 -> (length e < length b)%nat) /\
  (ty = LEof -> e = []).
Proof.
  intros [| c t] ty e H; cbn [next_char] in H.
  { assert (ty = LEof /\ e = []) as [-> ->] by (split; congruence). split; [apply suf_refl |]. split; [tauto |]. split; [congruence |].
    reflexivity. }
  assert (G : suf e (c :: t) /\ ty <> LEof /\ (ty <> LBadUtf8 -> (length e < length (c :: t))%nat)).
  { destruct (lexem_type c) as [| | | | | | | | | | | | | | | n |] eqn:K;
      try (assert (e = t) as -> by congruence; assert (T : ty <> LEof) by congruence; split; [exists [c]; reflexivity |];
           split; [exact T |]; intros _; cbn [length]; lia).
    - assert (T : ty <> LEof) by congruence. assert (E : suf e t).
      { destruct t as [| c1 t']; [assert (e = []) as -> by congruence; apply suf_refl |].
        destruct ((c =? 13) && (c1 =? 10)).
        - assert (e = t') as -> by congruence. apply suf_cons, suf_refl.
        - assert (e = c1 :: t') as -> by congruence. apply suf_refl. }
      split; [apply suf_cons; exact E |]. split; [exact T |]. intros _. apply suf_len in E. cbn [length]. lia.
    - exfalso. revert K. unfold lexem_type, in_range. clear. repeat match goal with |- context [if ?b then _ else _] => destruct b end; discriminate.
    - assert (T : ty = LBadUtf8) by congruence. subst ty. split; [assert (e = c :: t) as -> by congruence; apply suf_refl |].
      split; [discriminate | congruence].
    - destruct (len (c :: t) <? n).
      + assert (T : ty = LBadUtf8 /\ e = []) by (split; congruence). destruct T as [-> ->]. split; [apply suf_nil |].
        split; [discriminate | congruence].
      + destruct (tails _ _ t) as [[ok code] e'] eqn:Q. assert (e' = e) as -> by congruence. pose proof (tails_suf _ _ _ _ _ _ Q) as E.
        split; [apply suf_cons; exact E |]. split.
        * destruct (is_space_code code), ok; congruence.
        * intros _. apply suf_len in E. cbn [length]. lia. }
  destruct G as (G1 & G2 & G3). split; [exact G1 |]. split; [split; [discriminate | intros; contradiction] |].
  split; [intros _; exact G3 | intros; contradiction].
Qed.

Lemma prefetch_eq : forall x ty b x1, prefetch x = (ty, b, x1) -> b = l_rest x /\ next_char b = (ty, l_rest x1) /\
  l_oline x1 = l_line x /\ l_ocol x1 = l_col x.
Proof.
  intros x ty b x1 H. unfold prefetch in H. destruct (next_char (l_rest x)) as [t e] eqn:N.
  assert (G : exists line col, x1 = mklex e line col (l_line x) (l_col x) /\ t = ty /\ b = l_rest x).
  { destruct t; cbn beta iota zeta in H; injection H as H1 H2 H3; (do 2 eexists; split; [symmetry; exact H3 |]; split; congruence). }
  destruct G as (line & col & -> & -> & ->). cbn [l_rest l_oline l_ocol]. auto.
Qed.
Lemma prefetch_suf : forall x ty b x1, prefetch x = (ty, b, x1) -> b = l_rest x /\ suf (l_rest x1) b /\ (b = [] <-> ty = LEof) /\
  (ty <> LEof -> ty <> LBadUtf8 -> (length (l_rest x1) < length b)%nat) /\ (ty = LEof -> l_rest x1 = []).
Proof.
  intros x ty b x1 H. destruct (prefetch_eq _ _ _ _ H) as (E & N & _). split; [exact E |]. exact (next_char_suf _ _ _ N).
Qed.
Lemma retract_rest : forall x b, l_rest (retract x b) = b. Proof. reflexivity. Qed.

(* moving over characters one at a time *)
Definition same (x y : lex) : Prop := l_rest x = l_rest y /\ l_line x = l_line y /\ l_col x = l_col y.
Inductive walk : lex -> lex -> Prop :=
| walk_here : forall x y, same x y -> walk x y
| walk_step : forall x c b x1 y, prefetch x = (c, b, x1) -> walk x1 y -> walk x y.
Lemma same_prefetch : forall x y c b x1, same x y -> prefetch x = (c, b, x1) -> prefetch y = (c, b, x1).
Proof. intros x y c b x1 (A & B & C) P. rewrite <- P. unfold prefetch. rewrite A, B, C. reflexivity. Qed.
Lemma walk_refl : forall x, walk x x.
Proof. intros x. apply walk_here. split; [| split]; reflexivity. Qed.
Lemma same_sym : forall x y, same x y -> same y x.
Proof. intros x y (A & B & C). split; [| split]; congruence. Qed.
Lemma same_trans : forall x y z, same x y -> same y z -> same x z.
Proof. intros x y z (A & B & C) (A' & B' & C'). split; [| split]; congruence. Qed.
Lemma walk_same_l : forall x y z, same x y -> walk y z -> walk x z.
Proof.
  intros x y z A W. inversion W; subst.
  - apply walk_here. eapply same_trans; eassumption.
  - eapply walk_step; [| eassumption]. eapply same_prefetch; [apply same_sym; exact A | eassumption].
Qed.
Lemma walk_trans : forall x y z, walk x y -> walk y z -> walk x z.
Proof.
  intros x y z W. revert z. induction W as [x y A | x c b x1 y P W IH]; intros z V.
  - eapply walk_same_l; eassumption.
  - eapply walk_step; [exact P |]. apply IH. exact V.
Qed.
Lemma walk_prefetch : forall x c b x1, prefetch x = (c, b, x1) -> walk x x1.
Proof. intros x c b x1 P. eapply walk_step; [exact P | apply walk_refl]. Qed.
Lemma walk_retract : forall x c b x1, prefetch x = (c, b, x1) -> walk x (retract x1 b).
Proof.
  intros x c b x1 P. destruct (prefetch_eq _ _ _ _ P) as (A & _ & B & C). apply walk_here.
  unfold same, retract. cbn [l_rest l_line l_col]. auto.
Qed.
Lemma walk_suf : forall x y, walk x y -> suf (l_rest y) (l_rest x).
Proof.
  intros x y W. induction W as [x y (A & _) | x c b x1 y P W IH].
  - rewrite A. apply suf_refl.
  - destruct (prefetch_suf _ _ _ _ P) as (E & F & _). rewrite <- E. eapply suf_trans; eassumption.
Qed.
Lemma walk_len : forall x y, walk x y -> (length (l_rest y) <= length (l_rest x))%nat.
Proof. intros x y W. apply suf_len, walk_suf. exact W. Qed.

(* a result is a walk from x *)
Definition good {A} (lx : A -> lex) (x : lex) (r : lres A) : Prop :=
  match r with LOk a => walk x (lx a) | LErr _ => True | _ => False end.
Notation idl := (fun y : lex => y).
Lemma good_weaken : forall A (lx : A -> lex) x x' r, good lx x r -> walk x' x -> good lx x' r.
Proof. intros A lx x x' [a | e | |] G W; cbn in *; try assumption. eapply walk_trans; eassumption. Qed.
Lemma good_bind : forall A B (la : A -> lex) (lb : B -> lex) x m f, good la x m -> (forall a, m = LOk a -> walk x (la a) -> good lb x (f a)) ->
  good lb x (bind m f).
Proof. intros A B la lb x [a | e | |] f G F; cbn in *; auto. Qed.
Lemma deref_ok : forall b (ty : lt), (b = [] <-> ty = LEof) -> ty <> LEof -> exists ch t, b = ch :: t /\ deref b = LOk ch.
Proof. intros [| ch t] ty E N; [destruct E as [E _]; specialize (E eq_refl); contradiction | exists ch, t; auto]. Qed.

Ltac pf x := let c := fresh "c" in let b := fresh "b" in let x1 := fresh "x" in let P := fresh "P" in
  let E := fresh "EQ" in let S := fresh "SF" in let N := fresh "NE" in let L := fresh "LT" in let Z := fresh "EF" in
  let W := fresh "WP" in let R := fresh "WR" in
  destruct (prefetch x) as [[c b] x1] eqn:P; destruct (prefetch_suf _ _ _ _ P) as (E & S & N & L & Z);
  pose proof (walk_prefetch _ _ _ _ P) as W; pose proof (walk_retract _ _ _ _ P) as R.

Lemma skip_while_good : forall fuel ok x, ok LEof = false -> ok LBadUtf8 = false -> (length (l_rest x) < fuel)%nat ->
  good idl x (skip_while fuel ok x).
Proof.
  induction fuel as [| f IH]; intros ok x A B L; [lia |]. cbn [skip_while]. pf x. rewrite <- EQ in *.
  destruct (ok c) eqn:K; [| exact WR].
  assert (c <> LEof) by congruence. assert (c <> LBadUtf8) by congruence. specialize (LT H H0).
  eapply good_weaken; [apply IH; [assumption | assumption | lia] | exact WP].
Qed.

Ltac notlt := let H := fresh in intros H; discriminate H.

(* the ways a prefetch is used: at the end of the text, or with a character *)
Lemma eof_cases : forall c (b : list Z), (b = [] <-> c = LEof) -> (is_eof c = true /\ c = LEof /\ b = []) \/ (is_eof c = false /\ c <> LEof /\ exists ch t, b = ch :: t).
Proof.
  intros c b [A B]. destruct b as [| ch t].
  - left. specialize (A eq_refl). subst c. auto.
  - right. assert (N : c <> LEof) by (intros Q; specialize (B Q); discriminate). split; [| split; [exact N | eauto]].
    destruct c; try reflexivity. contradiction.
Qed.
Lemma bad_cases : forall c, (is_bad c = true /\ c = LBadUtf8) \/ (is_bad c = false /\ c <> LBadUtf8).
Proof. intros c. destruct c; try (right; split; [reflexivity | discriminate]). left. auto. Qed.
Ltac eofc c b := let ch := fresh "ch" in let t := fresh "t" in let A := fresh "IE" in let B := fresh "CE" in
  match goal with H : b = [] <-> c = LEof |- _ => destruct (eof_cases c b H) as [(A & -> & ->) | (A & B & ch & t & ->)]; rewrite ?A;
     cbn [is_eof deref bind] end.

Lemma hex_type : forall ch, char_is_hex_or_underscore ch = true -> lexem_type ch = LDigit \/ lexem_type ch = LLetter \/ lexem_type ch = LUnder.
Proof.
  intros ch X. unfold char_is_hex_or_underscore, char_is_hex, in_range in X. unfold lexem_type, in_range.
  destruct ((48 <=? ch) && (ch <=? 57)) eqn:A; [left | right; destruct (ch =? 95) eqn:B; [right | left]];
    repeat match goal with |- context [if ?b then _ else _] => let q := fresh in destruct b eqn:q; try reflexivity; try (exfalso; lia) end.
Qed.
Lemma hexish_not_bad : forall ch t x c x0, char_is_hex_or_underscore ch = true -> prefetch x = (c, ch :: t, x0) -> c <> LBadUtf8.
Proof.
  intros ch t x c x0 X P. apply hex_type in X. intros ->. destruct (prefetch_eq _ _ _ _ P) as (_ & N & _). unfold next_char in N.
  destruct X as [T | [T | T]]; rewrite T in N; discriminate N.
Qed.

Lemma esc_braces_good : forall fuel x count, (length (l_rest x) < fuel)%nat -> good snd x (esc_braces fuel x count).
Proof.
  induction fuel as [| f IH]; intros x count L; [lia |]. cbn [esc_braces]. pf x. rewrite <- EQ in *. eofc c b; [exact Logic.I |].
  destruct (ch =? 125); [exact WP |]. destruct (char_is_hex ch) eqn:X; cbn [negb]; [| exact Logic.I].
  assert (B : c <> LBadUtf8) by (eapply hexish_not_bad; [| exact P]; unfold char_is_hex_or_underscore; rewrite X; reflexivity).
  specialize (LT CE B). eapply good_weaken; [apply IH; lia | exact WP].
Qed.

Lemma collect_escape_good : forall fuel x, (length (l_rest x) < fuel)%nat -> good snd x (collect_escape fuel x).
Proof.
  intros fuel x L. unfold collect_escape. pf x. eofc c b; [exact Logic.I |].
  destruct (escape_map ch); try exact WP.
  pf x0. eofc c0 b; [exact Logic.I |].
  pose proof (walk_trans _ _ _ WP WP0) as W1.
  destruct (ch0 =? 123).
  - apply good_bind with (la := snd).
    + eapply good_weaken; [apply esc_braces_good | exact W1]. apply walk_len in W1. lia.
    + intros [count x3] _ S3. cbn [snd] in S3. destruct (count =? 0); [exact Logic.I |]. destruct (6 <? count); [exact Logic.I | exact S3].
  - destruct (char_is_hex ch0); [| exact Logic.I]. pf x1. eofc c1 b; [exact Logic.I |].
    destruct (char_is_hex ch1); [| exact Logic.I]. cbn [good snd]. exact (walk_trans _ _ _ W1 WP1).
Qed.

Lemma collect_string_good : forall fuel x, (length (l_rest x) < fuel)%nat -> good idl x (collect_string fuel x).
Proof.
  induction fuel as [| f IH]; intros x L; [lia |]. cbn [collect_string]. pf x. rewrite <- EQ in *.
  assert (G : c <> LEof -> c <> LBadUtf8 -> good idl x (collect_string f x0)).
  { intros A B. specialize (LT A B). eapply good_weaken; [apply IH; lia | exact WP]. }
  destruct c; try (apply G; notlt); try exact Logic.I; [| exact WP].
  assert (LT' : (length (l_rest x0) < length b)%nat) by (apply LT; discriminate).
  apply good_bind with (la := snd).
  - eapply good_weaken; [apply collect_escape_good; lia | exact WP].
  - intros [fm x2] E2 S2. cbn [snd] in S2. destruct fm; [exact S2 |].
    assert (S3 : walk x0 x2).
    { pose proof (collect_escape_good f x0 ltac:(lia)) as Q. rewrite E2 in Q. exact Q. }
    eapply good_weaken; [apply IH | exact S2]. apply walk_len in S3. lia.
Qed.

Lemma collect_raw_string_good : forall fuel x, (length (l_rest x) < fuel)%nat -> good idl x (collect_raw_string fuel x).
Proof.
  induction fuel as [| f IH]; intros x L; [lia |]. cbn [collect_raw_string]. pf x. rewrite <- EQ in *.
  assert (G : c <> LEof -> c <> LBadUtf8 -> good idl x (collect_raw_string f x0)).
  { intros A B. specialize (LT A B). eapply good_weaken; [apply IH; lia | exact WP]. }
  destruct c; try (apply G; notlt); try exact Logic.I; [| exact WP]. clear G.
  assert (LT' : (length (l_rest x0) < length b)%nat) by (apply LT; discriminate).
  pf x0. rewrite <- EQ0 in *. eofc c b0; [exact Logic.I |]. destruct (bad_cases c) as [(BB & CB) | (BB & CB)]; rewrite BB; [exact Logic.I |].
  specialize (LT0 CE CB). eapply good_weaken; [apply IH; lia | exact (walk_trans _ _ _ WP WP0)].
Qed.

Lemma comment_loop_good : forall fuel c b x, (b = [] <-> c = LEof) -> (S (length (l_rest x)) < fuel)%nat -> good idl x (comment_loop fuel c b x).
Proof.
  induction fuel as [| f IH]; intros c b x NB L; [lia |]. cbn [comment_loop]. eofc c b; [apply walk_refl |].
  pf x. rewrite <- EQ in *. destruct (bad_cases c0) as [(BB & CB) | (BB & CB)]; rewrite BB; [exact WR |].
  eofc c0 b.
  - destruct f; [lia |]. cbn [comment_loop is_eof good]. exact WP.
  - destruct ((ch =? 42) && (ch0 =? 47)); [exact WP |]. specialize (LT CE0 CB). eapply good_weaken; [apply IH; [exact NE | cbn [length] in *; lia] | exact WP].
Qed.
Lemma block_comment_good : forall fuel x, (S (length (l_rest x)) < fuel)%nat -> good idl x (collect_block_comment fuel x).
Proof.
  intros fuel x L. unfold collect_block_comment. pf x. pose proof (walk_len _ _ WP).
  eapply good_weaken; [apply comment_loop_good; [exact NE | lia] | exact WP].
Qed.

(* ---- numbers ---- *)

(* the state after the last prefetch *)
Definition good3 (x0 : lex) (r : lres (lt * list Z * lex)) : Prop :=
  match r with LOk (c, b, x) => (b = [] <-> c = LEof) /\ walk x0 x /\ walk x0 (retract x b) | LErr _ => True | _ => False end.
Lemma good3_weaken : forall x y r, walk x y -> good3 y r -> good3 x r.
Proof.
  intros x y [[[c b] x'] | | |] W G; cbn in *; auto. destruct G as (A & B & C).
  split; [exact A |]. split; eapply walk_trans; eassumption.
Qed.
Lemma prefetch_good3 : forall x, good3 x (LOk (prefetch x)).
Proof. intros x. pf x. cbn. auto. Qed.
Lemma digits_good : forall fuel x, (length (l_rest x) < fuel)%nat -> good3 x (digits fuel x).
Proof.
  induction fuel as [| f IH]; intros x L; [lia |]. cbn [digits]. pf x. rewrite <- EQ in *.
  destruct (is_digit_or_underscore c) eqn:K.
  - assert (A : c <> LEof) by (intros ->; discriminate). assert (B : c <> LBadUtf8) by (intros ->; discriminate). specialize (LT A B).
    eapply good3_weaken; [exact WP |]. apply IH. lia.
  - cbn. auto.
Qed.
Lemma is_op_char_ok : forall l c b, (b = [] <-> c = LEof) -> exists r, is_op_char l c b = LOk r.
Proof.
  intros l c b N. unfold is_op_char. destruct c; eauto. destruct (deref_ok b LOp N) as (ch & t & -> & D); [discriminate |]. cbn. eauto.
Qed.
Lemma is_letter_char_ok : forall l c b, (b = [] <-> c = LEof) -> exists r, is_letter_char l c b = LOk r.
Proof.
  intros l c b N. unfold is_letter_char. destruct c; eauto. destruct (deref_ok b LLetter N) as (ch & t & -> & D); [discriminate |]. cbn. eauto.
Qed.

Lemma collect_decimal_good : forall fuel first x, (length (l_rest x) < fuel)%nat -> good idl x (collect_decimal fuel first x).
Proof.
  intros fuel first x L. unfold collect_decimal.
  assert (G1 : good3 x (if negb (first =? 48) then digits fuel x else LOk (prefetch x))).
  { destruct (negb (first =? 48)); [apply digits_good; exact L | apply prefetch_good3]. }
  destruct (if negb (first =? 48) then digits fuel x else LOk (prefetch x)) as [[[c b] x1] | | |]; try contradiction; [| exact Logic.I].
  cbn [good3] in G1. destruct G1 as (N1 & T1 & R1). cbn [bind].
  destruct (is_op_char_ok [46] c b N1) as [dot D]. rewrite D. cbn [bind]. clear D.
  assert (G2 : good3 x (if dot then digits fuel x1 else LOk (c, b, x1))).
  { destruct dot; [| cbn; auto]. pose proof (walk_len _ _ T1). eapply good3_weaken; [exact T1 |]. apply digits_good. lia. }
  destruct (if dot then digits fuel x1 else LOk (c, b, x1)) as [[[c2 b2] x2] | | |]; try contradiction; [| exact Logic.I].
  cbn [good3] in G2. destruct G2 as (N2 & T2 & R2). cbn [bind]. clear N1 T1 R1 dot c b x1.
  destruct (is_letter_char_ok [101; 69; 112; 80] c2 b2 N2) as [ex D]. rewrite D. cbn [bind]. clear D.
  match goal with |- good _ _ (bind ?m _) => assert (G3 : match m with LOk (c, b, x3) => walk x (retract x3 b) | LErr _ => True | _ => False end) end.
  { destruct ex; [| exact R2]. pf x2. destruct (is_op_char_ok [43; 45] c b NE) as [sg D]. rewrite D. cbn [bind]. clear D.
    assert (G4 : good3 x (LOk (if sg then prefetch x0 else (c, b, x0)))).
    { eapply good3_weaken; [exact T2 |]. destruct sg.
      - eapply good3_weaken; [exact WP |]. apply prefetch_good3.
      - cbn. auto. }
    destruct (if sg then prefetch x0 else (c, b, x0)) as [[c' b'] x'] eqn:Q. destruct G4 as (N4 & T4 & R4).
    destruct (is_digit_or_underscore c') eqn:K; [| exact R4].
    assert (A : c' <> LEof) by (intros ->; discriminate). destruct (deref_ok b' c' N4 A) as (ch & t & -> & D). rewrite D. cbn [bind].
    pose proof (walk_len _ _ T4). destruct (negb (ch =? 48)).
    - pose proof (good3_weaken _ _ _ T4 (digits_good fuel x' ltac:(lia))) as G.
      destruct (digits fuel x') as [[[c5 b5] x5] | | |]; cbn in *; auto. tauto.
    - pose proof (good3_weaken _ _ _ T4 (prefetch_good3 x')) as G. destruct (prefetch x') as [[c5 b5] x5]. destruct G as (_ & _ & G). exact G. }
  match goal with |- good _ _ (bind ?m _) => destruct m as [[[c3 b3] x3] | | |] end; try contradiction; [| exact Logic.I].
  cbn [bind]. destruct (is_alnum c3); [exact Logic.I |]. cbn. exact G3.
Qed.

Lemma skip_chars_good : forall fuel ok x, (forall ch, ok ch = true -> char_is_hex_or_underscore ch = true) ->
  (length (l_rest x) < fuel)%nat -> good idl x (skip_chars fuel ok x).
Proof.
  induction fuel as [| f IH]; intros ok x H L; [lia |]. cbn [skip_chars]. pf x. rewrite <- EQ in *. eofc c b; [exact WR |].
  destruct (ok ch) eqn:K; [| exact WR].
  pose proof (hexish_not_bad ch t x c x0 (H _ K) P) as B. specialize (LT CE B).
  eapply good_weaken; [apply IH; [exact H | lia] | exact WP].
Qed.
Lemma collect_radix_good : forall fuel ok e1 e2 x, (forall ch, ok ch = true -> char_is_hex_or_underscore ch = true) ->
  (length (l_rest x) < fuel)%nat -> good idl x (collect_radix fuel ok e1 e2 x).
Proof.
  intros fuel ok e1 e2 x H L. unfold collect_radix. pf x. eofc c b; [exact Logic.I |].
  destruct (ok ch) eqn:K; [| exact Logic.I].
  pose proof (walk_len _ _ WP). eapply good_weaken; [apply skip_chars_good; [exact H | lia] | exact WP].
Qed.
