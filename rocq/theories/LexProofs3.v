(* The texts of tokens. *)
From Coq Require Import String Ascii ZArith List Lia Bool ZifyBool.
Import ListNotations.
From Verif Require Import Base ListZ Utf8Model LexModel LexSpec LexProofs LexProofs2.
Local Open Scope Z_scope.
Ltac Zify.zify_post_hook ::= idtac.

Ltac ltype := unfold lexem_type, in_range in *;
  repeat match goal with
  | |- context [if ?b then _ else _] => let q := fresh "q" in destruct b eqn:q
  | H : context [if ?b then _ else _] |- _ => let q := fresh "q" in destruct b eqn:q
  end.

Lemma type_tail : forall c, lexem_type c = LTail -> tail_byte c.
Proof. intros c H. unfold tail_byte. ltype; try discriminate. lia. Qed.
Lemma type_eol : forall c, lexem_type c = LEol <-> is_eol_char c.
Proof. intros c. unfold is_eol_char. split; intros H; [ltype; try discriminate; lia |]. destruct H as [-> | ->]; reflexivity. Qed.
Lemma type_letter : forall c, lexem_type c = LLetter <-> Letter c.
Proof. intros c. unfold Letter. split; intros H; ltype; try discriminate; try reflexivity; lia. Qed.
Lemma type_digit : forall c, lexem_type c = LDigit <-> DecimalDigit c.
Proof. intros c. unfold DecimalDigit. split; intros H; ltype; try discriminate; try reflexivity; lia. Qed.
Lemma type_under : forall c, lexem_type c = LUnder <-> Underscore c.
Proof. intros c. unfold Underscore. split; intros H; [ltype; try discriminate; lia | subst; reflexivity]. Qed.
Lemma type_utf : forall c n, lexem_type c = LUtf n -> 194 <= c <= 247 /\ (n = 2 /\ c < 224 \/ n = 3 /\ 224 <= c < 240 \/ n = 4 /\ 240 <= c).
Proof. intros c n H. ltype; try discriminate; injection H as <-; lia. Qed.
Lemma type_not_eof : forall c, lexem_type c <> LEof.
Proof. intros c H. ltype; discriminate. Qed.
Lemma type_not_bad : forall c, lexem_type c <> LBadUtf8.
Proof. intros c H. ltype; discriminate. Qed.

Lemma tail_type : forall c, tail_byte c -> lexem_type c = LTail.
Proof. intros c TB. unfold tail_byte in TB. ltype; try reflexivity; lia. Qed.
Lemma tails_tail : forall n code l ok code' e, tails n code l = (ok, code', e) -> exists w, l = w ++ e /\ Forall tail_byte w /\ (length w <= n)%nat /\
  (ok = true -> length w = n) /\ (ok = false -> (length w < n)%nat /\ not_next tail_byte e).
Proof.
  induction n as [| n IH]; intros code l ok code' e H; cbn [tails] in H.
  - exists []. assert (l = e /\ ok = true) as [-> ->] by (split; congruence). split; [reflexivity |]. split; [constructor |]. split; [cbn; lia |].
    split; [reflexivity | discriminate].
  - destruct l as [| c t].
    { exists []; assert (ok = false /\ e = []) as [-> ->] by (split; congruence). split; [reflexivity |]. split; [constructor |]. split; [cbn; lia |].
      split; [discriminate |]. intros _. split; [cbn; lia | exact Logic.I]. }
    assert (N : lexem_type c <> LTail -> (false, code, c :: t) = (ok, code', e) ->
      exists w, c :: t = w ++ e /\ Forall tail_byte w /\ (length w <= S n)%nat /\ (ok = true -> length w = S n) /\ (ok = false -> (length w < S n)%nat /\ not_next tail_byte e)).
    { intros T E. exists []. assert (ok = false /\ e = c :: t) as [-> ->] by (split; congruence). split; [reflexivity |]. split; [constructor |].
      split; [cbn; lia |]. split; [discriminate |]. intros _. split; [cbn; lia |]. intros Q. apply T, tail_type, Q. }
    destruct (lexem_type c) eqn:T; try (apply N; [discriminate | exact H]).
    destruct (IH _ _ _ _ _ H) as (w & -> & F & L & O & B). exists (c :: w). split; [reflexivity |].
    split; [constructor; [apply type_tail; exact T | exact F] |]. cbn [length]. split; [lia |]. split; [intros K; rewrite (O K); reflexivity |].
    intros K. destruct (B K) as [B1 B2]. split; [lia | exact B2].
Qed.
Lemma utf_needs : forall c n, lexem_type c = LUtf n -> needs c (Z.to_nat (n - 1)).
Proof. intros c n T. apply type_utf in T. unfold needs. destruct T as (A & [[-> B] | [[-> B] | [-> B]]]); [left | right; left | right; right]; split; (lia || reflexivity). Qed.

(* the kinds of characters *)
Inductive char_kind (b : list Z) : lt -> list Z -> Prop :=
| k_eof : b = [] -> char_kind b LEof []
| k_plain : forall ch t ty, b = ch :: t -> lexem_type ch = ty -> ty <> LEol -> ty <> LTail -> (forall n, ty <> LUtf n) -> char_kind b ty t
| k_eol : forall s e, b = s ++ e -> Eol s e -> char_kind b LEol e
| k_tail : forall ch t, b = ch :: t -> tail_byte ch -> char_kind b LBadUtf8 b
| k_multi : forall ch w e n ty, b = ch :: w ++ e -> lexem_type ch = LUtf n -> Forall tail_byte w -> ty = LWhite \/ ty = LUtf n \/ ty = LBadUtf8 -> (length w <= 3)%nat ->
  (ty = LBadUtf8 -> bad_utf8 b) -> char_kind b ty e
| k_trunc : forall ch t n, b = ch :: t -> lexem_type ch = LUtf n -> bad_utf8 b -> char_kind b LBadUtf8 [].
Lemma next_char_kind : forall b ty e, next_char b = (ty, e) -> char_kind b ty e.
Proof.
  intros [| ch t] ty e H; cbn [next_char] in H.
  { assert (ty = LEof /\ e = []) as [-> ->] by (split; congruence). apply k_eof. reflexivity. }
  assert (PL : lexem_type ch = ty -> e = t -> ty <> LEol -> ty <> LTail -> (forall n, ty <> LUtf n) -> char_kind (ch :: t) ty e).
  { intros A -> B C D. eapply k_plain; [reflexivity | exact A | exact B | exact C | exact D]. }
  destruct (lexem_type ch) eqn:T; try (apply PL; [congruence | congruence | | |]; try intros n; congruence).
  - assert (E : ty = LEol) by congruence. subst ty. apply type_eol in T. destruct T as [-> | ->].
    + assert (E : e = t) by (destruct t; cbn in H; congruence). subst e. apply (k_eol _ [10]); [reflexivity | left; reflexivity].
    + destruct t as [| c1 t']; [assert (e = []) as -> by congruence; apply (k_eol _ [13]); [reflexivity | right; right; split; [reflexivity | exact Logic.I]] |].
      cbn [Z.eqb Pos.eqb andb] in H. destruct (Z.eqb_spec c1 10) as [-> | N].
      * assert (e = t') as -> by congruence. apply (k_eol _ [13; 10]); [reflexivity | right; left; reflexivity].
      * assert (e = c1 :: t') as -> by congruence. apply (k_eol _ [13]); [reflexivity |]. right; right. split; [reflexivity | exact N].
  - assert (ty = LBadUtf8 /\ e = ch :: t) as [-> ->] by (split; congruence). apply (k_tail _ ch t); [reflexivity | apply type_tail; exact T].
  - pose proof (utf_needs _ _ T) as ND. pose proof (type_utf _ _ T) as TU. destruct (len (ch :: t) <? n) eqn:LN.
    + assert (ty = LBadUtf8 /\ e = []) as [-> ->] by (split; congruence). apply (k_trunc _ ch t n); [reflexivity | exact T |].
      exists ch, t. split; [reflexivity |]. right. eexists. split; [exact ND |]. intros (w & r & -> & LW & _).
      rewrite len_cons, len_app in LN. unfold len in LN. rewrite LW in LN. lia.
    + destruct (tails (Z.to_nat (n - 1)) _ t) as [[ok code] e'] eqn:Q. destruct (tails_tail _ _ _ _ _ _ Q) as (w & -> & F & L & OK & NOK).
      assert (E : e' = e /\ (if is_space_code code then LWhite else if ok then LUtf n else LBadUtf8) = ty) by (split; congruence).
      destruct E as [-> E]. apply (k_multi _ ch w e n ty); [reflexivity | exact T | exact F | | |].
      * rewrite <- E. destruct (is_space_code code), ok; auto.
      * lia.
      * intros B. rewrite B in E. destruct ok; [destruct (is_space_code code); discriminate |]. destruct (NOK eq_refl) as [N1 N2].
        exists ch, (w ++ e). split; [reflexivity |]. right. eexists. split; [exact ND |]. intros (w' & r & EW & LW & FW).
        clear - N1 N2 EW LW FW. revert w' EW LW FW. remember (Z.to_nat (n - 1)) as m. clear Heqm. revert m N1. induction w as [| c w IH]; intros m N1 w' EW LW FW.
        -- destruct w' as [| c' w']; [cbn in *; lia |]. destruct e as [| c e]; [discriminate |]. cbn in EW. injection EW as -> _.
           inversion FW; subst. apply N2. assumption.
        -- destruct w' as [| c' w']; [cbn in *; lia |]. cbn [app] in EW. injection EW as _ EW. destruct m as [| m]; [lia |]. cbn [length] in *.
           inversion FW; subst. apply (IH m ltac:(lia) w' EW); [lia | assumption].
Qed.
Lemma prefetch_kind : forall x c b x1, prefetch x = (c, b, x1) -> char_kind b c (l_rest x1).
Proof. intros x c b x1 P. apply next_char_kind. exact (proj1 (proj2 (prefetch_eq _ _ _ _ P))). Qed.

(* characters which are one byte, by their type *)
Definition plain_set (ok : lt -> bool) (S : Z -> Prop) : Prop :=
  ok LEof = false /\ ok LBadUtf8 = false /\ ok LWhite = false /\ ok LEol = false /\ ok LTail = false /\ (forall n, ok (LUtf n) = false) /\
  forall ch, ok (lexem_type ch) = true <-> S ch.
Lemma plain_char : forall ok S b c e, plain_set ok S -> char_kind b c e ->
  (ok c = true /\ exists ch, b = ch :: e /\ S ch) \/ (ok c = false /\ not_next S b).
Proof.
  intros ok S b c e (A & B & W & L & T & U & H) K. destruct K as [-> | ch t ty -> E N1 N2 N3 | s e -> EO | ch t -> TB | ch w e n ty -> E F D _ _ | ch t n -> E _].
  - right. split; [exact A | exact Logic.I].
  - destruct (ok ty) eqn:O.
    + left. split; [reflexivity |]. exists ch. split; [reflexivity |]. apply H. congruence.
    + right. split; [reflexivity |]. cbn. intros Q. apply H in Q. congruence.
  - right. split; [exact L |]. assert (Q : exists c t, s ++ e = c :: t /\ is_eol_char c).
    { unfold is_eol_char. destruct EO as [-> | [-> | [-> _]]]; cbn [app]; eauto. }
    destruct Q as (c & t & -> & Q). cbn. intros Q2. apply H in Q2. apply type_eol in Q. congruence.
  - right. split; [exact B |]. cbn. intros Q. apply H in Q.
    rewrite (tail_type _ TB) in Q. congruence.
  - right. split; [destruct D as [-> | [-> | ->]]; [exact W | apply U | exact B] |]. cbn. intros Q. apply H in Q. rewrite E, U in Q. discriminate.
  - right. split; [exact B |]. cbn. intros Q. apply H in Q. rewrite E, U in Q. discriminate.
Qed.

Lemma alnum_set : plain_set is_alnum WordChar.
Proof.
  unfold plain_set. repeat (split; [reflexivity |]). intros ch. unfold WordChar. rewrite <- type_letter, <- type_digit, <- type_under.
  destruct (lexem_type ch); cbn; split; intros; try discriminate; auto; intuition discriminate.
Qed.
Lemma digit_set : plain_set is_digit_or_underscore DigitOrUnderscore.
Proof.
  unfold plain_set. repeat (split; [reflexivity |]). intros ch. unfold DigitOrUnderscore. rewrite <- type_digit, <- type_under.
  destruct (lexem_type ch); cbn; split; intros; try discriminate; auto; intuition discriminate.
Qed.

Lemma skip_while_text : forall fuel ok S x x2, plain_set ok S -> skip_while fuel ok x = LOk x2 ->
  exists w, l_rest x = w ++ l_rest x2 /\ Forall S w /\ not_next S (l_rest x2).
Proof.
  induction fuel as [| f IH]; intros ok S x x2 PS H; [discriminate |]. cbn [skip_while] in H. destruct (prefetch x) as [[c b] x1] eqn:P.
  pose proof (proj1 (prefetch_eq _ _ _ _ P)) as E. destruct (plain_char _ _ _ _ _ PS (prefetch_kind _ _ _ _ P)) as [(O & ch & B & Q) | (O & Q)]; rewrite O in H.
  - destruct (IH _ _ _ _ PS H) as (w & W & F & N). exists (ch :: w). rewrite <- E, B, W. split; [reflexivity |]. auto.
  - assert (retract x1 b = x2) as <- by congruence. exists []. cbn [retract l_rest app]. rewrite E in *. auto.
Qed.
Lemma digits_text : forall fuel x c b x1, digits fuel x = LOk (c, b, x1) ->
  exists w, l_rest x = w ++ b /\ Forall DigitOrUnderscore w /\ not_next DigitOrUnderscore b /\ char_kind b c (l_rest x1).
Proof.
  induction fuel as [| f IH]; intros x c b x1 H; [discriminate |]. cbn [digits] in H. destruct (prefetch x) as [[c0 b0] x0] eqn:P.
  pose proof (proj1 (prefetch_eq _ _ _ _ P)) as E. pose proof (prefetch_kind _ _ _ _ P) as K.
  destruct (plain_char _ _ _ _ _ digit_set K) as [(O & ch & B & Q) | (O & Q)]; rewrite O in H.
  - destruct (IH _ _ _ _ H) as (w & W & F & N & K'). exists (ch :: w). rewrite <- E, B, W. split; [reflexivity |]. auto.
  - assert (c0 = c /\ b0 = b /\ x0 = x1) as (-> & -> & ->) by (split; [| split]; congruence). exists []. rewrite <- E. auto.
Qed.

(* ---- numbers ---- *)
Lemma prefetch_stage : forall x c b x1, prefetch x = (c, b, x1) -> l_rest x = [] ++ b /\ char_kind b c (l_rest x1).
Proof. intros x c b x1 P. split; [symmetry; exact (proj1 (prefetch_eq _ _ _ _ P)) | exact (prefetch_kind _ _ _ _ P)]. Qed.
Lemma op_kind : forall l c b e, char_kind b c e -> is_op_char l c b = LOk true -> exists ch, b = ch :: e /\ In ch l.
Proof.
  intros l c b e K H. unfold is_op_char in H. destruct c; try discriminate. inversion K as [| ch t ty E T N1 N2 N3 | | | ch w e' n ty E T F D L BD |]; subst.
  - cbn in H. exists ch. split; [reflexivity |]. assert (O : one_of l ch = true) by congruence. unfold one_of in O. apply existsb_exists in O.
    destruct O as (y & I & O). apply Z.eqb_eq in O. congruence.
  - destruct D as [D | [D | D]]; discriminate.
Qed.
Lemma letter_kind : forall l c b e, char_kind b c e -> is_letter_char l c b = LOk true -> exists ch, b = ch :: e /\ In ch l.
Proof.
  intros l c b e K H. unfold is_letter_char in H. destruct c; try discriminate. inversion K as [| ch t ty E T N1 N2 N3 | | | ch w e' n ty E T F D L BD |]; subst.
  - cbn in H. exists ch. split; [reflexivity |]. assert (O : one_of l ch = true) by congruence. unfold one_of in O. apply existsb_exists in O.
    destruct O as (y & I & O). apply Z.eqb_eq in O. congruence.
  - destruct D as [D | [D | D]]; discriminate.
Qed.
(* an integer part: a digit and more digits if it is not 0 *)
Lemma number_stage : forall fuel first x c b x1, DigitOrUnderscore first ->
  (if negb (first =? 48) then digits fuel x else LOk (prefetch x)) = LOk (c, b, x1) ->
  exists w, l_rest x = w ++ b /\ LooseNumber (first :: w) /\ char_kind b c (l_rest x1).
Proof.
  intros fuel first x c b x1 D H. destruct (Z.eqb_spec first 48) as [-> | N]; cbn [negb] in H.
  - assert (P : prefetch x = (c, b, x1)) by congruence. destruct (prefetch_stage _ _ _ _ P) as (A & K). exists []. split; [exact A |].
    split; [left; reflexivity | exact K].
  - destruct (digits_text _ _ _ _ _ H) as (w & A & F & _ & K). exists w. split; [exact A |]. split; [| exact K]. right. exists first, w.
    split; [reflexivity |]. split; [| exact F]. unfold DigitOrUnderscore, DecimalDigit, Underscore in D. lia.
Qed.
Lemma loose_decimal : forall first w, DecimalDigit first -> LooseNumber (first :: w) -> DecimalNumber (first :: w).
Proof.
  intros first w D [L | (d & t & E & A & F)]; [left; exact L |]. right. exists d, t. split; [exact E |]. split; [| exact F].
  assert (first = d) by congruence. subst. unfold DecimalDigit in D. lia.
Qed.
Lemma decimal_text : forall fuel first x x2, DecimalDigit first -> collect_decimal fuel first x = LOk x2 ->
  exists w, l_rest x = w ++ l_rest x2 /\ DecimalOf LooseNumber (first :: w) /\ not_next WordChar (l_rest x2).
Proof.
  intros fuel first x x2 D H. unfold collect_decimal in H.
  destruct (if negb (first =? 48) then digits fuel x else LOk (prefetch x)) as [[[c b] x1] | | |] eqn:S1; try discriminate. cbn [bind] in H.
  apply number_stage in S1; [| left; exact D]. destruct S1 as (w1 & A1 & N1 & K1).
  destruct (is_op_char [46] c b) as [dot | | |] eqn:DT; try discriminate. cbn [bind] in H.
  destruct (if dot then digits fuel x1 else LOk (c, b, x1)) as [[[c2 b2] x3] | | |] eqn:S2; try discriminate. cbn [bind] in H.
  assert (ST2 : exists m, b = m ++ b2 /\ Optional Mantissa m /\ char_kind b2 c2 (l_rest x3)).
  { destruct dot.
    - apply (op_kind _ _ _ _ K1) in DT. destruct DT as (ch & -> & [<- | []]). apply digits_text in S2. destruct S2 as (m & A2 & F & _ & K2).
      exists (46 :: m). split; [cbn [app]; rewrite A2; reflexivity |]. split; [right; exists m; auto | exact K2].
    - assert (c = c2 /\ b = b2 /\ x1 = x3) as (-> & -> & ->) by (split; [| split]; congruence). exists []. split; [reflexivity |]. split; [left; reflexivity | exact K1]. }
  destruct ST2 as (m & A2 & M & K2). clear S2 DT K1.
  destruct (is_letter_char [101; 69; 112; 80] c2 b2) as [ex | | |] eqn:EX; try discriminate. cbn [bind] in H.
  match type of H with bind ?mm _ = _ => destruct mm as [[[c4 b4] x4] | | |] eqn:S3 end; try discriminate. cbn [bind] in H.
  destruct (is_alnum c4) eqn:AL; [discriminate |]. assert (retract x4 b4 = x2) by congruence. subst x2. clear H. cbn [retract l_rest].
  assert (ST3 : exists e, b2 = e ++ b4 /\ Optional (ExponentOf LooseNumber) e /\ char_kind b4 c4 (l_rest x4)).
  { destruct ex.
    - apply (letter_kind _ _ _ _ K2) in EX. destruct EX as (ch & -> & IC). destruct (prefetch x3) as [[c5 b5] x5] eqn:P5.
      destruct (prefetch_stage _ _ _ _ P5) as (A5 & K5). cbn [app] in A5.
      destruct (is_op_char [43; 45] c5 b5) as [sg | | |] eqn:SG; try discriminate. cbn [bind] in S3.
      destruct (if sg then prefetch x5 else (c5, b5, x5)) as [[c6 b6] x6] eqn:S6.
      assert (ST6 : exists s, b5 = s ++ b6 /\ In s [[]; [43]; [45]] /\ char_kind b6 c6 (l_rest x6)).
      { destruct sg.
        - apply (op_kind _ _ _ _ K5) in SG. destruct SG as (sc & -> & IS). destruct (prefetch_stage _ _ _ _ S6) as (A6 & K6). cbn [app] in A6.
          exists [sc]. split; [cbn [app]; rewrite A6; reflexivity |]. split; [| exact K6]. cbn in IS |- *. destruct IS as [<- | [<- | []]]; auto.
        - assert (c5 = c6 /\ b5 = b6 /\ x5 = x6) as (-> & -> & ->) by (split; [| split]; congruence). exists []. split; [reflexivity |]. split; [left; reflexivity | exact K5]. }
      destruct ST6 as (s & A6 & IS & K6).
      destruct (plain_char _ _ _ _ _ digit_set K6) as [(O & dg & B6 & DG) | (O & _)]; rewrite O in S3.
      + rewrite B6 in S3. cbn [deref bind] in S3. apply number_stage in S3; [| exact DG]. destruct S3 as (n & A7 & LN & K7).
        exists (ch :: s ++ dg :: n). split.
        * rewrite A5, A6, B6, A7. cbn [app]. rewrite <- app_assoc. reflexivity.
        * split; [| exact K7]. right. exists ch, s, (dg :: n). auto.
      + exfalso. assert (c4 = LDigit) by congruence. subst c4. discriminate.
    - assert (c2 = c4 /\ b2 = b4 /\ x3 = x4) as (-> & -> & ->) by (split; [| split]; congruence). exists []. split; [reflexivity |]. split; [left; reflexivity | exact K2]. }
  destruct ST3 as (e & A3 & EE & K4). exists (w1 ++ m ++ e). split; [rewrite A1, A2, A3, <- !app_assoc; reflexivity |]. split.
  - exists (first :: w1), m, e. split; [reflexivity |]. split; [apply loose_decimal; assumption | auto].
  - destruct (plain_char _ _ _ _ _ alnum_set K4) as [(O & _) | (_ & Q)]; [congruence | exact Q].
Qed.

Lemma skip_chars_text : forall fuel ok x x2, (forall ch, ok ch = true -> char_is_hex_or_underscore ch = true) -> skip_chars fuel ok x = LOk x2 ->
  exists w, l_rest x = w ++ l_rest x2 /\ Forall (fun c => ok c = true) w /\ not_next (fun c => ok c = true) (l_rest x2).
Proof.
  induction fuel as [| f IH]; intros ok x x2 HX H; [discriminate |]. cbn [skip_chars] in H. pf x. rewrite <- EQ in *. revert H. eofc c b; intros H.
  - exists []. assert (retract x0 [] = x2) as <- by congruence. split; [reflexivity |]. split; [constructor | exact Logic.I].
  - destruct (ok ch) eqn:O.
    + destruct (IH _ _ _ HX H) as (w & W & F & N). pose proof (prefetch_kind _ _ _ _ P) as K.
      assert (E : l_rest x0 = t).
      { pose proof (hex_type ch (HX _ O)) as T.
        inversion K as [E1 | ch' t' ty E1 T1 N1 N2 N3 | s e E1 EO | ch' t' E1 TB | ch' w' e' n ty E1 T1 F1 D1 L1 BD1 | ch' t' n E1 T1 BD1]; subst.
        - discriminate.
        - congruence.
        - assert (Q : is_eol_char ch). { unfold is_eol_char. destruct EO as [-> | [-> | [-> _]]]; cbn in E1; injection E1; auto. }
          apply type_eol in Q. rewrite Q in T. intuition discriminate.
        - injection E1 as <- <-. rewrite (tail_type _ TB) in T. intuition discriminate.
        - injection E1 as <- E1. rewrite T1 in T. intuition discriminate.
        - injection E1 as <- E1. rewrite T1 in T. intuition discriminate. }
      exists (ch :: w). rewrite E in W. rewrite W. split; [reflexivity |]. auto.
    + exists []. assert (retract x0 (ch :: t) = x2) as <- by congruence. split; [reflexivity |]. split; [constructor |]. cbn. congruence.
Qed.
Lemma radix_text : forall fuel ok e1 e2 x x2, (forall ch, ok ch = true -> char_is_hex_or_underscore ch = true) -> collect_radix fuel ok e1 e2 x = LOk x2 ->
  exists d w, l_rest x = d :: w ++ l_rest x2 /\ Forall (fun c => ok c = true) (d :: w) /\ not_next (fun c => ok c = true) (l_rest x2).
Proof.
  intros fuel ok e1 e2 x x2 HX H.
  assert (S : skip_chars (S fuel) ok x = LOk x2).
  { unfold collect_radix in H. cbn [skip_chars]. destruct (prefetch x) as [[c b] x1]. destruct (is_eof c); [discriminate |].
    destruct b as [| ch t]; [discriminate |]. cbn [deref bind] in *. destruct (ok ch); [exact H | discriminate]. }
  destruct (skip_chars_text _ _ _ _ HX S) as (w & W & F & N). destruct w as [| d w]; [| exists d, w; auto].
  exfalso. cbn [app] in W. unfold collect_radix in H. destruct (prefetch x) as [[c b] x1] eqn:P. pose proof (proj1 (prefetch_eq _ _ _ _ P)) as E.
  destruct (is_eof c); [discriminate |]. destruct b as [| ch t]; [discriminate |]. cbn [deref bind] in H. rewrite <- W, <- E in N. cbn in N.
  destruct (ok ch) eqn:O; [apply N; reflexivity | discriminate].
Qed.
