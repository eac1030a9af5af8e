(* Every token has the text which the grammar gives to its type. *)
From Coq Require Import String Ascii ZArith List Lia Bool ZifyBool.
Import ListNotations.
From Verif Require Import Base ListZ Utf8Model LexModel LexSpec LexTokens LexProofs LexProofs2 LexProofs3 LexProofs4 LexProofs5.
Local Open Scope Z_scope.
Ltac Zify.zify_post_hook ::= idtac.

Definition token_good (x : lex) (r : lres (tok * lex)) : Prop :=
  match r with
  | LOk (ty, x2) => walk x x2 /\ (ty <> TEof -> (length (l_rest x2) < length (l_rest x))%nat) /\
      exists s, l_rest x = s ++ l_rest x2 /\ token_ok ty s (l_rest x2)
  | LErr _ => True
  | _ => False
  end.

Lemma span_app : forall s e, span (s ++ e) e = s.
Proof. intros s e. unfold span. rewrite app_length. replace (length s + length e - length e)%nat with (length s) by lia. rewrite firstn_app, Nat.sub_diag, firstn_all, app_nil_r. reflexivity. Qed.
Lemma last_app : forall s c e, last_char (s ++ [c] ++ e) e = LOk c.
Proof. intros s c e. unfold last_char. rewrite app_assoc, span_app, rev_app_distr. reflexivity. Qed.

Lemma string_type_eq : forall q body x, string_type (q :: body ++ 34 :: l_rest x) x = LOk (TStr, x) /\ string_type (q :: body ++ 92 :: 40 :: l_rest x) x = LOk (TStrOpen, x).
Proof.
  intros q body x. unfold string_type. split.
  - change (q :: body ++ 34 :: l_rest x) with ((q :: body) ++ [34] ++ l_rest x). rewrite last_app. reflexivity.
  - replace (q :: body ++ 92 :: 40 :: l_rest x) with ((q :: body ++ [92]) ++ [40] ++ l_rest x) by (cbn [app]; rewrite <- app_assoc; reflexivity).
    rewrite last_app. reflexivity.
Qed.

Lemma ident_good : forall fuel x c x1 first, prefetch x = (c, first :: l_rest x1, x1) -> Letter first \/ Underscore first -> (length (l_rest x1) < fuel)%nat ->
  forall x1', same x1 x1' ->
  token_good x (do x2 <- skip_while fuel is_alnum x1';
        match find_keyword (span (first :: l_rest x1) (l_rest x2)) with
        | None => LFuel
        | Some k => LOk (if k =? 0 then TIdent else TKeyword k, x2)
        end).
Proof.
  intros fuel x c x1 first P FL L x1' (SR & SL & SC). pose proof (walk_prefetch _ _ _ _ P) as W. pose proof (proj1 (prefetch_eq _ _ _ _ P)) as E.
  pose proof (skip_while_good fuel is_alnum x1' eq_refl eq_refl ltac:(rewrite <- SR; exact L)) as G.
  destruct (skip_while fuel is_alnum x1') as [x2 | | |] eqn:SK; try contradiction; [| exact Logic.I]. cbn [bind good] in *.
  destruct (skip_while_text _ _ _ _ _ alnum_set SK) as (w & A & F & N). rewrite <- SR in A.
  replace (span (first :: l_rest x1) (l_rest x2)) with (first :: w) by (rewrite A; symmetry; apply (span_app (first :: w))).
  destruct (find_keyword_spec (first :: w)) as (k & -> & D).
  assert (WD : Word (first :: w)) by (exists first, w; auto).
  assert (W2 : walk x x2). { eapply walk_trans; [exact W |]. apply (walk_trans _ x1'); [apply walk_here; split; [exact SR | split; assumption] | exact G]. }
  assert (LL : (length (l_rest x2) < length (l_rest x))%nat) by (rewrite <- E, A; cbn; rewrite app_length; lia).
  destruct (Z.eqb_spec k 0) as [-> | NK]; (split; [exact W2 |]; split; [intros _; exact LL |]; exists (first :: w); split; [rewrite <- E, A; reflexivity |]).
  - split; [exact WD |]. split; [exact N |]. destruct D as [[_ D] | [D _]]; [exact D | lia].
  - split; [exact WD |]. split; [exact N |]. destruct D as [[D _] | D]; [contradiction | exact D].
Qed.

Lemma hexu_spec : forall c, char_is_hex_or_underscore c = true <-> HexDigit c.
Proof. intros c. unfold char_is_hex_or_underscore, char_is_hex, in_range, HexDigit, DecimalDigit, Underscore. lia. Qed.
Lemma binu_spec : forall c, char_is_bin_or_underscore c = true <-> BinaryDigit c.
Proof. intros c. unfold char_is_bin_or_underscore, BinaryDigit, Underscore. lia. Qed.
Lemma binu_hexu : forall c, char_is_bin_or_underscore c = true -> char_is_hex_or_underscore c = true.
Proof. intros c. unfold char_is_bin_or_underscore, char_is_hex_or_underscore, char_is_hex, in_range. lia. Qed.
Lemma not_next_ext : forall (P Q : Z -> Prop) l, (forall c, P c <-> Q c) -> not_next P l -> not_next Q l.
Proof. intros P Q [| c l] H N; cbn in *; [exact Logic.I |]. rewrite <- H. exact N. Qed.

Lemma radix_good : forall fuel x ch d x1 x2 c c2 ok e1 e2, prefetch x = (c, 48 :: l_rest x1, x1) -> prefetch x1 = (c2, d :: l_rest x2, x2) -> ch = 48 ->
  (ok = char_is_hex_or_underscore /\ (d = 120 \/ d = 88) \/ ok = char_is_bin_or_underscore /\ (d = 98 \/ d = 66)) -> (length (l_rest x2) < fuel)%nat ->
  token_good x (do x3 <- collect_radix fuel ok e1 e2 x2; LOk (TNum, x3)).
Proof.
  intros fuel x ch d x1 x2 c c2 ok e1 e2 P P2 CH O L.
  assert (W : walk x x2) by (eapply walk_trans; [exact (walk_prefetch _ _ _ _ P) | exact (walk_prefetch _ _ _ _ P2)]).
  pose proof (proj1 (prefetch_eq _ _ _ _ P)) as E. pose proof (proj1 (prefetch_eq _ _ _ _ P2)) as E2.
  assert (HX : forall c, ok c = true -> char_is_hex_or_underscore c = true) by (destruct O as [[-> _] | [-> _]]; [auto | apply binu_hexu]).
  pose proof (collect_radix_good fuel ok e1 e2 x2 HX L) as G. destruct (collect_radix fuel ok e1 e2 x2) as [x3 | | |] eqn:CR; try contradiction; [| exact Logic.I].
  cbn [bind good] in *. destruct (radix_text _ _ _ _ _ _ HX CR) as (h & w & A & F & N).
  split; [exact (walk_trans _ _ _ W G) |]. split; [intros _; rewrite <- E, <- E2, A; cbn; rewrite app_length; lia |].
  exists (48 :: d :: h :: w). split; [rewrite <- E, <- E2, A; reflexivity |]. right.
  destruct O as [[-> O] | [-> O]]; [left | right]; (split; [exists d, h, w; split; [reflexivity |]; split; [exact O |]; eapply Forall_impl; [| exact F] | eapply not_next_ext; [| exact N]]).
  - intros; apply hexu_spec; assumption.
  - apply hexu_spec.
  - intros; apply binu_spec; assumption.
  - apply binu_spec.
Qed.
Lemma decimal_good : forall fuel x x1 x1' first c, prefetch x = (c, first :: l_rest x1, x1) -> DecimalDigit first -> same x1 x1' -> (length (l_rest x1) < fuel)%nat ->
  token_good x (do x2 <- collect_decimal fuel first x1'; LOk (TNum, x2)).
Proof.
  intros fuel x x1 x1' first c P D S L. destruct S as (SR & SS). pose proof (proj1 (prefetch_eq _ _ _ _ P)) as E.
  pose proof (collect_decimal_good fuel first x1' ltac:(rewrite <- SR; exact L)) as G. destruct (collect_decimal fuel first x1') as [x2 | | |] eqn:CD; try contradiction; [| exact Logic.I].
  cbn [bind good] in *. destruct (decimal_text _ _ _ _ D CD) as (w & A & DO & N). rewrite <- SR in A.
  split; [eapply walk_trans; [exact (walk_prefetch _ _ _ _ P) |]; apply (walk_trans _ x1'); [apply walk_here; split; assumption | exact G] |].
  split; [intros _; rewrite <- E, A; cbn; rewrite app_length; lia |]. exists (first :: w). split; [rewrite <- E, A; reflexivity |]. left. auto.
Qed.
Lemma oper_good : forall fuel x x1 x1' first c, prefetch x = (c, first :: l_rest x1, x1) -> op_start first = true -> same x1 x1' -> (length (l_rest x1) < fuel)%nat ->
  token_good x (do r <- collect_operator fuel (first :: l_rest x1) x1'; let (op, x2) := r in LOk (TOper op, x2)).
Proof.
  intros fuel x x1 x1' first c P D S L. destruct S as (SR & SS). pose proof (proj1 (prefetch_eq _ _ _ _ P)) as E.
  destruct (collect_operator_good fuel first (l_rest x1) x1' L (eq_sym SR) D) as (op & x2 & CO & W & LO). rewrite CO. cbn [bind].
  assert (W1 : walk x x2) by (eapply walk_trans; [exact (walk_prefetch _ _ _ _ P) |]; apply (walk_trans _ x1'); [apply walk_here; split; assumption | exact W]).
  split; [exact W1 |]. pose proof (walk_len _ _ W) as WL. rewrite <- SR in WL. split; [intros _; rewrite <- E; cbn; lia |].
  destruct (walk_suf _ _ W) as (p & A). rewrite <- SR in A. exists (first :: p). split; [rewrite <- E, A; reflexivity |]. cbn [token_ok].
  assert (DO : odd_op (first :: l_rest x1) \/ ~ odd_op (first :: l_rest x1)).
  { unfold odd_op, prefix. assert (PD : forall s l : list Z, (exists t, l = s ++ t) \/ ~ exists t, l = s ++ t).
    { induction s as [| a s IH]; intros l; [left; exists l; reflexivity |]. destruct l as [| b l]; [right; intros (t & Q); discriminate |].
      destruct (Z.eq_dec a b) as [-> | NB]; [| right; intros (t & Q); cbn in Q; congruence]. destruct (IH l) as [(t & ->) | N]; [left; exists t; reflexivity |].
      right. intros (t & Q). cbn in Q. apply N. exists t. congruence. }
    destruct (PD [62; 61; 61] (first :: l_rest x1)), (PD [62; 61; 62] (first :: l_rest x1)), (PD [62; 62; 61; 61] (first :: l_rest x1)); tauto. }
  replace ((first :: p) ++ l_rest x2) with (first :: l_rest x1) by (rewrite A; reflexivity).
  destruct DO as [DO | DO]; [right; left; exact DO |]. left. destruct (LO DO) as (s & LS & B).
  replace (first :: p) with s; [exact LS |]. apply (app_inv_tail (l_rest x2)). rewrite <- B, A. reflexivity.
Qed.

Lemma same_refl : forall x, same x x.
Proof. intros x. split; [| split]; reflexivity. Qed.
Lemma same_retract : forall x c b x1, prefetch x = (c, b, x1) -> same x (retract x1 b).
Proof. intros x c b x1 P. destruct (prefetch_eq _ _ _ _ P) as (A & _ & B & C). unfold same, retract. cbn [l_rest l_line l_col]. auto. Qed.
Ltac one P K ch B T := let H := fresh in
  destruct (kind_one _ _ _ K) as (ch & B & T); [discriminate .. |]; subst.

Lemma white_good : forall fuel x b x1, prefetch x = (LWhite, b, x1) -> (length (l_rest x1) < fuel)%nat ->
  token_good x (do x2 <- skip_while fuel is_white x1; LOk (TWhite, x2)).
Proof.
  intros fuel x b x1 P L. destruct (prefetch_suf _ _ _ _ P) as (E & (p & SF) & _ & LT & _). specialize (LT ltac:(discriminate) ltac:(discriminate)).
  pose proof (skip_while_good fuel is_white x1 eq_refl eq_refl L) as G. destruct (skip_while fuel is_white x1) as [x2 | | |] eqn:SK; try contradiction; [| exact Logic.I].
  cbn [bind good] in *. destruct (white_text _ _ _ SK) as (w & A & F). pose proof (walk_len _ _ G) as WL.
  split; [exact (walk_trans _ _ _ (walk_prefetch _ _ _ _ P) G) |]. rewrite <- E. split; [intros _; lia |]. exists (p ++ w).
  rewrite SF, A, app_assoc. split; [reflexivity |]. cbn [token_ok]. intros WF. rewrite <- app_assoc, <- A, <- SF in WF.
  destruct (prefetch_eq _ _ _ _ P) as (_ & N & _). destruct (wf_step _ _ _ WF N) as (WE & _ & C). destruct (C eq_refl) as (w1 & B1 & I1).
  rewrite SF in B1. apply app_inv_tail in B1. subst p. destruct (F WE) as (l & L1 & ->). exists (w1 :: l). split; [constructor; assumption | reflexivity].
Qed.
(* a comment up to the end of the line, after its first bytes p *)
Lemma line_good : forall fuel x p x1, walk x x1 -> l_rest x = p ++ l_rest x1 -> p = [35] \/ p = [47; 47] -> (length (l_rest x1) < fuel)%nat ->
  token_good x (do x2 <- skip_while fuel in_line x1; LOk (TComment, x2)).
Proof.
  intros fuel x p x1 W E PP L. pose proof (skip_while_good fuel in_line x1 eq_refl eq_refl L) as G.
  destruct (skip_while fuel in_line x1) as [x2 | | |] eqn:SK; try contradiction; [| exact Logic.I]. cbn [bind good] in *.
  destruct (line_text _ _ _ SK) as (w & A & F & R). split; [exact (walk_trans _ _ _ W G) |].
  split; [intros _; rewrite E, A, !app_length; destruct PP as [-> | ->]; cbn; lia |]. exists (p ++ w). split; [rewrite E, A, app_assoc; reflexivity |].
  left. split; [| exact R]. split; [destruct PP as [-> | ->]; [left | right]; exists w; reflexivity |].
  apply Forall_app. split; [| exact F]. unfold is_eol_char. destruct PP as [-> | ->]; repeat constructor; lia.
Qed.
Lemma block_good : forall fuel x x1, walk x x1 -> l_rest x = [47; 42] ++ l_rest x1 -> (S (length (l_rest x1)) < fuel)%nat ->
  token_good x (do x2 <- collect_block_comment fuel x1; LOk (TComment, x2)).
Proof.
  intros fuel x x1 W E L. pose proof (block_comment_good fuel x1 L) as G.
  destruct (collect_block_comment fuel x1) as [x2 | | |] eqn:CB; try contradiction; [| exact Logic.I]. cbn [bind good] in *.
  destruct (block_text _ _ _ CB G) as (body & A & D). split; [exact (walk_trans _ _ _ W G) |].
  split; [intros _; rewrite E, A, !app_length; cbn; lia |]. exists ([47; 42] ++ body). split; [rewrite E, A, app_assoc; reflexivity |]. right.
  destruct D as [[(m & -> & N) | (N & R)] | D].
  - left. exists m. auto.
  - right. exists body. split; [reflexivity |]. left. auto.
  - right. exists body. split; [reflexivity |]. right. rewrite <- A. exact D.
Qed.
Lemma string_good : forall fuel x c x1, prefetch x = (c, 34 :: l_rest x1, x1) -> (length (l_rest x1) < fuel)%nat ->
  token_good x (do x2 <- collect_string fuel x1; string_type (34 :: l_rest x1) x2).
Proof.
  intros fuel x c x1 P L. pose proof (collect_string_good fuel x1 L) as G. pose proof (proj1 (prefetch_eq _ _ _ _ P)) as E.
  destruct (collect_string fuel x1) as [x2 | | |] eqn:CS; try contradiction; [| exact Logic.I]. cbn [bind good] in *.
  destruct (string_text _ _ _ CS) as (body & SB & [A | A]); rewrite A; destruct (string_type_eq 34 body x2) as [S1 S2]; rewrite ?S1, ?S2; cbn [token_good];
    (split; [exact (walk_trans _ _ _ (walk_prefetch _ _ _ _ P) G) |]; rewrite <- E, A; split; [intros _; cbn; rewrite app_length; cbn; lia |]).
  - exists (34 :: body ++ [34]). split; [cbn [app]; rewrite <- app_assoc; reflexivity |]. left. eauto.
  - exists (34 :: body ++ [92; 40]). split; [cbn [app]; rewrite <- app_assoc; reflexivity |]. exists body. auto.
Qed.
Lemma raw_good : forall fuel x c x1 r c2 x2, prefetch x = (c, r :: l_rest x1, x1) -> r = 114 \/ r = 82 -> prefetch x1 = (c2, 34 :: l_rest x2, x2) -> (length (l_rest x2) < fuel)%nat ->
  token_good x (do x3 <- collect_raw_string fuel x2; LOk (TStr, x3)).
Proof.
  intros fuel x c x1 r c2 x2 P R P2 L. pose proof (collect_raw_string_good fuel x2 L) as G.
  pose proof (proj1 (prefetch_eq _ _ _ _ P)) as E. pose proof (proj1 (prefetch_eq _ _ _ _ P2)) as E2.
  destruct (collect_raw_string fuel x2) as [x3 | | |] eqn:CS; try contradiction; [| exact Logic.I]. cbn [bind good] in *.
  destruct (raw_text _ _ _ CS) as (body & RB & A).
  split; [exact (walk_trans _ _ _ (walk_prefetch _ _ _ _ P) (walk_trans _ _ _ (walk_prefetch _ _ _ _ P2) G)) |].
  rewrite <- E, <- E2, A. split; [intros _; cbn; rewrite app_length; cbn; lia |]. exists (r :: 34 :: body ++ [34]).
  split; [cbn [app]; rewrite <- app_assoc; reflexivity |]. right. eauto 6.
Qed.

Theorem any_token_good : forall fuel x, (length (l_rest x) < fuel)%nat -> token_good x (any_token fuel x).
Proof.
  intros fuel x L. unfold any_token. destruct (prefetch x) as [[c b] x1] eqn:P. destruct (prefetch_eq _ _ _ _ P) as (E & N & _).
  pose proof (prefetch_kind _ _ _ _ P) as K. pose proof (walk_prefetch _ _ _ _ P) as W. pose proof (walk_len _ _ W) as WL.
  destruct c; try exact Logic.I.
  all: match goal with |- context [LOk (TWhite, _)] => apply (white_good fuel x b x1 P); lia | _ => idtac end.
  (* all other tokens but the end of a line and the end start with one byte *)
  all: match type of K with
       | char_kind _ LEol _ => idtac
       | char_kind _ LEof _ => idtac
       | _ => destruct (kind_one _ _ _ K) as (ch & -> & T); [discriminate .. |]; cbn [deref bind]
       end.
  - (* comment *) assert (ch = 35) by (clear - T; ltype; try discriminate; lia). subst ch. apply (line_good fuel x [35] x1); [exact W | symmetry; exact E | left; reflexivity | lia].
  - (* separator *) split; [exact W |]. rewrite <- E. split; [intros _; cbn; lia |]. exists [ch]. split; [reflexivity |]. exists ch. split; [reflexivity |].
    assert (D : In ch [40; 41; 44; 58; 59; 91; 93; 123; 125]) by (clear - T; unfold In; ltype; try discriminate; lia).
    cbn [In] in D. repeat (destruct D as [<- | D]; [cbn; auto 12 |]). contradiction.
  - (* operator *) apply (oper_good fuel x x1 x1 ch LOp P); [| apply same_refl | rewrite <- E in L; cbn in L; lia].
    clear - T. unfold op_start, opc, one_of. cbn [existsb]. ltype; try discriminate; lia.
  - (* slash *) assert (ch = 47) by (clear - T; ltype; try discriminate; lia). subst ch. destruct (prefetch x1) as [[c2 b2] x2] eqn:P2.
    destruct (prefetch_suf _ _ _ _ P2) as (E2 & _ & NE2 & _ & EF2). pose proof (prefetch_kind _ _ _ _ P2) as K2. pose proof (walk_prefetch _ _ _ _ P2) as W2.
    pose proof (walk_len _ _ W2) as WL2. rewrite <- E in L. cbn in L.
    destruct (eof_cases c2 b2 NE2) as [(A & -> & ->) | (A & B & d & t & ->)]; rewrite ?A; cbn [is_eof].
    { specialize (EF2 eq_refl). cbn [token_good]. split; [exact (walk_trans _ _ _ W W2) |]. rewrite <- E, <- E2, EF2. split; [intros _; cbn; lia |].
      exists [47]. split; [reflexivity |]. right; right. auto. }
    destruct (is_slash c2) eqn:SL.
    { destruct c2; try discriminate. destruct (kind_one _ _ _ K2) as (d' & D & T2); [discriminate .. |]. injection D as <- ->.
      assert (d = 47) by (clear - T2; ltype; try discriminate; lia). subst d.
      apply (line_good fuel x [47; 47] x2); [exact (walk_trans _ _ _ W W2) | rewrite <- E, <- E2; reflexivity | right; reflexivity | lia]. }
    cbn [deref bind]. destruct (Z.eqb_spec d 42) as [-> | ND].
    { destruct (prefetch_plain _ _ _ _ _ P2 ltac:(lia)) as [R2 _]. subst t. rewrite <- E2 in L. cbn in L.
      apply (block_good fuel x x2); [exact (walk_trans _ _ _ W W2) | rewrite <- E, <- E2; reflexivity | lia]. }
    apply (oper_good fuel x x1 (retract x2 (d :: t)) 47 LSlash P); [reflexivity | eapply same_retract; exact P2 | lia].
  - (* string *) assert (ch = 34) by (clear - T; ltype; try discriminate; lia). subst ch. apply (string_good fuel x LString x1 P). rewrite <- E in L. cbn in L. lia.
  - (* number *) apply type_digit in T. rewrite <- E in L. cbn in L. destruct (Z.eqb_spec ch 48) as [-> | N0].
    2: { apply (decimal_good fuel x x1 x1 ch LDigit P T); [apply same_refl | lia]. }
    destruct (prefetch x1) as [[c2 b2] x2] eqn:P2. destruct (prefetch_suf _ _ _ _ P2) as (E2 & _ & NE2 & _ & EF2). pose proof (walk_prefetch _ _ _ _ P2) as W2.
    pose proof (walk_len _ _ W2) as WL2.
    assert (DEC : token_good x (do x3 <- collect_decimal fuel 48 (retract x2 b2); LOk (TNum, x3))).
    { apply (decimal_good fuel x x1 (retract x2 b2) 48 LDigit P T); [eapply same_retract; exact P2 | lia]. }
    destruct (eof_cases c2 b2 NE2) as [(A & -> & ->) | (A & B & d & t & ->)]; rewrite ?A; cbn [is_eof]; [exact DEC |]. cbn [deref bind].
    destruct ((d =? 120) || (d =? 88)) eqn:DX.
    { destruct (prefetch_plain _ _ _ _ _ P2 ltac:(lia)) as [R2 _]. subst t. eapply (radix_good fuel x 48 d x1 x2); [exact P | exact P2 | reflexivity | left; split; [reflexivity | lia] | lia]. }
    destruct ((d =? 98) || (d =? 66)) eqn:DB; [| exact DEC].
    destruct (prefetch_plain _ _ _ _ _ P2 ltac:(lia)) as [R2 _]. subst t. eapply (radix_good fuel x 48 d x1 x2); [exact P | exact P2 | reflexivity | right; split; [reflexivity | lia] | lia].
  - (* letter *) apply type_letter in T. rewrite <- E in L. cbn in L.
    assert (ID : forall x1', same x1 x1' -> token_good x (do x2 <- skip_while fuel is_alnum x1';
      match find_keyword (span (ch :: l_rest x1) (l_rest x2)) with Some k => LOk (if k =? 0 then TIdent else TKeyword k, x2) | None => LFuel end)).
    { intros x1' S. apply (ident_good fuel x LLetter x1 ch P (or_introl T)); [lia | exact S]. }
    destruct ((ch =? 114) || (ch =? 82)) eqn:R; [| apply ID, same_refl].
    destruct (prefetch x1) as [[c2 b2] x2] eqn:P2. pose proof (prefetch_kind _ _ _ _ P2) as K2. pose proof (same_retract _ _ _ _ P2) as SR.
    pose proof (walk_len _ _ (walk_prefetch _ _ _ _ P2)) as WL2.
    destruct c2; try exact (ID _ SR).
    destruct (kind_one _ _ _ K2) as (d & -> & T2); [discriminate .. |]. assert (d = 34) by (clear - T2; ltype; try discriminate; lia). subst d.
    eapply (raw_good fuel x); [exact P | lia | exact P2 | lia].
  - (* underscore *) apply type_under in T. rewrite <- E in L. cbn in L. apply (ident_good fuel x LUnder x1 ch P (or_intror T)); [lia | apply same_refl].
  - (* end of a line *) apply kind_eol in K. destruct K as (s & B & EO). split; [exact W |]. rewrite <- E, B. split; [| exists s; auto].
    intros _. rewrite app_length. destruct EO as [-> | [-> | [-> _]]]; cbn; lia.
  - (* end *) apply kind_eof in K. destruct K as [-> B]. split; [exact W |]. split; [congruence |]. exists []. rewrite <- E, B. cbn. auto.
Qed.
Theorem continue_good : forall fuel x, (length (l_rest x) < fuel)%nat ->
  match continue_token fuel x with
  | LOk (ty, x2) => walk x x2 /\ exists s, l_rest x = s ++ l_rest x2 /\ string_rest_ok ty s
  | LErr _ => True
  | _ => False
  end.
Proof.
  intros fuel x L. unfold continue_token. destruct (l_rest x) as [| c t] eqn:R; [exact Logic.I |]. destruct (Z.eqb_spec c 41) as [-> | N]; cbn [negb]; [| exact Logic.I].
  rewrite <- R in L. pose proof (collect_string_good fuel x L) as G. destruct (collect_string fuel x) as [x2 | | |] eqn:CS; try contradiction; [| exact Logic.I].
  cbn [bind good] in *. destruct (string_text _ _ _ CS) as (body & SB & D).
  assert (B : exists body', body = 41 :: body' /\ StringBody body').
  { inversion SB as [| c l A1 A2 A3 S1 EQ | e l ES S1 EQ]; subst.
    - rewrite R in D. destruct D as [D | D]; cbn in D; congruence.
    - exists l. split; [| exact S1]. rewrite R in D. destruct D as [D | D]; cbn in D; congruence.
    - rewrite R in D. destruct D as [D | D]; cbn in D; congruence. }
  destruct B as (body' & -> & SB'). rewrite R in D. cbn [app] in D.
  destruct D as [D | D]; rewrite D; destruct (string_type_eq 41 body' x2) as [S1 S2]; rewrite ?S1, ?S2; (split; [exact G |]).
  - exists (41 :: body' ++ [34]). split; [cbn [app]; rewrite <- app_assoc; reflexivity |]. exists body'. auto.
  - exists (41 :: body' ++ [92; 40]). split; [cbn [app]; rewrite <- app_assoc; reflexivity |]. exists body'. auto.
Qed.

Lemma tokens_tiles : forall T fuel before x ts, (length (l_rest x) < fuel)%nat -> T = before ++ l_rest x -> Pos T x -> tokens_from fuel x = LOk ts -> Tiles before (l_rest x) ts.
Proof.
  intros T. induction fuel as [| f IH]; intros before x ts L TE PS H; [discriminate |]. cbn [tokens_from] in H. unfold next_token in H.
  pose proof (any_token_good (S (length (l_rest x))) x ltac:(lia)) as G. destruct (any_token (S (length (l_rest x))) x) as [[ty x1] | | |] eqn:AT; try discriminate.
  cbn [bind token_good] in *. destruct G as (W & LT & s & A & TK). destruct (0xFFFF <? len (l_rest x) - len (l_rest x1)) eqn:BIG; [discriminate |]. cbn [bind t_type] in H.
  assert (LS : len (l_rest x) - len (l_rest x1) = Z.of_nat (length s)) by (rewrite A, len_app; unfold len; lia).
  assert (DE : ty = TEof \/ ty <> TEof) by (destruct ty; (left; reflexivity) || (right; discriminate)).
  destruct DE as [-> | NE].
  - destruct TK as [-> R]. assert (ts = [mktok (l_rest x) TEof (len (l_rest x) - len (l_rest x1)) (l_line x) (l_col x)]) as -> by congruence.
    cbn [app] in A. rewrite A, R in *. apply tiles_eof; [reflexivity | reflexivity | cbn; reflexivity].
  - assert (H' : (do ts <- tokens_from f x1; LOk (mktok (l_rest x) ty (len (l_rest x) - len (l_rest x1)) (l_line x) (l_col x) :: ts)) = LOk ts) by (destruct ty; exact H || congruence).
    clear H. destruct (tokens_from f x1) as [ts' | | |] eqn:TF; try discriminate. cbn [bind] in H'.
    assert (ts = mktok (l_rest x) ty (len (l_rest x) - len (l_rest x1)) (l_line x) (l_col x) :: ts') as -> by congruence. clear H'.
    specialize (LT NE). rewrite LS in *.
    assert (NS : s <> []) by (intros ->; rewrite A in LT; cbn in LT; lia).
    (* the position: the text of a token does not start with a continuation byte *)
    assert (PO : position_ok before (l_line x) (l_col x) /\ ~ splits_eol before (l_rest x)).
    { destruct PS as [ST | (before' & TE' & PO & SP)].
      - exfalso. rewrite A in ST. destruct s as [| c0 s]; [congruence |]. cbn in ST. unfold any_token in AT. destruct (prefetch x) as [[c b] xx] eqn:P.
        destruct (prefetch_eq _ _ _ _ P) as (E & N & _). rewrite E, A in N. cbn [app next_char] in N. rewrite (tail_type _ ST) in N.
        assert (c = LBadUtf8) as -> by congruence. discriminate.
      - assert (before' = before) as -> by (rewrite TE' in TE; exact (app_inv_tail _ _ _ TE)). auto. }
    destruct PO as [PO SP].
    replace (l_rest x) with (s ++ l_rest x1) at 1 by (symmetry; exact A).
    apply tiles_cons; cbn [t_begin t_type t_len t_line t_col]; [exact NS | exact NE | exact TK | exact A | reflexivity | lia | exact PO | rewrite <- A; exact SP |].
    apply (IH (before ++ s) x1 ts'); [lia | rewrite <- app_assoc, <- A; exact TE | exact (walk_pos _ _ _ W PS) | exact TF].
Qed.
Lemma tokens_total : forall fuel x, (length (l_rest x) < fuel)%nat -> match tokens_from fuel x with LOk _ | LErr _ => True | _ => False end.
Proof.
  induction fuel as [| f IH]; intros x L; [lia |]. cbn [tokens_from]. unfold next_token.
  pose proof (any_token_good (S (length (l_rest x))) x ltac:(lia)) as G. destruct (any_token (S (length (l_rest x))) x) as [[ty x1] | | |] eqn:AT; try contradiction; [| exact Logic.I].
  cbn [bind token_good] in *. destruct G as (W & LT & s & A & TK). destruct (0xFFFF <? len (l_rest x) - len (l_rest x1)); [exact Logic.I |]. cbn [bind t_type].
  assert (R : ty <> TEof -> match tokens_from f x1 with LOk _ | LErr _ => True | _ => False end) by (intros NE; apply IH; specialize (LT NE); lia).
  destruct ty; try exact Logic.I; specialize (R ltac:(discriminate)); destruct (tokens_from f x1); exact R.
Qed.
