(* Words, operators and strings of the grammar are taken as tokens. *)
From Coq Require Import String Ascii ZArith List Lia Bool ZifyBool.
Import ListNotations.
From Verif Require Import Base ListZ Utf8Model LexModel LexSpec LexTokens LexProofs LexProofs2 LexProofs3 LexProofs4 LexProofs5 LexProofs6.
Local Open Scope Z_scope.
Ltac Zify.zify_post_hook ::= idtac.

Lemma skip_while_no_error : forall fuel ok x e, skip_while fuel ok x <> LErr e.
Proof. induction fuel as [| f IH]; intros ok x e; [discriminate |]. cbn [skip_while]. destruct (prefetch x) as [[c b] x1]. destruct (ok c); [apply IH | discriminate]. Qed.
Lemma same_end : forall (P : Z -> Prop) a b r q, (forall c, P c \/ ~ P c) -> Forall P a -> Forall P b -> not_next P r -> not_next P q -> a ++ r = b ++ q -> a = b /\ r = q.
Proof.
  intros P a. induction a as [| c a IH]; intros b r q D A B R Q E.
  - destruct b as [| d b]; [auto |]. exfalso. cbn in E. subst r. inversion B; subst. apply R. assumption.
  - destruct b as [| d b].
    + exfalso. cbn in E. subst q. inversion A; subst. apply Q. assumption.
    + cbn in E. injection E as -> E. inversion A; inversion B; subst. destruct (IH b r q D H2 H6 R Q E) as [-> ->]. auto.
Qed.
Lemma word_dec : forall c, WordChar c \/ ~ WordChar c.
Proof. intros c. unfold WordChar, Letter, DecimalDigit, Underscore. lia. Qed.
Lemma word_forall : forall s, Word s -> Forall WordChar s.
Proof. intros s (c & t & -> & [A | A] & F); (constructor; [| exact F]); unfold WordChar; auto. Qed.

(* the token which is found, when its text is s *)
Definition found (x : lex) (ty : tok) (s rest : list Z) : Prop :=
  exists x1, next_token false x = LOk (mktok (s ++ rest) ty (Z.of_nat (length s)) (l_line x) (l_col x), x1) /\ l_rest x1 = rest /\ walk x x1.
Lemma found_of : forall x ty s rest x1, l_rest x = s ++ rest -> any_token (S (length (l_rest x))) x = LOk (ty, x1) -> l_rest x1 = rest -> walk x x1 ->
  Z.of_nat (length s) <= 0xFFFF -> found x ty s rest.
Proof.
  intros x ty s rest x1 R A B W L. exists x1. unfold next_token. rewrite A. cbn [bind].
  assert (LS : len (l_rest x) - len (l_rest x1) = Z.of_nat (length s)) by (rewrite R, B, len_app; unfold len; lia). rewrite LS.
  replace (0xFFFF <? Z.of_nat (length s)) with false by lia. rewrite R. auto.
Qed.

Lemma next_ascii : forall c r, 0 <= c < 128 -> ~ is_eol_char c -> next_char (c :: r) = (lexem_type c, r).
Proof.
  intros c r R N. cbn [next_char]. destruct (lexem_type c) eqn:T; try reflexivity.
  - exfalso. apply N, type_eol. exact T.
  - exfalso. apply type_tail in T. unfold tail_byte in T. lia.
  - exfalso. apply type_utf in T. lia.
Qed.
Lemma prefetch_next : forall x c e, next_char (l_rest x) = (c, e) -> exists x1, prefetch x = (c, l_rest x, x1) /\ l_rest x1 = e.
Proof.
  intros x c e N. destruct (prefetch x) as [[c' b] x1] eqn:P. destruct (prefetch_eq _ _ _ _ P) as (E & N' & _). subst b. rewrite N in N'.
  exists x1. split; congruence.
Qed.

(* words *)
Theorem word_found : forall x s rest, l_rest x = s ++ rest -> Word s -> not_next WordChar rest -> Z.of_nat (length s) <= 0xFFFF ->
  ~ ((s = [114] \/ s = [82]) /\ exists t, rest = 34 :: t) ->
  exists ty, found x ty s rest /\ ((ty = TIdent /\ ~ In s keyword_list) \/ exists k, ty = TKeyword k /\ is_keyword s k).
Proof.
  intros x s rest R W N L NR. pose proof (any_token_good (S (length (l_rest x))) x ltac:(lia)) as G.
  assert (A : exists ty x1, any_token (S (length (l_rest x))) x = LOk (ty, x1) /\ (ty = TIdent \/ exists k, ty = TKeyword k)).
  { destruct W as (c & t & -> & FL & F). unfold any_token.
    assert (RC : 0 <= c < 128 /\ ~ is_eol_char c) by (unfold Letter, Underscore, is_eol_char in *; lia).
    destruct (prefetch_next x _ _ (eq_trans (f_equal next_char R) (next_ascii c (t ++ rest) (proj1 RC) (proj2 RC)))) as (x1 & P & R1).
    rewrite P, R. set (fuel := S (length ((c :: t) ++ rest))).
    assert (ID : forall x1', same x1 x1' -> exists ty x2, (do x2 <- skip_while fuel is_alnum x1';
      match find_keyword (span ((c :: t) ++ rest) (l_rest x2)) with Some k => LOk (if k =? 0 then TIdent else TKeyword k, x2) | None => LFuel end) = LOk (ty, x2) /\
      (ty = TIdent \/ exists k, ty = TKeyword k)).
    { intros x1' (SR & _). pose proof (skip_while_good fuel is_alnum x1' eq_refl eq_refl) as SG.
      assert (LF : (length (l_rest x1') < fuel)%nat) by (rewrite <- SR, R1; unfold fuel; cbn; lia). specialize (SG LF).
      pose proof (skip_while_no_error fuel is_alnum x1') as SE. destruct (skip_while fuel is_alnum x1') as [x2 | e | |]; try contradiction; [| exfalso; exact (SE e eq_refl)].
      cbn [bind]. destruct (find_keyword_spec (span ((c :: t) ++ rest) (l_rest x2))) as (k & -> & _). exists (if k =? 0 then TIdent else TKeyword k), x2.
      split; [reflexivity |]. destruct (k =? 0); eauto. }
    destruct FL as [FL | FL].
    - replace (lexem_type c) with LLetter by (symmetry; apply type_letter; exact FL). cbn [app deref bind].
      destruct ((c =? 114) || (c =? 82)) eqn:CR; [| apply ID, same_refl]. destruct (prefetch x1) as [[c2 b2] x2] eqn:P2.
      pose proof (same_retract _ _ _ _ P2) as SR. pose proof (prefetch_kind _ _ _ _ P2) as K2. destruct c2; try exact (ID _ SR).
      exfalso. destruct (kind_one _ _ _ K2) as (d & B2 & T2); [discriminate .. |]. assert (d = 34) by (clear - T2; ltype; try discriminate; lia). subst d.
      pose proof (proj1 (prefetch_eq _ _ _ _ P2)) as E2. rewrite R1, B2 in E2. destruct t as [| d t].
      + apply NR. cbn in E2. split; [assert (c = 114 \/ c = 82) as [-> | ->] by lia; auto | eauto].
      + cbn in E2. injection E2 as <- _. inversion F as [| ? ? F1 _]; subst. clear - F1. unfold WordChar, Letter, DecimalDigit, Underscore in F1. lia.
    - replace (lexem_type c) with LUnder by (symmetry; apply type_under; exact FL). apply ID, same_refl. }
  destruct A as (ty & x1 & A & TY). rewrite A in G. destruct G as (WK & _ & s' & R' & TK).
  assert (SW : Word s' /\ not_next WordChar (l_rest x1)) by (destruct TY as [-> | (k & ->)]; destruct TK as (TK1 & TK2 & _); split; assumption). destruct SW as [SW SN].
  rewrite R in R'. destruct (same_end WordChar _ _ _ _ word_dec (word_forall _ W) (word_forall _ SW) N SN R') as [<- RR].
  exists ty. split; [eapply found_of; eauto |]. destruct TY as [-> | (k & ->)]; destruct TK as (_ & _ & TK3); [left; auto | right; exists k; auto].
Qed.

(* operators *)
Lemma longest_unique : forall text s op s' op', longest_operator text s op -> longest_operator text s' op' -> s = s'.
Proof.
  intros text s op s' op' (A & (p & B) & C) (A' & (p' & B') & C').
  assert (L : length s = length s').
  { pose proof (C _ _ A' (ex_intro _ p' B')). pose proof (C' _ _ A (ex_intro _ p B)). lia. }
  rewrite B' in B. clear - L B. revert s' L B. induction s as [| c s IH]; intros [| c' s'] L B; try discriminate; [reflexivity |]. cbn in *. f_equal; [congruence |].
  apply IH; [lia | congruence].
Qed.
Lemma operator_code : forall s op op', In (s, op) operators -> In (s, op') operators -> op = op'.
Proof.
  assert (H : forallb (fun p => forallb (fun q => implb (if list_eq_dec Z.eq_dec (fst p) (fst q) then true else false) (snd p =? snd q)) operators) operators = true) by (vm_compute; reflexivity).
  intros s op op' A B. rewrite forallb_forall in H. specialize (H _ A). rewrite forallb_forall in H. specialize (H _ B). cbn [fst snd] in H.
  destruct (list_eq_dec Z.eq_dec s s); [| congruence]. cbn in H. lia.
Qed.
Lemma operator_chars : forall s op, In (s, op) operators -> exists c t, s = c :: t /\ op_start c = true /\ (length s <= 4)%nat.
Proof.
  intros s op I. assert (H : forallb (fun p => match fst p with c :: _ => op_start c && (length (fst p) <=? 4)%nat | [] => false end) operators = true) by (vm_compute; reflexivity).
  rewrite forallb_forall in H. specialize (H _ I). cbn [fst] in H. destruct s as [| c t]; [discriminate |]. exists c, t. apply andb_true_iff in H. destruct H as [A B].
  apply Nat.leb_le in B. auto.
Qed.
Theorem operator_found : forall x s rest op, l_rest x = s ++ rest -> longest_operator (s ++ rest) s op -> ~ odd_op (s ++ rest) -> ~ prefix [47; 47] (s ++ rest) -> ~ prefix [47; 42] (s ++ rest) ->
  s ++ rest <> [47] -> found x (TOper op) s rest.
Proof.
  intros x s rest op R LO NO N1 N2 N3. destruct (operator_chars _ _ (proj1 LO)) as (c & t & -> & OS & L4). cbn [app] in *.
  assert (RC : 0 <= c < 128 /\ ~ is_eol_char c) by (clear - OS; unfold op_start, opc, one_of, is_eol_char in *; cbn [existsb] in OS; lia).
  destruct (prefetch_next x _ _ (eq_trans (f_equal next_char R) (next_ascii c (t ++ rest) (proj1 RC) (proj2 RC)))) as (x1 & P & R1). rewrite R in P.
  assert (H : forall x1', same x1 x1' -> exists x2, (do r <- collect_operator (S (length (l_rest x))) (c :: t ++ rest) x1'; let (op, x2) := r in LOk (TOper op, x2)) = LOk (TOper op, x2) /\ l_rest x2 = rest /\ walk x x2).
  { intros x1' SA. pose proof SA as (SR & _). rewrite R1 in SR.
    destruct (collect_operator_good (S (length (l_rest x))) c (t ++ rest) x1' ltac:(rewrite R; cbn; lia) (eq_sym SR) OS) as (op' & x2 & CO & W & LO').
    destruct (LO' NO) as (s' & LS & B). pose proof (longest_unique _ _ _ _ _ LO LS) as <-. pose proof (operator_code _ _ _ (proj1 LO) (proj1 LS)) as <-.
    rewrite CO. exists x2. split; [reflexivity |]. split; [symmetry; exact (app_inv_head (c :: t) _ _ B) |].
    exact (walk_trans _ _ _ (walk_prefetch _ _ _ _ P) (walk_trans _ _ _ (walk_here _ _ SA) W)). }
  assert (AT : exists x2, any_token (S (length (l_rest x))) x = LOk (TOper op, x2) /\ l_rest x2 = rest /\ walk x x2).
  { unfold any_token. rewrite P. destruct (Z.eq_dec c 47) as [-> | N47].
    - cbn [lexem_type in_range andb Z.leb Z.compare Pos.compare Pos.compare_cont CompOpp Z.eqb Pos.eqb]. change (lexem_type 47) with LSlash. cbv iota.
      destruct (prefetch x1) as [[c2 b2] x2] eqn:P2. pose proof (same_retract _ _ _ _ P2) as SR. destruct (prefetch_suf _ _ _ _ P2) as (E2 & _ & NE2 & _ & _).
      pose proof (prefetch_kind _ _ _ _ P2) as K2.
      destruct (eof_cases c2 b2 NE2) as [(A & -> & ->) | (A & B & d & u & ->)]; rewrite ?A; cbn [is_eof].
      { exfalso. apply N3. rewrite <- R1, <- E2. reflexivity. }
      destruct (is_slash c2) eqn:SL.
      { exfalso. destruct c2; try discriminate. destruct (kind_one _ _ _ K2) as (d' & D & T2); [discriminate .. |]. injection D as <- ->.
        assert (d = 47) by (clear - T2; ltype; try discriminate; lia). subst d. apply N1. exists (l_rest x2). rewrite <- R1, <- E2. reflexivity. }
      cbn [deref bind]. destruct (Z.eqb_spec d 42) as [-> | ND]; [exfalso; apply N2; exists u; rewrite <- R1, <- E2; reflexivity |].
      apply H. exact SR.
    - replace (lexem_type c) with LOp by (symmetry; clear - OS N47; unfold op_start, opc, one_of in OS; cbn [existsb] in OS; ltype; try reflexivity; lia).
      apply H. apply same_refl. }
  destruct AT as (x2 & AT & RR & W). eapply (found_of x (TOper op) (c :: t)); [exact R | exact AT | exact RR | exact W | cbn [length] in *; lia].
Qed.

(* ---- strings ---- *)
Lemma multi_next : forall a t m, 194 <= a <= 247 -> m = Z.to_nat (utf_len a - 1) -> (m <= length t)%nat ->
  forall code e', tails m (lead a) t = (true, code, e') -> next_char (a :: t) = (if is_space_code code then LWhite else LUtf (utf_len a), e').
Proof.
  intros a t m R M L code e' T. cbn [next_char]. destruct (lead_spec _ R) as [LT LD]. rewrite LT, LD. rewrite <- M. rewrite T.
  assert (U : 2 <= utf_len a <= 4) by (unfold utf_len; destruct (a <? 224), (a <? 240); lia).
  replace (len (a :: t) <? utf_len a) with false by (rewrite len_cons; unfold len; lia). destruct (is_space_code code); reflexivity.
Qed.
Definition body_char (c : Z) (ty : lt) : Prop := ty <> LEof /\ ty <> LBadUtf8 /\ ty <> LEol /\ (ty = LString -> c = 34) /\ (ty = LBackslash -> c = 92).
Lemma wf_char : forall c l, well_formed (c :: l) -> ~ is_eol_char c -> exists w l', l = w ++ l' /\ Forall tail_byte w /\ well_formed l' /\
  forall r, exists ty, next_char (c :: l ++ r) = (ty, l' ++ r) /\ body_char c ty.
Proof.
  intros c l W N. assert (BC : forall code, body_char c (if is_space_code code then LWhite else LUtf (utf_len c))).
  { intros code. unfold body_char. destruct (is_space_code code); repeat split; discriminate. }
  inversion W as [| a t R W' E | a b t R TB W' E | a b x t R M TB TX W' E | a b x y t R M TB TX TY W' E]; subst.
  - exists [], l. split; [reflexivity |]. split; [constructor |]. split; [exact W' |]. intros r. exists (lexem_type c).
    split; [apply next_ascii; assumption |]. split; [apply type_not_eof |]. split; [apply type_not_bad |]. split; [rewrite type_eol; exact N |].
    split; intros T; clear - T; ltype; try discriminate; lia.
  - exists [b], t. split; [reflexivity |]. split; [repeat (apply Forall_cons; [assumption |]); apply Forall_nil |]. split; [exact W' |]. intros r. eexists.
    assert (U : utf_len c = 2) by (unfold utf_len; destruct (c <? 224) eqn:?; lia). assert (D : lead c = c - 192) by (unfold lead; destruct (c <? 224) eqn:?; lia).
    split; [apply (multi_next c ((b :: t) ++ r) 1); [lia | rewrite U; reflexivity | cbn; lia | rewrite D; cbn [app]; rewrite tails_cons by (assumption || lia); reflexivity] |]. apply BC.
  - exists [b; x], t. split; [reflexivity |]. split; [repeat (apply Forall_cons; [assumption |]); apply Forall_nil |]. split; [exact W' |]. intros r. eexists.
    assert (U : utf_len c = 3) by (unfold utf_len; destruct (c <? 224) eqn:?, (c <? 240) eqn:?; lia). assert (D : lead c = c - 224) by (unfold lead; destruct (c <? 224) eqn:?, (c <? 240) eqn:?; lia).
    split; [apply (multi_next c ((b :: x :: t) ++ r) 2); [lia | rewrite U; reflexivity | cbn; lia | rewrite D; cbn [app]; unfold tail_byte in *; rewrite !tails_cons by (assumption || (unfold tail_byte in *; lia)); reflexivity] |]. apply BC.
  - exists [b; x; y], t. split; [reflexivity |]. split; [repeat (apply Forall_cons; [assumption |]); apply Forall_nil |]. split; [exact W' |]. intros r. eexists.
    assert (U : utf_len c = 4) by (unfold utf_len; destruct (c <? 224) eqn:?, (c <? 240) eqn:?; lia). assert (D : lead c = c - 240) by (unfold lead; destruct (c <? 224) eqn:?, (c <? 240) eqn:?; lia).
    split; [apply (multi_next c ((b :: x :: y :: t) ++ r) 3); [lia | rewrite U; reflexivity | cbn; lia | rewrite D; cbn [app]; unfold tail_byte in *; rewrite !tails_cons by (assumption || (unfold tail_byte in *; lia)); reflexivity] |]. apply BC.
Qed.
Lemma wf_plain : forall c l, well_formed (c :: l) -> c < 128 -> well_formed l /\ 0 <= c.
Proof. intros c l W R. inversion W; subst; try lia. split; [assumption | lia]. Qed.
Lemma body_tails : forall w l, Forall tail_byte w -> StringBody (w ++ l) -> StringBody l.
Proof.
  induction 1 as [| c w T F IH]; intros S; [exact S |]. apply IH. unfold tail_byte in T. inversion S; subst; [assumption | lia].
Qed.

Lemma hex_ascii : forall h, HexChar h -> 0 <= h < 128 /\ ~ is_eol_char h /\ char_is_hex h = true /\ h <> 125 /\ h <> 123.
Proof. intros h H. split; [| split; [| split; [apply hex_char; exact H |]]]; unfold HexChar, DecimalDigit, is_eol_char in *; lia. Qed.
Lemma next_one : forall x c r, l_rest x = c :: r -> 0 <= c < 128 -> ~ is_eol_char c -> exists x1, prefetch x = (lexem_type c, c :: r, x1) /\ l_rest x1 = r.
Proof. intros x c r E R N. rewrite <- E. apply prefetch_next. rewrite E. apply next_ascii; assumption. Qed.
Lemma hex_eof : forall h, is_eof (lexem_type h) = false.
Proof. intros h. destruct (lexem_type h) eqn:T; try reflexivity. exfalso. exact (type_not_eof _ T). Qed.
Lemma esc_braces_complete : forall hs fuel x count r, Forall HexChar hs -> l_rest x = hs ++ 125 :: r -> (length hs < fuel)%nat ->
  exists x1, esc_braces fuel x count = LOk (count + len hs, x1) /\ l_rest x1 = r.
Proof.
  induction hs as [| h hs IH]; intros fuel x count r F E L; (destruct fuel as [| fuel]; [cbn in L; lia |]); cbn [esc_braces].
  - destruct (next_one x 125 r E ltac:(lia) ltac:(unfold is_eol_char; lia)) as (x1 & P & R). rewrite P, hex_eof. cbn [deref bind Z.eqb Pos.eqb].
    exists x1. change (len (@nil Z)) with 0. rewrite Z.add_0_r. auto.
  - inversion F as [| ? ? H1 F1]; subst. destruct (hex_ascii _ H1) as (A & B & C & D & _).
    destruct (next_one x h (hs ++ 125 :: r) E A B) as (x1 & P & R). rewrite P, hex_eof. cbn [deref bind]. rewrite (proj2 (Z.eqb_neq _ _) D), C. cbn [negb].
    destruct (IH fuel x1 (count + 1) r F1 R ltac:(cbn in L; lia)) as (x2 & G & R2). exists x2. rewrite G, len_cons. split; [do 2 f_equal; lia | exact R2].
Qed.
Lemma escape_complete : forall e l fuel x r, Escape e -> well_formed (e ++ l) -> StringBody l -> l_rest x = e ++ l ++ 34 :: r -> (length e + length l < fuel)%nat ->
  exists l' x1, collect_escape fuel x = LOk (false, x1) /\ l_rest x1 = l' ++ 34 :: r /\ well_formed l' /\ StringBody l' /\ (length l' <= length l)%nat.
Proof.
  intros e l fuel x r ES WF SB E L. unfold collect_escape.
  assert (PLAIN : forall c ty l' x1, c <> 120 -> c <> 40 -> prefetch x = (ty, l_rest x, x1) -> l_rest x = c :: tl (l_rest x) -> ty <> LEof -> l_rest x1 = l' ++ 34 :: r ->
    well_formed l' -> StringBody l' -> (length l' <= length l)%nat -> exists l' x1, (let '(c, b, x1) := prefetch x in
      if is_eof c then LErr EEofEsc else do ch <- deref b; match escape_map ch with
      | Utf8Model.EHex => let '(c2, b2, x2) := prefetch x1 in
        if is_eof c2 then LErr EEofEsc else do ch2 <- deref b2;
          if ch2 =? 123 then do r <- esc_braces fuel x2 0; let (count, x3) := r in
            if count =? 0 then LErr ENoHexDigits else if 6 <? count then LErr ETooManyHexDigits else LOk (false, x3)
          else if char_is_hex ch2 then let '(c3, b3, x3) := prefetch x2 in
            if is_eof c3 then LErr EEofEsc else do ch3 <- deref b3; if char_is_hex ch3 then LOk (false, x3) else LErr EHex
          else LErr EHex
      | EInterp => LOk (true, x1) | _ => LOk (false, x1) end) = LOk (false, x1) /\ l_rest x1 = l' ++ 34 :: r /\ well_formed l' /\ StringBody l' /\ (length l' <= length l)%nat).
  { intros c ty l' x1 N1 N2 P HD NE R W' S' LL. exists l', x1. rewrite P, HD. assert (EF : is_eof ty = false) by (destruct ty; try reflexivity; congruence). rewrite EF. cbn [deref bind].
    split; [| auto]. unfold escape_map. repeat match goal with |- context [if ?b then _ else _] => let q := fresh in destruct b eqn:q; try lia; try reflexivity end. }
  destruct ES as [(c & -> & N1 & N2) | [-> | [(a & b & -> & HA & HB) | (hs & -> & HF & HL)]]].
  - cbn [app] in *. destruct (Z.eq_dec c 10) as [-> | N10]; [| destruct (Z.eq_dec c 13) as [-> | N13]].
    + destruct (prefetch_next x LEol (l ++ 34 :: r)) as (x1 & P & R); [rewrite E; cbn [next_char]; change (lexem_type 10) with LEol; destruct (l ++ 34 :: r); reflexivity |].
      eapply (PLAIN 10 LEol l x1); try eassumption; try discriminate; [rewrite E; reflexivity | apply (wf_plain _ _ WF); lia | lia].
    + destruct (prefetch_next x LEol (l ++ 34 :: r)) as (x1 & P & R).
      { rewrite E. cbn [next_char]. change (lexem_type 13) with LEol. destruct l as [| d l]; [reflexivity |]. cbn [app Z.eqb Pos.eqb andb]. destruct (Z.eqb_spec d 10) as [-> | ND]; [| reflexivity].
        exfalso. inversion SB as [| ? ? ? ? NE |]; subst. apply NE. left. reflexivity. }
      eapply (PLAIN 13 LEol l x1); try eassumption; try discriminate; [rewrite E; reflexivity | apply (wf_plain _ _ WF); lia | lia].
    + destruct (wf_char c l WF ltac:(unfold is_eol_char; lia)) as (w & l' & -> & FW & W' & NX). destruct (NX (34 :: r)) as (ty & NC & BC).
      destruct (prefetch_next x ty (l' ++ 34 :: r)) as (x1 & P & R); [rewrite E; exact NC |].
      eapply (PLAIN c ty l' x1); try eassumption; [rewrite E; reflexivity | exact (proj1 BC) | exact (body_tails _ _ FW SB) | rewrite app_length; lia].
  - cbn [app] in *. destruct (prefetch_next x LEol (l ++ 34 :: r)) as (x1 & P & R); [rewrite E; reflexivity |].
    eapply (PLAIN 13 LEol l x1); try eassumption; try discriminate; [rewrite E; reflexivity | | lia].
    apply (wf_plain 10); [| lia]. apply (wf_plain 13); [exact WF | lia].
  - clear PLAIN. cbn [app] in *. destruct (hex_ascii _ HA) as (A1 & A2 & A3 & _ & A4). destruct (hex_ascii _ HB) as (B1 & B2 & B3 & _ & B4).
    destruct (next_one x 120 _ E ltac:(lia) ltac:(unfold is_eol_char; lia)) as (x1 & P1 & R1).
    destruct (next_one x1 a _ R1 A1 A2) as (x2 & P2 & R2). destruct (next_one x2 b _ R2 B1 B2) as (x3 & P3 & R3).
    exists l, x3. rewrite P1, hex_eof. cbn [deref bind]. change (escape_map 120) with Utf8Model.EHex. cbv iota. rewrite P2, hex_eof. cbn [deref bind].
    rewrite (proj2 (Z.eqb_neq _ _) A4), A3, P3, hex_eof. cbn [deref bind]. rewrite B3.
    split; [reflexivity |]. split; [exact R3 |]. split; [| split; [exact SB | lia]].
    apply (wf_plain b); [| lia]. apply (wf_plain a); [| lia]. apply (wf_plain 120); [exact WF | lia].
  - clear PLAIN. rewrite <- !app_assoc in E, WF. cbn [app] in E, WF. destruct (next_one x 120 _ E ltac:(lia) ltac:(unfold is_eol_char; lia)) as (x1 & P1 & R1).
    destruct (next_one x1 123 _ R1 ltac:(lia) ltac:(unfold is_eol_char; lia)) as (x2 & P2 & R2).
    rewrite !app_length in L. cbn [length] in L.
    destruct (esc_braces_complete hs fuel x2 0 _ HF R2 ltac:(lia)) as (x3 & EB & R3).
    exists l, x3. rewrite P1, hex_eof. cbn [deref bind]. change (escape_map 120) with Utf8Model.EHex. cbv iota. rewrite P2, hex_eof. cbn [deref bind Z.eqb Pos.eqb].
    rewrite EB. cbn [bind]. rewrite Z.add_0_l. assert (HN : 1 <= len hs <= 6) by (unfold len; lia).
    replace (len hs =? 0) with false by lia. replace (6 <? len hs) with false by lia. split; [reflexivity |]. split; [exact R3 |]. split; [| split; [exact SB | lia]].
    apply (wf_plain 120) in WF; [| lia]. destruct WF as [WF _]. apply (wf_plain 123) in WF; [| lia]. destruct WF as [WF _].
    clear - WF HF. induction HF as [| h hs H F IH]; cbn [app] in WF; apply wf_plain in WF; try lia; [tauto | apply IH; tauto |]. unfold HexChar, DecimalDigit in H. lia.
Qed.
Lemma string_complete : forall n body fuel x r, (length body <= n)%nat -> StringBody body -> well_formed body -> l_rest x = body ++ 34 :: r -> (length body < fuel)%nat ->
  exists x1, collect_string fuel x = LOk x1 /\ l_rest x1 = r.
Proof.
  induction n as [| n IH]; intros body fuel x r LN SB WF E L; (destruct fuel as [| fuel]; [lia |]); cbn [collect_string]; destruct SB as [| c l N1 N2 N3 SB | e l ES SB]; try (cbn in LN; lia).
  - destruct (next_one x 34 r E ltac:(lia) ltac:(unfold is_eol_char; lia)) as (x1 & P & R). rewrite P. exists x1. auto.
  - destruct (next_one x 34 r E ltac:(lia) ltac:(unfold is_eol_char; lia)) as (x1 & P & R). rewrite P. exists x1. auto.
  - destruct (wf_char c l WF N3) as (w & l' & -> & FW & W' & NX). destruct (NX (34 :: r)) as (ty & NC & B1 & B2 & B3 & B4 & B5).
    destruct (prefetch_next x ty (l' ++ 34 :: r)) as (x1 & P & R); [rewrite E; exact NC |]. rewrite P.
    destruct (IH l' fuel x1 r) as (x2 & C & R2); [| exact (body_tails _ _ FW SB) | exact W' | exact R | | ].
    + cbn [length] in LN. rewrite app_length in LN. lia.
    + cbn [length] in L. rewrite app_length in L. lia.
    + exists x2. split; [| exact R2]. destruct ty; try exact C; try congruence; exfalso; [apply N2 | apply N1]; auto.
  - cbn [app] in E. destruct (next_one x 92 _ E ltac:(lia) ltac:(unfold is_eol_char; lia)) as (x1 & P & R). rewrite P. change (lexem_type 92) with LBackslash. cbv iota.
    apply (wf_plain 92) in WF; [| lia]. destruct WF as [WF _]. rewrite <- app_assoc in R. cbn [length] in LN, L. rewrite app_length in LN, L.
    destruct (escape_complete e l fuel x1 r ES WF SB R ltac:(lia)) as (l' & x2 & C & R2 & W2 & S2 & LL). rewrite C. cbn [bind].
    apply (IH l'); [lia | exact S2 | exact W2 | exact R2 | lia].
Qed.
Theorem string_found : forall x body rest, l_rest x = 34 :: body ++ 34 :: rest -> StringBody body -> well_formed body -> Z.of_nat (length body) <= 0xFFFD ->
  found x TStr (34 :: body ++ [34]) rest.
Proof.
  intros x body rest E SB WF L. destruct (next_one x 34 _ E ltac:(lia) ltac:(unfold is_eol_char; lia)) as (x1 & P & R1).
  destruct (string_complete (length body) body (S (length (l_rest x))) x1 rest ltac:(lia) SB WF R1) as (x2 & C & R2); [rewrite E; cbn; rewrite app_length; cbn; lia |].
  pose proof (any_token_good (S (length (l_rest x))) x ltac:(lia)) as G.
  assert (AT : any_token (S (length (l_rest x))) x = LOk (TStr, x2)).
  { unfold any_token. rewrite P. change (lexem_type 34) with LString. cbv iota. rewrite C. cbn [bind]. rewrite <- R2. apply string_type_eq. }
  rewrite AT in G. destruct G as (W & _). eapply (found_of x TStr _ rest x2); [rewrite E; cbn [app]; rewrite <- app_assoc; reflexivity | exact AT | exact R2 | exact W |].
  cbn [length]. rewrite app_length. cbn. lia.
Qed.
