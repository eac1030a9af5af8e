(* Well-formed texts and positions. *)
From Coq Require Import String Ascii ZArith List Lia Bool ZifyBool.
Import ListNotations.
From Verif Require Import Base ListZ Utf8Model LexModel LexSpec LexTokens LexProofs LexProofs2 LexProofs3 LexProofs4.
Local Open Scope Z_scope.
Ltac Zify.zify_post_hook ::= idtac.

(* ---- well-formed texts ---- *)
Lemma tail_bits : forall b, tail_byte b -> Z.land b 0x3F = b - 128 /\ lexem_type b = LTail.
Proof.
  intros b T. split; [| apply tail_type; exact T]. unfold tail_byte in T. rewrite land_63.
  symmetry. apply (Z.mod_unique b 64 2); lia.
Qed.
Lemma tails_cons : forall k code b t, tail_byte b -> 0 <= code -> code * 64 < 2 ^ 32 -> tails (S k) code (b :: t) = tails k (code * 64 + (b - 128)) t.
Proof.
  intros k code b t T C D. cbn [tails]. destruct (tail_bits _ T) as [-> ->]. f_equal. unfold tail_byte in T.
  rewrite shiftl_mul by lia. change (2 ^ 6) with 64. unfold u32, uwrap. rewrite Z.mod_small by lia.
  apply (lor_add_low code (b - 128) 6); [lia | change (2 ^ 6) with 64; lia].
Qed.

Definition lead (c : Z) : Z := if c <? 224 then c - 192 else if c <? 240 then c - 224 else c - 240.
Definition utf_len (c : Z) : Z := if c <? 224 then 2 else if c <? 240 then 3 else 4.
Definition lead_ok (c : Z) : bool :=
  match lexem_type c with LUtf n => (n =? utf_len c) && (Z.shiftr (Z.land (Z.shiftl c n) 0xFF) n =? lead c) | _ => false end.
Lemma lead_spec : forall c, 194 <= c <= 247 -> lexem_type c = LUtf (utf_len c) /\ Z.shiftr (Z.land (Z.shiftl c (utf_len c)) 0xFF) (utf_len c) = lead c.
Proof.
  intros c R. assert (H : lead_ok c = true).
  { assert (A : zall 54 194 lead_ok = true) by reflexivity. exact (zall_spec _ _ _ A c ltac:(lia)). }
  unfold lead_ok in H. destruct (lexem_type c); try discriminate. apply andb_true_iff in H. destruct H as [A B].
  apply Z.eqb_eq in A. subst. apply Z.eqb_eq in B. auto.
Qed.

Lemma wf_uncons : forall a t, a < 128 -> well_formed (a :: t) -> well_formed t.
Proof. intros a t R W. inversion W; subst; try assumption; lia. Qed.
Lemma wf_multi : forall a t c e m, 194 <= a <= 247 -> m = Z.to_nat (utf_len a - 1) -> (m <= length t)%nat -> next_char (a :: t) = (c, e) ->
  forall code e', tails m (lead a) t = (true, code, e') -> e' = e /\ c <> LBadUtf8 /\ (c = LWhite -> is_space_code code = true).
Proof.
  intros a t c e m R M L H code e' T. cbn [next_char] in H. destruct (lead_spec _ R) as [LT LD]. rewrite LT, LD in H. rewrite <- M in H. rewrite T in H.
  assert (U : 2 <= utf_len a <= 4) by (unfold utf_len; destruct (a <? 224), (a <? 240); lia).
  replace (len (a :: t) <? utf_len a) with false in H by (rewrite len_cons; unfold len; lia).
  assert (e' = e /\ (if is_space_code code then LWhite else LUtf (utf_len a)) = c) as [-> <-] by (split; congruence).
  split; [reflexivity |]. destruct (is_space_code code); (split; [discriminate |]); [reflexivity | discriminate].
Qed.
Lemma wf_step : forall b c e, well_formed b -> next_char b = (c, e) ->
  well_formed e /\ c <> LBadUtf8 /\ (c = LWhite -> exists w, b = w ++ e /\ In w white_chars).
Proof.
  intros b c e W H. destruct W as [| a t R W | a b t R TB W | a b x t R M TB TX W | a b x y t R M TB TX TY W].
  - cbn in H. assert (c = LEof /\ e = []) as [-> ->] by (split; congruence). split; [constructor |]. split; discriminate.
  - pose proof (next_char_kind _ _ _ H) as K.
    inversion K as [E1 | ch t' ty E1 T1 M1 M2 M3 | s e' E1 EO | ch t' E1 TB | ch w e' n ty E1 T1 F D L BD | ch t' n E1 T1 BD]; subst.
    + discriminate.
    + injection E1 as <- <-. split; [exact W |]. split; [apply type_not_bad |]. intros T. exists [a]. split; [reflexivity |].
      assert (a = 11 \/ a = 12 \/ a = 32) as [-> | [-> | ->]] by (clear - T; ltype; try discriminate; lia); cbn; auto.
    + split; [| split; discriminate]. destruct EO as [-> | [-> | [-> _]]]; cbn [app] in E1; injection E1 as -> ->; try exact W.
      apply wf_uncons in W; [exact W | lia].
    + exfalso. injection E1 as <- _. unfold tail_byte in TB. lia.
    + exfalso. injection E1 as <- _. apply type_utf in T1. lia.
    + exfalso. injection E1 as <- _. apply type_utf in T1. lia.
  - pose proof (wf_multi a (b :: t) c e 1) as L. assert (U : utf_len a = 2) by (unfold utf_len; destruct (a <? 224) eqn:?; lia).
    assert (D : lead a = a - 192) by (unfold lead; destruct (a <? 224) eqn:?; lia). rewrite U, D in L.
    edestruct L as (EE & B & C); [lia | reflexivity | cbn; lia | exact H | rewrite tails_cons by (assumption || lia); reflexivity | subst e].
    split; [exact W |]. split; [exact B |]. intros Q. specialize (C Q). exists [a; b]. split; [reflexivity |]. unfold is_space_code, tail_byte in *.
    assert (a = 0xC2 /\ b = 0xA0) as [-> ->] by lia. cbn. auto.
  - pose proof (wf_multi a (b :: x :: t) c e 2) as L. assert (U : utf_len a = 3) by (unfold utf_len; destruct (a <? 224) eqn:?, (a <? 240) eqn:?; lia).
    assert (D : lead a = a - 224) by (unfold lead; destruct (a <? 224) eqn:?, (a <? 240) eqn:?; lia). rewrite U, D in L.
    edestruct L as (EE & B & C); [lia | reflexivity | cbn; lia | exact H | unfold tail_byte in *; rewrite !tails_cons by (assumption || (unfold tail_byte in *; lia)); reflexivity | subst e].
    split; [exact W |]. split; [exact B |]. intros Q. specialize (C Q). exists [a; b; x]. split; [reflexivity |]. unfold is_space_code, tail_byte in *.
    assert (G : (a = 0xE2 /\ b = 0x80 /\ x = 0xA8) \/ (a = 0xE2 /\ b = 0x80 /\ x = 0xA9) \/ (a = 0xEF /\ b = 0xBB /\ x = 0xBF)) by lia.
    destruct G as [(-> & -> & ->) | [(-> & -> & ->) | (-> & -> & ->)]]; cbn; auto 10.
  - pose proof (wf_multi a (b :: x :: y :: t) c e 3) as L. assert (U : utf_len a = 4) by (unfold utf_len; destruct (a <? 224) eqn:?, (a <? 240) eqn:?; lia).
    assert (D : lead a = a - 240) by (unfold lead; destruct (a <? 224) eqn:?, (a <? 240) eqn:?; lia). rewrite U, D in L.
    edestruct L as (EE & B & C); [lia | reflexivity | cbn; lia | exact H | unfold tail_byte in *; rewrite !tails_cons by (assumption || (unfold tail_byte in *; lia)); reflexivity | subst e].
    split; [exact W |]. split; [exact B |]. intros Q. specialize (C Q). exfalso. unfold is_space_code, tail_byte in *. lia.
Qed.
Lemma white_text : forall fuel x x2, skip_while fuel is_white x = LOk x2 -> exists w, l_rest x = w ++ l_rest x2 /\ (well_formed (l_rest x) -> White w).
Proof.
  induction fuel as [| f IH]; intros x x2 H; [discriminate |]. cbn [skip_while] in H. destruct (prefetch x) as [[c b] x1] eqn:P.
  destruct (prefetch_eq _ _ _ _ P) as (E & N & _). destruct (prefetch_suf _ _ _ _ P) as (_ & (p & SF) & _). destruct (is_white c) eqn:O.
  - destruct (IH _ _ H) as (w & W & F). exists (p ++ w). rewrite <- E, SF, W, app_assoc. split; [reflexivity |].
    intros WF. assert (WF' : well_formed b) by (rewrite SF, W, app_assoc; exact WF).
    destruct (wf_step _ _ _ WF' N) as (WE & _ & C). assert (CW : c = LWhite) by (destruct c; try discriminate; reflexivity).
    destruct (C CW) as (w1 & B1 & I1). rewrite SF in B1. apply app_inv_tail in B1. subst p. destruct (F WE) as (l & L1 & ->).
    exists (w1 :: l). split; [constructor; assumption | reflexivity].
  - assert (retract x1 b = x2) as <- by congruence. exists []. cbn [retract l_rest app]. split; [symmetry; exact E |].
    intros _. exists []. split; [constructor | reflexivity].
Qed.
Lemma walk_wf : forall x y, walk x y -> well_formed (l_rest x) -> well_formed (l_rest y).
Proof.
  intros x y W. induction W as [x y (A & _) | x c b x1 y P W IH]; intros F; [rewrite <- A; exact F |].
  apply IH. destruct (prefetch_eq _ _ _ _ P) as (E & N & _). rewrite E in N. exact (proj1 (wf_step _ _ _ F N)).
Qed.

(* ---- positions ---- *)
Lemma eols_app : forall a b, ~ splits_eol a b -> eols (a ++ b) = eols a + eols b.
Proof.
  induction a as [| c a IH]; intros b S; [reflexivity |].
  assert (S' : a <> [] -> ~ splits_eol a b). { intros N ((p & ->) & Q). apply S. split; [exists (c :: p); reflexivity | exact Q]. }
  assert (IH' : eols (a ++ b) = eols a + eols b). { destruct a; [reflexivity | apply IH, S'; discriminate]. }
  destruct (Z.eq_dec c 13) as [-> | N13].
  - destruct a as [| d a].
    + destruct b as [| d b]; [reflexivity |]. assert (ND : d <> 10) by (intros ->; apply S; split; [exists []; reflexivity | eauto]).
      destruct (Z.eq_dec d 10); [contradiction |]. assert (G : eols (13 :: d :: b) = 1 + eols (d :: b)).
      { cbn [eols]. destruct d as [| q | q]; try reflexivity. do 4 (destruct q as [q | q |]; try reflexivity). contradiction. }
      exact G.
    + cbn [app] in *. destruct (Z.eq_dec d 10) as [-> | ND].
      * change (eols (13 :: 10 :: a ++ b)) with (eols (10 :: a ++ b)). change (eols (13 :: 10 :: a)) with (eols (10 :: a)). exact IH'.
      * assert (G : forall l, eols (13 :: d :: l) = 1 + eols (d :: l)).
        { intros l. cbn [eols]. destruct d as [| q | q]; try reflexivity. do 4 (destruct q as [q | q |]; try reflexivity). contradiction. }
        rewrite !G, IH'. lia.
  - cbn [app]. destruct (Z.eq_dec c 10) as [-> | N10]; [cbn [eols]; lia |].
    assert (G : forall l, eols (c :: l) = eols l).
    { intros l. cbn [eols]. destruct c as [| q | q]; try reflexivity. do 4 (destruct q as [q | q |]; try reflexivity); contradiction. }
    rewrite !G. exact IH'.
Qed.
Lemma column_app : forall a n b, column_loop n (a ++ b) = column_loop (column_loop n a) b.
Proof. induction a as [| c a IH]; intros n b; [reflexivity |]. cbn [app column_loop]. destruct ((c =? 10) || (c =? 13)), ((128 <=? c) && (c <=? 191)); apply IH. Qed.
Lemma column_tails : forall w n, Forall tail_byte w -> column_loop n w = n.
Proof.
  induction 1 as [| c w T F IH]; [reflexivity |]. cbn [column_loop]. unfold tail_byte in T.
  replace ((c =? 10) || (c =? 13)) with false by lia. replace ((128 <=? c) && (c <=? 191)) with true by lia. exact IH.
Qed.
Lemma eols_none : forall w, Forall (fun c => ~ is_eol_char c) w -> eols w = 0.
Proof.
  induction 1 as [| c w T F IH]; [reflexivity |]. unfold is_eol_char in T. cbn [eols].
  destruct c as [| q | q]; try exact IH. do 4 (destruct q as [q | q |]; try exact IH); exfalso; apply T; auto.
Qed.
Lemma prefetch_pos : forall x c b x1, prefetch x = (c, b, x1) ->
  (c = LEol -> l_line x1 = l_line x + 1 /\ l_col x1 = 1) /\ (c <> LEol -> l_line x1 = l_line x /\ (c <> LTab -> l_col x1 = l_col x + 1)).
Proof.
  intros x c b x1 H. unfold prefetch in H. destruct (next_char (l_rest x)) as [t e].
  assert (t = c) by (destruct t; cbn beta iota zeta in H; injection H; congruence). subst t.
  split; intros N.
  - subst c. injection H as _ <-. auto.
  - destruct c; try congruence; cbn beta iota zeta in H; assert (E : x1 = mklex e (l_line x1) (l_col x1) (l_line x) (l_col x)) by (injection H as _ <-; reflexivity);
      injection H as _ <-; cbn; (split; [reflexivity |]); congruence || (intros; reflexivity).
Qed.
Definition Pos (T : list Z) (x : lex) : Prop :=
  stuck (l_rest x) \/ exists before, T = before ++ l_rest x /\ position_ok before (l_line x) (l_col x) /\ ~ splits_eol before (l_rest x).
Lemma stuck_step : forall x c b x1, prefetch x = (c, b, x1) -> stuck (l_rest x) -> stuck (l_rest x1).
Proof.
  intros x c b x1 P S. destruct (prefetch_eq _ _ _ _ P) as (E & N & _). rewrite E in N. destruct (l_rest x) as [| ch t].
  - cbn in N. assert (l_rest x1 = []) as -> by congruence. exact Logic.I.
  - cbn [next_char] in N. rewrite (tail_type _ S) in N. assert (l_rest x1 = ch :: t) as -> by congruence. exact S.
Qed.
Lemma no_split_last : forall a s e, s <> [] -> (forall p, s <> p ++ [13]) -> ~ splits_eol (a ++ s) e.
Proof.
  intros a s e N L ((p & E) & _). destruct (exists_last N) as (s' & z & ->). rewrite app_assoc in E. apply app_inj_tail in E. destruct E as [_ ->].
  apply (L s'). reflexivity.
Qed.
Lemma not_split_eol : forall s e, Eol s e -> ~ splits_eol s e.
Proof.
  intros s e [-> | [-> | [-> N]]] ((p & E) & (t & ->)).
  - destruct p as [| ? [| ? ?]]; discriminate.
  - destruct p as [| ? [| ? [| ? ?]]]; discriminate.
  - apply N. reflexivity.
Qed.
Lemma split_app : forall a s e, s <> [] -> splits_eol (a ++ s) e -> splits_eol s e.
Proof.
  intros a s e N ((p & E) & Q). split; [| exact Q]. destruct (exists_last N) as (s' & z & ->). rewrite app_assoc in E. apply app_inj_tail in E. destruct E as [_ ->]. eauto.
Qed.
Lemma split_head : forall a s e, s <> [] -> splits_eol a s -> splits_eol a (s ++ e).
Proof. intros a s e N (P & (t & ->)). split; [exact P |]. exists (t ++ e). reflexivity. Qed.
Lemma pos_step : forall T x c b x1, prefetch x = (c, b, x1) -> Pos T x -> Pos T x1.
Proof.
  intros T x c b x1 P [S | (before & TE & (PL & PC) & NS)]; [left; eapply stuck_step; eassumption |].
  pose proof (proj1 (prefetch_eq _ _ _ _ P)) as E. pose proof (prefetch_kind _ _ _ _ P) as K. destruct (prefetch_pos _ _ _ _ P) as (PE & PN).
  (* a character s which is not the end of a line *)
  assert (G : forall s, b = s ++ l_rest x1 -> s <> [] -> c <> LEol -> Forall (fun y => ~ is_eol_char y) s -> (no_tab s -> c <> LTab /\ forall n, column_loop n s = n + 1) -> Pos T x1).
  { intros s B NE NL F CL. destruct (PN NL) as [L1 C1]. right. exists (before ++ s). rewrite <- E, B in *. split; [rewrite <- app_assoc; exact TE |].
    assert (NSP : ~ splits_eol before s) by (intros Q; apply NS, split_head; assumption).
    split; [split |].
    - rewrite eols_app by exact NSP. rewrite (eols_none _ F). lia.
    - intros NT. unfold column. rewrite column_app. assert (NT1 : no_tab before) by (intros Q; apply NT, in_or_app; auto).
      assert (NT2 : no_tab s) by (intros Q; apply NT, in_or_app; auto). destruct (CL NT2) as [N1 N2]. rewrite N2, (C1 N1), (PC NT1). reflexivity.
    - intros Q. apply split_app in Q; [| exact NE]. destruct Q as ((p & Q) & _). rewrite Q in F. apply Forall_app in F. destruct F as [_ F]. inversion F as [| ? ? F1 _]; subst.
      apply F1. right. reflexivity. }
  unfold Pos. remember (l_rest x1) as e1 eqn:EE.
  destruct K as [E1 | ch t ty E1 T1 M1 M2 M3 | s e E1 EO | ch t E1 TB | ch w e n ty E1 T1 F D L BD | ch t n E1 T1 BD]; unfold Pos in G; rewrite <- ?EE in G.
  - left. exact Logic.I.
  - apply (G [ch]); [exact E1 | discriminate | exact M1 | constructor; [rewrite <- type_eol; congruence | constructor] |].
    intros NT. assert (N9 : ch <> 9) by (intros ->; apply NT; left; reflexivity). split; [rewrite <- T1; intros Q; clear - Q N9; ltype; try discriminate; lia |].
    intros n. cbn [column_loop]. assert (A : ~ is_eol_char ch) by (rewrite <- type_eol; congruence). unfold is_eol_char in A.
    replace ((ch =? 10) || (ch =? 13)) with false by lia. assert (B : ~ tail_byte ch) by (intros Q; apply M2; rewrite <- T1; apply tail_type; exact Q).
    unfold tail_byte in B. replace ((128 <=? ch) && (ch <=? 191)) with false by lia. reflexivity.
  - clear G. destruct (PE eq_refl) as [L1 C1]. right. exists (before ++ s). rewrite <- E, E1 in *. split; [rewrite <- app_assoc; exact TE |].
    assert (NN : s <> []) by (destruct EO as [-> | [-> | [-> _]]]; discriminate).
    assert (NSP : ~ splits_eol before s) by (intros Q; apply NS, split_head; assumption).
    split; [split |].
    + rewrite eols_app by exact NSP. assert (ES : eols s = 1) by (destruct EO as [-> | [-> | [-> _]]]; reflexivity). lia.
    + intros _. unfold column. rewrite column_app, C1. destruct EO as [-> | [-> | [-> _]]]; reflexivity.
    + intros Q. apply split_app in Q; [| exact NN]. exact (not_split_eol _ _ EO Q).
  - left. rewrite E1. exact TB.
  - assert (TU := type_utf _ _ T1). apply (G (ch :: w)); [exact E1 | discriminate | destruct D as [-> | [-> | ->]]; discriminate | |].
    + constructor; [unfold is_eol_char; lia |]. eapply Forall_impl; [| exact F]. unfold tail_byte, is_eol_char. intros; lia.
    + intros _. split; [destruct D as [-> | [-> | ->]]; discriminate |]. intros m. cbn [column_loop]. replace ((ch =? 10) || (ch =? 13)) with false by lia.
      replace ((128 <=? ch) && (ch <=? 191)) with false by lia. apply column_tails. exact F.
  - left. exact Logic.I.
Qed.
Lemma walk_pos : forall T x y, walk x y -> Pos T x -> Pos T y.
Proof.
  intros T x y W. induction W as [x y (A & B & C) | x c b x1 y P W IH]; intros H.
  - unfold Pos in *. rewrite <- A, <- B, <- C. exact H.
  - apply IH. eapply pos_step; eassumption.
Qed.
