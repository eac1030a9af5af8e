(* The texts of comments and strings. *)
From Coq Require Import String Ascii ZArith List Lia Bool ZifyBool.
Import ListNotations.
From Verif Require Import Base ListZ Utf8Model LexModel LexSpec LexProofs LexProofs2 LexProofs3.
Local Open Scope Z_scope.
Ltac Zify.zify_post_hook ::= idtac.

(* the bytes of a character; of an invalid one there is nothing to say *)
Lemma kind_bytes : forall b c e, char_kind b c e -> c <> LEol -> c <> LEof -> c <> LBadUtf8 ->
  exists w, b = w ++ e /\ w <> [] /\ Forall (fun x => ~ is_eol_char x) w /\ (exists ch, w = [ch] /\ lexem_type ch = c \/ Forall (fun x => 128 <= x) w).
Proof.
  intros b c e K N1 N2 N3. destruct K as [E | ch t ty E T M1 M2 M3 | s e E EO | ch t E TB | ch w e n ty E T F D L BD | ch t n E T BD]; try congruence.
  - exists [ch]. split; [exact E |]. split; [discriminate |]. split; [| exists ch; auto]. constructor; [| constructor]. rewrite <- type_eol. congruence.
  - exists (ch :: w). split; [exact E |]. split; [discriminate |]. apply type_utf in T.
    assert (G : Forall (fun x => 128 <= x) (ch :: w)).
    { constructor; [lia |]. eapply Forall_impl; [| exact F]. intros a TA. unfold tail_byte in TA. cbv beta. lia. }
    split; [| exists 0; auto]. eapply Forall_impl; [| exact G]. intros a A. cbv beta in *. unfold is_eol_char. lia.
Qed.
Lemma kind_bad : forall b e, char_kind b LBadUtf8 e -> bad_utf8 b.
Proof.
  intros b e K. inversion K as [E | ch t ty E T M1 M2 M3 | s e' E EO | ch t E TB | ch w e' n ty E T F D L BD | ch t n E T BD]; subst.
  - exfalso. exact (type_not_bad _ T).
  - exists ch, t. split; [reflexivity | left; exact TB].
  - apply BD. reflexivity.
  - exact BD.
Qed.
Lemma kind_eof : forall b e, char_kind b LEof e -> b = [] /\ e = [].
Proof.
  intros b e K. inversion K as [E | ch t ty E T M1 M2 M3 | s e' E EO | ch t E TB | ch w e' n ty E T F D L BD | ch t n E T BD]; subst.
  - auto.
  - exfalso. exact (type_not_eof _ T).
  - destruct D as [D | [D | D]]; discriminate.
Qed.
Lemma kind_eol : forall b e, char_kind b LEol e -> exists s, b = s ++ e /\ Eol s e.
Proof.
  intros b e K. inversion K as [E | ch t ty E T M1 M2 M3 | s e' E EO | ch t E TB | ch w e' n ty E T F D L BD | ch t n E T BD]; subst.
  - congruence.
  - eauto.
  - destruct D as [D | [D | D]]; discriminate.
Qed.
(* types of one character *)
Lemma kind_one : forall b c e, char_kind b c e -> c <> LEol -> c <> LEof -> c <> LBadUtf8 -> c <> LWhite -> (forall n, c <> LUtf n) ->
  exists ch, b = ch :: e /\ lexem_type ch = c.
Proof.
  intros b c e K N1 N2 N3 N4 N5. destruct K as [E | ch t ty E T M1 M2 M3 | s e E EO | ch t E TB | ch w e n ty E T F D L BD | ch t n E T BD]; try congruence; [eauto |].
  destruct D as [D | [D | D]]; congruence.
Qed.

Lemma line_text : forall fuel x x2, skip_while fuel in_line x = LOk x2 ->
  exists w, l_rest x = w ++ l_rest x2 /\ Forall (fun c => ~ is_eol_char c) w /\ (l_rest x2 = [] \/ (exists c t, l_rest x2 = c :: t /\ is_eol_char c) \/ bad_utf8 (l_rest x2)).
Proof.
  induction fuel as [| f IH]; intros x x2 H; [discriminate |]. cbn [skip_while] in H. destruct (prefetch x) as [[c b] x1] eqn:P.
  pose proof (proj1 (prefetch_eq _ _ _ _ P)) as E. pose proof (prefetch_kind _ _ _ _ P) as K.
  destruct (in_line c) eqn:O.
  - destruct (kind_bytes _ _ _ K) as (w & B & _ & F & _); try (intros ->; discriminate).
    destruct (IH _ _ H) as (w2 & W & F2 & R). exists (w ++ w2). rewrite <- E, B, W. split; [rewrite app_assoc; reflexivity |]. split; [apply Forall_app; auto | exact R].
  - assert (retract x1 b = x2) as <- by congruence. exists []. cbn [retract l_rest app]. split; [symmetry; exact E |]. split; [constructor |].
    destruct c; try discriminate.
    + apply kind_eol in K. destruct K as (s & B & EO). right; left. unfold is_eol_char. destruct EO as [-> | [-> | [-> _]]]; rewrite B; cbn [app]; eauto 6.
    + apply kind_eof in K. left. tauto.
    + right; right. eapply kind_bad. exact K.
Qed.

Lemma classic_eol : forall c, c = LEol \/ c <> LEol.
Proof. intros c. destruct c; (left; reflexivity) || (right; discriminate). Qed.
Lemma no_end_nil : no_end [].
Proof. intros [| a x] b; discriminate. Qed.
Lemma no_end_cons : forall c l, no_end l -> c <> 42 \/ not_next (fun d => d = 47) l -> no_end (c :: l).
Proof.
  intros c l N H [| a x] b E; cbn in E.
  - injection E as -> ->. cbn in H. destruct H as [H | H]; [apply H; reflexivity | apply H; reflexivity].
  - injection E as -> E. apply (N x b E).
Qed.
Lemma no_end_app : forall w l, Forall (fun c => c <> 42) w -> no_end l -> no_end (w ++ l).
Proof. induction 1; intros N; [exact N |]. cbn. apply no_end_cons; auto. Qed.

Definition comment_end (body rest : list Z) : Prop :=
  (exists m, body = m ++ [42; 47] /\ no_end (m ++ [42])) \/ (no_end body /\ (rest = [] \/ bad_utf8 rest)).
Lemma comment_end_app : forall w body rest, Forall (fun c => c <> 42) w -> comment_end body rest -> comment_end (w ++ body) rest.
Proof.
  intros w body rest F [(m & -> & N) | (N & R)].
  - left. exists (w ++ m). rewrite <- !app_assoc. split; [reflexivity |]. apply no_end_app; assumption.
  - right. split; [apply no_end_app; assumption | exact R].
Qed.
Lemma comment_end_star : forall body rest, comment_end body rest -> not_next (fun d => d = 47) body -> comment_end (42 :: body) rest.
Proof.
  intros body rest [(m & -> & N) | (N & R)] NX.
  - left. exists (42 :: m). split; [reflexivity |]. cbn [app]. apply no_end_cons; [exact N |]. right. destruct m; [cbn; discriminate | exact NX].
  - right. split; [apply no_end_cons; auto | exact R].
Qed.

Lemma comment_loop_text : forall fuel c b x x2, char_kind b c (l_rest x) -> c <> LBadUtf8 -> comment_loop fuel c b x = LOk x2 ->
  exists body, b = body ++ l_rest x2 /\ comment_end body (l_rest x2).
Proof.
  induction fuel as [| f IH]; intros c b x x2 K NB H; [discriminate |]. cbn [comment_loop] in H.
  destruct (is_eof c) eqn:EF.
  { assert (x = x2) as <- by congruence. destruct c; try discriminate. apply kind_eof in K. destruct K as [-> ->]. exists [].
    split; [reflexivity |]. right. split; [exact no_end_nil | left; reflexivity]. }
  (* the bytes of this character *)
  assert (CH : exists w, b = w ++ l_rest x /\ w <> [] /\ (w = [42] \/ (Forall (fun y => y <> 42) w))).
  { assert (NE : c <> LEof) by (intros ->; discriminate). destruct (classic_eol c) as [-> | NL].
    - apply kind_eol in K. destruct K as (s & B & EO). exists s. split; [exact B |]. destruct EO as [-> | [-> | [-> _]]]; (split; [discriminate | right; repeat constructor; discriminate]).
    - destruct (kind_bytes _ _ _ K NL NE NB) as (w & B & NW & _ & ch & D). exists w. split; [exact B |]. split; [exact NW |].
      destruct D as [[-> T] | D]; [| right; eapply Forall_impl; [| exact D]; cbv beta; intros; lia].
      destruct (Z.eq_dec ch 42) as [-> | N]; [left; reflexivity | right; repeat constructor; exact N]. }
  destruct CH as (w & B & NW & DW). destruct w as [| prev w]; [congruence |]. rewrite B in H. cbn [app deref bind] in H.
  destruct (prefetch x) as [[c1 b1] x1] eqn:P. pose proof (proj1 (prefetch_eq _ _ _ _ P)) as E. pose proof (prefetch_kind _ _ _ _ P) as K1.
  destruct (bad_cases c1) as [(BB & CB) | (BB & CB)]; rewrite BB in H.
  { assert (retract x1 b1 = x2) as <- by congruence. cbn [retract l_rest]. exists (prev :: w). rewrite E. split; [exact B |]. right.
    split; [| right; rewrite <- E; subst c1; eapply kind_bad; exact K1].
    destruct DW as [-> | DW]; [apply no_end_cons; [exact no_end_nil | right; exact Logic.I] |].
    rewrite <- (app_nil_r (prev :: w)). apply no_end_app; [exact DW | exact no_end_nil]. }
  assert (REC : comment_loop f c1 b1 x1 = LOk x2 -> (prev <> 42 \/ not_next (fun d => d = 47) b1) -> exists body, b = body ++ l_rest x2 /\ comment_end body (l_rest x2)).
  { intros HR NX. destruct (IH _ _ _ _ K1 CB HR) as (body & B1 & CE). exists ((prev :: w) ++ body). rewrite B, <- app_assoc, <- B1, E. split; [reflexivity |].
    destruct DW as [DW | DW].
    - injection DW as -> ->. cbn [app]. apply comment_end_star; [exact CE |]. destruct NX as [NX | NX]; [congruence |].
      destruct body as [| d body]; [exact Logic.I |]. rewrite B1 in NX. exact NX.
    - apply comment_end_app; assumption. }
  destruct (is_eof c1) eqn:EF1.
  { apply REC; [exact H |]. right. destruct c1; try discriminate. apply kind_eof in K1. destruct K1 as [-> _]. exact Logic.I. }
  destruct b1 as [| ch t]; [discriminate |]. cbn [deref bind] in H.
  destruct ((prev =? 42) && (ch =? 47)) eqn:Q; [| apply REC; [exact H | cbn; lia]].
  assert (x1 = x2) as <- by congruence. assert (prev = 42 /\ ch = 47) as [-> ->] by lia.
  assert (w = []) as -> by (destruct DW as [DW | DW]; [congruence | inversion DW; congruence]).
  inversion K1 as [E1 | ch' t' ty E1 T1 M1 M2 M3 | s e' E1 EO | ch' t' E1 TB | ch' w e' n ty E1 T1 F D L BD | ch' t' n E1 T1 BD]; try discriminate.
  - injection E1 as <- <-. exists [42; 47]. rewrite B, <- E. split; [reflexivity |]. left. exists []. split; [reflexivity |].
    apply no_end_cons; [exact no_end_nil | right; exact Logic.I].
  - exfalso. destruct EO as [-> | [-> | [-> _]]]; discriminate.
  - exfalso. congruence.
  - exfalso. injection E1 as <- _. discriminate.
  - exfalso. congruence.
Qed.
Lemma block_text : forall fuel x x2, collect_block_comment fuel x = LOk x2 -> walk x x2 ->
  exists body, l_rest x = body ++ l_rest x2 /\ (comment_end body (l_rest x2) \/ bad_utf8 (l_rest x)).
Proof.
  intros fuel x x2 H W. unfold collect_block_comment in H. destruct (prefetch x) as [[c b] x1] eqn:P.
  pose proof (proj1 (prefetch_eq _ _ _ _ P)) as E. pose proof (prefetch_kind _ _ _ _ P) as K.
  destruct (bad_cases c) as [(_ & ->) | (_ & N)].
  - destruct (walk_suf _ _ W) as (body & B). exists body. split; [exact B |]. right. rewrite <- E. eapply kind_bad. exact K.
  - destruct (comment_loop_text _ _ _ _ _ K N H) as (body & B & C). exists body. rewrite <- E. auto.
Qed.

(* ---- strings ---- *)
Lemma hex_char : forall c, char_is_hex c = true <-> HexChar c.
Proof. intros c. unfold char_is_hex, HexChar, DecimalDigit, in_range. lia. Qed.
Lemma prefetch_plain : forall x ch t c x1, prefetch x = (c, ch :: t, x1) -> 32 < ch < 127 -> l_rest x1 = t /\ c = lexem_type ch.
Proof.
  intros x ch t c x1 P R. pose proof (prefetch_kind _ _ _ _ P) as K.
  inversion K as [E1 | ch' t' ty E1 T1 M1 M2 M3 | s e' E1 EO | ch' t' E1 TB | ch' w e' n ty E1 T1 F D L BD | ch' t' n E1 T1 BD]; subst.
  - discriminate.
  - injection E1 as <- <-. auto.
  - exfalso. clear - E1 EO R. destruct EO as [-> | [-> | [-> _]]]; injection E1 as Q _; lia.
  - exfalso. injection E1 as <- _. unfold tail_byte in TB. lia.
  - exfalso. injection E1 as <- _. apply type_utf in T1. lia.
  - exfalso. injection E1 as <- _. apply type_utf in T1. lia.
Qed.
Lemma hex_range : forall c, char_is_hex c = true -> 32 < c < 127.
Proof. intros c H. apply hex_char in H. unfold HexChar, DecimalDigit in H. lia. Qed.
Lemma esc_braces_text : forall fuel x count n x2, esc_braces fuel x count = LOk (n, x2) ->
  exists hs, l_rest x = hs ++ 125 :: l_rest x2 /\ Forall HexChar hs /\ n = count + len hs.
Proof.
  induction fuel as [| f IH]; intros x count n x2 H; [discriminate |]. cbn [esc_braces] in H. pf x. revert H. eofc c b; [discriminate |]. intros H.
  destruct (Z.eqb_spec ch 125) as [-> | N].
  - assert (count = n /\ x0 = x2) as [-> ->] by (split; congruence). destruct (prefetch_plain _ _ _ _ _ P ltac:(lia)) as [R _]. exists [].
    rewrite <- EQ, R. split; [reflexivity |]. split; [constructor |]. change (len (@nil Z)) with 0. lia.
  - destruct (char_is_hex ch) eqn:X; [| discriminate]. cbn [negb] in H. destruct (IH _ _ _ _ H) as (hs & A & F & C).
    destruct (prefetch_plain _ _ _ _ _ P (hex_range _ X)) as [R _]. exists (ch :: hs). rewrite <- EQ, <- R, A. split; [reflexivity |].
    split; [constructor; [apply hex_char; exact X | exact F] |]. rewrite len_cons. lia.
Qed.
Definition stuck (l : list Z) : Prop := match l with [] => True | c :: _ => tail_byte c end.
Lemma stuck_string : forall fuel x x2, stuck (l_rest x) -> collect_string fuel x = LOk x2 -> False.
Proof.
  intros [| f] x x2 S H; [discriminate |]. cbn [collect_string] in H. destruct (prefetch x) as [[c b] x1] eqn:P.
  destruct (prefetch_eq _ _ _ _ P) as (E & N & _). rewrite E in N. destruct (l_rest x) as [| ch t].
  - cbn in N. assert (c = LEof) as -> by congruence. discriminate.
  - cbn [next_char] in N. rewrite (tail_type _ S) in N. assert (c = LBadUtf8) as -> by congruence. discriminate.
Qed.
Lemma escape_text : forall fuel x fm x2, collect_escape fuel x = LOk (fm, x2) ->
  if fm then l_rest x = 40 :: l_rest x2 else stuck (l_rest x2) \/ exists e w, l_rest x = e ++ w ++ l_rest x2 /\ Escape e /\ Forall tail_byte w.
Proof.
  intros fuel x fm x2 H. unfold collect_escape in H. pf x. revert H. eofc c b; [discriminate |]. intros H.
  assert (D : ch = 40 \/ ch = 120 \/ (ch <> 40 /\ ch <> 120 /\ fm = false /\ x0 = x2)).
  { destruct (Z.eq_dec ch 40); [auto |]. destruct (Z.eq_dec ch 120); [auto |]. right; right. split; [assumption |]. split; [assumption |].
    unfold escape_map in H. repeat match type of H with context [if ?b then _ else _] => let q := fresh in destruct b eqn:q; try lia end; split; congruence. }
  destruct D as [-> | [-> | (N1 & N2 & -> & ->)]].
  - cbn [escape_map Z.eqb Pos.eqb] in H. assert (fm = true /\ x0 = x2) as [-> ->] by (split; congruence). rewrite <- EQ.
    destruct (prefetch_plain _ _ _ _ _ P ltac:(lia)) as [R _]. rewrite R. reflexivity.
  - cbn [escape_map Z.eqb Pos.eqb] in H. destruct (prefetch_plain _ _ _ _ _ P ltac:(lia)) as [R _]. clear LT NE SF EF WP WR IE CE.
    pf x0. revert H. eofc c0 b; [discriminate |]. intros H. rewrite R in EQ0. rewrite <- EQ0 in *. clear R.
    destruct (Z.eqb_spec ch 123) as [-> | N].
    + destruct (esc_braces fuel x1 0) as [[count x3] | | |] eqn:B; try discriminate. cbn [bind] in H. destruct (Z.eqb_spec count 0); [discriminate |].
      destruct (6 <? count) eqn:C6; [discriminate |]. assert (fm = false /\ x3 = x2) as [-> ->] by (split; congruence).
      destruct (esc_braces_text _ _ _ _ _ B) as (hs & A & F & C). destruct (prefetch_plain _ _ _ _ _ P0 ltac:(lia)) as [R _].
      right. exists ([120; 123] ++ hs ++ [125]), []. rewrite <- EQ, <- R, A. split; [cbn [app]; rewrite <- !app_assoc; reflexivity |].
      split; [| constructor]. right; right; right. exists hs. split; [reflexivity |]. split; [exact F |]. unfold len in C. lia.
    + destruct (char_is_hex ch) eqn:X; [| discriminate]. destruct (prefetch_plain _ _ _ _ _ P0 (hex_range _ X)) as [R _]. clear LT NE SF EF WP WR.
      pf x1. revert H. eofc c1 b; [discriminate |]. intros H. destruct (char_is_hex ch0) eqn:X0; [| discriminate].
      assert (fm = false /\ x3 = x2) as [-> ->] by (split; congruence). destruct (prefetch_plain _ _ _ _ _ P1 (hex_range _ X0)) as [R1 _].
      right. exists [120; ch; ch0], []. rewrite <- EQ, <- R, <- EQ1, R1. split; [reflexivity |]. split; [| constructor].
      right; right; left. exists ch, ch0. rewrite <- !hex_char. auto.
  - pose proof (prefetch_kind _ _ _ _ P) as K.
    inversion K as [E1 | ch' t' ty E1 T1 M1 M2 M3 | s e' E1 EO | ch' t' E1 TB | ch' w e' n ty E1 T1 F D L BD | ch' t' n E1 T1 BD]; subst.
    + discriminate.
    + injection E1 as <- E1. right. exists [ch], []. rewrite <- EQ, E1. split; [reflexivity |]. split; [left; exists ch; auto | constructor].
    + right. exists s, []. rewrite <- EQ, E1. split; [reflexivity |]. split; [| constructor].
      destruct EO as [-> | [-> | [-> _]]]; [left; exists 10 | right; left | left; exists 13]; (reflexivity || (split; [reflexivity | split; discriminate])).
    + injection E1 as <- E1. left. cbn. exact TB.
    + injection E1 as <- E1. right. exists [ch], w. rewrite <- EQ, E1. split; [reflexivity |]. split; [left; exists ch; auto | exact F].
    + left. exact Logic.I.
Qed.
Lemma body_plain : forall w l, Forall (fun x => ~ is_eol_char x) w -> Forall (fun c => c <> 34 /\ c <> 92) w -> StringBody l -> StringBody (w ++ l).
Proof.
  induction w as [| c w IH]; intros l F G S; [exact S |]. cbn [app]. inversion F; inversion G; subst. apply sb_plain; try tauto. apply IH; assumption.
Qed.
Lemma kind_not_quote : forall b c e, char_kind b c e -> c <> LEol -> c <> LEof -> c <> LBadUtf8 -> c <> LString -> c <> LBackslash ->
  exists w, b = w ++ e /\ Forall (fun x => ~ is_eol_char x) w /\ Forall (fun c => c <> 34 /\ c <> 92) w.
Proof.
  intros b c e K N1 N2 N3 N4 N5. destruct (kind_bytes _ _ _ K N1 N2 N3) as (w & B & _ & F & ch & D). exists w. split; [exact B |]. split; [exact F |].
  destruct D as [[-> T] | D].
  { apply Forall_cons; [| apply Forall_nil]. split; intros ->; [apply N4 | apply N5]; rewrite <- T; reflexivity. }
  eapply Forall_impl; [| exact D]. cbv beta. intros; lia.
Qed.
Lemma string_text : forall fuel x x2, collect_string fuel x = LOk x2 ->
  exists body, StringBody body /\ (l_rest x = body ++ 34 :: l_rest x2 \/ l_rest x = body ++ 92 :: 40 :: l_rest x2).
Proof.
  induction fuel as [| f IH]; intros x x2 H; [discriminate |]. cbn [collect_string] in H. destruct (prefetch x) as [[c b] x1] eqn:P.
  pose proof (proj1 (prefetch_eq _ _ _ _ P)) as E. pose proof (prefetch_kind _ _ _ _ P) as K.
  assert (G : collect_string f x1 = LOk x2 -> c <> LEol -> c <> LEof -> c <> LBadUtf8 -> c <> LString -> c <> LBackslash ->
    exists body, StringBody body /\ (l_rest x = body ++ 34 :: l_rest x2 \/ l_rest x = body ++ 92 :: 40 :: l_rest x2)).
  { intros HR N1 N2 N3 N4 N5. destruct (kind_not_quote _ _ _ K N1 N2 N3 N4 N5) as (w & B & F1 & F2). destruct (IH _ _ HR) as (body & SB & D).
    exists (w ++ body). split; [apply body_plain; assumption |]. rewrite <- E, B. destruct D as [-> | ->]; [left | right]; rewrite <- app_assoc; reflexivity. }
  destruct c; try (apply G; [exact H | discriminate ..]); try discriminate; clear G.
  - destruct (kind_one _ _ _ K) as (ch & B & T); try discriminate. assert (ch = 92) by (clear - T; ltype; try discriminate; lia). subst ch.
    destruct (collect_escape f x1) as [[fm x3] | | |] eqn:CE; try discriminate. cbn [bind] in H. pose proof (escape_text _ _ _ _ CE) as ET.
    destruct fm.
    + assert (x3 = x2) as -> by congruence. exists []. split; [constructor |]. right. rewrite <- E, B, ET. reflexivity.
    + destruct ET as [ST | (e & w & A & EE & F)]; [exfalso; exact (stuck_string _ _ _ ST H) |]. destruct (IH _ _ H) as (body & SB & D).
      exists (92 :: e ++ w ++ body). split.
      * apply sb_esc; [exact EE |]. apply body_plain; [| | exact SB]; (eapply Forall_impl; [| exact F]); unfold tail_byte, is_eol_char; intros; lia.
      * rewrite <- E, B, A. destruct D as [-> | ->]; [left | right]; cbn [app]; rewrite <- !app_assoc; reflexivity.
  - destruct (kind_one _ _ _ K) as (ch & B & T); try discriminate. assert (ch = 34) by (clear - T; ltype; try discriminate; lia). subst ch.
    assert (x1 = x2) as -> by congruence. exists []. split; [constructor |]. left. rewrite <- E, B. reflexivity.
Qed.
Lemma raw_plain : forall w l, Forall (fun c => c <> 34 /\ c <> 92) w -> RawBody l -> RawBody (w ++ l).
Proof. induction 1 as [| c w C F IH]; intros R; [exact R |]. cbn [app]. apply rb_plain; tauto. Qed.
Lemma eol_not_quote : forall s e, Eol s e -> Forall (fun c => c <> 34 /\ c <> 92) s.
Proof. intros s e [-> | [-> | [-> _]]]; repeat constructor; discriminate. Qed.
Lemma raw_text : forall fuel x x2, collect_raw_string fuel x = LOk x2 -> exists body, RawBody body /\ l_rest x = body ++ 34 :: l_rest x2.
Proof.
  induction fuel as [| f IH]; intros x x2 H; [discriminate |]. cbn [collect_raw_string] in H. destruct (prefetch x) as [[c b] x1] eqn:P.
  pose proof (proj1 (prefetch_eq _ _ _ _ P)) as E. pose proof (prefetch_kind _ _ _ _ P) as K.
  assert (G : collect_raw_string f x1 = LOk x2 -> c <> LEof -> c <> LBadUtf8 -> c <> LString -> c <> LBackslash ->
    exists body, RawBody body /\ l_rest x = body ++ 34 :: l_rest x2).
  { intros HR N2 N3 N4 N5. destruct (IH _ _ HR) as (body & SB & D).
    assert (W : exists w, b = w ++ l_rest x1 /\ Forall (fun c => c <> 34 /\ c <> 92) w).
    { destruct (classic_eol c) as [-> | N1].
      - apply kind_eol in K. destruct K as (s & B & EO). exists s. split; [exact B | eapply eol_not_quote; exact EO].
      - destruct (kind_not_quote _ _ _ K N1 N2 N3 N4 N5) as (w & B & F1 & F2). eauto. }
    destruct W as (w & B & F). exists (w ++ body). split; [apply raw_plain; assumption |]. rewrite <- E, B, D, <- app_assoc. reflexivity. }
  destruct c; try (apply G; [exact H | discriminate ..]); try discriminate; clear G.
  - destruct (kind_one _ _ _ K) as (ch & B & T); try discriminate. assert (ch = 92) by (clear - T; ltype; try discriminate; lia). subst ch.
    destruct (prefetch x1) as [[c2 b2] x3] eqn:P2. pose proof (proj1 (prefetch_eq _ _ _ _ P2)) as E2. pose proof (prefetch_kind _ _ _ _ P2) as K2.
    destruct (is_eof c2) eqn:EF; [discriminate |]. destruct (bad_cases c2) as [(BB & CB) | (BB & CB)]; rewrite BB in H; [discriminate |].
    destruct (IH _ _ H) as (body & SB & D).
    assert (W : exists d w, b2 = d :: w ++ l_rest x3 /\ Forall (fun c => c <> 34 /\ c <> 92) w).
    { destruct K2 as [E0 | ch t ty E0 T0 M1 M2 M3 | s e E0 EO | ch t E0 TB | ch w e n ty E0 T0 F D0 L BD | ch t n E0 T0 BD]; try congruence.
      - discriminate.
      - exists ch, []. split; [exact E0 | constructor].
      - pose proof (eol_not_quote _ _ EO) as Q. assert (NS : s <> []) by (destruct EO as [-> | [-> | [-> _]]]; discriminate).
        destruct s as [| d w]; [congruence |]. exists d, w. inversion Q; subst. auto.
      - exists ch, w. split; [exact E0 |]. eapply Forall_impl; [| exact F]. unfold tail_byte. intros; lia. }
    destruct W as (d & w & B2 & F). exists (92 :: d :: w ++ body). split; [apply rb_esc, raw_plain; assumption |].
    rewrite <- E, B, <- E2, B2, D. cbn [app]. rewrite <- app_assoc. reflexivity.
  - destruct (kind_one _ _ _ K) as (ch & B & T); try discriminate. assert (ch = 34) by (clear - T; ltype; try discriminate; lia). subst ch.
    assert (x1 = x2) as -> by congruence. exists []. split; [constructor |]. rewrite <- E, B. reflexivity.
Qed.
