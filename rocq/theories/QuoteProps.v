(* Properties of quoted strings (C24, C101). *)
From Coq Require Import String Ascii ZArith List Lia Bool ZifyBool.
Import ListNotations.
From Verif Require Import Base ListZ BufferProofs Utf8Model Utf8Spec Utf8Main QuoteModel QuoteSpec QuoteProofs QuoteProofs2 QuoteProofs3.
From Verif Require Import LexModel.
From Verif Require LexSpec LexProofs7.
Local Open Scope Z_scope.
Ltac Zify.zify_post_hook ::= idtac.

Notation found := LexProofs7.found.

(* the codes which UTF-8 can hold *)
Definition utf8_code (c : Z) : Prop := 0 <= c < 0x200000.
Lemma utf8_code_ok : forall cs, Forall utf8_code cs -> Forall code_ok cs.
Proof. intros cs H. eapply Forall_impl; [ | exact H ]. unfold utf8_code, code_ok. intros a Ha. exact Ha. Qed.

(* C101: quoting appends exactly the quoted form, whatever the contents of the uninitialised part of the buffer, and accesses
   only bytes in the buffer.  base: the text which was there before, in front of the terminating 0. *)
Theorem quoted_form : forall vec base cs junk, (vec = [] /\ base = [] \/ exists z, vec = base ++ [z]) ->
  Forall utf8_code cs -> len cs <= 0xFFFF -> append_str vec cs true junk = AOk (base ++ quoted cs ++ [0]).
Proof. intros. apply append_quoted; [ assumption | apply utf8_code_ok; assumption | assumption ]. Qed.
Example quoted_form_ex : append_str [88; 0] [65; 34; 10; 0xE9; 0x20AC] true 205 =
  AOk ([88] ++ [34; 65; 92; 34; 92; 120; 48; 97; 92; 120; 101; 57; 92; 120; 123; 50; 48; 97; 99; 125; 34] ++ [0]).
Proof. vm_compute. reflexivity. Qed.

Theorem unquoted_form : forall vec base cs junk, (vec = [] /\ base = [] \/ exists z, vec = base ++ [z]) ->
  Forall utf8_code cs -> len cs <= 0xFFFF -> cs <> [] -> append_str vec cs false junk = AOk (base ++ encode_32 cs ++ [0]).
Proof. intros. apply append_plain; [ assumption | apply utf8_code_ok; assumption | assumption | assumption ]. Qed.
Example unquoted_form_ex : append_str [65; 66; 0] [67; 0x20AC; 200] false 205 = AOk [65; 66; 67; 226; 130; 172; 195; 136; 0].
Proof. vm_compute. reflexivity. Qed.

Theorem quoting_invalid : forall vec cs quote junk, (exists c, In c cs /\ 0x200000 <= c) -> append_str vec cs quote junk = AInvalid.
Proof.
  intros vec cs quote junk H. unfold append_str. rewrite (calc_invalid cs 0 H).
  destruct H as (c & Hin & _). destruct cs as [|d cs]; [ destruct Hin | ].
  replace (0 <? len (d :: cs)) with true by (rewrite len_cons; pose proof (len_nonneg _ cs); lia). reflexivity.
Qed.
Example quoting_invalid_ex : append_str [65; 0] [66; 0xFFFFFF] true 205 = AInvalid.
Proof. vm_compute. reflexivity. Qed.

(* the result of make_quoted_str, which leaves the vector as it was *)
Lemma make_quoted : forall vec cs junk, Forall utf8_code cs -> len cs <= 0xFFFF ->
  (vec = [] \/ exists base, vec = base ++ [0]) -> make_quoted_str vec cs junk = AOk (quoted cs, vec).
Proof.
  intros vec cs junk H HL HV. unfold make_quoted_str.
  destruct HV as [->|(base & ->)].
  - rewrite (quoted_form [] [] cs junk) by (auto using in_eq). cbn [abind app]. change (len (@nil Z)) with 0. cbn [Z.eqb].
    cbn [Z.to_nat skipn]. rewrite firstn_app_len by (rewrite len_app; change (len [0]) with 1; lia). reflexivity.
  - rewrite (quoted_form (base ++ [0]) base cs junk); [ | right; exists 0; reflexivity | assumption | assumption ]. cbn [abind].
    pose proof (len_nonneg _ base). rewrite !len_app. change (len [0]) with 1. replace (len base + 1 =? 0) with false by lia.
    rewrite skipn_app_len by lia. rewrite (firstn_app_len _ (quoted cs) [0]) by lia.
    assert (E : exists q t, quoted cs ++ [0] = q :: t) by (unfold quoted; cbn [app]; eexists _, _; reflexivity). destruct E as (q & t & ->).
    replace (base ++ q :: t) with ((base ++ [q]) ++ t) by (rewrite <- app_assoc; reflexivity).
    rewrite firstn_app_len by (rewrite len_app; reflexivity). rewrite wr_mid by lia. reflexivity.
Qed.

(* reading back *)
Definition five_digit (c : Z) : Prop := 0 <= c < 0x100000.

Lemma hex_number_snoc : forall ds acc m, hex_number ds acc m -> forall d v, hex_val d v -> m * 16 + v <= 0xFFFFFF ->
  hex_number (ds ++ [d]) acc (m * 16 + v).
Proof.
  intros ds acc m H. induction H as [acc|c v t acc r Hv Hb Ht IH]; intros d w Hd Hm; cbn [app].
  - apply HN_cons with (v := w); [ exact Hd | exact Hm | apply HN_nil ].
  - apply HN_cons with (v := v); [ exact Hv | exact Hb | apply IH; assumption ].
Qed.
Lemma hexd_val : forall v, 0 <= v < 16 -> hex_val (hexd v) v.
Proof. intros v H. unfold hex_val, hexd. destruct (v <? 10) eqn:E; lia. Qed.
Lemma hex_of_number : forall n c, 0 <= c < 16 ^ Z.of_nat n -> c <= 0xFFFFFF -> hex_number (hex_of n c) 0 c.
Proof.
  induction n as [|n IH]; intros c H HM; cbn [hex_of].
  - change (16 ^ Z.of_nat 0) with 1 in H. replace c with 0 by lia. apply HN_nil.
  - pose proof (Z.div_mod c 16 ltac:(lia)) as D. pose proof (Z.mod_pos_bound c 16 ltac:(lia)) as M.
    rewrite Nat2Z.inj_succ, Z.pow_succ_r in H by lia.
    assert (N : hex_number (hex_of n (c / 16)) 0 (c / 16)) by (apply IH; [ split; [ apply Z.div_pos; lia | apply Z.div_lt_upper_bound; lia ] | lia ]).
    pose proof (hex_number_snoc _ _ _ N _ _ (hexd_val _ M) ltac:(lia)) as Q. replace (c / 16 * 16 + c mod 16) with c in Q by lia. exact Q.
Qed.
Lemma hex_of_nonempty : forall n c, hex_of (S n) c <> [].
Proof. intros. cbn [hex_of]. destruct (hex_of n (c / 16)); discriminate. Qed.

Lemma brace_text : forall n c t cs, 0 <= c < 16 ^ Z.of_nat (S n) -> c <= 0xFFFFFF -> text true t cs -> text true (braces (S n) c ++ t) (c :: cs).
Proof.
  intros n c t cs H HM T. unfold braces.
  replace (([92; 120; 123] ++ hex_of (S n) c ++ [125]) ++ t) with ([92] ++ (120 :: 123 :: hex_of (S n) c ++ [125]) ++ t)
    by (cbn [app]; rewrite <- !app_assoc; reflexivity).
  apply T_esc; [ reflexivity | apply L1; lia | | exact T ].
  apply ES_brace; [ apply hex_of_nonempty | apply hex_of_number; assumption ].
Qed.
Lemma char_text : forall c t cs, five_digit c -> text true t cs -> text true (quote_char c ++ t) (c :: cs).
Proof.
  intros c t cs H T. unfold five_digit in H. unfold quote_char.
  destruct ((c =? 34) || (c =? 92)) eqn:Q1; [ | destruct ((32 <=? c) && (c <=? 126)) eqn:Q2; [ | destruct (c <? 256) eqn:Q3;
    [ | destruct (c <? 2048) eqn:Q4; [ | destruct (c <? 65536) eqn:Q5 ] ] ] ].
  - change ([92; c] ++ t) with ([92] ++ [c] ++ t). apply T_esc; [ reflexivity | apply L1; lia | | exact T ].
    assert (D : c = 34 \/ c = 92) by lia. destruct D as [-> | ->]; [ apply ES_quote | apply ES_bs ].
  - apply T_char; [ apply L1; lia | lia | exact T ].
  - assert (E : hex_of 2 c = [hexd (c / 16); hexd (c mod 16)]).
    { cbn [hex_of app]. rewrite (Z.mod_small (c / 16)) by (Z.div_mod_to_equations; lia). reflexivity. }
    rewrite E. change (([92; 120] ++ [hexd (c / 16); hexd (c mod 16)]) ++ t) with ([92] ++ [120; hexd (c / 16); hexd (c mod 16)] ++ t).
    pose proof (Z.div_mod c 16 ltac:(lia)) as D. replace c with (c / 16 * 16 + c mod 16) at 3 by lia.
    apply T_esc; [ reflexivity | apply L1; lia | | exact T ].
    apply ES_hex2; apply hexd_val; Z.div_mod_to_equations; lia.
  - apply brace_text; [ change (16 ^ Z.of_nat 3) with 4096; lia | lia | exact T ].
  - apply brace_text; [ change (16 ^ Z.of_nat 4) with 65536; lia | lia | exact T ].
  - apply brace_text; [ change (16 ^ Z.of_nat 5) with 1048576; lia | lia | exact T ].
Qed.
Lemma body_text : forall cs, Forall five_digit cs -> text true (qbody cs) cs.
Proof.
  induction cs as [|c cs IH]; intros H; [ constructor | ]. inversion_clear H. cbn [qbody flat_map]. apply char_text; [ assumption | apply IH; assumption ].
Qed.

(* the lexer accepts it *)
Lemma hexd_char : forall v, 0 <= v < 16 -> LexSpec.HexChar (hexd v) /\ 48 <= hexd v <= 102.
Proof. intros v H. unfold LexSpec.HexChar, LexSpec.DecimalDigit, hexd. destruct (v <? 10) eqn:E; lia. Qed.
Lemma hex_of_chars : forall n c, Forall (fun d => LexSpec.HexChar d /\ 48 <= d <= 102) (hex_of n c).
Proof.
  induction n; intros; cbn [hex_of]; [ constructor | ]. apply Forall_app. split; [ apply IHn | ].
  apply Forall_cons; [ | apply Forall_nil ]. apply hexd_char. apply Z.mod_pos_bound. lia.
Qed.
Lemma char_body : forall c l, utf8_code c -> LexSpec.StringBody l -> LexSpec.StringBody (quote_char c ++ l).
Proof.
  intros c l Hc B. unfold utf8_code in Hc.
  assert (BR : forall n, (1 <= n <= 6)%nat -> LexSpec.StringBody (braces n c ++ l)).
  { intros n Hn. unfold braces.
    replace (([92; 120; 123] ++ hex_of n c ++ [125]) ++ l) with (92 :: ([120; 123] ++ hex_of n c ++ [125]) ++ l)
      by (cbn [app]; rewrite <- !app_assoc; reflexivity).
    apply LexSpec.sb_esc; [ | exact B ]. right; right; right. exists (hex_of n c). split; [ reflexivity | ].
    split; [ eapply Forall_impl; [ | apply hex_of_chars ]; intros a Ha; apply Ha | rewrite hex_of_len; exact Hn ]. }
  unfold quote_char.
  destruct ((c =? 34) || (c =? 92)) eqn:Q1; [ | destruct ((32 <=? c) && (c <=? 126)) eqn:Q2; [ | destruct (c <? 256) eqn:Q3;
    [ | destruct (c <? 2048) eqn:Q4; [ | destruct (c <? 65536) eqn:Q5 ] ] ] ].
  - apply (LexSpec.sb_esc [c]); [ | exact B ]. left. exists c. split; [ reflexivity | lia ].
  - apply LexSpec.sb_plain; [ lia | lia | unfold LexSpec.is_eol_char; lia | exact B ].
  - cbn [hex_of app]. apply (LexSpec.sb_esc [120; _; _]); [ | exact B ]. right; right; left. eexists _, _. split; [ reflexivity | ].
    split; apply hexd_char; apply Z.mod_pos_bound; lia.
  - apply BR; lia.
  - apply BR; lia.
  - apply BR; lia.
Qed.
Lemma qbody_body : forall cs, Forall utf8_code cs -> LexSpec.StringBody (qbody cs).
Proof.
  induction cs as [|c cs IH]; intros H; [ constructor | ]. inversion_clear H. cbn [qbody flat_map]. apply char_body; [ assumption | apply IH; assumption ].
Qed.
Lemma char_ascii : forall c, utf8_code c -> Forall (fun b => 32 <= b < 127) (quote_char c).
Proof.
  intros c Hc. unfold utf8_code in Hc.
  assert (HX : forall n, Forall (fun b => 32 <= b < 127) (hex_of n c)).
  { intros n. eapply Forall_impl; [ | apply hex_of_chars ]. cbv beta. intros a Ha. lia. }
  assert (BR : forall n, Forall (fun b => 32 <= b < 127) (braces n c)).
  { intros n. unfold braces. apply Forall_app. split; [ repeat constructor; lia | ]. apply Forall_app. split; [ apply HX | repeat constructor; lia ]. }
  unfold quote_char.
  destruct ((c =? 34) || (c =? 92)) eqn:Q1; [ | destruct ((32 <=? c) && (c <=? 126)) eqn:Q2; [ | destruct (c <? 256) eqn:Q3;
    [ | destruct (c <? 2048) eqn:Q4; [ | destruct (c <? 65536) eqn:Q5 ] ] ] ].
  - repeat constructor; lia.
  - repeat constructor; lia.
  - apply Forall_app. split; [ repeat constructor; lia | apply HX ].
  - apply BR.
  - apply BR.
  - apply BR.
Qed.

(* C101: the quoted form has only printable ASCII characters *)
Theorem quoted_printable : forall cs, Forall utf8_code cs -> Forall (fun b => 32 <= b < 127) (quoted cs).
Proof.
  intros cs H. unfold quoted. apply Forall_cons; [ lia | ]. apply Forall_app. split; [ | apply Forall_cons; [ lia | apply Forall_nil ] ].
  induction H as [|c cs Hc _ IH]; cbn [flat_map]; [ constructor | ]. apply Forall_app. split; [ apply char_ascii; exact Hc | exact IH ].
Qed.
Example quoted_printable_ex : quoted [7; 0x7F; 0xFF; 0x1F600] =
  [34; 92; 120; 48; 55; 92; 120; 55; 102; 92; 120; 102; 102; 92; 120; 123; 49; 102; 54; 48; 48; 125; 34].
Proof. vm_compute. reflexivity. Qed.

Lemma ascii_wf : forall l, Forall (fun b => 32 <= b < 127) l -> LexSpec.well_formed l.
Proof. intros l H. induction H; constructor; [ lia | assumption ]. Qed.

Lemma token_str : forall body n, n = len body + 2 -> n <= 0xFFFF -> forall rest,
  get_token_str (34 :: body ++ [34] ++ rest) n false = (body, true).
Proof.
  intros body n -> HL rest. unfold get_token_str. cbn [Z.eqb Pos.eqb orb negb]. f_equal.
  change (Z.to_nat 1) with 1%nat. cbn [skipn]. pose proof (len_nonneg _ body).
  unfold u16, uwrap. rewrite Z.mod_small by (change (2 ^ 16) with 65536; lia). apply firstn_app_len. lia.
Qed.

(* C24: the lexer reads a quoted string as one string literal, and that literal denotes the string which was quoted, unless
   the string has characters from 0x100000. *)
Theorem quoted_reads_back_partial : forall vec cs junk x rest, Forall five_digit cs -> len cs <= 0xFFFF -> len (quoted cs) <= 0xFFFF ->
  (vec = [] \/ exists base, vec = base ++ [0]) -> l_rest x = quoted cs ++ rest ->
  make_quoted_str vec cs junk = AOk (quoted cs, vec) /\
  found x TStr (quoted cs) rest /\
  let '(body, esc) := get_token_str (l_rest x) (len (quoted cs)) false in
  decode 32 esc body = Ok cs /\ exists mx, get_len esc 0 body = Ok (len cs, mx).
Proof.
  intros vec cs junk x rest H HL HQ HV HX.
  assert (HU : Forall utf8_code cs) by (eapply Forall_impl; [ | exact H ]; unfold five_digit, utf8_code; intros a Ha; lia).
  split; [ apply make_quoted; assumption | ].
  assert (EQ : quoted cs = 34 :: qbody cs ++ [34]) by reflexivity.
  assert (LQ : len (quoted cs) = len (qbody cs) + 2) by (rewrite EQ, len_cons, len_app; change (len [34]) with 1; lia).
  split.
  - rewrite EQ. apply LexProofs7.string_found.
    + rewrite HX, EQ. cbn [app]. rewrite <- app_assoc. reflexivity.
    + apply qbody_body. exact HU.
    + pose proof (quoted_printable cs HU) as P. rewrite EQ in P. apply ascii_wf. inversion_clear P as [|? ? _ P']. apply Forall_app in P'. apply P'.
    + fold (len (qbody cs)). lia.
  - rewrite HX, EQ. replace ((34 :: qbody cs ++ [34]) ++ rest) with (34 :: qbody cs ++ [34] ++ rest) by (cbn [app]; rewrite <- app_assoc; reflexivity).
    rewrite token_str by (rewrite <- ?EQ; lia). pose proof (body_text cs H) as T. split.
    + unfold decode. rewrite (decode_loop_spec 32 true _ cs); [ reflexivity | right; right; reflexivity | exact T | | lia ].
      intros c Hc. rewrite Forall_forall in H. specialize (H c Hc). unfold five_digit in H. change (2 ^ 32) with 4294967296. lia.
    + pose proof (get_len_loop_spec (length (qbody cs)) true 0 (qbody cs) 0 0 (text_bytes _ _ _ T) (Nat.le_refl _) ltac:(lia)) as G.
      fold (get_len true 0 (qbody cs)) in G. destruct (get_len true 0 (qbody cs)) as [[n m]| |]; cbn [len_post] in G.
      * destruct G as (cs' & T' & Hn & _). rewrite <- (text_det _ _ _ T _ T') in Hn. exists m. f_equal. f_equal. unfold len. lia.
      * exfalso. apply G. exists cs. exact T.
      * destruct G.
Qed.
Example quoted_reads_back_ex : decode 32 true (fst (get_token_str (quoted [65; 34; 0xE9; 0xFFFFF] ++ [59]) (len (quoted [65; 34; 0xE9; 0xFFFFF])) false))
  = Ok [65; 34; 0xE9; 0xFFFFF].
Proof. vm_compute. reflexivity. Qed.

(* C24: two strings with the same quoted form are the same *)
Theorem quoted_injective : forall cs1 cs2, Forall five_digit cs1 -> Forall five_digit cs2 -> quoted cs1 = quoted cs2 -> cs1 = cs2.
Proof.
  intros cs1 cs2 H1 H2 E. unfold quoted in E. injection E as E. apply app_inv_tail in E.
  pose proof (body_text cs1 H1) as T1. pose proof (body_text cs2 H2) as T2. unfold qbody in *. rewrite E in T1. exact (text_det _ _ _ T1 _ T2).
Qed.
Example quoted_injective_ex : quoted [92; 120; 52; 49] <> quoted [65] /\ quoted [0xFFFF] <> quoted [0xF; 0xFFF].
Proof. split; vm_compute; discriminate. Qed.

(* C24: the last character, U+10FFFF, is read back as U+FFFF *)
Theorem quoted_reads_back_refuted : exists cs, Forall (fun c => 0 <= c <= 0x10FFFF) cs /\ exists body,
  make_quoted_str [] cs 0 = AOk (34 :: body ++ [34], []) /\ get_token_str (34 :: body ++ [34]) (len body + 2) false = (body, true) /\
  decode 32 true body = Ok [0xFFFF] /\ cs = [0x10FFFF].
Proof.
  exists [0x10FFFF]. split; [ repeat constructor; lia | ]. exists [92; 120; 123; 48; 102; 102; 102; 102; 125].
  split; [ vm_compute; reflexivity | ]. split; [ vm_compute; reflexivity | ]. split; [ vm_compute; reflexivity | reflexivity ].
Qed.

Print Assumptions quoted_form.
Print Assumptions unquoted_form.
Print Assumptions quoting_invalid.
Print Assumptions quoted_printable.
Print Assumptions quoted_reads_back_partial.
Print Assumptions quoted_injective.
Print Assumptions quoted_reads_back_refuted.
