From Coq Require Import ZArith List Lia Bool ZifyBool.
Import ListNotations.
From Verif Require Import Base ListZ BufferProofs Utf8Model Utf8Spec Utf8Main QuoteModel QuoteSpec.
Local Open Scope Z_scope.
Ltac Zify.zify_post_hook ::= idtac.

(* reading and writing *)
Lemma inb_mid : forall B D i, 0 <= i - len B < len D -> inb (B ++ D) i = true.
Proof. intros. unfold inb. rewrite len_app. pose proof (len_nonneg _ B). lia. Qed.
Lemma nth_mid : forall (B D : list Z) y, nth_error (B ++ y :: D) (length B) = Some y.
Proof. intros. rewrite nth_error_app2 by lia. rewrite Nat.sub_diag. reflexivity. Qed.
Lemma rd_mid : forall B y D i, i = len B -> rd (B ++ y :: D) i = AOk y.
Proof.
  intros B y D i ->. unfold rd. rewrite inb_mid by (rewrite len_cons; pose proof (len_nonneg _ D); lia).
  rewrite to_nat_len, nth_mid. reflexivity.
Qed.
Lemma wr_mid : forall B y D i v, i = len B -> wr (B ++ y :: D) i v = AOk (B ++ v :: D).
Proof.
  intros B y D i v ->. unfold wr. rewrite inb_mid by (rewrite len_cons; pose proof (len_nonneg _ D); lia).
  rewrite firstn_app_len by reflexivity. f_equal. f_equal. f_equal. rewrite to_nat_len.
  replace (length B + 1)%nat with (length (B ++ [y])) by (rewrite app_length; reflexivity).
  replace (B ++ y :: D) with ((B ++ [y]) ++ D) by (rewrite <- app_assoc; reflexivity).
  rewrite skipn_app, skipn_all, Nat.sub_diag. reflexivity.
Qed.
Lemma wr_all_mid : forall vs W B D i, i = len B -> length W = length vs -> wr_all (B ++ W ++ D) i vs = AOk (B ++ vs ++ D).
Proof.
  induction vs as [|v vs IH]; intros W B D i Hi HL; destruct W as [|w W]; try discriminate HL.
  - reflexivity.
  - cbn [wr_all app]. rewrite wr_mid by assumption. cbn [abind].
    replace (B ++ v :: W ++ D) with ((B ++ [v]) ++ W ++ D) by (rewrite <- app_assoc; reflexivity).
    rewrite IH; [ rewrite <- app_assoc; reflexivity | rewrite len_app, Hi; reflexivity | injection HL as HL; exact HL ].
Qed.

Lemma hex_digit_ok : forall v, 0 <= v < 16 -> hex_digit v = AOk (hexd v).
Proof. intros v H. unfold hex_digit, hexd. destruct (v <? 10) eqn:E; [ replace ((0 <=? v) && true) with true by lia; reflexivity | ].
  replace ((0 <=? v) && false) with false by lia. replace ((10 <=? v) && (v <? 16)) with true by lia. reflexivity. Qed.
Lemma land_15 : forall c, Z.land c 0xF = c mod 16.
Proof. intros. change 0xF with (Z.ones 4). rewrite Z.land_ones by lia. reflexivity. Qed.
Lemma shiftr_4 : forall c, Z.shiftr c 4 = c / 16.
Proof. intros. rewrite Z.shiftr_div_pow2 by lia. reflexivity. Qed.
Lemma hex_of_len : forall n c, length (hex_of n c) = n.
Proof. induction n; intros; cbn [hex_of]; [ reflexivity | ]. rewrite app_length, IHn. cbn. lia. Qed.

Lemma put_digits_ok : forall n W B D dst code, length W = n -> dst = len B + Z.of_nat n ->
  put_digits n (B ++ W ++ D) dst code = AOk (B ++ hex_of n code ++ D, len B).
Proof.
  induction n as [|n IH]; intros W B D dst code HL Hd.
  - destruct W; [ | discriminate HL ]. cbn [put_digits hex_of app]. f_equal. f_equal. lia.
  - cbn [put_digits hex_of]. rewrite land_15. rewrite hex_digit_ok by (apply Z.mod_pos_bound; lia). cbn [abind].
    destruct (exists_last (l := W)) as (W' & w & ->); [ destruct W; [ discriminate HL | discriminate ] | ].
    rewrite app_length in HL. cbn [length] in HL.
    rewrite <- (app_assoc W'). cbn [app]. rewrite (app_assoc B W').
    rewrite wr_mid by (rewrite len_app; unfold len at 2; lia). cbn [abind].
    rewrite <- (app_assoc B W'). rewrite IH by lia. rewrite <- app_assoc, shiftr_4. reflexivity.
Qed.

(* the encoding of a character and its quoted form *)
Definition enc := encode_char_32.
Definition code_ok (c : Z) : Prop := 0 <= c < 2 ^ 21.

Lemma decode_one : forall c, code_ok c -> decode 32 false (enc c) = Ok [c].
Proof.
  intros c H. unfold decode.
  assert (T : text false (enc c) [c]).
  { pose proof (encode_text [c]) as T. cbn [encode_32 flat_map] in T. rewrite app_nil_r in T. apply T. intros x [<-|[]]. exact H. }
  rewrite (decode_loop_spec 32 false (enc c) [c]); [ reflexivity | right; right; reflexivity | exact T | | lia ].
  intros x [<-|[]]. unfold code_ok in H. change (2 ^ 21) with 2097152 in H. change (2 ^ 32) with 4294967296. lia.
Qed.
Lemma decode_code_ok : forall A c D src n, code_ok c -> src = len A -> n = len (enc c) ->
  decode_code (A ++ enc c ++ D) src n = AOk c.
Proof.
  intros A c D src n H -> ->. unfold decode_code.
  replace ((0 <=? len A) && (len A + len (enc c) <=? len (A ++ enc c ++ D))) with true
    by (rewrite !len_app; pose proof (len_nonneg _ A); pose proof (len_nonneg _ D); lia).
  rewrite skipn_app_len by reflexivity. rewrite firstn_app_len by reflexivity. rewrite decode_one by assumption. reflexivity.
Qed.

Lemma split_tail : forall (M : list Z) q, (q <= length M)%nat -> exists R W, M = R ++ W /\ length W = q.
Proof.
  intros M q H. exists (firstn (length M - q) M), (skipn (length M - q) M). split; [ symmetry; apply firstn_skipn | ].
  rewrite skipn_length. lia.
Qed.

Definition step_ok (c : Z) : Prop := forall f A gap D dst,
  dst = len A + len (enc c) + len gap -> 0 < len gap -> len (quote_char c) - len (enc c) <= len gap ->
  exists R, len R = len (enc c) + len gap - len (quote_char c) /\
    quote_loop (length (enc c) + f) (A ++ enc c ++ gap ++ D) (len A + len (enc c)) dst 0 =
    quote_loop f (A ++ R ++ quote_char c ++ D) (len A) (len A + len R) 0.

Lemma loop_cont : forall f B y D src dst k, src = len B + 1 -> src < dst -> 128 <= y < 192 ->
  quote_loop (S f) (B ++ y :: D) src dst k = quote_loop f (B ++ y :: D) (src - 1) dst (k + 1).
Proof.
  intros f B y D src dst k H1 H2 H3. cbn [quote_loop]. replace (src <? dst) with true by lia.
  rewrite rd_mid by lia. cbn [abind]. replace (extra_len_map y =? -1) with true; [ reflexivity | ].
  unfold extra_len_map. repeat (match goal with |- context [if ?b then _ else _] => destruct b eqn:? end; try lia).
Qed.

(* the character step: the last iteration, at the first byte *)
Ltac mapz := unfold extra_len_map; repeat (match goal with |- context [if ?b then _ else _] => destruct b eqn:? end; try lia).

Lemma enc_ascii : forall c, 0 <= c < 128 -> enc c = [c].
Proof. intros c H. unfold enc, encode_char_32. change (2 ^ 7) with 128. replace (c <? 128) with true by lia. unfold uwrap. rewrite Z.mod_small by lia. reflexivity. Qed.

Lemma put_braces : forall n B W D dst code, length W = (n + 4)%nat -> dst = len B + len W ->
  (let! b := wr (B ++ W ++ D) (dst - 1) 125 in
   let! (b, d) := put_digits n b (dst - 1) code in
   let! b := wr_all b (d - 3) [92; 120; 123] in AOk (b, d - 3)) = AOk (B ++ braces n code ++ D, len B).
Proof.
  intros n B W D dst code HW Hd.
  destruct (split_tail W (n + 1)) as (W3 & W' & -> & HW'); [ lia | ].
  destruct (split_tail W' 1) as (Wn & w & -> & Hw); [ lia | ].
  destruct w as [|w []]; try discriminate Hw.
  rewrite !app_length in *. cbn [length] in *. rewrite !len_app in Hd. change (len [w]) with 1 in Hd.
  assert (L3 : len W3 = 3) by (unfold len; lia). assert (Ln : len Wn = Z.of_nat n) by (unfold len; lia).
  replace (B ++ (W3 ++ Wn ++ [w]) ++ D) with ((B ++ W3 ++ Wn) ++ w :: D) by (rewrite <- !app_assoc; reflexivity).
  rewrite wr_mid by (rewrite !len_app; lia). cbn [abind].
  replace ((B ++ W3 ++ Wn) ++ 125 :: D) with ((B ++ W3) ++ Wn ++ 125 :: D) by (rewrite <- !app_assoc; reflexivity).
  rewrite put_digits_ok by (rewrite ?len_app; lia). cbn [abind].
  rewrite <- (app_assoc B W3). rewrite (wr_all_mid _ W3) by (rewrite ?len_app; cbn [length]; lia). cbn [abind].
  unfold braces. rewrite <- !app_assoc. rewrite len_app. f_equal. f_equal. lia.
Qed.

Lemma loop_brace : forall n f B W D A dst code, length W = (n + 4)%nat -> dst = len B + len W ->
  (let! b := wr (B ++ W ++ D) (dst - 1) 125 in
   let! (b, d) := put_digits n b (dst - 1) code in
   let! b := wr_all b (d - 3) [92; 120; 123] in
   quote_loop f b A (d - 3) 0) = quote_loop f (B ++ braces n code ++ D) A (len B) 0.
Proof.
  intros n f B W D A dst code HW Hd. pose proof (put_braces n B W D dst code HW Hd) as P.
  destruct (wr (B ++ W ++ D) (dst - 1) 125) as [b| | |]; try discriminate P. cbn [abind] in *.
  destruct (put_digits n b (dst - 1) code) as [[b1 d]| | |]; try discriminate P. cbn [abind] in *.
  destruct (wr_all b1 (d - 3) [92; 120; 123]) as [b2| | |]; try discriminate P. cbn [abind] in *.
  assert (b2 = B ++ braces n code ++ D /\ d - 3 = len B) as [-> ->] by (split; congruence). reflexivity.
Qed.

Lemma quote_loop_first : forall f A c M D dst k, code_ok c -> M <> [] ->
  (* M: the bytes of the character and the gap *)
  (exists gap, M = enc c ++ gap) -> k = len (enc c) - 1 -> dst = len A + len M -> len (quote_char c) <= len M -> 1 < len M ->
  exists R, len R = len M - len (quote_char c) /\
    quote_loop (S f) (A ++ M ++ D) (len A + 1) dst k = quote_loop f (A ++ R ++ quote_char c ++ D) (len A) (len A + len R) 0.
Proof.
  intros f A c M D dst k Hc HM (gap & EM) Hk Hd HQ H1.
  destruct (split_tail M (length (quote_char c))) as (R & W & E & HW); [ unfold len in *; lia | ].
  exists R. assert (HR : len M = len R + len (quote_char c)) by (rewrite E, len_app; unfold len; lia). split; [ lia | ].
  destruct (encode_char_layout c Hc) as [L Sh]. fold enc in L, Sh. destruct Sh as (S1 & S2 & S3 & S4).
  cbn [quote_loop]. replace (len A + 1 <? dst) with true by lia.
  destruct (enc c) as [|y0 ys] eqn:Ee; [ inversion L | ].
  assert (Erd : rd (A ++ M ++ D) (len A + 1 - 1) = AOk y0).
  { rewrite EM. cbn [app]. apply rd_mid. lia. }
  rewrite Erd. cbn [abind]. clear Erd.
  assert (Edec : code_ok c -> decode_code (A ++ M ++ D) (len A + 1 - 1) (k + 1) = AOk c).
  { intros _. rewrite EM, <- Ee. rewrite <- app_assoc. apply decode_code_ok; [ exact Hc | lia | rewrite Ee; lia ]. }
  specialize (Edec Hc). 
  assert (EA : A ++ M ++ D = (A ++ R) ++ W ++ D) by (rewrite E, <- !app_assoc; reflexivity).
  assert (LA : len (A ++ R) = len A + len R) by apply len_app.
  assert (EF : A ++ R ++ quote_char c ++ D = (A ++ R) ++ quote_char c ++ D) by (rewrite <- app_assoc; reflexivity).
  rewrite EF. 
  assert (Hcont : forall b, cont_byte b -> 128 <= b <= 191) by (unfold cont_byte; lia).
  unfold quote_char in *.
  destruct ((c =? 34) || (c =? 92)) eqn:Q1; [ | destruct ((32 <=? c) && (c <=? 126)) eqn:Q2; [ | destruct (c <? 256) eqn:Q3;
    [ destruct (c <? 128) eqn:Q3' | destruct (c <? 2048) eqn:Q4; [ | destruct (c <? 65536) eqn:Q5 ] ] ] ].
  - rewrite enc_ascii in Ee by lia. injection Ee as <- <-.
    assert (Em : extra_len_map c = 1) by mapz. rewrite Em. cbn [Z.eqb Z.opp Pos.eqb].
    destruct W as [|w1 [|w2 [|]]]; try discriminate HW.
    change (len [92; c]) with 2 in *.
    rewrite EA. cbn [app]. change ((A ++ R) ++ w1 :: w2 :: D) with ((A ++ R) ++ [w1] ++ w2 :: D). rewrite (app_assoc (A ++ R)).
    rewrite wr_mid by (rewrite len_app; change (len [w1]) with 1; lia). cbn [abind].
    rewrite <- (app_assoc (A ++ R)). cbn [app]. rewrite wr_mid by lia. cbn [abind].
    replace (len A + 1 - 1) with (len A) by lia. replace (dst - 2) with (len A + len R) by lia.
    replace k with 0 by (rewrite Hk; reflexivity). reflexivity.
  - rewrite enc_ascii in Ee by lia. injection Ee as <- <-.
    assert (Em : extra_len_map c = 0) by mapz. rewrite Em. cbn [Z.eqb Z.opp Pos.eqb].
    destruct W as [|w1 [|]]; try discriminate HW.
    change (len [c]) with 1 in *.
    rewrite EA. cbn [app]. rewrite wr_mid by lia. cbn [abind].
    replace (len A + 1 - 1) with (len A) by lia. replace (dst - 1) with (len A + len R) by lia.
    replace k with 0 by (rewrite Hk; reflexivity). reflexivity.
  - rewrite enc_ascii in Ee by (unfold code_ok in Hc; lia). injection Ee as <- <-.
    assert (Em : extra_len_map c = 3) by (unfold code_ok in Hc; mapz). rewrite Em. cbn [Z.eqb Z.opp Pos.eqb].
    replace k with 0 by (rewrite Hk; reflexivity). cbn [Z.eqb abind].
    rewrite shiftr_4, land_15. rewrite !hex_digit_ok by (unfold code_ok in Hc; Z.div_mod_to_equations; lia). cbn [abind].
    assert (Hh : [92; 120] ++ hex_of 2 c = [92; 120; hexd (c / 16); hexd (c mod 16)]).
    { cbn [hex_of app]. rewrite (Z.mod_small (c / 16)) by (unfold code_ok in Hc; Z.div_mod_to_equations; lia). reflexivity. }
    rewrite Hh in *. change (len [92; 120; hexd (c / 16); hexd (c mod 16)]) with 4 in *.
    rewrite EA. rewrite (wr_all_mid _ W) by (try assumption; lia). cbn [abind].
    replace (len A + 1 - 1) with (len A) by lia. replace (dst - 4) with (len A + len R) by lia. reflexivity.
  - assert (L2' : length (y0 :: ys) = 2%nat) by (apply S2; lia).
    assert (Em : extra_len_map y0 = 3).
    { inversion L as [a Ha|a b Ha Hb|a b d Ha Hb Hd'|a b d e Ha Hb Hd' He]; subst; try discriminate L2'. apply Hcont in Hb. mapz. }
    rewrite Em. cbn [Z.eqb Z.opp Pos.eqb].
    replace (k =? 0) with false by (rewrite Hk; unfold len; rewrite L2'; reflexivity). rewrite Edec. cbn [abind].
    rewrite shiftr_4, land_15. rewrite !hex_digit_ok by (unfold code_ok in Hc; Z.div_mod_to_equations; lia). cbn [abind].
    assert (Hh : [92; 120] ++ hex_of 2 c = [92; 120; hexd (c / 16); hexd (c mod 16)]).
    { cbn [hex_of app]. rewrite (Z.mod_small (c / 16)) by (unfold code_ok in Hc; Z.div_mod_to_equations; lia). reflexivity. }
    rewrite Hh in *. change (len [92; 120; hexd (c / 16); hexd (c mod 16)]) with 4 in *.
    rewrite EA. rewrite (wr_all_mid _ W) by (try assumption; lia). cbn [abind].
    replace (len A + 1 - 1) with (len A) by lia. replace (dst - 4) with (len A + len R) by lia. reflexivity.
  - assert (HB : extra_len_map y0 = 6).
    { assert (L2' : length (y0 :: ys) = 2%nat) by (apply S2; lia).
      inversion L as [a Ha|a b Ha Hb|a b d Ha Hb Hd'|a b d e Ha Hb Hd' He]; subst; try discriminate L2'. apply Hcont in Hb. mapz. }
    rewrite HB. cbn [Z.eqb Z.opp Pos.eqb]. rewrite Edec. cbn [abind]. change (Z.to_nat (6 - 3)) with 3%nat.
    rewrite EA. rewrite (loop_brace 3 f (A ++ R) W D (len A + 1 - 1) dst c);
      [ replace (len A + 1 - 1) with (len A) by lia; rewrite LA; reflexivity | rewrite HW; reflexivity | ].
    replace (len W) with (len (braces 3 c)) by (unfold len; lia). lia.
  - assert (HB : extra_len_map y0 = 7).
    { assert (L2' : length (y0 :: ys) = 3%nat) by (apply S3; lia).
      inversion L as [a Ha|a b Ha Hb|a b d Ha Hb Hd'|a b d e Ha Hb Hd' He]; subst; try discriminate L2'. apply Hcont in Hb. mapz. }
    rewrite HB. cbn [Z.eqb Z.opp Pos.eqb]. rewrite Edec. cbn [abind]. change (Z.to_nat (7 - 3)) with 4%nat.
    rewrite EA. rewrite (loop_brace 4 f (A ++ R) W D (len A + 1 - 1) dst c);
      [ replace (len A + 1 - 1) with (len A) by lia; rewrite LA; reflexivity | rewrite HW; reflexivity | ].
    replace (len W) with (len (braces 4 c)) by (unfold len; lia). lia.
  - assert (HB : extra_len_map y0 = 8).
    { assert (L2' : length (y0 :: ys) = 4%nat) by (apply S4; lia).
      inversion L as [a Ha|a b Ha Hb|a b d Ha Hb Hd'|a b d e Ha Hb Hd' He]; subst; try discriminate L2'. apply Hcont in Hb. mapz. }
    rewrite HB. cbn [Z.eqb Z.opp Pos.eqb]. rewrite Edec. cbn [abind]. change (Z.to_nat (8 - 3)) with 5%nat.
    rewrite EA. rewrite (loop_brace 5 f (A ++ R) W D (len A + 1 - 1) dst c);
      [ replace (len A + 1 - 1) with (len A) by lia; rewrite LA; reflexivity | rewrite HW; reflexivity | ].
    replace (len W) with (len (braces 5 c)) by (unfold len; lia). lia.
Qed.
