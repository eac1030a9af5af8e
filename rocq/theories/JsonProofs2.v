(* Strings and numbers. *)
From Coq Require Import String Ascii ZArith List Lia Bool ZifyBool.
Import ListNotations.
From Verif Require Import Base ListZ Utf8Model Utf8Spec Utf8Main Utf8Props LexModel LexSpec LexTokens LexProofs LexProofs2 LexProofs3 LexProofs4 LexProofs5 LexProofs6 LexProofs7 ParseIntModel ParseIntSpec ParseIntProofs JsonModel JsonSpec JsonProofs.
Local Open Scope Z_scope.
Ltac Zify.zify_post_hook ::= idtac.

Lemma encode_ascii : forall s, Forall (fun c => 0 <= c < 128) s -> encode_32 s = s.
Proof.
  intros s F. induction F as [| c s C F IH]; [reflexivity |]. unfold encode_32 in *. cbn [flat_map]. rewrite IH. unfold encode_char_32.
  change (2 ^ 7) with 128. replace (c <? 128) with true by lia. unfold uwrap. rewrite Z.mod_small by (change (2 ^ 8) with 256; lia). reflexivity.
Qed.

(* strings *)
Lemma encode_good : forall cs, json_chars cs -> StringBody (encode_32 cs) /\ LexSpec.well_formed (encode_32 cs).
Proof.
  intros cs F. induction F as [| c cs (C & N1 & N2) F [IS IW]]; [split; constructor |].
  change (encode_32 (c :: cs)) with (encode_char_32 c ++ encode_32 cs).
  destruct (encode_char_layout c ltac:(change (2 ^ 21) with 2097152; lia)) as [L S]. unfold shortest in S. set (bs := encode_char_32 c) in *. clearbody bs.
  destruct L as [a A | a b A B | a b d A B D | a b d e A B D E]; unfold cont_byte in *; cbn [length app] in *.
  - split; [apply sb_plain; [assumption | assumption | unfold is_eol_char; lia | assumption] | apply wf_one; [lia | assumption]].
  - split; [repeat (apply sb_plain; [lia | lia | unfold is_eol_char; lia |]); assumption | apply wf_two; [lia | unfold tail_byte; lia | assumption]].
  - destruct S as (_ & _ & S & _). pose proof (proj1 S eq_refl) as SR.
    split; [repeat (apply sb_plain; [lia | lia | unfold is_eol_char; lia |]); assumption | apply wf_three; [lia | lia | unfold tail_byte; lia .. | assumption]].
  - destruct S as (_ & _ & _ & S). pose proof (proj1 S eq_refl) as SR.
    split; [repeat (apply sb_plain; [lia | lia | unfold is_eol_char; lia |]); assumption | apply wf_four; [lia | lia | unfold tail_byte; lia .. | assumption]].
Qed.
Lemma length_encode : forall cs, json_chars cs -> (length cs <= length (encode_32 cs))%nat.
Proof.
  intros cs F. induction F as [| c cs (C & _) F IH]; [reflexivity |]. change (encode_32 (c :: cs)) with (encode_char_32 c ++ encode_32 cs).
  rewrite app_length. cbn [length]. assert (1 <= length (encode_char_32 c))%nat; [| lia].
  unfold encode_char_32. destruct (c <? 2 ^ 7); [cbn; lia |]. destruct (c <? 2 ^ 11); [cbn; lia |]. destruct (c <? 2 ^ 16); cbn; lia.
Qed.
Lemma lx_string : forall s cs, json_quoted s cs -> lx any (encode_32 s) [KVal (JStr cs)].
Proof.
  intros s cs [-> C] x rest f R _ L F. destruct (encode_good cs C) as [SB WF].
  assert (ES : encode_32 ([34] ++ cs ++ [34]) = 34 :: encode_32 cs ++ [34]) by (rewrite !encode_app; reflexivity).
  assert (D : decode 32 false (encode_32 ([34] ++ cs ++ [34])) = Ok ([34] ++ cs ++ [34])).
  { apply (utf8_roundtrip _ 0).
    - intros c I. change (2 ^ 21) with 2097152. apply in_app_or in I. destruct I as [[<- | []] | I]; [lia |]. apply in_app_or in I. destruct I as [I | [<- | []]]; [| lia].
      unfold json_chars in C. rewrite Forall_forall in C. specialize (C c I). lia.
    - pose proof (length_encode cs C) as LE. rewrite ES in L. cbn [app length] in L |- *. rewrite !app_length in *. cbn [length] in *. change (2 ^ 32) with 4294967296. lia. }
  rewrite ES in *. destruct f as [| f]; [lia |].
  assert (R' : l_rest x = 34 :: encode_32 cs ++ 34 :: rest) by (rewrite R; cbn [app]; rewrite <- app_assoc; reflexivity).
  assert (FO : found x TStr (34 :: encode_32 cs ++ [34]) rest).
  { apply string_found; [exact R' | exact SB | exact WF |]. cbn [app length] in L. rewrite !app_length in L. cbn [length] in L. lia. }
  destruct (found_text _ _ _ _ FO) as (t & x1 & N & T & TX & R1). exists x1, f. cbn [json_tokens]. rewrite N, T, TX. unfold json_string. rewrite D.
  cbn [app tl]. rewrite removelast_app by discriminate. cbn [removelast]. rewrite app_nil_r. split; [reflexivity |]. split; [exact R1 |].
  cbn [app length] in F. rewrite app_length in F. lia.
Qed.

(* numbers *)
Definition ends (c : lt) : Prop := is_digit_or_underscore c = false /\ is_alnum c = false /\ c <> LOp /\ c <> LLetter.
Lemma delim_next : forall x rest, l_rest x = rest -> delim rest -> exists c x1, prefetch x = (c, rest, x1) /\ ends c /\ (rest = [] -> c = LEof) /\
  (forall d r, rest = d :: r -> is_eof c = false /\ d <> 120 /\ d <> 88 /\ d <> 98 /\ d <> 66).
Proof.
  intros x rest R D. destruct (prefetch x) as [[c b] x1] eqn:P. destruct (prefetch_eq _ _ _ _ P) as (Eb & Nc & _). rewrite R in Eb. subst b.
  exists c, x1. split; [reflexivity |]. destruct rest as [| d r].
  - cbn in Nc. injection Nc as <- _. split; [repeat split; discriminate |]. split; [reflexivity | intros d r E; discriminate E].
  - cbn [delim In] in D. assert (T : ends c /\ is_eof c = false).
    { assert (T : c = lexem_type d).
      { cbn [next_char] in Nc. destruct D as [<- | [<- | [<- | [<- | [<- | [<- | [<- | [<- | []]]]]]]]]; cbn in Nc; injection Nc as <- _; reflexivity. }
      subst c. destruct D as [<- | [<- | [<- | [<- | [<- | [<- | [<- | [<- | []]]]]]]]]; (split; [repeat split; discriminate | reflexivity]). }
    destruct T as [T1 T2]. split; [exact T1 |]. split; [discriminate |]. intros d' r' E. injection E as <- <-. split; [exact T2 |]. lia.
Qed.
Lemma decimal_end : forall c rest x1, ends c ->
  (do dot <- is_op_char [46] c rest;
   do r <- (if dot : bool then digits 0 x1 else LOk (c, rest, x1));
   let '(c, b, x1) := r in
   do ex <- is_letter_char [101; 69; 112; 80] c b;
   LOk (ex, c, b, x1)) = LOk (false, c, rest, x1).
Proof. intros c rest x1 (A & B & C & D). destruct c; try contradiction; reflexivity. Qed.
Lemma collect_end : forall fuel first x c rest x1, (if negb (first =? 48) then digits fuel x else LOk (prefetch x)) = LOk (c, rest, x1) -> ends c ->
  collect_decimal fuel first x = LOk (retract x1 rest).
Proof.
  intros fuel first x c rest x1 H (A & B & C & D). unfold collect_decimal. rewrite H. cbn [bind]. destruct c; try contradiction; cbn [is_op_char is_letter_char bind]; rewrite ?B; try reflexivity; discriminate B.
Qed.
Lemma digits_run : forall t x rest fuel, l_rest x = t ++ rest -> Forall (fun c => 48 <= c <= 57) t -> delim rest -> (length t < fuel)%nat ->
  exists c x1, digits fuel x = LOk (c, rest, x1) /\ ends c.
Proof.
  induction t as [| d t IH]; intros x rest fuel R F D L; (destruct fuel as [| fuel]; [lia |]); cbn [digits].
  - destruct (delim_next x rest R D) as (c & x1 & P & EN & _). rewrite P. exists c, x1. rewrite (proj1 EN). split; [reflexivity | exact EN].
  - inversion F as [| ? ? F1 F2]; subst. destruct (next_one x d _ R ltac:(lia) ltac:(unfold is_eol_char; lia)) as (x1 & P & R1). rewrite P.
    replace (lexem_type d) with LDigit by (symmetry; apply type_digit; unfold DecimalDigit; lia). cbn iota. apply (IH x1 rest fuel R1 F2 D). cbn in L. lia.
Qed.
Lemma uint_found : forall x s n rest, l_rest x = s ++ rest -> json_uint s n -> delim rest -> Z.of_nat (length (s ++ rest)) <= 0xFFFF -> found x TNum s rest.
Proof.
  intros x s n rest R (F & SH & _) D L. destruct s as [| d t]; [destruct SH as [A | (d & t & A & _)]; discriminate A |].
  inversion F as [| ? ? F1 F2]; subst. destruct (next_one x d (t ++ rest) R ltac:(lia) ltac:(unfold is_eol_char; lia)) as (x1 & P & R1).
  assert (T : lexem_type d = LDigit) by (apply type_digit; unfold DecimalDigit; lia). rewrite T in P.
  assert (A : exists x2, any_token (S (length (l_rest x))) x = LOk (TNum, x2) /\ l_rest x2 = rest).
  { unfold any_token. rewrite P. cbn iota. cbn [deref bind]. destruct (Z.eq_dec d 48) as [-> | N].
    - assert (t = []) by (destruct SH as [A | (d & t' & A & B)]; congruence). subst t. cbn [app] in *. change (48 =? 48) with true. cbn iota.
      destruct (delim_next x1 rest R1 D) as (c & x2 & P2 & EN & E0 & E1). rewrite P2. cbn iota beta.
      assert (CD : collect_decimal (S (length (l_rest x))) 48 (retract x2 rest) = LOk (retract x2 rest) \/ exists x3, collect_decimal (S (length (l_rest x))) 48 (retract x2 rest) = LOk (retract x3 rest)).
      { right. destruct (delim_next (retract x2 rest) rest eq_refl D) as (c3 & x3 & P3 & EN3 & _). exists x3. apply (collect_end _ _ _ c3); [| exact EN3]. change (48 =? 48) with true. cbn [negb]. rewrite P3. reflexivity. }
      assert (CE : exists x3, collect_decimal (S (length (l_rest x))) 48 (retract x2 rest) = LOk (retract x3 rest)) by (destruct CD as [CD | CD]; eauto). clear CD. destruct CE as (x3 & CE).
      exists (retract x3 rest). split; [| reflexivity]. destruct rest as [| d r].
      + rewrite (E0 eq_refl). cbn [is_eof]. rewrite CE. reflexivity.
      + destruct (E1 d r eq_refl) as (EE & X1 & X2 & X3 & X4). rewrite EE. cbn [deref bind].
        replace ((d =? 120) || (d =? 88)) with false by lia. replace ((d =? 98) || (d =? 66)) with false by lia. cbn iota. rewrite CE. reflexivity.
    - replace (d =? 48) with false by lia. cbn iota.
      destruct (digits_run t x1 rest (S (length (l_rest x))) R1 F2 D) as (c & x2 & DG & EN); [rewrite R; cbn [length app]; rewrite app_length; lia |].
      exists (retract x2 rest). split; [| reflexivity]. rewrite (collect_end _ _ _ c rest x2); [reflexivity | | exact EN]. replace (d =? 48) with false by lia. exact DG. }
  destruct A as (x2 & A & R2). pose proof (any_token_good (S (length (l_rest x))) x ltac:(lia)) as G. rewrite A in G. destruct G as (WK & _).
  apply found_of with (x1 := x2); [exact R | exact A | exact R2 | exact WK |]. rewrite app_length in L. lia.
Qed.
Lemma decimal_digits : forall l v, Forall (fun c => 48 <= c <= 57) l -> digits_of 10 l v (fold_left (fun a c => 10 * a + (c - 48)) l v).
Proof.
  induction l as [| c l IH]; intros v F; [constructor |]. inversion F as [| ? ? F1 F2]; subst. cbn [fold_left].
  apply do_digit with (d := c - 48); [apply dc_dec; lia | lia |]. replace (v * 10 + (c - 48)) with (10 * v + (c - 48)) by lia. apply IH. exact F2.
Qed.
Lemma decimal_nonneg : forall l v, Forall (fun c => 48 <= c <= 57) l -> 0 <= v -> 0 <= fold_left (fun a c => 10 * a + (c - 48)) l v.
Proof. induction l as [| c l IH]; intros v F V; [exact V |]. inversion F; subst. cbn [fold_left]. apply IH; [assumption | lia]. Qed.
Lemma digits_integer : forall l, Forall (fun c => 48 <= c <= 57) l -> is_integer l = true.
Proof.
  intros l F. induction F as [| c l C F IH]; [reflexivity |]. cbn [is_integer].
  replace ((c =? 120) || (c =? 88) || (c =? 98) || (c =? 66)) with false by lia. replace ((c =? 46) || (c =? 101) || (c =? 69)) with false by lia. exact IH.
Qed.
Lemma uint_int_text : forall s n, json_uint s n -> int_text s false 10 n.
Proof.
  intros s n (F & SH & ->). exists [], [], s. split; [reflexivity |]. split; [constructor |]. split; [constructor |].
  split; [destruct SH as [-> | (d & t & -> & _)]; discriminate |]. apply decimal_digits. exact F.
Qed.
Lemma uint_number : forall s n, json_uint s n -> json_number s = if n <? 2 ^ 63 then JOk n else JThrow.
Proof.
  intros s n U. unfold json_number. rewrite (digits_integer s (proj1 U)), (parse_int_text _ _ _ _ (uint_int_text _ _ U)).
  pose proof U as (F & _ & En). pose proof (decimal_nonneg s 0 F ltac:(lia)) as NN. fold (decimal s) in NN. rewrite <- En in NN.
  replace (mag_max 10 false) with (2 ^ 63 - 1) by reflexivity. destruct (n <? 2 ^ 63) eqn:Q.
  - replace (n <=? 2 ^ 63 - 1) with true by lia. unfold finish_int. replace (s64 n) with n; [reflexivity |]. unfold s64, swrap, uwrap. change (2 ^ 63) with 9223372036854775808 in *. change (2 ^ 64) with 18446744073709551616. rewrite Z.mod_small by lia.
    change (2 ^ (64 - 1)) with 9223372036854775808. replace (n <? 9223372036854775808) with true by lia. reflexivity.
  - replace (n <=? 2 ^ 63 - 1) with false by lia. reflexivity.
Qed.
Lemma uint_pos : forall s n, json_uint s n -> (1 <= length s)%nat /\ exists d t, s = d :: t /\ 48 <= d <= 57.
Proof. intros s n (F & SH & _). destruct s as [| d t]; [destruct SH as [A | (d & t & A & _)]; discriminate A |]. split; [cbn; lia |]. inversion F; subst. eauto. Qed.
Lemma lx_uint : forall s n, json_uint s n -> n < 2 ^ 63 -> lx delim s [KVal (JInt n)].
Proof.
  intros s n U B x rest f R D L F. destruct (found_text _ _ _ _ (uint_found x s n rest R U D L)) as (t & x1 & N & T & TX & R1). destruct f as [| f]; [lia |].
  exists x1, f. cbn [json_tokens]. rewrite N, T, TX, (uint_number s n U). replace (n <? 2 ^ 63) with true by lia. split; [reflexivity |]. split; [exact R1 |].
  pose proof (uint_pos s n U) as [LP _]. rewrite app_length in F. lia.
Qed.
Lemma minus_found : forall x d t, l_rest x = 45 :: d :: t -> 48 <= d <= 57 -> found x (TOper 0xC1) [45] (d :: t).
Proof.
  intros x d t R D. apply operator_found.
  - exact R.
  - split; [apply (nth_error_In _ 1); reflexivity |]. split; [exists (d :: t); reflexivity |]. intros s' op' I (u & P).
    assert (H : forallb (fun p => match fst p with a :: b :: _ => negb (a =? 45) || (57 <? b) | _ => true end) operators = true) by (vm_compute; reflexivity).
    rewrite forallb_forall in H. specialize (H _ I). cbn [fst] in H. destruct s' as [| a [| b s']]; cbn [length]; try lia. cbn [app] in P. injection P as <- <- _. lia.
  - unfold odd_op, prefix. cbn [app]. intros [(u & H) | [(u & H) | (u & H)]]; discriminate H.
  - intros (u & H). discriminate H.
  - intros (u & H). discriminate H.
  - discriminate.
Qed.
Lemma lx_neg_gen : forall s n x rest f, json_uint s n -> l_rest x = ([45] ++ s) ++ rest -> delim rest -> Z.of_nat (length (([45] ++ s) ++ rest)) <= 0xFFFF -> (length (([45%Z] ++ s) ++ rest) < f)%nat ->
  exists x1 f1, l_rest x1 = rest /\ (length rest < f1)%nat /\
  json_tokens f x false = if n <? 2 ^ 63 then addt [KVal (JInt (- n))] (json_tokens f1 x1 false) else ([], EndThrow).
Proof.
  intros s n x rest f U R D L F. destruct (uint_pos s n U) as (LP & d & t & Es & RD). cbn [app length] in *.
  assert (RM : l_rest x = 45 :: d :: (t ++ rest)) by (rewrite R, Es; reflexivity).
  destruct (found_text _ _ _ _ (minus_found x d (t ++ rest) RM RD)) as (tk & x1 & N & T & TX & R1). destruct f as [| [| f]]; [lia .. |]. change (d :: t ++ rest) with ((d :: t) ++ rest) in R1. rewrite <- Es in R1.
  destruct (found_text _ _ _ _ (uint_found x1 s n rest R1 U D ltac:(lia))) as (tk2 & x2 & N2 & T2 & TX2 & R2).
  exists x2, f. split; [exact R2 |]. split; [rewrite app_length in F; lia |]. remember (S f) as f' eqn:Ef. cbn [json_tokens]. rewrite N, T. change (0xC1 =? 0xC1) with true. cbn iota.
  subst f'. cbn [json_tokens]. rewrite N2, T2, TX2, (uint_number s n U). destruct (n <? 2 ^ 63); reflexivity.
Qed.
Lemma lx_neg : forall s n, json_uint s n -> n < 2 ^ 63 -> lx delim ([45] ++ s) [KVal (JInt (- n))].
Proof.
  intros s n U B x rest f R D L F. destruct (lx_neg_gen s n x rest f U R D L F) as (x1 & f1 & R1 & F1 & H). exists x1, f1. rewrite H. replace (n <? 2 ^ 63) with true by lia. auto.
Qed.
