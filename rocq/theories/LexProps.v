(* C94-C100: the lexer. *)
From Coq Require Import String Ascii ZArith List Lia Bool ZifyBool.
Import ListNotations.
From Verif Require Import Base ListZ Utf8Model LexModel LexSpec LexTokens LexProofs LexProofs2 LexProofs3 LexProofs4 LexProofs5 LexProofs6 LexProofs7.
Local Open Scope Z_scope.
Ltac Zify.zify_post_hook ::= idtac.

(* C94: any bytes are split into tokens or rejected, without reading outside of them *)
Theorem lexer_total : forall buf, (exists ts, tokenize buf = LOk ts) \/ (exists e, tokenize buf = LErr e).
Proof.
  intros buf. unfold tokenize. assert (L : (length (l_rest (lexer_init buf)) < S (length buf))%nat).
  { unfold lexer_init. cbn [l_rest]. destruct buf as [| a [| b [| c t]]]; cbn [length];
      repeat match goal with |- context [match ?v with _ => _ end] => destruct v; cbn [length]; try lia end; lia. }
  pose proof (tokens_total _ _ L) as T. destruct (tokens_from (S (length buf)) (lexer_init buf)) as [ts | e | |]; try contradiction; eauto.
Qed.
(* C94: also for one token, anywhere, and for the rest of a string after an expression *)
Theorem lexer_token_total : forall c x, (exists t x1, next_token c x = LOk (t, x1) /\ suf (l_rest x1) (l_rest x)) \/ (exists e, next_token c x = LErr e).
Proof.
  intros c x. unfold next_token. destruct c.
  - pose proof (continue_good (S (length (l_rest x))) x ltac:(lia)) as G. destruct (continue_token (S (length (l_rest x))) x) as [[ty x1] | e | |]; try contradiction; [| right; exists e; reflexivity].
    cbn [bind]. destruct (0xFFFF <? len (l_rest x) - len (l_rest x1)); [right; eexists; reflexivity |]. left. do 2 eexists. split; [reflexivity |]. apply walk_suf, G.
  - pose proof (any_token_good (S (length (l_rest x))) x ltac:(lia)) as G. destruct (any_token (S (length (l_rest x))) x) as [[ty x1] | e | |]; try contradiction; [| right; exists e; reflexivity].
    cbn [bind]. destruct (0xFFFF <? len (l_rest x) - len (l_rest x1)); [right; eexists; reflexivity |]. left. do 2 eexists. split; [reflexivity |]. apply walk_suf, G.
Qed.
Example lexer_total_ex :
  tokenize (bytes "if x") = LOk [mktok (bytes "if x") (TKeyword 23) 2 1 1; mktok (bytes " x") TWhite 1 1 3; mktok (bytes "x") TIdent 1 1 4; mktok [] TEof 0 1 5] /\
  (exists e, tokenize [34; 97] = LErr e) /\ (exists e, tokenize [0xE2; 0x80] = LErr e) /\ (exists e, tokenize [92; 255; 0] = LErr e).
Proof. split; [vm_compute; reflexivity |]. split; [eexists; vm_compute; reflexivity |]. split; eexists; vm_compute; reflexivity. Qed.

(* C95: the texts of the tokens follow each other without a gap and have the forms of the grammar.
   Exceptions (see token_ok): three odd operators, the operator / at the end, unfinished comments, exponents which start
   with an underscore, and white space in malformed UTF-8. *)
Theorem tokens_tile_partial : forall buf text ts, without_bom buf text -> tokenize buf = LOk ts -> Tiles [] text ts.
Proof.
  intros buf text ts WB H. unfold tokenize in H.
  assert (R : l_rest (lexer_init buf) = text).
  { unfold lexer_init. cbn [l_rest]. destruct WB as [-> | [<- N]]; [reflexivity |]. unfold prefix in N.
    destruct buf as [| a [| b [| c t]]]; try reflexivity;
      repeat match goal with |- context [match ?v with _ => _ end] => destruct v; try reflexivity end. exfalso. apply N. eexists. reflexivity. }
  rewrite <- R. eapply (tokens_tiles text); [| rewrite R; reflexivity | | exact H].
  - rewrite R. destruct WB as [-> | [-> _]]; rewrite ?app_length; cbn; lia.
  - right. exists []. split; [rewrite R; reflexivity |]. split; [split; reflexivity |]. intros ((p & Q) & _). destruct p; discriminate.
Qed.
Definition src : list Z := bytes "a.b<<=0x1F+""q\(" ++ [13; 10] ++ bytes "v>=2.5e-3#c".
Example tokens_tile_partial_ex :
  without_bom src src /\
  exists ts, tokenize src = LOk ts /\ map (fun t => (t_type t, t_len t, t_line t, t_col t)) ts =
    [(TIdent, 1, 1, 1); (TOper 7, 1, 1, 2); (TIdent, 1, 1, 3); (TOper 0x19, 3, 1, 4); (TNum, 4, 1, 7); (TOper 0xC0, 1, 1, 11); (TStrOpen, 4, 1, 12);
     (TEol, 2, 1, 16); (TIdent, 1, 2, 1); (TOper 0x2A, 2, 2, 2); (TNum, 6, 2, 4); (TComment, 2, 2, 10); (TEof, 0, 2, 12)].
Proof.
  split.
  - right. split; [reflexivity |]. intros (t & E). vm_compute in E. discriminate.
  - eexists. split; [vm_compute; reflexivity |]. vm_compute. reflexivity.
Qed.
(* C95: after an expression in a string *)
Theorem string_continued : forall x t x1, next_token true x = LOk (t, x1) -> exists s, l_rest x = s ++ l_rest x1 /\ t_len t = Z.of_nat (length s) /\ string_rest_ok (t_type t) s.
Proof.
  intros x t x1 H. unfold next_token in H. pose proof (continue_good (S (length (l_rest x))) x ltac:(lia)) as G.
  destruct (continue_token (S (length (l_rest x))) x) as [[ty x2] | e | |]; try discriminate. cbn [bind] in H. destruct G as (_ & s & A & B).
  destruct (0xFFFF <? len (l_rest x) - len (l_rest x2)); [discriminate |].
  assert (x1 = x2 /\ t = mktok (l_rest x) ty (len (l_rest x) - len (l_rest x2)) (l_line x) (l_col x)) as [-> ->] by (split; congruence).
  exists s. split; [exact A |]. cbn [t_len t_type]. split; [rewrite A, len_app; unfold len; lia | exact B].
Qed.
Example string_continued_ex : exists t x1, next_token true (mklex (bytes ") tail"" + 1") 3 7 0 0) = LOk (t, x1) /\ t_type t = TStr /\ t_len t = 7 /\ l_rest x1 = bytes " + 1".
Proof. do 2 eexists. split; [vm_compute; reflexivity |]. split; [reflexivity |]. split; reflexivity. Qed.

(* C96: words, operators and strings of the grammar are found with their whole text, whatever follows them *)
Theorem words_found : forall x s rest, l_rest x = s ++ rest -> Word s -> not_next WordChar rest -> Z.of_nat (length s) <= 0xFFFF ->
  ~ ((s = [114] \/ s = [82]) /\ exists t, rest = 34 :: t) ->
  exists ty, found x ty s rest /\ ((ty = TIdent /\ ~ In s keyword_list) \/ exists k, ty = TKeyword k /\ is_keyword s k).
Proof. exact word_found. Qed.
Example words_found_ex :
  Word (bytes "while_") /\ found (mklex (bytes "while_(") 1 1 0 0) TIdent (bytes "while_") [40] /\
  found (mklex (bytes "while(") 1 1 0 0) (TKeyword 44) (bytes "while") [40].
Proof.
  split.
  - exists 119, [104; 105; 108; 101; 95]. split; [reflexivity |]. split; [left; unfold Letter; lia |].
    repeat (apply Forall_cons; [unfold WordChar, Letter, DecimalDigit, Underscore; lia |]). constructor.
  - assert (W : forall x y, l_rest x = l_rest y -> suf (l_rest x) (l_rest y)) by (intros x y ->; apply suf_refl).
    split.
    + destruct (word_found (mklex (bytes "while_(") 1 1 0 0) (bytes "while_") [40]) as (ty & F & D); [reflexivity | | cbn; unfold WordChar, Letter, DecimalDigit, Underscore; lia | vm_compute; discriminate | |].
      * exists 119, [104; 105; 108; 101; 95]. split; [reflexivity |]. split; [left; unfold Letter; lia |].
        repeat (apply Forall_cons; [unfold WordChar, Letter, DecimalDigit, Underscore; lia |]). constructor.
      * intros [[Q | Q] _]; discriminate.
      * destruct D as [[-> _] | (k & -> & K)]; [exact F |]. destruct F as (x1 & Q & _). vm_compute in Q. discriminate.
    + destruct (word_found (mklex (bytes "while(") 1 1 0 0) (bytes "while") [40]) as (ty & F & D); [reflexivity | | cbn; unfold WordChar, Letter, DecimalDigit, Underscore; lia | vm_compute; discriminate | |].
      * exists 119, [104; 105; 108; 101]. split; [reflexivity |]. split; [left; unfold Letter; lia |].
        repeat (apply Forall_cons; [unfold WordChar, Letter, DecimalDigit, Underscore; lia |]). constructor.
      * intros [[Q | Q] _]; discriminate.
      * destruct F as (x1 & Q & R & W1). assert (ty = TKeyword 44) as -> by (vm_compute in Q; congruence). exists x1. auto.
Qed.
Theorem operators_found : forall x s rest op, l_rest x = s ++ rest -> longest_operator (s ++ rest) s op -> ~ odd_op (s ++ rest) ->
  ~ prefix [47; 47] (s ++ rest) -> ~ prefix [47; 42] (s ++ rest) -> s ++ rest <> [47] -> found x (TOper op) s rest.
Proof. exact operator_found. Qed.
Example operators_found_ex :
  longest_operator (bytes ">>>=1") (bytes ">>>=") 0x1B /\
  map (fun s => match next_token false (mklex (bytes s) 1 1 0 0) with LOk (t, _) => (t_type t, t_len t) | _ => (TEof, 0) end)
    [">>>=1"; ">>=1"; ">>1"; ">=1"; "..."; ".."; "->"; "&&&"; "/=/"; "==="]%string =
  [(TOper 0x1B, 4); (TOper 0x1A, 3); (TOper 2, 2); (TOper 0x2A, 2); (TOper 8, 3); (TOper 7, 1); (TOper 9, 2); (TOper 4, 2); (TOper 0x14, 2); (TOper 0x28, 2)].
Proof.
  split; [| vm_compute; reflexivity]. split; [apply (nth_error_In _ 21); reflexivity |]. split; [exists [49]; reflexivity |].
  intros s' op' I _. assert (H : forallb (fun p => (length (fst p) <=? 4)%nat) operators = true) by (vm_compute; reflexivity).
  rewrite forallb_forall in H. specialize (H _ I). apply Nat.leb_le in H. exact H.
Qed.
Theorem strings_found : forall x body rest, l_rest x = 34 :: body ++ 34 :: rest -> StringBody body -> well_formed body -> Z.of_nat (length body) <= 0xFFFD ->
  found x TStr (34 :: body ++ [34]) rest.
Proof. exact string_found. Qed.
Example strings_found_ex :
  exists t x1, next_token false (mklex (bytes """\x{1F60}\""\x41"" z") 1 1 0 0) = LOk (t, x1) /\ t_type t = TStr /\ t_len t = 16 /\ l_rest x1 = bytes " z".
Proof. do 2 eexists. split; [vm_compute; reflexivity |]. split; [reflexivity |]. split; reflexivity. Qed.

(* C97: "the lexer tries to match as many contiguous characters as possible": not for >==, >=> and >>== *)
Theorem longest_operator_refuted :
  ~ (forall x s rest op, l_rest x = s ++ rest -> longest_operator (s ++ rest) s op -> s <> [47] -> found x (TOper op) s rest).
Proof.
  intros H. specialize (H (mklex (bytes ">==1") 1 1 0 0) (bytes ">=") (bytes "=1") 0x2A eq_refl).
  destruct H as (x1 & E & _); [| discriminate |].
  - split; [apply (nth_error_In _ 28); reflexivity |]. split; [exists (bytes "=1"); reflexivity |].
    intros s' op' I (t & P). assert (G : forallb (fun p => (length (fst p) <=? 2)%nat || negb (if list_eq_dec Z.eq_dec (fst p) (firstn (length (fst p)) (bytes ">==1")) then true else false)) operators = true) by (vm_compute; reflexivity).
    rewrite forallb_forall in G. specialize (G _ I). cbn [fst] in G. apply orb_true_iff in G. destruct G as [G | G]; [apply Nat.leb_le in G; exact G |].
    exfalso. change (bytes ">=" ++ bytes "=1") with (bytes ">==1") in P. rewrite P in G. rewrite firstn_app, Nat.sub_diag, firstn_all, app_nil_r in G.
    destruct (list_eq_dec Z.eq_dec s' s'); [discriminate | congruence].
  - vm_compute in E. discriminate.
Qed.
Example longest_operator_refuted_ex :
  map (fun s => match next_token false (mklex (bytes s) 1 1 0 0) with LOk (t, _) => (t_type t, t_len t) | _ => (TEof, 0) end) [">==1"; ">=>1"; ">>==1"]%string =
  [(TOper 0x1A (* >>= *), 3); (TOper 3 (* >>> *), 3); (TOper 0x1B (* >>>= *), 4)].
Proof. vm_compute. reflexivity. Qed.

(* C98: line and column; for all tokens but the end these are in Tiles, columns if there is no tab *)
Inductive positioned : list Z -> list token -> Prop :=
| pos_end : forall before t, t_type t = TEof -> positioned before [t]
| pos_cons : forall before t ts, position_ok before (t_line t) (t_col t) -> t_type t <> TEof ->
    positioned (before ++ firstn (Z.to_nat (t_len t)) (t_begin t)) ts -> positioned before (t :: ts).
Theorem token_positions : forall buf text ts, without_bom buf text -> tokenize buf = LOk ts -> positioned [] ts.
Proof.
  intros buf text ts WB H. pose proof (tokens_tile_partial _ _ _ WB H) as T. clear - T. induction T as [before t A B C | before s rest t ts NS NE TK B L LM PO SP T IH].
  - apply pos_end. exact A.
  - apply pos_cons; [exact PO | exact NE |]. rewrite L, B, Nat2Z.id, firstn_app, Nat.sub_diag, firstn_all, app_nil_r. exact IH.
Qed.
Example token_positions_ex : exists ts, tokenize (bytes "x" ++ [13] ++ [13; 10] ++ [34; 0xC3; 0xA9; 34] ++ bytes "y") = LOk ts /\
  map (fun t => (t_line t, t_col t)) ts = [(1, 1); (1, 2); (2, 1); (3, 1); (3, 4); (3, 5)].
Proof. eexists. split; vm_compute; reflexivity. Qed.
(* C98: a tab does not move to the next multiple of 8: it moves one stop too far when it stands at one *)
Theorem tab_column_refuted :
  ~ (forall x x1, prefetch x = (LTab, l_rest x, x1) -> l_col x1 mod 8 = 1 /\ l_col x < l_col x1 <= l_col x + 8).
Proof.
  intros H. specialize (H (mklex [9] 1 8 0 0) (mklex [] 1 17 1 8) eq_refl). cbn in H. lia.
Qed.
Example tab_column_refuted_ex : map (fun col => match prefetch (mklex [9] 1 col 0 0) with (_, _, x1) => l_col x1 end) [1; 2; 7; 8; 9] = [9; 9; 9; 17; 17].
Proof. vm_compute. reflexivity. Qed.

(* C99: a byte sequence which is not UTF-8 is not always rejected *)
Theorem malformed_rejected_refuted : ~ (forall buf ts, tokenize buf = LOk ts -> well_formed buf).
Proof.
  intros H. specialize (H [0xC2; 0xA0; 0xE0; 0x82; 0xA0] _ ltac:(vm_compute; reflexivity)).
  inversion H; subst; try lia. match goal with W : well_formed [0xE0; _; _] |- _ => inversion W; subst; lia end.
Qed.
(* E2 A0 is an unfinished character, whose value so far is that of a no-break space *)
Example malformed_rejected_refuted_ex :
  (exists ts, tokenize [0xE2; 0x80; 0xA8] = LOk ts /\ map t_type ts = [TWhite; TEof]) /\
  (exists ts, tokenize [0xE2; 0xA0; 97; 98] = LOk ts /\ map t_type ts = [TWhite; TIdent; TEof] /\ map t_len ts = [2; 2; 0]).
Proof. split; [eexists; split; vm_compute; reflexivity |]. eexists. split; [vm_compute; reflexivity |]. split; vm_compute; reflexivity. Qed.
(* in well-formed texts white space is what the grammar says *)
Theorem white_space : forall buf text ts t, without_bom buf text -> well_formed text -> tokenize buf = LOk ts -> In t ts -> t_type t = TWhite ->
  White (firstn (Z.to_nat (t_len t)) (t_begin t)).
Proof.
  intros buf text ts t WB WF H I TW.
  assert (G : forall x fuel us, (length (l_rest x) < fuel)%nat -> well_formed (l_rest x) -> tokens_from fuel x = LOk us -> In t us -> White (firstn (Z.to_nat (t_len t)) (t_begin t))).
  { clear - TW. intros x fuel. revert x. induction fuel as [| f IH]; intros x us L WF H I; [lia |]. cbn [tokens_from] in H. unfold next_token in H.
    pose proof (any_token_good (S (length (l_rest x))) x ltac:(lia)) as G. destruct (any_token (S (length (l_rest x))) x) as [[ty x1] | | |] eqn:AT; try discriminate.
    cbn [bind token_good] in *. destruct G as (W & LT & s & A & TK). destruct (0xFFFF <? len (l_rest x) - len (l_rest x1)); [discriminate |]. cbn [bind t_type] in H.
    set (t0 := mktok (l_rest x) ty (len (l_rest x) - len (l_rest x1)) (l_line x) (l_col x)) in *.
    assert (D : t0 = t \/ (ty <> TEof /\ exists us', tokens_from f x1 = LOk us' /\ In t us')).
    { destruct ty; try (assert (us = [t0]) as -> by congruence; destruct I as [I | []]; left; exact I);
        (destruct (tokens_from f x1) as [us' | | |]; try discriminate; cbn [bind] in H; assert (us = t0 :: us') as -> by congruence;
         destruct I as [I | I]; [left; exact I | right; split; [discriminate | eauto]]). }
    destruct D as [<- | (NE & us' & TF & I')].
    - cbn [t_type t_len t_begin] in *. unfold t0 in TW. cbn [t_type] in TW. subst ty. cbn [token_ok] in TK. rewrite <- A in TK.
      unfold t0. cbn [t_len t_begin]. replace (len (l_rest x) - len (l_rest x1)) with (Z.of_nat (length s)) by (rewrite A, len_app; unfold len; lia).
      rewrite Nat2Z.id, A, firstn_app, Nat.sub_diag, firstn_all, app_nil_r. exact (TK WF).
    - apply (IH x1 us'); [specialize (LT NE); lia | exact (walk_wf _ _ W WF) | exact TF | exact I']. }
  assert (R : l_rest (lexer_init buf) = text).
  { unfold lexer_init. cbn [l_rest]. destruct WB as [-> | [<- N]]; [reflexivity |]. unfold prefix in N.
    destruct buf as [| a [| b [| c u]]]; try reflexivity;
      repeat match goal with |- context [match ?v with _ => _ end] => destruct v; try reflexivity end. exfalso. apply N. eexists. reflexivity. }
  apply (G (lexer_init buf) (S (length buf)) ts); [| rewrite R; exact WF | exact H | exact I].
  rewrite R. destruct WB as [-> | [-> _]]; rewrite ?app_length; cbn; lia.
Qed.
Example white_space_ex : exists ts, tokenize ([32; 0xC2; 0xA0; 12] ++ bytes "a") = LOk ts /\ map t_len ts = [4; 1; 0].
Proof. eexists. split; vm_compute; reflexivity. Qed.

(* C100: comments have their end, and exponents are numbers of the grammar: not so *)
Theorem block_comment_end_refuted : ~ (forall x t x1, next_token false x = LOk (t, x1) -> t_type t = TComment -> prefix [47; 42] (t_begin t) ->
  BlockComment (firstn (Z.to_nat (t_len t)) (t_begin t))).
Proof.
  intros H. specialize (H (mklex (bytes "/* a") 1 1 0 0) _ _ ltac:(vm_compute; reflexivity) eq_refl).
  destruct H as (body & E & _); [exists (bytes " a"); reflexivity |]. cbn [t_len t_begin] in E. change (firstn (Z.to_nat 4) (bytes "/* a")) with (bytes "/* a") in E.
  cbn in E. destruct body as [| a [| b [| c body]]]; discriminate.
Qed.
Theorem exponent_refuted : ~ (forall x t x1, next_token false x = LOk (t, x1) -> t_type t = TNum -> prefix [49; 101] (t_begin t) -> DecimalLiteral (firstn (Z.to_nat (t_len t)) (t_begin t))).
Proof.
  intros H. specialize (H (mklex (bytes "1e_5") 1 1 0 0) _ _ ltac:(vm_compute; reflexivity) eq_refl). cbn [t_len t_begin] in H.
  change (firstn (Z.to_nat 4) (bytes "1e_5")) with [49; 101; 95; 53] in H. destruct H as (b & m & e & E & DN & OM & OE); [exists [95; 53]; reflexivity |].
  assert (B : b = [49]).
  { destruct DN as [-> | (d & t & -> & R & F)]; [discriminate |]. cbn in E. injection E as <- E. destruct t as [| d2 t]; [reflexivity |].
    exfalso. cbn in E. injection E as <- E. inversion F as [| ? ? F1 _]; subst. unfold DigitOrUnderscore, DecimalDigit, Underscore in F1. lia. }
  subst b. cbn in E. destruct OM as [-> | (t & -> & _)]; [| discriminate]. cbn in E. destruct OE as [-> | (c & sg & n & -> & _ & SG & DN2)]; [discriminate |].
  cbn in E. injection E as _ E. destruct SG as [<- | [<- | [<- | []]]]; cbn in E; try discriminate. subst n.
  destruct DN2 as [D | (d & t & D & R & _)]; [discriminate |]. injection D as <- _. lia.
Qed.
(* without an underscore there the numbers are those of the grammar *)
Theorem decimal_numbers : forall s, DecimalOf LooseNumber s -> ~ In 95 s -> DecimalLiteral s.
Proof.
  intros s (b & m & e & -> & DN & OM & OE) N. exists b, m, e. split; [reflexivity |]. split; [exact DN |]. split; [exact OM |].
  destruct OE as [-> | (c & sg & n & -> & IE & SG & LN)]; [left; reflexivity |]. right. exists c, sg, n. split; [reflexivity |]. split; [exact IE |]. split; [exact SG |].
  destruct LN as [-> | (d & t & -> & [R | ->] & F)]; [left; reflexivity | right; eauto |]. exfalso. apply N.
  apply in_or_app. right. apply in_or_app. right. right. apply in_or_app. right. left. reflexivity.
Qed.
Example decimal_numbers_ex :
  map (fun s => match next_token false (mklex (bytes s) 1 1 0 0) with LOk (t, _) => (t_type t, t_len t) | _ => (TEof, 0) end) ["/* a"; "1e_5"; "1.5e+20 "; "0p-1"; "007"; "08"]%string =
  [(TComment, 4); (TNum, 4); (TNum, 7); (TNum, 4); (TEof, 0); (TEof, 0)].
Proof. vm_compute. reflexivity. Qed.

Print Assumptions lexer_total.
Print Assumptions lexer_token_total.
Print Assumptions tokens_tile_partial.
Print Assumptions string_continued.
Print Assumptions words_found.
Print Assumptions operators_found.
Print Assumptions strings_found.
Print Assumptions longest_operator_refuted.
Print Assumptions token_positions.
Print Assumptions tab_column_refuted.
Print Assumptions malformed_rejected_refuted.
Print Assumptions white_space.
Print Assumptions block_comment_end_refuted.
Print Assumptions exponent_refuted.
Print Assumptions decimal_numbers.
