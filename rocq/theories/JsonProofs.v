(* The tokens which json.tokenize yields for the parts of a JSON text. *)
From Coq Require Import String Ascii ZArith List Lia Bool ZifyBool.
Import ListNotations.
From Verif Require Import Base ListZ Utf8Model Utf8Spec Utf8Main Utf8Props LexModel LexSpec LexTokens LexProofs LexProofs2 LexProofs3 LexProofs4 LexProofs5 LexProofs6 LexProofs7 ParseIntModel ParseIntSpec ParseIntProofs JsonModel JsonSpec.
Local Open Scope Z_scope.
Ltac Zify.zify_post_hook ::= idtac.

Lemma zeqb_eq : forall a b, zeqb a b = true <-> a = b.
Proof.
  induction a as [| x a IH]; intros [| y b]; cbn [zeqb]; split; intros H; try reflexivity; try discriminate H.
  - apply andb_true_iff in H. destruct H as [A B]. apply Z.eqb_eq in A. apply IH in B. congruence.
  - injection H as -> ->. rewrite Z.eqb_refl. apply IH. reflexivity.
Qed.
Lemma zeqb_neq : forall a b, a <> b -> zeqb a b = false.
Proof. intros a b N. destruct (zeqb a b) eqn:Q; [| reflexivity]. apply zeqb_eq in Q. contradiction. Qed.

(* tokens in front of what the generator yields later *)
Definition addt (ts : list jtok) (r : list jtok * jend) : list jtok * jend := (ts ++ fst r, snd r).
Lemma addt_nil : forall r, addt [] r = r. Proof. intros [a b]. reflexivity. Qed.
Lemma addt_app : forall a b r, addt (a ++ b) r = addt a (addt b r).
Proof. intros a b [ts e]. unfold addt. cbn [fst snd]. rewrite app_assoc. reflexivity. Qed.
Lemma cons_addt : forall k r, cons_tok k r = addt [k] r. Proof. reflexivity. Qed.

(* a lexer which is at s ++ rest yields ts and is at rest, when rest satisfies P *)
Definition lx (P : list Z -> Prop) (s : list Z) (ts : list jtok) : Prop :=
  forall x rest f, l_rest x = s ++ rest -> P rest -> Z.of_nat (length (s ++ rest)) <= 0xFFFF -> (length (s ++ rest) < f)%nat ->
  exists x1 f1, json_tokens f x false = addt ts (json_tokens f1 x1 false) /\ l_rest x1 = rest /\ (length rest < f1)%nat.

Lemma lx_app : forall (P Q : list Z -> Prop) a b ta tb, lx P a ta -> lx Q b tb -> (forall rest, Q rest -> P (b ++ rest)) -> lx Q (a ++ b) (ta ++ tb).
Proof.
  intros P Q a b ta tb A B I x rest f R QR L F. rewrite <- app_assoc in *.
  destruct (A x (b ++ rest) f R (I _ QR) L F) as (x1 & f1 & E1 & R1 & F1).
  destruct (B x1 rest f1 R1 QR ltac:(rewrite app_length in L; lia) F1) as (x2 & f2 & E2 & R2 & F2).
  exists x2, f2. rewrite E1, E2, addt_app. auto.
Qed.
Lemma lx_weak : forall (P Q : list Z -> Prop) s ts, lx P s ts -> (forall r, Q r -> P r) -> lx Q s ts.
Proof. intros P Q s ts A I x rest f R QR. apply A; auto. Qed.

(* what can follow: a character which is not white, a character after a value *)
Definition clean (rest : list Z) : Prop := match rest with [] => True | c :: _ => 33 <= c < 127 end.
Definition delim (rest : list Z) : Prop := match rest with [] => True | c :: _ => In c [32; 9; 10; 13; 44; 93; 125; 58] end.
Definition any (rest : list Z) : Prop := True.

Lemma found_text : forall x ty s rest, found x ty s rest ->
  exists t x1, raw_next x = RTok t x1 /\ t_type t = ty /\ token_text t = s /\ l_rest x1 = rest.
Proof.
  intros x ty s rest (x1 & E & R & _). unfold raw_next. rewrite E. do 2 eexists. split; [reflexivity |]. cbn [t_type]. split; [reflexivity |].
  split; [| exact R]. unfold token_text. cbn [t_len t_begin]. rewrite Nat2Z.id, firstn_app, Nat.sub_diag, firstn_all, firstn_O, app_nil_r. reflexivity.
Qed.

(* separators *)
Lemma sep_found : forall x c rest, l_rest x = c :: rest -> json_separator c = true -> exists k, found x (TSep k) [c] rest.
Proof.
  intros x c rest R S. assert (C : 0 <= c < 128 /\ ~ is_eol_char c /\ lexem_type c = LSep).
  { unfold json_separator in S. cbn [existsb] in S. unfold is_eol_char. split; [lia | split; [lia |]].
    repeat (apply orb_true_iff in S; destruct S as [S | S]; [apply Z.eqb_eq in S; subst c; reflexivity |]). discriminate S. }
  destruct C as (C1 & C2 & C3). destruct (next_one x c rest R C1 C2) as (x1 & P & R1). exists (separator c).
  apply found_of with (x1 := x1); [exact R | | exact R1 | | cbn; lia].
  - unfold any_token. rewrite P, C3. cbn [deref bind]. reflexivity.
  - eapply walk_step; [exact P | apply walk_refl].
Qed.
Lemma lx_sep : forall c, json_separator c = true -> lx any [c] [KSep c].
Proof.
  intros c S x rest f R _ L F. destruct (sep_found x c rest R S) as (k & FO). destruct (found_text _ _ _ _ FO) as (t & x1 & N & T & TX & R1).
  destruct f as [| f]; [lia |]. exists x1, f. cbn [json_tokens]. rewrite N, T, TX, S, cons_addt. split; [reflexivity |]. split; [exact R1 |]. cbn in F. lia.
Qed.

(* white space *)
Lemma white_run : forall n x rest fuel, l_rest x = repeat 32 n ++ rest -> (match next_char rest with (LWhite, _) => False | _ => True end) -> (n < fuel)%nat ->
  exists x1, skip_while fuel is_white x = LOk x1 /\ l_rest x1 = rest.
Proof.
  induction n as [| n IH]; intros x rest fuel R N F; (destruct fuel as [| fuel]; [lia |]); cbn [skip_while].
  - cbn [repeat app] in R. destruct (prefetch x) as [[c b] x1] eqn:P. destruct (prefetch_eq _ _ _ _ P) as (Eb & Nc & _). rewrite R in Eb. subst b.
    rewrite Nc in N. destruct (is_white c) eqn:W; [destruct c; try discriminate W; contradiction |]. eexists. split; [reflexivity |]. cbn [retract l_rest]. congruence.
  - cbn [repeat app] in R. destruct (next_one x 32 _ R ltac:(lia) ltac:(unfold is_eol_char; lia)) as (x1 & P & R1). rewrite P.
    change (is_white (lexem_type 32)) with true. cbn iota. apply (IH x1 rest fuel R1 N). lia.
Qed.
Lemma spaces_found : forall n x rest, l_rest x = repeat 32 (S n) ++ rest -> (match next_char rest with (LWhite, _) => False | _ => True end) ->
  Z.of_nat (length (l_rest x)) <= 0xFFFF -> found x TWhite (repeat 32 (S n)) rest.
Proof.
  intros n x rest R N L. cbn [repeat app] in R. destruct (next_one x 32 _ R ltac:(lia) ltac:(unfold is_eol_char; lia)) as (x1 & P & R1).
  assert (LN : (n < S (length (l_rest x)))%nat) by (rewrite R; cbn [length]; rewrite app_length, repeat_length; lia).
  destruct (white_run n x1 rest (S (length (l_rest x))) R1 N LN) as (x2 & S2 & R2).
  pose proof (any_token_good (S (length (l_rest x))) x ltac:(lia)) as G.
  assert (AT : any_token (S (length (l_rest x))) x = LOk (TWhite, x2)).
  { unfold any_token. rewrite P. change (lexem_type 32) with LWhite. cbn iota. rewrite S2. reflexivity. }
  rewrite AT in G. destruct G as (WK & _). apply found_of with (x1 := x2); [exact R | exact AT | exact R2 | exact WK |].
  rewrite R in L. cbn [length] in L. rewrite app_length in L. cbn [repeat length]. lia.
Qed.
Lemma eol_found : forall x s rest, l_rest x = s ++ rest -> Eol s rest -> found x TEol s rest.
Proof.
  intros x s rest R E.
  assert (N : next_char (l_rest x) = (LEol, rest)).
  { rewrite R. destruct E as [-> | [-> | [-> N]]]; cbn [app next_char]; [| reflexivity |].
    - change (lexem_type 10) with LEol. cbn iota. destruct rest; reflexivity.
    - change (lexem_type 13) with LEol. cbn iota. destruct rest as [| c r]; [reflexivity |]. cbn in N. replace (c =? 10) with false by lia. reflexivity. }
  destruct (prefetch_next x _ _ N) as (x1 & P & R1). apply found_of with (x1 := x1); [exact R | | exact R1 | |].
  - unfold any_token. rewrite P. reflexivity.
  - eapply walk_step; [exact P | apply walk_refl].
  - destruct E as [-> | [-> | [-> _]]]; cbn; lia.
Qed.
Lemma tab_raw : forall x rest, l_rest x = 9 :: rest -> exists x1, raw_next x = RWhite x1 /\ l_rest x1 = rest.
Proof.
  intros x rest R. destruct (next_one x 9 rest R ltac:(lia) ltac:(unfold is_eol_char; lia)) as (x1 & P & R1).
  exists x1. unfold raw_next, next_token, any_token. rewrite P. change (lexem_type 9) with LTab. cbn iota. cbn [bind]. unfold after_error. rewrite P. cbn [snd]. auto.
Qed.
Lemma split_spaces : forall w, exists n w', w = repeat 32 n ++ w' /\ match w' with 32 :: _ => False | _ => True end.
Proof.
  induction w as [| c w IH]; [exists O, []; split; [reflexivity | exact I] |]. destruct (Z.eq_dec c 32) as [-> | N].
  - destruct IH as (n & w' & -> & H). exists (S n), w'. split; [reflexivity | exact H].
  - exists O, (c :: w). split; [reflexivity |]. destruct c as [| p | p]; try exact I. repeat (destruct p; try exact I). apply N. reflexivity.
Qed.
Lemma clean_nonwhite : forall r, clean r -> match next_char r with (LWhite, _) => False | _ => True end.
Proof.
  intros [| c r] C; [exact I |]. cbn in C. rewrite next_ascii; [| lia | unfold is_eol_char; lia].
  assert (T : forall c, 33 <= c < 127 -> lexem_type c <> LWhite).
  { clear. intros c C T. unfold lexem_type, in_range in T.
    repeat match type of T with (if ?b then _ else _) = _ => destruct b eqn:?; try discriminate T end. lia. }
  specialize (T c C). destruct (lexem_type c); auto.
Qed.
Lemma lx_ws : forall w, json_ws w -> lx clean w [].
Proof.
  assert (H : forall n w, (length w <= n)%nat -> json_ws w -> lx clean w []).
  { induction n as [| n IH]; intros w L W x rest f R C LL F.
    { destruct w; [| cbn in L; lia]. exists x, f. rewrite addt_nil. auto. }
    destruct w as [| c w]; [exists x, f; rewrite addt_nil; auto |]. inversion W as [| ? ? WC WT]; subst. destruct f as [| f]; [lia |]. cbn [app length] in *. cbn [json_tokens].
    destruct WC as [-> | [-> | [-> | ->]]].
    - destruct (split_spaces w) as (k & w' & Ew & NS). assert (W' : json_ws w') by (unfold json_ws in WT; rewrite Ew in WT; apply Forall_app in WT; apply WT).
      assert (LW : length w = (k + length w')%nat) by (rewrite Ew, app_length, repeat_length; reflexivity).
      assert (R' : l_rest x = repeat 32 (S k) ++ (w' ++ rest)) by (rewrite R, Ew; cbn [repeat app]; rewrite app_assoc; reflexivity).
      assert (NW : match next_char (w' ++ rest) with (LWhite, _) => False | _ => True end).
      { destruct w' as [| d w'']; [apply clean_nonwhite; exact C |]. inversion W' as [| ? ? D _]; subst. cbn [app].
        destruct D as [-> | [-> | [-> | ->]]]; [contradiction | exact I | |]; cbn [next_char]; exact I. }
      destruct (found_text _ _ _ _ (spaces_found k x (w' ++ rest) R' NW ltac:(rewrite R; cbn [length]; lia))) as (t & x1 & RN & T & TX & R1). rewrite RN, T. cbn iota.
      rewrite app_length in LL, F.
      destruct (IH w' ltac:(lia) W' x1 rest f R1 C ltac:(rewrite app_length; lia) ltac:(rewrite app_length; lia)) as (x2 & f2 & E2 & R2 & F2). exists x2, f2. auto.
    - destruct (tab_raw x (w ++ rest) R) as (x1 & RN & R1). rewrite RN.
      destruct (IH w ltac:(lia) WT x1 rest f R1 C ltac:(lia) ltac:(lia)) as (x2 & f2 & E2 & R2 & F2). exists x2, f2. auto.
    - destruct (found_text _ _ _ _ (eol_found x [10] (w ++ rest) R (or_introl eq_refl))) as (t & x1 & RN & T & TX & R1). rewrite RN, T. cbn iota.
      destruct (IH w ltac:(lia) WT x1 rest f R1 C ltac:(lia) ltac:(lia)) as (x2 & f2 & E2 & R2 & F2). exists x2, f2. auto.
    - destruct (list_eq_dec Z.eq_dec (firstn 1 (w ++ rest)) [10]) as [Q | Q].
      + destruct w as [| d w].
        { destruct rest as [| d rest]; [discriminate Q |]. cbn in Q. injection Q as ->. cbn in C. lia. }
        cbn in Q. injection Q as ->. inversion WT; subst. cbn [app length] in *.
        destruct (found_text _ _ _ _ (eol_found x [13; 10] (w ++ rest) R (or_intror (or_introl eq_refl)))) as (t & x1 & RN & T & TX & R1). rewrite RN, T. cbn iota.
        destruct (IH w ltac:(lia) ltac:(assumption) x1 rest f R1 C ltac:(lia) ltac:(lia)) as (x2 & f2 & E2 & R2 & F2). exists x2, f2. auto.
      + assert (NN : not_next (fun c => c = 10) (w ++ rest)).
        { destruct (w ++ rest) as [| d r]; [exact I |]. cbn in Q |- *. congruence. }
        destruct (found_text _ _ _ _ (eol_found x [13] (w ++ rest) R (or_intror (or_intror (conj eq_refl NN))))) as (t & x1 & RN & T & TX & R1). rewrite RN, T. cbn iota.
        destruct (IH w ltac:(lia) WT x1 rest f R1 C ltac:(lia) ltac:(lia)) as (x2 & f2 & E2 & R2 & F2). exists x2, f2. auto. }
  intros w. apply (H (length w) w). lia.
Qed.

(* words *)
Lemma lx_word : forall s v, Word s -> (length s <= 5)%nat -> json_keyword s = Some v -> s <> [114] -> s <> [82] -> lx delim s [KVal v].
Proof.
  intros s v W LS K N1 N2 x rest f R D L F. assert (NN : not_next WordChar rest).
  { destruct rest as [| c r]; [exact I |]. cbn in D |- *. unfold WordChar, Letter, DecimalDigit, Underscore. lia. }
  destruct (word_found x s rest R W NN ltac:(lia) ltac:(intros [[A | A] _]; contradiction)) as (ty & FO & TY).
  destruct (found_text _ _ _ _ FO) as (t & x1 & N & T & TX & R1). destruct f as [| f]; [lia |]. exists x1, f. cbn [json_tokens]. rewrite N, T, TX, K.
  assert (LP : (1 <= length s)%nat) by (destruct W as (c & t' & -> & _); cbn; lia).
  split; [| split; [exact R1 | rewrite app_length in F; lia]]. destruct TY as [[-> _] | (k & -> & _)]; reflexivity.
Qed.

(* strings *)
Lemma encode_app : forall a b, encode_32 (a ++ b) = encode_32 a ++ encode_32 b.
Proof. intros a b. unfold encode_32. apply flat_map_app. Qed.
