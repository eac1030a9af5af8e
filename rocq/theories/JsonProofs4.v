(* The recursion of the model does not run out; dump. *)
From Coq Require Import String Ascii ZArith List Lia Bool ZifyBool.
Import ListNotations.
From Verif Require Import Base ListZ Utf8Model LexModel LexSpec LexTokens LexProofs LexProofs6 LexProofs7 ParseIntModel ParseIntProofs JsonModel JsonSpec JsonProofs JsonProofs2 JsonProofs3.
Local Open Scope Z_scope.
Ltac Zify.zify_post_hook ::= idtac.

(* every token but the last one is not empty *)
Lemma raw_progress : forall x, match raw_next x with
  | RTok t x1 => t_type t = TEof \/ (length (l_rest x1) < length (l_rest x))%nat
  | RWhite x1 => (length (l_rest x1) < length (l_rest x))%nat
  | RUnk => True
  | RFuel => False
  end.
Proof.
  intros x. unfold raw_next, next_token. pose proof (any_token_good (S (length (l_rest x))) x ltac:(lia)) as G.
  destruct (any_token (S (length (l_rest x))) x) as [[ty x1] | e | |] eqn:AT; try contradiction; cbn [bind].
  - destruct G as (_ & LT & _). destruct (0xFFFF <? len (l_rest x) - len (l_rest x1)); [exact I |]. cbn [t_type]. destruct ty; try (right; apply LT; discriminate). left. reflexivity.
  - unfold any_token in AT. destruct (prefetch x) as [[c b] x1] eqn:P. destruct (prefetch_eq _ _ _ _ P) as (Eb & Nc & _).
    assert (NE : l_rest x <> []) by (intros R; rewrite Eb, R in Nc; cbn in Nc; injection Nc as <- _; discriminate AT).
    assert (PR : c <> LEof -> c <> LBadUtf8 -> (length (l_rest x1) < length (l_rest x))%nat) by (subst b; intros A B; pose proof (next_char_suf _ _ _ Nc) as (_ & _ & S & _); apply S; assumption).
    assert (NZ : (0 < length (l_rest x))%nat) by (destruct (l_rest x); [contradiction | cbn; lia]).
    assert (PE : c <> LEof) by (intros ->; discriminate AT).
    assert (NB : after_error e x = Some (snd (prefetch x)) -> c <> LBadUtf8 \/ (length (l_rest x1) < length (l_rest x))%nat).
    { intros A. left. intros ->. assert (e = EInvalidUtf8) by congruence. subst e. discriminate A. }
    unfold after_error in *. rewrite P in *. cbn [snd] in *. destruct e; try exact I; try (destruct (NB eq_refl) as [B | B]; [apply PR; assumption | exact B]). exact NZ.
Qed.
Lemma tokens_fuel : forall f x m, (length (l_rest x) < f)%nat -> snd (json_tokens f x m) <> EndFuel.
Proof.
  induction f as [| f IH]; intros x m L; [lia |]. cbn [json_tokens]. pose proof (raw_progress x) as PR.
  destruct (raw_next x) as [t x1 | x1 | |]; [| | discriminate | contradiction].
  - assert (R : forall k, t_type t <> TEof -> snd (cons_tok k (json_tokens f x1 false)) <> EndFuel) by (intros k N; cbn [cons_tok snd]; apply IH; destruct PR; [contradiction | lia]).
    assert (R2 : forall m, t_type t <> TEof -> snd (json_tokens f x1 m) <> EndFuel) by (intros m' N; apply IH; destruct PR; [contradiction | lia]). clear PR IH.
    assert (JN : json_number (token_text t) <> JFuel) by (unfold json_number; destruct (is_integer _); [destruct (parse_int _); discriminate | discriminate]).
    assert (JS : json_string (token_text t) <> JFuel) by (unfold json_string; destruct (decode 32 false _); discriminate).
    destruct (t_type t) eqn:T; try (destruct m; discriminate);
      try (destruct m; [discriminate |]; try apply R2; try discriminate).
    + destruct (json_keyword _); [apply R; discriminate | discriminate].
    + destruct (json_keyword _); [apply R; discriminate | discriminate].
    + destruct (json_number _); [apply R; discriminate | discriminate .. | contradiction].
    + destruct (json_string _); [apply R; discriminate | discriminate .. | contradiction].
    + destruct (op =? 0xC1); [apply R2; discriminate | discriminate].
    + destruct (token_text t) as [| c [| d l]]; try discriminate. destruct (json_separator c); [apply R; discriminate | discriminate].
  - destruct m; [discriminate |]. apply IH. lia.
Qed.
Definition fits {A} (n : nat) (r : pr A) : Prop := match r with POk _ s => (length s < n)%nat | PFuel => False | _ => True end.
Lemma parse_fuel : forall f s, (2 * length s < f -> fits (length s) (parse_value f s))%nat /\
  (forall acc, (2 * length s + 1 < f)%nat -> fits (length s) (parse_array f s acc)) /\ (forall obj, (2 * length s + 1 < f)%nat -> fits (length s) (parse_object f s obj)).
Proof.
  induction f as [| f IH]; intros s; [split; [| split]; intros; lia |]. split; [| split].
  - intros L. cbn [parse_value]. destruct s as [| [v | c] s]; [exact I | cbn; lia |]. cbn [length] in *. destruct (IH s) as (_ & IA & IO). destruct (c =? 91); [| destruct (c =? 123)].
    + specialize (IA [] ltac:(lia)). destruct (parse_array f s []); cbn in *; try assumption. lia.
    + specialize (IO [] ltac:(lia)). destruct (parse_object f s []); cbn in *; try assumption. lia.
    + exact I.
  - intros acc L. cbn [parse_array].
    assert (EL : fits (length s) (match parse_value f s with
        | POk v s1 =>
            match s1 with
            | [] => PEnd
            | KVal _ :: _ => PThrow
            | KSep c :: s2 => if c =? 93 then POk (rev (v :: acc)) s2 else if c =? 44 then parse_array f s2 (v :: acc) else PThrow
            end
        | PThrow => PThrow | PEnd => PEnd | PFuel => PFuel
        end)).
    { destruct (IH s) as (IV & _). specialize (IV ltac:(lia)). destruct (parse_value f s) as [v s1 | | |]; try assumption. cbn in IV. destruct s1 as [| [w | c] s2]; try exact I. cbn [length] in *.
      destruct (c =? 93); [cbn; lia |]. destruct (c =? 44); [| exact I]. destruct (IH s2) as (_ & IA & _). specialize (IA (v :: acc) ltac:(lia)). destruct (parse_array f s2 (v :: acc)); cbn in *; try assumption. lia. }
    destruct s as [| [v | c] s]; [exact I | exact EL |]. destruct (c =? 93); [cbn; lia |]. destruct (c =? 44); [| exact EL].
    cbn [length] in *. destruct (IH s) as (_ & IA & _). specialize (IA acc ltac:(lia)). destruct (parse_array f s acc); cbn in *; try assumption. lia.
  - intros obj L. cbn [parse_object]. destruct s as [| [v | c] s]; [exact I | |].
    + destruct v; try exact I. destruct s as [| [w | c] s]; try exact I. destruct (c =? 58); [| exact I]. cbn [length] in *. destruct (IH s) as (IV & _). specialize (IV ltac:(lia)).
      destruct (parse_value f s) as [v s1 | | |]; try assumption. cbn in IV. destruct s1 as [| [w | d] s2]; try exact I. cbn [length] in *. destruct (d =? 125); [cbn; lia |]. destruct (d =? 44); [| exact I].
      destruct (IH s2) as (_ & _ & IO). specialize (IO (upsert cs v obj) ltac:(lia)). destruct (parse_object f s2 (upsert cs v obj)); cbn in *; try assumption. lia.
    + destruct (c =? 125); [cbn; lia |]. destruct (c =? 44); [| exact I]. cbn [length] in *. destruct (IH s) as (_ & _ & IO). specialize (IO obj ltac:(lia)). destruct (parse_object f s obj); cbn in *; try assumption. lia.
Qed.
Lemma parse_no_fuel : forall b, parse_bytes b <> JFuel.
Proof.
  intros b. unfold parse_bytes. assert (L : (length (l_rest (lexer_init b)) < S (length b))%nat).
  { unfold lexer_init. cbn [l_rest]. destruct b as [| a [| b' [| c t]]]; cbn [length];
      repeat match goal with |- context [match ?v with _ => _ end] => destruct v; cbn [length]; try lia end; lia. }
  pose proof (tokens_fuel _ _ false L) as T. destruct (json_tokens (S (length b)) (lexer_init b) false) as [ts e]. cbn [snd] in T. unfold parse_tokens.
  destruct (parse_fuel (S (2 * length ts)) ts) as (PF & _). specialize (PF ltac:(lia)). destruct (parse_value (S (2 * length ts)) ts) as [v [| k s] | | |]; try discriminate; try contradiction; destruct e; try discriminate; contradiction.
Qed.

(* printed integers *)
Lemma dec_digits_json : forall f n acc, 0 < n < 2 ^ Z.of_nat f -> Forall (fun c => 48 <= c <= 57) acc ->
  Forall (fun c => 48 <= c <= 57) (dec_digits f n acc) /\ (exists d t, dec_digits f n acc = d :: t /\ d <> 48) /\
  forall v, v = 0 -> fold_left (fun a c => 10 * a + (c - 48)) (dec_digits f n acc) v = fold_left (fun a c => 10 * a + (c - 48)) acc n.
Proof.
  induction f as [| f IH]; intros n acc N F; [cbn in N; lia |]. cbn [dec_digits].
  assert (M : 0 <= n mod 10 < 10) by (apply Z.mod_pos_bound; lia). assert (DM : n = 10 * (n / 10) + n mod 10) by (apply Z.div_mod; lia).
  assert (F' : Forall (fun c => 48 <= c <= 57) ((48 + n mod 10) :: acc)) by (constructor; [lia | exact F]).
  destruct (n / 10 =? 0) eqn:Q.
  - split; [exact F' |]. split; [do 2 eexists; split; [reflexivity | lia] |]. intros v ->. cbn [fold_left]. f_equal. lia.
  - assert (DP : 0 <= n / 10) by (apply Z.div_pos; lia). rewrite Nat2Z.inj_succ, Z.pow_succ_r in N by lia.
    destruct (IH (n / 10) _ ltac:(lia) F') as (A & B & C). split; [exact A |]. split; [exact B |]. intros v V. rewrite (C v V). cbn [fold_left]. f_equal. lia.
Qed.
Lemma printed_uint : forall n, 0 <= n -> json_uint (dec_digits (S (Z.to_nat (Z.log2 n))) n []) n.
Proof.
  intros n N. destruct (Z.eq_dec n 0) as [-> | NZ].
  - split; [repeat constructor; cbn; lia |]. split; [left; reflexivity | reflexivity].
  - pose proof (log2_fuel n N) as [_ B]. destruct (dec_digits_json (S (Z.to_nat (Z.log2 n))) n [] ltac:(lia) (Forall_nil _)) as (F & SH & D).
    split; [exact F |]. split; [right; exact SH |]. unfold decimal. rewrite (D 0 eq_refl). reflexivity.
Qed.
Lemma printed_int : forall z, - 2 ^ 63 <= z < 2 ^ 63 -> json_value (int_to_str z) (JInt z).
Proof.
  intros z B. unfold int_to_str. destruct (z <? 0) eqn:Q.
  - replace (JInt z) with (JInt (- (- z))) by (f_equal; lia). apply (jv_neg _ (- z)); [apply printed_uint; lia | lia].
  - apply jv_uint; [apply printed_uint; lia | lia].
Qed.

(* induction over values *)
Lemma jv_induct : forall P : jv -> Prop, P JVoid -> (forall b, P (JBool b)) -> (forall z, P (JInt z)) -> (forall cs, P (JStr cs)) ->
  (forall l, Forall P l -> P (JArr l)) -> (forall l, Forall (fun p => P (snd p)) l -> P (JObj l)) -> forall v, P v.
Proof.
  intros P H1 H2 H3 H4 H5 H6. fix IH 1. intros [| b | z | cs | l | l]; [exact H1 | apply H2 | apply H3 | apply H4 | |].
  - apply H5. induction l as [| v l IL]; constructor; [apply IH | exact IL].
  - apply H6. induction l as [| [k v] l IL]; constructor; [apply IH | exact IL].
Qed.
Lemma all_some_map : forall A B (f : A -> option B) l ts, all_some (map f l) = Some ts -> Forall2 (fun a t => f a = Some t) l ts.
Proof.
  induction l as [| a l IH]; intros ts H; cbn [map all_some] in H; [injection H as <-; constructor |]. destruct (f a) eqn:F; [| discriminate H]. destruct (all_some (map f l)); [| discriminate H].
  injection H as <-. constructor; [exact F | apply IH; reflexivity].
Qed.
Lemma new_string_some : forall s t, new_string s = Some t -> t = s.
Proof. intros s t H. unfold new_string in H. destruct (len s <=? 0xFFFF); [congruence | discriminate H]. Qed.
Lemma no_ws : json_ws []. Proof. constructor. Qed.
Lemma join_elements : forall l ts, Forall2 (fun v t => json_value t v) l ts -> l <> [] -> json_elements (join ts) l.
Proof.
  intros l ts H. induction H as [| v t l ts V H IH]; intros N; [contradiction |]. destruct H as [| v2 t2 l ts V2 H].
  - cbn [join]. replace t with ([] ++ t ++ []) by apply app_nil_r. apply je_one; [apply no_ws | exact V | apply no_ws].
  - replace (join (t :: t2 :: ts)) with ([] ++ t ++ [] ++ [44] ++ join (t2 :: ts)) by reflexivity. apply je_more; [apply no_ws | exact V | apply no_ws |]. apply IH. discriminate.
Qed.
Lemma join_members : forall l ts, Forall2 (fun p t => json_member t (fst p) (snd p)) l ts -> l <> [] -> json_members (join ts) l.
Proof.
  intros l ts H. induction H as [| [k v] t l ts V H IH]; intros N; [contradiction |]. destruct H as [| p2 t2 l ts V2 H].
  - cbn [join]. apply jm_one. exact V.
  - replace (join (t :: t2 :: ts)) with (t ++ [44] ++ join (t2 :: ts)) by reflexivity. apply jm_more; [exact V |]. apply IH. discriminate.
Qed.
Lemma dump_value : forall v s, plain v -> dump v = Some s -> json_value s v.
Proof.
  intros v. induction v as [| b | z | cs | l IH | l IH] using jv_induct; intros s PL D.
  - injection D as <-. apply jv_null.
  - injection D as <-. destruct b; [apply jv_true | apply jv_false].
  - injection D as <-. inversion PL; subst. apply printed_int. assumption.
  - cbn [dump] in D. unfold quoted in D. apply new_string_some in D. subst s. inversion PL; subst. apply jv_str. split; [reflexivity | assumption].
  - cbn [dump] in D. destruct (all_some (map dump l)) as [ts |] eqn:A; [| discriminate D]. apply new_string_some in D. subst s. apply all_some_map in A. inversion PL as [| | | | ? FP |]; subst.
    destruct l as [| v l]; [inversion A; subst; apply (jv_arr_empty []); apply no_ws |]. apply jv_arr. apply join_elements; [| discriminate].
    clear PL. revert IH FP A. generalize (v :: l). clear. intros l IH FP A. induction A as [| v t l ts E A IHA]; constructor; inversion IH; inversion FP; subst; auto.
  - cbn [dump] in D. destruct (existsb _ l); [discriminate D |]. destruct (all_some _) as [ts |] eqn:A in D; [| discriminate D]. apply new_string_some in D. subst s. apply all_some_map in A.
    inversion PL as [| | | | | ? FP ND]; subst. destruct l as [| p l]; [inversion A; subst; apply (jv_obj_empty []); apply no_ws |]. apply jv_obj; [| exact ND]. apply join_members; [| discriminate].
    clear PL ND. revert IH FP A. generalize (p :: l). clear. intros l IH FP A. induction A as [| [k v] t l ts E A IHA]; constructor; inversion IH as [| ? ? I1 I2]; inversion FP as [| ? ? [F1 F2] F3]; subst; auto.
    cbn [fst snd] in *. unfold quoted in E. destruct (new_string (34 :: k ++ [34])) as [q |] eqn:Q; [| discriminate E]. apply new_string_some in Q. destruct (dump v) as [u |] eqn:DV; [| discriminate E].
    apply new_string_some in E. subst q t. replace ((34 :: k ++ [34]) ++ 58 :: u) with ([] ++ ([34] ++ k ++ [34]) ++ [] ++ [58] ++ [] ++ u ++ []) by (cbn [app]; rewrite app_nil_r; reflexivity).
    apply jm; try apply no_ws; [split; [reflexivity | exact F1] | apply I1; [exact F2 | reflexivity]].
Qed.
Lemma value_text : forall s v, json_value s v -> json_text s v.
Proof. intros s v V. exists [], s, []. cbn [app]. rewrite app_nil_r. split; [reflexivity |]. split; [apply no_ws |]. split; [exact V | apply no_ws]. Qed.
Lemma size_encode : forall s, utf8_size s = Z.of_nat (length (encode_32 s)).
Proof.
  induction s as [| c s IH]; [reflexivity |]. change (encode_32 (c :: s)) with (encode_char_32 c ++ encode_32 s). rewrite app_length, Nat2Z.inj_add, <- IH. cbn [utf8_size fold_right]. f_equal.
  unfold utf8_bytes, encode_char_32. change (2 ^ 7) with 0x80. change (2 ^ 11) with 0x800. change (2 ^ 16) with 0x10000.
  destruct (c <? 0x80); [reflexivity |]. destruct (c <? 0x800); [reflexivity |]. destruct (c <? 0x10000); reflexivity.
Qed.
