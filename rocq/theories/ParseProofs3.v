(** The expression parser accepts every phrase of the grammar, unless it
    complains about depth or line breaks. *)
From Coq Require Import ZArith List Lia Bool ZifyBool.
Import ListNotations.
From Verif Require Import Base ListZ ParseSpec ParseModel ParseProofs ParseProofs2.
Local Open Scope Z_scope.
Ltac Zify.zify_post_hook ::= idtac.

(** the innermost level at which a token continues an expression *)
Definition lev (b : body) : Z :=
  match b with
  | T_OP O_LAMBDA => 0
  | T_OP O_DOT | T_SEP S_PAREN_OPEN | T_SEP S_SQUARE_OPEN => 1
  | T_OP (O_ADD | O_SUB | O_MUL | O_DIV | O_MOD | O_AND | O_OR | O_XOR
         | O_SHL | O_SHR | O_SHRU) => 2
  | T_OP (O_EQ | O_NE | O_GE | O_GT | O_LE | O_LT)
  | T_KW (K_IN | K_INSTANCEOF | K_PROPERTYOF) => 3
  | T_OP (O_LOGAND | O_LOGOR) => 4
  | T_OP O_LOGTRI => 5
  | T_OP O_ARROW => 6
  | _ => 7
  end.

Lemma stops_lev : forall b, stops b = true <-> 6 < lev b.
Proof.
  intros b. split; intros H.
  - destruct b; try (cbn [lev]; lia).
    + destruct k; try discriminate H; cbn [lev]; lia.
    + destruct o; try discriminate H; cbn [lev]; lia.
    + destruct s; try discriminate H; cbn [lev]; lia.
  - destruct b; try reflexivity.
    + destruct k; try reflexivity; cbn [lev] in H; lia.
    + destruct o; try reflexivity; cbn [lev] in H; lia.
    + destruct s; try reflexivity; cbn [lev] in H; lia.
Qed.

Lemma lev_op : forall x b, lev (T_OP x) < lev b -> is_op x b = false.
Proof.
  intros x b H. destruct (is_op x b) eqn:Q; [| reflexivity].
  apply is_op_inv in Q. subst b. lia.
Qed.

Lemma lev_sep : forall x b, lev (T_SEP x) < lev b -> is_sep x b = false.
Proof.
  intros x b H. destruct (is_sep x b) eqn:Q; [| reflexivity].
  apply is_sep_inv in Q. subst b. lia.
Qed.

Lemma lev_mul : forall b, 2 < lev b -> masked OT_MULTIPLICATIVE b = false.
Proof.
  intros b H. destruct (masked OT_MULTIPLICATIVE b) eqn:Q; [| reflexivity].
  destruct (masked_mul _ Q) as (x & -> & M). destruct x; try discriminate M; cbn [lev] in H; lia.
Qed.

Lemma lev_bit : forall b, 2 < lev b -> masked OT_BITWISE b = false.
Proof.
  intros b H. destruct (masked OT_BITWISE b) eqn:Q; [| reflexivity].
  destruct (masked_bit _ Q) as (x & -> & M). destruct x; try discriminate M; cbn [lev] in H; lia.
Qed.

Lemma lev_arith : forall b, 2 < lev b -> has_bits OT_ARITHMETIC b = false.
Proof.
  intros b H. destruct (has_bits OT_ARITHMETIC b) eqn:Q; [| reflexivity].
  destruct (has_arith _ Q) as (x & -> & [M | M]); destruct x; try discriminate M;
    cbn [lev] in H; lia.
Qed.

Lemma no_bare_arith : forall b, masked OT_ARITHMETIC b = false.
Proof. intros b. destruct b; try reflexivity. destruct o; reflexivity. Qed.

Lemma lev_cmp : forall b, 3 < lev b -> masked OT_COMPARISON b = false.
Proof.
  intros b H. destruct (masked OT_COMPARISON b) eqn:Q; [| reflexivity].
  destruct (masked_cmp _ Q) as (x & -> & M). destruct x; try discriminate M; cbn [lev] in H; lia.
Qed.

Lemma unary_test : forall b,
  has_bits OT_UNARY b
  || match b with T_KW K_TYPEOF | T_KW K_DELETE => true | _ => false end = unary_tok b.
Proof.
  intros b. destruct b; try reflexivity. destruct o; reflexivity.
Qed.

Lemma pstart_unary : forall b, pstart b = true -> unary_tok b = false.
Proof.
  intros b H. destruct b; try reflexivity; try discriminate H.
  destruct k; try reflexivity; discriminate H.
Qed.

Lemma start_rhs_not : forall b, start G_RHS b = true ->
  is_sep S_SQUARE_CLOSE b = false /\ is_sep S_PAREN_CLOSE b = false /\
  is_sep S_CURLY_CLOSE b = false /\ is_sep S_COMMA b = false /\
  is_sep S_COLON b = false /\ is_op O_LOGTRI b = false.
Proof.
  intros b H. destruct b; try (repeat split; reflexivity).
  - destruct o; try (repeat split; reflexivity); discriminate H.
  - destruct s; try (repeat split; reflexivity); discriminate H.
Qed.

(** tokens consumed, backwards *)

Section Complete.

Variable maxd : Z.
Variable p : place.

(** what is true when a consumed token follows a line break *)
Variable Br : Prop.

Definition eatb (bs : list body) (ts r : list token) : Prop :=
  exists us, ts = us ++ r /\ map fst us = bs /\ (existsb snd us = true -> Br).

Lemma eatb_nil_inv : forall ts r, eatb [] ts r -> ts = r.
Proof.
  intros ts r (us & -> & E & _). destruct us; [reflexivity | discriminate E].
Qed.

Lemma eatb_cons_eol : forall b bs ts r, eatb (b :: bs) ts r -> peek_eol ts = true -> Br.
Proof.
  intros b bs ts r (us & -> & E & H) Q. destruct us as [| (c, e) us]; [discriminate E |].
  cbn [app peek_eol] in Q. subst e. apply H. reflexivity.
Qed.

Lemma eatb_cons_inv : forall b bs ts r, eatb (b :: bs) ts r ->
  peek ts = b /\ eatb bs (rest ts) r.
Proof.
  intros b bs ts r (us & -> & E & H). destruct us as [| (c, e) us]; [discriminate E |].
  cbn [map fst] in E. assert (c = b /\ map fst us = bs) as [-> <-] by (split; congruence).
  split; [reflexivity |]. exists us. split; [reflexivity |]. split; [reflexivity |].
  intros Q. apply H. cbn [existsb snd]. rewrite Q. apply orb_true_r.
Qed.

Lemma eatb_app_inv : forall b1 b2 ts r, eatb (b1 ++ b2) ts r ->
  exists m, eatb b1 ts m /\ eatb b2 m r.
Proof.
  intros b1 b2 ts r (us & -> & E & H). apply map_eq_app in E. destruct E as (u1 & u2 & -> & E1 & E2).
  rewrite existsb_app in H.
  exists (u2 ++ r). split; [exists u1 | exists u2].
  - rewrite app_assoc. split; [reflexivity |]. split; [exact E1 |]. intros Q. apply H.
    rewrite Q. reflexivity.
  - split; [reflexivity |]. split; [exact E2 |]. intros Q. apply H. rewrite Q. apply orb_true_r.
Qed.

Lemma eatb_one_inv : forall b ts r, eatb [b] ts r -> peek ts = b /\ r = rest ts.
Proof.
  intros b ts r H. apply eatb_cons_inv in H. destruct H as (P & H).
  apply eatb_nil_inv in H. auto.
Qed.

(* ---- acceptable outcomes ---- *)

Definition compatr {A : Type} (r w : res A) : Prop :=
  r = w \/ r = Err E_DEPTH \/ r = Err E_FUEL \/ (r = Err E_EOL /\ Br).

Local Notation compat r v := (compatr r (Ok v)).

Lemma compat_ok : forall (A : Type) (v : A), compat (Ok v) v.
Proof. intros. left. reflexivity. Qed.

Lemma compat_fuel : forall (A : Type) (w : res A), compatr (Err E_FUEL) w.
Proof. intros. right; right; left. reflexivity. Qed.

Lemma compat_eol : forall (A : Type) (w : res A), Br -> compatr (Err E_EOL) w.
Proof. intros A w H. right; right; right. auto. Qed.

Lemma compat_bind : forall (A B : Type) (r : res A) (f : A -> res B) v w,
  compatr r (Ok v) -> compatr (f v) w -> compatr (pbind r f) w.
Proof.
  intros A B r f v w [-> | [-> | [-> | (-> & X)]]] H; cbn [pbind];
    [exact H | right; left; reflexivity | right; right; left; reflexivity
    | right; right; right; auto].
Qed.

Lemma compat_inc : forall d, compat (increase_ast_depth maxd d) (d + 1).
Proof.
  intros d. unfold increase_ast_depth.
  destruct (d + 1 >? maxd); [right; left; reflexivity | apply compat_ok].
Qed.

Lemma pbind_assoc : forall (A B C : Type) (r : res A) (f : A -> res B) (g : B -> res C),
  pbind (pbind r f) g = pbind r (fun a => pbind (f a) g).
Proof. intros A B C [a | e] f g; reflexivity. Qed.

Lemma assume_compat : forall x ts, peek ts = T_SEP x -> assume_separator x ts = Ok (rest ts).
Proof.
  intros x ts H. unfold assume_separator. rewrite H.
  unfold is_sep. cbn [t_sep]. rewrite Z.eqb_refl. reflexivity.
Qed.

(** decide a test on the next token, which is known *)
Ltac tst H t v := replace t with v by (rewrite H; reflexivity).

Lemma call_compat : forall g f, callee p g f -> call_node p g = Ok f.
Proof.
  intros g f H. destruct H as [C | t kids N].
  - unfold call_node. rewrite C. reflexivity.
  - unfold call_node. destruct t; try reflexivity. contradiction.
Qed.

Definition complete (N : nonterm) (l : Z) (q : parser) : Prop :=
  forall bs a u d ts r, der p N bs a -> eatb bs ts r -> l < lev (peek r) ->
    compat (q u d ts) (a, r).

Section Levels.

Variable R : parser.
Hypothesis HR : complete G_RHS 6 R.

Lemma head_of : forall N bs a ts r, der p N bs a -> eatb bs ts r ->
  start N (peek ts) = true /\ peek ts <> T_EOF.
Proof.
  intros N bs a ts r D F. destruct (der_begins _ _ _ _ D) as (b & r0 & -> & S1 & _).
  apply eatb_cons_inv in F. destruct F as (P & _). rewrite P. split; [exact S1 |].
  intros Z. rewrite Z in S1. destruct N; discriminate S1.
Qed.

Lemma expand_compat : forall (a : ast) x ts r, x = [] \/ x = [T_OP O_MORE] -> eatb x ts r ->
  is_op O_MORE (peek r) = false ->
  expand a ts = (if x then a else Node N_EXPAND [a], r) /\
  (x = [] -> peek ts = peek r) /\ (x <> [] -> peek ts = T_OP O_MORE).
Proof.
  intros a x ts r [-> | ->] F Nr; unfold expand.
  - apply eatb_nil_inv in F. subst r. rewrite Nr. split; [reflexivity |].
    split; [reflexivity | intros Z; contradiction].
  - apply eatb_one_inv in F. destruct F as (P & ->). tst P (is_op O_MORE (peek ts)) true.
    split; [reflexivity |]. split; [intros Z; discriminate Z | intros _; exact P].
Qed.

Lemma array_loop_complete : forall L bs l, derL p L bs l -> L = L_ELEMS ->
  forall k u d acc ts r, eatb (bs ++ [T_SEP S_SQUARE_CLOSE]) ts r ->
  compat (array_loop R k u d acc ts) (Node N_ARRAY (acc ++ l), r).
Proof.
  intros L bs l H.
  induction H as [| bs1 a x D Hx | bs1 a x bs2 l D Hx DL IH | | | | | | |];
    intros EL; try discriminate EL; intros k u d acc ts r F;
    (destruct k as [| k]; [apply compat_fuel |]); cbn [array_loop].
  - apply eatb_one_inv in F. destruct F as (P & ->). rewrite app_nil_r.
    tst P (is_sep S_SQUARE_CLOSE (peek ts)) true. apply compat_ok.
  - rewrite <- app_assoc in F. apply eatb_app_inv in F. destruct F as (m1 & F1 & F).
    apply eatb_app_inv in F. destruct F as (m2 & F2 & F3).
    destruct (start_rhs_not _ (proj1 (head_of _ _ _ _ _ D F1))) as (S1 & _). rewrite S1.
    apply eatb_one_inv in F3. destruct F3 as (P3 & ->).
    destruct (expand_compat a x m1 m2 Hx F2 ltac:(rewrite P3; reflexivity)) as (X & X1 & X2).
    assert (6 < lev (peek m1)) as S2.
    { destruct Hx as [-> | ->]; [rewrite X1, P3 by reflexivity; cbn [lev]; lia |].
      rewrite X2 by discriminate. cbn [lev]. lia. }
    eapply compat_bind; [apply (HR _ _ _ _ _ _ D F1 S2) | cbn beta iota]. rewrite X.
    tst P3 (is_sep S_COMMA (peek m2)) false. tst P3 (is_sep S_SQUARE_CLOSE (peek m2)) true.
    cbn [negb]. destruct k as [| k]; [apply compat_fuel |]. cbn [array_loop].
    tst P3 (is_sep S_SQUARE_CLOSE (peek m2)) true. apply compat_ok.
  - rewrite <- app_assoc in F. apply eatb_app_inv in F. destruct F as (m1 & F1 & F).
    rewrite <- app_assoc in F. apply eatb_app_inv in F. destruct F as (m2 & F2 & F3).
    destruct (start_rhs_not _ (proj1 (head_of _ _ _ _ _ D F1))) as (S1 & _). rewrite S1.
    cbn [app] in F3. apply eatb_cons_inv in F3. destruct F3 as (P3 & F3).
    destruct (expand_compat a x m1 m2 Hx F2 ltac:(rewrite P3; reflexivity)) as (X & X1 & X2).
    assert (6 < lev (peek m1)) as S2.
    { destruct Hx as [-> | ->]; [rewrite X1, P3 by reflexivity; cbn [lev]; lia |].
      rewrite X2 by discriminate. cbn [lev]. lia. }
    eapply compat_bind; [apply (HR _ _ _ _ _ _ D F1 S2) | cbn beta iota]. rewrite X.
    tst P3 (is_sep S_COMMA (peek m2)) true.
    specialize (IH eq_refl k u d (acc ++ [if x then a else Node N_EXPAND [a]]) _ _ F3).
    rewrite <- app_assoc in IH. exact IH.
Qed.

Lemma name_not : forall b, name_tok b = true ->
  is_sep S_COMMA b = false /\ is_sep S_CURLY_CLOSE b = false /\ is_op O_LOGTRI b = false.
Proof. intros b H. destruct b; try discriminate H; auto. Qed.

Lemma object_loop_complete : forall L bs l, derL p L bs l -> L = L_PROPS ->
  forall k u d acc ts r, eatb (bs ++ [T_SEP S_CURLY_CLOSE]) ts r ->
  compat (object_loop R k u d true acc ts) (Node N_OBJECT (acc ++ l), r).
Proof.
  intros L bs l H.
  induction H as [| | | | b bs1 a Hn D | b bs1 a bs2 l Hn D DL IH | | | |];
    intros EL; try discriminate EL; intros k u d acc ts r F;
    (destruct k as [| k]; [apply compat_fuel |]); cbn [object_loop].
  - apply eatb_one_inv in F. destruct F as (P & ->). rewrite app_nil_r.
    tst P (is_sep S_COMMA (peek ts)) false. tst P (is_sep S_CURLY_CLOSE (peek ts)) true.
    apply compat_ok.
  - cbn [app] in F. apply eatb_cons_inv in F. destruct F as (P0 & F).
    apply eatb_cons_inv in F. destruct F as (P1 & F).
    apply eatb_app_inv in F. destruct F as (m & F2 & F3).
    apply eatb_one_inv in F3. destruct F3 as (P3 & ->).
    destruct (name_not b Hn) as (N1 & N2 & _). rewrite P0, N1, N2. cbn [negb].
    assert (compat (pbind (assume_separator S_COLON (rest ts)) (fun ts1 =>
            pbind (R u d ts1) (fun '(a, ts2) =>
            object_loop R k u d false
              (acc ++ [Node N_PROPERTY [Node (N_STR b) []; a]]) ts2)))
        (Node N_OBJECT (acc ++ [Node N_PROPERTY [Node (N_STR b) []; a]]), rest m)) as P.
    { rewrite (assume_compat _ _ P1). cbn [pbind].
      eapply compat_bind; [apply (HR _ _ _ _ _ _ D F2); rewrite P3; cbn [lev]; lia | cbn beta iota].
      destruct k as [| k]; [apply compat_fuel |]. cbn [object_loop].
      tst P3 (is_sep S_COMMA (peek m)) false. tst P3 (is_sep S_CURLY_CLOSE (peek m)) true.
      apply compat_ok. }
    destruct b; try discriminate Hn; exact P.
  - cbn [app] in F. apply eatb_cons_inv in F. destruct F as (P0 & F).
    apply eatb_cons_inv in F. destruct F as (P1 & F).
    rewrite <- app_assoc in F. apply eatb_app_inv in F. destruct F as (m & F2 & F3).
    cbn [app] in F3. apply eatb_cons_inv in F3. destruct F3 as (P3 & F3).
    destruct (name_not b Hn) as (N1 & N2 & _). rewrite P0, N1, N2. cbn [negb].
    assert (compat (pbind (assume_separator S_COLON (rest ts)) (fun ts1 =>
            pbind (R u d ts1) (fun '(a, ts2) =>
            object_loop R k u d false
              (acc ++ [Node N_PROPERTY [Node (N_STR b) []; a]]) ts2)))
        (Node N_OBJECT (acc ++ Node N_PROPERTY [Node (N_STR b) []; a] :: l), r)) as P.
    { rewrite (assume_compat _ _ P1). cbn [pbind].
      eapply compat_bind; [apply (HR _ _ _ _ _ _ D F2); rewrite P3; cbn [lev]; lia | cbn beta iota].
      destruct k as [| k]; [apply compat_fuel |]. cbn [object_loop].
      tst P3 (is_sep S_COMMA (peek m)) true.
      specialize (IH eq_refl k u d (acc ++ [Node N_PROPERTY [Node (N_STR b) []; a]]) _ _ F3).
      rewrite <- app_assoc in IH. exact IH. }
    destruct b; try discriminate Hn; exact P.
Qed.

Lemma not_lambda : forall bs a ts m, der p G_RHS bs a -> eatb bs ts m ->
  peek m = T_SEP S_PAREN_CLOSE -> 0 < lev (peek (rest m)) -> is_lambda ts = false.
Proof.
  intros bs a ts m D F Pm Hl. destruct (der_begins _ _ _ _ D) as (b & r0 & -> & S1 & S2).
  apply eatb_cons_inv in F. destruct F as (P & F). unfold is_lambda.
  destruct (start_rhs_not _ S1) as (_ & N1 & _). rewrite P, N1.
  destruct b; try reflexivity. cbn [is_ident].
  destruct r0 as [| c r0].
  - apply eatb_nil_inv in F. rewrite F, Pm. cbv zeta.
    change (is_op O_SET (T_SEP S_PAREN_CLOSE)) with false.
    change (is_op O_MORE (T_SEP S_PAREN_CLOSE)) with false.
    change (is_sep S_COMMA (T_SEP S_PAREN_CLOSE)) with false.
    change (is_sep S_PAREN_CLOSE (T_SEP S_PAREN_CLOSE)) with true. cbn [orb].
    apply lev_op. exact Hl.
  - apply eatb_cons_inv in F. destruct F as (P1 & _). rewrite P1. cbv zeta.
    unfold second in S2. rewrite negb_true_iff, !orb_false_iff in S2.
    destruct S2 as ((((A1 & A2) & A3) & A4) & A5). rewrite A1, A2, A4, A5. reflexivity.
Qed.

Lemma primary_complete : forall k, complete G_PRIMARY 0 (primary_expr p R k).
Proof.
  intros k bs a u d ts r D F Hl. unfold primary_expr. cbv zeta.
  inversion D; subst;
    try (apply eatb_one_inv in F; destruct F as (P & ->); rewrite P; apply compat_ok).
  - apply eatb_one_inv in F. destruct F as (P & ->). rewrite P.
    rewrite lev_op by exact Hl. apply compat_ok.
  - apply eatb_one_inv in F. destruct F as (P & ->). rewrite P.
    match goal with H : in_member p = true |- _ => rewrite H end. apply compat_ok.
  - apply eatb_cons_inv in F. destruct F as (P & F). rewrite P.
    apply eatb_app_inv in F. destruct F as (m & F1 & F2).
    apply eatb_one_inv in F2. destruct F2 as (P2 & ->).
    match goal with H : der p G_RHS _ _ |- _ => rename H into D1 end.
    rewrite (not_lambda _ _ _ _ D1 F1 P2 Hl).
    eapply compat_bind; [apply (HR _ _ _ _ _ _ D1 F1); rewrite P2; cbn [lev]; lia | cbn beta iota].
    rewrite (assume_compat _ _ P2). apply compat_ok.
  - apply eatb_cons_inv in F. destruct F as (P & F). rewrite P.
    eapply array_loop_complete with (acc := []); [eassumption | reflexivity | exact F].
  - apply eatb_cons_inv in F. destruct F as (P & F). rewrite P.
    eapply object_loop_complete with (acc := []); [eassumption | reflexivity | exact F].
Qed.

Lemma args_loop_complete : forall L bs l, derL p L bs l -> L = L_ARGS ->
  forall k u d acc ts r, eatb (bs ++ [T_SEP S_PAREN_CLOSE]) ts r ->
  compat (args_loop R k false u d acc ts) (acc ++ l, r).
Proof.
  intros L bs l H.
  induction H as [| | | | | | bs1 a x D Hx | bs1 a x bs2 l D Hx DL IH | |];
    intros EL; try discriminate EL; intros k u d acc ts r F;
    (destruct k as [| k]; [apply compat_fuel |]); cbn [args_loop].
  - rewrite <- app_assoc in F. apply eatb_app_inv in F. destruct F as (m1 & F1 & F).
    apply eatb_app_inv in F. destruct F as (m2 & F2 & F3).
    apply eatb_one_inv in F3. destruct F3 as (P3 & ->).
    destruct (expand_compat a x m1 m2 Hx F2 ltac:(rewrite P3; reflexivity)) as (X & X1 & X2).
    assert (6 < lev (peek m1)) as S2.
    { destruct Hx as [-> | ->]; [rewrite X1, P3 by reflexivity; cbn [lev]; lia |].
      rewrite X2 by discriminate. cbn [lev]. lia. }
    eapply compat_bind; [apply (HR _ _ _ _ _ _ D F1 S2) | cbn beta iota]. rewrite andb_false_r, X.
    tst P3 (is_sep S_PAREN_CLOSE (peek m2)) true. apply compat_ok.
  - rewrite <- app_assoc in F. apply eatb_app_inv in F. destruct F as (m1 & F1 & F).
    rewrite <- app_assoc in F. apply eatb_app_inv in F. destruct F as (m2 & F2 & F3).
    cbn [app] in F3. apply eatb_cons_inv in F3. destruct F3 as (P3 & F3).
    destruct (expand_compat a x m1 m2 Hx F2 ltac:(rewrite P3; reflexivity)) as (X & X1 & X2).
    assert (6 < lev (peek m1)) as S2.
    { destruct Hx as [-> | ->]; [rewrite X1, P3 by reflexivity; cbn [lev]; lia |].
      rewrite X2 by discriminate. cbn [lev]. lia. }
    eapply compat_bind; [apply (HR _ _ _ _ _ _ D F1 S2) | cbn beta iota]. rewrite andb_false_r, X.
    tst P3 (is_sep S_PAREN_CLOSE (peek m2)) false. tst P3 (is_sep S_COMMA (peek m2)) true.
    cbn [negb].
    specialize (IH eq_refl k u d (acc ++ [if x then a else Node N_EXPAND [a]]) _ _ F3).
    rewrite <- app_assoc in IH. exact IH.
Qed.

Lemma nargs_loop_complete : forall L bs l, derL p L bs l -> L = L_NARGS ->
  forall k u d acc ts r, eatb (bs ++ [T_SEP S_PAREN_CLOSE]) ts r ->
  compat (args_loop R k true u d acc ts) (acc ++ l, r).
Proof.
  intros L bs l H.
  induction H as [| | | | | | | | x bs1 a D | x bs1 a bs2 l D DL IH];
    intros EL; try discriminate EL; intros k u d acc ts r F;
    (destruct k as [| k]; [apply compat_fuel |]); cbn [args_loop];
    cbn [app] in F; apply eatb_cons_inv in F; destruct F as (P0 & F);
    apply eatb_cons_inv in F; destruct F as (P1 & F).
  - apply eatb_app_inv in F. destruct F as (m & F2 & F3).
    apply eatb_one_inv in F3. destruct F3 as (P3 & ->).
    eapply compat_bind with (v := (Node N_PROPERTY [Node (N_STR (T_ID x)) []; a], m)).
    + unfold named_argument. rewrite P0. cbn [is_ident negb].
      tst P1 (is_op O_SET (peek (rest ts))) true. cbn [negb].
      eapply compat_bind; [apply (HR _ _ _ _ _ _ D F2); rewrite P3; cbn [lev]; lia | cbn beta iota].
      apply compat_ok.
    + unfold expand. tst P3 (is_op O_MORE (peek m)) false. cbn [andb].
      tst P3 (is_sep S_PAREN_CLOSE (peek m)) true. apply compat_ok.
  - rewrite <- app_assoc in F. apply eatb_app_inv in F. destruct F as (m & F2 & F3).
    cbn [app] in F3. apply eatb_cons_inv in F3. destruct F3 as (P3 & F3).
    eapply compat_bind with (v := (Node N_PROPERTY [Node (N_STR (T_ID x)) []; a], m)).
    + unfold named_argument. rewrite P0. cbn [is_ident negb].
      tst P1 (is_op O_SET (peek (rest ts))) true. cbn [negb].
      eapply compat_bind; [apply (HR _ _ _ _ _ _ D F2); rewrite P3; cbn [lev]; lia | cbn beta iota].
      apply compat_ok.
    + unfold expand. tst P3 (is_op O_MORE (peek m)) false. cbn [andb].
      tst P3 (is_sep S_PAREN_CLOSE (peek m)) false. tst P3 (is_sep S_COMMA (peek m)) true.
      cbn [negb].
      specialize (IH eq_refl k u d (acc ++ [Node N_PROPERTY [Node (N_STR (T_ID x)) []; a]]) _ _ F3).
      rewrite <- app_assoc in IH. exact IH.
Qed.

(** the first argument of an unnamed list is not a name followed by [=] *)
Lemma args_unnamed : forall L bs l, derL p L bs l -> L = L_ARGS ->
  forall ts r, eatb (bs ++ [T_SEP S_PAREN_CLOSE]) ts r ->
  is_sep S_PAREN_CLOSE (peek ts) = false /\
  is_ident (peek ts) && is_op O_SET (peek (rest ts)) = false.
Proof.
  intros L bs l H EL ts r F.
  assert (exists bs1 a c rr, der p G_RHS bs1 a /\ eatb (bs1 ++ c :: rr) ts r /\ is_op O_SET c = false)
    as (bs1 & a & c & rr & D & F1 & Hc).
  { destruct H as [| | | | | | bs1 a x D Hx | bs1 a x bs2 l D Hx DL | |]; try discriminate EL.
    - destruct Hx as [-> | ->].
      + rewrite app_nil_r in F. exists bs1, a, (T_SEP S_PAREN_CLOSE), []. auto.
      + rewrite <- app_assoc in F. exists bs1, a, (T_OP O_MORE), [T_SEP S_PAREN_CLOSE]. auto.
    - destruct Hx as [-> | ->]; rewrite <- app_assoc in F; cbn [app] in F.
      + eexists bs1, a, _, _. split; [exact D |]. split; [exact F | reflexivity].
      + eexists bs1, a, _, _. split; [exact D |]. split; [exact F | reflexivity]. }
  destruct (der_begins _ _ _ _ D) as (b & r0 & -> & S1 & S2).
  cbn [app] in F1. apply eatb_cons_inv in F1. destruct F1 as (P & F1). rewrite P.
  destruct (start_rhs_not _ S1) as (_ & N1 & _). split; [exact N1 |].
  destruct b; try reflexivity. cbn [is_ident andb].
  destruct r0 as [| c0 r0]; cbn [app] in F1; apply eatb_cons_inv in F1;
    destruct F1 as (P1 & _); rewrite P1; [exact Hc |].
  unfold second in S2. rewrite negb_true_iff, !orb_false_iff in S2. apply S2.
Qed.

Lemma nargs_named : forall L bs l, derL p L bs l -> L = L_NARGS ->
  forall ts r, eatb (bs ++ [T_SEP S_PAREN_CLOSE]) ts r ->
  is_sep S_PAREN_CLOSE (peek ts) = false /\
  is_ident (peek ts) && is_op O_SET (peek (rest ts)) = true.
Proof.
  intros L bs l H EL ts r F.
  assert (exists x rr, eatb (T_ID x :: T_OP O_SET :: rr) ts r) as (x & rr & F1).
  { destruct H; try discriminate EL; eexists _, _; exact F. }
  apply eatb_cons_inv in F1. destruct F1 as (P & F1).
  apply eatb_cons_inv in F1. destruct F1 as (P1 & _).
  rewrite P, P1. auto.
Qed.

Lemma refinement_expr_complete : forall u d a ts r opt t,
  (opt = [] /\ t = N_REF) \/ (opt = [T_OP O_LOGTRI] /\ t = N_OPT_REF) ->
  (eatb (opt ++ [T_SEP S_COLON; T_SEP S_SQUARE_CLOSE]) ts r ->
     compat (refinement_expr R u d a ts) (Node N_SLICE [a; Node N_VOID []; Node N_VOID []], r)) /\
  (forall bs j, der p G_RHS bs j ->
     eatb (opt ++ T_SEP S_COLON :: bs ++ [T_SEP S_SQUARE_CLOSE]) ts r ->
     compat (refinement_expr R u d a ts) (Node N_SLICE [a; Node N_VOID []; j], r)) /\
  (forall bs i, der p G_RHS bs i ->
     eatb (opt ++ bs ++ [T_SEP S_SQUARE_CLOSE]) ts r ->
     compat (refinement_expr R u d a ts) (Node t [a; i], r)) /\
  (forall bs i, der p G_RHS bs i ->
     eatb (opt ++ bs ++ [T_SEP S_COLON; T_SEP S_SQUARE_CLOSE]) ts r ->
     compat (refinement_expr R u d a ts) (Node N_SLICE [a; i; Node N_VOID []], r)) /\
  (forall bs i bs2 j, der p G_RHS bs i -> der p G_RHS bs2 j ->
     eatb (opt ++ bs ++ T_SEP S_COLON :: bs2 ++ [T_SEP S_SQUARE_CLOSE]) ts r ->
     compat (refinement_expr R u d a ts) (Node N_SLICE [a; i; j], r)).
Proof.
  intros u d a ts r opt t Ho. unfold refinement_expr.
  assert (forall X, X <> [] -> (forall c rr, X = c :: rr -> is_op O_LOGTRI c = false) ->
    eatb (opt ++ X) ts r -> exists m, eatb X m r /\
    (if is_op O_LOGTRI (peek ts) then (N_OPT_REF, rest ts) else (N_REF, ts)) = (t, m)) as Hopt.
  { intros X Nx Hc F. apply eatb_app_inv in F. destruct F as (m & F0 & F). exists m.
    split; [exact F |]. destruct Ho as [(-> & ->) | (-> & ->)].
    - apply eatb_nil_inv in F0. subst m. destruct X as [| c rr]; [contradiction |].
      apply eatb_cons_inv in F. destruct F as (P & _). rewrite P, (Hc _ _ eq_refl). reflexivity.
    - apply eatb_one_inv in F0. destruct F0 as (P & ->).
      tst P (is_op O_LOGTRI (peek ts)) true. reflexivity. }
  assert (forall N bs i X, der p N bs i -> N = G_RHS ->
    forall c rr, bs ++ X = c :: rr -> is_op O_LOGTRI c = false) as Hh.
  { intros N bs i X D EN c rr Q. subst N. destruct (der_begins _ _ _ _ D) as (b & r0 & -> & S1 & _).
    cbn [app] in Q. assert (c = b) as -> by congruence. apply start_rhs_not, S1. }
  assert (forall bs i X, der p G_RHS bs i -> bs ++ X <> []) as Hne.
  { intros bs i X D Q. pose proof (der_nonempty _ _ _ _ D). destruct bs; [contradiction | discriminate Q]. }
  assert (forall X, eatb (opt ++ T_SEP S_COLON :: X) ts r ->
    exists m, eatb (T_SEP S_COLON :: X) m r /\
    (if is_op O_LOGTRI (peek ts) then (N_OPT_REF, rest ts) else (N_REF, ts)) = (t, m)) as Hcol.
  { intros X F. apply Hopt; [discriminate | | exact F]. intros c rr Q.
    assert (c = T_SEP S_COLON) as -> by congruence. reflexivity. }
  split; [| split; [| split; [| split]]].
  - intros F. destruct (Hcol _ F) as (m & Fm & ->).
    apply eatb_cons_inv in Fm. destruct Fm as (P & Fm).
    apply eatb_one_inv in Fm. destruct Fm as (P1 & ->).
    tst P (is_sep S_SQUARE_CLOSE (peek m)) false. tst P (is_sep S_COLON (peek m)) true. cbv zeta.
    tst P1 (is_sep S_SQUARE_CLOSE (peek (rest m))) true. cbn [pbind].
    rewrite (assume_compat _ _ P1). apply compat_ok.
  - intros bs j D F. destruct (Hcol _ F) as (m & Fm & ->).
    apply eatb_cons_inv in Fm. destruct Fm as (P & Fm).
    apply eatb_app_inv in Fm. destruct Fm as (m2 & F2 & F3).
    apply eatb_one_inv in F3. destruct F3 as (P3 & ->).
    tst P (is_sep S_SQUARE_CLOSE (peek m)) false. tst P (is_sep S_COLON (peek m)) true. cbv zeta.
    destruct (start_rhs_not _ (proj1 (head_of _ _ _ _ _ D F2))) as (-> & _).
    rewrite pbind_assoc.
    eapply compat_bind; [apply (HR _ _ _ _ _ _ D F2); rewrite P3; cbn [lev]; lia | cbn beta iota].
    cbn [pbind]. rewrite (assume_compat _ _ P3). apply compat_ok.
  - intros bs i D F. destruct (Hopt _ (Hne _ _ _ D) (Hh _ _ _ _ D eq_refl) F) as (m & Fm & ->).
    apply eatb_app_inv in Fm. destruct Fm as (m2 & F2 & F3).
    apply eatb_one_inv in F3. destruct F3 as (P3 & ->).
    destruct (start_rhs_not _ (proj1 (head_of _ _ _ _ _ D F2))) as (-> & _ & _ & _ & -> & _).
    rewrite pbind_assoc.
    eapply compat_bind; [apply (HR _ _ _ _ _ _ D F2); rewrite P3; cbn [lev]; lia | cbn beta iota].
    tst P3 (is_sep S_COLON (peek m2)) false.
    cbn [pbind]. rewrite (assume_compat _ _ P3). apply compat_ok.
  - intros bs i D F. destruct (Hopt _ (Hne _ _ _ D) (Hh _ _ _ _ D eq_refl) F) as (m & Fm & ->).
    apply eatb_app_inv in Fm. destruct Fm as (m2 & F2 & F3).
    apply eatb_cons_inv in F3. destruct F3 as (P3 & F3).
    apply eatb_one_inv in F3. destruct F3 as (P4 & ->).
    destruct (start_rhs_not _ (proj1 (head_of _ _ _ _ _ D F2))) as (-> & _ & _ & _ & -> & _).
    rewrite pbind_assoc.
    eapply compat_bind; [apply (HR _ _ _ _ _ _ D F2); rewrite P3; cbn [lev]; lia | cbn beta iota].
    tst P3 (is_sep S_COLON (peek m2)) true. cbv zeta.
    tst P4 (is_sep S_SQUARE_CLOSE (peek (rest m2))) true.
    cbn [pbind]. rewrite (assume_compat _ _ P4). apply compat_ok.
  - intros bs i bs2 j D D2 F.
    destruct (Hopt _ (Hne _ _ _ D) (Hh _ _ _ _ D eq_refl) F) as (m & Fm & ->).
    apply eatb_app_inv in Fm. destruct Fm as (m2 & F2 & F3).
    apply eatb_cons_inv in F3. destruct F3 as (P3 & F3).
    apply eatb_app_inv in F3. destruct F3 as (m3 & F4 & F5).
    apply eatb_one_inv in F5. destruct F5 as (P5 & ->).
    destruct (start_rhs_not _ (proj1 (head_of _ _ _ _ _ D F2))) as (-> & _ & _ & _ & -> & _).
    rewrite pbind_assoc.
    eapply compat_bind; [apply (HR _ _ _ _ _ _ D F2); rewrite P3; cbn [lev]; lia | cbn beta iota].
    tst P3 (is_sep S_COLON (peek m2)) true. cbv zeta.
    destruct (start_rhs_not _ (proj1 (head_of _ _ _ _ _ D2 F4))) as (-> & _).
    rewrite pbind_assoc.
    eapply compat_bind; [apply (HR _ _ _ _ _ _ D2 F4); rewrite P5; cbn [lev]; lia | cbn beta iota].
    cbn [pbind]. rewrite (assume_compat _ _ P5). apply compat_ok.
Qed.

Lemma square_step : forall u d a m1 a' r w, peek m1 = T_SEP S_SQUARE_OPEN ->
  (peek_eol m1 = true -> Br) ->
  compat (refinement_expr R u d a (rest m1)) (a', r) ->
  (forall k, compatr (member_loop p R k u d a' r) w) ->
  forall k, compatr (member_loop p R k u d a m1) w.
Proof.
  intros u d a m1 a' r w P HB H K k. destruct k as [| k]; [apply compat_fuel |]. cbn [member_loop].
  tst P (is_op O_DOT (peek m1)) false. tst P (is_sep S_SQUARE_OPEN (peek m1)) true.
  destruct (peek_eol m1 && (u =? 1)) eqn:Q;
    [apply andb_true_iff in Q; apply compat_eol, HB, Q |].
  eapply compat_bind; [exact H | apply K].
Qed.

Lemma paren_step : forall u d a m1 a' r w, peek m1 = T_SEP S_PAREN_OPEN ->
  (peek_eol m1 = true -> Br) ->
  (forall k, compat (invocation p R k u d a (rest m1)) (a', r)) ->
  (forall k, compatr (member_loop p R k u d a' r) w) ->
  forall k, compatr (member_loop p R k u d a m1) w.
Proof.
  intros u d a m1 a' r w P HB H K k. destruct k as [| k]; [apply compat_fuel |]. cbn [member_loop].
  tst P (is_op O_DOT (peek m1)) false. tst P (is_sep S_SQUARE_OPEN (peek m1)) false.
  tst P (is_sep S_PAREN_OPEN (peek m1)) true.
  destruct (peek_eol m1 && (u =? 1)) eqn:Q;
    [apply andb_true_iff in Q; apply compat_eol, HB, Q |].
  eapply compat_bind; [apply H | apply K].
Qed.

Lemma member_cps : forall N bs a, der p N bs a -> N = G_MEMBER ->
  forall u d ts r w, eatb bs ts r -> 0 < lev (peek r) ->
  (forall k, compatr (member_loop p R k (u + 1) d a r) w) ->
  forall k, compatr (member_expr p R k u d ts) w.
Proof.
  intros N bs a H. induction H; intros EN u d ts0 r w F Hl K k; try discriminate EN.
  - unfold member_expr.
    eapply compat_bind; [apply (primary_complete k _ _ u d _ _ H F Hl) | cbn beta iota]. apply K.
  - (* .name *)
    apply eatb_app_inv in F. destruct F as (m & F1 & F).
    pose proof (eatb_cons_eol _ _ _ _ F) as HB. apply eatb_cons_inv in F. destruct F as (P1 & F).
    apply eatb_one_inv in F. destruct F as (P2 & ->).
    apply (IHder eq_refl u d ts0 m w F1); [rewrite P1; cbn [lev]; lia |].
    clear k. intros k. destruct k as [| k]; [apply compat_fuel |]. cbn [member_loop].
    tst P1 (is_op O_DOT (peek m)) true. unfold refinement_identifier.
    rewrite P2. destruct (name_not b H0) as (_ & _ & ->). rewrite P2.
    destruct b; try discriminate H0; cbn [pbind]; apply K.
  - (* .?name *)
    apply eatb_app_inv in F. destruct F as (m & F1 & F).
    pose proof (eatb_cons_eol _ _ _ _ F) as HB. apply eatb_cons_inv in F. destruct F as (P1 & F).
    apply eatb_cons_inv in F. destruct F as (P2 & F).
    apply eatb_one_inv in F. destruct F as (P3 & ->).
    apply (IHder eq_refl u d ts0 m w F1); [rewrite P1; cbn [lev]; lia |].
    clear k. intros k. destruct k as [| k]; [apply compat_fuel |]. cbn [member_loop].
    tst P1 (is_op O_DOT (peek m)) true. unfold refinement_identifier.
    tst P2 (is_op O_LOGTRI (peek (rest m))) true. rewrite P3.
    destruct b; try discriminate H0; cbn [pbind]; apply K.
  - (* [i] *)
    apply eatb_app_inv in F. destruct F as (m & F1 & F).
    pose proof (eatb_cons_eol _ _ _ _ F) as HB. apply eatb_cons_inv in F. destruct F as (P1 & F).
    apply (IHder1 eq_refl u d ts0 m w F1); [rewrite P1; cbn [lev]; lia |].
    apply square_step with (Node N_REF [a; i]) r; [exact P1 | exact HB | | exact K].
    destruct (refinement_expr_complete (u + 1) d a (rest m) r [] N_REF) as (_ & _ & C & _);
      [auto |]. apply (C _ _ H0 F).
  - (* [?i] *)
    apply eatb_app_inv in F. destruct F as (m & F1 & F).
    pose proof (eatb_cons_eol _ _ _ _ F) as HB. apply eatb_cons_inv in F. destruct F as (P1 & F).
    apply (IHder1 eq_refl u d ts0 m w F1); [rewrite P1; cbn [lev]; lia |].
    apply square_step with (Node N_OPT_REF [a; i]) r; [exact P1 | exact HB | | exact K].
    destruct (refinement_expr_complete (u + 1) d a (rest m) r [T_OP O_LOGTRI] N_OPT_REF)
      as (_ & _ & C & _); [auto |]. apply (C _ _ H0 F).
  - apply eatb_app_inv in F. destruct F as (m & F1 & F).
    pose proof (eatb_cons_eol _ _ _ _ F) as HB. apply eatb_cons_inv in F. destruct F as (P1 & F).
    apply (IHder eq_refl u d ts0 m w F1); [rewrite P1; cbn [lev]; lia |].
    eapply square_step; [exact P1 | exact HB | | exact K].
    destruct (refinement_expr_complete (u + 1) d a (rest m) r opt
      (if opt then N_REF else N_OPT_REF)) as (C & _);
      [destruct H0 as [-> | ->]; auto |]. apply (C F).
  - apply eatb_app_inv in F. destruct F as (m & F1 & F).
    pose proof (eatb_cons_eol _ _ _ _ F) as HB. apply eatb_cons_inv in F. destruct F as (P1 & F).
    apply (IHder1 eq_refl u d ts0 m w F1); [rewrite P1; cbn [lev]; lia |].
    eapply square_step; [exact P1 | exact HB | | exact K].
    destruct (refinement_expr_complete (u + 1) d a (rest m) r opt
      (if opt then N_REF else N_OPT_REF)) as (_ & C & _);
      [destruct H0 as [-> | ->]; auto |]. apply (C _ _ H1 F).
  - apply eatb_app_inv in F. destruct F as (m & F1 & F).
    pose proof (eatb_cons_eol _ _ _ _ F) as HB. apply eatb_cons_inv in F. destruct F as (P1 & F).
    apply (IHder1 eq_refl u d ts0 m w F1); [rewrite P1; cbn [lev]; lia |].
    eapply square_step; [exact P1 | exact HB | | exact K].
    destruct (refinement_expr_complete (u + 1) d a (rest m) r opt
      (if opt then N_REF else N_OPT_REF)) as (_ & _ & _ & C & _);
      [destruct H0 as [-> | ->]; auto |]. apply (C _ _ H1 F).
  - apply eatb_app_inv in F. destruct F as (m & F1 & F).
    pose proof (eatb_cons_eol _ _ _ _ F) as HB. apply eatb_cons_inv in F. destruct F as (P1 & F).
    apply (IHder1 eq_refl u d ts0 m w F1); [rewrite P1; cbn [lev]; lia |].
    eapply square_step; [exact P1 | exact HB | | exact K].
    destruct (refinement_expr_complete (u + 1) d a (rest m) r opt
      (if opt then N_REF else N_OPT_REF)) as (_ & _ & _ & _ & C);
      [destruct H0 as [-> | ->]; auto |]. apply (C _ _ _ _ H1 H2 F).
  - (* f() *)
    apply eatb_app_inv in F. destruct F as (m & F1 & F).
    pose proof (eatb_cons_eol _ _ _ _ F) as HB. apply eatb_cons_inv in F. destruct F as (P1 & F).
    apply eatb_one_inv in F. destruct F as (P2 & ->).
    apply (IHder eq_refl u d ts0 m w F1); [rewrite P1; cbn [lev]; lia |].
    eapply paren_step; [exact P1 | exact HB | | exact K]. intros k1.
    unfold invocation. rewrite (call_compat _ _ H0). cbn [pbind].
    tst P2 (is_sep S_PAREN_CLOSE (peek (rest m))) true. apply compat_ok.
  - apply eatb_app_inv in F. destruct F as (m & F1 & F).
    pose proof (eatb_cons_eol _ _ _ _ F) as HB. apply eatb_cons_inv in F. destruct F as (P1 & F).
    apply (IHder eq_refl u d ts0 m w F1); [rewrite P1; cbn [lev]; lia |].
    eapply paren_step; [exact P1 | exact HB | | exact K]. intros k1.
    unfold invocation. rewrite (call_compat _ _ H0). cbn [pbind].
    destruct (args_unnamed _ _ _ H1 eq_refl _ _ F) as (-> & ->). cbv zeta.
    eapply compat_bind; [apply (args_loop_complete _ _ _ H1 eq_refl k1 (u + 1) d [] _ _ F) | cbn beta iota].
    apply compat_ok.
  - apply eatb_app_inv in F. destruct F as (m & F1 & F).
    pose proof (eatb_cons_eol _ _ _ _ F) as HB. apply eatb_cons_inv in F. destruct F as (P1 & F).
    apply (IHder eq_refl u d ts0 m w F1); [rewrite P1; cbn [lev]; lia |].
    eapply paren_step; [exact P1 | exact HB | | exact K]. intros k1.
    unfold invocation. rewrite (call_compat _ _ H0). cbn [pbind].
    destruct (nargs_named _ _ _ H1 eq_refl _ _ F) as (-> & ->). cbv zeta.
    eapply compat_bind; [apply (nargs_loop_complete _ _ _ H1 eq_refl k1 (u + 1) d [] _ _ F) | cbn beta iota].
    apply compat_ok.
Qed.

Lemma member_complete : forall k, complete G_MEMBER 1 (member_expr p R k).
Proof.
  intros k bs a u d ts r D F Hl.
  apply (member_cps _ _ _ D eq_refl u d ts r (Ok (a, r)) F); [lia |].
  clear k. intros k. destruct k as [| k]; [apply compat_fuel |]. cbn [member_loop].
  rewrite lev_op by (cbn [lev]; lia). rewrite lev_sep by (cbn [lev]; lia).
  rewrite lev_sep by (cbn [lev]; lia). apply compat_ok.
Qed.

Lemma unary_complete_aux : forall N bs a, der p N bs a -> N = G_UNARY ->
  forall k u d ts r, eatb bs ts r -> 1 < lev (peek r) ->
  compat (unary_expr maxd p R k u d ts) (a, r).
Proof.
  intros N bs a H. induction H; intros EN k u d ts0 r F Hl; try discriminate EN;
    (destruct k as [| k]; [apply compat_fuel |]); cbn [unary_expr]; rewrite unary_test.
  - rewrite (pstart_unary _ (proj1 (head_of _ _ _ _ _ H F))).
    apply (member_complete (S k) _ _ _ _ _ _ H F Hl).
  - apply eatb_cons_inv in F. destruct F as (P & F). rewrite P, H.
    eapply compat_bind; [apply compat_inc |].
    eapply compat_bind; [apply (IHder eq_refl k (u + 1) (d + 1) _ _ F Hl) | cbn beta iota]. apply compat_ok.
Qed.

Lemma unary_complete : forall k, complete G_UNARY 1 (unary_expr maxd p R k).
Proof.
  intros k bs a u d ts r D F Hl. apply (unary_complete_aux _ _ _ D eq_refl k u d ts r F Hl).
Qed.

(* ---- arithmetic ---- *)

(** what follows the first operand in [arithm_bitwise_expr] *)
Definition abk (k : nat) (u d : Z) (a : ast) (ts1 : list token) : pres :=
  let b := peek ts1 in
  if has_bits OT_ARITHMETIC b then
    if (is_op O_ADD b || is_op O_SUB b) && peek_eol ts1 && (u =? 0) then Err E_EOL
    else
      pbind (unary_expr maxd p R k u d (rest ts1)) (fun '(n, ts2) =>
        arith_loop maxd p R k u d a b n ts2)
  else if masked OT_BITWISE b then bit_loop maxd p R k u d b a ts1
  else if is_op O_SHL b || is_op O_SHR b || is_op O_SHRU b then
    pbind (unary_expr maxd p R k u d (rest ts1)) (fun '(n, ts2) => Ok (op2 b a n, ts2))
  else Ok (a, ts1).

Lemma ab_abk : forall k u d ts,
  arithm_bitwise_expr maxd p R k u d ts =
  pbind (unary_expr maxd p R k u d ts) (fun '(a, ts1) => abk k u d a ts1).
Proof. reflexivity. Qed.

(** after an operand: from the arithmetic loop, and from the multiplicative one *)
Definition Ck (u : Z) (x : ast) (last : body) (node : ast) (r : list token)
  (w : pres) : Prop :=
  (forall k d, compatr (arith_loop maxd p R k u d x last node r) w) /\
  (forall k d k2 d2, compatr
     (pbind (if masked OT_MULTIPLICATIVE (peek r) then mul_loop maxd p R k u d x last node r
             else Ok (x, last, node, r))
        (fun '(x, last, node, r) => arith_loop maxd p R k2 u d2 x last node r)) w).

Lemma Ck_mul : forall u x last node t m bs b r w,
  multiplicative m = true -> peek t = T_OP m -> der p G_UNARY bs b -> eatb bs (rest t) r ->
  1 < lev (peek r) ->
  (if masked OT_MULTIPLICATIVE last
   then Ck u (op2 last x node) (T_OP m) b r w
   else Ck u x last (op2 (T_OP m) node b) r w) ->
  Ck u x last node t w.
Proof.
  intros u x last node t m bs b r w M P D F Hl K.
  assert (masked OT_MULTIPLICATIVE (peek t) = true) as Q.
  { rewrite P. destruct m; try discriminate M; reflexivity. }
  assert (forall k d k2 d2, compatr
     (pbind (mul_loop maxd p R k u d x last node t)
        (fun '(x, last, node, r) => arith_loop maxd p R k2 u d2 x last node r)) w) as K2.
  { intros k d k2 d2. destruct k as [| k]; [apply compat_fuel |]. cbn [mul_loop].
    rewrite pbind_assoc. eapply compat_bind; [apply compat_inc |].
    rewrite pbind_assoc.
    eapply compat_bind; [apply (unary_complete (S k) _ _ _ _ _ _ D F Hl) | cbn beta iota].
    cbn beta iota. rewrite P.
    destruct (masked OT_MULTIPLICATIVE last); destruct K as (_ & K); apply K. }
  split.
  - intros k d. destruct k as [| k]; [apply compat_fuel |]. cbn [arith_loop].
    eapply compat_bind; [apply compat_inc |].
    replace (is_op O_ADD (peek t) || is_op O_SUB (peek t)) with false
      by (rewrite P; destruct m; try discriminate M; reflexivity).
    rewrite Q. apply K2.
  - intros k d k2 d2. rewrite Q. apply K2.
Qed.

(** reading a second operand, then going on *)
Definition Dk (u : Z) (x : ast) (last : body) (ts : list token) (w : pres) : Prop :=
  forall k d (K : ast -> list token -> pres),
    (forall n r, Ck u x last n r w -> compatr (K n r) w) ->
    compatr (pbind (unary_expr maxd p R k u d ts) (fun '(n, r) => K n r)) w.

Lemma mul_cps : forall N bs b, der p N bs b -> N = G_MUL ->
  forall u x last ts r w, masked OT_MULTIPLICATIVE last = false ->
  eatb bs ts r -> 1 < lev (peek r) -> Ck u x last b r w -> Dk u x last ts w.
Proof.
  intros N bs b H. induction H; intros EN u x0 last ts0 r w Q F Hl K; try discriminate EN.
  - intros k d K1 HK.
    eapply compat_bind; [apply (unary_complete k _ _ _ _ _ _ H F Hl) | cbn beta iota]. apply HK, K.
  - apply eatb_app_inv in F. destruct F as (m & F1 & F).
    apply eatb_cons_inv in F. destruct F as (P & F).
    assert (1 < lev (peek m)) as Hm.
    { rewrite P. destruct x; try discriminate H0; cbn [lev]; lia. }
    apply (IHder1 eq_refl u x0 last ts0 m w Q F1 Hm).
    apply Ck_mul with x ts2 b r; try assumption. rewrite Q. exact K.
Qed.

Lemma top_mul : forall N bs a, der p N bs a -> N = G_MUL ->
  forall u ts r w, eatb bs ts r -> 1 < lev (peek r) ->
  (forall k d, compatr (abk k u d a r) w) ->
  (forall x m node, a = op2 (T_OP m) x node -> multiplicative m = true ->
     Ck u x (T_OP m) node r w) ->
  forall k d, compatr (arithm_bitwise_expr maxd p R k u d ts) w.
Proof.
  intros N bs a H. induction H; intros EN u ts0 r w F Hl K1 K2 k d; try discriminate EN.
  - rewrite ab_abk.
    eapply compat_bind; [apply (unary_complete k _ _ _ _ _ _ H F Hl) | cbn beta iota]. apply K1.
  - apply eatb_app_inv in F. destruct F as (m & F1 & F).
    pose proof (eatb_cons_eol _ _ _ _ F) as HB. apply eatb_cons_inv in F. destruct F as (P & F).
    assert (1 < lev (peek m)) as Hm.
    { rewrite P. destruct x; try discriminate H0; cbn [lev]; lia. }
    apply (IHder1 eq_refl u ts0 m w F1 Hm).
    + clear k d. intros k d. unfold abk. cbv zeta. rewrite P.
      replace (has_bits OT_ARITHMETIC (T_OP x)) with true
        by (destruct x; try discriminate H0; reflexivity).
      match goal with |- compatr (if ?c then _ else _) _ => destruct c eqn:Q end;
        [rewrite !andb_true_iff in Q; apply compat_eol, HB, Q |].
      eapply compat_bind; [apply (unary_complete k _ _ _ _ _ _ H1 F Hl) | cbn beta iota].
      apply (K2 a x b eq_refl H0).
    + intros x' m' node' -> M'. apply Ck_mul with x ts2 b r; try assumption.
      replace (masked OT_MULTIPLICATIVE (T_OP m')) with true
        by (destruct m'; try discriminate M'; reflexivity).
      apply K2; [reflexivity | exact H0].
Qed.

Lemma top_add : forall N bs a, der p N bs a -> N = G_ADD ->
  forall u ts r w, eatb bs ts r -> 1 < lev (peek r) ->
  (forall k d, compatr (abk k u d a r) w) ->
  (forall x m node, a = op2 (T_OP m) x node -> additive m = true \/ multiplicative m = true ->
     Ck u x (T_OP m) node r w) ->
  forall k d, compatr (arithm_bitwise_expr maxd p R k u d ts) w.
Proof.
  intros N bs a H. induction H; intros EN u ts0 r w F Hl K1 K2 k d; try discriminate EN.
  - apply (top_mul _ _ _ H eq_refl u ts0 r w F Hl K1).
    intros x m node E M. apply K2; [exact E | right; exact M].
  - apply eatb_app_inv in F. destruct F as (m & F1 & F).
    pose proof (eatb_cons_eol _ _ _ _ F) as HB. apply eatb_cons_inv in F. destruct F as (P & F).
    assert (1 < lev (peek m)) as Hm.
    { rewrite P. destruct x; try discriminate H0; cbn [lev]; lia. }
    assert (Dk u a (T_OP x) (rest m) w) as KD.
    { apply (mul_cps _ _ _ H1 eq_refl u a (T_OP x) (rest m) r w); try assumption.
      - destruct x; try discriminate H0; reflexivity.
      - apply K2; [reflexivity | left; exact H0]. }
    apply (IHder1 eq_refl u ts0 m w F1 Hm).
    + clear k d. intros k d. unfold abk. cbv zeta. rewrite P.
      replace (has_bits OT_ARITHMETIC (T_OP x)) with true
        by (destruct x; try discriminate H0; reflexivity).
      match goal with |- compatr (if ?c then _ else _) _ => destruct c eqn:Q end;
        [rewrite !andb_true_iff in Q; apply compat_eol, HB, Q |].
      apply KD. intros n r1 C. apply C.
    + intros x' m' node' -> M'.
      assert (masked OT_MULTIPLICATIVE (peek m) = false) as Qm.
      { rewrite P. destruct x; try discriminate H0; reflexivity. }
      assert (forall k d, compatr (arith_loop maxd p R k u d x' (T_OP m') node' m) w) as K3.
      { clear k d. intros k d. destruct k as [| k]; [apply compat_fuel |]. cbn [arith_loop].
        eapply compat_bind; [apply compat_inc |].
        replace (is_op O_ADD (peek m) || is_op O_SUB (peek m)) with true
          by (rewrite P; destruct x; try discriminate H0; reflexivity).
        destruct (peek_eol m && (u =? 0)) eqn:Q;
          [apply andb_true_iff in Q; apply compat_eol, HB, Q |]. rewrite P.
        apply KD. intros n r1 C. apply C. }
      split; [exact K3 |]. intros k1 d1 k2 d2. rewrite Qm. cbn [pbind]. apply K3.
Qed.

(** after an operand in the bitwise loop *)
Definition Bk (u : Z) (m : oper) (acc : ast) (r : list token) (w : pres) : Prop :=
  forall k d, compatr
    (if t_op (peek r) =? t_op (T_OP m) then bit_loop maxd p R k u d (T_OP m) acc r
     else if masked OT_BITWISE (peek r) || masked OT_ARITHMETIC (peek r)
             || is_op O_SHL (peek r) || is_op O_SHR (peek r) || is_op O_SHRU (peek r)
     then Err E_MIXED
     else Ok (acc, r)) w.

Lemma top_bit : forall N bs a, der p N bs a -> forall m, N = G_BIT m ->
  forall u ts r w, eatb bs ts r -> 1 < lev (peek r) ->
  (forall k d, compatr (abk k u d a r) w) ->
  (bitwise m = true -> Bk u m a r w) ->
  forall k d, compatr (arithm_bitwise_expr maxd p R k u d ts) w.
Proof.
  intros N bs a H. induction H; intros m0 EN u ts0 r w F Hl K1 K2 k d; try discriminate EN.
  - rewrite ab_abk.
    eapply compat_bind; [apply (unary_complete k _ _ _ _ _ _ H F Hl) | cbn beta iota]. apply K1.
  - assert (x = m0) as -> by congruence.
    apply eatb_app_inv in F. destruct F as (m & F1 & F).
    apply eatb_cons_inv in F. destruct F as (P & F).
    assert (1 < lev (peek m)) as Hm.
    { rewrite P. destruct m0; try discriminate H0; cbn [lev]; lia. }
    assert (forall k d, compatr (bit_loop maxd p R k u d (T_OP m0) a m) w) as K3.
    { clear k d. intros k d. destruct k as [| k]; [apply compat_fuel |]. cbn [bit_loop].
      eapply compat_bind; [apply compat_inc |].
      eapply compat_bind; [apply (unary_complete (S k) _ _ _ _ _ _ H1 F Hl) | cbn beta iota].
      cbn beta iota. cbv zeta. rewrite P. apply (K2 H0). }
    apply (IHder1 m0 eq_refl u ts0 m w F1 Hm).
    + clear k d. intros k d. unfold abk. cbv zeta. rewrite P.
      replace (has_bits OT_ARITHMETIC (T_OP m0)) with false
        by (destruct m0; try discriminate H0; reflexivity).
      replace (masked OT_BITWISE (T_OP m0)) with true
        by (destruct m0; try discriminate H0; reflexivity).
      apply K3.
    + intros _ k1 d1. rewrite P, Z.eqb_refl. apply K3.
Qed.

Lemma abk_stop : forall k u d a r, 2 < lev (peek r) -> compat (abk k u d a r) (a, r).
Proof.
  intros k u d a r Hl. unfold abk. cbv zeta.
  rewrite lev_arith, lev_bit by exact Hl.
  rewrite !lev_op by (cbn [lev]; exact Hl). apply compat_ok.
Qed.

Lemma arith_inv : forall bs a, der p G_ARITH bs a ->
  der p G_ADD bs a \/ (exists x, der p (G_BIT x) bs a) \/
  (exists bs1 a1 x bs2 b, der p G_UNARY bs1 a1 /\ shift x = true /\ der p G_UNARY bs2 b /\
     bs = bs1 ++ T_OP x :: bs2 /\ a = op2 (T_OP x) a1 b).
Proof. intros bs a D. inversion D; subst; [auto | eauto | right; right; repeat eexists; eassumption]. Qed.

Lemma cmp_inv : forall bs a, der p G_CMP bs a ->
  der p G_ARITH bs a \/
  (exists bs1 a1 x bs2 b, der p G_ARITH bs1 a1 /\ cmp_tok x = true /\ der p G_ARITH bs2 b /\
     bs = bs1 ++ x :: bs2 /\ a = op2 x a1 b) \/
  (exists bs1 a1 x bs2 b, der p G_ARITH bs1 a1 /\ cmp_swap_tok x = true /\ der p G_ARITH bs2 b /\
     bs = bs1 ++ x :: bs2 /\ a = op2 x b a1).
Proof.
  intros bs a D. inversion D; subst;
    [auto | right; left; repeat eexists; eassumption | right; right; repeat eexists; eassumption].
Qed.

Lemma log_inv : forall m bs a, der p (G_LOG m) bs a ->
  der p G_CMP bs a \/
  (exists bs1 a1 bs2 b, der p G_CMP bs1 a1 /\ logical m = true /\ der p (G_LOG m) bs2 b /\
     bs = bs1 ++ T_OP m :: bs2 /\ a = op2 (T_OP m) a1 b).
Proof. intros m bs a D. inversion D; subst; [auto | right; repeat eexists; eassumption]. Qed.

Lemma cond_inv : forall bs a, der p G_COND bs a ->
  (exists x, der p (G_LOG x) bs a) \/
  (exists bs1 a1 x bs2 b bs3 c, der p (G_LOG x) bs1 a1 /\ der p G_COND bs2 b /\ der p G_COND bs3 c /\
     bs = bs1 ++ T_OP O_LOGTRI :: bs2 ++ T_SEP S_COLON :: bs3 /\
     a = Node (N_OP (T_OP O_LOGTRI)) [a1; b; c]).
Proof. intros bs a D. inversion D; subst; [eauto | right; repeat eexists; eassumption]. Qed.

Lemma rhs_inv : forall bs a, der p G_RHS bs a ->
  der p G_STREAM bs a \/
  (exists bs0 l, der p G_STREAM bs0 (Node N_INVOCATION l) /\ bs = T_KW K_ASYNC :: bs0 /\
     a = Node N_ASYNC [Node N_INVOCATION l]) \/
  (exists bs0 a0, in_ctor p = false /\ der p G_STREAM bs0 a0 /\ bs = T_KW K_YIELD :: bs0 /\
     a = Node N_YIELD [a0]) \/
  (exists bs0 l, in_ctor p = false /\ der p G_STREAM bs0 (Node N_INVOCATION l) /\
     bs = T_KW K_YIELD :: T_KW K_ASYNC :: bs0 /\ a = Node N_YIELD [Node N_ASYNC [Node N_INVOCATION l]]).
Proof.
  intros bs a D. inversion D; subst;
    [auto | right; left; eauto | right; right; left; eauto 8 | right; right; right; eauto 8].
Qed.

Lemma arith_complete : forall k, complete G_ARITH 2 (arithm_bitwise_expr maxd p R k).
Proof.
  intros k bs a u d ts r D F Hl.
  destruct (arith_inv _ _ D) as [D0 | [(x & D0) | (bs1 & a1 & x & bs2 & b & D1 & Hx & D2 & -> & ->)]].
  - apply (top_add _ _ _ D0 eq_refl u ts r (Ok (a, r)) F); [lia | |].
    + intros k1 d1. apply abk_stop, Hl.
    + intros x m node -> M.
      assert (forall k d, compat (arith_loop maxd p R k u d x (T_OP m) node r)
                (op2 (T_OP m) x node, r)) as K.
      { clear k d. intros k d. destruct k as [| k]; [apply compat_fuel |]. cbn [arith_loop].
        eapply compat_bind; [apply compat_inc |].
        rewrite !lev_op by (cbn [lev]; exact Hl). cbn [orb].
        rewrite lev_mul, lev_bit by exact Hl. apply compat_ok. }
      split; [exact K |]. intros k1 d1 k2 d2. rewrite lev_mul by exact Hl. cbn [pbind]. apply K.
  - apply (top_bit _ _ _ D0 x eq_refl u ts r (Ok (a, r)) F); [lia | |].
    + intros k1 d1. apply abk_stop, Hl.
    + intros M k1 d1.
      replace (t_op (peek r) =? t_op (T_OP x)) with false.
      * rewrite lev_bit, no_bare_arith by exact Hl.
        rewrite !lev_op by (cbn [lev]; exact Hl). apply compat_ok.
      * symmetry. apply Z.eqb_neq. intros Q. apply t_op_inj in Q. rewrite Q in Hl.
        destruct x; try discriminate M; cbn [lev] in Hl; lia.
  - apply eatb_app_inv in F. destruct F as (m & F1 & F).
    apply eatb_cons_inv in F. destruct F as (P & F). rewrite ab_abk.
    eapply compat_bind; [apply (unary_complete k _ _ _ _ _ _ D1 F1) | cbn beta iota].
    + rewrite P. destruct x; try discriminate Hx; cbn [lev]; lia.
    + cbn beta iota. unfold abk. cbv zeta. rewrite P.
      replace (has_bits OT_ARITHMETIC (T_OP x)) with false
        by (destruct x; try discriminate Hx; reflexivity).
      replace (masked OT_BITWISE (T_OP x)) with false
        by (destruct x; try discriminate Hx; reflexivity).
      replace (is_op O_SHL (T_OP x) || is_op O_SHR (T_OP x) || is_op O_SHRU (T_OP x)) with true
        by (destruct x; try discriminate Hx; reflexivity).
      eapply compat_bind; [apply (unary_complete k _ _ _ _ _ _ D2 F); lia | cbn beta iota]. apply compat_ok.
Qed.

Definition swap_test (b : body) : bool :=
  match b with T_KW K_IN | T_KW K_PROPERTYOF => true | _ => false end.
Definition inst_test (b : body) : bool :=
  match b with T_KW K_INSTANCEOF => true | _ => false end.

Lemma cmp_complete : forall k, complete G_CMP 3 (comparison_expr maxd p R k).
Proof.
  intros k bs a u d ts r D F Hl. unfold comparison_expr.
  destruct (cmp_inv _ _ D) as [D0 | [(bs1 & a1 & x & bs2 & b & D1 & Hx & D2 & -> & ->)
    | (bs1 & a1 & x & bs2 & b & D1 & Hx & D2 & -> & ->)]].
  - eapply compat_bind; [apply (arith_complete k _ _ _ _ _ _ D0 F); lia | cbn beta iota].
    cbn beta iota. cbv zeta. rewrite lev_cmp by exact Hl.
    change (compat (if false || swap_test (peek r) || inst_test (peek r)
      then pbind (arithm_bitwise_expr maxd p R k u d (rest r)) (fun '(c, ts2) =>
        Ok (if swap_test (peek r) then op2 (peek r) c a else op2 (peek r) a c, ts2))
      else Ok (a, r)) (a, r)).
    replace (false || swap_test (peek r) || inst_test (peek r)) with false; [apply compat_ok |].
    destruct (peek r) as [| | | | kw | | |]; try reflexivity.
    destruct kw; try reflexivity; cbn [lev] in Hl; lia.
  - apply eatb_app_inv in F. destruct F as (m & F1 & F).
    apply eatb_cons_inv in F. destruct F as (P & F).
    assert (lev x = 3) as Lx.
    { destruct x as [| | | | kw | o | |]; try discriminate Hx.
      - destruct kw; try discriminate Hx; reflexivity.
      - destruct o; try discriminate Hx; reflexivity. }
    eapply compat_bind; [apply (arith_complete k _ _ _ _ _ _ D1 F1); rewrite P, Lx; lia | cbn beta iota].
    cbn beta iota. cbv zeta. rewrite P.
    replace (masked OT_COMPARISON x || match x with T_KW K_IN | T_KW K_PROPERTYOF => true | _ => false end
      || match x with T_KW K_INSTANCEOF => true | _ => false end) with true.
    + eapply compat_bind; [apply (arith_complete k _ _ _ _ _ _ D2 F); lia | cbn beta iota].
      cbn beta iota.
      replace (match x with T_KW K_IN | T_KW K_PROPERTYOF => true | _ => false end) with false;
        [apply compat_ok |].
      destruct x as [| | | | kw | o | |]; try reflexivity. destruct kw; try reflexivity; discriminate Hx.
    + destruct x as [| | | | kw | o | |]; try discriminate Hx.
      * destruct kw; try discriminate Hx; reflexivity.
      * destruct o; try discriminate Hx; reflexivity.
  - apply eatb_app_inv in F. destruct F as (m & F1 & F).
    apply eatb_cons_inv in F. destruct F as (P & F).
    assert (lev x = 3) as Lx.
    { destruct x as [| | | | kw | o | |]; try discriminate Hx.
      destruct kw; try discriminate Hx; reflexivity. }
    eapply compat_bind; [apply (arith_complete k _ _ _ _ _ _ D1 F1); rewrite P, Lx; lia | cbn beta iota].
    cbn beta iota. cbv zeta. rewrite P.
    replace (match x with T_KW K_IN | T_KW K_PROPERTYOF => true | _ => false end) with true
      by (destruct x as [| | | | kw | o | |]; try discriminate Hx;
          destruct kw; try discriminate Hx; reflexivity).
    rewrite orb_true_r. cbn [orb].
    eapply compat_bind; [apply (arith_complete k _ _ _ _ _ _ D2 F); lia | cbn beta iota]. apply compat_ok.
Qed.

Lemma logical_loop_complete : forall N bs a, der p N bs a -> forall m, N = G_LOG m ->
  logical m = true -> forall k u d ts r, eatb bs ts r -> 4 < lev (peek r) ->
  compat (logical_loop maxd p R k u d (T_OP m) ts) (a, r).
Proof.
  intros N bs a H. induction H; intros m EN M k u d ts0 r F Hl; try discriminate EN;
    (destruct k as [| k]; [apply compat_fuel |]); cbn [logical_loop].
  - eapply compat_bind; [apply compat_inc |].
    eapply compat_bind; [apply (cmp_complete (S k) _ _ _ _ _ _ H F); lia | cbn beta iota].
    cbn beta iota. cbv zeta.
    replace (t_op (peek r) =? t_op (T_OP m)) with false; [apply compat_ok |].
    symmetry. apply Z.eqb_neq. intros Q. apply t_op_inj in Q. rewrite Q in Hl.
    destruct m; try discriminate M; cbn [lev] in Hl; lia.
  - assert (x = m) as -> by congruence.
    apply eatb_app_inv in F. destruct F as (m1 & F1 & F).
    apply eatb_cons_inv in F. destruct F as (P & F).
    eapply compat_bind; [apply compat_inc |].
    eapply compat_bind; [apply (cmp_complete (S k) _ _ _ _ _ _ H F1) | cbn beta iota].
    { rewrite P. destruct m; try discriminate M; cbn [lev]; lia. }
    cbn beta iota. cbv zeta. rewrite P, Z.eqb_refl.
    eapply compat_bind; [apply (IHder2 m eq_refl M k u (d + 1) _ _ F Hl) | cbn beta iota]. apply compat_ok.
Qed.

Lemma logical_complete : forall k m, complete (G_LOG m) 4 (logical_expr maxd p R k).
Proof.
  intros k m bs a u d ts r D F Hl. unfold logical_expr.
  assert (is_op O_LOGAND (peek r) || is_op O_LOGOR (peek r) = false) as Qr.
  { rewrite !lev_op by (cbn [lev]; exact Hl). reflexivity. }
  destruct (log_inv _ _ _ D) as [D0 | (bs1 & a1 & bs2 & b & D1 & Hx & D2 & -> & ->)].
  - eapply compat_bind; [apply (cmp_complete k _ _ _ _ _ _ D0 F); lia | cbn beta iota].
    cbn beta iota. cbv zeta. rewrite Qr. apply compat_ok.
  - apply eatb_app_inv in F. destruct F as (m1 & F1 & F).
    apply eatb_cons_inv in F. destruct F as (P & F).
    eapply compat_bind; [apply (cmp_complete k _ _ _ _ _ _ D1 F1) | cbn beta iota].
    { rewrite P. destruct m; try discriminate Hx; cbn [lev]; lia. }
    cbn beta iota. cbv zeta. rewrite P.
    replace (is_op O_LOGAND (T_OP m) || is_op O_LOGOR (T_OP m)) with true
      by (destruct m; try discriminate Hx; reflexivity).
    eapply compat_bind; [apply (logical_loop_complete _ _ _ D2 m eq_refl Hx k u d _ _ F Hl) | cbn beta iota].
    cbn beta iota. rewrite Qr. apply compat_ok.
Qed.

Lemma cond_complete : forall k, complete G_COND 5 (conditional_expr maxd p R k).
Proof.
  induction k as [| k IH]; intros bs a u d ts r D F Hl; [apply compat_fuel |].
  cbn [conditional_expr].
  destruct (cond_inv _ _ D) as [(x & D0) | (bs1 & a1 & x & bs2 & b & bs3 & c & D1 & D2 & D3 & -> & ->)].
  - eapply compat_bind; [apply (logical_complete (S k) _ _ _ _ _ _ _ D0 F); lia | cbn beta iota].
    cbn beta iota. rewrite lev_op by exact Hl. apply compat_ok.
  - apply eatb_app_inv in F. destruct F as (m1 & F1 & F).
    apply eatb_cons_inv in F. destruct F as (P & F).
    apply eatb_app_inv in F. destruct F as (m2 & F2 & F).
    apply eatb_cons_inv in F. destruct F as (P2 & F3).
    eapply compat_bind; [apply (logical_complete (S k) _ _ _ _ _ _ _ D1 F1); rewrite P; cbn [lev]; lia | cbn beta iota].
    cbn beta iota. tst P (is_op O_LOGTRI (peek m1)) true.
    eapply compat_bind; [apply compat_inc |].
    eapply compat_bind; [apply (IH _ _ _ _ _ _ D2 F2); rewrite P2; cbn [lev]; lia | cbn beta iota].
    cbn beta iota. rewrite (assume_compat _ _ P2). cbn [pbind].
    eapply compat_bind; [apply (IH _ _ _ _ _ _ D3 F3 Hl) | cbn beta iota].
    cbn beta iota. rewrite P. apply compat_ok.
Qed.

Lemma stream_cps : forall N bs a, der p N bs a -> N = G_STREAM ->
  forall u ts r w, eatb bs ts r -> 5 < lev (peek r) ->
  (forall k d, compatr (stream_loop maxd p R k u d a r) w) ->
  forall k d, compatr (stream_expr maxd p R k u d ts) w.
Proof.
  intros N bs a H. induction H; intros EN u ts0 r w F Hl K k d; try discriminate EN.
  - unfold stream_expr. eapply compat_bind; [apply compat_inc |].
    eapply compat_bind; [apply (cond_complete k _ _ _ _ _ _ H F Hl) | cbn beta iota]. apply K.
  - apply eatb_app_inv in F. destruct F as (m1 & F1 & F).
    apply eatb_cons_inv in F. destruct F as (P & F).
    apply (IHder1 eq_refl u ts0 m1 w F1); [rewrite P; cbn [lev]; lia |].
    clear k d. intros k d. destruct k as [| k]; [apply compat_fuel |]. cbn [stream_loop].
    tst P (is_op O_ARROW (peek m1)) true.
    eapply compat_bind; [apply compat_inc |].
    eapply compat_bind; [apply (cond_complete (S k) _ _ _ _ _ _ H0 F Hl) | cbn beta iota].
    cbn beta iota. rewrite (call_compat _ _ H1). cbn [pbind]. apply K.
Qed.

Lemma stream_complete : forall k, complete G_STREAM 6 (stream_expr maxd p R k).
Proof.
  intros k bs a u d ts r D F Hl.
  apply (stream_cps _ _ _ D eq_refl u ts r (Ok (a, r)) F); [lia |].
  clear k d. intros k d. destruct k as [| k]; [apply compat_fuel |]. cbn [stream_loop].
  rewrite lev_op by exact Hl. apply compat_ok.
Qed.

Lemma stream_head : forall b, start G_STREAM b = true ->
  b <> T_KW K_ASYNC /\ b <> T_KW K_YIELD /\ b <> T_KW K_DO.
Proof. intros b H. repeat split; intros Z; subst b; discriminate H. Qed.

Lemma async_complete : forall k bs l u d ts r,
  der p G_STREAM bs (Node N_INVOCATION l) -> eatb bs ts r -> 6 < lev (peek r) ->
  compat (async_expr maxd p R k u d ts) (Node N_ASYNC [Node N_INVOCATION l], r).
Proof.
  intros k bs l u d ts r D F Hl. unfold async_expr.
  destruct (stream_head _ (proj1 (head_of _ _ _ _ _ D F))) as (_ & _ & N3).
  assert (compat (pbind (stream_expr maxd p R k u d ts) (fun '(a, ts1) =>
      match a with
      | Node N_INVOCATION _ => Ok (Node N_ASYNC [a], ts1)
      | _ => Err E_SYNTAX
      end)) (Node N_ASYNC [Node N_INVOCATION l], r)) as P.
  { eapply compat_bind; [apply (stream_complete k _ _ _ _ _ _ D F Hl) | cbn beta iota]. apply compat_ok. }
  destruct (peek ts) as [| | | | kw | | |]; try exact P.
  destruct kw; try exact P. contradiction.
Qed.

Lemma rhs_complete : forall k, complete G_RHS 6 (rhs_expr maxd p R k).
Proof.
  intros k bs a u d ts r D F Hl. unfold rhs_expr.
  destruct (rhs_inv _ _ D) as [D0 | [(bs0 & l & D0 & -> & ->) | [(bs0 & a0 & C & D0 & -> & ->)
    | (bs0 & l & C & D0 & -> & ->)]]].
  - pose proof (stream_complete k _ _ u d _ _ D0 F Hl) as P.
    destruct (stream_head _ (proj1 (head_of _ _ _ _ _ D0 F))) as (N1 & N2 & _).
    destruct (peek ts) as [| | | | kw | | |]; try exact P.
    destruct kw; try exact P; contradiction.
  - apply eatb_cons_inv in F. destruct F as (P & F). rewrite P.
    apply async_complete with bs0; assumption.
  - apply eatb_cons_inv in F. destruct F as (P & F). rewrite P, C. cbv zeta.
    pose proof (stream_complete k _ _ u d _ _ D0 F Hl) as Q.
    destruct (stream_head _ (proj1 (head_of _ _ _ _ _ D0 F))) as (N1 & N2 & _).
    eapply compat_bind with (v := (a0, r)); [| apply compat_ok].
    destruct (peek (rest ts)) as [| | | | kw | | |]; try exact Q.
    destruct kw; try exact Q; contradiction.
  - apply eatb_cons_inv in F. destruct F as (P & F). rewrite P, C. cbv zeta.
    apply eatb_cons_inv in F. destruct F as (P1 & F). rewrite P1.
    eapply compat_bind; [apply (async_complete k _ _ u d _ _ D0 F Hl) | apply compat_ok].
Qed.

(* ---- line breaks at the outermost level ---- *)

Lemma compat_err : forall (A B : Type) (r : res A) (f : A -> res B) e,
  compatr r (Err e) -> compatr (pbind r f) (Err e).
Proof.
  intros A B r f e [-> | [-> | [-> | (-> & X)]]]; cbn [pbind];
    [left; reflexivity | right; left; reflexivity | right; right; left; reflexivity
    | right; right; right; auto].
Qed.

Lemma outer_error : forall ts e, pstart (peek ts) || unary_tok (peek ts) = true ->
  (forall k d, compatr (arithm_bitwise_expr maxd p R k 0 d ts) (Err e)) ->
  forall k d, compatr (rhs_expr maxd p R k 0 d ts) (Err e).
Proof.
  intros ts e Hs H k d. unfold rhs_expr.
  assert (compatr (stream_expr maxd p R k 0 d ts) (Err e)) as P.
  { unfold stream_expr. eapply compat_bind; [apply compat_inc |]. apply compat_err.
    destruct k as [| k]; [apply compat_fuel |]. cbn [conditional_expr]. apply compat_err.
    unfold logical_expr. apply compat_err. unfold comparison_expr. apply compat_err, H. }
  destruct (stream_head _ Hs) as (N1 & N2 & _).
  destruct (peek ts) as [| | | | kw | | |]; try exact P.
  destruct kw; try exact P; contradiction.
Qed.

Lemma newline_member : forall bs a ts r, der p G_MEMBER bs a -> eatb bs ts r ->
  peek r = T_SEP S_PAREN_OPEN \/ peek r = T_SEP S_SQUARE_OPEN -> peek_eol r = true ->
  forall k d, compatr (rhs_expr maxd p R k 0 d ts) (Err E_EOL).
Proof.
  intros bs a ts r D F Hr Q. pose proof (proj1 (head_of _ _ _ _ _ D F)) as Hs.
  cbn [start] in Hs. apply outer_error; [rewrite Hs; reflexivity |].
  intros k d. rewrite ab_abk. apply compat_err.
  destruct k as [| k]; [apply compat_fuel |]. cbn [unary_expr].
  rewrite unary_test, (pstart_unary _ Hs).
  apply (member_cps _ _ _ D eq_refl 0 d ts r _ F); [destruct Hr as [-> | ->]; cbn [lev]; lia |].
  clear k. intros k. destruct k as [| k]; [apply compat_fuel |]. cbn [member_loop].
  rewrite Q. destruct Hr as [Hr | Hr]; rewrite Hr; left; reflexivity.
Qed.

Lemma newline_add : forall bs a ts r, der p G_ADD bs a -> eatb bs ts r ->
  peek r = T_OP O_ADD \/ peek r = T_OP O_SUB -> peek_eol r = true ->
  forall k d, compatr (rhs_expr maxd p R k 0 d ts) (Err E_EOL).
Proof.
  intros bs a ts r D F Hr Q.
  apply outer_error; [exact (proj1 (head_of _ _ _ _ _ D F)) |].
  intros k d. apply (top_add _ _ _ D eq_refl 0 ts r _ F).
  - destruct Hr as [-> | ->]; cbn [lev]; lia.
  - clear k d. intros k d. unfold abk. cbv zeta. rewrite Q.
    destruct Hr as [Hr | Hr]; rewrite Hr; left; reflexivity.
  - intros x m node _ _.
    assert (forall k d, compatr (arith_loop maxd p R k 0 d x (T_OP m) node r) (Err E_EOL)) as K.
    { clear k d. intros k d. destruct k as [| k]; [apply compat_fuel |]. cbn [arith_loop].
      eapply compat_bind; [apply compat_inc |]. rewrite Q.
      destruct Hr as [Hr | Hr]; rewrite Hr; left; reflexivity. }
    split; [exact K |]. intros k1 d1 k2 d2.
    replace (masked OT_MULTIPLICATIVE (peek r)) with false
      by (destruct Hr as [Hr | Hr]; rewrite Hr; reflexivity).
    cbn [pbind]. apply K.
Qed.

End Levels.

Lemma right_hand_side_complete : forall k, complete G_RHS 6 (right_hand_side_expr maxd p k).
Proof.
  induction k as [| k IH]; cbn [right_hand_side_expr].
  - intros bs a u d ts r D F Hl. apply compat_fuel.
  - apply rhs_complete, IH.
Qed.

End Complete.
