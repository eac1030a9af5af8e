(** Whatever the expression parser accepts is a phrase of the grammar, and the
    tree is the one the grammar gives it. *)
From Coq Require Import ZArith List Lia Bool ZifyBool.
Import ListNotations.
From Verif Require Import Base ListZ ParseSpec ParseModel.
Local Open Scope Z_scope.
Ltac Zify.zify_post_hook ::= idtac.

Lemma pbind_ok : forall (A B : Type) (r : res A) (f : A -> res B) b,
  pbind r f = Ok b -> exists a, r = Ok a /\ f a = Ok b.
Proof. intros A B [a | e] f b H; cbn [pbind] in H; [exists a; auto | discriminate H]. Qed.

Ltac bnd H :=
  let E := fresh "E" in
  apply pbind_ok in H; destruct H as ([? ?] & E & H); cbn beta iota in H.
Ltac bnd1 H :=
  let E := fresh "E" in
  apply pbind_ok in H; destruct H as (? & E & H); cbn beta iota in H.

(* ---- classes of tokens ---- *)

Lemma is_op_inv : forall x b, is_op x b = true -> b = T_OP x.
Proof.
  intros x b H. unfold is_op in H.
  destruct b; try (destruct x; discriminate H).
  destruct x, o; try reflexivity; discriminate H.
Qed.

Lemma is_op_refl : forall x, is_op x (T_OP x) = true.
Proof. intros x. unfold is_op. apply Z.eqb_refl. Qed.

Lemma is_sep_inv : forall x b, is_sep x b = true -> b = T_SEP x.
Proof.
  intros x b H. unfold is_sep in H.
  destruct b; try (destruct x; discriminate H).
  destruct x, s; try reflexivity; discriminate H.
Qed.

Lemma masked_mul : forall b, masked OT_MULTIPLICATIVE b = true ->
  exists x, b = T_OP x /\ multiplicative x = true.
Proof.
  intros b H. destruct b; try discriminate H.
  exists o. split; [reflexivity |]. destruct o; try reflexivity; discriminate H.
Qed.

Lemma masked_bit : forall b, masked OT_BITWISE b = true ->
  exists x, b = T_OP x /\ bitwise x = true.
Proof.
  intros b H. destruct b; try discriminate H.
  exists o. split; [reflexivity |]. destruct o; try reflexivity; discriminate H.
Qed.

Lemma masked_cmp : forall b, masked OT_COMPARISON b = true ->
  exists x, b = T_OP x /\ comparison x = true.
Proof.
  intros b H. destruct b; try discriminate H.
  exists o. split; [reflexivity |]. destruct o; try reflexivity; discriminate H.
Qed.

Lemma has_unary : forall b, has_bits OT_UNARY b = true -> unary_tok b = true.
Proof.
  intros b H. destruct b; try discriminate H.
  destruct o; try reflexivity; discriminate H.
Qed.

Lemma has_arith : forall b, has_bits OT_ARITHMETIC b = true ->
  exists x, b = T_OP x /\ (additive x = true \/ multiplicative x = true).
Proof.
  intros b H. destruct b; try discriminate H.
  exists o. split; [reflexivity |].
  destruct o; try discriminate H; (left; reflexivity) || (right; reflexivity).
Qed.

Lemma t_op_inj : forall b x, t_op b = op_code x -> b = T_OP x.
Proof. intros b x H. apply is_op_inv. unfold is_op. apply Z.eqb_eq, H. Qed.

(* ---- consumed tokens ---- *)

Definition eats (bs : list body) (ts r : list token) : Prop :=
  exists us, ts = us ++ r /\ map fst us = bs.

Lemma eats_nil : forall ts, eats [] ts ts.
Proof. intros ts. exists []. auto. Qed.

Lemma eats_app : forall b1 b2 t1 t2 t3,
  eats b1 t1 t2 -> eats b2 t2 t3 -> eats (b1 ++ b2) t1 t3.
Proof.
  intros b1 b2 t1 t2 t3 (u1 & E1 & F1) (u2 & E2 & F2).
  exists (u1 ++ u2). subst. split; [rewrite app_assoc; reflexivity | apply map_app].
Qed.

Lemma eats_peek : forall b ts, peek ts = b -> b <> T_EOF -> eats [b] ts (rest ts).
Proof.
  intros b ts H N. destruct ts as [| (c, e) r]; cbn [peek] in H; [congruence |].
  subst c. exists [(b, e)]. auto.
Qed.

Lemma eats_cons : forall b bs t1 t2 t3,
  eats [b] t1 t2 -> eats bs t2 t3 -> eats (b :: bs) t1 t3.
Proof. intros b bs t1 t2 t3 H1 H2. apply (eats_app [b] bs t1 t2 t3 H1 H2). Qed.

Lemma eats_op : forall x ts, is_op x (peek ts) = true -> eats [T_OP x] ts (rest ts).
Proof. intros x ts H. apply eats_peek; [apply is_op_inv, H | discriminate]. Qed.

Lemma eats_sep : forall x ts, is_sep x (peek ts) = true -> eats [T_SEP x] ts (rest ts).
Proof. intros x ts H. apply eats_peek; [apply is_sep_inv, H | discriminate]. Qed.

Lemma assume_ok : forall x ts r, assume_separator x ts = Ok r -> eats [T_SEP x] ts r.
Proof.
  intros x ts r H. unfold assume_separator in H.
  destruct (is_sep x (peek ts)) eqn:Q; [| discriminate H].
  assert (r = rest ts) as -> by congruence. apply eats_sep, Q.
Qed.

Section Sound.

Variable maxd : Z.
Variable p : place.

Lemma call_node_ok : forall g f, call_node p g = Ok f -> callee p g f \/
  (exists kids, g = Node N_SUPER_PROTO kids /\ f = Node N_SUPER_CTOR kids /\ in_ctor p = true).
Proof.
  intros [t kids] f H. unfold call_node in H.
  destruct t;
    try (left; injection H as <-; apply callee_other; discriminate).
  destruct (in_ctor p); [| discriminate H].
  right. exists kids. split; [reflexivity |]. split; [congruence | reflexivity].
Qed.

(** [super] nodes have no children *)
Lemma der_super_kids : forall N bs a kids, der p N bs a ->
  a = Node N_SUPER_PROTO kids -> kids = [].
Proof.
  intros N bs a kids H. induction H; intros Q; unfold op2 in Q;
    solve [ auto | congruence | (assert (@nil ast = kids) by congruence); auto ].
Qed.

Lemma call_der : forall N bs g f, der p N bs g -> call_node p g = Ok f -> callee p g f.
Proof.
  intros N bs g f D H. destruct (call_node_ok g f H) as [C | (kids & -> & -> & C)].
  - exact C.
  - pose proof (der_super_kids N bs _ kids D eq_refl) as ->. apply callee_super, C.
Qed.

Definition sound (N : nonterm) (q : parser) : Prop :=
  forall u d ts a r, q u d ts = Ok (a, r) -> exists bs, eats bs ts r /\ der p N bs a.

Section Levels.

Variable R : parser.
Hypothesis HR : sound G_RHS R.

Lemma expand_ok : forall a ts a' r, expand a ts = (a', r) ->
  exists x, (x = [] \/ x = [T_OP O_MORE]) /\ eats x ts r /\
    a' = if x then a else Node N_EXPAND [a].
Proof.
  intros a ts a' r H. unfold expand in H. destruct (is_op O_MORE (peek ts)) eqn:Q.
  - assert (Node N_EXPAND [a] = a' /\ rest ts = r) as [<- <-] by (split; congruence).
    exists [T_OP O_MORE]. split; [auto |]. split; [apply eats_op, Q | reflexivity].
  - assert (a = a' /\ ts = r) as [<- <-] by (split; congruence).
    exists []. split; [auto |]. split; [apply eats_nil | reflexivity].
Qed.

Lemma array_loop_sound : forall k u d acc ts a r,
  array_loop R k u d acc ts = Ok (a, r) ->
  exists bs l, eats (bs ++ [T_SEP S_SQUARE_CLOSE]) ts r /\ derL p L_ELEMS bs l /\
    a = Node N_ARRAY (acc ++ l).
Proof.
  induction k as [| k IH]; intros u d acc ts a r H; cbn [array_loop] in H; [discriminate H |].
  destruct (is_sep S_SQUARE_CLOSE (peek ts)) eqn:Q1.
  { assert (Node N_ARRAY acc = a /\ rest ts = r) as [<- <-] by (split; congruence).
    exists [], []. split; [apply eats_sep, Q1 |].
    split; [apply derL_elems0 | rewrite app_nil_r; reflexivity]. }
  bnd H. destruct (HR _ _ _ _ _ E) as (bs1 & F1 & D1).
  destruct (expand a0 l) as (a1, ts2) eqn:X.
  destruct (expand_ok _ _ _ _ X) as (x & Hx & F2 & ->).
  destruct (is_sep S_COMMA (peek ts2)) eqn:Q2.
  - destruct (IH _ _ _ _ _ _ H) as (bs & l' & F3 & D3 & ->).
    exists (bs1 ++ x ++ T_SEP S_COMMA :: bs), ((if x then a0 else Node N_EXPAND [a0]) :: l').
    split; [| split; [apply derL_elems; assumption | rewrite <- app_assoc; reflexivity]].
    rewrite <- app_assoc. apply eats_app with l; [exact F1 |].
    rewrite <- app_assoc. apply eats_app with ts2; [exact F2 |].
    apply eats_cons with (rest ts2); [apply eats_sep, Q2 | exact F3].
  - destruct (is_sep S_SQUARE_CLOSE (peek ts2)) eqn:Q3; cbn [negb] in H; [| discriminate H].
    destruct k as [| k]; cbn [array_loop] in H; [discriminate H |]. rewrite Q3 in H.
    assert (Node N_ARRAY (acc ++ [if x then a0 else Node N_EXPAND [a0]]) = a /\ rest ts2 = r)
      as [<- <-] by (split; congruence).
    exists (bs1 ++ x), [if x then a0 else Node N_EXPAND [a0]].
    split; [| split; [apply derL_elems1; assumption | reflexivity]].
    rewrite <- app_assoc. apply eats_app with l; [exact F1 |].
    apply eats_app with ts2; [exact F2 |]. apply eats_sep, Q3.
Qed.

Lemma object_loop_sound : forall k u d comma acc ts a r,
  object_loop R k u d comma acc ts = Ok (a, r) ->
  exists bs l, eats (bs ++ [T_SEP S_CURLY_CLOSE]) ts r /\ a = Node N_OBJECT (acc ++ l) /\
    if comma then derL p L_PROPS bs l
    else (bs = [] /\ l = []) \/ (exists bs', bs = T_SEP S_COMMA :: bs' /\ derL p L_PROPS bs' l).
Proof.
  induction k as [| k IH]; intros u d comma acc ts a r H; cbn [object_loop] in H;
    [discriminate H |].
  destruct (is_sep S_COMMA (peek ts)) eqn:Q1.
  { destruct comma; [discriminate H |].
    destruct (IH _ _ _ _ _ _ _ H) as (bs & l & F & -> & D).
    exists (T_SEP S_COMMA :: bs), l. split; [| split; [reflexivity | right; eauto]].
    apply (eats_cons _ (bs ++ _)) with (rest ts); [apply eats_sep, Q1 | exact F]. }
  destruct (is_sep S_CURLY_CLOSE (peek ts)) eqn:Q2.
  { assert (Node N_OBJECT acc = a /\ rest ts = r) as [<- <-] by (split; congruence).
    exists [], []. split; [apply eats_sep, Q2 |]. rewrite app_nil_r.
    split; [reflexivity |]. destruct comma; [apply derL_props0 | left; auto]. }
  destruct comma; cbn [negb] in H; [| discriminate H].
  assert (name_tok (peek ts) = true /\
    pbind (assume_separator S_COLON (rest ts)) (fun ts1 =>
            pbind (R u d ts1) (fun '(a, ts2) =>
            object_loop R k u d false
              (acc ++ [Node N_PROPERTY [Node (N_STR (peek ts)) []; a]]) ts2)) = Ok (a, r))
    as [Hn H'].
  { destruct (peek ts); try discriminate H; (split; [reflexivity | exact H]). }
  clear H. rename H' into H.
  bnd1 H. bnd H. destruct (HR _ _ _ _ _ E0) as (bs1 & F1 & D1).
  destruct (IH _ _ _ _ _ _ _ H) as (bs & l' & F & -> & D).
  pose proof (assume_ok _ _ _ E) as F0.
  assert (eats [peek ts] ts (rest ts)) as Fn.
  { apply eats_peek; [reflexivity |]. intros Z. rewrite Z in Hn. discriminate Hn. }
  exists (peek ts :: T_SEP S_COLON :: bs1 ++ bs),
    (Node N_PROPERTY [Node (N_STR (peek ts)) []; a0] :: l').
  split; [| split].
  - cbn [app]. apply eats_cons with (rest ts); [exact Fn |].
    apply eats_cons with x; [exact F0 |]. rewrite <- app_assoc.
    apply eats_app with l; [exact F1 | exact F].
  - rewrite <- app_assoc. reflexivity.
  - destruct D as [(-> & ->) | (bs' & -> & D)].
    + rewrite app_nil_r. apply derL_props1; assumption.
    + apply derL_props; assumption.
Qed.

Lemma primary_sound : forall k, sound G_PRIMARY (primary_expr p R k).
Proof.
  intros k u d ts a r H. unfold primary_expr in H. cbv zeta in H.
  assert (forall b, peek ts = b -> b <> T_EOF -> eats [b] ts (rest ts)) as P
    by (intros b; apply eats_peek).
  assert (forall b n, peek ts = b -> b <> T_EOF ->
            Ok (Node n [], rest ts) = Ok (a, r) -> der p G_PRIMARY [b] (Node n []) ->
            exists bs, eats bs ts r /\ der p G_PRIMARY bs a) as P0.
  { intros b n Q N X D.
    assert (Node n [] = a /\ rest ts = r) as [<- <-] by (split; congruence).
    exists [b]. split; [apply P; assumption | exact D]. }
  destruct (peek ts) as [n | n | | x | kw | op | sp |] eqn:Q; try discriminate H.
  - eapply P0; [reflexivity | discriminate | exact H | constructor].
  - eapply P0; [reflexivity | discriminate | exact H | constructor].
  - destruct (is_op O_LAMBDA (peek (rest ts))); [discriminate H |].
    eapply P0; [reflexivity | discriminate | exact H | constructor].
  - destruct kw; try discriminate H;
      try (eapply P0; [reflexivity | discriminate | exact H | constructor]; fail).
    destruct (in_member p) eqn:M; [| discriminate H].
    eapply P0; [reflexivity | discriminate | exact H | constructor; exact M].
  - destruct sp; try discriminate H.
    + destruct (is_lambda (rest ts)); [discriminate H |].
      bnd H. destruct (HR _ _ _ _ _ E) as (bs1 & F1 & D1). bnd1 H.
      apply assume_ok in E0.
      assert (a0 = a /\ x = r) as [<- <-] by (split; congruence).
      eexists. split; [| apply der_paren, D1].
      apply eats_cons with (rest ts); [apply P; [reflexivity | discriminate] |].
      apply eats_app with l; assumption.
    + destruct (array_loop_sound _ _ _ _ _ _ _ H) as (bs & l & F & D & ->).
      eexists. split; [| apply der_array, D].
      apply eats_cons with (rest ts); [apply P; [reflexivity | discriminate] | exact F].
    + destruct (object_loop_sound _ _ _ _ _ _ _ _ H) as (bs & l & F & -> & D).
      eexists. split; [| apply der_object, D].
      apply eats_cons with (rest ts); [apply P; [reflexivity | discriminate] | exact F].
Qed.

Lemma refinement_identifier_sound : forall bs0 a ts a' r, der p G_MEMBER bs0 a ->
  refinement_identifier a ts = Ok (a', r) ->
  exists bs, eats bs ts r /\ der p G_MEMBER (bs0 ++ T_OP O_DOT :: bs) a'.
Proof.
  intros bs0 a ts a' r D H. unfold refinement_identifier in H.
  destruct (is_op O_LOGTRI (peek ts)) eqn:Q.
  - assert (name_tok (peek (rest ts)) = true /\
      Node N_OPT_REF [a; Node (N_STR (peek (rest ts))) []] = a' /\ rest (rest ts) = r)
      as (Hn & <- & <-).
    { destruct (peek (rest ts)); try discriminate H;
        (split; [reflexivity | split; congruence]). }
    exists [T_OP O_LOGTRI; peek (rest ts)]. split; [| apply der_optdot; assumption].
    apply eats_cons with (rest ts); [apply eats_op, Q |].
    apply eats_peek; [reflexivity |]. intros Z. rewrite Z in Hn. discriminate Hn.
  - assert (name_tok (peek ts) = true /\
      Node N_REF [a; Node (N_STR (peek ts)) []] = a' /\ rest ts = r) as (Hn & <- & <-).
    { destruct (peek ts); try discriminate H; (split; [reflexivity | split; congruence]). }
    exists [peek ts]. split; [| apply der_dot; assumption].
    apply eats_peek; [reflexivity |]. intros Z. rewrite Z in Hn. discriminate Hn.
Qed.

Lemma refinement_expr_sound : forall bs0 a u d ts a' r, der p G_MEMBER bs0 a ->
  refinement_expr R u d a ts = Ok (a', r) ->
  exists bs, eats bs ts r /\ der p G_MEMBER (bs0 ++ T_SEP S_SQUARE_OPEN :: bs) a'.
Proof.
  intros bs0 a u d ts a' r D H. unfold refinement_expr in H.
  assert (exists opt t ts1, (opt = [] /\ t = N_REF \/ opt = [T_OP O_LOGTRI] /\ t = N_OPT_REF) /\
    (if is_op O_LOGTRI (peek ts) then (N_OPT_REF, rest ts) else (N_REF, ts)) = (t, ts1) /\
    eats opt ts ts1) as (opt & t & ts1 & Ho & Eq & F0).
  { destruct (is_op O_LOGTRI (peek ts)) eqn:Q.
    - exists [T_OP O_LOGTRI], N_OPT_REF, (rest ts). split; [auto |]. split; [reflexivity |].
      apply eats_op, Q.
    - exists [], N_REF, ts. split; [auto |]. split; [reflexivity | apply eats_nil]. }
  rewrite Eq in H. clear Eq.
  assert (opt = [] \/ opt = [T_OP O_LOGTRI]) as Ho' by tauto.
  bnd H. bnd1 H. apply assume_ok in E0.
  assert (a0 = a' /\ x = r) as [<- <-] by (split; congruence). clear H.
  destruct (is_sep S_SQUARE_CLOSE (peek ts1)) eqn:Q1; [discriminate E |].
  destruct (is_sep S_COLON (peek ts1)) eqn:Q2.
  - cbv zeta in E. destruct (is_sep S_SQUARE_CLOSE (peek (rest ts1))) eqn:Q3.
    + assert (Node N_SLICE [a; Node N_VOID []; Node N_VOID []] = a0 /\ rest ts1 = l)
        as [<- <-] by (split; congruence).
      exists (opt ++ [T_SEP S_COLON; T_SEP S_SQUARE_CLOSE]).
      split; [| apply der_slice00; assumption].
      apply eats_app with ts1; [exact F0 |].
      apply eats_cons with (rest ts1); [apply eats_sep, Q2 | exact E0].
    + bnd E. destruct (HR _ _ _ _ _ E1) as (bs2 & F2 & D2).
      assert (Node N_SLICE [a; Node N_VOID []; a1] = a0 /\ l0 = l) as [<- <-]
        by (split; congruence).
      exists (opt ++ T_SEP S_COLON :: bs2 ++ [T_SEP S_SQUARE_CLOSE]).
      split; [| apply der_slice01; assumption].
      apply eats_app with ts1; [exact F0 |].
      apply eats_cons with (rest ts1); [apply eats_sep, Q2 |].
      apply eats_app with l0; assumption.
  - bnd E. destruct (HR _ _ _ _ _ E1) as (bs1 & F1 & D1).
    destruct (is_sep S_COLON (peek l0)) eqn:Q3.
    + cbv zeta in E. destruct (is_sep S_SQUARE_CLOSE (peek (rest l0))) eqn:Q4.
      * assert (Node N_SLICE [a; a1; Node N_VOID []] = a0 /\ rest l0 = l) as [<- <-]
          by (split; congruence).
        exists (opt ++ bs1 ++ [T_SEP S_COLON; T_SEP S_SQUARE_CLOSE]).
        split; [| apply der_slice10; assumption].
        apply eats_app with ts1; [exact F0 |].
        apply eats_app with l0; [exact F1 |].
        apply eats_cons with (rest l0); [apply eats_sep, Q3 | exact E0].
      * bnd E. destruct (HR _ _ _ _ _ E2) as (bs2 & F2 & D2).
        assert (Node N_SLICE [a; a1; a2] = a0 /\ l1 = l) as [<- <-] by (split; congruence).
        exists (opt ++ bs1 ++ T_SEP S_COLON :: bs2 ++ [T_SEP S_SQUARE_CLOSE]).
        split; [| apply der_slice11; assumption].
        apply eats_app with ts1; [exact F0 |].
        apply eats_app with l0; [exact F1 |].
        apply eats_cons with (rest l0); [apply eats_sep, Q3 |].
        apply eats_app with l1; assumption.
    + assert (Node t [a; a1] = a0 /\ l0 = l) as [<- <-] by (split; congruence).
      destruct Ho as [(-> & ->) | (-> & ->)].
      * exists (bs1 ++ [T_SEP S_SQUARE_CLOSE]). split; [| apply der_index; assumption].
        apply (eats_app [] _ _ _ _ F0). apply eats_app with l0; assumption.
      * exists (T_OP O_LOGTRI :: bs1 ++ [T_SEP S_SQUARE_CLOSE]).
        split; [| apply der_optindex; assumption].
        apply eats_cons with ts1; [exact F0 |]. apply eats_app with l0; assumption.
Qed.

Lemma named_argument_sound : forall u d ts a r,
  named_argument R u d ts = Ok (a, r) ->
  exists x bs b, eats (T_ID x :: T_OP O_SET :: bs) ts r /\ der p G_RHS bs b /\
    a = Node N_PROPERTY [Node (N_STR (T_ID x)) []; b].
Proof.
  intros u d ts a r H. unfold named_argument in H.
  destruct (is_ident (peek ts)) eqn:Q1; cbn [negb] in H; [| discriminate H].
  destruct (is_op O_SET (peek (rest ts))) eqn:Q2; cbn [negb] in H; [| discriminate H].
  destruct (peek ts) as [| | | x | | | |] eqn:Q; try discriminate Q1.
  bnd H. destruct (HR _ _ _ _ _ E) as (bs & F & D).
  exists x, bs, a0.
  assert (Node N_PROPERTY [Node (N_STR (T_ID x)) []; a0] = a /\ l = r) as [<- <-]
    by (split; congruence).
  split; [| split; [exact D | reflexivity]].
  apply eats_cons with (rest ts); [apply eats_peek; [exact Q | discriminate] |].
  apply eats_cons with (rest (rest ts)); [apply eats_op, Q2 | exact F].
Qed.

Lemma args_loop_sound : forall k named u d acc ts l r,
  args_loop R k named u d acc ts = Ok (l, r) ->
  exists bs l', eats (bs ++ [T_SEP S_PAREN_CLOSE]) ts r /\ l = acc ++ l' /\
    derL p (if named then L_NARGS else L_ARGS) bs l'.
Proof.
  induction k as [| k IH]; intros named u d acc ts l r H; cbn [args_loop] in H;
    [discriminate H |].
  bnd H.
  destruct named.
  - destruct (named_argument_sound _ _ _ _ _ E) as (x & bs1 & b & F1 & D1 & ->).
    destruct (is_op O_MORE (peek l0)) eqn:Q1; cbn [andb] in H; [discriminate H |].
    unfold expand in H. rewrite Q1 in H.
    destruct (is_sep S_PAREN_CLOSE (peek l0)) eqn:Q2.
    + assert (l = acc ++ [Node N_PROPERTY [Node (N_STR (T_ID x)) []; b]] /\ rest l0 = r)
        as [-> <-] by (split; congruence).
      eexists _, _. split; [| split; [reflexivity | apply derL_nargs1, D1]].
      apply eats_app with l0; [exact F1 | apply eats_sep, Q2].
    + destruct (is_sep S_COMMA (peek l0)) eqn:Q3; cbn [negb] in H; [| discriminate H].
      destruct (IH _ _ _ _ _ _ _ H) as (bs2 & l2 & F2 & -> & D2).
      eexists _, _. split; [| split; [rewrite <- app_assoc; reflexivity |
        apply derL_nargs; eassumption]].
      replace ((T_ID x :: T_OP O_SET :: bs1 ++ T_SEP S_COMMA :: bs2) ++ [T_SEP S_PAREN_CLOSE])
        with ((T_ID x :: T_OP O_SET :: bs1) ++ (T_SEP S_COMMA :: bs2 ++ [T_SEP S_PAREN_CLOSE]))
        by (cbn [app]; rewrite <- app_assoc; reflexivity).
      apply eats_app with l0; [exact F1 |].
      apply eats_cons with (rest l0); [apply eats_sep, Q3 | exact F2].
  - rewrite andb_false_r in H. destruct (HR _ _ _ _ _ E) as (bs1 & F1 & D1).
    destruct (expand a l0) as (a1, ts2) eqn:X.
    destruct (expand_ok _ _ _ _ X) as (x & Hx & F2 & ->).
    destruct (is_sep S_PAREN_CLOSE (peek ts2)) eqn:Q2.
    + assert (l = acc ++ [if x then a else Node N_EXPAND [a]] /\ rest ts2 = r)
        as [-> <-] by (split; congruence).
      eexists _, _. split; [| split; [reflexivity | apply derL_args1; eassumption]].
      rewrite <- app_assoc. apply eats_app with l0; [exact F1 |].
      apply eats_app with ts2; [exact F2 | apply eats_sep, Q2].
    + destruct (is_sep S_COMMA (peek ts2)) eqn:Q3; cbn [negb] in H; [| discriminate H].
      destruct (IH _ _ _ _ _ _ _ H) as (bs2 & l2 & F3 & -> & D2).
      eexists _, _. split; [| split; [rewrite <- app_assoc; reflexivity |
        apply derL_args; eassumption]].
      rewrite <- app_assoc. apply eats_app with l0; [exact F1 |].
      rewrite <- app_assoc. apply eats_app with ts2; [exact F2 |].
      apply eats_cons with (rest ts2); [apply eats_sep, Q3 | exact F3].
Qed.

Lemma invocation_sound : forall k bs0 a u d ts a' r, der p G_MEMBER bs0 a ->
  invocation p R k u d a ts = Ok (a', r) ->
  exists bs, eats bs ts r /\ der p G_MEMBER (bs0 ++ T_SEP S_PAREN_OPEN :: bs) a'.
Proof.
  intros k bs0 a u d ts a' r D H. unfold invocation in H. bnd1 H.
  pose proof (call_der _ _ _ _ D E) as C.
  destruct (is_sep S_PAREN_CLOSE (peek ts)) eqn:Q.
  - assert (Node N_INVOCATION [x] = a' /\ rest ts = r) as [<- <-] by (split; congruence).
    exists [T_SEP S_PAREN_CLOSE]. split; [apply eats_sep, Q | apply der_call0 with a; assumption].
  - cbv zeta in H. bnd H. destruct (args_loop_sound _ _ _ _ _ _ _ _ E0) as (bs & l' & F & -> & DL).
    cbn [app] in H.
    exists (bs ++ [T_SEP S_PAREN_CLOSE]).
    destruct (is_ident (peek ts) && is_op O_SET (peek (rest ts))).
    + assert (Node N_INVOCATION [x; Node N_NAMED_ARGS [Node N_OBJECT l']] = a' /\ l0 = r)
        as [<- <-] by (split; congruence).
      split; [exact F | apply der_ncall with a; assumption].
    + assert (Node N_INVOCATION (x :: l') = a' /\ l0 = r) as [<- <-] by (split; congruence).
      split; [exact F | apply der_call with a; assumption].
Qed.

Lemma member_loop_sound : forall k bs0 u d a ts a' r, der p G_MEMBER bs0 a ->
  member_loop p R k u d a ts = Ok (a', r) ->
  exists bs, eats bs ts r /\ der p G_MEMBER (bs0 ++ bs) a'.
Proof.
  induction k as [| k IH]; intros bs0 u d a ts a' r D H; cbn [member_loop] in H;
    [discriminate H |].
  assert (forall b bs1 a1 ts1, eats [b] ts (rest ts) -> eats bs1 (rest ts) ts1 ->
     der p G_MEMBER (bs0 ++ b :: bs1) a1 ->
     member_loop p R k u d a1 ts1 = Ok (a', r) ->
     exists bs, eats bs ts r /\ der p G_MEMBER (bs0 ++ bs) a') as step.
  { intros b bs1 a1 ts1 F0 F1 D1 H1. destruct (IH _ _ _ _ _ _ _ D1 H1) as (bs2 & F2 & D2).
    exists (b :: bs1 ++ bs2). split.
    - apply eats_cons with (rest ts); [exact F0 |]. apply eats_app with ts1; assumption.
    - rewrite <- app_assoc in D2. exact D2. }
  destruct (is_op O_DOT (peek ts)) eqn:Q1.
  { bnd H. destruct (refinement_identifier_sound _ _ _ _ _ D E) as (bs1 & F1 & D1).
    apply (step _ _ _ _ (eats_op _ _ Q1) F1 D1 H). }
  destruct (is_sep S_SQUARE_OPEN (peek ts)) eqn:Q2.
  { destruct (peek_eol ts && (u =? 1)); [discriminate H |].
    bnd H. destruct (refinement_expr_sound _ _ _ _ _ _ _ D E) as (bs1 & F1 & D1).
    apply (step _ _ _ _ (eats_sep _ _ Q2) F1 D1 H). }
  destruct (is_sep S_PAREN_OPEN (peek ts)) eqn:Q3.
  { destruct (peek_eol ts && (u =? 1)); [discriminate H |].
    bnd H. destruct (invocation_sound _ _ _ _ _ _ _ _ D E) as (bs1 & F1 & D1).
    apply (step _ _ _ _ (eats_sep _ _ Q3) F1 D1 H). }
  assert (a = a' /\ ts = r) as [<- <-] by (split; congruence).
  exists []. split; [apply eats_nil | rewrite app_nil_r; exact D].
Qed.

Lemma member_sound : forall k, sound G_MEMBER (member_expr p R k).
Proof.
  intros k u d ts a r H. unfold member_expr in H. bnd H.
  destruct (primary_sound _ _ _ _ _ _ E) as (bs1 & F1 & D1).
  destruct (member_loop_sound _ _ _ _ _ _ _ _ (der_primary _ _ _ D1) H) as (bs2 & F2 & D2).
  exists (bs1 ++ bs2). split; [apply eats_app with l; assumption | exact D2].
Qed.

Lemma unary_sound : forall k, sound G_UNARY (unary_expr maxd p R k).
Proof.
  induction k as [| k IH]; intros u d ts a r H; cbn [unary_expr] in H; [discriminate H |].
  destruct (has_bits OT_UNARY (peek ts)
         || match peek ts with T_KW K_TYPEOF | T_KW K_DELETE => true | _ => false end) eqn:Q.
  - assert (unary_tok (peek ts) = true) as Hu.
    { apply orb_true_iff in Q. destruct Q as [Q | Q]; [apply has_unary, Q |].
      destruct (peek ts) as [| | | | kw | | |]; try discriminate Q.
      destruct kw; try discriminate Q; reflexivity. }
    bnd1 H. bnd H. destruct (IH _ _ _ _ _ E0) as (bs & F & D).
    assert (Node (N_OP (peek ts)) [a0] = a /\ l = r) as [<- <-] by (split; congruence).
    exists (peek ts :: bs). split; [| apply der_unary; assumption].
    apply eats_cons with (rest ts); [| exact F].
    apply eats_peek; [reflexivity |]. intros Z. rewrite Z in Hu. discriminate Hu.
  - destruct (member_sound _ _ _ _ _ _ H) as (bs & F & D).
    exists bs. split; [exact F | apply der_member, D].
Qed.

(** the pending node [*ret] with its operator and the current operand *)
Definition pending (x : ast) (last : body) (node : ast) (bs : list body) : Prop :=
  exists bx bn lo, last = T_OP lo /\ bs = bx ++ last :: bn /\
    ((multiplicative lo = true /\ der p G_MUL bx x /\ der p G_UNARY bn node) \/
     (additive lo = true /\ der p G_ADD bx x /\ der p G_MUL bn node)).

Lemma pending_add : forall x last node bs, pending x last node bs ->
  der p G_ADD bs (op2 last x node).
Proof.
  intros x last node bs (bx & bn & lo & -> & -> & [(M & D1 & D2) | (M & D1 & D2)]).
  - apply der_add1, der_mul; assumption.
  - apply der_add; assumption.
Qed.

Lemma pending_mul : forall x last node bs, pending x last node bs ->
  masked OT_MULTIPLICATIVE last = true -> der p G_MUL bs (op2 last x node).
Proof.
  intros x last node bs (bx & bn & lo & -> & -> & [(M & D1 & D2) | (M & D1 & D2)]) Q.
  - apply der_mul; assumption.
  - destruct (masked_mul _ Q) as (y & E & M'). assert (lo = y) as <- by congruence.
    destruct lo; try discriminate M; discriminate M'.
Qed.

Lemma pending_start : forall bs1 a x bs2 n, der p G_UNARY bs1 a ->
  additive x = true \/ multiplicative x = true -> der p G_UNARY bs2 n ->
  pending a (T_OP x) n (bs1 ++ T_OP x :: bs2).
Proof.
  intros bs1 a x bs2 n D1 M D2. exists bs1, bs2, x.
  split; [reflexivity |]. split; [reflexivity |].
  destruct M as [M | M].
  - right. split; [exact M |]. split; [apply der_add1, der_mul1, D1 | apply der_mul1, D2].
  - left. split; [exact M |]. split; [apply der_mul1, D1 | exact D2].
Qed.

Lemma mul_loop_sound : forall k bs0 u d x last node ts x' last' node' r,
  pending x last node bs0 -> masked OT_MULTIPLICATIVE (peek ts) = true ->
  mul_loop maxd p R k u d x last node ts = Ok (x', last', node', r) ->
  exists bs, eats bs ts r /\ pending x' last' node' (bs0 ++ bs).
Proof.
  induction k as [| k IH]; intros bs0 u d x last node ts x' last' node' r I Q H;
    cbn [mul_loop] in H; [discriminate H |].
  bnd1 H. bnd H. destruct (unary_sound _ _ _ _ _ _ E0) as (bs1 & F1 & D1).
  destruct (masked_mul _ Q) as (m & Em & M).
  assert (eats [T_OP m] ts (rest ts)) as F0 by (apply eats_peek; [exact Em | discriminate]).
  rewrite Em in H.
  assert (exists x1 last1 node1,
    (if masked OT_MULTIPLICATIVE last then (op2 last x node, T_OP m, a)
     else (x, last, op2 (T_OP m) node a)) = (x1, last1, node1) /\
    pending x1 last1 node1 (bs0 ++ T_OP m :: bs1)) as (x1 & last1 & node1 & Eq & I1).
  { destruct (masked OT_MULTIPLICATIVE last) eqn:Q1.
    - eexists _, _, _. split; [reflexivity |].
      exists bs0, bs1, m. split; [reflexivity |]. split; [reflexivity |]. left.
      split; [exact M |]. split; [apply pending_mul; assumption | exact D1].
    - eexists _, _, _. split; [reflexivity |].
      destruct I as (bx & bn & lo & -> & -> & [(M1 & D2 & D3) | (M1 & D2 & D3)]).
      + destruct lo; try discriminate M1; discriminate Q1.
      + exists bx, (bn ++ T_OP m :: bs1), lo. split; [reflexivity |].
        split; [rewrite <- app_assoc; reflexivity |]. right.
        split; [exact M1 |]. split; [exact D2 |]. apply der_mul; assumption. }
  rewrite Eq in H. clear Eq.
  destruct (masked OT_MULTIPLICATIVE (peek l)) eqn:Q2.
  - destruct (IH _ _ _ _ _ _ _ _ _ _ _ I1 Q2 H) as (bs2 & F2 & I2).
    exists (T_OP m :: bs1 ++ bs2). split.
    + apply eats_cons with (rest ts); [exact F0 |]. apply eats_app with l; assumption.
    + rewrite <- app_assoc in I2. exact I2.
  - assert (x1 = x' /\ last1 = last' /\ node1 = node' /\ l = r) as (<- & <- & <- & <-)
      by (repeat split; congruence).
    exists (T_OP m :: bs1). split; [| exact I1].
    apply eats_cons with (rest ts); assumption.
Qed.

Lemma arith_loop_sound : forall k bs0 u d x last node ts a r,
  pending x last node bs0 ->
  arith_loop maxd p R k u d x last node ts = Ok (a, r) ->
  exists bs, eats bs ts r /\ der p G_ADD (bs0 ++ bs) a.
Proof.
  induction k as [| k IH]; intros bs0 u d x last node ts a r I H;
    cbn [arith_loop] in H; [discriminate H |].
  bnd1 H.
  destruct (is_op O_ADD (peek ts) || is_op O_SUB (peek ts)) eqn:Q1.
  { destruct (peek_eol ts && (u =? 0)); [discriminate H |].
    bnd H. destruct (unary_sound _ _ _ _ _ _ E0) as (bs1 & F1 & D1).
    assert (exists m, peek ts = T_OP m /\ additive m = true) as (m & Em & M).
    { apply orb_true_iff in Q1. destruct Q1 as [Q1 | Q1]; apply is_op_inv in Q1;
        eexists; (split; [exact Q1 | reflexivity]). }
    assert (eats [T_OP m] ts (rest ts)) as F0 by (apply eats_peek; [exact Em | discriminate]).
    rewrite Em in H.
    assert (pending (op2 last x node) (T_OP m) a0 (bs0 ++ T_OP m :: bs1)) as I1.
    { exists bs0, bs1, m. split; [reflexivity |]. split; [reflexivity |]. right.
      split; [exact M |]. split; [apply pending_add, I | apply der_mul1, D1]. }
    destruct (IH _ _ _ _ _ _ _ _ _ I1 H) as (bs2 & F2 & D2).
    exists (T_OP m :: bs1 ++ bs2). split.
    - apply eats_cons with (rest ts); [exact F0 |]. apply eats_app with l; assumption.
    - rewrite <- app_assoc in D2. exact D2. }
  destruct (masked OT_MULTIPLICATIVE (peek ts)) eqn:Q2.
  { apply pbind_ok in H. destruct H as ([[[x1 last1] node1] ts1] & E0 & H).
    cbn beta iota in H.
    destruct (mul_loop_sound _ _ _ _ _ _ _ _ _ _ _ _ I Q2 E0) as (bs1 & F1 & I1).
    destruct (IH _ _ _ _ _ _ _ _ _ I1 H) as (bs2 & F2 & D2).
    exists (bs1 ++ bs2). split; [apply eats_app with ts1; assumption |].
    rewrite <- app_assoc in D2. exact D2. }
  destruct (masked OT_BITWISE (peek ts)); [discriminate H |].
  assert (op2 last x node = a /\ ts = r) as [<- <-] by (split; congruence).
  exists []. split; [apply eats_nil |]. rewrite app_nil_r. apply pending_add, I.
Qed.

Lemma bit_loop_sound : forall k bs0 u d m acc ts a r,
  bitwise m = true -> der p (G_BIT m) bs0 acc -> peek ts = T_OP m ->
  bit_loop maxd p R k u d (T_OP m) acc ts = Ok (a, r) ->
  exists bs, eats bs ts r /\ der p (G_BIT m) (bs0 ++ bs) a.
Proof.
  induction k as [| k IH]; intros bs0 u d m acc ts a r M D Em H;
    cbn [bit_loop] in H; [discriminate H |].
  bnd1 H. bnd H. destruct (unary_sound _ _ _ _ _ _ E0) as (bs1 & F1 & D1).
  assert (eats [T_OP m] ts (rest ts)) as F0 by (apply eats_peek; [exact Em | discriminate]).
  cbv zeta in H. rewrite Em in H.
  pose proof (der_bit p _ _ _ _ _ D M D1) as D'.
  destruct (t_op (peek l) =? t_op (T_OP m)) eqn:Q1.
  - apply Z.eqb_eq, t_op_inj in Q1.
    destruct (IH _ _ _ _ _ _ _ _ M D' Q1 H) as (bs2 & F2 & D2).
    exists (T_OP m :: bs1 ++ bs2). split.
    + apply eats_cons with (rest ts); [exact F0 |]. apply eats_app with l; assumption.
    + rewrite <- app_assoc in D2. exact D2.
  - match type of H with (if ?c then _ else _) = _ => destruct c; [discriminate H |] end.
    assert (op2 (T_OP m) acc a0 = a /\ l = r) as [<- <-] by (split; congruence).
    exists (T_OP m :: bs1). split; [apply eats_cons with (rest ts); assumption | exact D'].
Qed.

Lemma arith_sound : forall k, sound G_ARITH (arithm_bitwise_expr maxd p R k).
Proof.
  intros k u d ts a r H. unfold arithm_bitwise_expr in H. bnd H.
  destruct (unary_sound _ _ _ _ _ _ E) as (bs1 & F1 & D1).
  cbv zeta in H.
  destruct (has_bits OT_ARITHMETIC (peek l)) eqn:Q1.
  { match type of H with (if ?c then _ else _) = _ => destruct c; [discriminate H |] end.
    bnd H. destruct (unary_sound _ _ _ _ _ _ E0) as (bs2 & F2 & D2).
    destruct (has_arith _ Q1) as (m & Em & M).
    assert (eats [T_OP m] l (rest l)) as F0 by (apply eats_peek; [exact Em | discriminate]).
    rewrite Em in H.
    destruct (arith_loop_sound _ _ _ _ _ _ _ _ _ _ (pending_start _ _ _ _ _ D1 M D2) H)
      as (bs3 & F3 & D3).
    exists (bs1 ++ T_OP m :: bs2 ++ bs3). split.
    - apply eats_app with l; [exact F1 |]. apply eats_cons with (rest l); [exact F0 |].
      apply eats_app with l0; assumption.
    - rewrite <- app_assoc in D3. apply der_arith. exact D3. }
  destruct (masked OT_BITWISE (peek l)) eqn:Q2.
  { destruct (masked_bit _ Q2) as (m & Em & M). rewrite Em in H.
    destruct (bit_loop_sound _ _ _ _ _ _ _ _ _ M (der_bit1 p _ _ m D1) Em H) as (bs2 & F2 & D2).
    exists (bs1 ++ bs2). split; [apply eats_app with l; assumption |].
    apply der_bits with m, D2. }
  destruct (is_op O_SHL (peek l) || is_op O_SHR (peek l) || is_op O_SHRU (peek l)) eqn:Q3.
  { bnd H. destruct (unary_sound _ _ _ _ _ _ E0) as (bs2 & F2 & D2).
    assert (exists m, peek l = T_OP m /\ shift m = true) as (m & Em & M).
    { apply orb_true_iff in Q3. destruct Q3 as [Q3 | Q3];
        [apply orb_true_iff in Q3; destruct Q3 as [Q3 | Q3] |]; apply is_op_inv in Q3;
        eexists; (split; [exact Q3 | reflexivity]). }
    assert (eats [T_OP m] l (rest l)) as F0 by (apply eats_peek; [exact Em | discriminate]).
    rewrite Em in H.
    assert (op2 (T_OP m) a0 a1 = a /\ l0 = r) as [<- <-] by (split; congruence).
    exists (bs1 ++ T_OP m :: bs2). split; [| apply der_shift; assumption].
    apply eats_app with l; [exact F1 |]. apply eats_cons with (rest l); assumption. }
  assert (a0 = a /\ l = r) as [<- <-] by (split; congruence).
  exists bs1. split; [exact F1 | apply der_arith, der_add1, der_mul1, D1].
Qed.

Lemma cmp_sound : forall k, sound G_CMP (comparison_expr maxd p R k).
Proof.
  intros k u d ts a r H. unfold comparison_expr in H. bnd H.
  destruct (arith_sound _ _ _ _ _ _ E) as (bs1 & F1 & D1).
  cbv zeta in H.
  set (sw := match peek l with T_KW K_IN | T_KW K_PROPERTYOF => true | _ => false end) in *.
  set (io := match peek l with T_KW K_INSTANCEOF => true | _ => false end) in *.
  destruct (masked OT_COMPARISON (peek l) || sw || io) eqn:Q.
  - bnd H. destruct (arith_sound _ _ _ _ _ _ E0) as (bs2 & F2 & D2).
    assert (peek l <> T_EOF) as Ne.
    { intros Z. subst sw io. rewrite Z in Q. discriminate Q. }
    pose proof (eats_peek _ _ eq_refl Ne) as F0.
    exists (bs1 ++ peek l :: bs2).
    assert (eats (bs1 ++ peek l :: bs2) ts l0) as F.
    { apply eats_app with l; [exact F1 |]. apply eats_cons with (rest l); assumption. }
    destruct sw eqn:Es.
    + assert (op2 (peek l) a1 a0 = a /\ l0 = r) as [<- <-] by (split; congruence).
      split; [exact F |]. apply der_cmp_swap; [exact D1 | | exact D2].
      subst sw. destruct (peek l) as [| | | | kw | | |]; try discriminate Es.
      destruct kw; try discriminate Es; reflexivity.
    + assert (op2 (peek l) a0 a1 = a /\ l0 = r) as [<- <-] by (split; congruence).
      split; [exact F |]. apply der_cmp; [exact D1 | | exact D2].
      rewrite orb_false_r in Q. apply orb_true_iff in Q. destruct Q as [Q | Q].
      * destruct (masked_cmp _ Q) as (m & -> & M). exact M.
      * subst io. destruct (peek l) as [| | | | kw | | |]; try discriminate Q.
        destruct kw; try discriminate Q; reflexivity.
  - assert (a0 = a /\ l = r) as [<- <-] by (split; congruence).
    exists bs1. split; [exact F1 | apply der_cmp1, D1].
Qed.

Lemma logical_loop_sound : forall k u d m ts a r, logical m = true ->
  logical_loop maxd p R k u d (T_OP m) ts = Ok (a, r) ->
  exists bs, eats bs ts r /\ der p (G_LOG m) bs a.
Proof.
  induction k as [| k IH]; intros u d m ts a r M H; cbn [logical_loop] in H; [discriminate H |].
  bnd1 H. bnd H. destruct (cmp_sound _ _ _ _ _ _ E0) as (bs1 & F1 & D1). cbv zeta in H.
  destruct (t_op (peek l) =? t_op (T_OP m)) eqn:Q.
  - apply Z.eqb_eq, t_op_inj in Q. rewrite Q in H.
    bnd H. destruct (IH _ _ _ _ _ _ M E1) as (bs2 & F2 & D2).
    assert (op2 (T_OP m) a0 a1 = a /\ l0 = r) as [<- <-] by (split; congruence).
    exists (bs1 ++ T_OP m :: bs2). split; [| apply der_log; assumption].
    apply eats_app with l; [exact F1 |]. apply eats_cons with (rest l); [| exact F2].
    apply eats_peek; [exact Q | discriminate].
  - assert (a0 = a /\ l = r) as [<- <-] by (split; congruence).
    exists bs1. split; [exact F1 | apply der_log1, D1].
Qed.

Lemma logical_sound : forall k u d ts a r, logical_expr maxd p R k u d ts = Ok (a, r) ->
  exists m bs, eats bs ts r /\ der p (G_LOG m) bs a.
Proof.
  intros k u d ts a r H. unfold logical_expr in H. bnd H.
  destruct (cmp_sound _ _ _ _ _ _ E) as (bs1 & F1 & D1). cbv zeta in H.
  destruct (is_op O_LOGAND (peek l) || is_op O_LOGOR (peek l)) eqn:Q.
  - assert (exists m, peek l = T_OP m /\ logical m = true) as (m & Em & M).
    { apply orb_true_iff in Q. destruct Q as [Q | Q]; apply is_op_inv in Q;
        eexists; (split; [exact Q | reflexivity]). }
    rewrite Em in H. bnd H.
    destruct (logical_loop_sound _ _ _ _ _ _ _ M E0) as (bs2 & F2 & D2).
    match type of H with (if ?c then _ else _) = _ => destruct c; [discriminate H |] end.
    assert (op2 (T_OP m) a0 a1 = a /\ l0 = r) as [<- <-] by (split; congruence).
    exists m, (bs1 ++ T_OP m :: bs2). split; [| apply der_log; assumption].
    apply eats_app with l; [exact F1 |]. apply eats_cons with (rest l); [| exact F2].
    apply eats_peek; [exact Em | discriminate].
  - assert (a0 = a /\ l = r) as [<- <-] by (split; congruence).
    exists O_LOGAND, bs1. split; [exact F1 | apply der_log1, D1].
Qed.

Lemma cond_sound : forall k, sound G_COND (conditional_expr maxd p R k).
Proof.
  induction k as [| k IH]; intros u d ts a r H; cbn [conditional_expr] in H; [discriminate H |].
  bnd H. destruct (logical_sound _ _ _ _ _ _ E) as (m & bs1 & F1 & D1).
  destruct (is_op O_LOGTRI (peek l)) eqn:Q.
  - bnd1 H. bnd H. destruct (IH _ _ _ _ _ E1) as (bs2 & F2 & D2).
    bnd1 H. apply assume_ok in E2.
    bnd H. destruct (IH _ _ _ _ _ E3) as (bs3 & F3 & D3).
    rewrite (is_op_inv _ _ Q) in H.
    assert (Node (N_OP (T_OP O_LOGTRI)) [a0; a1; a2] = a /\ l1 = r) as [<- <-]
      by (split; congruence).
    eexists. split; [| apply der_cond with m; eassumption].
    apply eats_app with l; [exact F1 |].
    apply eats_cons with (rest l); [apply eats_op, Q |].
    apply eats_app with l0; [exact F2 |]. apply eats_cons with x0; assumption.
  - assert (a0 = a /\ l = r) as [<- <-] by (split; congruence).
    exists bs1. split; [exact F1 | apply der_cond1 with m, D1].
Qed.

Lemma stream_loop_sound : forall k bs0 u d a ts a' r, der p G_STREAM bs0 a ->
  stream_loop maxd p R k u d a ts = Ok (a', r) ->
  exists bs, eats bs ts r /\ der p G_STREAM (bs0 ++ bs) a'.
Proof.
  induction k as [| k IH]; intros bs0 u d a ts a' r D H; cbn [stream_loop] in H;
    [discriminate H |].
  destruct (is_op O_ARROW (peek ts)) eqn:Q.
  - bnd1 H. bnd H. destruct (cond_sound _ _ _ _ _ _ E0) as (bs1 & F1 & D1).
    bnd1 H. pose proof (call_der _ _ _ _ D1 E1) as C.
    destruct (IH _ _ _ _ _ _ _ (der_stream p _ _ _ _ _ D D1 C) H) as (bs2 & F2 & D2).
    exists (T_OP O_ARROW :: bs1 ++ bs2). split.
    + apply eats_cons with (rest ts); [apply eats_op, Q |]. apply eats_app with l; assumption.
    + rewrite <- app_assoc in D2. exact D2.
  - assert (a = a' /\ ts = r) as [<- <-] by (split; congruence).
    exists []. split; [apply eats_nil | rewrite app_nil_r; exact D].
Qed.

Lemma stream_sound : forall k, sound G_STREAM (stream_expr maxd p R k).
Proof.
  intros k u d ts a r H. unfold stream_expr in H. bnd1 H. bnd H.
  destruct (cond_sound _ _ _ _ _ _ E0) as (bs1 & F1 & D1).
  destruct (stream_loop_sound _ _ _ _ _ _ _ _ (der_stream1 p _ _ D1) H) as (bs2 & F2 & D2).
  exists (bs1 ++ bs2). split; [apply eats_app with l; assumption | exact D2].
Qed.

Lemma async_sound : forall k u d ts a r, async_expr maxd p R k u d ts = Ok (a, r) ->
  exists bs l, eats bs ts r /\ der p G_STREAM bs (Node N_INVOCATION l) /\
    a = Node N_ASYNC [Node N_INVOCATION l].
Proof.
  intros k u d ts a r H. unfold async_expr in H.
  assert (pbind (stream_expr maxd p R k u d ts) (fun '(a, ts1) =>
      match a with
      | Node N_INVOCATION _ => Ok (Node N_ASYNC [a], ts1)
      | _ => Err E_SYNTAX
      end) = Ok (a, r)) as H'.
  { destruct (peek ts) as [| | | | kw | | |]; try exact H.
    destruct kw; try exact H. discriminate H. }
  clear H. rename H' into H. bnd H.
  destruct (stream_sound _ _ _ _ _ _ E) as (bs & F & D).
  destruct a0 as [t kids]. destruct t; try discriminate H.
  assert (Node N_ASYNC [Node N_INVOCATION kids] = a /\ l = r) as [<- <-] by (split; congruence).
  exists bs, kids. auto.
Qed.

Lemma rhs_sound : forall k, sound G_RHS (rhs_expr maxd p R k).
Proof.
  intros k u d ts a r H. unfold rhs_expr in H.
  assert (stream_expr maxd p R k u d ts = Ok (a, r) ->
    exists bs, eats bs ts r /\ der p G_RHS bs a) as P.
  { intros H1. destruct (stream_sound _ _ _ _ _ _ H1) as (bs & F & D).
    exists bs. split; [exact F | apply der_rhs, D]. }
  destruct (peek ts) as [| | | | kw | | |] eqn:Q; try (apply P, H).
  destruct kw; try (apply P, H); clear P.
  - destruct (async_sound _ _ _ _ _ _ H) as (bs & l & F & D & ->).
    exists (T_KW K_ASYNC :: bs). split; [| apply der_async, D].
    apply eats_cons with (rest ts); [| exact F]. apply eats_peek; [exact Q | discriminate].
  - destruct (in_ctor p) eqn:C; [discriminate H |]. cbv zeta in H. bnd H.
    assert (Node N_YIELD [a0] = a /\ l = r) as [<- <-] by (split; congruence). clear H.
    assert (eats [T_KW K_YIELD] ts (rest ts)) as F0
      by (apply eats_peek; [exact Q | discriminate]).
    assert (stream_expr maxd p R k u d (rest ts) = Ok (a0, l) ->
      exists bs, eats bs ts l /\ der p G_RHS bs (Node N_YIELD [a0])) as P.
    { intros H1. destruct (stream_sound _ _ _ _ _ _ H1) as (bs & F & D).
      exists (T_KW K_YIELD :: bs). split; [| apply der_yield; assumption].
      apply eats_cons with (rest ts); assumption. }
    destruct (peek (rest ts)) as [| | | | kw | | |] eqn:Q1; try (apply P, E).
    destruct kw; try (apply P, E). clear P.
    destruct (async_sound _ _ _ _ _ _ E) as (bs & l' & F & D & ->).
    exists (T_KW K_YIELD :: T_KW K_ASYNC :: bs). split; [| apply der_yield_async; assumption].
    apply eats_cons with (rest ts); [exact F0 |].
    apply eats_cons with (rest (rest ts)); [| exact F].
    apply eats_peek; [exact Q1 | discriminate].
Qed.

End Levels.

Lemma right_hand_side_sound : forall k, sound G_RHS (right_hand_side_expr maxd p k).
Proof.
  induction k as [| k IH]; cbn [right_hand_side_expr].
  - intros u d ts a r H. discriminate H.
  - apply rhs_sound, IH.
Qed.

End Sound.
