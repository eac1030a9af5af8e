(** The expression parser always terminates; it complains about the depth only
    when there are many tokens, and about line breaks only when there are some. *)
From Coq Require Import ZArith List Lia Bool ZifyBool.
Import ListNotations.
From Verif Require Import Base ListZ ParseSpec ParseModel ParseProofs.
Local Open Scope Z_scope.
Ltac Zify.zify_post_hook ::= idtac.

(* ---- first and second tokens of phrases ---- *)

Definition pstart (b : body) : bool :=
  match b with
  | T_NUM _ | T_STR _ | T_ID _
  | T_KW (K_THIS | K_SUPER | K_LINE | K_TRUE | K_FALSE | K_VOID | K_UNDERSCORE)
  | T_SEP (S_PAREN_OPEN | S_SQUARE_OPEN | S_CURLY_OPEN) => true
  | _ => false
  end.

Definition start (N : nonterm) (b : body) : bool :=
  match N with
  | G_PRIMARY | G_MEMBER => pstart b
  | G_RHS => pstart b || unary_tok b || match b with T_KW (K_ASYNC | K_YIELD) => true | _ => false end
  | _ => pstart b || unary_tok b
  end.

(** tokens which may follow a name at the beginning of a phrase *)
Definition second (b : body) : bool :=
  negb (is_op O_SET b || is_op O_MORE b || is_op O_LAMBDA b
        || is_sep S_COMMA b || is_sep S_PAREN_CLOSE b).

Definition begins (N : nonterm) (bs : list body) : Prop :=
  exists b r, bs = b :: r /\ start N b = true /\
    match b, r with T_ID _, c :: _ => second c = true | _, _ => True end.

Lemma begins_app : forall N N' bs c r, begins N bs -> second c = true ->
  (forall b, start N b = true -> start N' b = true) -> begins N' (bs ++ c :: r).
Proof.
  intros N N' bs c r (b & r0 & -> & Hs & H) Hc Hw.
  exists b, (r0 ++ c :: r). split; [reflexivity |]. split; [apply Hw, Hs |].
  destruct b; try exact Logic.I. destruct r0 as [| c0 r0]; cbn [app]; assumption.
Qed.

Lemma begins_weak : forall N N' bs, begins N bs ->
  (forall b, start N b = true -> start N' b = true) -> begins N' bs.
Proof.
  intros N N' bs (b & r0 & -> & Hs & H) Hw. exists b, r0.
  split; [reflexivity |]. split; [apply Hw, Hs | exact H].
Qed.

Lemma begins_one : forall N b r, start N b = true -> is_ident b = false -> begins N (b :: r).
Proof.
  intros N b r H Hi. exists b, r. split; [reflexivity |]. split; [exact H |].
  destruct b; try exact Logic.I. discriminate Hi.
Qed.

Lemma start_pu : forall b, pstart b = true -> pstart b || unary_tok b = true.
Proof. intros b H. rewrite H. reflexivity. Qed.

Lemma start_ur : forall b, pstart b || unary_tok b = true -> start G_RHS b = true.
Proof. intros b H. cbn [start]. rewrite H. reflexivity. Qed.

Lemma second_op : forall x, additive x || multiplicative x || bitwise x || shift x || logical x = true ->
  second (T_OP x) = true.
Proof. intros x H. destruct x; try discriminate H; reflexivity. Qed.

Lemma second_cmp : forall b, cmp_tok b = true -> second b = true.
Proof.
  intros b H. destruct b; try discriminate H.
  - destruct k; try discriminate H; reflexivity.
  - destruct o; try discriminate H; reflexivity.
Qed.

Lemma second_cmp_swap : forall b, cmp_swap_tok b = true -> second b = true.
Proof.
  intros b H. destruct b; try discriminate H.
  destruct k; try discriminate H; reflexivity.
Qed.

Lemma der_begins : forall p N bs a, der p N bs a -> begins N bs.
Proof.
  intros p N bs a H. induction H;
    try (apply begins_one; reflexivity);
    try (eapply begins_app; [eassumption | reflexivity | exact (fun _ h => h)]; fail);
    try (eapply begins_weak; [eassumption | exact (fun _ h => h)]; fail);
    try (eapply begins_weak; [eassumption | exact start_pu]; fail);
    try (eapply begins_weak; [eassumption | exact start_ur]; fail);
    try (eapply begins_app; [eassumption | apply second_op | exact (fun _ h => h)];
         match goal with M : _ ?x = true |- _ => destruct x; try discriminate M; reflexivity end).
  - exists (T_ID x), []. auto.
  - apply begins_one; [cbn [start]; rewrite H; apply orb_true_r |].
    destruct b; try reflexivity. discriminate H.
  - eapply begins_app; [eassumption | apply second_cmp; assumption | exact (fun _ h => h)].
  - eapply begins_app; [eassumption | apply second_cmp_swap; assumption | exact (fun _ h => h)].
Qed.

Lemma der_nonempty : forall p N bs a, der p N bs a -> bs <> [].
Proof.
  intros p N bs a H. destruct (der_begins _ _ _ _ H) as (b & r & -> & _). discriminate.
Qed.

Lemma eats_length : forall bs ts r, eats bs ts r -> length ts = (length bs + length r)%nat.
Proof.
  intros bs ts r (us & -> & <-). rewrite app_length, map_length. reflexivity.
Qed.

Lemma sound_shorter : forall p N q, sound p N q ->
  forall u d ts a r, q u d ts = Ok (a, r) -> (length r < length ts)%nat.
Proof.
  intros p N q Hq u d ts a r H. destruct (Hq _ _ _ _ _ H) as (bs & F & D).
  pose proof (eats_length _ _ _ F) as L. pose proof (der_nonempty _ _ _ _ D).
  destruct bs; [contradiction |]. cbn [length] in L. lia.
Qed.

(* ---- line break flags ---- *)

Definition one_line (ts : list token) : bool := forallb (fun t => negb (snd t)) ts.

Lemma one_line_rest : forall ts, one_line ts = true -> one_line (rest ts) = true.
Proof.
  intros [| (b, e) r] H; [exact H |]. cbn [one_line forallb] in H.
  apply andb_true_iff in H. apply H.
Qed.

Lemma one_line_peek : forall ts, one_line ts = true -> peek ts <> T_EOF -> peek_eol ts = false.
Proof.
  intros [| (b, e) r] H N; [contradiction |]. cbn [one_line forallb snd] in H.
  apply andb_true_iff in H. cbn [peek_eol]. destruct e; [destruct H as [H _]; discriminate H |].
  reflexivity.
Qed.

Lemma one_line_eats : forall bs ts r, eats bs ts r -> one_line ts = true -> one_line r = true.
Proof.
  intros bs ts r (us & -> & _) H. unfold one_line in *. rewrite forallb_app in H.
  apply andb_true_iff in H. apply H.
Qed.

(* ---- termination ---- *)

Section Total.

Variable maxd : Z.
Variable p : place.
(** which complaints are to be excluded: depth, line breaks *)
Variables cd ce : bool.

Definition bad (e : perr) : bool :=
  match e with E_FUEL => true | E_DEPTH => cd | E_EOL => ce | _ => false end.

Definition good {A : Type} (r : res A) : Prop :=
  match r with Ok _ => True | Err e => bad e = false end.

Lemma good_bind : forall (A B : Type) (r : res A) (f : A -> res B),
  good r -> (forall a, r = Ok a -> good (f a)) -> good (pbind r f).
Proof.
  intros A B [a | e] f H1 H2; cbn [pbind]; [apply H2; reflexivity | exact H1].
Qed.

Lemma good_bind2 : forall (A B C : Type) (r : res (A * B)) (f : A -> B -> res C),
  good r -> (forall a b, r = Ok (a, b) -> good (f a b)) ->
  good (pbind r (fun '(a, b) => f a b)).
Proof.
  intros A B C r f H1 H2. apply good_bind; [exact H1 |]. intros [a b] E. apply H2, E.
Qed.

Lemma good_assume : forall x ts, good (assume_separator x ts).
Proof. intros x ts. unfold assume_separator. destruct (is_sep x (peek ts)); exact Logic.I || reflexivity. Qed.

Lemma good_call : forall f, good (call_node p f).
Proof.
  intros [t kids]. unfold call_node. destruct t; try exact Logic.I.
  destruct (in_ctor p); [exact Logic.I | reflexivity].
Qed.

(** what the tokens must satisfy, at depth [d], with [c] in reserve *)
Definition fits (d c : Z) (ts : list token) : Prop :=
  (cd = true -> d + 2 * Z.of_nat (length ts) + c <= maxd) /\
  (ce = true -> one_line ts = true).

Lemma fits_eats : forall d c d' c' bs ts r, fits d c ts -> eats bs ts r ->
  d' + c' <= d + c + 2 * Z.of_nat (length bs) -> fits d' c' r.
Proof.
  intros d c d' c' bs ts r (H1 & H2) F L. pose proof (eats_length _ _ _ F). split.
  - intros C. specialize (H1 C). lia.
  - intros C. apply one_line_eats with bs ts; [exact F | apply H2, C].
Qed.

Lemma good_inc : forall d c ts, fits d c ts -> 1 <= c + 2 * Z.of_nat (length ts) ->
  good (increase_ast_depth maxd d).
Proof.
  intros d c ts (H & _) L. unfold increase_ast_depth.
  destruct (d + 1 >? maxd) eqn:Q; [| exact Logic.I]. cbn [good bad].
  destruct cd; [| reflexivity]. specialize (H eq_refl). lia.
Qed.

Lemma inc_val : forall d d', increase_ast_depth maxd d = Ok d' -> d' = d + 1.
Proof.
  intros d d' H. unfold increase_ast_depth in H.
  destruct (d + 1 >? maxd); [discriminate H | congruence].
Qed.

Lemma good_eol : forall (ts : list token) (c : bool), (ce = true -> one_line ts = true) ->
  peek ts <> T_EOF -> peek_eol ts && c = true -> @good (ast * list token) (Err E_EOL).
Proof.
  intros ts c H N Q. cbn [good bad]. destruct ce; [| reflexivity].
  rewrite (one_line_peek ts (H eq_refl) N) in Q. discriminate Q.
Qed.

Lemma peek_len : forall ts b, peek ts = b -> b <> T_EOF -> length ts = S (length (rest ts)).
Proof. intros [| t r] b H N; [cbn [peek] in H; congruence | reflexivity]. Qed.

Section Levels.

Variable R : parser.
Variable n : nat.
Hypothesis HR : sound p G_RHS R.
Hypothesis HF : forall u d ts, (length ts < n)%nat -> fits d 1 ts -> good (R u d ts).

Ltac eatlen F := let L := fresh "L" in pose proof (eats_length _ _ _ F) as L; cbn [length] in L.

Lemma array_loop_good : forall k u d acc ts, (length ts < k)%nat -> (length ts < n)%nat ->
  fits d 1 ts -> good (array_loop R k u d acc ts).
Proof.
  induction k as [| k IH]; intros u d acc ts Hk Hn Ht; [lia |]. cbn [array_loop].
  destruct (is_sep S_SQUARE_CLOSE (peek ts)); [exact Logic.I |].
  apply good_bind2; [apply HF; assumption |]. intros a ts1 E.
  destruct (HR _ _ _ _ _ E) as (bs & F & D). eatlen F.
  pose proof (der_nonempty _ _ _ _ D) as Ne.
  assert (1 <= length bs)%nat by (destruct bs; [contradiction | cbn [length]; lia]).
  destruct (expand a ts1) as (a1, ts2) eqn:X.
  destruct (expand_ok _ _ _ _ X) as (x & _ & F2 & _). eatlen F2.
  assert (fits d 1 ts2) as Ht2.
  { apply fits_eats with d 1 (bs ++ x) ts; [exact Ht | apply eats_app with ts1; assumption | lia]. }
  destruct (is_sep S_COMMA (peek ts2)) eqn:Q.
  - pose proof (eats_sep _ _ Q) as F3. eatlen F3.
    apply IH; [lia | lia |]. apply fits_eats with d 1 [T_SEP S_COMMA] ts2; [assumption | exact F3 | lia].
  - destruct (is_sep S_SQUARE_CLOSE (peek ts2)); cbn [negb]; [| reflexivity].
    apply IH; [lia | lia | exact Ht2].
Qed.

Lemma object_loop_good : forall k u d comma acc ts, (length ts < k)%nat -> (length ts < n)%nat ->
  fits d 1 ts -> good (object_loop R k u d comma acc ts).
Proof.
  induction k as [| k IH]; intros u d comma acc ts Hk Hn Ht; [lia |]. cbn [object_loop].
  destruct (is_sep S_COMMA (peek ts)) eqn:Q1.
  { destruct comma; [reflexivity |]. pose proof (eats_sep _ _ Q1) as F. eatlen F.
    apply IH; [lia | lia |]. apply fits_eats with d 1 [T_SEP S_COMMA] ts; [exact Ht | exact F | lia]. }
  destruct (is_sep S_CURLY_CLOSE (peek ts)); [exact Logic.I |].
  destruct comma; cbn [negb]; [| reflexivity].
  assert (peek ts <> T_EOF ->
    good (pbind (assume_separator S_COLON (rest ts)) (fun ts1 =>
            pbind (R u d ts1) (fun '(a, ts2) =>
            object_loop R k u d false
              (acc ++ [Node N_PROPERTY [Node (N_STR (peek ts)) []; a]]) ts2)))) as P.
  { intros Ne. pose proof (eats_peek _ _ eq_refl Ne) as F0. eatlen F0.
    apply good_bind; [apply good_assume |]. intros ts1 E1. apply assume_ok in E1. eatlen E1.
    assert (fits d 1 ts1) as Ht1.
    { apply fits_eats with d 1 [peek ts; T_SEP S_COLON] ts;
        [exact Ht | apply eats_cons with (rest ts); assumption | cbn [length]; lia]. }
    apply good_bind2; [apply HF; [lia | exact Ht1] |].
    intros a ts2 E. destruct (HR _ _ _ _ _ E) as (bs & F & D). eatlen F.
    apply IH; [lia | lia |]. apply fits_eats with d 1 bs ts1; [exact Ht1 | exact F | lia]. }
  destruct (peek ts); try reflexivity; apply P; discriminate.
Qed.

Lemma primary_good : forall k u d ts, (length ts < k)%nat -> (length ts <= n)%nat ->
  fits d 0 ts -> good (primary_expr p R k u d ts).
Proof.
  intros k u d ts Hk Hn Ht. unfold primary_expr. cbv zeta.
  assert (forall b, peek ts = b -> b <> T_EOF ->
    length ts = S (length (rest ts)) /\ fits d 1 (rest ts)) as P.
  { intros b Q N. split; [apply peek_len with b; assumption |].
    pose proof (eats_peek _ _ Q N) as F.
    apply fits_eats with d 0 [b] ts; [exact Ht | exact F | cbn [length]; lia]. }
  destruct (peek ts) as [m | m | | x | kw | op | sp |] eqn:Q; try reflexivity; try exact Logic.I.
  - destruct (is_op O_LAMBDA (peek (rest ts))); [reflexivity | exact Logic.I].
  - destruct kw; try reflexivity; try exact Logic.I.
    destruct (in_member p); [exact Logic.I | reflexivity].
  - destruct sp; try reflexivity.
    + destruct (P _ eq_refl ltac:(discriminate)) as (L & H1).
      destruct (is_lambda (rest ts)); [reflexivity |].
      apply good_bind2; [apply HF; [lia | exact H1] |]. intros a ts1 _.
      apply good_bind; [apply good_assume |]. intros; exact Logic.I.
    + destruct (P _ eq_refl ltac:(discriminate)) as (L & H1).
      apply array_loop_good; [lia | lia | exact H1].
    + destruct (P _ eq_refl ltac:(discriminate)) as (L & H1).
      apply object_loop_good; [lia | lia | exact H1].
Qed.

Lemma refinement_expr_good : forall u d a ts, (length ts < n)%nat -> fits d 1 ts ->
  good (refinement_expr R u d a ts).
Proof.
  intros u d a ts Hn Ht. unfold refinement_expr.
  assert (exists t ts1,
    (if is_op O_LOGTRI (peek ts) then (N_OPT_REF, rest ts) else (N_REF, ts)) = (t, ts1) /\
    (length ts1 < n)%nat /\ fits d 1 ts1) as (t & ts1 & -> & Hn1 & Ht1).
  { destruct (is_op O_LOGTRI (peek ts)) eqn:Q.
    - pose proof (eats_op _ _ Q) as F. eatlen F. exists N_OPT_REF, (rest ts).
      split; [reflexivity |]. split; [lia |].
      apply fits_eats with d 1 [T_OP O_LOGTRI] ts; [exact Ht | exact F | lia].
    - exists N_REF, ts. auto. }
  apply good_bind2.
  - destruct (is_sep S_SQUARE_CLOSE (peek ts1)); [reflexivity |].
    destruct (is_sep S_COLON (peek ts1)) eqn:Q.
    + pose proof (eats_sep _ _ Q) as F. eatlen F. cbv zeta.
      destruct (is_sep S_SQUARE_CLOSE (peek (rest ts1))); [exact Logic.I |].
      apply good_bind2; [| intros; exact Logic.I].
      apply HF; [lia |]. apply fits_eats with d 1 [T_SEP S_COLON] ts1; [exact Ht1 | exact F | lia].
    + apply good_bind2; [apply HF; assumption |]. intros i ts2 E.
      destruct (HR _ _ _ _ _ E) as (bs & F & D). eatlen F.
      destruct (is_sep S_COLON (peek ts2)) eqn:Q2; [| exact Logic.I].
      pose proof (eats_sep _ _ Q2) as F2. eatlen F2. cbv zeta.
      destruct (is_sep S_SQUARE_CLOSE (peek (rest ts2))); [exact Logic.I |].
      apply good_bind2; [| intros; exact Logic.I].
      apply HF; [lia |].
      apply fits_eats with d 1 (bs ++ [T_SEP S_COLON]) ts1;
        [exact Ht1 | apply eats_app with ts2; assumption | lia].
  - intros m ts2 _. apply good_bind; [apply good_assume |]. intros; exact Logic.I.
Qed.

Lemma args_loop_good : forall k named u d acc ts, (length ts < k)%nat -> (length ts < n)%nat ->
  fits d 1 ts -> good (args_loop R k named u d acc ts).
Proof.
  induction k as [| k IH]; intros named u d acc ts Hk Hn Ht; [lia |]. cbn [args_loop].
  assert (forall a ts1 bs, eats bs ts ts1 -> (1 <= length bs)%nat ->
    good (if is_op O_MORE (peek ts1) && named then Err E_SYNTAX
      else
        let '(a, ts2) := expand a ts1 in
        if is_sep S_PAREN_CLOSE (peek ts2) then Ok (acc ++ [a], rest ts2)
        else if negb (is_sep S_COMMA (peek ts2)) then Err E_SYNTAX
        else args_loop R k named u d (acc ++ [a]) (rest ts2))) as P.
  { intros a ts1 bs F Hb. eatlen F.
    destruct (is_op O_MORE (peek ts1) && named); [reflexivity |].
    destruct (expand a ts1) as (a1, ts2) eqn:X.
    destruct (expand_ok _ _ _ _ X) as (x & _ & F2 & _). eatlen F2.
    destruct (is_sep S_PAREN_CLOSE (peek ts2)); [exact Logic.I |].
    destruct (is_sep S_COMMA (peek ts2)) eqn:Q; cbn [negb]; [| reflexivity].
    pose proof (eats_sep _ _ Q) as F3. eatlen F3.
    apply IH; [lia | lia |].
    apply fits_eats with d 1 ((bs ++ x) ++ [T_SEP S_COMMA]) ts;
      [exact Ht | apply eats_app with ts2; [apply eats_app with ts1 |]; assumption | lia]. }
  destruct named.
  - apply good_bind2.
    + unfold named_argument. destruct (is_ident (peek ts)) eqn:Q1; cbn [negb]; [| reflexivity].
      destruct (is_op O_SET (peek (rest ts))) eqn:Q2; cbn [negb]; [| reflexivity].
      assert (eats [peek ts] ts (rest ts)) as F0.
      { apply eats_peek; [reflexivity |]. intros Z. rewrite Z in Q1. discriminate Q1. }
      pose proof (eats_op _ _ Q2) as F1. eatlen F0. eatlen F1.
      apply good_bind2; [| intros; exact Logic.I].
      apply HF; [lia |].
      apply fits_eats with d 1 [peek ts; T_OP O_SET] ts;
        [exact Ht | apply eats_cons with (rest ts); assumption | cbn [length]; lia].
    + intros a ts1 E. destruct (named_argument_sound p _ HR _ _ _ _ _ E) as (x & bs & b & F & D & _).
      apply (P a ts1 _ F). cbn [length]; lia.
  - apply good_bind2; [apply HF; assumption |]. intros a ts1 E.
    destruct (HR _ _ _ _ _ E) as (bs & F & D). pose proof (der_nonempty _ _ _ _ D) as Ne.
    apply (P a ts1 _ F). destruct bs; [contradiction | cbn [length]; lia].
Qed.

Lemma invocation_good : forall k u d a ts, (length ts < k)%nat -> (length ts < n)%nat ->
  fits d 1 ts -> good (invocation p R k u d a ts).
Proof.
  intros k u d a ts Hk Hn Ht. unfold invocation.
  apply good_bind; [apply good_call |]. intros f _.
  destruct (is_sep S_PAREN_CLOSE (peek ts)); [exact Logic.I |]. cbv zeta.
  apply good_bind2; [apply args_loop_good; assumption |]. intros; exact Logic.I.
Qed.

(** a member chain consumes tokens even when the head is not known to be a phrase *)
Lemma refinement_identifier_eats : forall a ts a' r, refinement_identifier a ts = Ok (a', r) ->
  (length r < length ts)%nat /\ (forall d c, fits d c ts -> fits d c r).
Proof.
  intros a ts a' r H. unfold refinement_identifier in H.
  assert (forall ts1 t, match peek ts1 with
    | T_ID _ | T_KW _ | T_STR _ => Ok (Node t [a; Node (N_STR (peek ts1)) []], rest ts1)
    | _ => Err E_SYNTAX end = Ok (a', r) -> eats [peek ts1] ts1 r) as P.
  { intros ts1 t Q. assert (rest ts1 = r /\ peek ts1 <> T_EOF) as (<- & Ne).
    { destruct (peek ts1); try discriminate Q; (split; [congruence | discriminate]). }
    apply eats_peek; [reflexivity | exact Ne]. }
  destruct (is_op O_LOGTRI (peek ts)) eqn:Q.
  - pose proof (eats_cons _ _ _ _ _ (eats_op _ _ Q) (P _ _ H)) as F. eatlen F.
    split; [lia |]. intros d c Hf. apply (fits_eats _ _ _ _ _ _ _ Hf F). cbn [length]; lia.
  - pose proof (P _ _ H) as F. eatlen F.
    split; [lia |]. intros d c Hf. apply (fits_eats _ _ _ _ _ _ _ Hf F). cbn [length]; lia.
Qed.

Lemma member_loop_good : forall k bs0 u d a ts, der p G_MEMBER bs0 a ->
  (length ts < k)%nat -> (length ts <= n)%nat ->
  fits d 0 ts -> good (member_loop p R k u d a ts).
Proof.
  induction k as [| k IH]; intros bs0 u d a ts D Hk Hn Ht; [lia |]. cbn [member_loop].
  destruct (is_op O_DOT (peek ts)) eqn:Q1.
  { pose proof (eats_op _ _ Q1) as F0. eatlen F0.
    apply good_bind2.
    - unfold refinement_identifier.
      destruct (is_op O_LOGTRI (peek (rest ts)));
        match goal with |- good (match ?b with _ => _ end) => destruct b end;
        (reflexivity || exact Logic.I).
    - intros a1 ts1 E. destruct (refinement_identifier_sound _ _ _ _ _ _ D E) as (bs1 & F1 & D1).
      eatlen F1. apply IH with (bs0 ++ T_OP O_DOT :: bs1); [exact D1 | lia | lia |].
      apply fits_eats with d 0 (T_OP O_DOT :: bs1) ts;
        [exact Ht | apply eats_cons with (rest ts); assumption | cbn [length]; lia]. }
  destruct (is_sep S_SQUARE_OPEN (peek ts)) eqn:Q2.
  { pose proof (eats_sep _ _ Q2) as F0. eatlen F0.
    destruct (peek_eol ts && (u =? 1)) eqn:Qe.
    { apply good_eol with ts (u =? 1); [apply Ht | | exact Qe].
      rewrite (is_sep_inv _ _ Q2). discriminate. }
    apply good_bind2.
    - apply refinement_expr_good; [lia |].
      apply fits_eats with d 0 [T_SEP S_SQUARE_OPEN] ts; [exact Ht | exact F0 | cbn [length]; lia].
    - intros a1 ts1 E.
      destruct (refinement_expr_sound _ _ HR _ _ _ _ _ _ _ D E) as (bs1 & F1 & D1).
      eatlen F1. apply IH with (bs0 ++ T_SEP S_SQUARE_OPEN :: bs1); [exact D1 | lia | lia |].
      apply fits_eats with d 0 (T_SEP S_SQUARE_OPEN :: bs1) ts;
        [exact Ht | apply eats_cons with (rest ts); assumption | cbn [length]; lia]. }
  destruct (is_sep S_PAREN_OPEN (peek ts)) eqn:Q3; [| exact Logic.I].
  pose proof (eats_sep _ _ Q3) as F0. eatlen F0.
  destruct (peek_eol ts && (u =? 1)) eqn:Qe.
  { apply good_eol with ts (u =? 1); [apply Ht | | exact Qe].
    rewrite (is_sep_inv _ _ Q3). discriminate. }
  apply good_bind2.
  - apply invocation_good; [lia | lia |].
    apply fits_eats with d 0 [T_SEP S_PAREN_OPEN] ts; [exact Ht | exact F0 | cbn [length]; lia].
  - intros a1 ts1 E.
    destruct (invocation_sound _ _ HR _ _ _ _ _ _ _ _ D E) as (bs1 & F1 & D1).
    eatlen F1. apply IH with (bs0 ++ T_SEP S_PAREN_OPEN :: bs1); [exact D1 | lia | lia |].
    apply fits_eats with d 0 (T_SEP S_PAREN_OPEN :: bs1) ts;
      [exact Ht | apply eats_cons with (rest ts); assumption | cbn [length]; lia].
Qed.

Lemma member_good : forall k u d ts, (length ts < k)%nat -> (length ts <= n)%nat ->
  fits d 0 ts -> good (member_expr p R k u d ts).
Proof.
  intros k u d ts Hk Hn Ht. unfold member_expr.
  apply good_bind2; [apply primary_good; assumption |]. intros a ts1 E.
  destruct (primary_sound _ _ HR _ _ _ _ _ _ E) as (bs & F & D). eatlen F.
  apply member_loop_good with bs; [apply der_primary, D | lia | lia |].
  apply fits_eats with d 0 bs ts; [exact Ht | exact F | lia].
Qed.

Lemma unary_good : forall k u d ts, (length ts < k)%nat -> (length ts <= n)%nat ->
  fits d 0 ts -> good (unary_expr maxd p R k u d ts).
Proof.
  induction k as [| k IH]; intros u d ts Hk Hn Ht; [lia |]. cbn [unary_expr].
  destruct (has_bits OT_UNARY (peek ts)
         || match peek ts with T_KW K_TYPEOF | T_KW K_DELETE => true | _ => false end) eqn:Q.
  - assert (peek ts <> T_EOF) as Ne by (intros Z; rewrite Z in Q; discriminate Q).
    pose proof (eats_peek _ _ eq_refl Ne) as F. eatlen F.
    apply good_bind; [apply good_inc with 0 ts; [exact Ht | lia] |]. intros d' Ed.
    apply inc_val in Ed. subst d'.
    apply good_bind2; [| intros; exact Logic.I].
    apply IH; [lia | lia |].
    apply fits_eats with d 0 [peek ts] ts; [exact Ht | exact F | cbn [length]; lia].
  - apply member_good; assumption.
Qed.

(** what a successful unary expression leaves *)
Lemma unary_left : forall k u d ts a r, unary_expr maxd p R k u d ts = Ok (a, r) ->
  exists bs, eats bs ts r /\ (1 <= length bs)%nat.
Proof.
  intros k u d ts a r E. destruct (unary_sound maxd p R HR _ _ _ _ _ _ E) as (bs & F & D).
  exists bs. split; [exact F |]. pose proof (der_nonempty _ _ _ _ D).
  destruct bs; [contradiction | cbn [length]; lia].
Qed.

Lemma masked_not_eof : forall m b, m <> 0 -> masked m b = true -> b <> T_EOF.
Proof.
  intros m b N H Z. subst b. unfold masked in H. cbn [t_op] in H.
  rewrite Z.land_0_l in H. apply Z.eqb_eq in H. congruence.
Qed.

Lemma mul_loop_good : forall k u d x last node ts,
  (length ts < k)%nat -> (length ts <= n)%nat -> masked OT_MULTIPLICATIVE (peek ts) = true ->
  fits d (-1) ts -> good (mul_loop maxd p R k u d x last node ts) /\
  (forall v, mul_loop maxd p R k u d x last node ts = Ok v ->
     exists bs, eats bs ts (snd v) /\ (2 <= length bs)%nat).
Proof.
  induction k as [| k IH]; intros u d x last node ts Hk Hn Q Ht; [lia |]. cbn [mul_loop].
  assert (peek ts <> T_EOF) as Ne by (apply masked_not_eof with OT_MULTIPLICATIVE; [discriminate | exact Q]).
  pose proof (eats_peek _ _ eq_refl Ne) as F0. eatlen F0.
  assert (fits d 1 (rest ts)) as Ht1.
  { apply fits_eats with d (-1) [peek ts] ts; [exact Ht | exact F0 | cbn [length]; lia]. }
  assert (forall ts1 bs x1 last1 node1, eats bs (rest ts) ts1 -> (1 <= length bs)%nat ->
    good (if masked OT_MULTIPLICATIVE (peek ts1) then mul_loop maxd p R k u (d + 1) x1 last1 node1 ts1
          else Ok (x1, last1, node1, ts1)) /\
    (forall v, (if masked OT_MULTIPLICATIVE (peek ts1) then mul_loop maxd p R k u (d + 1) x1 last1 node1 ts1
          else Ok (x1, last1, node1, ts1)) = Ok v ->
        exists bs, eats bs ts (snd v) /\ (2 <= length bs)%nat)) as P.
  { intros ts1 bs x1 last1 node1 F Hb. eatlen F.
    pose proof (eats_cons _ _ _ _ _ F0 F) as F1. eatlen F1.
    destruct (masked OT_MULTIPLICATIVE (peek ts1)) eqn:Q1.
    - destruct (IH u (d + 1) x1 last1 node1 ts1) as (G & V); [lia | lia | exact Q1 | |].
      { apply fits_eats with d (-1) (peek ts :: bs) ts; [exact Ht | exact F1 | cbn [length]; lia]. }
      split; [exact G |]. intros v Ev. destruct (V v Ev) as (bs2 & F2 & Hb2).
      exists ((peek ts :: bs) ++ bs2). split; [apply eats_app with ts1; assumption |].
      rewrite app_length. lia.
    - split; [exact Logic.I |]. intros v Ev. assert (v = (x1, last1, node1, ts1)) as -> by congruence.
      exists (peek ts :: bs). split; [exact F1 | cbn [length]; lia]. }
  split.
  - apply good_bind; [apply good_inc with (-1) ts; [exact Ht | lia] |]. intros d' Ed.
    apply inc_val in Ed. subst d'.
    apply good_bind2.
    + apply unary_good; [lia | lia |].
      destruct Ht1 as (A1 & A2). split; [intros C; specialize (A1 C); lia | exact A2].
    + intros a ts1 E. destruct (unary_left _ _ _ _ _ _ E) as (bs & F & Hb).
      destruct (masked OT_MULTIPLICATIVE last); apply (P ts1 bs _ _ _ F Hb).
  - intros v Ev. bnd1 Ev. apply inc_val in E. subst x0. bnd Ev.
    destruct (unary_left _ _ _ _ _ _ E) as (bs & F & Hb).
    destruct (masked OT_MULTIPLICATIVE last);
      exact (proj2 (P l bs _ _ _ F Hb) v Ev).
Qed.

Lemma arith_loop_good : forall k u d x last node ts,
  (length ts < k)%nat -> (length ts <= n)%nat ->
  fits d 1 ts -> good (arith_loop maxd p R k u d x last node ts).
Proof.
  induction k as [| k IH]; intros u d x last node ts Hk Hn Ht; [lia |]. cbn [arith_loop].
  apply good_bind; [apply good_inc with 1 ts; [exact Ht | lia] |]. intros d' Ed.
  apply inc_val in Ed. subst d'.
  destruct (is_op O_ADD (peek ts) || is_op O_SUB (peek ts)) eqn:Q1.
  { assert (peek ts <> T_EOF) as Ne by (intros Z; rewrite Z in Q1; discriminate Q1).
    pose proof (eats_peek _ _ eq_refl Ne) as F0. eatlen F0.
    destruct (peek_eol ts && (u =? 0)) eqn:Qe.
    { apply good_eol with ts (u =? 0); [apply Ht | exact Ne | exact Qe]. }
    apply good_bind2.
    - apply unary_good; [lia | lia |].
      apply fits_eats with d 1 [peek ts] ts; [exact Ht | exact F0 | cbn [length]; lia].
    - intros a ts1 E. destruct (unary_left _ _ _ _ _ _ E) as (bs & F & Hb). eatlen F.
      apply IH; [lia | lia |].
      apply fits_eats with d 1 (peek ts :: bs) ts;
        [exact Ht | apply eats_cons with (rest ts); assumption | cbn [length]; lia]. }
  destruct (masked OT_MULTIPLICATIVE (peek ts)) eqn:Q2.
  { destruct (mul_loop_good (S k) u (d + 1) x last node ts) as (G & V);
      [lia | lia | exact Q2 | |].
    { destruct Ht as (A1 & A2). split; [intros C; specialize (A1 C); lia | exact A2]. }
    apply good_bind; [exact G |]. intros [[[x1 last1] node1] ts1] E.
    destruct (V _ E) as (bs & F & Hb). cbn [snd] in F. eatlen F.
    apply IH; [lia | lia |]. apply fits_eats with d 1 bs ts; [exact Ht | exact F | lia]. }
  destruct (masked OT_BITWISE (peek ts)); [reflexivity | exact Logic.I].
Qed.

Lemma bit_loop_good : forall k u d m acc ts, t_op m <> 0 ->
  (length ts < k)%nat -> (length ts <= n)%nat -> peek ts <> T_EOF ->
  fits d 0 ts -> good (bit_loop maxd p R k u d m acc ts).
Proof.
  induction k as [| k IH]; intros u d m acc ts Hm Hk Hn Ne Ht; [lia |]. cbn [bit_loop].
  pose proof (eats_peek _ _ eq_refl Ne) as F0. eatlen F0.
  apply good_bind; [apply good_inc with 0 ts; [exact Ht | lia] |]. intros d' Ed.
  apply inc_val in Ed. subst d'.
  apply good_bind2.
  - apply unary_good; [lia | lia |].
    apply fits_eats with d 0 [peek ts] ts; [exact Ht | exact F0 | cbn [length]; lia].
  - intros a ts1 E. destruct (unary_left _ _ _ _ _ _ E) as (bs & F & Hb). eatlen F. cbv zeta.
    destruct (t_op (peek ts1) =? t_op m) eqn:Q.
    + apply IH; [exact Hm | lia | lia | |].
      * intros Z. rewrite Z in Q. apply Z.eqb_eq in Q. cbn [t_op] in Q. congruence.
      * apply fits_eats with d 0 (peek ts :: bs) ts;
          [exact Ht | apply eats_cons with (rest ts); assumption | cbn [length]; lia].
    + match goal with |- good (if ?c then _ else _) => destruct c end;
        [reflexivity | exact Logic.I].
Qed.

Lemma arith_good : forall k u d ts, (length ts < k)%nat -> (length ts <= n)%nat ->
  fits d 0 ts -> good (arithm_bitwise_expr maxd p R k u d ts).
Proof.
  intros k u d ts Hk Hn Ht. unfold arithm_bitwise_expr.
  apply good_bind2; [apply unary_good; assumption |]. intros a ts1 E.
  destruct (unary_left _ _ _ _ _ _ E) as (bs & F & Hb). eatlen F. cbv zeta.
  assert (fits d 0 ts1) as Ht1.
  { apply fits_eats with d 0 bs ts; [exact Ht | exact F | lia]. }
  assert (peek ts1 <> T_EOF -> fits d 0 (rest ts1) /\ (length (rest ts1) <= length ts1)%nat) as P.
  { intros Ne. pose proof (eats_peek _ _ eq_refl Ne) as F0. eatlen F0. split; [| lia].
    apply fits_eats with d 0 [peek ts1] ts1; [exact Ht1 | exact F0 | cbn [length]; lia]. }
  destruct (has_bits OT_ARITHMETIC (peek ts1)) eqn:Q1.
  { assert (peek ts1 <> T_EOF) as Ne by (intros Z; rewrite Z in Q1; discriminate Q1).
    destruct (P Ne) as (Ht2 & Hl).
    destruct ((is_op O_ADD (peek ts1) || is_op O_SUB (peek ts1)) && peek_eol ts1 && (u =? 0)) eqn:Qe.
    { apply good_eol with ts1 (u =? 0); [apply Ht1 | exact Ne |].
      rewrite !andb_true_iff in Qe. rewrite andb_true_iff. tauto. }
    apply good_bind2; [apply unary_good; [lia | lia | exact Ht2] |]. intros m ts2 E2.
    destruct (unary_left _ _ _ _ _ _ E2) as (bs2 & F2 & Hb2). eatlen F2.
    apply arith_loop_good; [lia | lia |].
    apply fits_eats with d 0 bs2 (rest ts1); [exact Ht2 | exact F2 | lia]. }
  destruct (masked OT_BITWISE (peek ts1)) eqn:Q2.
  { assert (peek ts1 <> T_EOF) as Ne by (apply masked_not_eof with OT_BITWISE; [discriminate | exact Q2]).
    apply bit_loop_good; [| lia | lia | exact Ne | exact Ht1].
    destruct (masked_bit _ Q2) as (m & -> & M). destruct m; try discriminate M; discriminate. }
  destruct (is_op O_SHL (peek ts1) || is_op O_SHR (peek ts1) || is_op O_SHRU (peek ts1)) eqn:Q3;
    [| exact Logic.I].
  assert (peek ts1 <> T_EOF) as Ne by (intros Z; rewrite Z in Q3; discriminate Q3).
  destruct (P Ne) as (Ht2 & Hl).
  apply good_bind2; [apply unary_good; [lia | lia | exact Ht2] |]. intros; exact Logic.I.
Qed.

Lemma left_of : forall N q u d ts a r, sound p N q -> q u d ts = Ok (a, r) ->
  exists bs, eats bs ts r /\ (1 <= length bs)%nat.
Proof.
  intros N q u d ts a r Hq E. destruct (Hq _ _ _ _ _ E) as (bs & F & D).
  exists bs. split; [exact F |]. pose proof (der_nonempty _ _ _ _ D).
  destruct bs; [contradiction | cbn [length]; lia].
Qed.

Lemma cmp_good : forall k u d ts, (length ts < k)%nat -> (length ts <= n)%nat ->
  fits d 0 ts -> good (comparison_expr maxd p R k u d ts).
Proof.
  intros k u d ts Hk Hn Ht. unfold comparison_expr.
  apply good_bind2; [apply arith_good; assumption |]. intros a ts1 E.
  destruct (left_of _ _ _ _ _ _ _ (arith_sound maxd p R HR k) E) as (bs & F & Hb). eatlen F.
  cbv zeta.
  match goal with |- good (if ?c then _ else _) => destruct c eqn:Q end; [| exact Logic.I].
  assert (peek ts1 <> T_EOF) as Ne by (intros Z; rewrite Z in Q; discriminate Q).
  pose proof (eats_peek _ _ eq_refl Ne) as F0. eatlen F0.
  apply good_bind2; [| intros; exact Logic.I].
  apply arith_good; [lia | lia |].
  apply fits_eats with d 0 (bs ++ [peek ts1]) ts; [exact Ht | apply eats_app with ts1; assumption | lia].
Qed.

Lemma logical_loop_good : forall k u d m ts, t_op m <> 0 ->
  (length ts < k)%nat -> (length ts <= n)%nat -> fits d 1 ts ->
  good (logical_loop maxd p R k u d m ts).
Proof.
  induction k as [| k IH]; intros u d m ts Hm Hk Hn Ht; [lia |]. cbn [logical_loop].
  apply good_bind; [apply good_inc with 1 ts; [exact Ht | lia] |]. intros d' Ed.
  apply inc_val in Ed. subst d'.
  apply good_bind2.
  - apply cmp_good; [lia | lia |].
    destruct Ht as (A1 & A2). split; [intros C; specialize (A1 C); lia | exact A2].
  - intros a ts1 E.
    destruct (left_of _ _ _ _ _ _ _ (cmp_sound maxd p R HR (S k)) E) as (bs & F & Hb). eatlen F.
    cbv zeta. destruct (t_op (peek ts1) =? t_op m) eqn:Q; [| exact Logic.I].
    assert (peek ts1 <> T_EOF) as Ne.
    { intros Z. rewrite Z in Q. apply Z.eqb_eq in Q. cbn [t_op] in Q. congruence. }
    pose proof (eats_peek _ _ eq_refl Ne) as F0. eatlen F0.
    apply good_bind2; [| intros; exact Logic.I].
    apply IH; [exact Hm | lia | lia |].
    apply fits_eats with d 1 (bs ++ [peek ts1]) ts; [exact Ht | apply eats_app with ts1; assumption |].
    rewrite app_length. cbn [length]. lia.
Qed.

Lemma logical_good : forall k u d ts, (length ts < k)%nat -> (length ts <= n)%nat ->
  fits d 0 ts -> good (logical_expr maxd p R k u d ts).
Proof.
  intros k u d ts Hk Hn Ht. unfold logical_expr.
  apply good_bind2; [apply cmp_good; assumption |]. intros a ts1 E.
  destruct (left_of _ _ _ _ _ _ _ (cmp_sound maxd p R HR k) E) as (bs & F & Hb). eatlen F.
  cbv zeta. destruct (is_op O_LOGAND (peek ts1) || is_op O_LOGOR (peek ts1)) eqn:Q; [| exact Logic.I].
  assert (peek ts1 <> T_EOF) as Ne by (intros Z; rewrite Z in Q; discriminate Q).
  pose proof (eats_peek _ _ eq_refl Ne) as F0. eatlen F0.
  apply good_bind2.
  - apply logical_loop_good; [| lia | lia |].
    + apply orb_true_iff in Q. destruct Q as [Q | Q]; apply is_op_inv in Q; rewrite Q; discriminate.
    + apply fits_eats with d 0 (bs ++ [peek ts1]) ts; [exact Ht | apply eats_app with ts1; assumption |].
      rewrite app_length. cbn [length]. lia.
  - intros c ts2 _. destruct (is_op O_LOGAND (peek ts2) || is_op O_LOGOR (peek ts2));
      [reflexivity | exact Logic.I].
Qed.

Lemma cond_good : forall k u d ts, (length ts < k)%nat -> (length ts <= n)%nat ->
  fits d 0 ts -> good (conditional_expr maxd p R k u d ts).
Proof.
  induction k as [| k IH]; intros u d ts Hk Hn Ht; [lia |]. cbn [conditional_expr].
  apply good_bind2; [apply logical_good; assumption |]. intros a ts1 E.
  destruct (logical_sound maxd p R HR _ _ _ _ _ _ E) as (m & bs & F & D). eatlen F.
  pose proof (der_nonempty _ _ _ _ D) as Nb.
  assert (1 <= length bs)%nat as Hb by (destruct bs; [contradiction | cbn [length]; lia]).
  destruct (is_op O_LOGTRI (peek ts1)) eqn:Q; [| exact Logic.I].
  pose proof (eats_op _ _ Q) as F0. eatlen F0.
  pose proof (eats_app _ _ _ _ _ F F0) as F1.
  apply good_bind; [apply good_inc with 0 ts; [exact Ht | lia] |]. intros d' Ed.
  apply inc_val in Ed. subst d'.
  apply good_bind2.
  - apply IH; [lia | lia |].
    apply (fits_eats _ _ _ _ _ _ _ Ht F1). rewrite app_length. cbn [length]. lia.
  - intros b ts2 E2.
    destruct (left_of _ _ _ _ _ _ _ (cond_sound maxd p R HR k) E2) as (bs2 & F2 & Hb2). eatlen F2.
    apply good_bind; [apply good_assume |]. intros ts3 E3. apply assume_ok in E3. eatlen E3.
    pose proof (eats_app _ _ _ _ _ F1 (eats_app _ _ _ _ _ F2 E3)) as F4.
    apply good_bind2; [| intros; exact Logic.I].
    apply IH; [lia | lia |].
    apply (fits_eats _ _ _ _ _ _ _ Ht F4). rewrite !app_length. cbn [length]. lia.
Qed.

Lemma stream_loop_good : forall k u d a ts, (length ts < k)%nat -> (length ts <= n)%nat ->
  fits d 0 ts -> good (stream_loop maxd p R k u d a ts).
Proof.
  induction k as [| k IH]; intros u d a ts Hk Hn Ht; [lia |]. cbn [stream_loop].
  destruct (is_op O_ARROW (peek ts)) eqn:Q; [| exact Logic.I].
  pose proof (eats_op _ _ Q) as F0. eatlen F0.
  apply good_bind; [apply good_inc with 0 ts; [exact Ht | lia] |]. intros d' Ed.
  apply inc_val in Ed. subst d'.
  apply good_bind2.
  - apply cond_good; [lia | lia |].
    apply (fits_eats _ _ _ _ _ _ _ Ht F0). cbn [length]. lia.
  - intros g ts1 E.
    destruct (left_of _ _ _ _ _ _ _ (cond_sound maxd p R HR (S k)) E) as (bs & F & Hb). eatlen F.
    apply good_bind; [apply good_call |]. intros f _.
    apply IH; [lia | lia |].
    apply (fits_eats _ _ _ _ _ _ _ Ht (eats_app _ _ _ _ _ F0 F)).
    rewrite app_length. cbn [length]. lia.
Qed.

Lemma stream_good : forall k u d ts, (length ts < k)%nat -> (length ts <= n)%nat ->
  fits d 1 ts -> good (stream_expr maxd p R k u d ts).
Proof.
  intros k u d ts Hk Hn Ht. unfold stream_expr.
  apply good_bind; [apply good_inc with 1 ts; [exact Ht | lia] |]. intros d' Ed.
  apply inc_val in Ed. subst d'.
  assert (fits (d + 1) 0 ts) as Ht1.
  { destruct Ht as (A1 & A2). split; [intros C; specialize (A1 C); lia | exact A2]. }
  apply good_bind2; [apply cond_good; assumption |]. intros a ts1 E.
  destruct (left_of _ _ _ _ _ _ _ (cond_sound maxd p R HR k) E) as (bs & F & Hb). eatlen F.
  apply stream_loop_good; [lia | lia |]. apply (fits_eats _ _ _ _ _ _ _ Ht1 F). lia.
Qed.

Lemma async_good : forall k u d ts, (length ts < k)%nat -> (length ts <= n)%nat ->
  fits d 1 ts -> good (async_expr maxd p R k u d ts).
Proof.
  intros k u d ts Hk Hn Ht. unfold async_expr.
  assert (good (pbind (stream_expr maxd p R k u d ts) (fun '(a, ts1) =>
      match a with
      | Node N_INVOCATION _ => Ok (Node N_ASYNC [a], ts1)
      | _ => Err E_SYNTAX
      end))) as P.
  { apply good_bind2; [apply stream_good; assumption |]. intros [t kids] ts1 _.
    destruct t; try reflexivity; exact Logic.I. }
  destruct (peek ts) as [| | | | kw | | |]; try exact P.
  destruct kw; try exact P. reflexivity.
Qed.

Lemma rhs_good : forall k u d ts, (length ts < k)%nat -> (length ts <= n)%nat ->
  fits d 1 ts -> good (rhs_expr maxd p R k u d ts).
Proof.
  intros k u d ts Hk Hn Ht. unfold rhs_expr.
  pose proof (stream_good k u d ts Hk Hn Ht) as P.
  destruct (peek ts) as [| | | | kw | | |] eqn:Q; try exact P.
  destruct kw; try exact P; clear P.
  - assert (peek ts <> T_EOF) as Ne by (rewrite Q; discriminate).
    pose proof (eats_peek _ _ eq_refl Ne) as F0. eatlen F0.
    apply async_good; [lia | lia |]. apply (fits_eats _ _ _ _ _ _ _ Ht F0). cbn [length]; lia.
  - destruct (in_ctor p); [reflexivity |]. cbv zeta.
    assert (peek ts <> T_EOF) as Ne by (rewrite Q; discriminate).
    pose proof (eats_peek _ _ eq_refl Ne) as F0. eatlen F0.
    assert (fits d 1 (rest ts)) as Ht1.
    { apply (fits_eats _ _ _ _ _ _ _ Ht F0). cbn [length]; lia. }
    apply good_bind2; [| intros; exact Logic.I].
    assert (good (stream_expr maxd p R k u d (rest ts))) as P
      by (apply stream_good; [lia | lia | exact Ht1]).
    destruct (peek (rest ts)) as [| | | | kw | | |] eqn:Q1; try exact P.
    destruct kw; try exact P. clear P.
    assert (peek (rest ts) <> T_EOF) as Ne1 by (rewrite Q1; discriminate).
    pose proof (eats_peek _ _ eq_refl Ne1) as F1. eatlen F1.
    apply async_good; [lia | lia |]. apply (fits_eats _ _ _ _ _ _ _ Ht1 F1). cbn [length]; lia.
Qed.

End Levels.

Lemma right_hand_side_good : forall k u d ts, (length ts < k)%nat -> fits d 1 ts ->
  good (right_hand_side_expr maxd p k u d ts).
Proof.
  induction k as [| k IH]; intros u d ts Hk Ht; [lia |]. cbn [right_hand_side_expr].
  apply rhs_good with k; [apply right_hand_side_sound | exact IH | lia | lia | exact Ht].
Qed.

End Total.
