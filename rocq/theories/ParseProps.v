(** C118-C121: the expression parser. *)
From Coq Require Import ZArith List Lia Bool ZifyBool.
Import ListNotations.
From Verif Require Import Base ListZ ParseSpec ParseModel ParseProofs ParseProofs2 ParseProofs3.
Local Open Scope Z_scope.
Ltac Zify.zify_post_hook ::= idtac.

(** Whatever the parser accepts is a phrase of the grammar, and the tree is the
    one the grammar gives to it. *)
Theorem parse_sound : forall maxd p d ts a r, parse_expr maxd p d ts = Ok (a, r) ->
  exists us, ts = us ++ r /\ der p G_RHS (map fst us) a.
Proof.
  intros maxd p d ts a r H. destruct (right_hand_side_sound maxd p _ _ _ _ _ _ H) as (bs & F & D).
  destruct F as (us & -> & <-). exists us. auto.
Qed.

(** The recursion always ends. *)
Theorem parse_terminates : forall maxd p d ts, parse_expr maxd p d ts <> Err E_FUEL.
Proof.
  intros maxd p d ts H. unfold parse_expr in H.
  pose proof (right_hand_side_good maxd p false false (S (length ts)) 0 d ts) as G.
  rewrite H in G. assert (good false false (@Err (ast * list token) E_FUEL)) as X; [| discriminate X].
  apply G; [lia |]. split; intros Z; discriminate Z.
Qed.

(** An expression of fewer than 50 tokens is never too deep. *)
Theorem parse_depth : forall maxd p d ts, d + 2 * Z.of_nat (length ts) + 1 <= maxd ->
  parse_expr maxd p d ts <> Err E_DEPTH.
Proof.
  intros maxd p d ts L H. unfold parse_expr in H.
  pose proof (right_hand_side_good maxd p true false (S (length ts)) 0 d ts) as G.
  rewrite H in G. assert (good true false (@Err (ast * list token) E_DEPTH)) as X; [| discriminate X].
  apply G; [lia |]. split; [intros _; exact L | intros Z; discriminate Z].
Qed.

(** Every phrase of the grammar which is followed by a token that can not
    continue it is accepted with its tree, unless it is too deep or a token of
    it begins a line. *)
Theorem parse_complete : forall maxd p d us a r,
  der p G_RHS (map fst us) a -> stops (peek r) = true ->
  parse_expr maxd p d (us ++ r) = Ok (a, r) \/
  parse_expr maxd p d (us ++ r) = Err E_DEPTH \/
  (parse_expr maxd p d (us ++ r) = Err E_EOL /\ existsb snd us = true).
Proof.
  intros maxd p d us a r D Hs. apply stops_lev in Hs.
  destruct (right_hand_side_complete maxd p (existsb snd us = true) (S (length (us ++ r)))
    (map fst us) a 0 d (us ++ r) r D) as [H | [H | [H | H]]]; try exact Hs; auto.
  - exists us. auto.
  - exfalso. apply (parse_terminates maxd p d (us ++ r)). exact H.
Qed.

Corollary parse_complete_one_line : forall maxd p d us a r,
  der p G_RHS (map fst us) a -> stops (peek r) = true -> existsb snd us = false ->
  d + 2 * Z.of_nat (length (us ++ r)) + 1 <= maxd ->
  parse_expr maxd p d (us ++ r) = Ok (a, r).
Proof.
  intros maxd p d us a r D Hs Hl Hd.
  destruct (parse_complete maxd p d us a r D Hs) as [H | [H | (H & L)]]; [exact H | |].
  - exfalso. exact (parse_depth _ _ _ _ Hd H).
  - rewrite L in Hl. discriminate Hl.
Qed.

(** The grammar, which includes the precedence rules, is unambiguous. *)
Theorem grammar_unambiguous : forall p bs a b,
  der p G_RHS bs a -> der p G_RHS bs b -> a = b.
Proof.
  intros p bs a b Da Db.
  set (us := map (fun t => (t, false)) bs).
  assert (map fst us = bs) as M.
  { unfold us. rewrite map_map. cbn [fst]. apply map_id. }
  assert (existsb snd us = false) as L.
  { unfold us. clear. induction bs as [| x bs IH]; [reflexivity |]. cbn [map existsb snd]. exact IH. }
  rewrite <- M in Da, Db.
  set (maxd := 0 + 2 * Z.of_nat (length (us ++ [])) + 1).
  pose proof (parse_complete_one_line maxd p 0 us a [] Da eq_refl L (Z.le_refl _)) as Ha.
  pose proof (parse_complete_one_line maxd p 0 us b [] Db eq_refl L (Z.le_refl _)) as Hb.
  congruence.
Qed.

Definition on (b : body) : token := (b, false).
Definition nl (b : body) : token := (b, true).
Definition top : place := {| in_member := false; in_ctor := false |}.
Definition num (n : Z) : ast := Node (N_NUM n) [].
Definition nm (x : Z) : ast := Node (N_ID x) [].

(* 1 + 2 * 3 * 4 - 5 - 6 / 2 ; *)
Example parse_arithmetic :
  parse_expr KOS_MAX_AST_DEPTH top 1
    (map on [T_NUM 1; T_OP O_ADD; T_NUM 2; T_OP O_MUL; T_NUM 3; T_OP O_MUL; T_NUM 4;
             T_OP O_SUB; T_NUM 5; T_OP O_SUB; T_NUM 6; T_OP O_DIV; T_NUM 2; T_SEP S_SEMICOLON])
  = Ok (op2 (T_OP O_SUB)
          (op2 (T_OP O_SUB)
             (op2 (T_OP O_ADD) (num 1)
                (op2 (T_OP O_MUL) (op2 (T_OP O_MUL) (num 2) (num 3)) (num 4)))
             (num 5))
          (op2 (T_OP O_DIV) (num 6) (num 2)),
        [on (T_SEP S_SEMICOLON)]).
Proof. reflexivity. Qed.

(* x.f(1, l...)[0] -> g && ! h : mixed levels; and operators which must not be mixed *)
Example parse_members :
  parse_expr KOS_MAX_AST_DEPTH top 1
    (map on [T_ID 1; T_OP O_DOT; T_ID 2; T_SEP S_PAREN_OPEN; T_NUM 1; T_SEP S_COMMA; T_ID 3;
             T_OP O_MORE; T_SEP S_PAREN_CLOSE; T_OP O_ARROW; T_ID 4; T_OP O_LOGAND;
             T_OP O_LOGNOT; T_ID 5])
  = Ok (Node N_INVOCATION
          [op2 (T_OP O_LOGAND) (nm 4) (Node (N_OP (T_OP O_LOGNOT)) [nm 5]);
           Node N_INVOCATION [Node N_REF [nm 1; Node (N_STR (T_ID 2)) []]; num 1;
                              Node N_EXPAND [nm 3]]], []).
Proof. reflexivity. Qed.

Example parse_mixed :
  parse_expr KOS_MAX_AST_DEPTH top 1
    (map on [T_ID 1; T_OP O_LOGAND; T_ID 2; T_OP O_LOGOR; T_ID 3]) = Err E_MIXED /\
  parse_expr KOS_MAX_AST_DEPTH top 1
    (map on [T_ID 1; T_OP O_ADD; T_ID 2; T_OP O_AND; T_ID 3]) = Err E_MIXED.
Proof. split; reflexivity. Qed.

(** A sum or a product of any length followed by [+] or [-] on the next line, and
    a chain of calls and member accesses followed by [(] or [\[] on the next line,
    are rejected, whatever comes after. *)
Theorem newline_rejected_partial : forall maxd p d us a b r,
  (der p G_ADD (map fst us) a /\ In b [T_OP O_ADD; T_OP O_SUB]) \/
  (der p G_MEMBER (map fst us) a /\ In b [T_SEP S_SQUARE_OPEN; T_SEP S_PAREN_OPEN]) ->
  parse_expr maxd p d (us ++ nl b :: r) = Err E_EOL \/
  parse_expr maxd p d (us ++ nl b :: r) = Err E_DEPTH.
Proof.
  intros maxd p d us a b r H.
  assert (compatr True (parse_expr maxd p d (us ++ nl b :: r)) (Err E_EOL)) as C.
  { assert (eatb True (map fst us) (us ++ nl b :: r) (nl b :: r)) as F by (exists us; auto).
    unfold parse_expr. cbn [right_hand_side_expr]. destruct H as [(D & Hb) | (D & Hb)].
    - apply (newline_add maxd p True _ (right_hand_side_complete maxd p True _) _ _ _ _ D F);
        [| reflexivity]. destruct Hb as [<- | [<- | []]]; auto.
    - apply (newline_member maxd p True _ (right_hand_side_complete maxd p True _) _ _ _ _ D F);
        [| reflexivity]. destruct Hb as [<- | [<- | []]]; auto. }
  destruct C as [C | [C | [C | (C & _)]]]; auto.
  exfalso. exact (parse_terminates _ _ _ _ C).
Qed.

(* a + b   /   - c   is rejected, on one line it is a difference *)
Example newline_minus :
  parse_expr KOS_MAX_AST_DEPTH top 1
    [on (T_ID 1); on (T_OP O_ADD); on (T_ID 2); nl (T_OP O_SUB); on (T_ID 3)] = Err E_EOL /\
  parse_expr KOS_MAX_AST_DEPTH top 1
    [on (T_ID 1); on (T_OP O_ADD); on (T_ID 2); on (T_OP O_SUB); on (T_ID 3)]
  = Ok (op2 (T_OP O_SUB) (op2 (T_OP O_ADD) (nm 1) (nm 2)) (nm 3), []).
Proof. split; reflexivity. Qed.

(** But inside of a prefix operator it is accepted: [-a] and, on the next line,
    [(b)] is the call [a(b)] with the sign changed, although the same tokens are
    also two expressions. *)
Theorem newline_ambiguous_refuted :
  exists us1 us2 a1 a2 t,
    der top G_RHS (map fst us1) a1 /\ der top G_RHS (map fst us2) a2 /\
    (exists b us, us2 = nl b :: us /\
       In b [T_OP O_ADD; T_OP O_SUB; T_SEP S_SQUARE_OPEN; T_SEP S_PAREN_OPEN]) /\
    parse_expr KOS_MAX_AST_DEPTH top 1 (us1 ++ us2) = Ok (t, []).
Proof.
  exists [on (T_OP O_SUB); on (T_ID 1)].
  exists [nl (T_SEP S_PAREN_OPEN); on (T_ID 2); on (T_SEP S_PAREN_CLOSE)].
  destruct (parse_sound KOS_MAX_AST_DEPTH top 1 [on (T_OP O_SUB); on (T_ID 1)]
    (Node (N_OP (T_OP O_SUB)) [nm 1]) [] eq_refl) as (u1 & E1 & D1).
  destruct (parse_sound KOS_MAX_AST_DEPTH top 1
    [nl (T_SEP S_PAREN_OPEN); on (T_ID 2); on (T_SEP S_PAREN_CLOSE)]
    (nm 2) [] eq_refl) as (u2 & E2 & D2).
  rewrite app_nil_r in E1, E2. subst u1 u2.
  eexists _, _, (Node (N_OP (T_OP O_SUB)) [Node N_INVOCATION [nm 1; nm 2]]).
  split; [exact D1 |]. split; [exact D2 |]. split; [| reflexivity].
  eexists _, _. split; [reflexivity |]. cbn [In]. auto.
Qed.

(** The limit of the depth does not limit the tree: [x.y.y.y ...] *)
Fixpoint dots (n : nat) : list token :=
  match n with O => [] | S m => on (T_OP O_DOT) :: on (T_ID 2) :: dots m end.
Fixpoint refs (n : nat) (a : ast) : ast :=
  match n with O => a | S m => refs m (Node N_REF [a; Node (N_STR (T_ID 2)) []]) end.

Lemma dots_parse : forall p R n k u d a, (n < k)%nat ->
  member_loop p R k u d a (dots n) = Ok (refs n a, []).
Proof.
  intros p R n. induction n as [| n IH]; intros k u d a H; (destruct k as [| k]; [lia |]).
  - reflexivity.
  - cbn [member_loop dots refs]. change (peek (on (T_OP O_DOT) :: on (T_ID 2) :: dots n)) with (T_OP O_DOT).
    change (is_op O_DOT (T_OP O_DOT)) with true. cbn [rest].
    change (refinement_identifier a (on (T_ID 2) :: dots n))
      with (Ok (Node N_REF [a; Node (N_STR (T_ID 2)) []], dots n)).
    cbn [pbind]. apply IH. lia.
Qed.

Lemma refs_depth : forall n a, depth (refs n a) >= depth a + Z.of_nat n.
Proof.
  induction n as [| n IH]; intros a; [cbn [refs]; lia |]. cbn [refs].
  specialize (IH (Node N_REF [a; Node (N_STR (T_ID 2)) []])).
  cbn [depth fold_right] in IH. lia.
Qed.

Lemma dots_length : forall n, (n <= length (dots n))%nat.
Proof. induction n; cbn [dots length]; lia. Qed.

Theorem ast_depth_refuted : forall n : Z, exists ts a,
  parse_expr KOS_MAX_AST_DEPTH top 1 ts = Ok (a, []) /\ depth a > n.
Proof.
  intros n. set (m := Z.to_nat n). exists (on (T_ID 1) :: dots m), (refs m (nm 1)). split.
  - unfold parse_expr. remember (length (on (T_ID 1) :: dots m)) as L.
    assert (m < L)%nat as HL by (subst L; cbn [length]; pose proof (dots_length m); lia).
    clear HeqL. cbn [right_hand_side_expr]. unfold rhs_expr.
    change (peek (on (T_ID 1) :: dots m)) with (T_ID 1). unfold stream_expr.
    change (increase_ast_depth KOS_MAX_AST_DEPTH 1) with (@Ok Z 2).
    cbn [pbind conditional_expr]. unfold logical_expr, comparison_expr, arithm_bitwise_expr.
    cbn [unary_expr]. change (peek (on (T_ID 1) :: dots m)) with (T_ID 1).
    unfold member_expr. set (Q := right_hand_side_expr KOS_MAX_AST_DEPTH top L).
    replace (primary_expr top Q (S L) 0 2 (on (T_ID 1) :: dots m)) with (@Ok (ast * list token) (nm 1, dots m))
      by (unfold primary_expr; cbn [peek on rest]; destruct m; reflexivity).
    change (has_bits OT_UNARY (T_ID 1) || false) with false. cbn iota. cbn [pbind].
    rewrite dots_parse by lia. reflexivity.
  - pose proof (refs_depth m (nm 1)) as H. change (depth (nm 1)) with 1 in H. lia.
Qed.

(** A question mark after the bracket of a slice is accepted and ignored. *)
Theorem slice_question_mark_refuted : exists ts,
  parse_expr KOS_MAX_AST_DEPTH top 1 ts =
  parse_expr KOS_MAX_AST_DEPTH top 1
    (map on [T_ID 1; T_SEP S_SQUARE_OPEN; T_NUM 2; T_SEP S_COLON; T_NUM 3; T_SEP S_SQUARE_CLOSE]) /\
  ts = map on [T_ID 1; T_SEP S_SQUARE_OPEN; T_OP O_LOGTRI; T_NUM 2; T_SEP S_COLON; T_NUM 3;
               T_SEP S_SQUARE_CLOSE] /\
  parse_expr KOS_MAX_AST_DEPTH top 1 ts = Ok (Node N_SLICE [nm 1; num 2; num 3], []).
Proof. eexists. split; [| split; [reflexivity | reflexivity]]. reflexivity. Qed.

Print Assumptions parse_sound.
Print Assumptions parse_terminates.
Print Assumptions parse_depth.
Print Assumptions parse_complete.
Print Assumptions parse_complete_one_line.
Print Assumptions grammar_unambiguous.
Print Assumptions newline_rejected_partial.
Print Assumptions newline_ambiguous_refuted.
Print Assumptions ast_depth_refuted.
Print Assumptions slice_question_mark_refuted.
