From Coq Require Import ZArith List Lia Bool ZifyBool.
From Coq Require Import Floats.SpecFloat.
Import ListNotations.
From Verif Require Import Base ListZ Utf8Spec Utf8Main ParseIntModel FoldModel FoldModel2 FoldSpec FoldProofs FoldProofs2.
Local Open Scope Z_scope.
Ltac Zify.zify_post_hook ::= idtac.

(* What is known of a folded operand *)
Definition head (w : world) (tested : bool) (e : expr) : Prop :=
  match e with
  | ENum tok => good_num tok
  | EStr t tok => good_str t tok
  | EAgg t k => tested = true -> exists v, w_agg w t k = ([], Ok v)
  | _ => True
  end.

Definition str_of (w : world) (t : stype) (tok : list Z) : list Z :=
  let (esc, body) := token_str t tok in w_str w esc body.

Lemma head_false : forall w t e, head w t e -> head w false e.
Proof. intros w t [] H; cbn in *; auto. discriminate. Qed.

Lemma lit_numeric : forall w t e ca x, world_ok w -> head w t e ->
  get_const (w_const w) e = Some ca -> numeric ca = Some x -> eval w e = ([], Ok (VNum x)).
Proof.
  intros w t e ca x (_ & _ & Wc) H C N.
  destruct e; cbn [get_const] in C;
    try (injection C as C; subst ca; cbn [numeric] in N; try discriminate N; cbn [eval]; rewrite ?N;
         congruence).
  specialize (Wc _ _ C). cbn [eval]. destruct ca; cbn [numeric] in N; try discriminate N; cbn [init_ok] in Wc.
  - destruct Wc as [_ Wc]. now rewrite (Wc _ N).
  - rewrite Wc. congruence.
Qed.

Lemma lit_str : forall w t e ty tok, world_ok w -> head w t e ->
  get_const (w_const w) e = Some (EStr ty tok) ->
  good_str ty tok /\ eval w e = ([], Ok (VStr (str_of w ty tok))).
Proof.
  intros w t e ty tok (_ & _ & Wc) H C.
  destruct e; cbn [get_const] in C; try discriminate C.
  - assert (ty = t0 /\ tok = tok0) as [-> ->] by (split; congruence). split; [exact H | reflexivity].
  - specialize (Wc _ _ C). cbn [init_ok] in Wc. destruct Wc as [G E]. split; [exact G |].
    cbn [eval]. rewrite E. reflexivity.
Qed.

Lemma nonzero_num : forall tok b, good_num tok -> get_nonzero (ENum tok) = Some b ->
  exists v, parse_numeric tok = Some v /\ num_nonzero v = b.
Proof.
  intros tok b (F & v & P & Nz) H. exists v. split; [exact P |].
  unfold get_nonzero in H.
  destruct ((49 <=? first tok) && (first tok <=? 57)) eqn:T.
  - assert (b = true) as -> by congruence. assert (X : 49 <= first tok) by lia. specialize (Nz X).
    destruct v; cbn [num_nonzero]; [lia | now rewrite Nz].
  - destruct ((first tok =? 48) && (len tok =? 1)) eqn:T2.
    + assert (b = false) as -> by congruence.
      assert (tok = [48]).
      { destruct tok as [| c [| c2 tok]]; cbn [first] in *.
        - exfalso. lia.
        - f_equal. lia.
        - exfalso. rewrite !len_cons in T2. pose proof (len_nonneg _ tok). lia. }
      subst tok. assert (v = NI 0) as ->.
      { assert (X : parse_numeric [48] = Some (NI 0)) by reflexivity. congruence. }
      reflexivity.
    + rewrite P in H. congruence.
Qed.

Lemma one_digit : forall tok, good_num tok -> len tok =? 1 = true -> first tok =? 48 = false ->
  exists v, parse_numeric tok = Some v /\ num_nonzero v = true.
Proof.
  intros tok (F & v & P & Nz) L N. exists v. split; [exact P |].
  assert (X : 49 <= first tok) by lia. specialize (Nz X).
  destruct v; cbn [num_nonzero]; [lia | now rewrite Nz].
Qed.

Lemma zero_digit : forall tok, good_num tok -> len tok =? 1 = true -> first tok =? 48 = true ->
  exists v, parse_numeric tok = Some v /\ num_nonzero v = false.
Proof.
  intros tok G L N. apply nonzero_num; [exact G |]. unfold get_nonzero.
  replace ((49 <=? first tok) && (first tok <=? 57)) with false by lia. now rewrite N, L.
Qed.

Lemma truthy_num : forall v, is_truthy (VNum v) = num_nonzero v.
Proof. destruct v; reflexivity. Qed.

Definition lit_truth (n : expr) : bool := match n with ENum _ => true | EBin _ => true | _ => false end.

Lemma truthy_lit : forall n cenv, head (World cenv (fun _ => VVoid) (fun _ => ([], Ub)) (fun _ _ => ([], Ub)) (fun _ b => b)) false n ->
  lit_truth n = true ->
  (node_is_truthy cenv n = true -> exists v, numeric n = Some v /\ num_nonzero v = true) /\
  (node_is_falsy cenv n = true -> exists v, numeric n = Some v /\ num_nonzero v = false).
Proof.
  intros n cenv H L. destruct n; try discriminate L; cbn [head] in H.
  - split; intros T.
    + unfold node_is_truthy in T. cbn [get_const] in T.
      destruct ((len tok =? 1) && negb (first tok =? 48)) eqn:E.
      * apply andb_prop in E. destruct E as [E1 E2]. apply negb_true_iff in E2.
        apply one_digit; assumption.
      * destruct (get_nonzero (ENum tok)) as [b |] eqn:G; [| discriminate T]. subst b.
        apply nonzero_num; assumption.
    + unfold node_is_falsy in T. cbn [get_const] in T.
      destruct ((len tok =? 1) && (first tok =? 48)) eqn:E.
      * apply andb_prop in E. destruct E as [E1 E2]. apply zero_digit; assumption.
      * destruct (get_nonzero (ENum tok)) as [b |] eqn:G; [| discriminate T].
        apply negb_true_iff in T. subst b. apply nonzero_num; assumption.
  - cbn [numeric]. split; intros T.
    + exists v. split; [reflexivity |]. exact T.
    + exists v. split; [reflexivity |]. unfold node_is_falsy in T. cbn [get_const get_nonzero] in T.
      now apply negb_true_iff in T.
Qed.

Lemma truthy_eval : forall w e, world_ok w -> head w false e -> node_is_truthy (w_const w) e = true ->
  (forall v, snd (eval w e) = Ok v -> is_truthy v = true) /\
  (head w true e -> exists v, eval w e = ([], Ok v)).
Proof.
  intros w e W H T. pose proof W as (Ws & Wa & Wc).
  destruct e; try discriminate T.
  - unfold node_is_truthy in T. cbn [get_const] in T. subst b. cbn [eval snd]. split; intros; [| eauto].
    assert (v = VBool true) as -> by congruence. reflexivity.
  - destruct (proj1 (truthy_lit (ENum tok) (w_const w) H eq_refl) T) as (v & P & Nz). cbn [numeric] in P.
    cbn [eval snd]. rewrite P. split; [| eauto]. intros u E. assert (u = VNum v) as -> by congruence.
    now rewrite truthy_num.
  - destruct (proj1 (truthy_lit (EBin v) (w_const w) H eq_refl) T) as (x & P & Nz). cbn [numeric] in P.
    assert (x = v) as -> by congruence. cbn [eval snd]. split; [| eauto].
    intros u E. assert (u = VNum v) as -> by congruence. now rewrite truthy_num.
  - cbn [eval snd]. split; [| eauto]. intros u E.
    match type of E with Ok ?x = _ => assert (u = x) as -> by congruence end. reflexivity.
  - cbn [eval]. split.
    + intros v E. destruct (w_agg w t k) as [tr r] eqn:A. cbn [snd] in E. subst r.
      specialize (Wa _ _ _ _ A). destruct t; cbn in Wa; destruct Wa as [y ->]; reflexivity.
    + intros Ht. apply Ht. reflexivity.
  - cbn [eval snd]. split; [| eauto]. intros v E. assert (v = w_var w x) as -> by congruence. clear E.
    unfold node_is_truthy in T. cbn [get_const] in T. destruct (w_const w x) as [n |] eqn:C; [| discriminate T].
    specialize (Wc _ _ C). destruct n; try discriminate T; cbn [init_ok] in Wc.
    + subst b. rewrite Wc. reflexivity.
    + destruct Wc as [G Wc].
      assert (T' : node_is_truthy (w_const w) (ENum tok) = true) by exact T.
      destruct (proj1 (truthy_lit (ENum tok) (w_const w) G eq_refl) T') as (v & P & Nz).
      rewrite (Wc _ P). now rewrite truthy_num.
    + assert (T' : node_is_truthy (w_const w) (EBin v) = true) by exact T.
      destruct (proj1 (truthy_lit (EBin v) (w_const w) I eq_refl) T') as (y & P & Nz). cbn [numeric] in P.
      assert (y = v) as -> by congruence. rewrite Wc. now rewrite truthy_num.
    + destruct Wc as [_ ->]. reflexivity.
    + destruct t; cbn in Wc; destruct Wc as [y ->]; reflexivity.
Qed.

Lemma falsy_eval : forall w e, world_ok w -> head w false e -> node_is_falsy (w_const w) e = true ->
  exists v, eval w e = ([], Ok v) /\ is_truthy v = false.
Proof.
  intros w e W H T. pose proof W as (Ws & Wa & Wc).
  destruct e; try discriminate T; cbn [eval].
  - eexists; split; reflexivity.
  - unfold node_is_falsy in T. cbn [get_const] in T. destruct b; [discriminate T |].
    eexists; split; reflexivity.
  - destruct (proj2 (truthy_lit (ENum tok) (w_const w) H eq_refl) T) as (v & P & Nz). cbn [numeric] in P.
    rewrite P. eexists; split; [reflexivity |]. now rewrite truthy_num.
  - destruct (proj2 (truthy_lit (EBin v) (w_const w) H eq_refl) T) as (x & P & Nz). cbn [numeric] in P.
    assert (x = v) as -> by congruence. eexists; split; [reflexivity |]. now rewrite truthy_num.
  - eexists; split; [reflexivity |].
    unfold node_is_falsy in T. cbn [get_const] in T. destruct (w_const w x) as [n |] eqn:C; [| discriminate T].
    specialize (Wc _ _ C). destruct n; try discriminate T; cbn [init_ok] in Wc.
    + now rewrite Wc.
    + destruct b; [discriminate T |]. now rewrite Wc.
    + destruct Wc as [G Wc].
      assert (T' : node_is_falsy (w_const w) (ENum tok) = true) by exact T.
      destruct (proj2 (truthy_lit (ENum tok) (w_const w) G eq_refl) T') as (v & P & Nz).
      rewrite (Wc _ P). now rewrite truthy_num.
    + assert (T' : node_is_falsy (w_const w) (EBin v) = true) by exact T.
      destruct (proj2 (truthy_lit (EBin v) (w_const w) I eq_refl) T') as (y & P & Nz). cbn [numeric] in P.
      assert (y = v) as -> by congruence. rewrite Wc. now rewrite truthy_num.
Qed.

(* ---- names of types ---- *)

Lemma ascii_text : forall l, Forall (fun c => 0 <= c < 92) l \/ Forall (fun c => 92 < c < 128) l -> text true l l.
Proof.
  intros l [H | H]; induction H; try constructor;
    (change (x :: l) with ([x] ++ l); apply T_char; [constructor; lia | intros _; lia | assumption]).
Qed.

Lemma typeof_value : forall ca tok v, collapse_typeof ca = Some tok ->
  (forall x, numeric ca = Some x -> v = VNum x) ->
  (lit_truth ca = true -> numeric ca <> None) ->
  match ca with
  | EVoid => v = VVoid
  | EBool b => v = VBool b
  | EStr _ _ => exists cs, v = VStr cs
  | EAgg t _ => agg_value t v
  | _ => True
  end -> tok = 34 :: type_name v ++ [34] /\ text true (type_name v) (type_name v).
Proof.
  intros ca tok v H Hn Hl Hv.
  assert (X : tok = 34 :: type_name v ++ [34] /\ Forall (fun c => 92 < c < 128) (type_name v)).
  { assert (F : forall l, forallb (fun c => (92 <? c) && (c <? 128)) l = true -> Forall (fun c => 92 < c < 128) l).
    { intros l L. apply Forall_forall. intros c Hc. rewrite forallb_forall in L. specialize (L c Hc). lia. }
    destruct ca; try discriminate H; cbn [collapse_typeof] in H.
    - subst v. split; [injection H as <-; reflexivity | apply F; reflexivity].
    - subst v. split; [injection H as <-; reflexivity | apply F; reflexivity].
    - destruct (numeric (ENum tok0)) as [x |] eqn:N; [| exfalso; exact (Hl eq_refl eq_refl)].
      rewrite (Hn x eq_refl). cbn [numeric] in N. unfold parse_numeric in N.
      destruct (is_integer tok0).
      + destruct (parse_int tok0); try discriminate N. assert (x = NI v0) as -> by congruence.
        split; [injection H as <-; reflexivity | apply F; reflexivity].
      + destruct (DblModel.parse_double tok0); try discriminate N.
        match type of N with Some ?q = _ => assert (x = q) as -> by congruence end.
        split; [injection H as <-; reflexivity | apply F; reflexivity].
    - rewrite (Hn v0 eq_refl). destruct v0; (split; [injection H as <-; reflexivity | apply F; reflexivity]).
    - destruct Hv as [cs ->]. split; [injection H as <-; reflexivity | apply F; reflexivity].
    - destruct t; try discriminate H. destruct Hv as [cs ->]. split; [injection H as <-; reflexivity | apply F; reflexivity]. }
  destruct X as [X1 X2]. split; [exact X1 |]. apply ascii_text. right. exact X2.
Qed.

Lemma typeof_eval : forall w e ca tok, world_ok w -> head w true e ->
  get_const (w_const w) e = Some ca -> collapse_typeof ca = Some tok ->
  exists v, eval w e = ([], Ok v) /\ tok = 34 :: type_name v ++ [34] /\
    text true (type_name v) (type_name v).
Proof.
  intros w e ca tok W H C T. pose proof W as (Ws & Wa & Wc).
  assert (Hn : forall x, numeric ca = Some x -> eval w e = ([], Ok (VNum x))).
  { intros x N. eapply lit_numeric; eassumption. }
  assert (Hl : lit_truth ca = true -> numeric ca <> None).
  { intros L. destruct ca; try discriminate L; [| discriminate]. cbn [numeric].
    assert (G : good_num tok0).
    { destruct e; cbn [get_const] in C; try discriminate C.
      - assert (tok0 = tok1) as -> by congruence. exact H.
      - specialize (Wc _ _ C). exact (proj1 Wc). }
    destruct G as (_ & v & P & _). rewrite P. discriminate. }
  assert (Hv : exists v, eval w e = ([], Ok v) /\
    match ca with
    | EVoid => v = VVoid | EBool b => v = VBool b | EStr _ _ => exists cs, v = VStr cs
    | EAgg t _ => agg_value t v | _ => True end).
  { destruct e; cbn [get_const] in C; try discriminate C; cbn [eval];
      try (injection C as C; subst ca; try discriminate T).
    - eexists; split; reflexivity.
    - eexists; split; reflexivity.
    - destruct H as (_ & v & P & _). rewrite P. eexists; split; [reflexivity | exact I].
    - eexists; split; [reflexivity | exact I].
    - eexists; split; [reflexivity |]. eexists. reflexivity.
    - destruct (H eq_refl) as [v E]. exists v. split; [exact E |]. eapply Wa. exact E.
    - eexists; split; [reflexivity |]. specialize (Wc _ _ C).
      destruct ca; try exact I; cbn [init_ok] in Wc; try exact Wc.
      destruct Wc as [_ ->]. eexists. reflexivity. }
  destruct Hv as (v & E & Hv). exists v. split; [exact E |].
  eapply typeof_value; try eassumption.
  intros x N. specialize (Hn x N). congruence.
Qed.
