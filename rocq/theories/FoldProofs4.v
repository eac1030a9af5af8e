From Coq Require Import ZArith List Lia Bool ZifyBool.
From Coq Require Import Floats.SpecFloat.
Import ListNotations.
From Verif Require Import Base ListZ Utf8Spec Utf8Main FoldModel FoldModel2 FoldSpec FoldProofs FoldProofs2 FoldProofs3.
Local Open Scope Z_scope.
Ltac Zify.zify_post_hook ::= idtac.

Lemma seq_ok : forall v f, seq ([], Ok v) f = f v.
Proof. intros. unfold seq. cbn [fst snd app]. destruct (f v); reflexivity. Qed.

Lemma bind_ok : forall A B (r : res A) (f : A -> res B) x, bind r f = Ok x -> exists y, r = Ok y /\ f y = Ok x.
Proof. intros A B [y | e |] f x H; try discriminate H. exists y. auto. Qed.

Lemma bind_err : forall A B (r : res A) (f : A -> res B) k, bind r f = Err k ->
  r = Err k \/ exists y, r = Ok y /\ f y = Err k.
Proof. intros A B [y | e |] f x H; try discriminate H; cbn in H; [right; eauto | left; congruence]. Qed.

Lemma bind_ub : forall A B (r : res A) (f : A -> res B), bind r f = Ub ->
  r = Ub \/ exists y, r = Ok y /\ f y = Ub.
Proof. intros A B [y | e |] f H; try discriminate H; cbn in H; [right; eauto | left; reflexivity]. Qed.

Lemma same_value_trans : forall z v u t, same_value z v u -> same_value z u t -> same_value z v t.
Proof.
  intros z v u t [-> | (E1 & s1 & s2 & -> & ->)] G; [exact G |].
  destruct G as [<- | (E2 & s3 & s4 & _ & ->)]; right; (split; [assumption |]); eexists; eexists; split; reflexivity.
Qed.

(* the effect of one more folding step *)
Definition step_ok (z : bool) (w : world) (tested : bool) (r : res expr) (e : expr) : Prop :=
  match r with
  | Ok e' => same_eval z (eval w e') (eval w e) /\ head w tested e'
  | Err k => k = ELong \/ snd (eval w e) = Err k
  | Ub => snd (eval w e) = Ub \/ (exists a, e = EOp1 UNot a /\ (snd (eval w e) = Err ERange))
  end.

Lemma fold2_ok : forall z w op a b t, world_ok w -> head w false a -> head w false b ->
  step_ok z w t (fold2 (w_const w) op a b) (EOp2 op a b).
Proof.
  intros z w op a b t W Ha Hb. pose proof W as (Ws & _ & _).
  assert (D : step_ok z w t (Ok (EOp2 op a b)) (EOp2 op a b)).
  { split; [apply same_eval_refl | exact I]. }
  unfold fold2.
  destruct (get_const (w_const w) a) as [ca |] eqn:Ca; [| exact D].
  destruct (get_const (w_const w) b) as [cb |] eqn:Cb; [| exact D].
  destruct (numeric ca) as [x |] eqn:Na.
  2:{ destruct op; try exact D. destruct ca; try exact D. destruct cb; try exact D.
      destruct (lit_str _ _ _ _ _ W Ha Ca) as [(esc1 & body1 & cs1 & S1 & T1) E1].
      destruct (lit_str _ _ _ _ _ W Hb Cb) as [(esc2 & body2 & cs2 & S2 & T2) E2].
      rewrite (str_token_raw _ _ _ _ S1), (str_token_raw _ _ _ _ S2).
      destruct (Bool.eqb (negb esc1) (negb esc2)) eqn:Eq; [| exact D].
      assert (esc1 = esc2) as -> by (destruct esc1, esc2; cbn in Eq; congruence).
      destruct (add_strings_spec _ _ _ _ _ _ _ S1 S2) as [A ST]. rewrite A.
      destruct (_ >=? 0xFFFF) eqn:L; [left; reflexivity |].
      pose proof (text_app _ _ _ _ _ T1 T2) as T12.
      split.
      - cbn [eval]. rewrite E1, E2, !seq_ok. unfold str_of.
        rewrite (str_token_str _ _ _ _ S1), (str_token_str _ _ _ _ S2), (str_token_str _ _ _ _ ST).
        rewrite (Ws _ _ _ T1), (Ws _ _ _ T2), (Ws _ _ _ T12). cbn [vm_op2].
        pose proof (text_len _ _ _ T1). pose proof (text_len _ _ _ T2).
        replace (len (cs1 ++ cs2) >? 0xFFFF) with false
          by (rewrite len_app; destruct esc2; lia).
        apply same_eval_refl.
      - cbn [head]. exists esc2, (body1 ++ body2), (cs1 ++ cs2). auto. }
  destruct (numeric cb) as [y |] eqn:Nb.
  2:{ destruct op; try exact D. destruct ca; try exact D. discriminate Na. }
  pose proof (lit_numeric _ _ _ _ _ W Ha Ca Na) as E1.
  pose proof (lit_numeric _ _ _ _ _ W Hb Cb Nb) as E2.
  rewrite fold_binop_vm.
  assert (Ev : eval w (EOp2 op a b) = ([], bind (vm_binop op x y) (fun n => Ok (VNum n)))).
  { cbn [eval]. rewrite E1, E2, !seq_ok. reflexivity. }
  unfold step_ok. rewrite Ev. destruct (vm_binop op x y) as [v | k |]; cbn [bind snd].
  - split; [apply same_eval_refl | exact I].
  - right. reflexivity.
  - left. reflexivity.
Qed.

Lemma fold1_ok : forall z w op a t, world_ok w -> head w false a -> (z = true \/ op <> UMinus) ->
  (op = UNot -> forall d, snd (eval w a) = Ok (VNum (NF d)) -> to_int d <> Some INT64_MIN) ->
  step_ok z w t (fold1 (w_const w) op a) (EOp1 op a).
Proof.
  intros z w op a t W Ha Hz N. unfold fold1.
  assert (D : step_ok z w t (Ok (EOp1 op a)) (EOp1 op a)).
  { split; [apply same_eval_refl | exact I]. }
  destruct (get_const (w_const w) a) as [ca |] eqn:Ca; [| exact D].
  destruct (numeric ca) as [x |] eqn:Na; [| exact D].
  pose proof (lit_numeric _ _ _ _ _ W Ha Ca Na) as E1.
  assert (Ev : eval w (EOp1 op a) = ([], bind (vm_unop op x) (fun n => Ok (VNum n)))).
  { cbn [eval]. rewrite E1, seq_ok. reflexivity. }
  rewrite E1 in N. cbn [snd] in N.
  destruct (fold_unop op x) as [v | k |] eqn:F; unfold step_ok.
  - rewrite Ev. split; [| exact I]. split; [reflexivity |]. cbn [eval snd].
    change (Ok (VNum v)) with (bind (Ok v) (fun n => Ok (VNum n))). apply same_nres_res.
    apply unop_vm; [exact Hz | | exact F]. intros -> d ->. exact (N eq_refl d eq_refl).
  - exfalso. destruct op; cbn [fold_unop] in F; try discriminate F.
    + destruct x as [i | d]; [destruct (sint (- i)); discriminate F | discriminate F].
    + destruct x as [i | d]; [discriminate F |]. destruct (to_int d); discriminate F.
  - rewrite Ev. cbn [snd]. destruct op; cbn [fold_unop] in F; try discriminate F.
    + left. destruct x as [i | d]; [| discriminate F]. cbn [vm_unop vm_binop sub_integer].
      replace (0 - i) with (- i) by lia. now rewrite F.
    + destruct x as [i | d]; [discriminate F |].
      destruct (to_int d) eqn:T; [discriminate F |].
      cbn [vm_unop]. rewrite get_integer_float.
      destruct d as [s | s | | s m e].
      * discriminate T.
      * right. exists a. split; reflexivity.
      * left. reflexivity.
      * destruct (dle _ _ || dge _ _) eqn:R; [right; exists a; split; reflexivity |].
        exfalso. pose proof (get_integer_float (S754_finite s m e)) as G.
        cbv iota beta in G. rewrite R in G. unfold get_integer in G. rewrite R, T in G. discriminate G.
Qed.

(* values of the operands of an operator after folding *)
Lemma op_pre : forall z w op a b a' b',
  same_eval z (eval w a') (eval w a) -> same_eval z (eval w b') (eval w b) ->
  same_eval z (eval w (EOp2 op a' b')) (eval w (EOp2 op a b)).
Proof.
  intros z w op a b a' b' Ha Hb. cbn [eval]. apply seq_same; [exact Ha |].
  intros v u _ _ Hv. apply seq_same; [exact Hb |]. intros v2 u2 _ _ Hv2.
  split; [reflexivity |]. apply op2_same; assumption.
Qed.

Lemma same_eval_trans : forall z p q r, same_eval z p q -> same_eval z q r -> same_eval z p r.
Proof.
  intros z p q r [A1 A2] [B1 B2]. split; [congruence |].
  destruct (snd p), (snd q), (snd r); cbn in *; try contradiction; try congruence; auto.
  eapply same_value_trans; eassumption.
Qed.

Lemma same_res_err : forall z r q k, same_res z r q -> r = Err k -> q = Err k.
Proof. intros z r q k H ->. destruct q; cbn in H; try contradiction. congruence. Qed.
Lemma same_res_ub : forall z r q, same_res z r q -> r = Ub -> q = Ub.
Proof. intros z r q H ->. destruct q; cbn in H; try contradiction. reflexivity. Qed.
Lemma same_res_float : forall z r q d, same_res z r q -> r = Ok (VNum (NF d)) ->
  q = Ok (VNum (NF d)) \/ is_zero d = true.
Proof.
  intros z r q d H ->. destruct q as [u | |]; cbn in H; try contradiction.
  destruct H as [<- | (_ & s1 & s2 & E1 & _)]; [left; reflexivity |].
  assert (d = S754_zero s1) as -> by congruence. right. reflexivity.
Qed.

(* The whole expression *)
Definition fold_post (z : bool) (w : world) (tested : bool) (e : expr) : Prop :=
  match fold (w_const w) e with
  | Ok e' => same_eval z (eval w e') (eval w e) /\ head w tested e'
  | Err k => k = ELong \/ exists s, occurs s e /\ snd (eval w s) = Err k
  | Ub => exists s, occurs s e /\
            (snd (eval w s) = Ub \/ exists a, s = EOp1 UNot a /\ snd (eval w s) = Err ERange)
  end.

Lemma fold_post_err : forall z w t e a k, fold_post z w t a -> (forall s, occurs s a -> occurs s e) ->
  fold (w_const w) a = Err k -> k = ELong \/ exists s, occurs s e /\ snd (eval w s) = Err k.
Proof.
  intros z w t e a k H O F. unfold fold_post in H. rewrite F in H.
  destruct H as [H | (s & H1 & H2)]; [left; exact H | right; exists s; auto].
Qed.
Lemma fold_post_ub : forall z w t e a, fold_post z w t a -> (forall s, occurs s a -> occurs s e) ->
  fold (w_const w) a = Ub -> exists s, occurs s e /\
            (snd (eval w s) = Ub \/ exists a, s = EOp1 UNot a /\ snd (eval w s) = Err ERange).
Proof.
  intros z w t e a H O F. unfold fold_post in H. rewrite F in H.
  destruct H as (s & H1 & H2). exists s. auto.
Qed.

Ltac sub H := first
  [ refine (fold_post_err _ _ _ _ _ _ H _ _)
  | refine (fold_post_ub _ _ _ _ _ H _ _) ];
  [ intros ? ?; auto using O_op2l, O_op2r, O_op1, O_not, O_andl, O_andr, O_orl, O_orr, O_tri1, O_tri2,
      O_tri3, O_typeof | assumption ].

Lemma fold_main : forall z w, world_ok w -> forall e tested,
  (z = true \/ no_minus e) -> good w tested e -> fold_post z w tested e.
Proof.
  intros z w W. induction e; intros tested Hz G.
  - split; [apply same_eval_refl | exact I].
  - split; [apply same_eval_refl | exact I].
  - split; [apply same_eval_refl | exact G].
  - split; [apply same_eval_refl | exact I].
  - split; [apply same_eval_refl | exact G].
  - split; [apply same_eval_refl | exact G].
  - split; [apply same_eval_refl | exact I].
  - split; [apply same_eval_refl | exact I].
  - (* EOp2 *)
    cbn [good] in G. destruct G as [Ga Gb].
    assert (Za : z = true \/ no_minus e1) by (cbn [no_minus] in Hz; tauto).
    assert (Zb : z = true \/ no_minus e2) by (cbn [no_minus] in Hz; tauto).
    specialize (IHe1 false Za Ga). specialize (IHe2 false Zb Gb).
    unfold fold_post at 1. cbn [fold].
    destruct (fold (w_const w) e1) as [a' | k |] eqn:F1; cbn [bind];
      [| sub IHe1 | sub IHe1].
    destruct (fold (w_const w) e2) as [b' | k |] eqn:F2; cbn [bind];
      [| sub IHe2 | sub IHe2].
    unfold fold_post in IHe1, IHe2. rewrite F1 in IHe1. rewrite F2 in IHe2.
    destruct IHe1 as [S1 H1]. destruct IHe2 as [S2 H2].
    pose proof (op_pre z w op e1 e2 a' b' S1 S2) as SO.
    pose proof (fold2_ok z w op a' b' tested W H1 H2) as ST.
    destruct (fold2 (w_const w) op a' b') as [e' | k |]; cbn [step_ok] in ST.
    + destruct ST as [ST1 ST2]. split; [| exact ST2]. eapply same_eval_trans; eassumption.
    + destruct ST as [ST | ST]; [left; exact ST | right]. exists (EOp2 op e1 e2). split; [constructor |].
      eapply same_res_err; [exact (proj2 SO) | exact ST].
    + destruct ST as [ST | (a & E & _)]; [| discriminate E]. exists (EOp2 op e1 e2). split; [constructor |].
      left. eapply same_res_ub; [exact (proj2 SO) | exact ST].
  - (* EOp1 *)
    cbn [good] in G. destruct G as [Ga Gn].
    assert (Za : z = true \/ no_minus e) by (cbn [no_minus] in Hz; tauto).
    assert (Zo : z = true \/ op <> UMinus) by (cbn [no_minus] in Hz; tauto).
    specialize (IHe false Za Ga).
    unfold fold_post at 1. cbn [fold].
    destruct (fold (w_const w) e) as [a' | k |] eqn:F1; cbn [bind];
      [| sub IHe | sub IHe].
    unfold fold_post in IHe. rewrite F1 in IHe. destruct IHe as [S1 H1].
    assert (SO : same_eval z (eval w (EOp1 op a')) (eval w (EOp1 op e))).
    { cbn [eval]. apply seq_same; [exact S1 |]. intros v u _ _ Hv. split; [reflexivity |].
      apply op1_same. exact Hv. }
    assert (N' : op = UNot -> forall d, snd (eval w a') = Ok (VNum (NF d)) -> to_int d <> Some INT64_MIN).
    { intros Eo d Ed. destruct (same_res_float _ _ _ _ (proj2 S1) Ed) as [X | X]; [exact (Gn Eo d X) |].
      destruct d; try discriminate X. discriminate. }
    pose proof (fold1_ok z w op a' tested W H1 Zo N') as ST.
    destruct (fold1 (w_const w) op a') as [e' | k |]; cbn [step_ok] in ST.
    + destruct ST as [ST1 ST2]. split; [| exact ST2]. eapply same_eval_trans; eassumption.
    + destruct ST as [ST | ST]; [left; exact ST | right]. exists (EOp1 op e). split; [constructor |].
      eapply same_res_err; [exact (proj2 SO) | exact ST].
    + exists (EOp1 op e). split; [constructor |]. destruct ST as [ST | (a & E & ST)].
      * left. eapply same_res_ub; [exact (proj2 SO) | exact ST].
      * right. exists e. split; [congruence |].
        eapply same_res_err; [exact (proj2 SO) | exact ST].
  - (* ELogNot *)
    cbn [good] in G. specialize (IHe true Hz G).
    unfold fold_post at 1. cbn [fold].
    destruct (fold (w_const w) e) as [a' | k |] eqn:F1; cbn [bind];
      [| sub IHe | sub IHe].
    unfold fold_post in IHe. rewrite F1 in IHe. destruct IHe as [S1 H1].
    assert (SO : same_eval z (eval w (ELogNot a')) (eval w (ELogNot e))).
    { cbn [eval]. apply seq_same; [exact S1 |]. intros v u _ _ Hv.
      rewrite (truthy_same _ _ _ Hv). apply same_eval_refl. }
    split; [| destruct (node_is_truthy _ _); [exact I | destruct (node_is_falsy _ _); exact I]].
    eapply same_eval_trans; [| exact SO].
    destruct (node_is_truthy (w_const w) a') eqn:T.
    { destruct (truthy_eval w a' W (head_false _ _ _ H1) T) as [T1 T2]. destruct (T2 H1) as [v Ev].
      cbn [eval]. rewrite Ev in T1 |- *. cbn [snd] in T1. rewrite seq_ok, (T1 v eq_refl). apply same_eval_refl. }
    destruct (node_is_falsy (w_const w) a') eqn:Fa; [| apply same_eval_refl].
    destruct (falsy_eval w a' W (head_false _ _ _ H1) Fa) as (v & Ev & Tv).
    cbn [eval]. rewrite Ev, seq_ok, Tv. apply same_eval_refl.
  - (* ELogAnd *)
    cbn [good] in G. destruct G as [Ga Gb].
    assert (Za : z = true \/ no_minus e1) by (cbn [no_minus] in Hz; tauto).
    assert (Zb : z = true \/ no_minus e2) by (cbn [no_minus] in Hz; tauto).
    specialize (IHe1 true Za Ga). specialize (IHe2 tested Zb Gb).
    unfold fold_post at 1. cbn [fold].
    destruct (fold (w_const w) e1) as [a' | k |] eqn:F1; cbn [bind];
      [| sub IHe1 | sub IHe1].
    destruct (fold (w_const w) e2) as [b' | k |] eqn:F2; cbn [bind];
      [| sub IHe2 | sub IHe2].
    unfold fold_post in IHe1, IHe2. rewrite F1 in IHe1. rewrite F2 in IHe2.
    destruct IHe1 as [S1 H1]. destruct IHe2 as [S2 H2].
    assert (SO : same_eval z (eval w (ELogAnd a' b')) (eval w (ELogAnd e1 e2))).
    { cbn [eval]. apply seq_same; [exact S1 |]. intros v u _ _ Hv.
      rewrite (truthy_same _ _ _ Hv). destruct (is_truthy u); [exact S2 |]. split; [reflexivity | exact Hv]. }
    destruct (node_is_truthy (w_const w) a') eqn:T.
    { split; [| exact H2]. eapply same_eval_trans; [| exact SO].
      destruct (truthy_eval w a' W (head_false _ _ _ H1) T) as [T1 T2]. destruct (T2 H1) as [v Ev].
      cbn [eval]. rewrite Ev in T1 |- *. cbn [snd] in T1. rewrite seq_ok, (T1 v eq_refl). apply same_eval_refl. }
    destruct (node_is_falsy (w_const w) a') eqn:Fa; [| split; [exact SO | exact I]].
    destruct (falsy_eval w a' W (head_false _ _ _ H1) Fa) as (v & Ev & Tv).
    split.
    + eapply same_eval_trans; [| exact SO]. cbn [eval]. rewrite Ev, seq_ok, Tv. apply same_eval_refl.
    + destruct a'; cbn [head] in *; auto.
  - (* ELogOr *)
    cbn [good] in G. destruct G as [Ga Gb].
    assert (Za : z = true \/ no_minus e1) by (cbn [no_minus] in Hz; tauto).
    assert (Zb : z = true \/ no_minus e2) by (cbn [no_minus] in Hz; tauto).
    specialize (IHe1 tested Za Ga). specialize (IHe2 tested Zb Gb).
    unfold fold_post at 1. cbn [fold].
    destruct (fold (w_const w) e1) as [a' | k |] eqn:F1; cbn [bind];
      [| sub IHe1 | sub IHe1].
    destruct (fold (w_const w) e2) as [b' | k |] eqn:F2; cbn [bind];
      [| sub IHe2 | sub IHe2].
    unfold fold_post in IHe1, IHe2. rewrite F1 in IHe1. rewrite F2 in IHe2.
    destruct IHe1 as [S1 H1]. destruct IHe2 as [S2 H2].
    assert (SO : same_eval z (eval w (ELogOr a' b')) (eval w (ELogOr e1 e2))).
    { cbn [eval]. apply seq_same; [exact S1 |]. intros v u _ _ Hv.
      rewrite (truthy_same _ _ _ Hv). destruct (is_truthy u); [split; [reflexivity | exact Hv] | exact S2]. }
    destruct (node_is_truthy (w_const w) a') eqn:T.
    { split; [| exact H1]. eapply same_eval_trans; [| exact SO].
      destruct (truthy_eval w a' W (head_false _ _ _ H1) T) as [T1 _].
      cbn [eval]. destruct (eval w a') as [tr r]. unfold seq. cbn [fst snd] in *.
      destruct r as [v | |]; [| apply same_eval_refl | apply same_eval_refl].
      rewrite (T1 v eq_refl). cbn [fst snd]. rewrite app_nil_r. apply same_eval_refl. }
    destruct (node_is_falsy (w_const w) a') eqn:Fa; [| split; [exact SO | exact I]].
    destruct (falsy_eval w a' W (head_false _ _ _ H1) Fa) as (v & Ev & Tv).
    split; [| exact H2].
    eapply same_eval_trans; [| exact SO]. cbn [eval]. rewrite Ev, seq_ok, Tv. apply same_eval_refl.
  - (* ELogTri *)
    cbn [good] in G. destruct G as (Ga & Gb & Gc).
    assert (Za : z = true \/ no_minus e1) by (cbn [no_minus] in Hz; tauto).
    assert (Zb : z = true \/ no_minus e2) by (cbn [no_minus] in Hz; tauto).
    assert (Zc : z = true \/ no_minus e3) by (cbn [no_minus] in Hz; tauto).
    specialize (IHe1 true Za Ga). specialize (IHe2 tested Zb Gb). specialize (IHe3 tested Zc Gc).
    unfold fold_post at 1. cbn [fold].
    destruct (fold (w_const w) e1) as [a' | k |] eqn:F1; cbn [bind];
      [| sub IHe1 | sub IHe1].
    destruct (fold (w_const w) e2) as [b' | k |] eqn:F2; cbn [bind];
      [| sub IHe2 | sub IHe2].
    destruct (fold (w_const w) e3) as [c' | k |] eqn:F3; cbn [bind];
      [| sub IHe3 | sub IHe3].
    unfold fold_post in IHe1, IHe2, IHe3. rewrite F1 in IHe1. rewrite F2 in IHe2. rewrite F3 in IHe3.
    destruct IHe1 as [S1 H1]. destruct IHe2 as [S2 H2]. destruct IHe3 as [S3 H3].
    assert (SO : same_eval z (eval w (ELogTri a' b' c')) (eval w (ELogTri e1 e2 e3))).
    { cbn [eval]. apply seq_same; [exact S1 |]. intros v u _ _ Hv.
      rewrite (truthy_same _ _ _ Hv). destruct (is_truthy u); [exact S2 | exact S3]. }
    destruct (node_is_truthy (w_const w) a') eqn:T.
    { split; [| exact H2]. eapply same_eval_trans; [| exact SO].
      destruct (truthy_eval w a' W (head_false _ _ _ H1) T) as [T1 T2]. destruct (T2 H1) as [v Ev].
      cbn [eval]. rewrite Ev in T1 |- *. cbn [snd] in T1. rewrite seq_ok, (T1 v eq_refl). apply same_eval_refl. }
    destruct (node_is_falsy (w_const w) a') eqn:Fa; [| split; [exact SO | exact I]].
    destruct (falsy_eval w a' W (head_false _ _ _ H1) Fa) as (v & Ev & Tv).
    split; [| exact H3].
    eapply same_eval_trans; [| exact SO]. cbn [eval]. rewrite Ev, seq_ok, Tv. apply same_eval_refl.
  - (* ETypeof *)
    cbn [good] in G. specialize (IHe true Hz G).
    unfold fold_post at 1. cbn [fold].
    destruct (fold (w_const w) e) as [a' | k |] eqn:F1; cbn [bind];
      [| sub IHe | sub IHe].
    unfold fold_post in IHe. rewrite F1 in IHe. destruct IHe as [S1 H1].
    assert (SO : same_eval z (eval w (ETypeof a')) (eval w (ETypeof e))).
    { cbn [eval]. apply seq_same; [exact S1 |]. intros v u _ _ Hv.
      rewrite (type_same _ _ _ Hv). apply same_eval_refl. }
    destruct (get_const (w_const w) a') as [ca |] eqn:C; [| split; [exact SO | exact I]].
    destruct (collapse_typeof ca) as [tok |] eqn:T; [| split; [exact SO | exact I]].
    destruct (typeof_eval _ _ _ _ W H1 C T) as (v & Ev & -> & Tx).
    pose proof W as (Ws & _ & _).
    split.
    + eapply same_eval_trans; [| exact SO]. cbn [eval]. rewrite Ev, seq_ok.
      rewrite (str_token_str _ _ _ _ (ST_plain (type_name v))). rewrite (Ws _ _ _ Tx). apply same_eval_refl.
    + exists true, (type_name v), (type_name v). split; [constructor | exact Tx].
Qed.
