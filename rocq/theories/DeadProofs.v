(* Proofs about removal of unreachable code *)
From Coq Require Import ZArith List Lia Bool ZifyBool.
From Verif Require Import DeadModel DeadSpec.
Import ListNotations.
Local Open Scope Z_scope.

Scheme stmt_mut := Induction for stmt Sort Prop
with stmts_mut := Induction for stmts Sort Prop
with cases_mut := Induction for cases Sort Prop.
Combined Scheme stmt_mutind from stmt_mut, stmts_mut, cases_mut.

(* classification as bits *)
Definition cls (t : Z) : option bool := if is_term t then Some (has_break t) else None.

Definition tok (t : Z) : Prop := In t [0;1;2;3;4;5;6;7].

Lemma tok_lor : forall a b, tok a -> tok b -> tok (Z.lor a b).
Proof.
  intros a b Ha Hb. unfold tok in *. cbn [In] in *.
  repeat (destruct Ha as [<- | Ha]; [| try contradiction]);
  try (repeat (destruct Hb as [<- | Hb]; [cbv; tauto |]); contradiction).
Qed.

Lemma cls_lor : forall a b, tok a -> tok b -> is_term a = true -> is_term b = true ->
  is_term (Z.lor a b) = true /\ has_break (Z.lor a b) = has_break a || has_break b.
Proof.
  intros a b Ha Hb. unfold tok in *. cbn [In] in *.
  repeat (destruct Ha as [<- | Ha]; [| try contradiction]);
  try (repeat (destruct Hb as [<- | Hb]; [cbv; auto |]); contradiction).
Qed.

Lemma cls_try : forall a b, tok a -> tok b -> is_term a = true -> is_term b = true ->
  tok (Z.lor (Z.land a (Z.lnot TERM_THROW)) b) /\
  is_term (Z.lor (Z.land a (Z.lnot TERM_THROW)) b) = true /\
  has_break (Z.lor (Z.land a (Z.lnot TERM_THROW)) b) = has_break a || has_break b.
Proof.
  intros a b Ha Hb. unfold tok in *. cbn [In] in *.
  repeat (destruct Ha as [<- | Ha]; [| try contradiction]);
  try (repeat (destruct Hb as [<- | Hb]; [cbv; tauto |]); contradiction).
Qed.

Lemma cls_some : forall t b, cls t = Some b -> is_term t = true /\ has_break t = b.
Proof. unfold cls. intros t b. destruct (is_term t); [| discriminate]. intros H. injection H as H. auto. Qed.
Lemma cls_none : forall t, cls t = None -> is_term t = false.
Proof. unfold cls. intros t. destruct (is_term t); [discriminate | reflexivity]. Qed.
Lemma cls_eq : forall t b, is_term t = true -> has_break t = b -> cls t = Some b.
Proof. unfold cls. intros t b -> ->. reflexivity. Qed.

Lemma has_break_term : forall t, has_break t = true -> is_term t = true.
Proof.
  unfold has_break, is_term, TERM_BREAK, TERM_NONE. intros t H.
  destruct (t =? 0) eqn:E; [| reflexivity]. apply Z.eqb_eq in E. subst t. discriminate.
Qed.

Lemma or_term : forall a b, tok a -> tok b -> has_break a = false -> has_break b = false -> has_break (Z.lor a b) = false.
Proof.
  intros a b Ha Hb. unfold tok in *. cbn [In] in *.
  repeat (destruct Ha as [<- | Ha]; [| try contradiction]);
  try (repeat (destruct Hb as [<- | Hb]; [cbv; auto |]); contradiction).
Qed.
Lemma or_term2 : forall a b, tok a -> tok b -> is_term a = true -> is_term (Z.lor a b) = true.
Proof.
  intros a b Ha Hb. unfold tok in *. cbn [In] in *.
  repeat (destruct Ha as [<- | Ha]; [| try contradiction]);
  try (repeat (destruct Hb as [<- | Hb]; [cbv; auto |]); contradiction).
Qed.

Ltac dopt s := let s' := fresh s "'" in let t := fresh "t" in let E := fresh "Eo" in
  destruct (opt s) as [s' t] eqn:E; cbn [fst snd] in *.

(* The classification computed by the optimizer is [ends] *)
Lemma opt_class :
  (forall s, tok (snd (opt s)) /\ cls (snd (opt s)) = ends s) /\
  (forall b, forall g, tok (snd (opt_scope g b)) /\ cls (snd (opt_scope g b)) = ends_l b) /\
  (forall cs, let '(_, d, all, t) := opt_cases cs in
     d = has_default cs /\ all = ends_all cs /\ tok t /\ has_break t = false /\
     (all = true -> cs <> CNil -> is_term t = true)).
Proof.
  apply stmt_mutind; intros; cbn [opt ends snd fst]; try (split; [unfold tok; cbn; tauto | reflexivity]).
  - (* scope *)
    specialize (H false). cbn [opt ends]. destruct (opt_scope false b) as [b' t]. exact H.
  - (* if *)
    destruct (cnd_truthy c); [assumption |]. destruct (cnd_falsy c); [assumption |].
    dopt s1. dopt s2. destruct H as [H H1]. destruct H0 as [H0 H2]. rewrite <- H1, <- H2.
    unfold cls at 2 3. destruct (is_term t) eqn:E1; destruct (is_term t0) eqn:E2; cbn [andb];
      try (split; [unfold tok; cbn; tauto | reflexivity]).
    destruct (cls_lor t t0 H H0 E1 E2) as [K1 K2]. split; [apply tok_lor; assumption |].
    apply cls_eq; assumption.
  - (* repeat *)
    dopt s. destruct H as [H H1]. rewrite <- H1. unfold cls at 2.
    destruct (has_break t) eqn:E1.
    + rewrite (has_break_term t E1). split; [unfold tok; cbn; tauto | reflexivity].
    + split; [assumption |]. unfold cls. rewrite E1. destruct (is_term t); reflexivity.
  - (* while *)
    dopt s. destruct H as [H H1]. rewrite <- H1.
    destruct (cnd_truthy c) eqn:Ec.
    + assert (cnd_falsy c = false) as -> by (destruct c; cbn in *; try subst; auto).
      cbn [negb orb]. unfold cls at 2. destruct (has_break t) eqn:E1; cbn [snd].
      * rewrite (has_break_term t E1). split; [unfold tok; cbn; tauto | reflexivity].
      * split; [assumption |]. unfold cls. rewrite E1. destruct (is_term t); reflexivity.
    + cbn [negb orb]. destruct (cnd_falsy c); cbn [snd]; (split; [unfold tok; cbn; tauto | reflexivity]).
  - (* try *)
    dopt s. dopt h. destruct H as [H H1]. destruct H0 as [H0 H2]. rewrite <- H1, <- H2.
    unfold cls at 2 3. destruct (is_term t) eqn:E1; destruct (is_term t0) eqn:E2; cbn [andb];
      try (split; [unfold tok; cbn; tauto | reflexivity]).
    destruct (cls_try t t0 H H0 E1 E2) as (K0 & K1 & K2). split; [assumption |].
    apply cls_eq; assumption.
  - (* defer *)
    dopt s. dopt d. destruct H0 as [H0 H2]. rewrite <- H2. unfold cls at 2.
    destruct (is_term t0) eqn:E2.
    + split; [assumption |]. unfold cls. rewrite E2. reflexivity.
    + split; [unfold tok; cbn; tauto | reflexivity].
  - (* switch *)
    destruct (opt_cases cs) as [[[cs' d] all] t] eqn:E. destruct H as (H1 & H2 & H3 & H4 & H5).
    cbn [snd]. rewrite <- H1, <- H2. rewrite (andb_comm d all).
    destruct (all && d) eqn:E1.
    + split; [assumption |]. apply andb_prop in E1. destruct E1 as [-> ->].
      apply cls_eq; [| assumption]. apply H5; [reflexivity |]. intros ->. cbn in E. congruence.
    + split; [unfold tok; cbn; tauto | reflexivity].
  - (* Cons *)
    cbn [opt_scope ends_l].
    destruct (is_dummy s && (has_next r || negb g)) eqn:Ed.
    + apply andb_prop in Ed. destruct Ed as [Ed _]. destruct s; try discriminate. cbn [ends].
      apply H0.
    + dopt s. destruct H as [H H1]. rewrite <- H1. unfold cls at 2.
      destruct (is_term t) eqn:E1; cbn [snd].
      * split; [assumption |]. unfold cls. rewrite E1. reflexivity.
      * specialize (H0 g). destruct (opt_scope g r) as [r' t']. cbn [snd] in *. assumption.
  - (* CNil *)
    cbn. unfold tok. cbn. repeat split; try tauto; try congruence.
  - (* CCons *)
    cbn [opt_cases ends_all has_default]. dopt s. destruct H as [H H1].
    destruct (opt_cases r) as [[[r' d] all] tr]. destruct H0 as (K1 & K2 & K3 & K4 & K5).
    rewrite <- H1. unfold cls.
    split; [destruct t; [assumption | reflexivity] |].
    destruct (has_break t0) eqn:E1.
    + rewrite (has_break_term t0 E1). cbn [is_term negb andb]. change (is_term TERM_NONE) with false.
      cbn [andb]. repeat split; try assumption; try discriminate.
    + destruct (is_term t0) eqn:E2; cbn [andb].
      * split; [assumption |]. split; [apply tok_lor; assumption |].
        split; [apply or_term; assumption |]. intros _ _. apply or_term2; assumption.
      * split; [reflexivity |]. split; [apply tok_lor; assumption |].
        split; [apply or_term; assumption |]. discriminate.
Qed.

Lemma opt_ends : forall s, cls (snd (opt s)) = ends s.
Proof. intros s. apply (proj1 opt_class). Qed.
