(* Repeated passes *)
From Coq Require Import ZArith List Lia Bool ZifyBool.
From Verif Require Import DeadModel DeadSpec DeadProofs DeadProofs2.
Import ListNotations.
Local Open Scope Z_scope.

Lemma opt_keeps :
  (forall s, let s' := fst (opt s) in
     ends s' = ends s /\ (forall x, jumps x s' = jumps x s) /\ (ok s = true -> ok s' = true)) /\
  (forall b g, let b' := fst (opt_scope g b) in
     ends_l b' = ends_l b /\ (forall x, jumps_l x b' = jumps_l x b) /\ (ok_l b = true -> ok_l b' = true)) /\
  (forall cs, let cs' := fst (fst (fst (opt_cases cs))) in
     ends_all cs' = ends_all cs /\ has_default cs' = has_default cs /\ jumps_c cs' = jumps_c cs /\
     cases_break cs' = cases_break cs /\ (ok_c cs = true -> ok_c cs' = true)).
Proof.
  cbv zeta. apply stmt_mutind; intros; try (cbn; repeat split; intros; congruence).
  - (* scope *)
    specialize (H false). cbn [opt]. destruct (opt_scope false b) as [b' t]. cbn [fst] in *.
    cbn [ends jumps ok]. exact H.
  - (* if *)
    cbn [opt]. destruct (cnd_truthy c) eqn:E1; [cbn [ends jumps ok]; rewrite E1; exact H |].
    destruct (cnd_falsy c) eqn:E2; [cbn [ends jumps ok]; rewrite E1, E2; exact H0 |].
    destruct (opt s1) as [s1' t1], (opt s2) as [s2' t2]. cbn [fst] in *. cbn [ends jumps ok].
    rewrite E1, E2. destruct H as (A & B & C), H0 as (A' & B' & C'). rewrite A, A'.
    split; [reflexivity |]. split; [intros x; rewrite B, B'; reflexivity |].
    intros K. apply andb_prop in K. destruct K. rewrite C, C' by assumption. reflexivity.
  - (* repeat *)
    cbn [opt]. destruct (opt s) as [s' t]. cbn [fst] in *. cbn [ends jumps ok].
    destruct H as (A & B & C). rewrite A. repeat split. intros K. apply andb_prop in K. destruct K as [K1 K2].
    rewrite (C K1), !B. exact K2.
  - (* while *)
    cbn [opt]. destruct (cnd_falsy c) eqn:E2.
    + assert (cnd_truthy c = false) as E1 by (destruct c as [[] | [] |]; cbn in *; auto; discriminate).
      rewrite E1. cbn [negb orb]. change (is_term TERM_NONE) with false. cbn [andb fst ends jumps ok].
      rewrite E1, E2. repeat split.
    + destruct (opt s) as [s' t]. cbn [fst] in *.
      set (u := is_term _ && _). destruct H as (A & B & C).
      assert (G : cnd_truthy (if u then KLit true else c) = cnd_truthy c /\ cnd_falsy (if u then KLit true else c) = false).
      { destruct u eqn:Eu; [| auto]. subst u. apply andb_prop in Eu. destruct Eu as [Eu _].
        destruct (cnd_truthy c); [auto | discriminate]. }
      destruct G as [G1 G2]. cbn [ends jumps ok]. rewrite G1, G2, E2, A, !B. repeat split.
      intros K. apply andb_prop in K. destruct K as [K1 K2]. rewrite (C K1). exact K2.
  - (* for *)
    cbn [opt fst ends jumps ok]. repeat split. apply H.
  - (* try *)
    cbn [opt]. destruct (opt s) as [s' t1], (opt h) as [h' t2]. cbn [fst] in *. cbn [ends jumps ok].
    destruct H as (A & B & C), H0 as (A' & B' & C'). rewrite A, A'.
    split; [reflexivity |]. split; [intros y; rewrite B, B'; reflexivity |].
    intros K. apply andb_prop in K. destruct K. rewrite C, C' by assumption. reflexivity.
  - (* defer *)
    cbn [opt]. destruct (opt s) as [s' t1], (opt d) as [d' t2]. cbn [fst] in *. cbn [ends jumps ok].
    destruct H as (A & B & C), H0 as (A' & B' & C'). rewrite A'.
    split; [reflexivity |]. split; [intros y; rewrite B, B'; reflexivity |].
    intros K. apply andb_prop in K. destruct K. rewrite C, C' by assumption. reflexivity.
  - (* switch *)
    cbn [opt]. destruct (opt_cases cs) as [[[cs' d] all] t]. cbn [fst] in *. cbn [ends jumps ok].
    destruct H as (A & B & C & D & F). rewrite A, B, C, D. repeat split.
    intros K. apply andb_prop in K. destruct K as [K1 K2]. rewrite (F K1). exact K2.
  - (* Cons *)
    cbn [opt_scope]. destruct (is_dummy s && (has_next r || negb g)) eqn:Ed.
    + apply andb_prop in Ed. destruct Ed as [Ed _]. destruct s; try discriminate.
      cbn [ends_l ends jumps_l jumps ok_l orb].
      destruct (H0 g) as (A & B & C). split; [exact A |]. split; [exact B |].
      intros K. apply andb_prop in K. destruct K as [_ K]. exact (C K).
    + pose proof (opt_ends s) as He. destruct (opt s) as [s' t]. cbn [fst snd] in *.
      destruct H as (A & B & C). destruct (is_term t) eqn:Et.
      * cbn [fst]. cbn [ends_l jumps_l ok_l]. rewrite A.
        assert (exists x, ends s = Some x) as [x Hx] by (rewrite <- He; unfold cls; rewrite Et; eauto).
        rewrite Hx. split; [reflexivity |]. split; [intros y; rewrite B; reflexivity |].
        intros K. apply andb_prop in K. destruct K as [K _]. rewrite (C K). reflexivity.
      * assert (ends s = None) as Hx by (rewrite <- He; unfold cls; rewrite Et; reflexivity).
        specialize (H0 g). destruct (opt_scope g r) as [r' t']. cbn [fst] in *.
        destruct H0 as (A' & B' & C'). cbn [ends_l jumps_l ok_l]. rewrite A, Hx, A'.
        split; [reflexivity |]. split; [intros y; rewrite B, B'; reflexivity |].
        intros K. apply andb_prop in K. destruct K as [K K']. rewrite (C K), (C' K'). reflexivity.
  - (* CCons *)
    cbn [opt_cases]. destruct (opt s) as [s' k]. destruct (opt_cases r) as [[[r' d] all] tr]. cbn [fst] in *.
    destruct H as (A & B & C). destruct H0 as (A' & B' & C' & D' & F').
    cbn [ends_all has_default jumps_c cases_break ok_c]. rewrite A, A', B', C', D', !B.
    repeat split. intros K. apply andb_prop in K. destruct K as [K K']. rewrite (C K), (F' K'). reflexivity.
Qed.

Lemma passes_exec : forall (V St : Type) (L : lang V St) k b n st, ok_l b = true ->
  exec_l L n (passes k b) st = exec_l L n b st.
Proof.
  induction k as [| k IH]; intros b n st H; [reflexivity |]. cbn [passes].
  rewrite IH.
  - apply (proj1 (proj2 (main L n)) b H).
  - apply (proj1 (proj2 opt_keeps) b true). exact H.
Qed.
