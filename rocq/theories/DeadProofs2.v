(* Removal of unreachable code keeps the behaviour *)
From Coq Require Import ZArith List Lia Bool ZifyBool.
From Verif Require Import DeadModel DeadSpec DeadProofs.
Import ListNotations.
Local Open Scope Z_scope.

Section P.
Context {V St : Type} (L : lang V St).

Notation res := (outcome V * St)%type.

Lemma while_ext : forall n c f g (st : St), (forall x, f x = g x) -> run_while L n c f st = run_while L n c g st.
Proof.
  induction n; intros c f g st H; [reflexivity |]. cbn [run_while].
  destruct (ev_cnd L c st) as [[[|] st' | v st'] | [v st']]; try reflexivity.
  rewrite <- H. destruct (f st') as [[] st'']; try reflexivity; apply IHn; assumption.
Qed.

Lemma repeat_ext : forall n c f g (st : St), (forall x, f x = g x) -> run_repeat L n c f st = run_repeat L n c g st.
Proof.
  induction n; intros c f g st H; [reflexivity |]. cbn [run_repeat].
  rewrite <- H. destruct (f st) as [[] st'']; try reflexivity;
  destruct (ev_cnd L c st'') as [[[|] st' | v st'] | [v st']]; try reflexivity; apply IHn; assumption.
Qed.

Lemma while_bind : forall n c f (st : St), let o := fst (run_while L n c f st) in o <> OBreak /\ o <> OCont.
Proof.
  induction n; intros c f st; cbn [run_while]; [split; discriminate |].
  destruct (ev_cnd L c st) as [[[|] st' | v st'] | [v st']]; try (split; discriminate).
  destruct (f st') as [[] st'']; try (split; discriminate); apply IHn.
Qed.

Lemma repeat_bind : forall n c f (st : St), let o := fst (run_repeat L n c f st) in o <> OBreak /\ o <> OCont.
Proof.
  induction n; intros c f st; cbn [run_repeat]; [split; discriminate |].
  destruct (f st) as [[] st'']; try (split; discriminate);
  destruct (ev_cnd L c st'') as [[[|] st' | v st'] | [v st']]; try (split; discriminate); apply IHn.
Qed.

Lemma while_true_never : forall n c f (st : St), cnd_truthy c = true ->
  (forall x, fst (f x) <> OBreak) -> fst (run_while L n c f st) <> ONormal.
Proof.
  induction n; intros c f st Hc H; cbn [run_while]; [discriminate |].
  assert (ev_cnd L c st = inl (EVal true st)) as -> by (destruct c; cbn in *; subst; auto; discriminate).
  specialize (H st) as H'. destruct (f st) as [[] st'']; try discriminate; try (apply IHn; assumption).
  exfalso. apply H'. reflexivity.
Qed.

Lemma while_false : forall n c f g (st : St), cnd_falsy c = true -> run_while L n c f st = run_while L n c g st.
Proof.
  intros n c f g st Hc. destruct n; cbn [run_while]; [reflexivity |].
  assert (ev_cnd L c st = inl (EVal false st)) as ->; [| reflexivity].
  destruct c as [[] | [] |]; cbn in *; auto; discriminate.
Qed.

Lemma while_cnd : forall n c c' f (st : St), (forall x, ev_cnd L c x = ev_cnd L c' x) ->
  run_while L n c f st = run_while L n c' f st.
Proof.
  induction n; intros c c' f st H; [reflexivity |]. cbn [run_while]. rewrite <- H.
  destruct (ev_cnd L c st) as [[[|] st' | v st'] | [v st']]; try reflexivity.
  destruct (f st') as [[] st'']; try reflexivity; apply IHn; assumption.
Qed.

Lemma repeat_once : forall n c c' f (st : St), (forall x, fst (f x) <> ONormal /\ fst (f x) <> OCont) ->
  run_repeat L n c f st = run_repeat L n c' f st.
Proof.
  intros n c c' f st H. destruct n; [reflexivity |]. cbn [run_repeat].
  destruct (H st) as [H1 H2].
  destruct (f st) as [[] st'']; try reflexivity; exfalso; [apply H1 | apply H2]; reflexivity.
Qed.

Lemma repeat_never : forall n c f (st : St),
  (forall x, fst (f x) <> ONormal /\ fst (f x) <> OCont /\ fst (f x) <> OBreak) ->
  fst (run_repeat L n c f st) <> ONormal.
Proof.
  intros n c f st H. destruct n; cbn [run_repeat]; [discriminate |].
  destruct (H st) as (H1 & H2 & H3).
  destruct (f st) as [[] st'']; cbn [fst] in *; try discriminate; exfalso; auto.
Qed.

Definition good (n : nat) (s : stmt) : Prop := ok s = true -> forall st : St,
  (ends s <> None -> fst (exec L n s st) <> ONormal) /\
  (jumps true s = false -> fst (exec L n s st) <> OBreak) /\
  (jumps false s = false -> fst (exec L n s st) <> OCont) /\
  exec L n (fst (opt s)) st = exec L n s st.

Definition good_l (n : nat) (b : stmts) : Prop := ok_l b = true -> forall st : St,
  (ends_l b <> None -> fst (exec_l L n b st) <> ONormal) /\
  (jumps_l true b = false -> fst (exec_l L n b st) <> OBreak) /\
  (jumps_l false b = false -> fst (exec_l L n b st) <> OCont) /\
  (forall g, exec_l L n (fst (opt_scope g b)) st = exec_l L n b st).

Definition good_c (n : nat) (cs : cases) : Prop := ok_c cs = true ->
  let cs' := fst (fst (fst (opt_cases cs))) in
  (forall k (st : St),
  (ends_all cs = true -> fst (exec_from L n cs k st) <> ONormal) /\
  (cases_break cs = false -> fst (exec_from L n cs k st) <> OBreak) /\
  (jumps_c cs = false -> fst (exec_from L n cs k st) <> OCont) /\
  exec_from L n cs' k st = exec_from L n cs k st) /\
  (forall v k d st, select L v cs' k d st = select L v cs k d st).

Lemma exec_switch : forall n e cs st, exec L n (SSwitch e cs) st =
  match l_ev L e st with
  | EExc v st => (OThrow v, st)
  | EVal v st => match select L v cs 0 None st with
      | (SelExc x, st) => (OThrow x, st) | (SelNone, st) => (ONormal, st)
      | (SelCase k, st) => match exec_from L n cs k st with (OBreak, st) => (ONormal, st) | r => r end end end.
Proof. reflexivity. Qed.
Lemma exec_scope : forall n b st, exec L n (SScope b) st = exec_l L n b st.
Proof. reflexivity. Qed.

Lemma exec_cons : forall n s r st, exec_l L n (Cons s r) st =
  match exec L n s st with (ONormal, st) => exec_l L n r st | x => x end.
Proof. reflexivity. Qed.
Lemma exec_ccons : forall n t s nx r k st, exec_from L n (CCons t s nx r) k st =
  match k with
  | S k => exec_from L n r k st
  | O => match exec L n s st with
         | (ONormal, st) => match nx with NxNone => (ONormal, st) | _ => exec_from L n r 0 st end
         | (OFall, st) => exec_from L n r 0 st
         | x => x
         end
  end.
Proof. reflexivity. Qed.

Ltac four := split; [| split; [| split]].

Lemma main : forall n, (forall s, good n s) /\ (forall b, good_l n b) /\ (forall cs, good_c n cs).
Proof.
  intros n. apply stmt_mutind; unfold good, good_l, good_c.
  - intros _ st. cbn. four; congruence.
  - intros e _ st. cbn. four; try congruence; destruct (l_ev L e st); discriminate.
  - intros es H st. cbn in H. destruct es; [| discriminate]. cbn. four; congruence.
  - intros e _ st. cbn. four; try congruence; destruct (l_ev L e st); discriminate.
  - intros e _ st. cbn. four; try congruence; destruct (l_ev L e st); discriminate.
  - intros _ st. cbn. four; congruence.
  - intros _ st. cbn. four; congruence.
  - intros _ st. cbn. four; congruence.
  - (* scope *)
    intros b IH H st. rewrite exec_scope. cbn [ok ends jumps opt] in *. destruct (IH H st) as (A & B & C & D).
    specialize (D false). destruct (opt_scope false b) as [b' t]. cbn [fst] in *. rewrite exec_scope. auto.
  - (* if *)
    intros c s1 IH1 s2 IH2 H st. cbn [ok ok_l ok_c ends ends_l ends_all jumps jumps_l jumps_c exec exec_l exec_from opt opt_scope opt_cases] in *.
    destruct (cnd_truthy c) eqn:E1.
    { assert (ev_cnd L c st = inl (EVal true st)) as -> by (destruct c; cbn in *; subst; auto; discriminate).
      apply IH1; assumption. }
    destruct (cnd_falsy c) eqn:E2.
    { assert (ev_cnd L c st = inl (EVal false st)) as ->
        by (destruct c as [[] | [] |]; cbn in *; auto; discriminate).
      apply IH2; assumption. }
    apply andb_prop in H. destruct H as [H1 H2]. specialize (IH1 H1). specialize (IH2 H2).
    destruct (opt s1) as [s1' t1]. destruct (opt s2) as [s2' t2]. cbn [fst] in *; cbn [exec].
    destruct (ev_cnd L c st) as [[[|] st' | v st'] | [v st']].
    + destruct (IH1 st') as (A & B & C & D). four; [| | | assumption].
      * destruct (ends s1); [intros _; apply A; discriminate | congruence].
      * intros K. apply orb_false_elim in K. apply B, K.
      * intros K. apply orb_false_elim in K. apply C, K.
    + destruct (IH2 st') as (A & B & C & D). four; [| | | assumption].
      * destruct (ends s1), (ends s2); try congruence. intros _; apply A; discriminate.
      * intros K. apply orb_false_elim in K. apply B, K.
      * intros K. apply orb_false_elim in K. apply C, K.
    + cbn. four; discriminate || reflexivity.
    + cbn. four; discriminate || reflexivity.
  - (* repeat *)
    intros s IH c H st. cbn [ok ok_l ok_c ends ends_l ends_all jumps jumps_l jumps_c exec exec_l exec_from opt opt_scope opt_cases] in *.
    apply andb_prop in H. destruct H as [H1 H2]. specialize (IH H1).
    pose proof (opt_ends s) as He. destruct (opt s) as [s' t]. cbn [fst snd exec] in *.
    destruct (repeat_bind n c (exec L n s) st) as [K1 K2].
    four; try (intros; assumption).
    + destruct (ends s) as [[|] |] eqn:E; try congruence. intros _. apply andb_prop in H2. destruct H2 as [H2 H3].
      cbn [orb] in H3. apply negb_true_iff in H2, H3. apply repeat_never. intros x.
      destruct (IH x) as (A & B & C & D). repeat split; auto. apply A. discriminate.
    + etransitivity; [apply repeat_ext; intros x; apply (IH x) |].
      destruct (is_term t) eqn:Et; [| reflexivity].
      unfold cls in He. rewrite Et in He. rewrite <- He in H2. apply andb_prop in H2. destruct H2 as [H2 _].
      apply negb_true_iff in H2. apply repeat_once. intros x. destruct (IH x) as (A & B & C & D).
      split; [| auto]. apply A. rewrite <- He. discriminate.
  - (* while *)
    intros c s IH H st. cbn [ok ok_l ok_c ends ends_l ends_all jumps jumps_l jumps_c exec exec_l exec_from opt opt_scope opt_cases] in *.
    destruct (while_bind n c (exec L n s) st) as [K1 K2].
    destruct (cnd_falsy c) eqn:Ef.
    { assert (cnd_truthy c = false) as Et by (destruct c as [[] | [] |]; cbn in *; auto; discriminate).
      rewrite Et. four; try (intros; assumption); [congruence |].
      cbn [negb orb fst]. change (is_term TERM_NONE) with false. cbn [andb fst exec].
      apply while_false; assumption. }
    apply andb_prop in H. destruct H as [H1 H2]. specialize (IH H1).
    pose proof (opt_ends s) as He. destruct (opt s) as [s' t]. cbn [fst snd exec] in *.
    four; try (intros; assumption).
    + destruct (cnd_truthy c) eqn:Et; [| congruence].
      destruct (ends s) as [[|] |] eqn:E; try congruence. intros _. cbn [negb orb] in H2.
      apply negb_true_iff in H2. apply while_true_never; [assumption |]. intros x.
      destruct (IH x) as (A & B & C & D). auto.
    + etransitivity; [apply while_ext; intros x; apply (IH x) |].
      match goal with |- context [is_term ?u && _] => destruct (is_term u && negb (is_literal c)) eqn:Eu end; [| reflexivity].
      apply while_cnd. intros x. apply andb_prop in Eu. destruct Eu as [Eu _].
      destruct (cnd_truthy c) eqn:Et; [| discriminate].
      destruct c; cbn in *; subst; auto; discriminate.
  - (* for *)
    intros e nx s IH H st. cbn [ok ends jumps exec opt fst] in *. specialize (IH H).
    destruct (l_ev L e st) as [v st' | v st'].
    + destruct (while_bind n (KExpr nx) (exec L n s) st') as [K1 K2].
      four; try (intros; assumption); [congruence |]. apply while_ext. intros x. apply (IH x).
    + cbn. four; congruence || (intros; discriminate).
  - (* try *)
    intros s IH1 x h IH2 H st. cbn [ok ok_l ok_c ends ends_l ends_all jumps jumps_l jumps_c exec exec_l exec_from opt opt_scope opt_cases] in *.
    apply andb_prop in H. destruct H as [H1 H2]. specialize (IH1 H1 st). specialize (IH2 H2).
    destruct (opt s) as [s' t1]. destruct (opt h) as [h' t2]. cbn [fst] in *; cbn [exec].
    destruct IH1 as (A & B & C & D). rewrite D.
    assert (P1 : forall a b : option bool,
      (match a, b with Some x, Some y => Some (x || y) | _, _ => None end) <> None -> a <> None /\ b <> None).
    { intros [] []; intros Q; try congruence; split; discriminate. }
    destruct (exec L n s st) as [o st']; cbn [fst] in *.
    destruct o; cbn [fst];
      try (four; [intros Q; apply P1 in Q; apply A, Q | intros Q; apply orb_false_elim in Q; apply B, Q
             | intros Q; apply orb_false_elim in Q; apply C, Q | reflexivity]).
    destruct (IH2 (l_set L x v st')) as (A' & B' & C' & D').
    four; [intros Q; apply P1 in Q; apply A', Q | intros Q; apply orb_false_elim in Q; apply B', Q
             | intros Q; apply orb_false_elim in Q; apply C', Q | assumption].
  - (* defer *)
    intros s IH1 d IH2 H st. cbn [ok ok_l ok_c ends ends_l ends_all jumps jumps_l jumps_c exec exec_l exec_from opt opt_scope opt_cases] in *.
    apply andb_prop in H. destruct H as [H1 H2]. specialize (IH1 H1 st). specialize (IH2 H2).
    destruct (opt s) as [s' t1]. destruct (opt d) as [d' t2]. cbn [fst] in *; cbn [exec].
    destruct IH1 as (A & B & C & D). rewrite D.
    destruct (exec L n s st) as [o st']; cbn [fst] in *.
    destruct (IH2 st') as (A' & B' & C' & D'). rewrite D'.
    destruct (exec L n d st') as [o' st'']; cbn [fst] in *.
    destruct o; destruct o'; cbn [fst];
      (four; [intros Q; try (apply A'; assumption); try discriminate; exfalso; apply (A' Q); reflexivity
             | intros Q; apply orb_false_elim in Q; (apply B', Q || apply B, Q || discriminate)
             | intros Q; apply orb_false_elim in Q; (apply C', Q || apply C, Q || discriminate) | reflexivity]).
  - (* switch *)
    intros e cs IH H st. rewrite exec_switch. cbn [ok ok_l ok_c ends ends_l ends_all jumps jumps_l jumps_c opt opt_scope opt_cases] in *.
    apply andb_prop in H. destruct H as [H1 H2]. destruct (IH H1) as [IH1 IH2].
    pose proof (proj2 (proj2 opt_class) cs) as Hc.
    destruct (opt_cases cs) as [[[cs' d] all] t]. cbn [fst snd] in *. rewrite exec_switch.
    destruct Hc as (Hd & Ha & _ & _ & _).
    assert (D : forall st, match l_ev L e st with
      | EExc v st => (OThrow v, st)
      | EVal v st => match select L v cs' 0 None st with
          | (SelExc x, st) => (OThrow x, st) | (SelNone, st) => (ONormal, st)
          | (SelCase k, st) => match exec_from L n cs' k st with (OBreak, st) => (ONormal, st) | r => r end end end =
      match l_ev L e st with
      | EExc v st => (OThrow v, st)
      | EVal v st => match select L v cs 0 None st with
          | (SelExc x, st) => (OThrow x, st) | (SelNone, st) => (ONormal, st)
          | (SelCase k, st) => match exec_from L n cs k st with (OBreak, st) => (ONormal, st) | r => r end end end).
    { intros x. destruct (l_ev L e x) as [v st' | v st']; [| reflexivity]. rewrite IH2.
      destruct (select L v cs 0 None st') as [[k | | w] st'']; try reflexivity.
      destruct (IH1 k st'') as (_ & _ & _ & ->). reflexivity. }
    split; [| split; [| split; [| exact (D st)]]].
    + destruct (has_default cs && ends_all cs) eqn:E; [| congruence]. intros _. cbn [negb orb] in H2.
      apply negb_true_iff in H2. apply andb_prop in E. destruct E as [E1 E2].
      destruct (l_ev L e st) as [v st' | v st']; [| discriminate].
      destruct (select L v cs 0 None st') as [[k | | w] st''] eqn:Es; try discriminate.
      * destruct (IH1 k st'') as (A & B & C & _). specialize (A E2). specialize (B H2).
        destruct (exec_from L n cs k st'') as [[] st3]; cbn [fst] in *; try discriminate; congruence.
      * exfalso. clear -E1 Es. assert (G : forall cs k (d : option nat) st', (d <> None \/ has_default cs = true) ->
          fst (select L v cs k d st') <> SelNone).
        { clear. induction cs as [| [e' |] s nx r IHr]; intros k d st' [Q | Q]; cbn [select has_default] in *;
            try (destruct d; discriminate || congruence).
          - destruct (l_ev L e' st'); [| discriminate]. destruct (l_eq L v v0); [discriminate |]. apply IHr; auto.
          - destruct (l_ev L e' st'); [| discriminate]. destruct (l_eq L v v0); [discriminate |]. apply IHr; auto.
          - apply IHr. left. discriminate.
          - apply IHr. left. discriminate. }
        specialize (G cs 0%nat None st' (or_intror E1)). rewrite Es in G. apply G. reflexivity.
    + intros _. destruct (l_ev L e st) as [v st' | v st']; [| discriminate].
      destruct (select L v cs 0 None st') as [[k | | w] st'']; try discriminate.
      destruct (exec_from L n cs k st'') as [[] st3]; discriminate.
    + intros Q. destruct (l_ev L e st) as [v st' | v st']; [| discriminate].
      destruct (select L v cs 0 None st') as [[k | | w] st'']; try discriminate.
      destruct (IH1 k st'') as (A & B & C & _). specialize (C Q).
      destruct (exec_from L n cs k st'') as [[] st3]; cbn [fst] in *; congruence.
  - (* Nil *) intros _ st. cbn. four; congruence.
  - (* Cons *)
    intros s IH1 r IH2 H st. rewrite exec_cons. cbn [ok_l ends_l jumps_l opt_scope] in *.
    apply andb_prop in H. destruct H as [H1 H2]. specialize (IH1 H1).
    pose proof (opt_ends s) as He. destruct (IH1 st) as (A & B & C & D).
    destruct (ends s) as [x |] eqn:Ee.
    + assert (Hn : fst (exec L n s st) <> ONormal) by (apply A; discriminate). four.
      * intros _. destruct (exec L n s st) as [[] st']; cbn [fst] in *; congruence.
      * intros Q. rewrite orb_false_r in Q. specialize (B Q).
        destruct (exec L n s st) as [[] st']; cbn [fst] in *; congruence.
      * intros Q. rewrite orb_false_r in Q. specialize (C Q).
        destruct (exec L n s st) as [[] st']; cbn [fst] in *; congruence.
      * intros g. assert (is_dummy s = false) as -> by (destruct s; cbn in *; congruence). cbn [andb].
        destruct (opt s) as [s' t]. cbn [fst snd] in *. destruct (cls_some _ _ He) as [-> _].
        cbn [fst]. rewrite exec_cons, D. destruct (exec L n s st) as [[] st']; cbn [fst] in *; congruence.
    + specialize (IH2 H2). four.
      * intros Q. destruct (exec L n s st) as [[] st']; cbn [fst] in *; try discriminate. apply (IH2 st'), Q.
      * intros Q. apply orb_false_elim in Q. destruct Q as [Q1 Q2]. specialize (B Q1).
        destruct (exec L n s st) as [[] st']; cbn [fst] in *; try congruence. apply (IH2 st'), Q2.
      * intros Q. apply orb_false_elim in Q. destruct Q as [Q1 Q2]. specialize (C Q1).
        destruct (exec L n s st) as [[] st']; cbn [fst] in *; try congruence. apply (IH2 st'), Q2.
      * intros g. destruct (is_dummy s && (has_next r || negb g)) eqn:Ed.
        -- apply andb_prop in Ed. destruct Ed as [Ed _]. destruct s; try discriminate. cbn [ok] in H1.
           destruct es; [| discriminate]. cbn [exec ev_all]. apply IH2.
        -- destruct (opt s) as [s' t]. cbn [fst snd] in *. rewrite (cls_none _ He).
           assert (G : forall st', exec_l L n (fst (opt_scope g r)) st' = exec_l L n r st') by (intros; apply IH2).
           destruct (opt_scope g r) as [r' t']. cbn [fst] in *. rewrite exec_cons, D.
           destruct (exec L n s st) as [[] st']; try reflexivity. apply G.
  - (* CNil *) intros _. cbn. split; [intros; four; discriminate || reflexivity | reflexivity].
  - (* CCons *)
    intros t s IH1 nx r IH2 H. cbn [ok_c opt_cases] in *.
    apply andb_prop in H. destruct H as [H1 H2]. specialize (IH1 H1). destruct (IH2 H2) as [IH3 IH4].
    clear IH2. pose proof (opt_ends s) as He. destruct (opt s) as [s' k0]. cbn [fst snd] in *.
    destruct (opt_cases r) as [[[r' d] all] tr]. cbn [fst snd] in *. split.
    + intros k st. rewrite !exec_ccons. cbn [ends_all cases_break jumps_c]. destruct k as [| k].
      * destruct (IH1 st) as (A & B & C & D). destruct (IH3 0%nat) with (st := snd (exec L n s st)) as (A' & B' & C' & D').
        rewrite D. four.
        -- intros Q. destruct (ends s) as [[|] |]; try discriminate. assert (A1 := A ltac:(discriminate)). clear A.
           specialize (A' Q). destruct (exec L n s st) as [[] st']; cbn [fst snd] in *; congruence.
        -- intros Q. apply orb_false_elim in Q. destruct Q as [Q1 Q2]. specialize (B Q1). specialize (B' Q2).
           destruct (exec L n s st) as [[] st']; cbn [fst snd] in *; try congruence. destruct nx; cbn [fst]; congruence.
        -- intros Q. apply orb_false_elim in Q. destruct Q as [Q1 Q2]. specialize (C Q1). specialize (C' Q2).
           destruct (exec L n s st) as [[] st']; cbn [fst snd] in *; try congruence. destruct nx; cbn [fst]; congruence.
        -- destruct (exec L n s st) as [[] st']; cbn [fst snd] in *; try reflexivity; try assumption.
           destruct nx; try reflexivity; destruct (is_term k0); assumption.
      * destruct (IH3 k st) as (A' & B' & C' & D'). four; [| | | assumption].
        -- intros Q. apply A'. destruct (ends s) as [[|] |]; congruence.
        -- intros Q. apply orb_false_elim in Q. apply B', Q.
        -- intros Q. apply orb_false_elim in Q. apply C', Q.
    + intros v k dd st. cbn [select]. destruct t; [| apply IH4].
      destruct (l_ev L z st); [| reflexivity]. destruct (l_eq L v v0); [reflexivity | apply IH4].
Qed.
End P.
