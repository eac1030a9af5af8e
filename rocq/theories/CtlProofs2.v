(* The code of statements does what the statements do *)
From Coq Require Import ZArith List Lia Bool ZifyBool.
From Verif Require Import Base ListZ DeadModel DeadSpec DeadProofs DeadProofs2 CtlModel CtlSpec CtlProofs.
Import ListNotations.
Local Open Scope Z_scope.
Ltac Zify.zify_post_hook ::= idtac.

Section SIM.
Context {V St : Type} (L : lang V St).
Notation conf := (conf V St).
Notation outcome := (outcome V).

(* ---- runs ---- *)

Definition reach (C : list instr) (m : nat) (a : conf) (Q : conf -> Prop) : Prop :=
  exists k x, (m <= k)%nat /\ run L C k a = Some x /\ Q x.

Lemma run_app C k1 : forall k2 a x, run L C k1 a = Some x -> run L C (k1 + k2) a = run L C k2 x.
Proof.
  induction k1 as [|k1 IH]; intros k2 a x H; cbn [run Nat.add] in *; [congruence|].
  destruct (step L C a); [apply IH, H|discriminate].
Qed.

Lemma reach_here C a (Q : conf -> Prop) : Q a -> reach C 0 a Q.
Proof. intros H. exists O, a. auto. Qed.

Lemma reach_le C m m' a Q : (m' <= m)%nat -> reach C m a Q -> reach C m' a Q.
Proof. intros H (k & x & Hk & Hr & Hq). exists k, x. split; [lia|auto]. Qed.

Lemma reach_bind C m1 m2 m a Q1 (Q2 : conf -> Prop) : (m <= m1 + m2)%nat -> reach C m1 a Q1 ->
  (forall x, Q1 x -> reach C m2 x Q2) -> reach C m a Q2.
Proof.
  intros Hm (k & x & Hk & Hr & Hq) H. destruct (H x Hq) as (k2 & y & Hk2 & Hr2 & Hq2).
  exists (k + k2)%nat, y. split; [lia|]. split; [|assumption]. rewrite (run_app C k k2 a x Hr). assumption.
Qed.

Lemma reach_imp C m a (Q1 Q2 : conf -> Prop) : (forall x, Q1 x -> Q2 x) -> reach C m a Q1 -> reach C m a Q2.
Proof. intros H (k & x & Hk & Hr & Hq). exists k, x. auto. Qed.

Lemma reach_step C m m' a a' Q : step L C a = Some a' -> (m' <= S m)%nat -> reach C m a' Q -> reach C m' a Q.
Proof.
  intros H Hm (k & x & Hk & Hr & Hq). exists (S k), x. split; [lia|]. cbn [run]. rewrite H. auto.
Qed.

Lemma step_at C pc i l ct rg st : code_at C pc (i :: l) -> step L C (CRun pc ct rg st) = exec_instr L i pc ct rg st.
Proof. intros H. cbn [step]. rewrite (code_fetch C pc i l H). reflexivity. Qed.

(* ---- the states between statements ---- *)

Definition same (d : Z) (rg rg' : Z -> rv V) : Prop := forall r, r < d -> rg' r = rg r.

Lemma same_refl d rg : same d rg rg.
Proof. intros r _. reflexivity. Qed.
Lemma same_trans d a b c : same d a b -> same d b c -> same d a c.
Proof. intros H1 H2 r Hr. rewrite H2, H1; auto. Qed.
Lemma same_set d rg r x : d <= r -> same d rg (set rg r x).
Proof. intros H y Hy. unfold set. destruct (y =? r) eqn:Q; [lia|reflexivity]. Qed.
Lemma same_le d d' a b : d' <= d -> same d a b -> same d' a b.
Proof. intros H1 H2 r Hr. apply H2. lia. Qed.
Lemma set_same rg r (x : rv V) : set rg r x r = x.
Proof. unfold set. rewrite Z.eqb_refl. reflexivity. Qed.
Lemma set_other rg r y (x : rv V) : y <> r -> set rg r x y = rg y.
Proof. intros H. unfold set. destruct (y =? r) eqn:Q; [lia|reflexivity]. Qed.

Definition cat (c : ctx) (t : option Z) : option (Z * Z) := option_map (fun r => (r, c_hnd c r)) t.
Definition cur (c : ctx) : option (Z * Z) := cat c (h_try (c_sh c)).

Definition lt_o (o : option Z) (d : Z) : Prop := match o with Some r => r < d | None => True end.
Definition lt_q (q : option (option Z)) (d : Z) : Prop := match q with Some o => lt_o o d | None => True end.
Definition wf (c : ctx) (b cn f : option (option Z)) : Prop :=
  let h := c_sh c in
  lt_o (h_try h) (h_dep h) /\ lt_o (h_last h) (h_dep h) /\ lt_o (h_ret h) (h_dep h) /\
  lt_q b (h_dep h) /\ lt_q cn (h_dep h) /\ lt_q f (h_dep h).

Definition good_q (c : ctx) (q : option (option Z)) (ct : option (Z * Z)) : Prop :=
  match q with None => True | Some t => ct = cat c t end.

Definition post (c : ctx) (b cn f : option (option Z)) (pe : Z) (rg : Z -> rv V) (o : outcome) (st : St)
  (x : conf) : Prop :=
  let h := c_sh c in
  match o with
  | ONormal => exists rg', x = CRun pe (cur c) rg' st /\ same (h_dep h) rg rg'
  | OBreak => exists rg' ct, x = CRun (c_brk c) ct rg' st /\ same (h_dep h) rg rg' /\ good_q c b ct
  | OCont => exists rg' ct, x = CRun (c_cont c) ct rg' st /\ same (h_dep h) rg rg' /\ good_q c cn ct
  | OFall => exists rg' ct, x = CRun (c_fall c) ct rg' st /\ same (h_dep h) rg rg' /\ good_q c f ct
  | ORet v => match h_ret h with
              | None => x = CRet v st
              | Some q => exists rg' ct, x = CRun (c_rpc c) ct rg' st /\ rg' q = RVal v /\
                  (forall r, r < h_dep h -> Some r <> h_try h -> Some r <> h_ret h -> rg' r = rg r)
              end
  | OThrow v => match h_try h with
                | None => x = CThrow v st
                | Some t => exists rg', x = CRun (c_hnd c t) None rg' st /\ rg' t = RExc v /\
                    (forall r, r < h_dep h -> Some r <> h_try h -> rg' r = rg r)
                end
  | OFuel => conf_st x = st
  end.

Definition lb (n : nat) (o : outcome) : nat :=
  match o with OFuel => pred n | OBreak | OCont | OFall => 1 | _ => 0 end.

Definition sim (n : nat) (s : stmt) : Prop :=
  forall c pc C rg st b cn f, wf c b cn f -> code_at C pc (gen c pc s) ->
    fits (c_sh c) b cn f s = true ->
    forall o st', exec L n s st = (o, st') ->
    reach C (lb n o) (CRun pc (cur c) rg st) (post c b cn f (pc + size (c_sh c) s) rg o st').
Definition sim_l (n : nat) (l : stmts) : Prop :=
  forall c pc C rg st b cn f, wf c b cn f -> code_at C pc (gen_l c pc l) ->
    fits_l (c_sh c) b cn f l = true ->
    forall o st', exec_l L n l st = (o, st') ->
    reach C (lb n o) (CRun pc (cur c) rg st) (post c b cn f (pc + size_l (c_sh c) l) rg o st').

Fixpoint sim_c (n : nat) (cs : cases) : Prop :=
  match cs with CNil => True | CCons _ s _ r => sim n s /\ sim_c n r end.

Lemma post_rg c b cn f pe rg rg' o st x : same (h_dep (c_sh c)) rg rg' ->
  post c b cn f pe rg' o st x -> post c b cn f pe rg o st x.
Proof.
  intros H. unfold post. destruct o; auto.
  - intros (r1 & -> & H1). eauto using same_trans.
  - intros (r1 & ct & -> & H1 & H2). exists r1, ct. eauto using same_trans.
  - intros (r1 & ct & -> & H1 & H2). exists r1, ct. eauto using same_trans.
  - intros (r1 & ct & -> & H1 & H2). exists r1, ct. eauto using same_trans.
  - destruct (h_ret (c_sh c)); auto. intros (r1 & ct & -> & H1 & H2). exists r1, ct. split; [reflexivity|]. split; [assumption|].
    intros r Hr Ht Hq. rewrite H2 by assumption. apply H, Hr.
  - destruct (h_try (c_sh c)); auto. intros (r1 & -> & H1 & H2). exists r1. split; [reflexivity|]. split; [assumption|].
    intros r Hr Ht. rewrite H2 by assumption. apply H, Hr.
Qed.

(* an exception in the code of a statement *)
Lemma raise_post c b cn f pe rg rg' v st : wf c b cn f -> same (h_dep (c_sh c)) rg rg' ->
  post c b cn f pe rg (OThrow v) st (raise v (cur c) rg' st).
Proof.
  intros W H. cbn [post]. unfold cur, cat. destruct (h_try (c_sh c)) as [t|] eqn:T; cbn [option_map raise]; [|reflexivity].
  eexists. split; [reflexivity|]. split; [apply set_same|]. intros r Hr Hn. rewrite set_other by congruence. apply H, Hr.
Qed.

(* ---- single instructions ---- *)

Lemma reach_eval C pc r e l ct rg st m (Q : conf -> Prop) : code_at C pc (IEval r e :: l) ->
  match l_ev L e st with
  | EVal v st' => reach C m (CRun (pc + 1) ct (set rg r (RVal v)) st') Q
  | EExc v st' => reach C m (raise v ct rg st') Q
  end -> reach C (S m) (CRun pc ct rg st) Q.
Proof.
  intros Hc H. destruct (l_ev L e st) as [v st'|v st'] eqn:Hv; (eapply reach_step; [rewrite (step_at _ _ _ _ _ _ _ Hc); cbn [exec_instr]; rewrite Hv; reflexivity| |exact H]; lia).
Qed.

Lemma reach_jump C pc t l ct rg st m (Q : conf -> Prop) : code_at C pc (IJump t :: l) ->
  reach C m (CRun t ct rg st) Q -> reach C (S m) (CRun pc ct rg st) Q.
Proof. intros Hc H. eapply reach_step; [rewrite (step_at _ _ _ _ _ _ _ Hc); reflexivity| |exact H]. lia. Qed.

Lemma reach_restore C pc c t l ct rg st m (Q : conf -> Prop) : code_at C pc (restore c t :: l) ->
  reach C m (CRun (pc + 1) (cat c t) rg st) Q -> reach C (S m) (CRun pc ct rg st) Q.
Proof.
  intros Hc H. eapply reach_step; [rewrite (step_at _ _ _ _ _ _ _ Hc)| |exact H]; [|lia].
  destruct t; reflexivity.
Qed.

Lemma ev_cnd_shape k st : (exists b st', ev_cnd L k st = inl (EVal b st')) \/ exists v st', ev_cnd L k st = inr (v, st').
Proof. destruct k as [b|b|e]; cbn [ev_cnd]; [left; eauto|left; eauto|]. destruct (l_ev L e st); [left|right]; eauto. Qed.

(* conditional jumps *)
Lemma reach_cj C pc op k r t d ct rg st m (Q : conf -> Prop) : code_at C pc (gen_cj op k r t) -> d <= r ->
  match ev_cnd L k st with
  | inl (EVal b st') =>
      forall rg', same d rg rg' ->
      if Bool.eqb b op then reach C (pred m) (CRun t ct rg' st') Q else reach C m (CRun (pc + cj_size op k) ct rg' st') Q
  | inr (v, st') => reach C m (raise v ct rg st') Q
  | inl (EExc _ _) => True
  end -> reach C m (CRun pc ct rg st) Q.
Proof.
  intros Hc Hd H. destruct k as [b|b|e]; cbn [gen_cj ev_cnd cj_size] in *.
  - specialize (H rg (same_refl _ _)). destruct (Bool.eqb b op).
    + apply (reach_le C (S (pred m)) m); [lia|]. eapply reach_jump; eassumption.
    + rewrite Z.add_0_r in H. exact H.
  - specialize (H rg (same_refl _ _)). destruct (Bool.eqb b op).
    + apply (reach_le C (S (pred m)) m); [lia|]. eapply reach_jump; eassumption.
    + rewrite Z.add_0_r in H. exact H.
  - apply (reach_le C (S m) m); [lia|]. eapply reach_eval; [exact Hc|].
    destruct (l_ev L e st) as [v st'|v st']; [|exact H].
    specialize (H (set rg r (RVal v)) (same_set d rg r (RVal v) Hd)).
    pose proof (code_tail _ _ _ _ Hc) as Hc'.
    replace (pc + 2) with (pc + 1 + 1) in H by lia.
    destruct op, (l_true L v) eqn:Ht; cbn [Bool.eqb] in H;
      (eapply reach_step; [rewrite (step_at _ _ _ _ _ _ _ Hc'); cbn [exec_instr]; rewrite set_same; cbn [rtrue]; rewrite Ht; reflexivity| |exact H]); lia.
Qed.

(* ---- loops ---- *)

Definition other (o : outcome) : Prop :=
  match o with ONormal | OBreak | OCont => False | _ => True end.

Lemma post_loop c c' b cn f pe pe' rg o st x q1 q2 : other o ->
  c_sh c' = in_loop (c_sh c) -> c_hnd c' = c_hnd c -> c_fall c' = c_fall c -> c_rpc c' = c_rpc c ->
  post c' q1 q2 f pe' rg o st x -> post c b cn f pe rg o st x.
Proof.
  intros Ho Hs Hh Hf Hr. unfold post, good_q, cat. rewrite Hs, Hh, Hf, Hr.
  cbn [in_loop h_dep h_try h_ret]. destruct o; try destruct Ho; auto.
Qed.

Lemma cur_loop c c' : c_sh c' = in_loop (c_sh c) -> c_hnd c' = c_hnd c -> cur c' = cur c.
Proof. intros Hs Hh. unfold cur, cat. rewrite Hs, Hh. reflexivity. Qed.

Section LOOP.
Variables (C : list instr) (c c' : ctx) (b cn f : option (option Z)) (N : nat) (k : cnd).
Variables (body : St -> outcome * St) (pA p1 pB p2 : Z).
Notation d := (h_dep (c_sh c)).
Notation t := (h_try (c_sh c)).
Hypothesis W : wf c b cn f.
Hypothesis Hs : c_sh c' = in_loop (c_sh c).
Hypothesis Hh : c_hnd c' = c_hnd c.
Hypothesis Hf : c_fall c' = c_fall c.
Hypothesis Hr : c_rpc c' = c_rpc c.
Hypothesis Hb : c_brk c' = p2.
Hypothesis HB : code_at C pB (gen_cj true k d p1).
Hypothesis H2 : p2 = pB + cj_size true k.
Hypothesis body_sim : forall st rg o st', body st = (o, st') ->
  reach C (lb N o) (CRun p1 (cur c) rg st) (post c' (Some t) (Some t) f pB rg o st').

(* the body, then what follows *)
Lemma body_then st rg o st' m (Q : conf -> Prop) : body st = (o, st') ->
  (o = ONormal -> forall rg', same d rg rg' -> reach C m (CRun pB (cur c) rg' st') Q) ->
  (o = OCont -> forall rg', same d rg rg' -> reach C (pred m) (CRun (c_cont c') (cur c) rg' st') Q) ->
  (o = OBreak -> forall rg', same d rg rg' -> reach C (pred m) (CRun p2 (cur c) rg' st') Q) ->
  (other o -> (m <= lb N o)%nat /\ forall x, post c b cn f p2 rg o st' x -> Q x) ->
  reach C m (CRun p1 (cur c) rg st) Q.
Proof.
  intros Hx Hn Hc Hk Ho. pose proof (body_sim st rg o st' Hx) as R.
  assert (Hd : h_dep (c_sh c') = d) by (rewrite Hs; reflexivity).
  destruct o.
  - eapply (reach_bind C 0 m); [lia|exact R|]. intros x (rg' & -> & S1).
    rewrite Hd in S1. rewrite (cur_loop c c') by assumption. apply Hn; auto.
  - eapply (reach_bind C 1 (pred m)); [lia|exact R|]. intros x (rg' & ct & -> & S1 & G). rewrite Hd in S1.
    cbn [good_q] in G. subst ct. rewrite Hb. unfold cat. rewrite Hh. apply Hk; auto.
  - eapply (reach_bind C 1 (pred m)); [lia|exact R|]. intros x (rg' & ct & -> & S1 & G). rewrite Hd in S1.
    cbn [good_q] in G. subst ct. unfold cat. rewrite Hh. apply Hc; auto.
  - destruct (Ho I) as [Hm HQ]. eapply reach_le; [exact Hm|]. eapply reach_imp; [|exact R]. intros x P. apply HQ. eapply post_loop; eauto; exact I.
  - destruct (Ho I) as [Hm HQ]. eapply reach_le; [exact Hm|]. eapply reach_imp; [|exact R]. intros x P. apply HQ. eapply post_loop; eauto; exact I.
  - destruct (Ho I) as [Hm HQ]. eapply reach_le; [exact Hm|]. eapply reach_imp; [|exact R]. intros x P. apply HQ. eapply post_loop; eauto; exact I.
  - destruct (Ho I) as [Hm HQ]. eapply reach_le; [exact Hm|]. eapply reach_imp; [|exact R]. intros x P. apply HQ. eapply post_loop; eauto; exact I.
Qed.

Lemma normal_here rg rg' st : same d rg rg' -> reach C 0 (CRun p2 (cur c) rg' st) (post c b cn f p2 rg ONormal st).
Proof. intros H. apply reach_here. exists rg'. auto. Qed.

Lemma loop_while : c_cont c' = pA -> code_at C pA (gen_cj false k d p2) -> p1 = pA + cj_size false k ->
  forall m, (m <= N)%nat -> forall st rg o st', run_while L m k body st = (o, st') ->
  reach C (lb m o) (CRun pA (cur c) rg st) (post c b cn f p2 rg o st') /\
  reach C (lb (S m) o) (CRun pB (cur c) rg st) (post c b cn f p2 rg o st').
Proof.
  intros Hc HA H1. induction m as [|m IH]; intros Hm st rg o st' H; cbn [run_while] in H.
  - assert (o = OFuel /\ st = st') as [-> ->] by (split; congruence). cbn [lb pred].
    split; apply reach_here; reflexivity.
  - (* the rest of the iteration, from the start of the body *)
    assert (G : forall st1 rg1, same d rg rg1 ->
      match body st1 with
      | (ONormal, st) | (OCont, st) => run_while L m k body st
      | (OBreak, st) => (ONormal, st)
      | r => r
      end = (o, st') -> reach C (lb (S m) o) (CRun p1 (cur c) rg1 st1) (post c b cn f p2 rg o st')).
    { intros st1 rg1 S1 E1. destruct (body st1) as [o1 s1] eqn:Eb.
      apply (body_then st1 rg1 o1 s1); [assumption| | | |].
      - intros -> rg' S2. destruct (IH ltac:(lia) s1 rg' o st' E1) as [_ R].
        eapply reach_imp; [|exact R]. intros x. apply post_rg. eauto using same_trans.
      - intros -> rg' S2. rewrite Hc. destruct (IH ltac:(lia) s1 rg' o st' E1) as [R _].
        eapply reach_le; [|eapply reach_imp; [|exact R]]; [destruct o; cbn [lb]; lia|].
        intros x. apply post_rg. eauto using same_trans.
      - intros -> rg' S2. assert (o = ONormal /\ s1 = st') as [-> ->] by (split; congruence).
        cbn [lb pred]. apply normal_here. eauto using same_trans.
      - intros Ho. assert (o1 = o /\ s1 = st') as [-> ->] by (destruct o1; try destruct Ho; split; congruence).
        split; [destruct o; cbn [lb]; lia|]. intros x. apply post_rg, S1. }
    destruct (ev_cnd_shape k st) as [(bb & st1 & Ev)|(v & st1 & Ev)]; rewrite Ev in H.
    + split.
      * eapply (reach_cj C pA false k d p2 d); [exact HA|lia|]. rewrite Ev. intros rg1 S1. destruct bb; cbn [Bool.eqb].
        -- rewrite <- H1. apply G; assumption.
        -- assert (o = ONormal /\ st1 = st') as [-> ->] by (split; congruence). apply normal_here, S1.
      * eapply (reach_cj C pB true k d p1 d); [exact HB|lia|]. rewrite Ev. intros rg1 S1. destruct bb; cbn [Bool.eqb].
        -- eapply reach_le; [|apply G; eassumption]. destruct o; cbn [lb]; lia.
        -- assert (o = ONormal /\ st1 = st') as [-> ->] by (split; congruence). rewrite <- H2. apply normal_here, S1.
    + assert (o = OThrow v /\ st1 = st') as [-> ->] by (split; congruence). split.
      * eapply (reach_cj C pA false k d p2 d); [exact HA|lia|]. rewrite Ev. apply reach_here, raise_post; [assumption|apply same_refl].
      * eapply (reach_cj C pB true k d p1 d); [exact HB|lia|]. rewrite Ev. apply reach_here, raise_post; [assumption|apply same_refl].
Qed.

Lemma loop_tail : c_cont c' = pB ->
  forall m, (m <= N)%nat -> forall st rg o st', run_while L m k body st = (o, st') ->
  reach C (lb m o) (CRun pB (cur c) rg st) (post c b cn f p2 rg o st').
Proof.
  intros Hc. induction m as [|m IH]; intros Hm st rg o st' H; cbn [run_while] in H.
  - assert (o = OFuel /\ st = st') as [-> ->] by (split; congruence). apply reach_here; reflexivity.
  - destruct (ev_cnd_shape k st) as [(bb & st1 & Ev)|(v & st1 & Ev)]; rewrite Ev in H;
      (eapply (reach_cj C pB true k d p1 d); [exact HB|lia|]); rewrite Ev.
    + intros rg1 S1. destruct bb; cbn [Bool.eqb].
      * destruct (body st1) as [o1 s1] eqn:Eb.
        apply (body_then st1 rg1 o1 s1); [assumption| | | |].
        -- intros -> rg' S2. eapply reach_le; [|eapply reach_imp; [|apply (IH ltac:(lia) s1 rg' o st' H)]]; [destruct o; cbn [lb]; lia|].
           intros x. apply post_rg. eauto using same_trans.
        -- intros -> rg' S2. rewrite Hc. eapply reach_le; [|eapply reach_imp; [|apply (IH ltac:(lia) s1 rg' o st' H)]]; [destruct o; cbn [lb]; lia|].
           intros x. apply post_rg. eauto using same_trans.
        -- intros -> rg' S2. assert (o = ONormal /\ s1 = st') as [-> ->] by (split; congruence).
           cbn [lb pred]. apply normal_here. eauto using same_trans.
        -- intros Ho. assert (o1 = o /\ s1 = st') as [-> ->] by (destruct o1; try destruct Ho; split; congruence).
           split; [destruct o; cbn [lb]; lia|]. intros x. apply post_rg, S1.
      * assert (o = ONormal /\ st1 = st') as [-> ->] by (split; congruence). rewrite <- H2. apply normal_here, S1.
    + assert (o = OThrow v /\ st1 = st') as [-> ->] by (split; congruence).
      apply reach_here, raise_post; [assumption|apply same_refl].
Qed.

Lemma loop_repeat : c_cont c' = pB ->
  forall m, (m <= N)%nat -> forall st rg o st', run_repeat L m k body st = (o, st') ->
  reach C (lb m o) (CRun p1 (cur c) rg st) (post c b cn f p2 rg o st').
Proof.
  intros Hc. induction m as [|m IH]; intros Hm st rg o st' H; cbn [run_repeat] in H.
  - assert (o = OFuel /\ st = st') as [-> ->] by (split; congruence). apply reach_here; reflexivity.
  - destruct (body st) as [o1 s1] eqn:Eb.
    assert (G : forall rg1 mm, same d rg rg1 -> (mm <= lb (S m) o)%nat ->
      match ev_cnd L k s1 with
      | inr (v, st) => (OThrow v, st)
      | inl (EVal true st) => run_repeat L m k body st
      | inl (EVal false st) => (ONormal, st)
      | inl (EExc _ st) => (OFuel, st)
      end = (o, st') -> reach C mm (CRun pB (cur c) rg1 s1) (post c b cn f p2 rg o st')).
    { intros rg1 mm S1 Hmm E1. apply (reach_le C (lb (S m) o)); [assumption|].
      destruct (ev_cnd_shape k s1) as [(bb & st1 & Ev)|(v & st1 & Ev)]; rewrite Ev in E1;
        (eapply (reach_cj C pB true k d p1 d); [exact HB|lia|]); rewrite Ev.
      - intros rg2 S2. destruct bb; cbn [Bool.eqb].
        + eapply reach_le; [|eapply reach_imp; [|apply (IH ltac:(lia) st1 rg2 o st' E1)]]; [destruct o; cbn [lb]; lia|].
          intros x. apply post_rg. eauto using same_trans.
        + assert (o = ONormal /\ st1 = st') as [-> ->] by (split; congruence). rewrite <- H2. apply normal_here. eauto using same_trans.
      - assert (o = OThrow v /\ st1 = st') as [-> ->] by (split; congruence).
        apply reach_here, raise_post; [assumption|assumption]. }
    apply (body_then st rg o1 s1); [assumption| | | |].
    + intros -> rg' S2. apply G; [assumption|lia|assumption].
    + intros -> rg' S2. rewrite Hc. apply G; [assumption|lia|assumption].
    + intros -> rg' S2. assert (o = ONormal /\ s1 = st') as [-> ->] by (split; congruence).
      cbn [lb pred]. apply normal_here. assumption.
    + intros Ho. assert (o1 = o /\ s1 = st') as [-> ->] by (destruct o1; try destruct Ho; split; congruence).
      split; [destruct o; cbn [lb]; lia|]. auto.
Qed.
End LOOP.
End SIM.
