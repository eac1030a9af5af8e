(* The code of switch, and of all statements *)
From Coq Require Import ZArith List Lia Bool ZifyBool.
From Verif Require Import Base ListZ DeadModel DeadSpec DeadProofs DeadProofs2 CtlModel CtlSpec CtlProofs CtlProofs2 CtlProofs3 CtlProofs4.
Import ListNotations.
Local Open Scope Z_scope.
Ltac Zify.zify_post_hook ::= idtac.

Section SIM.
Context {V St : Type} (L : lang V St).
Notation conf := (conf V St).
Notation outcome := (outcome V).
Notation reach := (reach L).

(* the address of the code of case j *)
Fixpoint baddr (h : shape) (cs : cases) (pc : Z) (j : nat) : Z :=
  match cs with
  | CNil => pc
  | CCons _ s nx r => match j with O => pc | S j => baddr h r (pc + case_size h s nx) j end
  end.

Lemma tests_sim C c b cn f pe A v : wf c b cn f -> let h := c_sh c in
  forall cs k d pc q dflt rg st r st',
  code_at C q (gen_tests h cs pc ++ [IJump (default_pc h cs pc dflt)]) ->
  (forall j, (j < num_cases cs)%nat -> A (k + j)%nat = baddr h cs pc j) ->
  dflt = match d with Some i => A i | None => pe end ->
  rg (h_dep h) = RVal v -> select L v cs k d st = (r, st') ->
  reach C 0 (CRun q (cur c) rg st) (fun x =>
    match r with
    | SelCase j => exists rg', x = CRun (A j) (cur c) rg' st' /\ same (h_dep h) rg rg'
    | SelNone => exists rg', x = CRun pe (cur c) rg' st' /\ same (h_dep h) rg rg'
    | SelExc w => post c b cn f pe rg (OThrow w) st' x
    end).
Proof.
  intros W h. induction cs as [|t s nx rest IH]; intros k d pc q dflt rg st r st' Hc HA Hd Hv H; cbn [gen_tests default_pc select num_cases] in *.
  - cbn [app] in Hc. apply (reach_le L C 1); [lia|]. eapply reach_jump; [exact Hc|]. apply reach_here.
    subst dflt. destruct d as [i|]; assert (r = (match r with SelCase _ | SelNone | SelExc _ => r end)) as _ by (destruct r; reflexivity).
    + assert (r = SelCase i /\ st = st') as [-> ->] by (split; congruence). exists rg. auto using same_refl.
    + assert (r = SelNone /\ st = st') as [-> ->] by (split; congruence). exists rg. auto using same_refl.
  - assert (HA' : forall j, (j < num_cases rest)%nat -> A (S k + j)%nat = baddr h rest (pc + case_size h s nx) j).
    { intros j Hj. replace (S k + j)%nat with (k + S j)%nat by lia. rewrite HA by lia. reflexivity. }
    assert (HA0 : A k = pc) by (replace k with (k + 0)%nat by lia; rewrite HA by lia; reflexivity).
    destruct t as [e|].
    + cbn [app] in Hc.
      apply (reach_le L C 1); [lia|]. eapply reach_eval; [exact Hc|]. apply code_tail in Hc.
      destruct (l_ev L e st) as [w s1|w s1].
      * apply (reach_le L C 2); [lia|].
        eapply reach_step; [rewrite (step_at L _ _ _ _ _ _ _ Hc); cbn [exec_instr]; rewrite set_same, set_other by lia; rewrite Hv; reflexivity|apply le_n|].
        apply code_tail in Hc.
        eapply reach_step; [rewrite (step_at L _ _ _ _ _ _ _ Hc); cbn [exec_instr]; rewrite set_same; cbn [rtrue]; reflexivity|apply le_n|].
        apply code_tail in Hc.
        match goal with |- context [CRun _ _ ?R _] => assert (S1 : same (h_dep h + 1) rg R) end.
        { eapply same_trans; apply same_set; lia. }
        destruct (l_eq L v w).
        -- assert (r = SelCase k /\ s1 = st') as [-> ->] by (split; congruence). apply reach_here. eexists. split; [rewrite HA0; reflexivity|].
           eapply same_le; [|exact S1]. lia.
        -- eapply reach_imp; [|apply (IH (S k) d _ _ dflt _ s1 r st' Hc HA' Hd); [rewrite (S1 (h_dep h)) by lia; exact Hv|exact H]].
           assert (S2 : same (h_dep h) rg (set (set rg (h_dep h + 1) (RVal w)) (h_dep h + 1) (RBool (l_eq L v w))))
             by (eapply same_trans; apply same_set; lia).
           intros x. destruct r as [j| |y].
           ++ intros (rg' & -> & S3). exists rg'. split; [reflexivity|]. eapply same_trans; [|exact S3]. eapply same_le; [|exact S1]. lia.
           ++ intros (rg' & -> & S3). exists rg'. split; [reflexivity|]. eapply same_trans; [|exact S3]. eapply same_le; [|exact S1]. lia.
           ++ apply post_rg. eapply same_le; [|exact S1]. fold h. lia.
      * assert (r = SelExc w /\ s1 = st') as [-> ->] by (split; congruence).
        apply reach_here, raise_post; [assumption|apply same_refl].
    + cbn [app] in Hc. apply (IH (S k) (Some k) (pc + case_size h s nx) q pc); auto.
Qed.

Lemma kind_fall (o : outcome) : is_kind KFall o = false -> o <> OFall.
Proof. intros H ->. discriminate. Qed.

Lemma okf_of s b cn f h : (is_fall s || fits h b cn f s) = true -> leaves KFall s = false -> okf s.
Proof.
  intros H Hl. destruct (is_fall s) eqn:Q.
  - destruct s; discriminate.
  - cbn [orb] in H. repeat eexists. exact H.
Qed.

Definition case_post (c : ctx) (b cn f : option (option Z)) (pe : Z) (rg : Z -> rv V) (o : outcome) (st : St) (x : conf) : Prop :=
  match o with
  | OBreak => post c b cn f pe rg ONormal st x
  | _ => post c b cn f pe rg o st x
  end.

Lemma cases_sim n C c b cn f pe : wf c b cn f -> let h := c_sh c in
  forall cs pc j rg st o st', sim_c L n cs -> code_at C pc (gen_c c pc pe cs) ->
  fits_c h (Some (h_try h)) cn (Some (h_try h)) cs = true -> last_ok cs = true ->
  (j < num_cases cs)%nat -> exec_from L n cs j st = (o, st') ->
  reach C (lb n o) (CRun (baddr h cs pc j) (cur c) rg st) (case_post c b cn f pe rg o st').
Proof.
  intros W h. induction cs as [|t s nx rest IH]; intros pc j rg st o st' SC Hc Hf Hl Hj H; [cbn in Hj; lia|].
  rewrite gen_ccons in Hc. rewrite exec_ccons in H. cbn [fits_c sim_c baddr num_cases] in *. destruct SC as [SS SC].
  apply andb_prop in Hf as [F1 F2].
  apply code_app in Hc as [C1 C2].
  match type of C2 with code_at _ (pc + ?X) _ => assert (LN : X = case_size h s nx) end.
  { unfold case_size. destruct (is_fall s); cbn [negb opt_size]; [reflexivity|]. rewrite len_app, gen_len_s. cbn [c_sh]. fold h.
    destruct (is_end nx); reflexivity. }
  rewrite LN in C2. clear LN. fold h in C2.
  assert (HR : last_ok rest = true).
  { destruct rest; [reflexivity|]. exact Hl. }
  destruct j as [|j]; [|apply IH; auto; lia].
  (* the next case *)
  assert (NX : (rest <> CNil) -> forall rg1 st1 m, same (h_dep h) rg rg1 -> (m <= 1)%nat -> exec_from L n rest 0 st1 = (o, st') ->
    reach C (lb n o) (CRun (pc + case_size h s nx) (cur c) rg1 st1) (case_post c b cn f pe rg o st')).
  { intros NE rg1 st1 m S1 _ E1. assert (J : (0 < num_cases rest)%nat) by (destruct rest; [contradiction|cbn; lia]).
    eapply reach_imp; [|apply (IH (pc + case_size h s nx) 0%nat rg1 st1 o st' SC C2 F2 HR J) in E1].
    2:{ replace (baddr h rest (pc + case_size h s nx) 0) with (pc + case_size h s nx) in E1 by (destruct rest; reflexivity). exact E1. }
    intros x. unfold case_post. destruct o; apply post_rg, S1. }
  assert (LAST : rest = CNil -> is_end nx = true /\ leaves KFall s = false).
  { intros ->. cbn [last_ok] in Hl. apply andb_prop in Hl as [L1 L2]. split; [exact L1|]. destruct (leaves KFall s); [discriminate|reflexivity]. }
  assert (CDEC : {rest = CNil} + {rest <> CNil}) by (destruct rest; [left; reflexivity|right; discriminate]).
  destruct (is_fall s) eqn:QF.
  { assert (s = SFall) as -> by (destruct s; try discriminate; reflexivity). cbn [exec] in H.
    destruct CDEC as [N|N]; [destruct (LAST N) as [_ K]; discriminate K|].
    pose proof (NX N rg st 0%nat (same_refl _ _) ltac:(lia) H) as R. unfold case_size in R. cbn [is_fall negb opt_size] in R. rewrite Z.add_0_r in R. exact R. }
  cbn [orb] in F1. apply code_app in C1 as [C1 CJ]. rewrite gen_len_s in CJ. cbn [c_sh] in CJ.
  match type of C1 with code_at _ _ (gen ?X _ _) => set (c1 := X) in * end.
  assert (W' : wf c1 (Some (h_try h)) cn (Some (h_try h))).
  { pose proof W as (W1 & W2 & W3 & W4 & W5 & W6). unfold wf. cbn zeta. cbn [c_sh c1 lt_q]. auto 10. }
  destruct (exec L n s st) as [o1 s1] eqn:Q.
  pose proof (SS c1 pc C rg st (Some (h_try h)) cn (Some (h_try h)) W' C1 F1 o1 s1 Q) as R.
  change (cur c1) with (cur c) in R. change (c_sh c1) with h in R.
  assert (CS : case_size h s nx = size h s + opt_size (is_end nx) 1) by (unfold case_size; rewrite QF; reflexivity).
  destruct o1; try (assert (o = fst (exec L n s st) /\ s1 = st') as [Ho ->] by (rewrite Q; split; cbn [fst]; congruence);
    rewrite Q in Ho; cbn [fst] in Ho; subst o; exact R).
  - (* normal *)
    eapply (reach_bind L C 0 (lb n o)); [lia|exact R|]. intros x (rg1 & -> & S1). change (c_sh c1) with h in S1. change (cur c1) with (cur c).
    destruct (is_end nx) eqn:Qn.
    + assert (nx = NxNone) as -> by (destruct nx; try discriminate; reflexivity).
      assert (o = ONormal /\ s1 = st') as [-> ->] by (split; congruence).
      apply (reach_le L C 1); [cbn; lia|]. eapply reach_jump; [exact CJ|]. apply reach_here. exists rg1. auto.
    + destruct CDEC as [N|N]; [destruct (LAST N) as [K _]; congruence|].
      replace (pc + size h s) with (pc + case_size h s nx) by (rewrite CS; cbn [opt_size]; lia).
      apply (NX N rg1 s1 0%nat S1); [lia|]. destruct nx; try discriminate; exact H.
  - (* break *)
    assert (o = OBreak /\ s1 = st') as [-> ->] by (split; congruence).
    eapply reach_imp; [|exact R]. intros x (rg1 & ct & -> & S1 & G). exists rg1. split; [|exact S1]. cbn [good_q] in G. subst ct. reflexivity.
  - (* fallthrough *)
    destruct CDEC as [N|N].
    + destruct (LAST N) as [_ K]. pose proof (proj1 (not_left L n) s KFall st (okf_of s _ _ _ _ ltac:(rewrite QF; exact F1) K) K) as NK.
      rewrite Q in NK. discriminate NK.
    + eapply (reach_bind L C 1 (lb n o)); [lia|exact R|]. intros x (rg1 & ct & -> & S1 & G). cbn [good_q] in G. subst ct.
      change (c_fall c1) with (pc + case_size (c_sh c) s nx). fold h. apply (NX N rg1 s1 0%nat S1); [lia|exact H].
Qed.

Lemma sim_switch_plain n e cs : plain_switch cs = true -> sim_c L n cs -> sim L n (SSwitch e cs).
Proof.
  intros P SC c pc C rg st b cn f W Hc Hf o st' H. rewrite (gen_switch _ _ _ _ P) in Hc. rewrite (size_switch _ _ _ P).
  rewrite exec_switch in H. cbn [fits] in Hf. apply andb_prop in Hf as [F1 F2].
  set (h := c_sh c) in *. set (p1 := pc + 2 + num_tests cs) in *. set (pe := p1 + size_c h cs) in *.
  replace (pc + (2 + num_tests cs + size_c h cs)) with pe by (subst pe p1; lia).
  apply (code_app C pc [_]) in Hc as [C0 Hc]. change (len [IEval (h_dep h) e]) with 1 in Hc.
  rewrite app_assoc in Hc. apply code_app in Hc as [C1 C2]. rewrite len_app, len_tests in C2.
  change (len [IJump (default_pc h cs p1 pe)]) with 1 in C2. replace (pc + 1 + (num_tests cs + 1)) with p1 in C2 by (subst p1; lia).
  apply (reach_le L C (S (lb n o))); [lia|]. eapply reach_eval; [exact C0|].
  destruct (l_ev L e st) as [v s1|v s1].
  2:{ assert (o = OThrow v /\ s1 = st') as [-> ->] by (split; congruence). apply reach_here, raise_post; [assumption|apply same_refl]. }
  set (rg0 := set rg (h_dep h) (RVal v)). assert (S0 : same (h_dep h) rg rg0) by (apply same_set; lia).
  destruct (select L v cs 0 None s1) as [r s2] eqn:Q.
  pose proof (tests_sim C c b cn f pe (fun j => baddr h cs p1 j) v W cs 0%nat None p1 (pc + 1) pe rg0 s1 r s2 C1
    (fun j _ => eq_refl) eq_refl (set_same _ _ _) Q) as R. cbn zeta in R. fold h in R.
  destruct r as [j| |w].
  - pose proof (select_range L v cs 0 None s1 j s2 I Q) as J. cbn in J.
    destruct (exec_from L n cs j s2) as [o2 s3] eqn:Q2.
    eapply (reach_bind L C 0 (lb n o)); [lia|exact R|]. intros x (rg1 & -> & S1).
    pose proof (cases_sim n C c b cn f pe W cs p1 j rg1 s2 o2 s3 SC C2 F1 F2 J Q2) as RC. fold h in RC.
    assert (S2 : same (h_dep (c_sh c)) rg rg1) by (fold h; eapply same_trans; eassumption).
    destruct o2; try (assert (o = fst (exec_from L n cs j s2) /\ s3 = st') as [Ho ->] by (rewrite Q2; split; cbn [fst]; congruence);
      rewrite Q2 in Ho; cbn [fst] in Ho; subst o; eapply reach_imp; [|exact RC]; intros x; apply post_rg, S2).
    assert (o = ONormal /\ s3 = st') as [-> ->] by (split; congruence).
    eapply reach_le; [|eapply reach_imp; [|exact RC]]; [cbn; lia|]. intros x. apply post_rg, S2.
  - assert (o = ONormal /\ s2 = st') as [-> ->] by (split; congruence).
    eapply reach_imp; [|exact R]. intros x (rg1 & -> & S1). exists rg1. split; [reflexivity|]. eapply same_trans; eassumption.
  - assert (o = OThrow w /\ s2 = st') as [-> ->] by (split; congruence).
    eapply reach_imp; [|exact R]. intros x. apply post_rg, S0.
Qed.

Lemma sim_switch n e cs : sim_c L n cs -> sim L n (SSwitch e cs).
Proof.
  destruct (plain_switch cs) eqn:P; [apply sim_switch_plain, P|]. intros SC.
  destruct cs as [|[t|] s nx [|]]; try discriminate P.
  - intros c pc C rg st b cn f W Hc Hf o st' H. cbn [gen size exec select] in *.
    apply (reach_le L C 1); [destruct (l_ev L e st); assert (lb n o = 0%nat) by (destruct o; try discriminate; reflexivity); lia|].
    eapply reach_eval; [exact Hc|]. destruct (l_ev L e st) as [v s1|v s1].
    + assert (o = ONormal /\ s1 = st') as [-> ->] by (split; congruence). apply reach_here. eexists. split; [reflexivity|]. apply same_set. lia.
    + assert (o = OThrow v /\ s1 = st') as [-> ->] by (split; congruence). apply reach_here, raise_post; [assumption|apply same_refl].
  - intros c pc C rg st b cn f W Hc Hf o st' H. rewrite exec_switch in H. cbn [gen size fits fits_c sim_c select last_ok] in *. destruct SC as [SS _].
    set (h := c_sh c) in *.
    apply andb_prop in Hf as [F1 F2]. apply andb_prop in F2 as [F2 F3]. rewrite andb_true_r in F1.
    assert (K : leaves KFall s = false) by (destruct (leaves KFall s); [discriminate|reflexivity]).
    assert (QF : is_fall s = false) by (destruct s; try reflexivity; discriminate K).
    pose proof (okf_of s _ _ _ _ F1 K) as OK. rewrite QF in *. cbn [orb negb opt_size] in *.
    apply (code_app C pc [_]) in Hc as [C0 C1]. change (len [IEval (h_dep h) e]) with 1 in C1.
    apply (reach_le L C (S (lb n o))); [lia|]. eapply reach_eval; [exact C0|].
    destruct (l_ev L e st) as [v s1|v s1].
    2:{ assert (o = OThrow v /\ s1 = st') as [-> ->] by (split; congruence). apply reach_here, raise_post; [assumption|apply same_refl]. }
    set (rg0 := set rg (h_dep h) (RVal v)). assert (S0 : same (h_dep h) rg rg0) by (apply same_set; lia).
    match type of C1 with code_at _ _ (gen ?X _ _) => set (c1 := X) in * end.
    assert (W' : wf c1 (Some (h_try h)) cn (Some (h_try h))).
    { pose proof W as (W1 & W2 & W3 & W4 & W5 & W6). unfold wf. cbn zeta. cbn [c_sh c1 lt_q]. auto 10. }
    rewrite exec_ccons in H. destruct (exec L n s s1) as [o1 s2] eqn:Q.
    pose proof (SS c1 (pc + 1) C rg0 s1 (Some (h_try h)) cn (Some (h_try h)) W' C1 F1 o1 s2 Q) as R.
    change (cur c1) with (cur c) in R. change (c_sh c1) with h in R. replace (pc + (1 + size h s)) with (pc + 1 + size h s) by lia.
    pose proof (proj1 (not_left L n) s KFall s1 OK K) as NK. rewrite Q in NK.
    assert (nx = NxNone) as -> by (destruct nx; try discriminate F2; reflexivity).
    destruct o1; try discriminate NK; try (assert (o = fst (exec L n s s1) /\ s2 = st') as [Ho ->] by (rewrite Q; split; cbn [fst]; congruence);
      rewrite Q in Ho; cbn [fst] in Ho; subst o; eapply reach_imp; [|exact R]; intros x Px; apply (post_rg c b cn f _ rg rg0 _ _ _ S0); exact Px).
    assert (o = ONormal /\ s2 = st') as [-> ->] by (split; congruence).
    eapply reach_le; [|eapply reach_imp; [|exact R]]; [cbn; lia|]. intros x (rg1 & ct & -> & S1 & G). cbn [good_q] in G. subst ct.
    exists rg1. split; [reflexivity|]. eapply same_trans; eassumption.
Qed.

Lemma sim_empty n : sim L n SEmpty.
Proof.
  intros c pc C rg st b cn f W _ _ o st' H. cbn in H. assert (o = ONormal /\ st = st') as [-> ->] by (split; congruence).
  apply reach_here. exists rg. cbn [size]. rewrite Z.add_0_r. auto using same_refl.
Qed.

Theorem sim_all n : (forall s, sim L n s) /\ (forall b, sim_l L n b) /\ (forall cs, sim_c L n cs).
Proof.
  apply stmt_mutind; intros; auto using sim_empty, sim_expr, sim_lit, sim_return, sim_throw, sim_break, sim_continue, sim_fall,
    sim_scope, sim_if, sim_while, sim_repeat, sim_for, sim_try, sim_defer, sim_switch, sim_nil, sim_cons.
  - exact I.
  - split; auto.
Qed.
End SIM.
