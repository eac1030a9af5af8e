(* The code of every statement does what the statement does *)
From Coq Require Import ZArith List Lia Bool ZifyBool.
From Verif Require Import Base ListZ DeadModel DeadSpec DeadProofs DeadProofs2 CtlModel CtlSpec CtlProofs CtlProofs2.
Import ListNotations.
Local Open Scope Z_scope.
Ltac Zify.zify_post_hook ::= idtac.

Section SIM.
Context {V St : Type} (L : lang V St).
Notation conf := (conf V St).
Notation outcome := (outcome V).
Notation reach := (reach L).

Lemma eqo_eq a b : eqo a b = true -> a = b.
Proof. destruct a, b; cbn; intros H; try discriminate; [|reflexivity]. apply Z.eqb_eq in H. congruence. Qed.

Lemma meets_good c q t : meets q t = true -> good_q c q (cat c t).
Proof. destruct q as [q|]; cbn; [|auto]. intros H. rewrite (eqo_eq t q H). reflexivity. Qed.

(* ---- single statements ---- *)

Lemma sim_expr n e : sim L n (SExpr e).
Proof.
  intros c pc C rg st b cn f W Hc _ o st' H. cbn [gen size exec] in *.
  apply (reach_le L C 1); [destruct (l_ev L e st); assert (lb n o = 0%nat) by (destruct o; try discriminate; reflexivity); lia|].
  eapply reach_eval; [exact Hc|]. destruct (l_ev L e st) as [v s|v s].
  - assert (o = ONormal /\ s = st') as [-> ->] by (split; congruence).
    apply reach_here. eexists. split; [reflexivity|]. apply same_set. lia.
  - assert (o = OThrow v /\ s = st') as [-> ->] by (split; congruence).
    apply reach_here, raise_post; [assumption|apply same_refl].
Qed.

Lemma ev_all_sim C c b cn f pe es : forall pc rg st o st', wf c b cn f ->
  code_at C pc (map (IEval (h_dep (c_sh c))) es) -> pe = pc + len es ->
  ev_all L es st = (o, st') ->
  reach C (lb 0 o) (CRun pc (cur c) rg st) (post c b cn f pe rg o st').
Proof.
  induction es as [|e r IH]; intros pc rg st o st' W Hc Hp H; cbn [map ev_all] in *.
  - assert (o = ONormal /\ st = st') as [-> ->] by (split; congruence). apply reach_here.
    exists rg. split; [|apply same_refl]. subst pe. change (len (@nil Z)) with 0. rewrite Z.add_0_r. reflexivity.
  - rewrite len_one in Hp. apply (reach_le L C (S (lb 0 o))); [lia|]. eapply reach_eval; [exact Hc|].
    destruct (l_ev L e st) as [v s|v s].
    + eapply reach_imp; [|apply (IH (pc + 1) _ s o st' W (code_tail _ _ _ _ Hc) ltac:(lia) H)].
      intros x. apply post_rg, same_set. lia.
    + assert (o = OThrow v /\ s = st') as [-> ->] by (split; congruence).
      apply reach_here, raise_post; [assumption|apply same_refl].
Qed.

Lemma sim_lit n es : sim L n (SLit es).
Proof.
  intros c pc C rg st b cn f W Hc _ o st' H. cbn [gen size exec] in *.
  eapply reach_le; [|eapply ev_all_sim; eauto].
  assert (Q : forall es (st : St), match fst (ev_all L es st) with ONormal | OThrow _ => True | _ => False end).
  { induction es0 as [|e r IH]; intros st0; cbn [ev_all]; [exact I|]. destruct (l_ev L e st0); [apply IH|exact I]. }
  specialize (Q es st). rewrite H in Q. cbn [fst] in Q. destruct o; try destruct Q; cbn; lia.
Qed.

Lemma ret_sim C c pc r ct rg st v l : code_at C pc (gen_ret c r ++ l) -> rg r = RVal v ->
  reach C 0 (CRun pc ct rg st) (fun x =>
    match h_ret (c_sh c) with
    | None => x = CRet v st
    | Some q => exists rg', x = CRun (c_rpc c) ct rg' st /\ rg' q = RVal v /\
                (forall y, y <> q -> rg' y = rg y)
    end).
Proof.
  intros Hc Hr. unfold gen_ret in Hc. destruct (h_ret (c_sh c)) as [q|].
  - destruct (r =? q) eqn:Q; cbn [app] in Hc.
    + apply Z.eqb_eq in Q. subst q. apply (reach_le L C 1); [lia|]. eapply reach_jump; [exact Hc|]. apply reach_here. eauto.
    + apply (reach_le L C 2); [lia|]. eapply reach_step; [rewrite (step_at L _ _ _ _ _ _ _ Hc); reflexivity| |]; [reflexivity|].
      eapply reach_jump; [exact (code_tail _ _ _ _ Hc)|]. apply reach_here. eexists. split; [reflexivity|].
      split; [rewrite set_same; assumption|]. intros y Hy. apply set_other, Hy.
  - eapply reach_step; [rewrite (step_at L _ _ _ _ _ _ _ Hc); cbn [exec_instr]; rewrite Hr; reflexivity| |]; [|apply reach_here; reflexivity]. lia.
Qed.

Lemma sim_return n e : sim L n (SReturn e).
Proof.
  intros c pc C rg st b cn f W Hc _ o st' H. cbn [gen size exec] in *.
  apply (reach_le L C 1); [destruct (l_ev L e st); assert (lb n o = 0%nat) by (destruct o; try discriminate; reflexivity); lia|].
  eapply reach_eval; [exact Hc|]. apply code_tail in Hc.
  destruct (l_ev L e st) as [v s|v s].
  - assert (o = ORet v /\ s = st') as [-> ->] by (split; congruence).
    rewrite <- (app_nil_r (gen_ret c _)) in Hc.
    eapply reach_imp; [|eapply ret_sim; [exact Hc|apply set_same]].
    intros x. cbn [post]. destruct (h_ret (c_sh c)) as [q|]; [|auto].
    intros (rg' & -> & Hq & Ho). exists rg', (cur c). split; [reflexivity|]. split; [assumption|].
    intros r Hr Ht Hx. rewrite Ho by congruence. apply set_other. unfold ret_reg.
    destruct (h_try (c_sh c)); [congruence|lia].
  - assert (o = OThrow v /\ s = st') as [-> ->] by (split; congruence).
    apply reach_here, raise_post; [assumption|apply same_refl].
Qed.

Lemma sim_throw n e : sim L n (SThrow e).
Proof.
  intros c pc C rg st b cn f W Hc _ o st' H. cbn [gen size exec] in *.
  apply (reach_le L C 1); [destruct (l_ev L e st); assert (lb n o = 0%nat) by (destruct o; try discriminate; reflexivity); lia|].
  eapply reach_eval; [exact Hc|]. apply code_tail in Hc.
  destruct (l_ev L e st) as [v s|v s]; assert (o = OThrow v /\ s = st') as [-> ->] by (split; congruence).
  - eapply reach_step; [rewrite (step_at L _ _ _ _ _ _ _ Hc); cbn [exec_instr]; rewrite set_same; reflexivity| |];
      [|apply reach_here, raise_post; [assumption|apply same_set; lia]]. lia.
  - apply reach_here, raise_post; [assumption|apply same_refl].
Qed.

Lemma break_sim C c pc t q rg st : code_at C pc (gen_break c t) -> meets q (left_with (c_sh c)) = true ->
  reach C 1 (CRun pc (cur c) rg st) (fun x => exists ct, x = CRun t ct rg st /\ good_q c q ct).
Proof.
  intros Hc Hm. apply (meets_good c) in Hm. unfold gen_break, left_with in *.
  destruct (h_last (c_sh c)) as [r|]; cbn [app] in Hc.
  - apply (reach_le L C 2); [lia|]. eapply reach_restore; [exact Hc|]. eapply reach_jump; [exact (code_tail _ _ _ _ Hc)|].
    apply reach_here. eauto.
  - eapply reach_jump; [exact Hc|]. apply reach_here. eexists. split; [reflexivity|]. exact Hm.
Qed.

Lemma sim_break n : sim L n SBreak.
Proof.
  intros c pc C rg st b cn f W Hc Hf o st' H. cbn [gen size exec fits] in *.
  assert (o = OBreak /\ st = st') as [-> ->] by (split; congruence).
  eapply reach_imp; [|apply (break_sim C c pc (c_brk c) b); eassumption].
  intros x (ct & -> & G). exists rg, ct. auto using same_refl.
Qed.
Lemma sim_continue n : sim L n SContinue.
Proof.
  intros c pc C rg st b cn f W Hc Hf o st' H. cbn [gen size exec fits] in *.
  assert (o = OCont /\ st = st') as [-> ->] by (split; congruence).
  eapply reach_imp; [|apply (break_sim C c pc (c_cont c) cn); eassumption].
  intros x (ct & -> & G). exists rg, ct. auto using same_refl.
Qed.
Lemma sim_fall n : sim L n SFall.
Proof.
  intros c pc C rg st b cn f W Hc Hf o st' H. cbn [gen size exec fits] in *.
  assert (o = OFall /\ st = st') as [-> ->] by (split; congruence).
  eapply reach_imp; [|apply (break_sim C c pc (c_fall c) f); eassumption].
  intros x (ct & -> & G). exists rg, ct. auto using same_refl.
Qed.

(* ---- sequences and branches ---- *)

Lemma post_pe c b cn f pe pe' rg (o : outcome) (st : St) (x : conf) : o <> ONormal -> post c b cn f pe rg o st x -> post c b cn f pe' rg o st x.
Proof. intros H. unfold post. destruct o; auto. contradiction. Qed.

Lemma sim_nil n : sim_l L n Nil.
Proof.
  intros c pc C rg st b cn f W _ _ o st' H. cbn in H. assert (o = ONormal /\ st = st') as [-> ->] by (split; congruence).
  apply reach_here. exists rg. cbn [size_l]. rewrite Z.add_0_r. auto using same_refl.
Qed.

Lemma sim_cons n s r : sim L n s -> sim_l L n r -> sim_l L n (Cons s r).
Proof.
  intros IH IHr c pc C rg st b cn f W Hc Hf o st' H. rewrite gen_cons in Hc. rewrite size_cons. rewrite exec_cons in H.
  cbn [fits_l] in Hf. apply andb_prop in Hf as [F1 F2]. apply code_app in Hc as [C1 C2]. rewrite gen_len_s in C2.
  destruct (exec L n s st) as [o1 s1] eqn:Q. pose proof (IH c pc C rg st b cn f W C1 F1 o1 s1 Q) as R.
  destruct o1; try (assert (o = fst (exec L n s st) /\ s1 = st') as [Ho ->] by (rewrite Q; split; cbn [fst]; congruence);
    rewrite Q in Ho; cbn [fst] in Ho; subst o; eapply reach_imp; [|exact R]; intros x; apply post_pe; discriminate).
  eapply (reach_bind L C 0 (lb n o)); [lia|exact R|]. intros x (rg' & -> & S1).
  rewrite Z.add_assoc. eapply reach_imp; [|eapply (IHr c _ C rg' s1 b cn f W C2 F2 o st' H)].
  intros x. apply post_rg, S1.
Qed.

Lemma sim_scope n b : sim_l L n b -> sim L n (SScope b).
Proof. intros IH c pc C rg st q1 q2 q3 W Hc Hf o st' H. rewrite exec_scope in H. eapply (IH c pc C rg st q1 q2 q3 W Hc Hf o st' H). Qed.

Lemma sim_if n k s1 s2 : sim L n s1 -> sim L n s2 -> sim L n (SIf k s1 s2).
Proof.
  intros IH1 IH2 c pc C rg st b cn f W Hc Hf o st' H. cbn [gen size exec fits] in *.
  apply andb_prop in Hf as [F1 F2].
  apply code_app in Hc as [C0 Hc]. apply code_app in Hc as [C1 C2]. rewrite len_cj in *. rewrite gen_len_s in C2.
  set (h := c_sh c) in *. set (p1 := pc + cj_size false k) in *.
  set (p2 := p1 + size h s1 + opt_size (negb (is_empty s2)) 1) in *.
  set (pe := pc + (cj_size false k + size h s1 + opt_size (negb (is_empty s2)) (1 + size h s2))).
  assert (Hpe : pe = if is_empty s2 then p2 else p2 + size h s2)
    by (subst pe p2 p1; destruct (is_empty s2); cbn [negb opt_size]; lia).
  eapply (reach_cj L C pc false k (h_dep h) p2 (h_dep h)); [exact C0|lia|].
  destruct (ev_cnd_shape L k st) as [(bb & st1 & Ev)|(v & st1 & Ev)]; rewrite Ev in *.
  - intros rg1 S1. destruct bb; cbn [Bool.eqb].
    + (* first branch *)
      fold p1. destruct (exec L n s1 st1) as [o1 s1'] eqn:Q.
      assert (o1 = o /\ s1' = st') as [-> ->] by (split; congruence).
      pose proof (IH1 c p1 C rg1 st1 b cn f W C1 F1 o st' Q) as R.
      destruct (is_empty s2) eqn:Em.
      * subst p2. cbn [negb opt_size] in *. rewrite Z.add_0_r in Hpe. rewrite Hpe. eapply reach_imp; [|exact R]. intros x. apply post_rg, S1.
      * destruct (match o with ONormal => true | _ => false end) eqn:No.
        -- destruct o; try discriminate. eapply (reach_bind L C 0 1); [cbn; lia|exact R|]. intros x (rg' & -> & S2).
           fold h. eapply reach_jump; [exact C2|]. apply reach_here. exists rg'. rewrite Hpe. fold h. eauto using same_trans.
        -- eapply reach_imp; [|exact R]. intros x Px. eapply post_pe; [destruct o; discriminate|]. eapply post_rg; [exact S1|exact Px].
    + (* second branch *)
      destruct (is_empty s2) eqn:Em.
      * destruct s2; try discriminate. cbn [exec] in H. assert (o = ONormal /\ st1 = st') as [-> ->] by (split; congruence).
        apply reach_here. exists rg1. rewrite Hpe. auto.
      * apply code_tail in C2. replace (p1 + size h s1 + 1) with p2 in C2 by (subst p2; reflexivity).
        eapply reach_le; [|eapply reach_imp; [|apply (IH2 c p2 C rg1 st1 b cn f W C2 F2 o st' H)]]; [lia|].
        intros x. fold h. rewrite Hpe. apply post_rg, S1.
  - assert (o = OThrow v /\ st1 = st') as [-> ->] by (split; congruence).
    apply reach_here, raise_post; [assumption|apply same_refl].
Qed.

(* ---- loops ---- *)

Lemma wf_loop c c' b cn f : wf c b cn f -> c_sh c' = in_loop (c_sh c) ->
  wf c' (Some (h_try (c_sh c))) (Some (h_try (c_sh c))) f.
Proof.
  unfold wf. cbn zeta. intros (W1 & W2 & W3 & W4 & W5 & W6) ->. cbn [in_loop h_dep h_try h_last h_ret lt_q].
  repeat (split; [try assumption|]); try assumption. destruct (h_try (c_sh c)); assumption.
Qed.

Lemma sim_while n k s : sim L n s -> sim L n (SWhile k s).
Proof.
  intros IH c pc C rg st b cn f W Hc Hf o st' H. cbn [gen size exec fits] in *.
  destruct (cnd_falsy k) eqn:Fk; cbn [negb opt_size orb] in *.
  - rewrite Z.add_0_r. destruct n as [|n]; cbn [run_while] in H.
    + assert (o = OFuel /\ st = st') as [-> ->] by (split; congruence). apply reach_here. reflexivity.
    + destruct k as [bb|bb|e]; cbn in Fk; try discriminate; destruct bb; try discriminate; cbn [ev_cnd] in H;
        (assert (o = ONormal /\ st = st') as [-> ->] by (split; congruence)); apply reach_here; exists rg; auto using same_refl.
  - apply code_app in Hc as [C0 Hc]. apply code_app in Hc as [C1 C2]. rewrite len_cj in *. rewrite gen_len_s in C2. cbn [c_sh] in C2.
    set (h := c_sh c) in *. set (p1 := pc + cj_size false k) in *. set (p2 := p1 + size (in_loop h) s + cj_size true k) in *.
    replace (pc + (cj_size false k + size (in_loop h) s + cj_size true k)) with p2 by (subst p2 p1; lia).
    match type of C1 with code_at _ _ (gen ?X _ _) => set (c' := X) in * end.
    refine (proj1 (loop_while L C c c' b cn f n k (exec L n s) pc p1 (p1 + size (in_loop h) s) p2 W
      eq_refl eq_refl eq_refl eq_refl eq_refl C2 eq_refl _ eq_refl C0 eq_refl n (le_n n) st rg o st' H)).
    intros st1 rg1 o1 st1' E1.
    pose proof (IH c' p1 C rg1 st1 (Some (h_try h)) (Some (h_try h)) f (wf_loop c c' b cn f W eq_refl) C1 Hf o1 st1' E1) as R.
    exact R.
Qed.

Lemma sim_repeat n s k : sim L n s -> sim L n (SRepeat s k).
Proof.
  intros IH c pc C rg st b cn f W Hc Hf o st' H. cbn [gen size exec fits] in *.
  apply code_app in Hc as [C1 C2]. rewrite gen_len_s in C2. cbn [c_sh] in C2.
  set (h := c_sh c) in *. set (p1 := pc + size (in_loop h) s) in *.
  rewrite Z.add_assoc. fold p1.
  match type of C1 with code_at _ _ (gen ?X _ _) => set (c' := X) in * end.
  refine (loop_repeat L C c c' b cn f n k (exec L n s) pc p1 (p1 + cj_size true k) W
    eq_refl eq_refl eq_refl eq_refl eq_refl C2 eq_refl _ eq_refl n (le_n n) st rg o st' H).
  intros st1 rg1 o1 st1' E1.
  exact (IH c' pc C rg1 st1 (Some (h_try h)) (Some (h_try h)) f (wf_loop c c' b cn f W eq_refl) C1 Hf o1 st1' E1).
Qed.

Lemma sim_for n e nx s : sim L n s -> sim L n (SForIn e nx s).
Proof.
  intros IH c pc C rg st b cn f W Hc Hf o st' H. cbn [gen size exec fits] in *.
  set (h := c_sh c) in *. set (p1 := pc + 2 + size (in_loop h) s) in *.
  pose proof (code_tail _ _ _ _ Hc) as Hj. cbn [app] in Hj.
  apply (code_app C pc [_; _]) in Hc as [C0 Hc]. change (len [IEval (h_dep h) e; IJump p1]) with 2 in Hc.
  apply code_app in Hc as [C1 C2]. rewrite gen_len_s in C2. cbn [c_sh] in C2.
  replace (pc + (4 + size (in_loop h) s)) with (p1 + 2) by (subst p1; lia).
  apply (reach_le L C (S (lb n o))); [lia|]. eapply reach_eval; [exact C0|].
  destruct (l_ev L e st) as [v st1|v st1].
  - apply (reach_le L C (S (lb n o))); [lia|]. eapply reach_jump; [exact Hj|].
    match type of C1 with code_at _ _ (gen ?X _ _) => set (c' := X) in * end.
    eapply reach_imp; [|refine (loop_tail L C c c' b cn f n (KExpr nx) (exec L n s) (pc + 2) p1 (p1 + 2) W
      eq_refl eq_refl eq_refl eq_refl eq_refl C2 eq_refl _ eq_refl n (le_n n) st1 _ o st' H)].
    + intros x. apply post_rg, same_set. fold h. lia.
    + intros st2 rg2 o1 st1' E1.
      exact (IH c' (pc + 2) C rg2 st2 (Some (h_try h)) (Some (h_try h)) f (wf_loop c c' b cn f W eq_refl) C1 Hf o1 st1' E1).
  - assert (o = OThrow v /\ st1 = st') as [-> ->] by (split; congruence).
    apply reach_here, raise_post; [assumption|apply same_refl].
Qed.
End SIM.
