(* The code of try, defer and switch, and of all statements *)
From Coq Require Import ZArith List Lia Bool ZifyBool.
From Verif Require Import Base ListZ DeadModel DeadSpec DeadProofs DeadProofs2 CtlModel CtlSpec CtlProofs CtlProofs2 CtlProofs3.
Import ListNotations.
Local Open Scope Z_scope.
Ltac Zify.zify_post_hook ::= idtac.

Section SIM.
Context {V St : Type} (L : lang V St).
Notation conf := (conf V St).
Notation outcome := (outcome V).
Notation reach := (reach L).

(* ---- try ---- *)

Lemma lt_o_le o d d' : d <= d' -> lt_o o d -> lt_o o d'.
Proof. destruct o; cbn; [lia|auto]. Qed.
Lemma lt_q_le q d d' : d <= d' -> lt_q q d -> lt_q q d'.
Proof. destruct q; cbn; [apply lt_o_le|auto]. Qed.

Lemma wf_deeper c c' b cn f : wf c b cn f -> c_sh c' = deeper (c_sh c) -> wf c' b cn f.
Proof.
  unfold wf. cbn zeta. intros (W1 & W2 & W3 & W4 & W5 & W6) ->. cbn [deeper h_dep h_try h_last h_ret].
  repeat split; (eapply lt_o_le; [|eassumption]) || (eapply lt_q_le; [|eassumption]); lia.
Qed.
Lemma wf_try c c' b cn f : wf c b cn f -> c_sh c' = in_try (c_sh c) -> wf c' b cn f.
Proof.
  unfold wf. cbn zeta. intros (W1 & W2 & W3 & W4 & W5 & W6) ->. cbn [in_try h_dep h_try h_last h_ret].
  split; [cbn; lia|].
  repeat split; (eapply lt_o_le; [|eassumption]) || (eapply lt_q_le; [|eassumption]); lia.
Qed.
Lemma wf_defer c c' b cn f : wf c b cn f -> c_sh c' = in_defer (c_sh c) -> wf c' None None None.
Proof.
  unfold wf. cbn zeta. intros (W1 & W2 & W3 & W4 & W5 & W6) ->. cbn [in_defer h_dep h_try h_last h_ret lt_q].
  split; [cbn; lia|]. split; [eapply lt_o_le; [|eassumption]; lia|]. split; [cbn; lia|auto].
Qed.

Lemma post_deeper c c' b cn f pe rg (o : outcome) (st : St) (x : conf) :
  c_sh c' = deeper (c_sh c) -> c_hnd c' = c_hnd c -> c_brk c' = c_brk c -> c_cont c' = c_cont c ->
  c_fall c' = c_fall c -> c_rpc c' = c_rpc c ->
  post c' b cn f pe rg o st x -> post c b cn f pe rg o st x.
Proof.
  intros Hs Hh Hb Hc Hf Hr. unfold post, good_q, cur, cat. rewrite Hs, Hh, Hb, Hc, Hf, Hr.
  cbn [deeper h_dep h_try h_ret]. 
  assert (K : forall rg', same (h_dep (c_sh c) + 1) rg rg' -> same (h_dep (c_sh c)) rg rg')
    by (intros rg' H; eapply same_le; [|exact H]; lia).
  destruct o; auto.
  - intros (r1 & -> & H1). eauto.
  - intros (r1 & ct & -> & H1 & H2). exists r1, ct. auto.
  - intros (r1 & ct & -> & H1 & H2). exists r1, ct. auto.
  - intros (r1 & ct & -> & H1 & H2). exists r1, ct. auto.
  - destruct (h_ret (c_sh c)); auto. intros (r1 & ct & -> & H1 & H2). exists r1, ct. split; [reflexivity|]. split; [assumption|].
    intros r Hr' Ht Hq. apply H2; auto. lia.
  - destruct (h_try (c_sh c)); auto. intros (r1 & -> & H1 & H2). exists r1. split; [reflexivity|]. split; [assumption|].
    intros r Hr' Ht. apply H2; auto. lia.
Qed.

Lemma cur_deeper c c' : c_sh c' = deeper (c_sh c) -> c_hnd c' = c_hnd c -> cur c' = cur c.
Proof. intros Hs Hh. unfold cur, cat. rewrite Hs, Hh. reflexivity. Qed.

Lemma good_in c c' d p q ct : c_hnd c' = set_hnd c d p -> lt_q q d -> good_q c' q ct -> good_q c q ct.
Proof.
  intros Hh Hq. destruct q as [[t|]|]; cbn [good_q]; auto. intros ->. unfold cat. cbn [option_map]. rewrite Hh.
  unfold set_hnd. cbn in Hq. destruct (t =? d) eqn:Q; [lia|reflexivity].
Qed.

Lemma sim_try n s x hd : sim L n s -> sim L n hd -> sim L n (STry s x hd).
Proof.
  intros IH IHh c pc C rg st b cn f W Hc Hf o st' H. cbn [gen size exec fits] in *.
  set (h := c_sh c) in *. set (p1 := pc + 1 + size (in_try h) s + 2) in *. set (p2 := p1 + 2 + size (deeper h) hd) in *.
  apply andb_prop in Hf as [F1 F2].
  apply (code_app C pc [_]) in Hc as [C0 Hc]. change (len [ICatch (h_dep h) p1]) with 1 in Hc.
  apply code_app in Hc as [C1 Hc]. rewrite gen_len_s in Hc. cbn [c_sh] in Hc.
  apply (code_app C _ [_; _]) in Hc as [C2 Hc]. change (len [restore c (h_try h); IJump p2]) with 2 in Hc. fold p1 in Hc.
  apply (code_app C _ [_; _]) in Hc as [C3 C4]. change (len [restore c (h_try h); IBind x (h_dep h)]) with 2 in C4.
  replace (pc + (5 + size (in_try h) s + size (deeper h) hd)) with p2 by (subst p2 p1; lia).
  match type of C1 with code_at _ _ (gen ?X _ _) => set (c1 := X) in * end.
  match type of C4 with code_at _ _ (gen ?X _ _) => set (c2 := X) in * end.
  assert (Hd : c_sh c1 = in_try h) by reflexivity.
  assert (LE : h_dep (c_sh c) <= h_dep (c_sh c1)) by (change (h_dep (c_sh c1)) with (h_dep h + 1); fold h; lia).
  pose proof W as (W1 & W2 & W3 & W4 & W5 & W6). fold h in W1, W2, W3, W4, W5, W6.
  apply (reach_le L C (S (lb n o))); [lia|].
  eapply reach_step; [rewrite (step_at L _ _ _ _ _ _ _ C0); reflexivity|apply le_n|].
  assert (Hcur : cur c1 = Some (h_dep h, p1)).
  { unfold cur, cat. cbn. unfold set_hnd. rewrite Z.eqb_refl. reflexivity. }
  rewrite <- Hcur.
  destruct (exec L n s st) as [o1 s1] eqn:Q.
  pose proof (IH c1 (pc + 1) C rg st b cn f (wf_try c c1 b cn f W eq_refl) C1 F1 o1 s1 Q) as R.
  destruct o1; try (assert (o = fst (exec L n s st) /\ s1 = st') as [Ho ->] by (rewrite Q; split; cbn [fst]; congruence);
    rewrite Q in Ho; cbn [fst] in Ho; subst o).
  - (* normal *)
    eapply (reach_bind L C 0 2); [cbn; lia|exact R|]. intros y (rg' & -> & S1). cbn [c_sh] in *. fold h in S1.
    rewrite Hd. eapply reach_restore; [exact C2|]. eapply reach_jump; [exact (code_tail _ _ _ _ C2)|].
    apply reach_here. exists rg'. split; [reflexivity|]. eapply same_le; [exact LE|exact S1].
  - eapply reach_imp; [|exact R]. intros y (rg' & ct & -> & S1 & G). exists rg', ct. split; [reflexivity|].
    split; [eapply same_le; [exact LE|exact S1]|]. eapply (good_in c c1); [reflexivity| |exact G]; assumption.
  - eapply reach_imp; [|exact R]. intros y (rg' & ct & -> & S1 & G). exists rg', ct. split; [reflexivity|].
    split; [eapply same_le; [exact LE|exact S1]|]. eapply (good_in c c1); [reflexivity| |exact G]; assumption.
  - eapply reach_imp; [|exact R]. intros y (rg' & ct & -> & S1 & G). exists rg', ct. split; [reflexivity|].
    split; [eapply same_le; [exact LE|exact S1]|]. eapply (good_in c c1); [reflexivity| |exact G]; assumption.
  - eapply reach_imp; [|exact R]. intros y. unfold post. cbn [c_sh c1 in_try h_ret h_try h_dep c_rpc]. fold h.
    destruct (h_ret h) as [q|] eqn:Hq; [|auto]. intros (rg' & ct & -> & Hv & Ho). exists rg', ct. split; [reflexivity|]. split; [assumption|].
    intros r Hr Ht Hx. apply Ho; [lia| |assumption]. intros G. assert (r = h_dep h) by congruence. lia.
  - (* the handler *)
    destruct (exec L n hd (l_set L x v s1)) as [o2 s2] eqn:Q2.
    assert (o2 = o /\ s2 = st') as [-> ->] by (split; congruence).
    eapply (reach_bind L C 0 (S (S (lb n o)))); [lia|exact R|]. intros y (rg' & -> & Hv & Ho).
    cbn [c_sh c1 in_try h_try h_dep c_hnd] in *. fold h in Ho.
    assert (Hp : set_hnd c (h_dep h) p1 (h_dep h) = p1) by (unfold set_hnd; rewrite Z.eqb_refl; reflexivity).
    rewrite Hp. eapply reach_restore; [exact C3|].
    eapply reach_step; [rewrite (step_at L _ _ _ _ _ _ _ (code_tail _ _ _ _ C3)); cbn [exec_instr]; rewrite Hv; reflexivity|apply le_n|].
    change (cat c (h_try h)) with (cur c). rewrite <- (cur_deeper c c2) by reflexivity.
    replace (p1 + 1 + 1) with (p1 + 2) by lia.
    eapply reach_imp; [|apply (IHh c2 (p1 + 2) C rg' _ b cn f (wf_deeper c c2 b cn f W eq_refl) C4 F2 o st' Q2)].
    intros y Py. apply (post_deeper c c2) in Py; try reflexivity.
    eapply post_rg; [|exact Py]. intros r Hr. apply Ho; [lia|]. fold h in Hr. intros G. assert (r = h_dep h) by congruence. lia.
  - eapply reach_imp; [|exact R]. intros y. auto.
Qed.

(* ---- defer ---- *)

(* one copy of the defer section *)
Lemma section_sim n d C c cd b cn f P pe ct rg st o st' : sim L n d -> wf c b cn f ->
  c_sh cd = deeper (c_sh c) -> c_hnd cd = c_hnd c -> c_brk cd = c_brk c -> c_cont cd = c_cont c ->
  c_fall cd = c_fall c -> c_rpc cd = c_rpc c ->
  code_at C P ([restore c (h_try (c_sh c))] ++ gen cd (P + 1) d) -> fits (deeper (c_sh c)) b cn f d = true ->
  exec L n d st = (o, st') ->
  match o with
  | ONormal => reach C 0 (CRun P ct rg st) (fun x => exists rg',
      x = CRun (P + 1 + size (deeper (c_sh c)) d) (cur c) rg' st' /\ same (h_dep (c_sh c) + 1) rg rg')
  | _ => reach C (lb n o) (CRun P ct rg st) (post c b cn f pe rg o st')
  end.
Proof.
  intros IH W Hs Hh Hb Hk Hf Hr Hc F H.
  apply (code_app C P [_]) in Hc as [C0 C1]. change (len [restore c (h_try (c_sh c))]) with 1 in C1.
  assert (R : reach C (lb n o) (CRun P ct rg st) (post cd b cn f (P + 1 + size (c_sh cd) d) rg o st')).
  { apply (reach_le L C (S (lb n o))); [lia|]. eapply reach_restore; [exact C0|].
    change (cat c (h_try (c_sh c))) with (cur c). rewrite <- (cur_deeper c cd) by assumption.
    apply (IH cd (P + 1) C rg st b cn f); auto; [eapply wf_deeper; eauto|rewrite Hs; assumption]. }
  assert (R' : o <> ONormal -> reach C (lb n o) (CRun P ct rg st) (post c b cn f pe rg o st')).
  { intros N. eapply reach_imp; [|exact R]. intros y Py.
    apply (post_pe c b cn f (P + 1 + size (c_sh cd) d)); [exact N|]. apply (post_deeper c cd); assumption. }
  destruct o; try (apply R'; discriminate).
  eapply reach_imp; [|exact R]. intros y (rg' & -> & S1). rewrite Hs in *. exists rg'. rewrite (cur_deeper c cd) by assumption. auto.
Qed.

Lemma sim_defer n s d : sim L n s -> sim L n d -> sim L n (SDefer s d).
Proof.
  intros IH IHd c pc C rg st b cn f W Hc Hf o st' H. cbn [gen size exec fits] in *.
  set (h := c_sh c) in *. set (nd := size (deeper h) d) in *.
  set (p1 := pc + 2 + size (in_defer h) s) in *.
  set (pb := p1 + 3 + nd) in *. set (pk := pb + opt_size (leaves KBreak s) (2 + nd)) in *.
  set (pf := pk + opt_size (leaves KCont s) (2 + nd)) in *.
  set (pr := pf + opt_size (leaves KFall s) (2 + nd)) in *.
  set (pe := pr + opt_size (leaves KRet s) (1 + nd + ret_size h (h_dep h))) in *.
  replace (pc + (2 + size (in_defer h) s + (3 + nd) + opt_size (leaves KBreak s) (2 + nd)
    + opt_size (leaves KCont s) (2 + nd) + opt_size (leaves KFall s) (2 + nd)
    + opt_size (leaves KRet s) (1 + nd + ret_size h (h_dep h)))) with pe by (subst pe pr pf pk pb p1; lia).
  match type of Hc with context [gen {| c_sh := deeper h; c_hnd := ?A; c_brk := ?B; c_cont := ?D; c_fall := ?E0; c_rpc := ?F0 |} _ d] =>
    set (cd := {| c_sh := deeper h; c_hnd := A; c_brk := B; c_cont := D; c_fall := E0; c_rpc := F0 |}) in * end.
  match type of Hc with context [gen ?X (pc + 2) s] => set (c1 := X) in * end.
  apply andb_prop in Hf as [Hf F5]. apply andb_prop in Hf as [Hf F4]. apply andb_prop in Hf as [Hf F3]. apply andb_prop in Hf as [F1 F2].
  assert (Hlen : forall p, len (gen cd p d) = nd) by (intros p; rewrite gen_len_s; reflexivity).
  (* the parts *)
  apply (code_app C pc [_; _]) in Hc as [C0 Hc]. change (len [IVoid (h_dep h); ICatch (h_dep h) p1]) with 2 in Hc.
  apply code_app in Hc as [C1 Hc]. rewrite gen_len_s in Hc. change (size (c_sh c1) s) with (size (in_defer h) s) in Hc. fold p1 in Hc.
  rewrite (app_assoc [restore c (h_try h)]) in Hc.
  apply code_app in Hc as [CN Hc]. rewrite len_app, Hlen in Hc. change (len [restore c (h_try h)]) with 1 in Hc.
  apply (code_app C _ [_; _]) in Hc as [CT Hc]. change (len [IJumpN pe (h_dep h); IThrow (h_dep h)]) with 2 in Hc.
  replace (p1 + (1 + nd) + 2) with pb in Hc by (subst pb; lia).
  assert (Gl : forall (q : bool) p (t : Z), len (if q then [restore c (h_try h)] ++ gen cd p d ++ [IJump t] else []) = opt_size q (2 + nd)).
  { intros [|] p t; cbn [opt_size]; [|reflexivity]. rewrite !len_app, Hlen. reflexivity || (change (len [restore c (h_try h)]) with 1; change (len [IJump t]) with 1; lia). }
  apply code_app in Hc as [CB Hc]. rewrite Gl in Hc. fold pk in Hc.
  apply code_app in Hc as [CK Hc]. rewrite Gl in Hc. fold pf in Hc.
  apply code_app in Hc as [CF CR]. rewrite Gl in CR. fold pr in CR.
  pose proof W as (W1 & W2 & W3 & W4 & W5 & W6). fold h in W1, W2, W3, W4, W5, W6.
  assert (Hcur : cur c1 = Some (h_dep h, p1)).
  { unfold cur, cat. cbn. unfold set_hnd. rewrite Z.eqb_refl. reflexivity. }
  assert (Hp : c_hnd c1 (h_dep h) = p1) by (cbn; unfold set_hnd; rewrite Z.eqb_refl; reflexivity).
  assert (OK : okf s) by (repeat eexists; exact F1).
  (* the section *)
  apply (reach_le L C (S (S (lb n o)))); [lia|].
  eapply reach_step; [rewrite (step_at L _ _ _ _ _ _ _ C0); reflexivity|apply le_n|].
  eapply reach_step; [rewrite (step_at L _ _ _ _ _ _ _ (code_tail _ _ _ _ C0)); reflexivity|apply le_n|].
  rewrite <- Hcur. replace (pc + 1 + 1) with (pc + 2) by lia.
  set (rg0 := set rg (h_dep h) RVoid).
  assert (S0 : same (h_dep h) rg rg0) by (apply same_set; lia).
  destruct (exec L n s st) as [o1 s1] eqn:Q.
  pose proof (IH c1 (pc + 2) C rg0 st None None None (wf_defer c c1 b cn f W eq_refl) C1 F1 o1 s1 Q) as R.
  pose proof (proj1 (not_left L n) s) as NL.
  destruct (exec L n d s1) as [o2 s2] eqn:Q2.
  (* a copy at P, then the code after it *)
  assert (SEC : forall P ct rg1 m, code_at C P ([restore c (h_try h)] ++ gen cd (P + 1) d) -> same (h_dep h) rg rg1 ->
     o1 <> OFuel ->
     (o2 = ONormal -> o = o1 -> s2 = st' -> forall rg2, same (h_dep h + 1) rg1 rg2 ->
        reach C m (CRun (P + 1 + nd) (cur c) rg2 st') (post c b cn f pe rg o1 st')) ->
     (o2 = ONormal -> lb n o <= m)%nat ->
     reach C (lb n o) (CRun P ct rg1 s1) (post c b cn f pe rg o st')).
  { intros P ct rg1 m CP S1 NF Hk Hm.
    pose proof (section_sim n d C c cd b cn f P pe ct rg1 s1 o2 s2 IHd W eq_refl eq_refl eq_refl eq_refl eq_refl eq_refl CP F2 Q2) as RS.
    destruct o2.
    - assert (Eo : o1 = o /\ s2 = st') by (destruct o1; try (split; congruence); contradiction NF; reflexivity).
      destruct Eo as [<- <-]. eapply (reach_bind L C 0 m); [specialize (Hm eq_refl); lia|exact RS|].
      intros y (rg2 & -> & S2). apply Hk; auto.
    - assert (Eo : OBreak = o /\ s2 = st') by (destruct o1; try (split; congruence); contradiction NF; reflexivity).
      destruct Eo as [<- <-]. eapply reach_imp; [|exact RS]. intros y. apply post_rg, S1.
    - assert (Eo : OCont = o /\ s2 = st') by (destruct o1; try (split; congruence); contradiction NF; reflexivity).
      destruct Eo as [<- <-]. eapply reach_imp; [|exact RS]. intros y. apply post_rg, S1.
    - assert (Eo : OFall = o /\ s2 = st') by (destruct o1; try (split; congruence); contradiction NF; reflexivity).
      destruct Eo as [<- <-]. eapply reach_imp; [|exact RS]. intros y. apply post_rg, S1.
    - assert (Eo : ORet v = o /\ s2 = st') by (destruct o1; try (split; congruence); contradiction NF; reflexivity).
      destruct Eo as [<- <-]. eapply reach_imp; [|exact RS]. intros y. apply post_rg, S1.
    - assert (Eo : OThrow v = o /\ s2 = st') by (destruct o1; try (split; congruence); contradiction NF; reflexivity).
      destruct Eo as [<- <-]. eapply reach_imp; [|exact RS]. intros y. apply post_rg, S1.
    - assert (Eo : OFuel = o /\ s2 = st') by (destruct o1; try (split; congruence); contradiction NF; reflexivity).
      destruct Eo as [<- <-]. eapply reach_imp; [|exact RS]. intros y. apply post_rg, S1. }
  assert (CODE : forall (q : bool) p t, q = true -> code_at C p (if q then [restore c (h_try h)] ++ gen cd (p + 1) d ++ [IJump t] else []) ->
    code_at C p ([restore c (h_try h)] ++ gen cd (p + 1) d) /\ code_at C (p + 1 + nd) [IJump t]).
  { intros q p t -> H1. rewrite app_assoc in H1. apply code_app in H1 as [H1 H2]. split; [exact H1|].
    rewrite len_app, Hlen in H2. change (len [restore c (h_try h)]) with 1 in H2. replace (p + 1 + nd) with (p + (1 + nd)) by lia. exact H2. }
  assert (DD : h_dep (c_sh c1) = h_dep h + 1) by reflexivity.
  assert (SS : forall rg1, same (h_dep (c_sh c1)) rg0 rg1 -> same (h_dep h) rg rg1)
    by (intros rg1 S1; eapply same_trans; [exact S0|eapply same_le; [|exact S1]; lia]).
  assert (LF : forall k, is_kind k o1 = true -> leaves k s = true).
  { intros k K. destruct (leaves k s) eqn:Lk; [reflexivity|]. pose proof (NL k st OK Lk) as NK. rewrite Q in NK. cbn [fst] in NK. congruence. }
  destruct o1.
  - (* normal *)
    eapply (reach_bind L C 0 (lb n o)); [lia|exact R|]. intros y (rg1 & -> & S1).
    change (pc + 2 + size (c_sh c1) s) with p1.
    apply (SEC p1 _ rg1 1%nat CN (SS rg1 S1)); [discriminate| |].
    + intros -> -> -> rg2 S2. replace (p1 + 1 + nd) with (p1 + (1 + nd)) by lia.
      eapply reach_step; [rewrite (step_at L _ _ _ _ _ _ _ CT); reflexivity|apply le_n|].
      rewrite (S2 (h_dep h)) by lia. rewrite (S1 (h_dep h)) by lia. unfold rg0. rewrite set_same. cbn [rtrue].
      apply reach_here. exists rg2. split; [reflexivity|]. eapply same_trans; [exact (SS rg1 S1)|]. eapply same_le; [|exact S2]. fold h. lia.
    + intros ->. assert (ONormal = o) as <- by congruence. cbn. lia.
  - (* break *)
    specialize (LF KBreak eq_refl). rewrite LF in F3. cbn [negb orb] in F3. destruct (CODE _ _ _ LF CB) as [CA CJ].
    eapply (reach_bind L C 1 (lb n o)); [lia|exact R|]. intros y (rg1 & ct & -> & S1 & _). change (c_brk c1) with pb.
    apply (SEC pb _ rg1 1%nat CA (SS rg1 S1)); [discriminate| |].
    + intros -> -> -> rg2 S2. eapply reach_jump; [exact CJ|]. apply reach_here. exists rg2, (cur c). split; [reflexivity|].
      split; [eapply same_trans; [exact (SS rg1 S1)|]; eapply same_le; [|exact S2]; fold h; lia|]. apply meets_good, F3.
    + intros ->. assert (OBreak = o) as <- by congruence. cbn. lia.
  - specialize (LF KCont eq_refl). rewrite LF in F4. cbn [negb orb] in F4. destruct (CODE _ _ _ LF CK) as [CA CJ].
    eapply (reach_bind L C 1 (lb n o)); [lia|exact R|]. intros y (rg1 & ct & -> & S1 & _). change (c_cont c1) with pk.
    apply (SEC pk _ rg1 1%nat CA (SS rg1 S1)); [discriminate| |].
    + intros -> -> -> rg2 S2. eapply reach_jump; [exact CJ|]. apply reach_here. exists rg2, (cur c). split; [reflexivity|].
      split; [eapply same_trans; [exact (SS rg1 S1)|]; eapply same_le; [|exact S2]; fold h; lia|]. apply meets_good, F4.
    + intros ->. assert (OCont = o) as <- by congruence. cbn. lia.
  - specialize (LF KFall eq_refl). rewrite LF in F5. cbn [negb orb] in F5. destruct (CODE _ _ _ LF CF) as [CA CJ].
    eapply (reach_bind L C 1 (lb n o)); [lia|exact R|]. intros y (rg1 & ct & -> & S1 & _). change (c_fall c1) with pf.
    apply (SEC pf _ rg1 1%nat CA (SS rg1 S1)); [discriminate| |].
    + intros -> -> -> rg2 S2. eapply reach_jump; [exact CJ|]. apply reach_here. exists rg2, (cur c). split; [reflexivity|].
      split; [eapply same_trans; [exact (SS rg1 S1)|]; eapply same_le; [|exact S2]; fold h; lia|]. apply meets_good, F5.
    + intros ->. assert (OFall = o) as <- by congruence. cbn. lia.
  - (* return *)
    specialize (LF KRet eq_refl). rewrite LF in CR. rewrite app_assoc in CR. apply code_app in CR as [CA CJ].
    rewrite len_app, Hlen in CJ. change (len [restore c (h_try h)]) with 1 in CJ.
    eapply (reach_bind L C 0 (lb n o)); [lia|exact R|]. intros y (rg1 & ct & -> & Hv & Ho). change (c_rpc c1) with pr.
    cbn [c_sh c1 in_defer h_try h_dep h_ret] in Hv, Ho.
    assert (S1 : same (h_dep h) rg rg1).
    { intros r Hr. rewrite Ho; [apply S0, Hr|lia| |]; intros G; assert (r = h_dep h) by congruence; lia. }
    apply (SEC pr _ rg1 0%nat CA S1); [discriminate| |].
    + intros -> -> -> rg2 S2. replace (pr + 1 + nd) with (pr + (1 + nd)) by lia.
      rewrite <- (app_nil_r (gen_ret c _)) in CJ. eapply reach_imp; [|eapply ret_sim; [exact CJ|rewrite (S2 (h_dep h)) by lia; exact Hv]].
      intros y. cbn [post]. fold h. destruct (h_ret h) as [q|]; [|auto].
      intros (rg3 & -> & Hq & Ho3). exists rg3, (cur c). split; [reflexivity|]. split; [assumption|].
      intros r Hr Ht Hx. rewrite Ho3 by congruence. rewrite (S2 r) by lia. apply S1, Hr.
    + intros ->. assert (ORet v = o) as <- by congruence. cbn. lia.
  - (* exception *)
    eapply (reach_bind L C 0 (lb n o)); [lia|exact R|]. intros y (rg1 & -> & Hv & Ho). rewrite Hp.
    cbn [c_sh c1 in_defer h_try h_dep h_ret] in Hv, Ho.
    assert (S1 : same (h_dep h) rg rg1).
    { intros r Hr. rewrite Ho; [apply S0, Hr|lia|]; intros G; assert (r = h_dep h) by congruence; lia. }
    apply (SEC p1 _ rg1 2%nat CN S1); [discriminate| |].
    + intros -> -> -> rg2 S2. replace (p1 + 1 + nd) with (p1 + (1 + nd)) by lia.
      assert (Hv2 : rg2 (h_dep h) = RExc v) by (rewrite (S2 (h_dep h)) by lia; exact Hv).
      eapply reach_step; [rewrite (step_at L _ _ _ _ _ _ _ CT); cbn [exec_instr]; rewrite Hv2; reflexivity|apply le_n|]. cbn [rtrue].
      eapply reach_step; [rewrite (step_at L _ _ _ _ _ _ _ (code_tail _ _ _ _ CT)); cbn [exec_instr]; rewrite Hv2; reflexivity|apply le_n|].
      apply reach_here, raise_post; [assumption|]. eapply same_trans; [exact S1|]. eapply same_le; [|exact S2]. fold h. lia.
    + intros ->. assert (OThrow v = o) as <- by congruence. cbn. lia.
  - assert (OFuel = o /\ s1 = st') as [<- ->] by (split; congruence). eapply reach_imp; [|exact R]. auto.
Qed.
End SIM.
