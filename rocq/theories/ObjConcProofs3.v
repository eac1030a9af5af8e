(* Shared objects: kinds of steps. *)
From Coq Require Import ZArith List Lia Bool ZifyBool.
Import ListNotations.
From Verif Require Import Base ListZ ObjConcSpec ObjConcModel ObjConcProofs ObjConcProofs2.
From Verif Require ArrayConcProofs.
Local Open Scope Z_scope.
Ltac Zify.zify_post_hook ::= idtac.

Section Steps.
Variable W : key -> Z -> Prop.
Notation minv := (minv W).
Notation ginv := (ginv W).
Notation tfact := (tfact W).
Notation decs b := (th_of 0 (dec_at b)).
Notation cops b := (th_of 0 (cop_at b)).
Notation th_mid := (th_of None mid).
Notation th_hold := (th_of None hold).
Notation th_fresh := (th_of None fresh).

Lemma with_tab : forall (Q : out -> Prop) m n f, alive m n -> (forall t, tb m n = Some t -> Q (f t)) -> Q (on_tab m n f).
Proof. intros Q m n f (t & Ht) H. unfold on_tab. fold (tb m n). rewrite Ht. auto. Qed.
Lemma with_item : forall (Q : out -> Prop) m n t i f, tb m n = Some t -> 0 <= i < cp m n -> (forall it, itm m n i = Some it -> gz (t_items t) i = Some it -> Q (f it)) -> Q (on_item t i f).
Proof.
  intros Q m n t i f Ht B H. unfold on_item. unfold cp, cap in B. rewrite Ht in B. destruct (gz_some _ _ _ B) as (it & E). rewrite E. apply H; [| exact E]. unfold itm. rewrite Ht. exact E.
Qed.
Lemma iv_itm : forall m n i it, itm m n i = Some it -> iv m n i = Some (i_val it).
Proof. intros m n i it H. unfold iv. rewrite H. reflexivity. Qed.
Lemma ik_itm : forall m n i it, itm m n i = Some it -> ik m n i = i_key it.
Proof. intros m n i it H. unfold ik. rewrite H. reflexivity. Qed.
Lemma slot_range : forall m D P n t idx, minv m D P -> tb m n = Some t -> 0 <= slot t idx < cp m n.
Proof.
  intros m D P n t idx I Ht. unfold slot. replace (cap t) with (cp m n) by (unfold cp; rewrite Ht; reflexivity). apply pow2_land. apply (a_cap _ _ _ _ I). exists t. exact Ht.
Qed.

Lemma ext_same : forall m m' (D P D' : Z -> Prop), same_items m m' -> (forall b, nw m' b = nw m b) -> m_props m' = m_props m -> (forall n, D n -> D' n) -> ext m D P m' D' P.
Proof.
  intros m m' D P D' X Hn Hp HD. constructor.
  - intros b. apply (si_alive _ _ X).
  - intros b _. apply (si_cp _ _ X).
  - intros b j k. unfold ik. rewrite (si_itm _ _ X). auto.
  - intros b j. unfold iv. rewrite (si_itm _ _ X). auto.
  - intros b x. rewrite Hn. auto.
  - rewrite Hp. auto.
  - intros b (A & B & C & E). split; [apply (si_alive _ _ X); exact A |]. split; [rewrite Hp; exact B |]. split; [exact C |]. intros p Q. rewrite Hn in Q. auto.
  - exact HD.
Qed.
Lemma ext_item : forall m m' D P n i it0 it, item_written m m' n i it -> itm m n i = Some it0 -> (forall k, i_key it0 = Some k -> i_key it = Some k) -> (i_val it0 = Closed -> i_val it = Closed) -> ext m D P m' D P.
Proof.
  intros m m' D P n i it0 it X H0 Hk Hc. constructor.
  - intros b. apply (iw_alive _ _ _ _ _ X).
  - intros b _. apply (iw_cp _ _ _ _ _ X).
  - intros b j k H. unfold ik. rewrite (iw_itm _ _ _ _ _ X). destruct ((b =? n) && (j =? i)) eqn:E; [| exact H]. assert (b = n /\ j = i) as [-> ->] by lia. unfold ik in H. rewrite H0 in H. auto.
  - intros b j H. unfold iv. rewrite (iw_itm _ _ _ _ _ X). destruct ((b =? n) && (j =? i)) eqn:E; [| exact H]. assert (b = n /\ j = i) as [-> ->] by lia. unfold iv in H. rewrite H0 in H. rewrite Hc by congruence. reflexivity.
  - intros b x. rewrite (iw_nw _ _ _ _ _ X). auto.
  - rewrite (iw_props _ _ _ _ _ X). auto.
  - intros b (A & B & C & E). split; [apply (iw_alive _ _ _ _ _ X); exact A |]. split; [rewrite (iw_props _ _ _ _ _ X); exact B |]. split; [exact C |]. intros p Q. rewrite (iw_nw _ _ _ _ _ X) in Q. auto.
  - auto.
Qed.

Lemma others_idle : forall m ths D P t o p n, ginv m ths D P -> gz ths t = Some (Some (o, p)) -> cps m n = cop_at n p ->
  forall u p1, u <> t -> run_at ths u p1 -> mid p1 <> Some n.
Proof.
  intros m ths D P t o p n G Ht Hc u p1 N (o1 & Hu) E. apply mid_cop in E. pose proof (gz_some_inv _ _ _ _ Ht) as Bt.
  pose proof (ArrayConcProofs.total_put _ (fun th => cops n th) ths t (Some (o, p)) None Ht) as T. cbn [th_of] in T. rewrite <- (g_copies _ _ _ _ _ G n), Hc in T.
  assert (Hu' : gz (put ths t None) u = Some (Some (o1, p1))) by (rewrite gz_put by exact Bt; destruct (Z.eqb_spec u t); [contradiction | exact Hu]).
  pose proof (ArrayConcProofs.total_pos _ (fun th => cops n th) _ u _ (fun x => proj1 (cop_range n x)) Hu') as Q. cbn [th_of] in Q. lia.
Qed.
Lemma self_copies : forall m ths D P t o p n, ginv m ths D P -> gz ths t = Some (Some (o, p)) -> cop_at n p <= cps m n.
Proof.
  intros m ths D P t o p n G Ht. rewrite (g_copies _ _ _ _ _ G n). exact (ArrayConcProofs.total_pos _ (fun th => cops n th) _ t _ (fun x => proj1 (cop_range n x)) Ht).
Qed.
Lemma copies_le : forall m ths D P n, ginv m ths D P -> 0 <= cps m n <= len ths.
Proof.
  intros m ths D P n G. rewrite (g_copies _ _ _ _ _ G n). split; [apply ArrayConcProofs.total_nonneg | apply ArrayConcProofs.total_le]; intros x; apply cop_range.
Qed.
Lemma self_open : forall m ths D P t o p n, ginv m ths D P -> gz ths t = Some (Some (o, p)) -> cnt m n + dec_at n p <= opn m n.
Proof.
  intros m ths D P t o p n G Ht. rewrite (g_open _ _ _ _ _ G n). pose proof (ArrayConcProofs.total_pos _ (fun th => decs n th) _ t _ (fun x => proj1 (dec_range n x)) Ht) as Q. cbn [th_of] in Q. lia.
Qed.
Lemma open_le : forall m ths D P n, ginv m ths D P -> 0 <= opn m n <= cp m n + len ths.
Proof.
  intros m ths D P n G. rewrite (g_open _ _ _ _ _ G n). pose proof (cnt_nonneg m n).
  pose proof (ArrayConcProofs.total_nonneg _ (fun th => decs n th) ths (fun x => proj1 (dec_range n x))). pose proof (ArrayConcProofs.total_le _ (fun th => decs n th) ths (fun x => proj2 (dec_range n x))). lia.
Qed.
Lemma no_rsvd : forall m ths D P n i, ginv m ths D P -> usable m D P n -> iv m n i <> Some Rsvd.
Proof.
  intros m ths D P n i G (_ & _ & _ & U) H. destruct (g_rsvd _ _ _ _ _ G n i H) as (t & p & (o & Hp) & E).
  destruct (g_mono _ _ _ _ _ G t o p Hp) as (_ & F).
  assert (Q : exists q, mid p = Some q /\ nw m q = Some n).
  { destruct p; cbn [hold] in E; try discriminate E. destruct c; try discriminate E. destruct F as (_ & F & _). destruct s; try discriminate E; exists n0; (split; [reflexivity |]); congruence. }
  destruct Q as (q & Q1 & Q2). apply (g_done _ _ _ _ _ G t p q (ex_intro _ o Hp) Q1). apply U. exact Q2.
Qed.

(* memory may change only in counters; D may grow *)
Lemma step_same : forall m ths D P m' (D' : Z -> Prop) t o p th,
  ginv m ths D P -> gz ths t = Some (Some (o, p)) ->
  same_items m m' -> (forall b, nw m' b = nw m b) -> m_props m' = m_props m -> (forall n, D n -> D' n) ->
  (forall n, D' n -> D n \/ (all_closed m n /\ alive m n /\ forall u p1, u <> t -> run_at ths u p1 -> mid p1 <> Some n)) ->
  (forall n, all_closed m n \/ cps m' n = cps m n \/ 1 <= cps m' n) ->
  (forall o' p', th = Some (o', p') -> o' = o /\ tfact m' D' P o' p') ->
  (forall n, th_mid th = Some n -> ~ D' n) ->
  (forall nt j, hold p = Some (nt, j) -> iv m nt j = Some Rsvd -> th_hold th = Some (nt, j)) ->
  th_fresh th = None ->
  (forall b, opn m' b - decs b th = opn m b - dec_at b p) ->
  (forall b, cps m' b - cops b th = cps m b - cop_at b p) ->
  ginv m' (put ths t th) D' P.
Proof.
  intros m ths D P m' D' t o p th G Ht X Hn Hp HD HD' Hc Hfact Hmid Hhold Hfresh Hopen Hcop.
  apply (step_frame W m ths D P m' D' P t o p th G Ht).
  - eapply minv_same; [exact (g_mem _ _ _ _ _ G) | exact X | exact Hn | exact Hp | exact HD | | exact Hc]. intros n Q. destruct (HD' n Q) as [A | (A & _)]; [left | right]; exact A.
  - apply ext_same; assumption.
  - intros n Q. apply (si_alive _ _ X). destruct (HD' n Q) as [A | (_ & A & _)]; [exact (g_dal _ _ _ _ _ G n A) | exact A].
  - exact Hfact.
  - exact Hmid.
  - intros n Q. destruct (HD' n Q) as [A | (_ & _ & A)]; [left | right]; exact A.
  - intros nt j Q. unfold iv in Q. rewrite (si_itm _ _ X) in Q. fold (iv m nt j) in Q. destruct (hold p) as [[a b]|] eqn:E.
    + destruct (Z.eq_dec a nt) as [-> |]; [destruct (Z.eq_dec b j) as [-> |]; [left; apply Hhold; [reflexivity | exact Q] |] |]; right; (split; [exact Q | congruence]).
    + right. split; [exact Q | discriminate].
  - intros nb Q. rewrite Hfresh in Q. discriminate Q.
  - intros nb Q. left. exact Q.
  - intros b. rewrite (si_cnt _ _ X). specialize (Hopen b). lia.
  - exact Hcop.
Qed.
Lemma same_refl : forall m, same_items m m.
Proof. intros m. constructor; intros; reflexivity. Qed.

(* an item changes *)
Lemma step_item : forall m ths D P n tn i it0 it t o p p',
  ginv m ths D P -> gz ths t = Some (Some (o, p)) -> tb m n = Some tn -> gz (t_items tn) i = Some it0 ->
  (i_key it = None -> i_val it = Tomb \/ i_val it = Closed) ->
  (i_val it = Closed -> i_val it0 = Closed \/ (nw m n <> None /\ 1 <= cps m n)) ->
  (forall v, i_val it = Val v -> exists k, i_key it = Some k /\ W k v) ->
  (i_val it0 = Closed -> i_val it = Closed) ->
  (forall k, i_key it0 = Some k -> i_key it = Some k) ->
  let m' := set_item m n tn i it in
  (ext m D P m' D P -> iv m' n i = Some (i_val it) -> ik m' n i = i_key it -> tfact m' D P o p') ->
  (forall n, mid p' = Some n -> ~ D n) ->
  (i_val it = Rsvd -> hold p' = Some (n, i) \/ (i_val it0 = Rsvd /\ hold p <> Some (n, i))) ->
  (forall nt j, hold p = Some (nt, j) -> hold p' = Some (nt, j) \/ (nt = n /\ j = i)) ->
  fresh p' = None ->
  (forall b, dec_at b p' = dec_at b p + if b =? n then is_open it0 - is_open it else 0) ->
  (forall b, cop_at b p' = cop_at b p) ->
  ginv m' (put ths t (Some (o, p'))) D P.
Proof.
  intros m ths D P n tn i it0 it t o p p' G Ht Hn Hi C1 C2 C3 C4 C5 m' Hfact Hmid Hr Hhold Hfresh Hdec Hcop.
  pose proof (set_item_ok m n tn i it it0 Hn Hi) as X. fold m' in X. assert (H0 : itm m n i = Some it0) by (unfold itm; rewrite Hn; exact Hi).
  pose proof (ext_item m m' D P n i it0 it X H0 C5 C4) as Xe.
  assert (Iv : forall b j, iv m' b j = if (b =? n) && (j =? i) then Some (i_val it) else iv m b j) by (intros b j; unfold iv; rewrite (iw_itm _ _ _ _ _ X); destruct (_ && _); reflexivity).
  apply (step_frame W m ths D P m' D P t o p (Some (o, p')) G Ht); cbn [th_of].
  - eapply minv_item; [exact (g_mem _ _ _ _ _ G) | exact X | exact H0 | exact C1 | exact C2 | exact C3 | exact C4].
  - exact Xe.
  - intros b Q. apply (iw_alive _ _ _ _ _ X). exact (g_dal _ _ _ _ _ G b Q).
  - intros o' q E. assert (o' = o /\ q = p') as [-> ->] by (split; congruence). split; [reflexivity |]. apply Hfact; [exact Xe | rewrite Iv, !Z.eqb_refl; reflexivity |]. unfold ik. rewrite (iw_itm _ _ _ _ _ X), !Z.eqb_refl. reflexivity.
  - exact Hmid.
  - intros b Q. left. exact Q.
  - intros nt j Q. rewrite Iv in Q. destruct ((nt =? n) && (j =? i)) eqn:E.
    + assert (nt = n /\ j = i) as [-> ->] by lia. destruct (Hr ltac:(congruence)) as [A | (A & B)]; [left; exact A | right]. split; [| exact B]. unfold iv. rewrite H0. congruence.
    + destruct (hold p) as [[a b]|] eqn:Eh; [| right; split; [exact Q | discriminate]]. destruct (Z.eq_dec a nt) as [Ea |], (Z.eq_dec b j) as [Eb |]; try (right; split; [exact Q | congruence]).
      rewrite Ea, Eb in *. left. destruct (Hhold nt j eq_refl) as [A | A]; [exact A | lia].
  - intros nb Q. congruence.
  - intros nb Q. left. exact Q.
  - intros b. rewrite (iw_opn _ _ _ _ _ X), (iw_cnt _ _ _ _ _ X b it0 H0), Hdec. destruct (b =? n); lia.
  - intros b. rewrite (iw_cps _ _ _ _ _ X), Hcop. lia.
Qed.

Definition stepped (ths : list (option (op * pc))) (t : Z) (o : op) (x : out) : Prop :=
  match x with
  | Next m' p' => exists D' P', ginv m' (put ths t (Some (o, p'))) D' P'
  | Ret m' r => (exists D' P', ginv m' (put ths t None) D' P') /\ forall v, r = RVal v -> W (op_key o) v
  | Bad => False
  end.

(* the thread only goes to another place *)
Lemma step_local : forall m ths D P t o p p', ginv m ths D P -> gz ths t = Some (Some (o, p)) -> tfact m D P o p' ->
  (forall n, mid p' = Some n -> ~ D n) -> (forall nt j, hold p = Some (nt, j) -> iv m nt j = Some Rsvd -> hold p' = Some (nt, j)) -> fresh p' = None ->
  (forall b, dec_at b p' = dec_at b p) -> (forall b, cop_at b p' = cop_at b p) -> stepped ths t o (Next m p').
Proof.
  intros m ths D P t o p p' G Ht F Hm Hh Hf Hd Hc. exists D, P. apply (step_same m ths D P m D t o p (Some (o, p')) G Ht); cbn [th_of]; auto using same_refl.
  - intros o' q E. assert (o' = o /\ q = p') as [-> ->] by (split; congruence). auto.
  - intros b. rewrite Hd. reflexivity.
  - intros b. rewrite Hc. reflexivity.
Qed.
Lemma step_ret : forall m ths D P t o p r, ginv m ths D P -> gz ths t = Some (Some (o, p)) -> hold p = None ->
  (forall b, dec_at b p = 0) -> (forall b, cop_at b p = 0) -> (forall v, r = RVal v -> W (op_key o) v) -> stepped ths t o (Ret m r).
Proof.
  intros m ths D P t o p r G Ht Hh Hd Hc Hr. split; [| exact Hr]. exists D, P. apply (step_same m ths D P m D t o p None G Ht); cbn [th_of]; auto using same_refl; intros; try congruence; rewrite ?Hd, ?Hc; reflexivity.
Qed.
End Steps.
