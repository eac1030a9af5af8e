(* Shared objects: every step of a thread and every run preserve the invariant. *)
From Coq Require Import ZArith List Lia Bool ZifyBool.
Import ListNotations.
From Verif Require Import Base ListZ ObjConcSpec ObjConcModel ObjConcProofs ObjConcProofs2 ObjConcProofs3 ObjConcProofs4 ObjConcProofs5.
From Verif Require ArrayConcProofs.
Local Open Scope Z_scope.
Ltac Zify.zify_post_hook ::= idtac.

Lemma pow2_four : pow2 4.
Proof. exists 2. split; [lia | reflexivity]. Qed.
Lemma pow2_double : forall c, pow2 c -> u32 (c * 2) <= 67108864 -> pow2 (u32 (c * 2)).
Proof.
  intros c Pc H. pose proof (pow2_bound c Pc) as B. assert (E : u32 (c * 2) = c * 2) by (unfold u32, uwrap; apply Z.mod_small; change (2 ^ 32) with 4294967296; lia). rewrite E in *.
  destruct Pc as (k & Bk & ->). exists (k + 1). rewrite Z.pow_add_r by lia. change (2 ^ 1) with 2. split; [| reflexivity]. split; [lia |].
  destruct (Z_le_gt_dec k 25); [lia |]. assert (k = 26) by lia. subst k. change (2 ^ 26) with 67108864 in H. lia.
Qed.

Section Steps.
Variable W : key -> Z -> Prop.
Variable hash_of : key -> Z.
Notation minv := (minv W).
Notation ginv := (ginv W).
Notation tfact := (tfact W).
Notation stepped := (stepped W).
Ltac pl := split; [reflexivity |]; split; [reflexivity |]; split; intros ?b; reflexivity.

Definition value_of (o : op) : pval := match o with OSet _ (Some v) => Val v | _ => Tomb end.
Lemma value_good : forall o, opok W o -> good_val W (op_key o) (value_of o).
Proof. intros [k [v|]|k] H; cbn [value_of op_key opok] in *; [right; exists v; split; [reflexivity | exact H] | left; reflexivity | left; reflexivity]. Qed.

Lemma thread_ok : forall m ths D P t o p yes, len ths <= 1000000000 -> ginv m ths D P -> gz ths t = Some (Some (o, p)) -> stepped ths t o (thread_step hash_of m o p yes).
Proof.
  intros m ths D P t o p yes Hlen G Ht. pose proof (g_mem _ _ _ _ _ G) as I. destruct (g_mono _ _ _ _ _ G t o _ Ht) as (Ho & F). pose proof (value_good o Ho) as Gv.
  assert (Go : forall p', plain p -> plain p' -> fresh p' = None -> tfact m D P o p' -> stepped ths t o (Next m p')) by (intros p' A B C E; apply (step_plain W m ths D P t o p p' G Ht A B C E)).
  assert (Re : forall r, plain p -> (forall v, r = RVal v -> W (op_key o) v) -> stepped ths t o (Ret m r)) by (intros r (A1 & A2 & A3 & A4) B; apply (step_ret W m ths D P t o p r G Ht A2 A3 A4 B)).
  unfold thread_step. cbv zeta. fold (value_of o). fold (op_key o). remember (value_of o) as value eqn:Ev.
  destruct p as [| |nt| |n idx nr|n i nr|n i nr|n i nr|n i nr ck|n i nr|n i nr old|n i nr|n nr| |n idx nr|n i nr ck|n i nr ck v|n k|n k|n nt k|n k|n nt k|n nt c k]; cbn [ObjConcProofs2.tfact] in F.
  - (* SProps *)
    destruct (m_props m) as [q|] eqn:Ep; [apply Go; [pl | pl | reflexivity | cbn [ObjConcProofs2.tfact]; congruence] |].
    destruct value; [apply Re; [pl | intros v E; discriminate E] | | |]; apply Go; try pl; try reflexivity; exact Logic.I.
  - (* SAlloc *)
    destruct yes; [| apply Re; [pl | intros v E; discriminate E]]. apply (step_alloc W m ths D P t o SAlloc); [exact G | exact Ht | pl | pl | exact pow2_four | reflexivity | intros _; exact Logic.I].
  - (* SFirst *)
    destruct (g_fresh _ _ _ _ _ G t (SFirst nt) nt (ex_intro _ o Ht) eq_refl) as (Al & Np).
    destruct (m_props m) as [q|] eqn:Ep; [apply Go; [pl | pl | reflexivity | cbn [ObjConcProofs2.tfact]; congruence] |].
    exists D, (fun b => P b \/ b = nt). apply (step_props W m ths D P t o (SFirst nt)); [exact G | exact Ht | pl | exact Al | | right; reflexivity | reflexivity | reflexivity | reflexivity | reflexivity | reflexivity |].
    + intros b Q. exfalso. apply Np. exact (a_pub _ _ _ _ I b nt Q).
    + intros o' p' E. assert (o' = o /\ p' = STable) as [-> ->] by (split; congruence). split; [reflexivity | discriminate].
  - (* STable *)
    destruct (m_props m) as [q|] eqn:Ep; [| contradiction]. apply Go; [pl | pl | reflexivity |]. exact (a_props _ _ _ _ I q Ep).
  - (* SProbe *)
    apply with_tab; [exact (proj1 F) |]. intros tn Hn. pose proof (slot_range W m D P n tn idx I Hn) as Bs. apply (with_item _ m n); [exact Hn | exact Bs |]. intros it H1 H2. pose proof (ik_itm _ _ _ _ H1) as Hk.
    destruct (i_key it) as [ck|] eqn:Ek; [apply Go; [pl | pl | reflexivity | split; assumption] |].
    destruct value; apply Go; try pl; try reflexivity; try exact F; split; assumption.
  - (* SKey *)
    destruct F as (U & Bi). apply with_tab; [exact (proj1 U) |]. intros tn Hn. apply (with_item _ m n); [exact Hn | exact Bi |]. intros it H1 H2. pose proof (iv_itm _ _ _ _ H1) as Hv. pose proof (ik_itm _ _ _ _ H1) as Hk.
    assert (Ot : stepped ths t o (Next m (SProbe n i nr))) by (apply Go; [pl | pl | reflexivity | exact U]).
    destruct (i_key it) as [ck|] eqn:Ek; [exact Ot |]. destruct yes; [| exact Ot]. pose proof (a_key _ _ _ _ I n i _ Hv Hk) as Tv.
    exists D, P. apply (step_item W m ths D P n tn i it (PItem (Some (op_key o)) (i_hash it) (i_val it)) t o (SKey n i nr)); [exact G | exact Ht | exact Hn | exact H2 | | | | | | | | | | | |]; cbn [i_val i_key].
    + intros E. discriminate E.
    + intros E. left. exact E.
    + intros v E. exfalso. destruct Tv; congruence.
    + intros E. exact E.
    + intros k E. congruence.
    + intros X _ Hk'. split; [exact (e_usable _ _ _ _ _ _ X n U) | exact Hk'].
    + intros b E. discriminate E.
    + intros E. exfalso. destruct Tv; congruence.
    + intros a b E. discriminate E.
    + reflexivity.
    + intros b. unfold is_open. cbn [i_val]. destruct (b =? n); cbn [dec_at]; lia.
    + reflexivity.
  - (* SHash *)
    destruct F as (U & Fk). apply with_tab; [exact (proj1 U) |]. intros tn Hn. apply (with_item _ m n); [exact Hn | exact (proj2 (ik_range _ _ _ _ Fk)) |]. intros it H1 H2. pose proof (iv_itm _ _ _ _ H1) as Hv. pose proof (ik_itm _ _ _ _ H1) as Hk.
    exists D, P. apply (step_item W m ths D P n tn i it (PItem (i_key it) (hash_of (op_key o)) (i_val it)) t o (SHash n i nr)); [exact G | exact Ht | exact Hn | exact H2 | | | | | | | | | | | |]; cbn [i_val i_key].
    + intros E. congruence.
    + intros E. left. exact E.
    + intros v E. destruct (a_val _ _ _ _ I n i v ltac:(congruence)) as (k1 & K1 & K2). exists k1. split; [congruence | exact K2].
    + intros E. exact E.
    + intros k E. exact E.
    + intros X _ _. split; [exact (e_usable _ _ _ _ _ _ X n U) | exact (e_ik _ _ _ _ _ _ X _ _ _ Fk)].
    + intros b E. discriminate E.
    + intros E. right. split; [exact E | discriminate].
    + intros a b E. discriminate E.
    + reflexivity.
    + intros b. unfold is_open. cbn [i_val]. destruct (b =? n); cbn [dec_at]; lia.
    + reflexivity.
  - (* SUsed *)
    destruct F as (U & Fk). apply with_tab; [exact (proj1 U) |]. intros tn Hn. apply (used_ok W m ths D P t o (SUsed n i nr)); [exact G | exact Ht | exact Hn | | reflexivity | reflexivity | reflexivity | reflexivity | reflexivity | reflexivity].
    intros m' X. split; [exact (e_usable _ _ _ _ _ _ X n U) | exact (e_ik _ _ _ _ _ _ X _ _ _ Fk)].
  - (* SCmp *)
    destruct F as (U & Fk). apply with_tab; [exact (proj1 U) |]. intros tn Hn. apply (with_item _ m n); [exact Hn | exact (proj2 (ik_range _ _ _ _ Fk)) |]. intros it H1 H2.
    destruct (is_key_equal (op_key o) (hash_of (op_key o)) ck (i_hash it)) eqn:Eq; [apply equal_key in Eq; subst ck; apply Go; [pl | pl | reflexivity | split; assumption] |].
    destruct (8 <? nr); apply Go; try pl; try reflexivity; [split; [exact U | discriminate] | exact U].
  - (* SVal *)
    destruct F as (U & Fk). apply with_tab; [exact (proj1 U) |]. intros tn Hn. apply (with_item _ m n); [exact Hn | exact (proj2 (ik_range _ _ _ _ Fk)) |]. intros it H1 H2. pose proof (iv_itm _ _ _ _ H1) as Hv.
    assert (Ot : i_val it <> Closed -> stepped ths t o (Next m (SSwap n i nr (i_val it)))) by (intros E; apply Go; [pl | pl | reflexivity | split; [exact U |]; split; [exact Fk | exact E]]).
    destruct (i_val it) eqn:Ei; try (apply Ot; discriminate). apply Go; [pl | pl | reflexivity |]. split; [exact U |]. split; [exact (a_closed _ _ _ _ I n i Hv) |]. intros _. exists i. exact Hv.
  - (* SSwap *)
    destruct F as (U & Fk & Oc). apply with_tab; [exact (proj1 U) |]. intros tn Hn. apply (with_item _ m n); [exact Hn | exact (proj2 (ik_range _ _ _ _ Fk)) |]. intros it H1 H2. pose proof (iv_itm _ _ _ _ H1) as Hv. pose proof (ik_itm _ _ _ _ H1) as Hk.
    destruct (pval_eqb (i_val it) old) eqn:Eq; [| apply Go; [pl | pl | reflexivity | split; assumption]].
    assert (Nc : i_val it <> Closed) by (intros E; rewrite E in Eq; destruct old; cbn [pval_eqb] in Eq; congruence).
    exists D, P. unfold set_val. apply (step_item W m ths D P n tn i it (PItem (i_key it) (i_hash it) value) t o (SSwap n i nr old)); [exact G | exact Ht | exact Hn | exact H2 | | | | | | | | | | | |]; cbn [i_val i_key].
    + intros E. congruence.
    + intros E. destruct Gv as [Gv | (x & Gv & _)]; congruence.
    + intros v E. exists (op_key o). split; [congruence |]. destruct Gv as [Gv | (x & Gv & Gx)]; [congruence |]. assert (x = v) by congruence. subst x. exact Gx.
    + intros E. contradiction.
    + intros k E. exact E.
    + intros X _ _. exact (e_usable _ _ _ _ _ _ X n U).
    + intros b E. discriminate E.
    + intros E. destruct Gv as [Gv | (x & Gv & _)]; congruence.
    + intros a b E. discriminate E.
    + reflexivity.
    + intros b. assert (E1 : is_open it = 1) by (unfold is_open; destruct (i_val it); [reflexivity | contradiction | reflexivity | reflexivity]). rewrite E1. unfold is_open. cbn [i_val]. destruct Gv as [-> | (x & -> & _)]; destruct (b =? n); reflexivity.
    + reflexivity.
  - (* SAgain *)
    destruct F as (U & Fk). apply with_tab; [exact (proj1 U) |]. intros tn Hn. apply (with_item _ m n); [exact Hn | exact (proj2 (ik_range _ _ _ _ Fk)) |]. intros it H1 H2. pose proof (iv_itm _ _ _ _ H1) as Hv.
    destruct (i_val it) eqn:Ei; try (apply Go; [pl | pl | reflexivity | exact U]). apply Go; [pl | pl | reflexivity |]. split; [exact U |]. split; [exact (a_closed _ _ _ _ I n i Hv) |]. intros _. exists i. exact Hv.
  - (* SNeed *)
    apply with_tab; [exact (proj1 F) |]. intros tn Hn. destruct (need_resize tn nr); [apply Go; [pl | pl | reflexivity | split; [exact F | discriminate]] | apply Re; [pl | intros v E; discriminate E]].
  - (* GProps *)
    destruct (m_props m) as [q|] eqn:Ep; [| apply Re; [pl | intros v E; discriminate E]]. pose proof (a_props _ _ _ _ I q Ep) as U. apply with_tab; [exact (proj1 U) |]. intros tn Hn. apply Go; [pl | pl | reflexivity | exact U].
  - (* GKey *)
    apply with_tab; [exact (proj1 F) |]. intros tn Hn. apply (with_item _ m n); [exact Hn | exact (slot_range W m D P n tn idx I Hn) |]. intros it H1 H2. pose proof (ik_itm _ _ _ _ H1) as Hk.
    destruct (i_key it) as [ck|] eqn:Ek; [apply Go; [pl | pl | reflexivity | split; assumption] | apply Re; [pl | intros v E; discriminate E]].
  - (* GVal *)
    destruct F as (U & Fk). apply with_tab; [exact (proj1 U) |]. intros tn Hn. apply (with_item _ m n); [exact Hn | exact (proj2 (ik_range _ _ _ _ Fk)) |]. intros it H1 H2. pose proof (iv_itm _ _ _ _ H1) as Hv. pose proof (no_rsvd W m ths D P n i G U) as Nr.
    destruct (i_val it) as [| | |x] eqn:Ei.
    + apply Go; [pl | pl | reflexivity |]. split; [exact U |]. split; [exact Fk | left; reflexivity].
    + apply Go; [pl | pl | reflexivity |]. split; [exact U |]. split; [exact (a_closed _ _ _ _ I n i Hv) |]. intros _. exists i. exact Hv.
    + congruence.
    + apply Go; [pl | pl | reflexivity |]. split; [exact U |]. split; [exact Fk |]. right. exists x. split; [reflexivity |]. destruct (a_val _ _ _ _ I n i x Hv) as (k1 & K1 & K2). assert (k1 = ck) by congruence. subst k1. exact K2.
  - (* GCmp *)
    destruct F as (U & Fk & Fv). apply with_tab; [exact (proj1 U) |]. intros tn Hn. apply (with_item _ m n); [exact Hn | exact (proj2 (ik_range _ _ _ _ Fk)) |]. intros it H1 H2.
    destruct (is_key_equal (op_key o) (hash_of (op_key o)) ck (i_hash it)) eqn:Eq.
    + apply equal_key in Eq. subst ck. destruct Fv as [-> | (x & -> & Fx)]; apply Re; try pl; intros v E; [discriminate E | assert (v = x) by congruence; subst v; exact Fx].
    + destruct (nr =? 0); [apply Re; [pl | intros w E; discriminate E] | apply Go; [pl | pl | reflexivity | exact U]].
  - (* RStart *)
    destruct F as (U & Nk). apply with_tab; [exact (proj1 U) |]. intros tn Hn. assert (En : nw m n = t_new tn) by (unfold nw; rewrite Hn; reflexivity). destruct (t_new tn) as [x|] eqn:Ew; [| apply Go; [pl | pl | reflexivity | split; assumption]].
    apply Go; [pl | pl | reflexivity |]. split; [exact U |]. split; [congruence | contradiction].
  - (* RAlloc *)
    destruct F as (U & Nk). apply with_tab; [exact (proj1 U) |]. intros tn Hn. destruct (alloc_ok yes (u32 (cap tn * 2))) eqn:Ea; [| apply Re; [pl | intros v E; discriminate E]].
    apply (step_alloc W m ths D P t o (RAlloc n k)); [exact G | exact Ht | pl | pl | | reflexivity | intros X; split; [exact (e_usable _ _ _ _ _ _ X n U) | exact Nk]].
    unfold alloc_ok in Ea. apply pow2_double; [| lia]. pose proof (a_cap _ _ _ _ I n (proj1 U)) as Pc. unfold cp in Pc. rewrite Hn in Pc. exact Pc.
  - (* RLink *)
    destruct F as (U & Nk). apply with_tab; [exact (proj1 U) |]. intros tn Hn. assert (En : nw m n = t_new tn) by (unfold nw; rewrite Hn; reflexivity). destruct (t_new tn) as [x|] eqn:Ew; [| apply (step_link W m ths D P); assumption].
    apply Go; [pl | pl | reflexivity |]. split; [exact U |]. split; [congruence | contradiction].
  - (* HNew *)
    destruct F as (U & Nn & Sc). apply with_tab; [exact (proj1 U) |]. intros tn Hn. assert (En : nw m n = t_new tn) by (unfold nw; rewrite Hn; reflexivity). destruct (t_new tn) as [x|]; [| congruence]. apply Go; [pl | pl | reflexivity |]. split; [exact U |]. split; assumption.
  - (* HCopies *)
    destruct F as (U & Nn & Sc). apply with_tab; [exact (proj1 U) |]. intros tn Hn. destruct (Z.eqb_spec (t_copies tn) 0) as [E | E].
    + apply (copies_ok W hash_of m ths D P t o n nt k G Ht). unfold cps. rewrite Hn. exact E.
    + apply Go; [pl | pl | reflexivity |]. split; [exact U |]. split; [exact Nn | exact Logic.I].
  - apply (copy_ok W hash_of m ths D P); assumption.
Qed.

(* a thread begins an operation *)
Lemma invoke_ok : forall m ths D P t o, ginv m ths D P -> gz ths t = Some None -> opok W o -> ginv m (put ths t (Some (o, start o))) D P.
Proof.
  intros m ths D P t o G Ht Ho. pose proof (gz_some_inv _ _ _ _ Ht) as Bt. assert (Pl : plain (start o) /\ fresh (start o) = None /\ tfact m D P o (start o)) by (destruct o; (split; [pl |]; split; [reflexivity | exact Logic.I])). destruct Pl as ((B1 & B2 & B3 & B4) & Bf & F).
  constructor.
  - exact (g_mem _ _ _ _ _ G).
  - exact (g_dal _ _ _ _ _ G).
  - intros u o1 p1 H. rewrite gz_put in H by exact Bt. destruct (u =? t); [assert (o1 = o /\ p1 = start o) as [-> ->] by (split; congruence); split; assumption | exact (g_mono _ _ _ _ _ G u o1 p1 H)].
  - intros u p1 n H E. destruct (run_put _ _ _ _ _ Bt H) as [(-> & o1 & E1) | (N & H1)]; [assert (p1 = start o) by congruence; subst p1; congruence | exact (g_done _ _ _ _ _ G u p1 n H1 E)].
  - intros nt j H. destruct (g_rsvd _ _ _ _ _ G nt j H) as (u & p1 & Hu & E). exists u, p1. split; [| exact E]. apply run_put_other; [exact Bt | | exact Hu]. intros ->. destruct Hu as (o1 & Hu). congruence.
  - intros u p1 nb H E. destruct (run_put _ _ _ _ _ Bt H) as [(-> & o1 & E1) | (N & H1)]; [assert (p1 = start o) by congruence; subst p1; congruence | exact (g_fresh _ _ _ _ _ G u p1 nb H1 E)].
  - intros u1 u2 p1 p2 nb H1 H2 E1 E2. destruct (run_put _ _ _ _ _ Bt H1) as [(-> & o1 & Q1) | (N1 & H1')]; [assert (p1 = start o) by congruence; subst p1; congruence |]. destruct (run_put _ _ _ _ _ Bt H2) as [(-> & o2 & Q2) | (N2 & H2')]; [assert (p2 = start o) by congruence; subst p2; congruence |].
    exact (g_fresh1 _ _ _ _ _ G u1 u2 p1 p2 nb H1' H2' E1 E2).
  - intros b. rewrite (ArrayConcProofs.total_put _ _ _ _ _ _ Ht). cbn [th_of]. rewrite B3. pose proof (g_open _ _ _ _ _ G b). lia.
  - intros b. rewrite (ArrayConcProofs.total_put _ _ _ _ _ _ Ht). cbn [th_of]. rewrite B4. pose proof (g_copies _ _ _ _ _ G b). lia.
Qed.

Lemma init_ok : forall n, ginv (y_mem (init n)) (y_threads (init n)) (fun _ => False) (fun _ => False).
Proof.
  intros n. cbn [init y_mem y_threads]. assert (Id : forall t th, gz (repeat (@None (op * pc)) n) t = Some th -> th = None) by (intros t th H; rewrite gz_repeat in H; destruct (_ && _); congruence).
  assert (T0 : forall (f : option (op * pc) -> Z), f None = 0 -> total f (repeat None n) = 0) by (intros f Hf; induction n as [|k IH]; [reflexivity |]; cbn [repeat ArrayConcProofs.total]; rewrite Hf, IH; [reflexivity | intros t th H; rewrite gz_repeat in H; destruct (_ && _); congruence]).
  assert (Nt : forall b, tb (Mem [] None) b = None) by (intros b; unfold tb; cbn [m_tables]; unfold gz; destruct (b <? 0); [reflexivity | destruct (Z.to_nat b); reflexivity]).
  constructor.
  - assert (V : forall b j, iv (Mem [] None) b j = None) by (intros b j; unfold iv, itm; rewrite Nt; reflexivity). assert (Nw : forall b, nw (Mem [] None) b = None) by (intros b; unfold nw; rewrite Nt; reflexivity).
    constructor.
    + intros b (tt & H). rewrite Nt in H. discriminate H.
    + intros b j v H. rewrite V in H. discriminate H.
    + intros b j H. rewrite V in H. discriminate H.
    + intros b x H. rewrite Nw in H. discriminate H.
    + intros p q b H. rewrite Nw in H. discriminate H.
    + intros b H. discriminate H.
    + intros b j v H. rewrite V in H. discriminate H.
    + contradiction.
    + intros b j H. rewrite V in H. discriminate H.
    + intros p b H. rewrite Nw in H. discriminate H.
    + contradiction.
  - contradiction.
  - intros t o p H. apply Id in H. discriminate H.
  - intros t p n0 (o & H). apply Id in H. discriminate H.
  - intros nt j H. unfold iv, itm in H. rewrite Nt in H. discriminate H.
  - intros t p nb (o & H). apply Id in H. discriminate H.
  - intros t1 t2 p1 p2 nb (o & H). apply Id in H. discriminate H.
  - intros b. rewrite T0 by reflexivity. unfold opn, cnt. rewrite Nt. reflexivity.
  - intros b. rewrite T0 by reflexivity. unfold cps. rewrite Nt. reflexivity.
Qed.

Definition event_ok (e : event) : Prop := let '(_, o, r) := e in forall v, r = RVal v -> W (op_key o) v.
Lemma run_ok : forall sched m ths D P h, ginv m ths D P -> len ths <= 1000000000 -> (forall t o, In (t, Invoke o) sched -> opok W o) -> Forall event_ok h ->
  exists s' h', run hash_of (Sys m ths) h sched = Fin s' h' /\ Forall event_ok h' /\ exists D' P', ginv (y_mem s') (y_threads s') D' P'.
Proof.
  induction sched as [|[t a] rest IH]; intros m ths D P h G Hlen Hops Hh; cbn [run].
  - exists (Sys m ths), h. split; [reflexivity |]. split; [exact Hh |]. exists D, P. exact G.
  - assert (Hops' : forall t0 o, In (t0, Invoke o) rest -> opok W o) by (intros t0 o H; apply (Hops t0 o); right; exact H). cbn [y_threads y_mem].
    assert (Stay : exists s' h', run hash_of (Sys m ths) h rest = Fin s' h' /\ Forall event_ok h' /\ exists D' P', ginv (y_mem s') (y_threads s') D' P') by (apply (IH m ths D P h); assumption).
    destruct (gz ths t) as [[[o p]|]|] eqn:Ht; [| | exact Stay].
    + destruct a as [o'|yes]; [exact Stay |]. pose proof (thread_ok m ths D P t o p yes Hlen G Ht) as S1. pose proof (gz_some_inv _ _ _ _ Ht) as Bt.
      destruct (thread_step hash_of m o p yes) as [m' p'|m' r|]; cbn [ObjConcProofs3.stepped] in S1; [| | contradiction].
      * destruct S1 as (D' & P' & G'). apply (IH m' _ D' P' h G'); [rewrite len_put by exact Bt; exact Hlen | exact Hops' | exact Hh].
      * destruct S1 as ((D' & P' & G') & Hr). apply (IH m' _ D' P' _ G'); [rewrite len_put by exact Bt; exact Hlen | exact Hops' |]. apply Forall_app. split; [exact Hh |]. constructor; [exact Hr | constructor].
    + destruct a as [o|yes]; [| exact Stay]. pose proof (gz_some_inv _ _ _ _ Ht) as Bt. apply (IH m _ D P h); [apply invoke_ok; [exact G | exact Ht | apply (Hops t o); left; reflexivity] | rewrite len_put by exact Bt; exact Hlen | exact Hops' | exact Hh].
Qed.
End Steps.
