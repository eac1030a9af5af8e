(* Shared arrays: executions; storage accesses in bounds when one thread grows the array. *)
From Coq Require Import ZArith List Lia Bool ZifyBool.
Import ListNotations.
From Verif Require Import Base ListZ ArrayModel ArrayConcSpec ArrayConcModel ArrayConcProofs ArrayConcProofs2 ArrayConcProofs3 ArrayConcProofs4.
Local Open Scope Z_scope.
Ltac Zify.zify_post_hook ::= idtac.

Definition fits (l : list Z) (capacity : Z) : Prop := len l <= capacity <= 1000000000.

Lemma idle : forall n t th, gz (repeat (@None (op * pc)) n) t = Some th -> th = None.
Proof. intros n t th H. rewrite gz_repeat in H. destruct (_ && _); congruence. Qed.
Lemma idle_decs : forall n b, total (decs b) (repeat None n) = 0.
Proof. induction n as [|n IH]; intros b; [reflexivity |]. cbn [repeat total decs]. rewrite IH. reflexivity. Qed.
Lemma open_vals : forall l, total is_open (map Val l) = len l.
Proof. induction l as [|x l IH]; [reflexivity |]. cbn [map total is_open]. rewrite IH, len_cons. lia. Qed.
Lemma open_tombs : forall n, total is_open (repeat Tomb n) = Z.of_nat n.
Proof. induction n as [|n IH]; [reflexivity |]. cbn [repeat total is_open]. rewrite IH. lia. Qed.

Lemma init_ok : forall l capacity n, fits l capacity -> exists ch, ginv (y_mem (init l capacity n)) (y_threads (init l capacity n)) ch 0 l /\ len ch <= 1.
Proof.
  intros l capacity n F. unfold fits in F. pose proof (len_nonneg _ l) as L0.
  assert (NR : forall t p, ~ run_at (repeat None n) t p) by (intros t p (o & H); apply idle in H; discriminate H).
  unfold init. destruct (Z.eqb_spec capacity 0) as [E | E].
  - assert (El : l = []) by (destruct l; [reflexivity | rewrite len_cons in F; pose proof (len_nonneg _ l); lia]). subst l. exists []. split; [| rewrite len_nil; lia]. cbn [y_mem y_threads].
    assert (NG : forall A k (x : A), gz [] k = Some x -> False) by (intros A k x H; apply gz_some_inv in H; rewrite len_nil in H; lia).
    constructor; try (intros; exfalso; eapply NR; eassumption).
    + constructor; cbn [m_data m_size m_bufs]; try (intros; exfalso; eapply NG; eassumption); try (intros b (B1 & B2); exfalso; cbn [m_bufs] in B2; rewrite len_nil in B2; lia).
      * reflexivity.
      * rewrite len_nil. split; [lia |]. split; [lia |]. right. auto.
      * reflexivity.
      * rewrite len_nil. lia.
    + intros t o p H. apply idle in H. discriminate H.
    + intros b. rewrite idle_decs. unfold opn, cnt. cbn [m_bufs]. destruct (gz [] b) as [x|] eqn:Eb; [exfalso; eapply NG; eassumption | reflexivity].
  - exists [0]. split; [| rewrite len_cons, len_nil; lia]. cbn [y_mem y_threads]. set (x0 := Buf (map Val l ++ repeat Tomb (Z.to_nat (capacity - len l))) capacity None).
    assert (Cx : cap x0 = capacity) by (unfold cap, x0; cbn [b_slots]; rewrite len_app, len_map, len_repeat; lia).
    assert (G0 : forall A k (a b : A), gz [a] k = Some b -> k = 0 /\ b = a) by (intros A k a b H; pose proof (gz_some_inv _ _ _ _ H) as B; rewrite len_cons, len_nil in B; assert (k = 0) by lia; subst k; split; [reflexivity |]; change (Some a = Some b) in H; congruence).
    assert (A0 : forall b, alive (Mem [x0] (Some 0) (len l)) b -> b = 0) by (intros b B; unfold alive in B; cbn [m_bufs] in B; rewrite len_cons, len_nil in B; lia).
    assert (Sl : forall i v, sl (Mem [x0] (Some 0) (len l)) 0 i = Some v -> (i < len l /\ exists y, v = Val y /\ gz l i = Some y) \/ (len l <= i /\ v = Tomb)).
    { intros i v H. change (gz (b_slots x0) i = Some v) in H. unfold x0 in H. cbn [b_slots] in H. rewrite gz_app, len_map in H. destruct (Z.ltb_spec i (len l)) as [B | B].
      - left. split; [exact B |]. rewrite gz_map in H. destruct (gz l i) as [y|]; cbn [option_map] in H; [| discriminate H]. exists y. split; [congruence | reflexivity].
      - right. split; [exact B |]. rewrite gz_repeat in H. destruct (_ && _); congruence. }
    constructor; try (intros; exfalso; eapply NR; eassumption).
    + constructor; cbn [m_data m_size m_bufs].
      * intros j k b H1 H2. apply G0 in H1. apply G0 in H2. lia.
      * reflexivity.
      * rewrite len_cons, len_nil. lia.
      * reflexivity.
      * lia.
      * intros k b H. apply G0 in H. destruct H as (-> & ->). split; [unfold alive; cbn [m_bufs]; rewrite len_cons, len_nil; lia |]. reflexivity.
      * intros b Hb Hn. apply A0 in Hb. subst b. exfalso. exact (Hn 0 eq_refl).
      * intros b Hb. apply A0 in Hb. subst b. change (1 <= cap x0 <= 1000000000). lia.
      * intros b Hb. apply A0 in Hb. subst b. change (0 <= capacity <= 1000000000). lia.
      * intros k b i v H Hk. apply G0 in H. lia.
      * intros k b H _. apply G0 in H. destruct H as (-> & ->). change (len l <= cap x0). lia.
      * intros b i v H Hv. apply G0 in H. destruct H as (_ & ->). apply Sl in Hv. destruct Hv as [(B & y & -> & _) | (B & ->)]; exact B.
      * intros b i v H. apply G0 in H. lia.
      * intros i x H. exists 0. split; [reflexivity |]. left. change (gz (b_slots x0) i = Some (Val x)). unfold x0. cbn [b_slots]. rewrite gz_app, len_map. pose proof (gz_some_inv _ _ _ _ H) as B. rewrite (proj2 (Z.ltb_lt i (len l))) by lia. rewrite gz_map, H. reflexivity.
    + intros t o p H. apply idle in H. discriminate H.
    + intros b. rewrite idle_decs. unfold opn, cnt. cbn [m_bufs]. destruct (gz [x0] b) as [x|] eqn:Eb; [| reflexivity]. apply G0 in Eb. destruct Eb as (-> & ->). unfold x0. cbn [b_open b_slots]. rewrite total_app, open_vals, open_tombs. lia.
Qed.

(* the operations which a schedule begins *)
Definition begins (P : Z -> op -> Prop) (sched : list (Z * action)) : Prop := forall t o, In (t, Invoke o) sched -> P t o.
Definition no_resize (o : op) : Prop := access o \/ growing o.

Lemma start_ok : forall m ths ch d l t o, ginv m ths ch d l -> gz ths t = Some None -> no_resize o -> ginv m (put ths t (Some (o, start o))) ch d l.
Proof.
  intros m ths ch d l t o G Ht No. pose proof (gz_some_inv _ _ _ _ Ht) as Bt.
  assert (O0 : own (start o) = None /\ fresh (start o) = None /\ forall b, dec_at b (start o) = 0) by (destruct o; cbn [start own fresh dec_at]; auto). destruct O0 as (O0 & F0 & D0).
  constructor.
  - exact (g_mem _ _ _ _ _ G).
  - intros u o1 p1 H. rewrite gz_put in H by exact Bt. destruct (Z.eqb_spec u t) as [-> | N]; [| exact (g_mono _ _ _ _ _ G u o1 p1 H)].
    assert (o1 = o /\ p1 = start o) as [-> ->] by (split; congruence). destruct No as [A | A]; destruct o; cbn [access growing] in A; try contradiction; cbn [start tmono access growing]; auto.
  - intros u p1 q H Q. apply run_put in H; [| exact Bt]. destruct H as [(-> & o1 & E) | (N & H)]; [| exact (g_own _ _ _ _ _ G u p1 q H Q)]. assert (p1 = start o) by congruence. subst p1. congruence.
  - intros u p1 nb H Q. apply run_put in H; [| exact Bt]. destruct H as [(-> & o1 & E) | (N & H)]; [| exact (g_fresh _ _ _ _ _ G u p1 nb H Q)]. assert (p1 = start o) by congruence. subst p1. congruence.
  - intros u1 u2 p1 p2 q1 q2 H1 H2 Q1 Q2 K. apply run_put in H1; [| exact Bt]. apply run_put in H2; [| exact Bt].
    destruct H1 as [(-> & o1 & E1) | (N1 & H1)]; [assert (p1 = start o) by congruence; subst p1; congruence |]. destruct H2 as [(-> & o2 & E2) | (N2 & H2)]; [assert (p2 = start o) by congruence; subst p2; congruence |].
    exact (g_own1 _ _ _ _ _ G u1 u2 p1 p2 q1 q2 H1 H2 Q1 Q2 K).
  - intros u1 u2 p1 p2 nb H1 H2 Q1 Q2. apply run_put in H1; [| exact Bt]. apply run_put in H2; [| exact Bt].
    destruct H1 as [(-> & o1 & E1) | (N1 & H1)]; [assert (p1 = start o) by congruence; subst p1; congruence |]. destruct H2 as [(-> & o2 & E2) | (N2 & H2)]; [assert (p2 = start o) by congruence; subst p2; congruence |].
    exact (g_fresh1 _ _ _ _ _ G u1 u2 p1 p2 nb H1 H2 Q1 Q2).
  - intros b. rewrite (total_put _ _ _ _ None) by exact Ht. cbn [decs]. rewrite D0. pose proof (g_open _ _ _ _ _ G b). lia.
Qed.

Lemma run_history : forall sched s h l0 l ch d, begins (fun _ o => no_resize o) sched -> ginv (y_mem s) (y_threads s) ch d l -> history l0 h l ->
  exists l', history l0 (completed (run s h sched)) l' /\ len l' = len l.
Proof.
  induction sched as [|(t, a) sched IH]; intros s h l0 l ch d B G H; cbn [run].
  - exists l. auto.
  - assert (B' : begins (fun _ o => no_resize o) sched) by (intros u o Hin; apply (B u o); right; exact Hin).
    destruct (gz (y_threads s) t) as [[(o, p)|]|] eqn:Ht; [| | eapply IH; eassumption].
    + destruct a as [o' | yes]; [eapply IH; eassumption |]. pose proof (thread_step_ok _ _ _ _ _ _ _ _ yes G Ht) as S. destruct (thread_step (y_mem s) p yes) as [m' p' | m' r |]; cbn [step_ok] in S.
      * destruct S as (ch' & d' & _ & G'). eapply IH; [exact B' | | exact H]. exact G'.
      * destruct S as (ch' & d' & l1 & _ & Lg & Ll & G'). destruct (IH (Sys m' (put (y_threads s) t None)) (h ++ [(t, o, r)]) l0 l1 ch' d' B') as (l' & R1 & R2); [exact G' | eapply history_snoc; eassumption |].
        exists l'. split; [exact R1 | lia].
      * exists l. auto.
    + destruct a as [o | yes]; [| eapply IH; eassumption]. eapply IH; [exact B' | | exact H]. cbn [y_mem y_threads]. apply start_ok; [exact G | exact Ht |]. apply (B t o). left. reflexivity.
Qed.

(* one thread which grows the array *)
Record sinv (m : mem) (ths : list (option (op * pc))) (ch : list Z) (d : Z) (g : Z) : Prop := SInv {
  s_caps : forall k b b', gz ch k = Some b -> gz ch (k + 1) = Some b' -> cp m b <= cp m b';
  s_only : forall t o p, gz ths t = Some (Some (o, p)) -> growing o -> t = g;
  s_idle : (forall p, ~ run_at ths g p) -> len ch <= d + 1;
  s_run : forall p, run_at ths g p ->
    match p with
    | PCopy old new c (KReserve _ _) => len ch = d + 1 \/ (gz ch d = Some old /\ gz ch (d + 1) = Some new)
    | _ => len ch <= d + 1
    end /\
    match p with
    | PNew n _ => forall b, gz ch d = Some b -> cp m b <= n
    | PGet nb _ _ => forall b, gz ch d = Some b -> cp m b <= cp m nb
    | PLink nb old _ _ => old = gz ch d /\ forall b, gz ch d = Some b -> cp m b <= cp m nb
    | _ => True
    end
}.

Definition caps (m m' : mem) : Prop := forall b, alive m b -> cp m' b = cp m b.
Lemma cp_write : forall m b x s o n c, gz (m_bufs m) b = Some x -> len s = cap x -> cp (set_buf m b (Buf s o n)) c = cp m c.
Proof.
  intros m b x s o n c Hx Hs. pose proof (gz_some_inv _ _ _ _ Hx) as B. unfold cp, set_buf. cbn [m_bufs]. rewrite gz_put by exact B. destruct (Z.eqb_spec c b) as [-> | N]; [| reflexivity]. rewrite Hx. unfold cap at 1. cbn [b_slots]. exact Hs.
Qed.
Lemma cp_slot : forall m b x i v c w, gz (m_bufs m) b = Some x -> gz (b_slots x) i = Some w -> cp (set_slot m b x i v) c = cp m c.
Proof. intros m b x i v c w Hx Hw. pose proof (gz_some_inv _ _ _ _ Hw) as B. unfold set_slot. apply cp_write with (x := x); [exact Hx |]. apply len_put. exact B. Qed.

Lemma step_caps : forall m p yes, match thread_step m p yes with Next m' _ | Ret m' _ => caps m m' | Ub => True end.
Proof.
  assert (Same : forall m m', m_bufs m' = m_bufs m -> caps m m') by (intros m m' E b _; unfold cp; rewrite E; reflexivity).
  intros m p yes. destruct p as [o' | o' i | o' i b | o' i b cur | old new c k | n rs | n rs | nb n rs | nb [old|] n rs | s | s | s b | b p' e x]; cbn [thread_step].
  - destruct (_ <? _); apply Same; reflexivity.
  - destruct (m_data m); [apply Same; reflexivity | exact Logic.I].
  - unfold load_step, on_buf, on_slot. destruct (gz (m_bufs m) b) as [x|]; [| exact Logic.I]. destruct (gz (b_slots x) i) as [[| | v]|]; try exact Logic.I; try (apply Same; reflexivity).
    + destruct (b_next x); [| exact Logic.I]. destruct o'; apply Same; reflexivity.
    + destruct o'; try (apply Same; reflexivity). destruct (v =? old); apply Same; reflexivity.
  - unfold swap_step, on_buf, on_slot. destruct (gz (m_bufs m) b) as [x|] eqn:Hx; [| exact Logic.I]. destruct (gz (b_slots x) i) as [w|] eqn:Hw; [| exact Logic.I]. destruct (_ && _); [| apply Same; reflexivity].
    destruct o'; try exact Logic.I; intros c _; eapply cp_slot; eassumption.
  - unfold copy_step, on_buf. destruct (gz (m_bufs m) old) as [src|] eqn:Hx; [| exact Logic.I]. destruct c as [| i ind | i ind v | i v | i | i |].
    + destruct (_ =? _); [exact Logic.I | apply Same; reflexivity].
    + unfold on_slot. destruct (gz (b_slots src) i) as [[| | v]|]; try exact Logic.I; apply Same; reflexivity.
    + destruct (gz (m_bufs m) new) as [dst|] eqn:Hn; [| exact Logic.I]. unfold on_slot. destruct (gz (b_slots dst) i) as [w|] eqn:Hw; [| exact Logic.I]. destruct (slot_eqb _ _); [| apply Same; reflexivity]. intros c _. eapply cp_slot; eassumption.
    + unfold on_slot. destruct (gz (b_slots src) i) as [w|] eqn:Hw; [| exact Logic.I]. destruct (_ && _); [| apply Same; reflexivity]. intros c _. eapply cp_slot; eassumption.
    + destruct (_ =? _); apply Same; reflexivity.
    + destruct (_ =? _); intros c _; (eapply cp_write; [exact Hx | reflexivity]).
    + destruct k; apply Same; (destruct (m_data m) as [z|]; [destruct (z =? old) |]; reflexivity).
  - destruct (data_cap m); [| exact Logic.I]. destruct (_ >? _); [| destruct rs]; apply Same; reflexivity.
  - destruct (_ && _); [| apply Same; reflexivity]. intros b Hb. unfold alive in Hb. unfold cp. cbn [m_bufs]. rewrite gz_app, (proj2 (Z.ltb_lt b (len (m_bufs m)))) by lia. reflexivity.
  - apply Same; reflexivity.
  - unfold on_buf. destruct (gz (m_bufs m) old) as [x|] eqn:Hx; [| exact Logic.I]. destruct (b_next x); [apply Same; reflexivity |]. intros c _. eapply cp_write; [exact Hx | reflexivity].
  - apply Same. destruct (m_data m); reflexivity.
  - destruct (data_cap m); [| exact Logic.I]. destruct (_ >? _); apply Same; reflexivity.
  - apply Same; reflexivity.
  - destruct (_ =? _); [| destruct (_ >? _)]; apply Same; reflexivity.
  - destruct (_ <? _); [| apply Same; reflexivity]. destruct b as [b|]; [| exact Logic.I]. unfold on_buf, on_slot. destruct (gz (m_bufs m) b) as [y|] eqn:Hx; [| exact Logic.I]. destruct (gz (b_slots y) p') as [w|] eqn:Hw; [| exact Logic.I]. intros c _. eapply cp_slot; eassumption.
Qed.
