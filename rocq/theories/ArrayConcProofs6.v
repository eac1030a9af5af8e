(* Shared arrays: accesses to storages stay in bounds when one thread grows the array. *)
From Coq Require Import ZArith List Lia Bool ZifyBool.
Import ListNotations.
From Verif Require Import Base ListZ ArrayModel ArrayConcSpec ArrayConcModel ArrayConcProofs ArrayConcProofs2 ArrayConcProofs3 ArrayConcProofs4 ArrayConcProofs5.
Local Open Scope Z_scope.
Ltac Zify.zify_post_hook ::= idtac.

Section Safe.
Variables (m : mem) (ths : list (option (op * pc))) (ch : list Z) (d : Z) (l : list Z) (g : Z).
Hypothesis G : ginv m ths ch d l.
Hypothesis S : sinv m ths ch d g.
Let I := g_mem _ _ _ _ _ G.

Lemma in_bounds : forall i b, reach m ch d i b -> 0 <= i < len l -> exists x v, gz (m_bufs m) b = Some x /\ gz (b_slots x) i = Some v.
Proof.
  intros i b (k & Hk & H) Bi. destruct (v_chain _ _ _ _ I k b Hk) as (Al & _).
  assert (Cp : len l <= cp m b).
  { destruct H as [H | (-> & b0 & H0 & _)]; [exact (v_fit _ _ _ _ I k b Hk H) |]. pose proof (v_fit _ _ _ _ I d b0 H0 ltac:(lia)). pose proof (s_caps _ _ _ _ _ S d b0 b H0 Hk). lia. }
  destruct (sl_some m b i ltac:(lia)) as (v & Hv). unfold sl in Hv. destruct (gz (m_bufs m) b) as [x|]; [| discriminate Hv]. exists x, v. auto.
Qed.

Lemma step_safe : forall t o p yes, gz ths t = Some (Some (o, p)) -> thread_step m p yes <> Ub.
Proof.
  intros t o p yes Ht. pose proof (g_mono _ _ _ _ _ G t o p Ht) as T.
  assert (Dc : exists c, data_cap m = Some c).
  { unfold data_cap. rewrite (v_data _ _ _ _ I). destruct (gz ch d) as [b|] eqn:E; [| eexists; reflexivity]. destruct (v_chain _ _ _ _ I d b E) as (Al & _). destruct (alive_some m b Al) as (x & ->). eexists; reflexivity. }
  destruct p as [o' | o' i | o' i b | o' i b cur | old new c k | n rs | n rs | nb n rs | nb old n rs | s | s | s b | b p' e x]; cbn [tmono] in T; try contradiction; cbn [thread_step].
  - destruct (_ <? _); discriminate.
  - destruct T as (-> & Ac & _ & Bi). rewrite (v_data _ _ _ _ I). destruct (gz_some _ ch d) as (b & Hb); [| rewrite Hb; discriminate]. destruct (v_d _ _ _ _ I) as (D0 & _ & [D1 | (_ & _ & D1)]); [lia |]. rewrite D1, len_nil in Bi. lia.
  - destruct T as (-> & (Ac & _ & Bi) & Re). destruct (in_bounds i b Re Bi) as (x & v & Hx & Hv). unfold load_step, on_buf, on_slot. rewrite Hx, Hv. assert (Sv : sl m b i = Some v) by (unfold sl; rewrite Hx; exact Hv).
    pose proof (auth m ch d l I i b v Re Bi Sv) as A. destruct v as [| | w].
    + discriminate.
    + destruct A as (k & nb & _ & _ & Hn & _). unfold nx in Hn. rewrite Hx in Hn. rewrite Hn. destruct o; discriminate.
    + destruct o; try discriminate. destruct (w =? old); discriminate.
  - destruct T as (-> & (Ac & _ & Bi) & Re & Hc). destruct (in_bounds i b Re Bi) as (x & v & Hx & Hv). unfold swap_step, on_buf, on_slot. rewrite Hx, Hv. destruct (_ && _); [| discriminate]. destruct o; cbn [access] in Ac; try contradiction; discriminate.
  - destruct T as (_ & j & Hj & Hj1 & Jd & Cm). destruct (v_chain _ _ _ _ I j old Hj) as (Al & _). destruct (v_chain _ _ _ _ I (j + 1) new Hj1) as (Al1 & _).
    pose proof (v_caps _ _ _ _ I old Al) as Vc. pose proof (s_caps _ _ _ _ _ S j old new Hj Hj1) as Sc.
    unfold copy_step, on_buf. destruct (alive_some m old Al) as (src & Hx). destruct (alive_some m new Al1) as (dst & Hn). rewrite Hx.
    assert (Ec : cp m old = len (b_slots src)) by (unfold cp; rewrite Hx; reflexivity). assert (En : cp m new = len (b_slots dst)) by (unfold cp; rewrite Hn; reflexivity).
    destruct c as [| i ind | i ind v | i v | i | i |]; cbn [cmono] in Cm.
    + change (cap src) with (len (b_slots src)). destruct (Z.eqb_spec (len (b_slots src)) 0); [lia | discriminate].
    + unfold on_slot. destruct (gz_some _ (b_slots src) i ltac:(lia)) as (w & ->). destruct w; discriminate.
    + rewrite Hn. unfold on_slot. destruct (gz_some _ (b_slots dst) i ltac:(lia)) as (w & ->). destruct (slot_eqb _ _); discriminate.
    + unfold on_slot. destruct (gz_some _ (b_slots src) i ltac:(lia)) as (w & ->). destruct (_ && _); discriminate.
    + destruct (_ =? _); discriminate.
    + destruct (_ =? _); discriminate.
    + destruct k; discriminate.
  - destruct Dc as (c & ->). destruct (_ >? _); [discriminate | destruct rs; discriminate].
  - destruct (_ && _); discriminate.
  - discriminate.
  - destruct old as [old|]; [| discriminate]. destruct T as (_ & _ & k & Hk & _). destruct (v_chain _ _ _ _ I k old Hk) as (Al & _). destruct (alive_some m old Al) as (x & Hx). unfold on_buf. rewrite Hx. destruct (b_next x); discriminate.
Qed.

Lemma link_grows : forall t o nb old n rs, gz ths t = Some (Some (o, PLink nb old n rs)) -> t = g.
Proof. intros t o nb old n rs Ht. pose proof (g_mono _ _ _ _ _ G t o _ Ht) as (_ & Gr & _). exact (s_only _ _ _ _ _ S t o _ Ht Gr). Qed.

(* th: what thread t does after the step *)
Lemma step_sinv : forall t o p yes m' th ch' d' l', gz ths t = Some (Some (o, p)) ->
  match thread_step m p yes with Next m1 p' => m' = m1 /\ th = Some (o, p') | Ret m1 _ => m' = m1 /\ th = None | Ub => False end ->
  chg ch d p ch' d' -> ginv m' (put ths t th) ch' d' l' -> sinv m' (put ths t th) ch' d' g.
Proof.
  intros t o p yes m' th ch' d' l' Ht Hs Hc G'. pose proof (gz_some_inv _ _ _ _ Ht) as Bt. assert (R : run_at ths t p) by (exists o; exact Ht).
  assert (Ca : caps m m') by (pose proof (step_caps m p yes) as C; destruct (thread_step m p yes); [destruct Hs as (-> & _) | destruct Hs as (-> & _) |]; [exact C | exact C | contradiction]).
  pose proof (v_d _ _ _ _ I) as Vd. pose proof (g_mem _ _ _ _ _ G') as I'.
  assert (Chain : forall k b, gz ch k = Some b -> cp m' b = cp m b) by (intros k b H; apply Ca; exact (proj1 (v_chain _ _ _ _ I k b H))).
  assert (Runt : t = g -> forall p1, run_at (put ths t th) g p1 -> th = Some (o, p1)).
  { intros E p1 (o1 & H). subst g. rewrite gz_put, Z.eqb_refl in H by exact Bt. assert (E : th = Some (o1, p1)) by congruence. rewrite E in Hs. destruct (thread_step m p yes) as [m1 p' | m1 r |]; try contradiction; destruct Hs as (_ & Hs); congruence. }
  assert (Runo : t <> g -> forall p1, run_at (put ths t th) g p1 <-> run_at ths g p1).
  { intros N p1. unfold run_at. rewrite gz_put by exact Bt. destruct (Z.eqb_spec g t) as [E | _]; [congruence | reflexivity]. }
  assert (Nolink : t <> g -> (ch' = ch /\ d' = d) \/ (ch' = ch /\ d' = d + 1 /\ d + 1 < len ch)).
  { intros N. destruct Hc as [Hc | [Hc | (nb & old & n & rs & -> & _)]]; [left; exact Hc | right; exact Hc |]. exfalso. apply N. eapply link_grows. exact Ht. }
  constructor.
  - intros k b b' Hk Hk1. assert (Old : gz ch k = Some b -> gz ch (k + 1) = Some b' -> cp m' b <= cp m' b') by (intros H1 H2; rewrite (Chain _ _ H1), (Chain _ _ H2); exact (s_caps _ _ _ _ _ S k b b' H1 H2)).
    destruct Hc as [(-> & _) | [(-> & _) | (nb & old & n & rs & Ep & -> & -> & Lc)]]; [auto | auto |].
    pose proof (gz_some_inv _ _ _ _ Hk1) as B1. rewrite len_app, len_cons, len_nil in B1. rewrite gz_app in Hk, Hk1. destruct (Z.ltb_spec k (len ch)) as [B0 | B0]; [| pose proof (gz_some_inv _ _ _ _ Hk) as B2; rewrite len_cons, len_nil in B2; lia].
    destruct (Z.ltb_spec (k + 1) (len ch)) as [B2 | B2]; [apply Old; assumption |]. pose proof (gz_some_inv _ _ _ _ Hk) as B3. assert (k = d) by (destruct Vd as (_ & _ & [V | (V & _)]); [lia | rewrite V, len_nil in B0; lia]). subst k. assert (E0 : d + 1 - len ch = 0) by lia. rewrite E0 in Hk1. assert (b' = nb) by (change (Some nb = Some b') in Hk1; congruence). subst b'.
    rewrite Ep in R, Ht. pose proof (link_grows _ _ _ _ _ _ Ht) as Eg. rewrite Eg in R. destruct (g_fresh _ _ _ _ _ G g _ nb R eq_refl) as (Al & _). rewrite (Chain _ _ Hk), (Ca nb Al). exact (proj2 (proj2 (s_run _ _ _ _ _ S _ R)) b Hk).
  - intros u o1 p1 H Gr. rewrite gz_put in H by exact Bt. destruct (Z.eqb_spec u t) as [-> | N]; [| exact (s_only _ _ _ _ _ S u o1 p1 H Gr)].
    assert (th = Some (o1, p1)) by congruence. subst th. destruct (thread_step m p yes) as [m1 p' | m1 r |]; try contradiction; destruct Hs as (_ & Hs). + assert (o1 = o) by congruence. subst o1. exact (s_only _ _ _ _ _ S t o p Ht Gr). + discriminate Hs.
  - intros Hi. destruct (Z.eq_dec t g) as [-> | N].
    + assert (th = None) by (destruct th as [(o1, p1)|]; [exfalso; apply (Hi p1); exists o1; rewrite gz_put, Z.eqb_refl by exact Bt; reflexivity | reflexivity]). subst th.
      assert (Np : match p with PCopy _ _ _ _ | PLink _ _ _ _ => False | _ => True end).
      { destruct p; try exact Logic.I; cbn [thread_step] in Hs.
        - unfold copy_step, on_buf, on_slot in Hs. destruct (gz (m_bufs m) old) as [src|]; [| contradiction]. destruct c.
          + destruct (_ =? _); [contradiction |]. destruct Hs as (_ & Hs). discriminate Hs.
          + destruct (gz (b_slots src) i) as [[| | w]|]; try contradiction; destruct Hs as (_ & Hs); discriminate Hs.
          + destruct (gz (m_bufs m) new) as [dst|]; [| contradiction]. destruct (gz (b_slots dst) i); [| contradiction]. destruct (slot_eqb _ _); destruct Hs as (_ & Hs); discriminate Hs.
          + destruct (gz (b_slots src) i); [| contradiction]. destruct (_ && _); destruct Hs as (_ & Hs); discriminate Hs.
          + destruct (_ =? _); destruct Hs as (_ & Hs); discriminate Hs.
          + destruct (_ =? _); destruct Hs as (_ & Hs); discriminate Hs.
          + destruct k; destruct Hs as (_ & Hs); discriminate Hs.
        - destruct old as [old|]; [unfold on_buf in Hs; destruct (gz (m_bufs m) old) as [x|]; [| contradiction]; destruct (b_next x) |]; destruct Hs as (_ & Hs); discriminate Hs. }
      assert (Lc : len ch <= d + 1) by (pose proof (proj1 (s_run _ _ _ _ _ S _ R)) as X; destruct p; try exact X; contradiction).
      destruct Hc as [(-> & ->) | [(-> & -> & _) | (nb & old & n & rs & Ep & _)]]; [lia | lia |]. rewrite Ep in Np. contradiction.
    + assert (Lc : len ch <= d + 1) by (apply (s_idle _ _ _ _ _ S); intros p1 H; apply (Hi p1); apply Runo; assumption). destruct (Nolink N) as [(-> & ->) | (-> & -> & _)]; lia.
  - intros p1 R1. destruct (Z.eq_dec t g) as [Eg | N].
    + (* a step of the growing thread *)
      pose proof (Runt Eg p1 R1) as Eth. subst g. assert (Hs' : thread_step m p yes = Next m' p1) by (destruct (thread_step m p yes) as [m1 p' | m1 r |]; [destruct Hs as (-> & Hs); congruence | destruct Hs as (_ & Hs); congruence | contradiction]).
      destruct (s_run _ _ _ _ _ S p R) as (S1 & S2). pose proof (v_data _ _ _ _ I) as Da. pose proof (v_data _ _ _ _ I') as Da'.
      (* other steps than linking and finished copying *)
      assert (Simple : len ch <= d + 1 -> (match p with PLink _ _ _ _ => False | _ => True end) -> ch' = ch /\ d' = d).
      { intros Lc Np. destruct Hc as [Hc | [(_ & _ & Hc) | (nb & old & n & rs & Ep & _)]]; [exact Hc | lia |]. rewrite Ep in Np. contradiction. }
      destruct p as [o' | o' i | o' i b | o' i b cur | old new c k | n rs | n rs | nb n rs | nb old n rs | s | s | s b | b p' e x]; cbn [thread_step] in Hs'.
      * destruct (Simple S1 Logic.I) as (-> & ->). destruct (_ <? _); [| discriminate Hs']. assert (p1 = PData o' (bufidx (op_index o') (m_size m))) by congruence. subst p1. auto.
      * destruct (Simple S1 Logic.I) as (-> & ->). destruct (m_data m) as [b|]; [| discriminate Hs']. assert (p1 = PLoad o' i b) by congruence. subst p1. auto.
      * destruct (Simple S1 Logic.I) as (-> & ->). unfold load_step, on_buf, on_slot in Hs'. destruct (gz (m_bufs m) b) as [x|]; [| discriminate Hs']. destruct (gz (b_slots x) i) as [v|]; [| discriminate Hs'].
        assert (P1 : (exists b', p1 = PLoad o' i b') \/ (exists nb, p1 = PCopy b nb CStart (KAccess o' i)) \/ (exists cur, p1 = PSwap o' i b cur)).
        { destruct v as [| | w]; [discriminate Hs' | |].
          - destruct (b_next x) as [nb|]; [| discriminate Hs']. destruct o'; try (right; left; exists nb; congruence). left. exists nb. congruence.
          - destruct o'; try discriminate Hs'; try (right; right; exists w; congruence). destruct (w =? old); [right; right; exists w; congruence | discriminate Hs']. }
        destruct P1 as [(b' & ->) | [(nb & ->) | (cur & ->)]]; auto.
      * destruct (Simple S1 Logic.I) as (-> & ->). unfold swap_step, on_buf, on_slot in Hs'. destruct (gz (m_bufs m) b) as [x|]; [| discriminate Hs']. destruct (gz (b_slots x) i) as [v|]; [| discriminate Hs'].
        destruct (_ && _); [destruct o'; discriminate Hs' |]. assert (p1 = PLoad o' i b) by congruence. subst p1. auto.
      * (* copying *)
        assert (P1 : (exists c', p1 = PCopy old new c' k) \/ (c = CEnd /\ p1 = match k with KAccess o' i => PLoad o' i new | KReserve n rs => PRsv n rs end)).
        { unfold copy_step, on_buf, on_slot in Hs'. destruct (gz (m_bufs m) old) as [src|]; [| discriminate Hs']. destruct c.
          - destruct (_ =? _); [discriminate Hs' |]. left. eexists. assert (forall a b, Next m a = Next m' b -> b = a) by congruence. eauto.
          - destruct (gz (b_slots src) i) as [[| | w]|]; try discriminate Hs'; left; [exists (CDst i in_dst Tomb) | exists (CFail i) | exists (CDst i in_dst (Val w))]; congruence.
          - destruct (gz (m_bufs m) new) as [dst|]; [| discriminate Hs']. destruct (gz (b_slots dst) i); [| discriminate Hs']. destruct (slot_eqb _ _); left; [exists (CSrc i value) | exists (CFail i)]; congruence.
          - destruct (gz (b_slots src) i); [| discriminate Hs']. destruct (_ && _); left; [exists (CDec i) | exists (CLoad i value)]; congruence.
          - destruct (_ =? 0); left; [exists CEnd; congruence | eexists; assert (X : forall a b, Next m a = Next m' b -> b = a) by congruence; eapply X; exact Hs'].
          - destruct (_ =? 1); left; [exists CEnd; congruence |]. eexists. assert (X : forall m0 a b, Next m0 a = Next m' b -> b = a) by congruence. eapply X. exact Hs'.
          - right. split; [reflexivity |]. destruct k; assert (X : forall m0 a b, Next m0 a = Next m' b -> b = a) by congruence; eapply X; exact Hs'. }
        assert (Hc' : (ch' = ch /\ d' = d) \/ (ch' = ch /\ d' = d + 1 /\ d + 1 < len ch)) by (destruct Hc as [Hc | [Hc | (nb & old' & n & rs & Ep & _)]]; [left; exact Hc | right; exact Hc | discriminate Ep]).
        destruct k as [o' i | n rs].
        { assert (ch' = ch /\ d' = d) as [-> ->] by (destruct Hc' as [Hc' | Hc']; [exact Hc' | lia]). destruct P1 as [(c' & ->) | (_ & ->)]; auto. }
        destruct P1 as [(c' & ->) | (-> & ->)].
        { split; [| exact Logic.I]. destruct Hc' as [(-> & ->) | (-> & -> & Lc)]; [exact S1 |]. left. lia. }
        { split; [| exact Logic.I]. destruct Hc' as [(-> & ->) | (-> & -> & Lc)]; [| lia]. destruct S1 as [S1 | (S1 & S3)]; [lia |]. exfalso.
          unfold copy_step, on_buf in Hs'. destruct (gz (m_bufs m) old) as [src|]; [| discriminate Hs']. rewrite Da, S1, Z.eqb_refl in Hs'. assert (E : m' = set_data m (Some new)) by congruence. rewrite E in Da'. cbn [set_data m_data] in Da'.
          rewrite S1 in Da'. assert (new = old) by congruence. subst new. pose proof (v_once _ _ _ _ I _ _ _ S1 S3). lia. }
      * destruct (Simple S1 Logic.I) as (-> & ->). destruct (data_cap m) as [c|] eqn:Ed; [| discriminate Hs']. destruct (Z.gtb_spec n c) as [B | B].
        { assert (m' = m /\ p1 = PNew n rs) as [-> ->] by (split; congruence). split; [exact S1 |]. intros b Hb. unfold data_cap in Ed. rewrite Da, Hb in Ed. unfold cp. destruct (gz (m_bufs m) b) as [x|]; [| discriminate Ed]. assert (c = cap x) by congruence. lia. }
        { destruct rs as [s|]; [| discriminate Hs']. assert (p1 = PRsz2 s) by congruence. subst p1. auto. }
      * destruct (Simple S1 Logic.I) as (-> & ->). destruct ((n <? MAX_ARRAY_SIZE) && yes) eqn:E; [| discriminate Hs']. apply andb_true_iff in E. destruct E as (E & _). apply Z.ltb_lt in E.
        pose proof (g_mono _ _ _ _ _ G t o _ Ht) as (_ & _ & N1). destruct (alloc_capacity_ok n ltac:(lia)) as (Al & Al2).
        assert (Em : m' = Mem (m_bufs m ++ [new_buf n]) (m_data m) (m_size m)) by congruence. assert (p1 = PGet (len (m_bufs m)) n rs) by congruence. subst p1.
        split; [exact S1 |]. intros b Hb. rewrite (Chain _ _ Hb). specialize (S2 b Hb). assert (Cn : cp m' (len (m_bufs m)) = alloc_capacity n); [| lia].
        rewrite Em. unfold cp. cbn [m_bufs]. rewrite gz_app, Z.ltb_irrefl, Z.sub_diag. change (gz [new_buf n] 0) with (Some (new_buf n)). unfold cap, new_buf. cbn [b_slots]. rewrite len_repeat. clear - Al2. lia.
      * destruct (Simple S1 Logic.I) as (-> & ->). assert (m' = m /\ p1 = PLink nb (m_data m) n rs) as [-> ->] by (split; congruence). split; [exact S1 |]. split; [exact Da | exact S2].
      * destruct S2 as (Eo & S2). destruct old as [old|].
        { symmetry in Eo. unfold on_buf in Hs'. destruct (v_chain _ _ _ _ I d old Eo) as (_ & Nx). assert (N1 : gz ch (d + 1) = None) by (apply gz_ge; lia). unfold nx in Nx. destruct (gz (m_bufs m) old) as [x|] eqn:Hx; [| discriminate Hs']. rewrite Nx, N1 in Hs'.
          assert (m' = set_buf m old (Buf (b_slots x) (b_open x) (Some nb)) /\ p1 = PCopy old nb CStart (KReserve n rs)) as [Em ->] by (split; congruence). split; [| exact Logic.I]. right.
          destruct (link_write m old x (Some nb) Hx) as (_ & _ & W3 & _). destruct Hc as [(-> & ->) | [(_ & _ & Lc) | (nb1 & old1 & n1 & rs1 & Ep & -> & -> & _)]]; [exfalso | lia |].
          - destruct (v_chain _ _ _ _ I' d old Eo) as (_ & Nx'). rewrite Em, W3, Z.eqb_refl, N1 in Nx'. discriminate Nx'.
          - assert (nb1 = nb) by congruence. subst nb1. pose proof (gz_some_inv _ _ _ _ Eo) as Be. rewrite !gz_app. rewrite (proj2 (Z.ltb_lt d (len ch))) by lia. split; [exact Eo |]. destruct (Z.ltb_spec (d + 1) (len ch)) as [X | X]; [lia |]. assert (E0 : d + 1 - len ch = 0) by lia. rewrite E0. reflexivity. }
        { assert (p1 = PRsv n rs) by congruence. subst p1. split; [| exact Logic.I]. assert (Ec : ch = [] /\ d = 0).
          { destruct Vd as (V0 & _ & [V | (V & V1 & _)]); [| auto]. destruct (gz_some _ ch d) as (z & Hz); [lia | congruence]. }
          destruct Ec as (-> & ->). destruct Hc as [(-> & ->) | [(-> & -> & _) | (nb1 & old1 & n1 & rs1 & _ & -> & -> & _)]]; rewrite ?len_nil; [lia | lia |]. rewrite len_app, len_cons, !len_nil. lia. }
      * pose proof (g_mono _ _ _ _ _ G t o _ Ht) as X. contradiction.
      * pose proof (g_mono _ _ _ _ _ G t o _ Ht) as X. contradiction.
      * pose proof (g_mono _ _ _ _ _ G t o _ Ht) as X. contradiction.
      * pose proof (g_mono _ _ _ _ _ G t o _ Ht) as X. contradiction.
    + (* a step of another thread *)
      pose proof (proj1 (Runo N p1) R1) as R2. destruct (s_run _ _ _ _ _ S p1 R2) as (S1 & S2).
      assert (Fr : forall nb, fresh p1 = Some nb -> cp m' nb = cp m nb) by (intros nb F; apply Ca; exact (proj1 (g_fresh _ _ _ _ _ G g p1 nb R2 F))).
      destruct (Nolink N) as [(-> & ->) | (-> & -> & Lc)].
      * split; [exact S1 |]. destruct p1; try exact Logic.I.
        { intros b Hb. rewrite (Chain _ _ Hb). exact (S2 b Hb). }
        { intros b Hb. rewrite (Chain _ _ Hb), (Fr nb eq_refl). exact (S2 b Hb). }
        { destruct S2 as (S2 & S3). split; [exact S2 |]. intros b Hb. rewrite (Chain _ _ Hb), (Fr nb eq_refl). exact (S3 b Hb). }
      * destruct p1; try lia. destruct k; [lia |]. split; [| exact Logic.I]. left. lia.
Qed.
End Safe.

Lemma run_safe : forall sched g s h l ch d, begins (fun t o => access o \/ (growing o /\ t = g)) sched -> ginv (y_mem s) (y_threads s) ch d l -> sinv (y_mem s) (y_threads s) ch d g ->
  exists s' h', run s h sched = Fin s' h'.
Proof.
  induction sched as [|(t, a) sched IH]; intros g s h l ch d B G S; cbn [run].
  - exists s, h. reflexivity.
  - assert (B' : begins (fun t o => access o \/ (growing o /\ t = g)) sched) by (intros u o Hin; apply (B u o); right; exact Hin).
    destruct (gz (y_threads s) t) as [[(o, p)|]|] eqn:Ht; [| | eapply IH; eassumption].
    + destruct a as [o' | yes]; [eapply IH; eassumption |]. pose proof (thread_step_ok _ _ _ _ _ _ _ _ yes G Ht) as K. pose proof (step_safe _ _ _ _ _ _ G S t o p yes Ht) as Nu.
      pose proof (fun m' th ch' d' l' => step_sinv _ _ _ _ _ _ G S t o p yes m' th ch' d' l' Ht) as St. destruct (thread_step (y_mem s) p yes) as [m' p' | m' r |]; cbn [step_ok] in K; [| | contradiction].
      * destruct K as (ch' & d' & Hc & G'). apply (IH g _ _ l ch' d' B'); [exact G' |]. apply (St m' _ ch' d' l (conj eq_refl eq_refl) Hc G').
      * destruct K as (ch' & d' & l1 & Hc & _ & _ & G'). apply (IH g _ _ l1 ch' d' B'); [exact G' |]. apply (St m' _ ch' d' l1 (conj eq_refl eq_refl) Hc G').
    + destruct a as [o | yes]; [| eapply IH; eassumption]. pose proof (gz_some_inv _ _ _ _ Ht) as Bt. assert (Bo : access o \/ (growing o /\ t = g)) by (apply (B t o); left; reflexivity).
      apply (IH g _ _ l ch d B'); cbn [y_mem y_threads].
      * apply start_ok; [exact G | exact Ht |]. destruct Bo as [Bo | (Bo & _)]; [left | right]; exact Bo.
      * constructor.
        { exact (s_caps _ _ _ _ _ S). }
        { intros u o1 p1 H Gr. rewrite gz_put in H by exact Bt. destruct (Z.eqb_spec u t) as [-> | N]; [| exact (s_only _ _ _ _ _ S u o1 p1 H Gr)]. assert (o1 = o) by congruence. subst o1. destruct Bo as [Bo | (_ & Bo)]; [| exact Bo]. destruct o; contradiction. }
        { intros Hi. destruct (Z.eq_dec t g) as [-> | N].
          - exfalso. apply (Hi (start o)). exists o. rewrite gz_put, Z.eqb_refl by exact Bt. reflexivity.
          - apply (s_idle _ _ _ _ _ S). intros p1 (o1 & H). apply (Hi p1). exists o1. rewrite gz_put by exact Bt. destruct (Z.eqb_spec g t) as [E | _]; [congruence | exact H]. }
        { intros p1 R. apply run_put in R; [| exact Bt]. destruct R as [(E & o1 & E1) | (N & R)]; [| exact (s_run _ _ _ _ _ S p1 R)]. assert (p1 = start o) by congruence. subst p1.
          assert (Lc : len ch <= d + 1) by (apply (s_idle _ _ _ _ _ S); intros p1 (o2 & H); subst g; congruence). destruct o; cbn [start]; auto. }
Qed.
