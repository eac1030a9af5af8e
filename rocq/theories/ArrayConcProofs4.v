(* Shared arrays: steps of operations, histories. *)
From Coq Require Import ZArith List Lia Bool ZifyBool.
Import ListNotations.
From Verif Require Import Base ListZ ArrayModel ArrayConcSpec ArrayConcModel ArrayConcProofs ArrayConcProofs2 ArrayConcProofs3.
Local Open Scope Z_scope.
Ltac Zify.zify_post_hook ::= idtac.

(* how the list of storages changes in a step of a thread at p *)
Definition chg (ch : list Z) (d : Z) (p : pc) (ch' : list Z) (d' : Z) : Prop :=
  (ch' = ch /\ d' = d) \/ (ch' = ch /\ d' = d + 1 /\ d + 1 < len ch) \/
  (exists nb old n rs, p = PLink nb old n rs /\ ch' = ch ++ [nb] /\ d' = d /\ len ch <= d + 1).

Definition step_ok (ch : list Z) (d : Z) (p : pc) (ths : list (option (op * pc))) (l : list Z) (t : Z) (o : op) (x : out) : Prop :=
  match x with
  | Next m' p' => exists ch' d', chg ch d p ch' d' /\ ginv m' (put ths t (Some (o, p'))) ch' d' l
  | Ret m' r => exists ch' d' l', chg ch d p ch' d' /\ legal l o r l' /\ len l' = len l /\ ginv m' (put ths t None) ch' d' l'
  | Ub => True
  end.

Section Cases.
Variables (m : mem) (ths : list (option (op * pc))) (ch : list Z) (d : Z) (l : list Z) (t : Z) (o : op) (p : pc).
Hypothesis G : ginv m ths ch d l.
Hypothesis Ht : gz ths t = Some (Some (o, p)).

Let I := g_mem _ _ _ _ _ G.
Let T := g_mono _ _ _ _ _ G t o p Ht.
Let R : run_at ths t p := ex_intro _ o Ht.

Lemma local_next : forall p', tmono m ch d (len l) o p' -> (own p' = None \/ exists q, own p' = Some q /\ own p = Some q) ->
  (fresh p' = None \/ fresh p' = fresh p) -> (forall b, dec_at b p' = dec_at b p) -> step_ok ch d p ths l t o (Next m p').
Proof.
  intros p' H1 H2 H3 H4. exists ch, d. split; [left; auto |]. apply (step_local m ths ch d l t o p (Some (o, p')) G Ht); auto.
  intros o' p1 E. assert (o' = o /\ p1 = p') as [-> ->] by (split; congruence). exact H1.
Qed.
Lemma local_ret : forall r, legal l o r l -> (forall b, dec_at b p = 0) -> step_ok ch d p ths l t o (Ret m r).
Proof.
  intros r H H1. exists ch, d, l. split; [left; auto |]. split; [exact H |]. split; [reflexivity |]. apply (step_local m ths ch d l t o p None G Ht).
  - intros o' p' E. discriminate E.
  - left. reflexivity.
  - left. reflexivity.
  - intros b. rewrite H1. reflexivity.
Qed.

Lemma load_ok : forall i b, p = PLoad o i b -> step_ok ch d p ths l t o (load_step m o i b).
Proof.
  intros i b Ep. pose proof local_next as LN. pose proof local_ret as LR. assert (T' := T). rewrite Ep in T'. cbn [tmono] in T'. destruct T' as (_ & At & Re). pose proof (position_el m ch d l o I i At) as Pos. destruct At as (Ac & Ei & Bi).
  unfold load_step, on_buf, on_slot. destruct (gz (m_bufs m) b) as [x|] eqn:Hx; [| exact Logic.I]. destruct (gz (b_slots x) i) as [v|] eqn:Hv; [| exact Logic.I].
  assert (Sv : sl m b i = Some v) by (unfold sl; rewrite Hx; exact Hv). pose proof (auth m ch d l I i b v Re Bi Sv) as A.
  assert (AtE : at_el o i (len l)) by (split; [exact Ac | split; [exact Ei | exact Bi]]).
  destruct v as [| | w]; [contradiction | |].
  - destruct A as (k & nb & Hk & Hd & Hn & Hk1). assert (Nx : b_next x = Some nb) by (unfold nx in Hn; rewrite Hx in Hn; exact Hn). rewrite Nx.
    destruct o as [idx | idx y | idx old new | |] eqn:Eo; cbn [access] in Ac; try contradiction.
    + apply LN; rewrite ?Ep; auto. cbn [tmono]. split; [reflexivity |]. split; [exact AtE |]. exists (k + 1). split; [exact Hk1 |].
      destruct (Z.eq_dec k d) as [-> | N]; [right | left; lia]. split; [reflexivity |]. exists b. auto.
    + apply LN; rewrite ?Ep; auto. cbn [tmono cont_ok]. split; [auto |]. exists k. cbn [cmono]. auto.
    + apply LN; rewrite ?Ep; auto. cbn [tmono cont_ok]. split; [auto |]. exists k. cbn [cmono]. auto.
  - destruct A as (Lv & _). destruct o as [idx | idx y | idx old new | |] eqn:Eo; cbn [access] in Ac; try contradiction.
    + apply LR; [| rewrite Ep; reflexivity]. cbn [legal]. cbn [op_index] in Pos. rewrite Pos, Lv. auto.
    + apply LN; rewrite ?Ep; auto. cbn [tmono]. auto.
    + destruct (Z.eqb_spec w old) as [-> | N].
      * apply LN; rewrite ?Ep; auto. cbn [tmono]. auto.
      * apply LR; [| rewrite Ep; reflexivity]. cbn [legal]. cbn [op_index] in Pos. rewrite Pos, Lv. split; [reflexivity |]. destruct (Z.eqb_spec w old); [contradiction | reflexivity].
Qed.

Lemma no_own_write : forall i b q, reach m ch d i b -> 0 <= i < len l -> (exists w, sl m b i = Some (Val w)) -> owned m ch d q ->
  let '(old, new, j, _) := q in ~ (new = b /\ j = i) /\ True.
Proof.
  intros i b [[[old new] j] x] Re Bi (w & Hw) (O1 & O2 & O3 & v & O4 & O5). split; [| exact Logic.I]. intros (-> & ->).
  pose proof (auth m ch d l I i b (Val w) Re Bi Hw) as (_ & [P | (P & b0 & P0 & P1)]).
  - pose proof (v_once _ _ _ _ I _ _ _ P O2). lia.
  - congruence.
Qed.

Lemma swap_ok : forall i b cur yes, p = PSwap o i b cur -> step_ok ch d p ths l t o (swap_step m o i b cur yes).
Proof.
  intros i b cur yes Ep. assert (T' := T). rewrite Ep in T'. cbn [tmono] in T'. destruct T' as (_ & At & Re & Hc). pose proof (position_el m ch d l o I i At) as Pos. assert (AtE := At). destruct At as (Ac & Ei & Bi).
  unfold swap_step, on_buf, on_slot. destruct (gz (m_bufs m) b) as [x|] eqn:Hx; [| exact Logic.I]. destruct (gz (b_slots x) i) as [v|] eqn:Hv; [| exact Logic.I].
  assert (Sv : sl m b i = Some v) by (unfold sl; rewrite Hx; exact Hv).
  destruct (slot_eqb v (Val cur) && yes) eqn:E.
  2: { apply local_next; rewrite ?Ep; auto. cbn [tmono]. auto. }
  apply andb_true_iff in E. destruct E as (E & _). apply slot_eqb_eq in E. subst v.
  pose proof (auth m ch d l I i b (Val cur) Re Bi Sv) as (Lv & Ps). pose proof (gz_some_inv _ _ _ _ Hv) as Bs.
  assert (K : forall new, (forall b', dec_at b' p = 0) -> ginv (set_slot m b x i (Val new)) (put ths t None) ch d (put l i new)).
  { intros new Hd. destruct (slot_write m b x i (Val new) Hx Bs) as (W1 & W2 & W3 & W4 & W5 & W6 & W7 & W8). specialize (W8 _ Hv).
    apply (step_frame m ths ch d l _ ch d (put l i new) t o p None G Ht).
    - eapply (minv_write m ch d l I i b x cur new); try eassumption. reflexivity.
    - apply len_put. exact Bi.
    - constructor; [auto | lia | intros b' _; apply W2 | intros b'; unfold alive; lia |].
      intros b' j Hj. rewrite W1. destruct ((b' =? b) && (j =? i)) eqn:E; [| exact Hj]. exfalso. assert (b' = b /\ j = i) as [-> ->] by lia. congruence.
    - intros o' p' E. discriminate E.
    - intros q E. discriminate E.
    - intros u p1 q N R1 Q _. pose proof (g_own _ _ _ _ _ G u p1 q R1 Q) as O. pose proof (no_own_write i b q Re Bi (ex_intro _ cur Sv) O) as NO.
      destruct q as [[[old new'] j] y]. destruct O as (O1 & O2 & O3 & v & O4 & O5). destruct NO as (NO & _). split; [exact O1 |]. split; [exact O2 |]. rewrite !W1. split.
      + destruct ((new' =? b) && (j =? i)) eqn:E; [| exact O3]. exfalso. apply NO. lia.
      + destruct ((old =? b) && (j =? i)) eqn:E; [| exists v; auto]. exists (Val new). split; [reflexivity | discriminate].
    - intros nb E. discriminate E.
    - auto.
    - intros b'. rewrite W4, W8. cbn [decs]. rewrite Hd. destruct (b' =? b); cbn [is_open]; lia. }
  assert (Ch : forall new, changed l (put l i new) i new) by (intros new; split; [apply len_put; exact Bi | intros j _; apply gz_put; exact Bi]).
  destruct o as [idx | idx y | idx old new | |] eqn:Eo; cbn [access] in Ac; try contradiction.
  - exists ch, d, (put l i y). split; [left; auto |]. split; [| split; [apply len_put; exact Bi | apply K; rewrite Ep; reflexivity]]. cbn [legal]. cbn [op_index] in Pos. rewrite Pos, Lv. split; [reflexivity | apply Ch].
  - exists ch, d, (put l i new). split; [left; auto |]. split; [| split; [apply len_put; exact Bi | apply K; rewrite Ep; reflexivity]]. cbn [legal]. cbn [op_index] in Pos. rewrite Pos, Lv. subst cur. rewrite Z.eqb_refl. split; [reflexivity | apply Ch].
Qed.

(* the slots of a storage whose number of open slots is zero *)
Lemma none_open : forall b, alive m b -> opn m b <= total (decs b) ths -> forall i v, sl m b i = Some v -> v = Closed.
Proof.
  intros b Al Ho i v Hv. pose proof (g_open _ _ _ _ _ G b) as Go. unfold sl, cnt in *. destruct (gz (m_bufs m) b) as [x|]; [| discriminate Hv].
  pose proof (total_pos _ is_open (b_slots x) i v (fun s => proj1 (is_open_range s)) Hv) as P. destruct v; cbn [is_open] in P; [lia | reflexivity | lia].
Qed.

Lemma copy_ok : forall old new c k yes, p = PCopy old new c k -> step_ok ch d p ths l t o (copy_step m old new c k yes).
Proof.
  intros old new c k yes Ep. assert (T' := T). rewrite Ep in T'. cbn [tmono] in T'. destruct T' as (Ck & j & Hj & Hj1 & Jd & Cm).
  destruct (v_chain _ _ _ _ I j old Hj) as (Al & Nx). pose proof (v_caps _ _ _ _ I old Al) as Cp.
  assert (Again : forall c', cmono m (len l) old c' -> tmono m ch d (len l) o (PCopy old new c' k)) by (intros c' H; cbn [tmono]; split; [exact Ck | exists j; auto]).
  unfold copy_step, on_buf. destruct (gz (m_bufs m) old) as [src|] eqn:Hx; [| exact Logic.I].
  assert (Ec : cp m old = cap src) by (unfold cp; rewrite Hx; reflexivity). rewrite Ec in Cp.
  assert (Nxt : forall i, 0 <= i < cp m old -> 0 <= (if i + 1 =? cap src then 0 else i + 1) < cp m old) by (intros i Hi; rewrite Ec in *; destruct (i + 1 =? cap src) eqn:E; lia).
  destruct c as [| i ind | i ind v | i v | i | i |]; cbn [cmono] in Cm.
  - (* CStart *)
    destruct (Z.eqb_spec (cap src) 0); [exact Logic.I |]. apply local_next; rewrite ?Ep; auto. apply Again. cbn [cmono]. split; [| left; reflexivity]. rewrite Ec. apply Z.mod_pos_bound. lia.
  - (* CLoad *)
    destruct Cm as (Bi & Hi). unfold on_slot. destruct (gz (b_slots src) i) as [w|] eqn:Hw; [| exact Logic.I].
    assert (Sw : sl m old i = Some w) by (unfold sl; rewrite Hx; exact Hw).
    assert (Ow : w <> Closed -> slot_ok (len l) i w).
    { intros Nc. destruct (Z.eq_dec j d) as [-> | Nj]; [| exfalso; apply Nc; exact (v_old _ _ _ _ I j old i w Hj ltac:(lia) Sw)]. pose proof (v_cur _ _ _ _ I old i w Hj Sw) as V. destruct w; cbn [slot_ok]; try exact V. congruence. }
    destruct w as [| | x].
    + apply local_next; rewrite ?Ep; auto. { apply Again. cbn [cmono]. split; [exact Bi |]. split; [exact Hi |]. apply Ow. discriminate. }
      destruct ind as [| | y]; [left; reflexivity | left; reflexivity | right; eexists; split; reflexivity].
    + apply local_next; rewrite ?Ep; auto.
    + apply local_next; rewrite ?Ep; auto. { apply Again. cbn [cmono]. split; [exact Bi |]. split; [exact Hi |]. apply Ow. discriminate. }
      destruct ind as [| | y]; [left; reflexivity | left; reflexivity | right; eexists; split; reflexivity].
  - (* CDst *)
    destruct Cm as (Bi & Hi & Hv). destruct (gz (m_bufs m) new) as [dst|] eqn:Hn; [| exact Logic.I]. unfold on_slot. destruct (gz (b_slots dst) i) as [w|] eqn:Hw; [| exact Logic.I].
    destruct (slot_eqb w ind) eqn:E.
    2: { apply local_next; rewrite ?Ep; auto. }
    apply slot_eqb_eq in E. subst w. assert (Sw : sl m new i = Some ind) by (unfold sl; rewrite Hn; exact Hw). pose proof (gz_some_inv _ _ _ _ Hw) as Bs.
    assert (Ic : ind <> Closed) by (destruct Hi as [-> | Hi]; [discriminate |]; destruct ind; cbn [slot_ok] in Hi; [discriminate | contradiction | discriminate]).
    destruct v as [| | y]; cbn [slot_ok] in Hv; [| contradiction |].
    + (* the slot is not used *)
      assert (Ei : ind = Tomb) by (destruct Hi as [Hi | Hi]; [exact Hi |]; destruct ind; cbn [slot_ok] in Hi; [reflexivity | contradiction | lia]). subst ind.
      destruct (slot_write m new dst i Tomb Hn Bs) as (W1 & W2 & W3 & W4 & W5 & W6 & W7 & W8). specialize (W8 _ Hw).
      assert (S : forall c' j', sl (set_slot m new dst i Tomb) c' j' = sl m c' j') by (intros c' j'; rewrite W1; destruct ((c' =? new) && (j' =? i)) eqn:E; [assert (c' = new /\ j' = i) as [-> ->] by lia; symmetry; exact Sw | reflexivity]).
      exists ch, d. split; [left; auto |]. apply (step_frame m ths ch d l _ ch d l t o p (Some (o, PCopy old new (CSrc i Tomb) k)) G Ht).
      * apply (minv_same m _ ch d l I); auto. intros b Hb. rewrite W4. exact (v_open _ _ _ _ I b Hb).
      * reflexivity.
      * apply ext_same; assumption.
      * intros o' p' E. assert (o' = o /\ p' = PCopy old new (CSrc i Tomb) k) as [-> ->] by (split; congruence). cbn [tmono cmono]. split; [exact Ck |]. exists j. rewrite W2. cbn [slot_ok]. auto.
      * intros q E. discriminate E.
      * intros u p1 q N R1 Q _. pose proof (g_own _ _ _ _ _ G u p1 q R1 Q) as O. destruct q as [[[o1 n1] i1] x1]. destruct O as (O1 & O2 & O3 & v & O4 & O5). unfold owned. rewrite !S. split; [exact O1 |]. split; [exact O2 |]. split; [exact O3 |]. exists v. auto.
      * intros nb E. discriminate E.
      * auto.
      * intros b. rewrite W4, W8, Ep. cbn [decs dec_at is_open]. destruct (b =? new); lia.
    + (* the value of an element *)
      pose proof (v_vals _ _ _ _ I) as Vals. destruct (gz_some _ l i ltac:(lia)) as (lv & Hlv). destruct (Vals i lv Hlv) as (cb & Hcb & V).
      assert (Own : j = d /\ exists w, sl m old i = Some w /\ w <> Closed).
      { destruct ind as [| | x]; [| congruence |].
        - assert (Ej : j = d).
          { destruct (Z.eq_dec j d) as [|Nj]; [assumption |]. exfalso. destruct (Z.eq_dec (j + 1) d) as [Ed | Nd].
            - rewrite Ed in Hj1. pose proof (v_cur _ _ _ _ I new i Tomb Hj1 Sw) as X. cbn in X. lia.
            - pose proof (v_old _ _ _ _ I (j + 1) new i Tomb Hj1 ltac:(lia) Sw) as X. discriminate X. }
          split; [exact Ej |]. subst j. destruct (sl_some m old i Bi) as (w & Hw'). exists w. split; [exact Hw' |]. intros ->. assert (cb = old) by congruence. subst cb.
          destruct V as [V | (_ & b' & V1 & V2)]; [congruence |]. assert (b' = new) by congruence. subst b'. congruence.
        - assert (O : owned m ch d (old, new, i, x)) by (apply (g_own _ _ _ _ _ G t p _ R); rewrite Ep; reflexivity). destruct O as (O1 & _ & _ & w & O4 & O5). split; [exact (v_once _ _ _ _ I _ _ _ Hj O1) |]. exists w. auto. }
      destruct Own as (-> & w & Sw' & Nw).
      destruct (slot_write m new dst i (Val y) Hn Bs) as (W1 & W2 & W3 & W4 & W5 & W6 & W7 & W8). specialize (W8 _ Hw).
      assert (Non : old <> new) by (intros ->; pose proof (v_once _ _ _ _ I _ _ _ Hj Hj1); lia).
      assert (So : forall j', sl (set_slot m new dst i (Val y)) old j' = sl m old j') by (intros j'; rewrite W1; destruct (Z.eqb_spec old new); [contradiction | reflexivity]).
      exists ch, d. split; [left; auto |]. apply (step_frame m ths ch d l _ ch d l t o p (Some (o, PCopy old new (CSrc i (Val y)) k)) G Ht).
      * apply (minv_dst m ch d l I i old new dst w y); auto. lia.
      * reflexivity.
      * constructor; [auto | lia | intros b' _; apply W2 | intros b'; unfold alive; lia |]. intros b' j' Hj'. rewrite W1. destruct ((b' =? new) && (j' =? i)) eqn:E; [| exact Hj']. exfalso. assert (b' = new /\ j' = i) as [-> ->] by lia. congruence.
      * intros o' p' E. assert (o' = o /\ p' = PCopy old new (CSrc i (Val y)) k) as [-> ->] by (split; congruence). cbn [tmono cmono]. split; [exact Ck |]. exists d. rewrite W2. cbn [slot_ok]. auto.
      * intros q E. cbn [th_own own] in E. assert (q = (old, new, i, y)) by congruence. subst q. split.
        { unfold owned. rewrite So, W1, !Z.eqb_refl. split; [exact Hj |]. split; [exact Hj1 |]. split; [reflexivity |]. exists w. auto. }
        destruct ind as [| | x]; [| congruence |].
        { right. intros u p1 q1 N R1 Q1 K. pose proof (g_own _ _ _ _ _ G u p1 q1 R1 Q1) as O. destruct q1 as [[[o1 n1] i1] x1]. cbn [key] in K. assert (o1 = old /\ i1 = i) as [-> ->] by (split; congruence).
          destruct O as (_ & O2 & O3 & _). assert (n1 = new) by congruence. subst n1. congruence. }
        { left. exists (old, new, i, x). rewrite Ep. split; reflexivity. }
      * intros u p1 q N R1 Q K. pose proof (g_own _ _ _ _ _ G u p1 q R1 Q) as O. destruct q as [[[o1 n1] i1] x1]. destruct O as (O1 & O2 & O3 & v & O4 & O5). assert (o1 = old /\ n1 = new) as [-> ->] by (split; congruence).
        assert (i1 <> i).
        { intros ->. destruct ind as [| | x]; [congruence | congruence |]. apply (K (old, new, i, x)); [rewrite Ep; reflexivity | reflexivity]. }
        unfold owned. rewrite So, W1. split; [exact O1 |]. split; [exact O2 |]. split; [| exists v; auto]. destruct ((new =? new) && (i1 =? i)) eqn:E; [lia | exact O3].
      * intros nb E. discriminate E.
      * auto.
      * intros b. rewrite W4, W8, Ep. cbn [decs dec_at]. destruct (b =? new); [| lia]. destruct ind; cbn [is_open]; [lia | congruence | lia].
  - (* CSrc *)
    destruct Cm as (Bi & Hv). unfold on_slot. destruct (gz (b_slots src) i) as [w|] eqn:Hw; [| exact Logic.I].
    destruct (slot_eqb w v && yes) eqn:E.
    2: { apply local_next; rewrite ?Ep; auto. { apply Again. cbn [cmono]. auto. } destruct v as [| | x]; [left; reflexivity | left; reflexivity |]. right. eexists. split; reflexivity. }
    apply andb_true_iff in E. destruct E as (E & _). apply slot_eqb_eq in E. subst w. assert (Sw : sl m old i = Some v) by (unfold sl; rewrite Hx; exact Hw).
    assert (Nc : v <> Closed) by (destruct v; cbn [slot_ok] in Hv; [discriminate | contradiction | discriminate]).
    assert (j = d) by (destruct (Z.eq_dec j d) as [|Nj]; [assumption |]; exfalso; apply Nc; exact (v_old _ _ _ _ I j old i v Hj ltac:(lia) Sw)). subst j.
    pose proof (gz_some_inv _ _ _ _ Hw) as Bs. destruct (slot_write m old src i Closed Hx Bs) as (W1 & W2 & W3 & W4 & W5 & W6 & W7 & W8). specialize (W8 _ Hw).
    exists ch, d. split; [left; auto |]. apply (step_frame m ths ch d l _ ch d l t o p (Some (o, PCopy old new (CDec i) k)) G Ht).
    + apply (minv_close m ch d l I i old new src v); auto. intros y ->. assert (O : owned m ch d (old, new, i, y)) by (apply (g_own _ _ _ _ _ G t p _ R); rewrite Ep; reflexivity). destruct O as (_ & _ & O3 & _). exact O3.
    + reflexivity.
    + constructor; [auto | lia | intros b' _; apply W2 | intros b'; unfold alive; lia |]. intros b' j' Hj'. rewrite W1. destruct ((b' =? old) && (j' =? i)); [reflexivity | exact Hj'].
    + intros o' p' E. assert (o' = o /\ p' = PCopy old new (CDec i) k) as [-> ->] by (split; congruence). cbn [tmono cmono]. split; [exact Ck |]. exists d. rewrite W2. auto.
    + intros q E. discriminate E.
    + intros u p1 q N R1 Q K. pose proof (g_own _ _ _ _ _ G u p1 q R1 Q) as O. destruct q as [[[o1 n1] i1] x1]. destruct O as (O1 & O2 & O3 & v1 & O4 & O5). assert (o1 = old /\ n1 = new) as [-> ->] by (split; congruence).
      assert (Non : new <> old) by (intros ->; pose proof (v_once _ _ _ _ I _ _ _ Hj Hj1); lia).
      assert (i1 <> i).
      { intros ->. destruct v as [| | x]; [| congruence |].
        - cbn [slot_ok] in Hv. destruct (v_new _ _ _ _ I new i (Val x1) O2 O3) as (_ & X). specialize (X Hv). discriminate X.
        - apply (K (old, new, i, x)); [rewrite Ep; reflexivity | reflexivity]. }
      unfold owned. rewrite !W1. split; [exact O1 |]. split; [exact O2 |]. split.
      * destruct ((new =? old) && (i1 =? i)) eqn:E; [lia | exact O3].
      * exists v1. destruct ((old =? old) && (i1 =? i)) eqn:E; [lia | auto].
    + intros nb E. discriminate E.
    + auto.
    + intros b. rewrite W4, W8, Ep. cbn [decs dec_at is_open]. rewrite (Z.eqb_sym old b). destruct (b =? old); [| lia]. destruct v; cbn [is_open]; [lia | congruence | lia].
  - (* CFail *)
    destruct (Z.eqb_spec (b_open src) 0) as [Eo | No].
    + apply local_next; rewrite ?Ep; auto. apply Again. cbn [cmono]. apply none_open; [exact Al |]. unfold opn. rewrite Hx, Eo. apply total_nonneg. intros th. apply decs_range.
    + apply local_next; rewrite ?Ep; auto. apply Again. cbn [cmono]. split; [apply Nxt; exact Cm | left; reflexivity].
  - (* CDec *)
    assert (Op : opn m old = b_open src) by (unfold opn; rewrite Hx; reflexivity). pose proof (v_open _ _ _ _ I old Al) as Vo. rewrite Op in Vo.
    pose proof (g_open _ _ _ _ _ G old) as Go. rewrite Op in Go.
    assert (D1 : 1 <= total (decs old) ths).
    { pose proof (total_pos _ (decs old) ths t (Some (o, p)) (fun th => proj1 (decs_range old th)) Ht) as P. rewrite Ep in P. cbn [decs dec_at] in P. rewrite Z.eqb_refl in P. exact P. }
    assert (C0 : 0 <= cnt m old) by (unfold cnt; rewrite Hx; apply total_nonneg; intros s; apply is_open_range).
    assert (U : u32 (b_open src - 1) = b_open src - 1) by (unfold u32, uwrap; apply Z.mod_small; change (2 ^ 32) with 4294967296; lia). rewrite U.
    destruct (open_write m old src (b_open src - 1) Hx) as (W1 & W2 & W3 & W4 & W5 & W6 & W7 & W8). set (m' := set_buf m old (Buf (b_slots src) (b_open src - 1) (b_next src))) in *.
    assert (K : forall c', (forall i', c' <> CDec i') -> th_own (Some (o, PCopy old new c' k)) = None -> cmono m' (len l) old c' -> step_ok ch d p ths l t o (Next m' (PCopy old new c' k))).
    { intros c' Nd No Hc. exists ch, d. split; [left; auto |]. apply (step_frame m ths ch d l _ ch d l t o p (Some (o, PCopy old new c' k)) G Ht).
      - apply (minv_same m _ ch d l I); auto. intros b Hb. rewrite W4. destruct (b =? old); [lia | exact (v_open _ _ _ _ I b Hb)].
      - reflexivity.
      - apply ext_same; assumption.
      - intros o' p' E. assert (o' = o /\ p' = PCopy old new c' k) as [-> ->] by (split; congruence). cbn [tmono]. split; [exact Ck |]. exists j. auto.
      - intros q E. congruence.
      - intros u p1 q N R1 Q _. pose proof (g_own _ _ _ _ _ G u p1 q R1 Q) as O. destruct q as [[[o1 n1] i1] x1]. destruct O as (O1 & O2 & O3 & v & O4 & O5). unfold owned. rewrite !W1. split; [exact O1 |]. split; [exact O2 |]. split; [exact O3 |]. exists v. auto.
      - intros nb E. discriminate E.
      - auto.
      - intros b. rewrite W4, W8, Ep. cbn [decs dec_at]. assert (X : match c' with CDec _ => if old =? b then 1 else 0 | _ => 0 end = 0) by (destruct c'; try reflexivity; exfalso; exact (Nd _ eq_refl)). rewrite X.
        rewrite (Z.eqb_sym old b). destruct (Z.eqb_spec b old) as [-> | _]; [rewrite Op |]; lia. }
    destruct (Z.eqb_spec (b_open src) 1) as [Eo | No].
    + apply K; [intros i'; discriminate | reflexivity |]. cbn [cmono]. intros i' v Hv. rewrite W1 in Hv. apply (none_open old Al) with (i := i') (v := v); [rewrite Op; lia | exact Hv].
    + apply K; [intros i'; discriminate | reflexivity |]. cbn [cmono]. rewrite W2. split; [apply Nxt; exact Cm | left; reflexivity].
  - (* CEnd *)
    assert (After : forall m' d', chg ch d p ch d' -> ginv m' ths ch d' l -> j + 1 <= d' -> step_ok ch d p ths l t o (match k with KAccess o' i => Next m' (PLoad o' i new) | KReserve n rs => Next m' (PRsv n rs) end)).
    { intros m' d' Hc G' Hd'. destruct k as [o' i | n rs]; cbn [cont_ok] in Ck.
      - destruct Ck as (-> & Ak & _). exists ch, d'. split; [exact Hc |]. apply (step_local m' ths ch d' l t o p _ G' Ht); rewrite ?Ep; auto. intros o' p' E. assert (o' = o /\ p' = PLoad o i new) as [-> ->] by (split; congruence). cbn [tmono].
        split; [reflexivity |]. split; [exact Ak |]. exists (j + 1). split; [exact Hj1 | left; exact Hd'].
      - destruct Ck as (-> & Gr). exists ch, d'. split; [exact Hc |]. apply (step_local m' ths ch d' l t o p _ G' Ht); rewrite ?Ep; auto. intros o' p' E. assert (o' = o /\ p' = PRsv n None) as [-> ->] by (split; congruence). cbn [tmono]. auto. }
    pose proof (v_data _ _ _ _ I) as Vd. destruct (cur_some m ch d l I j old Hj) as (cb & Hcb). rewrite Vd, Hcb. destruct (Z.eqb_spec cb old) as [-> | Nc].
    + assert (j = d) by exact (v_once _ _ _ _ I _ _ _ Hj Hcb). subst j. apply (After _ (d + 1)); [right; left; split; [reflexivity |]; split; [reflexivity |]; apply gz_some_inv in Hj1; lia | | lia].
      replace ths with (put ths t (Some (o, p))).
      2: { pose proof (gz_some_inv _ _ _ _ Ht) as Bt. apply gz_ext; [apply len_put; exact Bt |]. intros u _. rewrite gz_put by exact Bt. destruct (Z.eqb_spec u t) as [-> | N]; [symmetry; exact Ht | reflexivity]. }
      assert (X : ext m ch d (set_data m (Some new)) ch (d + 1)) by (constructor; auto; lia).
      apply (step_frame m ths ch d l _ ch (d + 1) l t o p (Some (o, p)) G Ht).
      * apply (minv_advance m ch d l I old new); assumption.
      * reflexivity.
      * exact X.
      * intros o' p' E. assert (o' = o /\ p' = p) as [-> ->] by (split; congruence). exact (ext_mono _ _ _ _ _ _ l (len l) o p X I T).
      * intros q E. cbn [th_own] in E. rewrite Ep in E. discriminate E.
      * intros u p1 q N R1 Q _. exfalso. pose proof (g_own _ _ _ _ _ G u p1 q R1 Q) as O. destruct q as [[[o1 n1] i1] x1]. destruct O as (O1 & _ & _ & v & O4 & O5). assert (o1 = old) by congruence. subst o1. apply O5. exact (Cm i1 v O4).
      * intros nb E. cbn [th_fresh] in E. rewrite Ep in E. discriminate E.
      * auto.
      * intros b. unfold opn, cnt, set_data. cbn [m_bufs decs]. lia.
    + apply (After m d); [left; auto | exact G |]. destruct (Z.eq_dec j d) as [-> | N]; [congruence | lia].
Qed.
End Cases.

Lemma thread_step_ok : forall m ths ch d l t o p yes, ginv m ths ch d l -> gz ths t = Some (Some (o, p)) -> step_ok ch d p ths l t o (thread_step m p yes).
Proof.
  intros m ths ch d l t o p yes G Ht. pose proof (g_mem _ _ _ _ _ G) as I. pose proof (g_mono _ _ _ _ _ G t o p Ht) as T. assert (R : run_at ths t p) by (exists o; exact Ht).
  destruct p as [o' | o' i | o' i b | o' i b cur | old new c k | n rs | n rs | nb n rs | nb old n rs | s | s | s b | b p' e x]; cbn [tmono] in T; try contradiction; cbn [thread_step].
  - destruct T as (-> & Ac). rewrite (v_size _ _ _ _ I). pose proof (bufidx_nonneg o (len l) Ac) as B0. destruct (Z.ltb_spec (bufidx (op_index o) (len l)) (len l)) as [B | B].
    + apply (local_next m ths ch d l t o (PSize o) G Ht); auto. cbn [tmono]. split; [reflexivity |]. split; [exact Ac |]. split; [reflexivity | lia].
    + apply (local_ret m ths ch d l t o (PSize o) G Ht); auto. pose proof (position_out m ch d l o I Ac B) as Po. destruct o; cbn [access] in Ac; try contradiction; cbn [legal op_index] in *; rewrite Po; auto.
  - destruct T as (-> & At). rewrite (v_data _ _ _ _ I). destruct (gz ch d) as [b|] eqn:E; [| exact Logic.I]. apply (local_next m ths ch d l t o (PData o i) G Ht); auto. cbn [tmono].
    split; [reflexivity |]. split; [exact At |]. exists d. split; [exact E | left; lia].
  - destruct T as (-> & T). apply (load_ok m ths ch d l t o _ G Ht). reflexivity.
  - destruct T as (-> & T). apply (swap_ok m ths ch d l t o _ G Ht). reflexivity.
  - apply (copy_ok m ths ch d l t o _ G Ht). reflexivity.
  - destruct T as (-> & Gr). destruct (data_cap m) as [c|] eqn:Ed; [| exact Logic.I].
    assert (C0 : 0 <= c). { unfold data_cap in Ed. destruct (m_data m) as [b|]; [| assert (c = 0) by congruence; lia]. destruct (gz (m_bufs m) b) as [x|]; [| discriminate Ed]. assert (c = cap x) by congruence. subst c. apply len_nonneg. }
    destruct (Z.gtb_spec n c) as [B | B].
    + apply (local_next m ths ch d l t o _ G Ht); auto. cbn [tmono]. split; [reflexivity |]. split; [exact Gr | lia].
    + apply (local_ret m ths ch d l t o _ G Ht); auto. destruct o; cbn [growing] in Gr; try contradiction. cbn [legal]. auto.
  - destruct T as (-> & Gr & Hn). destruct ((n <? MAX_ARRAY_SIZE) && yes) eqn:E.
    2: { apply (local_ret m ths ch d l t o _ G Ht); auto. destruct o; cbn [growing] in Gr; try contradiction. cbn [legal]. auto. }
    apply andb_true_iff in E. destruct E as (E & _). apply Z.ltb_lt in E. destruct (alloc_capacity_ok n ltac:(lia)) as (_ & Ca).
    destruct (minv_alloc m ch d l I n Ca) as (M1 & M2 & M3 & M4 & M5 & _). exists ch, d. split; [left; auto |]. apply (step_frame m ths ch d l _ ch d l t o (PNew n None) _ G Ht M1 eq_refl M2).
    + intros o' p' E'. assert (o' = o /\ p' = PGet (len (m_bufs m)) n None) as [-> ->] by (split; congruence). cbn [tmono]. auto.
    + intros q E'. discriminate E'.
    + intros u p1 q N R1 Q _. pose proof (g_own _ _ _ _ _ G u p1 q R1 Q) as O. destruct q as [[[o1 n1] i1] x1]. destruct O as (O1 & O2 & O3 & v & O4 & O5). split; [exact O1 |]. split; [exact O2 |].
      assert (Sl : forall b i' w, sl m b i' = Some w -> sl (Mem (m_bufs m ++ [new_buf n]) (m_data m) (m_size m)) b i' = Some w).
      { intros b i' w Hw. destruct (sl_range _ _ _ _ Hw) as (Al & _). unfold alive in Al. unfold sl in *. cbn [m_bufs]. rewrite gz_app. rewrite (proj2 (Z.ltb_lt b (len (m_bufs m)))) by lia. exact Hw. }
      split; [apply Sl; exact O3 |]. exists v. split; [apply Sl; exact O4 | exact O5].
    + intros nb E'. cbn [th_fresh fresh] in E'. assert (nb = len (m_bufs m)) by congruence. subst nb. split; [exact M3 |]. split; [exact M4 |]. right. unfold alive. lia.
    + auto.
    + intros b. cbn [decs dec_at]. specialize (M5 b). lia.
  - destruct T as (-> & Gr). apply (local_next m ths ch d l t o _ G Ht); auto. cbn [tmono]. split; [reflexivity |]. split; [exact Gr |]. rewrite (v_data _ _ _ _ I). destruct (gz ch d) as [b|] eqn:E; [exists d; split; [exact E | lia] | exact Logic.I].
  - destruct T as (-> & Gr & Hold). destruct (g_fresh _ _ _ _ _ G t _ nb R eq_refl) as (Al & Hf).
    destruct old as [old|].
    + unfold on_buf. destruct (gz (m_bufs m) old) as [x|] eqn:Hx; [| exact Logic.I]. destruct Hold as (k & Hk & Kd). destruct (v_chain _ _ _ _ I k old Hk) as (Ao & Nx). assert (Nx' : b_next x = gz ch (k + 1)) by (unfold nx in Nx; rewrite Hx in Nx; exact Nx).
      destruct (b_next x) as [b|] eqn:Eb.
      * apply (local_next m ths ch d l t o _ G Ht); auto. cbn [tmono cont_ok]. split; [auto |]. exists k. cbn [cmono]. auto.
      * assert (k = d /\ len ch = d + 1) as [-> Lc].
        { pose proof (gz_some_inv _ _ _ _ Hk). pose proof (dlt m ch d l I k old Hk). assert (len ch <= k + 1) by (destruct (Z_le_dec (len ch) (k + 1)); [assumption |]; destruct (gz_some _ ch (k + 1)) as (z & Hz); [lia | congruence]). lia. }
        destruct (link_write m old x (Some nb) Hx) as (W1 & W2 & W3 & W4 & W5 & W6 & W7 & W8). set (m' := set_buf m old (Buf (b_slots x) (b_open x) (Some nb))) in *.
        assert (Gk : forall j b, gz ch j = Some b -> gz (ch ++ [nb]) j = Some b) by (intros j b H; pose proof (gz_some_inv _ _ _ _ H); rewrite gz_app; rewrite (proj2 (Z.ltb_lt j (len ch))) by lia; exact H).
        assert (Gn : gz (ch ++ [nb]) (d + 1) = Some nb) by (rewrite gz_app, Lc, Z.ltb_irrefl, Z.sub_diag; reflexivity).
        exists (ch ++ [nb]), d. split; [right; right; exists nb, (Some old), n, None; repeat split; lia |]. apply (step_frame m ths ch d l m' (ch ++ [nb]) d l t o _ _ G Ht).
        { apply (minv_link m ch d l I old x nb); assumption. }
        { reflexivity. }
        { constructor; [exact Gk | lia | intros b _; apply W2 | intros b; unfold alive; lia |]. intros b i. rewrite W1. auto. }
        { intros o' p' E. assert (o' = o /\ p' = PCopy old nb CStart (KReserve n None)) as [-> ->] by (split; congruence). cbn [tmono cont_ok cmono]. split; [auto |]. exists d. split; [apply Gk; exact Hk |]. split; [exact Gn |]. split; [lia | exact Logic.I]. }
        { intros q E. discriminate E. }
        { intros u p1 q N R1 Q _. pose proof (g_own _ _ _ _ _ G u p1 q R1 Q) as O. destruct q as [[[o1 n1] i1] x1]. destruct O as (O1 & O2 & _). exfalso. apply gz_some_inv in O2. lia. }
        { intros b E. discriminate E. }
        { intros b Ab Fb Nf j. cbn [fresh] in Nf. rewrite gz_app. destruct (j <? len ch); [apply Fb |]. intros H. pose proof (gz_some_inv _ _ _ _ H) as B. rewrite len_cons, len_nil in B. assert (E0 : j - len ch = 0) by lia. rewrite E0 in H. apply Nf. exact H. }
        { intros b. rewrite W4, W8. cbn [decs dec_at]. lia. }
    + destruct (m_data m) as [b|] eqn:Ed; [apply (local_next m ths ch d l t o _ G Ht); auto; cbn [tmono]; auto |].
      destruct (minv_first m ch d l I nb Ed Al Hf) as (Ec & M1). exists [nb], 0. assert (D0 : d = 0) by (destruct (v_d _ _ _ _ I) as (_ & _ & [X | (_ & X & _)]); [rewrite Ec, len_nil in X; pose proof (v_d _ _ _ _ I); lia | exact X]).
      split; [right; right; exists nb, None, n, None; rewrite Ec, len_nil; repeat split; lia |].
      apply (step_frame m ths ch d l _ [nb] 0 l t o _ _ G Ht M1 eq_refl).
      * constructor; auto; [| lia]. intros k b H. rewrite Ec in H. apply gz_some_inv in H. rewrite len_nil in H. lia.
      * intros o' p' E. assert (o' = o /\ p' = PRsv n None) as [-> ->] by (split; congruence). cbn [tmono]. auto.
      * intros q E. discriminate E.
      * intros u p1 q N R1 Q _. pose proof (g_own _ _ _ _ _ G u p1 q R1 Q) as O. destruct q as [[[o1 n1] i1] x1]. destruct O as (O1 & _). exfalso. rewrite Ec in O1. apply gz_some_inv in O1. rewrite len_nil in O1. lia.
      * intros b E. discriminate E.
      * intros b Ab Fb Nf j H. cbn [fresh] in Nf. pose proof (gz_some_inv _ _ _ _ H) as B. rewrite len_cons, len_nil in B. assert (E0 : j = 0) by lia. subst j. apply Nf. exact H.
      * intros b. unfold opn, cnt, set_data. cbn [m_bufs decs dec_at]. lia.
Qed.
