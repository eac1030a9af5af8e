(* Shared objects: steps of salvage_item. *)
From Coq Require Import ZArith List Lia Bool ZifyBool.
Import ListNotations.
From Verif Require Import Base ListZ ObjConcSpec ObjConcModel ObjConcProofs ObjConcProofs2 ObjConcProofs3 ObjConcProofs4.
From Verif Require ArrayConcProofs.
Local Open Scope Z_scope.
Ltac Zify.zify_post_hook ::= idtac.

Lemma keyb_eq : forall a b, keyb a b = true -> a = b.
Proof. intros a b H. unfold keyb in H. destruct (list_eq_dec Z.eq_dec a b); [assumption | discriminate H]. Qed.
Lemma equal_key : forall a h b g, is_key_equal a h b g = true -> a = b.
Proof. intros a h b g H. unfold is_key_equal in H. destruct (_ && _); [discriminate H | apply keyb_eq; exact H]. Qed.

Section Steps.
Variable W : key -> Z -> Prop.
Variable hash_of : key -> Z.
Notation minv := (minv W).
Notation ginv := (ginv W).
Notation tfact := (tfact W).
Notation stepped := (stepped W).

Ltac ifn := intros ?b; cbn [dec_at]; destruct (_ =? _); reflexivity.

Lemma salvage_ok : forall m ths D P t o n nt s k, len ths <= 1000000000 -> ginv m ths D P -> gz ths t = Some (Some (o, PCopy n nt (CItem s) k)) ->
  stepped ths t o (salvage_step m o n nt s k).
Proof.
  intros m ths D P t o n nt s k Hlen G Ht. pose proof (g_mem _ _ _ _ _ G) as I. destruct (g_mono _ _ _ _ _ G t o _ Ht) as (_ & U & N & F). cbn [cfact] in F. pose proof (a_next _ _ _ _ I n nt N) as Al.
  pose proof (fun q E => g_done _ _ _ _ _ G t _ q (ex_intro _ o Ht) E) as Nd.
  pose proof (self_copies W m ths D P t o _ n G Ht) as Sc. cbn [cop_at] in Sc. rewrite Z.eqb_refl in Sc. pose proof (self_open W m ths D P t o _ n G Ht) as So. pose proof (open_le W m ths D P n G) as Ol.
  unfold salvage_step. cbv zeta. apply with_tab; [exact (proj1 U) |]. intros ot Hot. apply with_tab; [exact Al |]. intros tn Htn.
  assert (Nn : nw m n <> None) by (rewrite N; discriminate).
  assert (Cot : cp m n = cap ot) by (unfold cp; rewrite Hot; reflexivity). assert (Ctn : cp m nt = cap tn) by (unfold cp; rewrite Htn; reflexivity).
  pose proof (a_cap _ _ _ _ I n (proj1 U)) as Pn. pose proof (a_cap _ _ _ _ I nt Al) as Pt.
  assert (Lo : forall x, 0 <= Z.land x (cap ot - 1) < cp m n) by (intros x; rewrite Cot in *; apply pow2_land; exact Pn).
  assert (Lt : forall x, 0 <= Z.land x (cap tn - 1) < cp m nt) by (intros x; rewrite Ctn in *; apply pow2_land; exact Pt).
  assert (Fc : forall m' s', ext m D P m' D P -> vfact W m' n nt s' -> tfact m' D P o (PCopy n nt (CItem s') k)).
  { intros m' s' X V. split; [exact (e_usable _ _ _ _ _ _ X n U) |]. split; [exact (e_nw _ _ _ _ _ _ X _ _ N) | exact V]. }
  assert (Fl : forall s', vfact W m n nt s' -> tfact m D P o (PCopy n nt (CItem s') k)) by (intros s' V; split; [exact U |]; split; [exact N | exact V]).
  destruct s as [i|i|i|i key|i key hash j|i hash j|i j|i key hash j|i key hash j dk|i j|i j|i j v ret|i|i]; cbn [vfact] in F.
  - (* VClose *)
    apply (with_item _ m n); [exact Hot | exact F |]. intros it H1 H2. pose proof (iv_itm _ _ _ _ H1) as Hv.
    assert (Ot : i_val it <> Tomb -> stepped ths t o (Next m (PCopy n nt (CItem (VRead i)) k))).
    { intros Nt. apply (step_local W m ths D P t o (PCopy n nt (CItem (VClose i)) k)); [exact G | exact Ht | | intros b E; discriminate E | intros a b E; discriminate E | reflexivity | reflexivity | reflexivity].
      apply Fl. cbn [vfact]. destruct (ik m n i) as [k0|] eqn:Ek; [left; discriminate | right]. destruct (a_key _ _ _ _ I n i _ Hv Ek) as [E | E]; [contradiction | congruence]. }
    destruct (i_val it) eqn:Ev; [| apply Ot; discriminate | apply Ot; discriminate | apply Ot; discriminate].
    exists D, P. unfold set_val. apply (step_item W m ths D P n ot i it (PItem (i_key it) (i_hash it) Closed) t o (PCopy n nt (CItem (VClose i)) k)); [exact G | exact Ht | assumption | exact H2 | | | | | | | | | | | |]; cbn [i_val i_key].
    + intros _. right. reflexivity.
    + intros _. right. split; [exact Nn | lia].
    + intros v E. discriminate E.
    + intros _. reflexivity.
    + intros k0 E. exact E.
    + intros X _ _. apply Fc; [exact X |]. cbn [vfact]. rewrite (e_cp _ _ _ _ _ _ X n (proj1 U)). exact F.
    + intros b E. discriminate E.
    + intros E. discriminate E.
    + intros a b E. discriminate E.
    + reflexivity.
    + intros b. cbn [dec_at]. unfold is_open. rewrite Ev. cbn [i_val]. rewrite (Z.eqb_sym n b). destruct (b =? n); reflexivity.
    + reflexivity.
  - (* VRead *)
    assert (Bi : 0 <= i < cp m n) by (destruct F as [F | F]; [destruct (ik m n i) as [k0|] eqn:Ek; [exact (proj2 (ik_range _ _ _ _ Ek)) | contradiction] | exact (proj2 (iv_range _ _ _ _ F))]).
    apply (with_item _ m n); [exact Hot | exact Bi |]. intros it H1 H2. pose proof (iv_itm _ _ _ _ H1) as Hv.
    assert (Ot : i_val it <> Closed -> stepped ths t o (Next m (PCopy n nt (CItem (VKey i)) k))).
    { intros Nt. apply (step_local W m ths D P t o (PCopy n nt (CItem (VRead i)) k)); [exact G | exact Ht | | | intros a b E; discriminate E | reflexivity | reflexivity | reflexivity].
      - apply Fl. cbn [vfact]. destruct F as [F | F]; [exact F | congruence].
      - intros b E Db. assert (b = n) by (cbn [mid] in E; congruence). subst b. apply Nt. exact (a_done _ _ _ _ I n Db i _ Hv). }
    destruct (i_val it) eqn:Ev; try (apply Ot; discriminate).
    apply (step_local W m ths D P t o (PCopy n nt (CItem (VRead i)) k)); [exact G | exact Ht | apply Fl; exact Bi | intros b E; discriminate E | intros a b E; discriminate E | reflexivity | reflexivity | reflexivity].
  - (* VKey *)
    destruct (ik m n i) as [k0|] eqn:Ek; [| contradiction]. apply (with_item _ m n); [exact Hot | exact (proj2 (ik_range _ _ _ _ Ek)) |]. intros it H1 H2. rewrite (ik_itm _ _ _ _ H1) in Ek. rewrite Ek.
    apply (step_local W m ths D P t o (PCopy n nt (CItem (VKey i)) k)); [exact G | exact Ht | | exact Nd | intros a b E; discriminate E | reflexivity | reflexivity | reflexivity]. apply Fl. cbn [vfact]. rewrite (ik_itm _ _ _ _ H1). exact Ek.
  - (* VHash *)
    apply (with_item _ m n); [exact Hot | exact (proj2 (ik_range _ _ _ _ F)) |]. intros it H1 H2.
    apply (step_local W m ths D P t o (PCopy n nt (CItem (VHash i key)) k)); [exact G | exact Ht | | exact Nd | intros a b E; discriminate E | reflexivity | reflexivity | reflexivity]. apply Fl. split; [exact F | apply Lt].
  - (* VClaim *)
    destruct F as (F1 & F2). apply (with_item _ m nt); [exact Htn | exact F2 |]. intros it H1 H2. pose proof (iv_itm _ _ _ _ H1) as Hv. pose proof (ik_itm _ _ _ _ H1) as Hk. destruct (i_key it) as [ek|] eqn:Ek.
    + apply (step_local W m ths D P t o (PCopy n nt (CItem (VClaim i key hash j)) k)); [exact G | exact Ht | | exact Nd | intros a b E; discriminate E | reflexivity | reflexivity | reflexivity]. apply Fl. split; [exact F1 | rewrite Hk; discriminate].
    + pose proof (a_key _ _ _ _ I nt j _ Hv Hk) as Tv. exists D, P. apply (step_item W m ths D P nt tn j it (PItem (Some key) (i_hash it) (i_val it)) t o (PCopy n nt (CItem (VClaim i key hash j)) k)); [exact G | exact Ht | assumption | exact H2 | | | | | | | | | | | |]; cbn [i_val i_key].
      * intros E. discriminate E.
      * intros E. left. exact E.
      * intros v E. exfalso. destruct Tv; congruence.
      * intros E. exact E.
      * intros k0 E. congruence.
      * intros X _ Hk'. apply Fc; [exact X |]. exists key. split; [exact (e_ik _ _ _ _ _ _ X _ _ _ F1) | exact Hk'].
      * exact Nd.
      * intros E. exfalso. destruct Tv; congruence.
      * intros a b E. discriminate E.
      * reflexivity.
      * intros b. unfold is_open. cbn [i_val]. destruct (b =? nt); cbn [dec_at]; lia.
      * reflexivity.
  - (* VSetHash *)
    destruct F as (k0 & F1 & F2). apply (with_item _ m nt); [exact Htn | exact (proj2 (ik_range _ _ _ _ F2)) |]. intros it H1 H2. pose proof (iv_itm _ _ _ _ H1) as Hv. pose proof (ik_itm _ _ _ _ H1) as Hk.
    exists D, P. apply (step_item W m ths D P nt tn j it (PItem (i_key it) hash (i_val it)) t o (PCopy n nt (CItem (VSetHash i hash j)) k)); [exact G | exact Ht | assumption | exact H2 | | | | | | | | | | | |]; cbn [i_val i_key].
    + intros E. congruence.
    + intros E. left. exact E.
    + intros v E. destruct (a_val _ _ _ _ I nt j v ltac:(congruence)) as (k1 & K1 & K2). exists k1. split; [congruence | exact K2].
    + intros E. exact E.
    + intros k1 E. exact E.
    + intros X _ _. apply Fc; [exact X |]. exists k0. split; apply (e_ik _ _ _ _ _ _ X); assumption.
    + exact Nd.
    + intros E. right. split; [exact E | discriminate].
    + intros a b E. discriminate E.
    + reflexivity.
    + intros b. unfold is_open. cbn [i_val]. destruct (b =? nt); cbn [dec_at]; lia.
    + reflexivity.
  - (* VUsed *)
    destruct F as (k0 & F1 & F2). apply (used_ok W m ths D P t o (PCopy n nt (CItem (VUsed i j)) k)); auto. intros m' X. apply Fc; [exact X |]. exists k0. split; apply (e_ik _ _ _ _ _ _ X); assumption.
  - (* VDest *)
    destruct F as (F1 & F2). destruct (ik m nt j) as [dk|] eqn:Ek; [| contradiction]. apply (with_item _ m nt); [exact Htn | exact (proj2 (ik_range _ _ _ _ Ek)) |]. intros it H1 H2. rewrite (ik_itm _ _ _ _ H1) in Ek. rewrite Ek.
    apply (step_local W m ths D P t o (PCopy n nt (CItem (VDest i key hash j)) k)); [exact G | exact Ht | | exact Nd | intros a b E; discriminate E | reflexivity | reflexivity | reflexivity]. apply Fl. split; [exact F1 | rewrite (ik_itm _ _ _ _ H1); exact Ek].
  - (* VSame *)
    destruct F as (F1 & F2). apply (with_item _ m nt); [exact Htn | exact (proj2 (ik_range _ _ _ _ F2)) |]. intros it H1 H2. destruct (is_key_equal key hash dk (i_hash it)) eqn:Eq.
    + apply equal_key in Eq. subst dk. apply (step_local W m ths D P t o (PCopy n nt (CItem (VSame i key hash j key)) k)); [exact G | exact Ht | | exact Nd | intros a b E; discriminate E | reflexivity | reflexivity | reflexivity]. apply Fl. exists key. split; assumption.
    + apply (step_local W m ths D P t o (PCopy n nt (CItem (VSame i key hash j dk)) k)); [exact G | exact Ht | | exact Nd | intros a b E; discriminate E | reflexivity | reflexivity | reflexivity]. apply Fl. split; [exact F1 | apply Lt].
  - (* VRsv *)
    destruct F as (k0 & F1 & F2). apply (with_item _ m nt); [exact Htn | exact (proj2 (ik_range _ _ _ _ F2)) |]. intros it H1 H2. pose proof (iv_itm _ _ _ _ H1) as Hv. pose proof (ik_itm _ _ _ _ H1) as Hk. pose proof (proj2 (ik_range _ _ _ _ F1)) as Bi.
    assert (Ot : stepped ths t o (Next m (PCopy n nt (CItem (VFail i)) k))).
    { apply (step_local W m ths D P t o (PCopy n nt (CItem (VRsv i j)) k)); [exact G | exact Ht | apply Fl; exact Bi | intros b E; discriminate E | intros a b E; discriminate E | reflexivity | reflexivity | reflexivity]. }
    destruct (i_val it) eqn:Ev; try exact Ot. exists D, P. unfold set_val. apply (step_item W m ths D P nt tn j it (PItem (i_key it) (i_hash it) Rsvd) t o (PCopy n nt (CItem (VRsv i j)) k)); [exact G | exact Ht | assumption | exact H2 | | | | | | | | | | | |]; cbn [i_val i_key].
    + intros E. congruence.
    + intros E. discriminate E.
    + intros v E. discriminate E.
    + intros E. congruence.
    + intros k1 E. exact E.
    + intros X _ _. apply Fc; [exact X |]. exists k0. split; apply (e_ik _ _ _ _ _ _ X); assumption.
    + exact Nd.
    + intros _. left. reflexivity.
    + intros a b E. discriminate E.
    + reflexivity.
    + intros b. unfold is_open. rewrite Ev. cbn [i_val]. destruct (b =? nt); cbn [dec_at]; lia.
    + reflexivity.
  - (* VSwap *)
    destruct F as (k0 & F1 & F2). apply (with_item _ m n); [exact Hot | exact (proj2 (ik_range _ _ _ _ F1)) |]. intros it H1 H2. pose proof (iv_itm _ _ _ _ H1) as Hv. pose proof (ik_itm _ _ _ _ H1) as Hk. pose proof (proj2 (ik_range _ _ _ _ F1)) as Bi.
    pose proof (no_rsvd W m ths D P n i G U) as Nr.
    assert (Q : forall v ret, good_val W k0 v -> (i_val it = Closed <-> ret = false) -> stepped ths t o (Next (set_val m n ot i it Closed) (PCopy n nt (CItem (VStore i j v ret)) k))).
    { intros v ret Gv Hr. exists D, P. unfold set_val. apply (step_item W m ths D P n ot i it (PItem (i_key it) (i_hash it) Closed) t o (PCopy n nt (CItem (VSwap i j)) k)); [exact G | exact Ht | assumption | exact H2 | | | | | | | | | | | |]; cbn [i_val i_key].
      - intros _. right. reflexivity.
      - intros _. right. split; [exact Nn | lia].
      - intros w E. discriminate E.
      - intros _. reflexivity.
      - intros k1 E. exact E.
      - intros X _ _. apply Fc; [exact X |]. exists k0. split; [exact (e_ik _ _ _ _ _ _ X _ _ _ F1) |]. split; [exact (e_ik _ _ _ _ _ _ X _ _ _ F2) | exact Gv].
      - exact Nd.
      - intros E. discriminate E.
      - intros a b E. left. exact E.
      - reflexivity.
      - intros b. unfold is_open. cbn [i_val dec_at]. rewrite (Z.eqb_sym n b). destruct ret.
        + assert (i_val it <> Closed) by (intros E; apply Hr in E; discriminate E). destruct (i_val it); try contradiction; destruct (b =? n); reflexivity.
        + rewrite (proj2 Hr eq_refl). destruct (b =? n); reflexivity.
      - reflexivity. }
    destruct (i_val it) as [| | |x] eqn:Ev.
    + apply Q; [left; reflexivity | split; discriminate].
    + apply Q; [left; reflexivity | split; reflexivity].
    + congruence.
    + apply Q; [| split; discriminate]. right. exists x. split; [reflexivity |]. destruct (a_val _ _ _ _ I n i x Hv) as (k1 & K1 & K2). assert (k1 = k0) by congruence. subst k1. exact K2.
  - (* VStore *)
    destruct F as (k0 & F1 & F2 & F3). apply (with_item _ m nt); [exact Htn | exact (proj2 (ik_range _ _ _ _ F2)) |]. intros it H1 H2. pose proof (iv_itm _ _ _ _ H1) as Hv. pose proof (ik_itm _ _ _ _ H1) as Hk. pose proof (proj2 (ik_range _ _ _ _ F1)) as Bi.
    assert (Dc : forall b, dec_at b (PCopy n nt (CItem (if ret then VDec i else VFail i)) k) = dec_at b (PCopy n nt (CItem (VStore i j v ret)) k)) by (intros b; destruct ret; reflexivity).
    assert (Vf : forall m', cp m' n = cp m n -> vfact W m' n nt (if ret then VDec i else VFail i)) by (intros m' E; destruct ret; cbn [vfact]; rewrite E; exact Bi).
    assert (Ot : i_val it <> Rsvd -> stepped ths t o (Next m (PCopy n nt (CItem (if ret then VDec i else VFail i)) k))).
    { intros Nt. apply (step_local W m ths D P t o (PCopy n nt (CItem (VStore i j v ret)) k)); [exact G | exact Ht | apply Fl; apply Vf; reflexivity | intros b E; destruct ret; discriminate E | intros a b E Q; exfalso; cbn [hold] in E; congruence | destruct ret; reflexivity | exact Dc | reflexivity]. }
    destruct (i_val it) eqn:Ev; try (apply Ot; discriminate). exists D, P. unfold set_val.
    apply (step_item W m ths D P nt tn j it (PItem (i_key it) (i_hash it) v) t o (PCopy n nt (CItem (VStore i j v ret)) k)); [exact G | exact Ht | assumption | exact H2 | | | | | | | | | | | |]; cbn [i_val i_key].
    + intros E. congruence.
    + intros E. destruct F3 as [F3 | (x & F3 & _)]; congruence.
    + intros x E. exists k0. split; [congruence |]. destruct F3 as [F3 | (y & F3 & F4)]; [congruence |]. assert (x = y) by congruence. subst y. exact F4.
    + intros E. congruence.
    + intros k1 E. exact E.
    + intros X _ _. apply Fc; [exact X |]. apply Vf. exact (e_cp _ _ _ _ _ _ X n (proj1 U)).
    + intros b E. destruct ret; discriminate E.
    + intros E. destruct F3 as [F3 | (x & F3 & _)]; congruence.
    + intros a b E. cbn [hold] in E. right. split; congruence.
    + destruct ret; reflexivity.
    + intros b. rewrite Dc. unfold is_open. rewrite Ev. cbn [i_val]. destruct F3 as [-> | (x & -> & _)]; destruct (b =? nt); lia.
    + reflexivity.
  - (* VDec *)
    cbn [dec_at] in So. rewrite Z.eqb_refl in So. assert (Eo : opn m n = t_open ot) by (unfold opn; rewrite Hot; reflexivity). pose proof (cnt_nonneg m n) as Cn. pose proof (pow2_bound _ Pn) as Pb.
    assert (Eu : u32 (t_open ot - 1) = opn m n - 1) by (rewrite Eo in *; unfold u32, uwrap; rewrite Z.mod_small; [lia |]; change (2 ^ 32) with 4294967296; lia). rewrite Eu.
    destruct (set_counts_ok m n ot (t_used ot) (opn m n - 1) (t_copies ot) (t_new ot) Hot) as (X & Nw & Op & Cs & Pr & _). set (m' := set_table m n (Table (t_used ot) (opn m n - 1) (t_copies ot) (t_new ot) (t_items ot))) in *.
    assert (Nw' : forall b, nw m' b = nw m b) by (intros b; rewrite Nw; destruct (Z.eqb_spec b n) as [-> |]; [unfold nw; rewrite Hot; reflexivity | reflexivity]).
    assert (Cs' : forall b, cps m' b = cps m b) by (intros b; rewrite Cs; destruct (Z.eqb_spec b n) as [-> |]; [unfold cps; rewrite Hot; reflexivity | reflexivity]).
    assert (Xe : ext m D P m' D P) by (apply ext_same; auto).
    assert (Q : forall c, cfact W m' D n nt c -> (forall b, cop_at b (PCopy n nt c k) = if n =? b then 1 else 0) -> (forall b, dec_at b (PCopy n nt c k) = 0) -> mid (PCopy n nt c k) = None -> stepped ths t o (Next m' (PCopy n nt c k))).
    { intros c Fc' Cc Dc Mc. exists D, P. apply (step_same W m ths D P m' D t o (PCopy n nt (CItem (VDec i)) k) (Some (o, PCopy n nt c k)) G Ht X Nw' Pr); cbn [th_of]; auto.
      - intros o' q E. assert (o' = o /\ q = PCopy n nt c k) as [-> ->] by (split; congruence). split; [reflexivity |]. split; [exact (e_usable _ _ _ _ _ _ Xe n U) |]. split; [rewrite Nw'; exact N | exact Fc'].
      - congruence.
      - intros a b E. discriminate E.
      - intros b. rewrite Dc, Op. cbn [dec_at]. rewrite (Z.eqb_sym n b). destruct (Z.eqb_spec b n) as [-> |]; lia.
      - intros b. rewrite Cs', Cc. reflexivity. }
    destruct (Z.eqb_spec (t_open ot) 1) as [E1 | N1].
    + apply Q; [| reflexivity | reflexivity | reflexivity]. cbn [cfact]. apply (ext_all _ _ _ _ _ _ n Xe (proj1 U)). intros a v Hv. apply (cnt_none m n ltac:(lia) a v Hv).
    + apply Q; [| reflexivity | reflexivity | reflexivity]. cbn [cfact vfact]. rewrite (e_cp _ _ _ _ _ _ Xe n (proj1 U)). apply Lo.
  - (* VFail *)
    assert (Eo : opn m n = t_open ot) by (unfold opn; rewrite Hot; reflexivity). pose proof (cnt_nonneg m n) as Cn. cbn [dec_at] in So. destruct (Z.eqb_spec (t_open ot) 0) as [E0 | N0].
    + apply (step_local W m ths D P t o (PCopy n nt (CItem (VFail i)) k)); [exact G | exact Ht | | intros b E; discriminate E | intros a b E; discriminate E | reflexivity | reflexivity | reflexivity].
      split; [exact U |]. split; [exact N |]. intros a v Hv. apply (cnt_none m n ltac:(lia) a v Hv).
    + apply (step_local W m ths D P t o (PCopy n nt (CItem (VFail i)) k)); [exact G | exact Ht | apply Fl; cbn [vfact]; apply Lo | intros b E; discriminate E | intros a b E; discriminate E | reflexivity | reflexivity | reflexivity].
Qed.

Lemma copy_ok : forall m ths D P t o n nt c k, len ths <= 1000000000 -> ginv m ths D P -> gz ths t = Some (Some (o, PCopy n nt c k)) ->
  stepped ths t o (copy_step hash_of m o n nt c k).
Proof.
  intros m ths D P t o n nt c k Hlen G Ht. pose proof (g_mem _ _ _ _ _ G) as I. destruct (g_mono _ _ _ _ _ G t o _ Ht) as (_ & U & N & F).
  unfold copy_step. cbv zeta. apply with_tab; [exact (proj1 U) |]. intros ot Hot. destruct c as [|i|s| | |].
  - apply (step_plain W m ths D P t o (PCopy n nt CStart k)); [exact G | exact Ht | | | reflexivity |]; try (split; [reflexivity |]; split; [reflexivity |]; split; intros b; reflexivity).
    split; [exact U |]. split; [exact N |]. exact (slot_range W m D P n ot _ I Hot).
  - apply (inc_ok W m ths D P); assumption.
  - apply (salvage_ok m ths D P); assumption.
  - apply (out_ok W m ths D P); assumption.
  - destruct (Z.eqb_spec (t_copies ot) 0) as [E | E].
    + apply (wait_ok W m ths D P); [exact G | exact Ht |]. unfold cps. rewrite Hot. exact E.
    + apply (step_plain W m ths D P t o (PCopy n nt CWait k)); [exact G | exact Ht | | | reflexivity |]; try (split; [reflexivity |]; split; [reflexivity |]; split; intros b; reflexivity).
      split; [exact U |]. split; [exact N | exact F].
  - apply (props_ok W hash_of m ths D P t o n nt k G Ht).
Qed.
End Steps.
