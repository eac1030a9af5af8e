(* Shared objects: every step preserves the invariant. *)
From Coq Require Import ZArith List Lia Bool ZifyBool.
Import ListNotations.
From Verif Require Import Base ListZ ObjConcSpec ObjConcModel ObjConcProofs ObjConcProofs2 ObjConcProofs3.
From Verif Require ArrayConcProofs.
Local Open Scope Z_scope.
Ltac Zify.zify_post_hook ::= idtac.

Section Steps.
Variable W : key -> Z -> Prop.
Variable hash_of : key -> Z.
Notation minv := (minv W).
Notation ginv := (ginv W).
Notation tfact := (tfact W).
Notation stepped := (stepped W).

Definition plain (p : pc) : Prop := mid p = None /\ hold p = None /\ (forall b, dec_at b p = 0) /\ (forall b, cop_at b p = 0).
Lemma step_plain : forall m ths D P t o p p', ginv m ths D P -> gz ths t = Some (Some (o, p)) -> plain p -> plain p' -> fresh p' = None -> tfact m D P o p' -> stepped ths t o (Next m p').
Proof.
  intros m ths D P t o p p' G Ht (A1 & A2 & A3 & A4) (B1 & B2 & B3 & B4) Hf F. apply (step_local W m ths D P t o p p' G Ht F); auto; intros; congruence.
Qed.
Ltac pl := split; [reflexivity |]; split; [reflexivity |]; split; intros ?b; reflexivity.

(* a new table *)
Lemma step_alloc : forall m ths D P t o p p' c, ginv m ths D P -> gz ths t = Some (Some (o, p)) -> plain p -> plain p' -> pow2 c ->
  let n := len (m_tables m) in let m' := Mem (m_tables m ++ [new_table c]) (m_props m) in
  fresh p' = Some n -> (ext m D P m' D P -> tfact m' D P o p') -> stepped ths t o (Next m' p').
Proof.
  intros m ths D P t o p p' c G Ht (A1 & A2 & A3 & A4) (B1 & B2 & B3 & B4) Pc n m' Hf Ht'.
  destruct (minv_alloc W m D P c (g_mem _ _ _ _ _ G) Pc (g_dal _ _ _ _ _ G)) as (M' & Tb & Al & Dead & It & Nw & Oc & Cs & Tm). fold n m' in M', Tb, Al, Dead, It, Nw, Oc, Cs, Tm.
  assert (Na : forall b, alive m b -> alive m' b) by (intros b (tt & Hb); exists tt; rewrite Tb by (exists tt; exact Hb); exact Hb).
  assert (Nn : forall b j v, iv m b j = Some v -> b <> n) by (intros b j v Q ->; apply Dead; exact (proj1 (iv_range _ _ _ _ Q))).
  assert (X : ext m D P m' D P).
  { constructor.
    - exact Na.
    - intros b Hb. unfold cp. rewrite Tb by exact Hb. reflexivity.
    - intros b j k Q. unfold ik in *. destruct (ik_iv _ _ _ _ Q) as (v & Hv). rewrite It by exact (Nn _ _ _ Hv). exact Q.
    - intros b j Q. unfold iv in *. rewrite It by exact (Nn _ _ _ Q). exact Q.
    - intros b x. rewrite Nw. auto.
    - auto.
    - intros b (U1 & U2 & U3 & U4). split; [auto |]. split; [exact U2 |]. split; [exact U3 |]. intros q Q. rewrite Nw in Q. auto.
    - auto. }
  exists D, P. apply (step_frame W m ths D P m' D P t o p (Some (o, p')) G Ht M' X); cbn [th_of].
  - intros b Q. apply Na. exact (g_dal _ _ _ _ _ G b Q).
  - intros o' q E. assert (o' = o /\ q = p') as [-> ->] by (split; congruence). auto.
  - congruence.
  - auto.
  - intros nt j Q. right. split; [| congruence]. destruct (Z.eq_dec nt n) as [-> | N]; [apply Tm in Q; discriminate Q |]. unfold iv in *. rewrite It in Q by exact N. exact Q.
  - intros nb Q. assert (nb = n) by congruence. subst nb. split; [exact Al |]. split; [| right; exact Dead]. intros Q1. apply Dead. exact (a_pubal _ _ _ _ (g_mem _ _ _ _ _ G) n Q1).
  - auto.
  - intros b. rewrite A3, B3. specialize (Oc b). lia.
  - intros b. rewrite A4, B4, Cs. reflexivity.
Qed.

(* the table of the object changes *)
Lemma step_props : forall m ths D P t o p th q, ginv m ths D P -> gz ths t = Some (Some (o, p)) -> plain p ->
  let m' := Mem (m_tables m) (Some q) in alive m q -> (forall b, nw m b = Some q -> D b) -> (P q \/ fresh p = Some q) ->
  th_of None mid th = None -> th_of None hold th = None -> th_of None fresh th = None -> (forall b, th_of 0 (dec_at b) th = 0) -> (forall b, th_of 0 (cop_at b) th = 0) ->
  (forall o' p', th = Some (o', p') -> o' = o /\ tfact m' D (fun b => P b \/ b = q) o' p') -> ginv m' (put ths t th) D (fun b => P b \/ b = q).
Proof.
  intros m ths D P t o p th q G Ht (A1 & A2 & A3 & A4) m' Al Pd Pq B1 B2 Bf B3 B4 F.
  apply (step_frame W m ths D P m' D (fun b => P b \/ b = q) t o p th G Ht).
  - apply minv_props; [exact (g_mem _ _ _ _ _ G) | exact Al | exact Pd].
  - constructor; auto. { discriminate. } intros b (U1 & U2 & U3 & U4). split; [exact U1 |]. split; [discriminate |]. split; [left; exact U3 | exact U4].
  - intros n Q. exact (g_dal _ _ _ _ _ G n Q).
  - exact F.
  - congruence.
  - auto.
  - intros nt j Q. right. split; [exact Q | congruence].
  - congruence.
  - intros nb [Q | ->]; [left; exact Q | exact Pq].
  - intros b. rewrite A3, B3. reflexivity.
  - intros b. rewrite A4, B4. reflexivity.
Qed.

(* a fresh table is linked *)
Lemma step_link : forall m ths D P t o n nt k tn, ginv m ths D P -> gz ths t = Some (Some (o, RLink n nt k)) -> tb m n = Some tn -> t_new tn = None ->
  stepped ths t o (Next (set_table m n (Table (t_used tn) (t_open tn) (t_copies tn) (Some nt) (t_items tn))) (PCopy n nt CStart k)).
Proof.
  intros m ths D P t o n nt k tn G Ht Hn Hw. destruct (g_fresh _ _ _ _ _ G t (RLink n nt k) nt (ex_intro _ o Ht) eq_refl) as (Al & Np). pose proof (g_mem _ _ _ _ _ G) as I.
  destruct (g_mono _ _ _ _ _ G t o _ Ht) as (_ & U & _). cbn [ObjConcProofs2.tfact] in U.
  assert (Nw0 : forall p, nw m p <> Some nt) by (intros p Q; apply Np; exact (a_pub _ _ _ _ I p nt Q)).
  assert (Npr : m_props m <> Some nt) by (intros Q; destruct (a_props _ _ _ _ I nt Q) as (_ & _ & A & _); contradiction).
  pose proof (minv_link W m D P n tn nt I Hn Hw Al Npr Nw0) as M'. cbv zeta in M'.
  destruct (set_counts_ok m n tn (t_used tn) (t_open tn) (t_copies tn) (Some nt) Hn) as (X & Nw & Op & Cs & Pr & _). set (m' := set_table m n (Table (t_used tn) (t_open tn) (t_copies tn) (Some nt) (t_items tn))) in *.
  set (P' := fun b => P b \/ b = nt) in *.
  assert (Us : forall b, usable m D P b -> usable m' D P' b).
  { intros b (U1 & U2 & U3 & U4). split; [apply (si_alive _ _ X); exact U1 |]. split; [rewrite Pr; exact U2 |]. split; [left; exact U3 |]. intros q Q. rewrite Nw in Q. destruct (q =? n); [exfalso; apply Np; congruence | auto]. }
  exists D, P'. apply (step_frame W m ths D P m' D P' t o (RLink n nt k) (Some (o, PCopy n nt CStart k)) G Ht M'); cbn [th_of mid hold fresh dec_at cop_at].
  - constructor.
    + intros b Hb. apply (si_alive _ _ X). exact Hb.
    + intros b _. apply (si_cp _ _ X).
    + intros b j k0. unfold ik. rewrite (si_itm _ _ X). auto.
    + intros b j. unfold iv. rewrite (si_itm _ _ X). auto.
    + intros b x Q. rewrite Nw. destruct (Z.eqb_spec b n) as [-> |]; [| exact Q]. unfold nw in Q. rewrite Hn in Q. congruence.
    + rewrite Pr. auto.
    + exact Us.
    + auto.
  - intros b Q. apply (si_alive _ _ X). exact (g_dal _ _ _ _ _ G b Q).
  - intros o' q E. assert (o' = o /\ q = PCopy n nt CStart k) as [-> ->] by (split; congruence). split; [reflexivity |]. split; [apply Us; exact U |]. split; [| exact Logic.I]. rewrite Nw, Z.eqb_refl. reflexivity.
  - congruence.
  - auto.
  - intros b j Q. right. split; [| discriminate]. unfold iv in *. rewrite (si_itm _ _ X) in Q. exact Q.
  - congruence.
  - intros nb [Q | ->]; [left; exact Q | right; reflexivity].
  - intros b. rewrite (si_cnt _ _ X), Op. destruct (Z.eqb_spec b n) as [-> |]; [unfold opn; rewrite Hn; lia | lia].
  - intros b. rewrite Cs. destruct (Z.eqb_spec b n) as [-> |]; [unfold cps; rewrite Hn; lia | lia].
Qed.

(* the operation goes on in the new table or ends *)
Lemma resume_cases : forall m o nt k, alive m nt ->
  (exists p', resume hash_of m o nt k = Next m p' /\ plain p' /\ fresh p' = None /\ forall D P, (k = KTable -> usable m D P nt) -> m_props m <> None -> tfact m D P o p') \/
  resume hash_of m o nt k = Ret m RDone.
Proof.
  intros m o nt k Al. destruct k; cbn [resume].
  - left. destruct o as [p v | p].
    + eexists. split; [reflexivity |]. split; [pl |]. split; [reflexivity |]. intros D P U _. exact (U eq_refl).
    + destruct Al as (tt & Htt). unfold on_tab. fold (tb m nt). rewrite Htt. eexists. split; [reflexivity |]. split; [pl |]. split; [reflexivity |]. intros D P U _. exact (U eq_refl).
  - right. reflexivity.
  - left. eexists. split; [reflexivity |]. split; [pl |]. split; [reflexivity |]. intros D P _ U. exact U.
Qed.

Lemma usable_next : forall m D P n nt, minv m D P -> nw m n = Some nt -> m_props m <> None -> D n -> usable m D P nt.
Proof.
  intros m D P n nt I N Pr Dn. split; [exact (a_next _ _ _ _ I n nt N) |]. split; [exact Pr |]. split; [exact (a_pub _ _ _ _ I n nt N) |]. intros p Q. rewrite (a_uniq _ _ _ _ I p n nt Q N). exact Dn.
Qed.

Lemma props_ok : forall m ths D P t o n nt k, ginv m ths D P -> gz ths t = Some (Some (o, PCopy n nt CProps k)) ->
  stepped ths t o (resume hash_of (match m_props m with Some q => if q =? n then Mem (m_tables m) (Some nt) else m | None => m end) o nt k).
Proof.
  intros m ths D P t o n nt k G Ht. pose proof (g_mem _ _ _ _ _ G) as I. destruct (g_mono _ _ _ _ _ G t o _ Ht) as (_ & U & N & Dn). cbn [cfact] in Dn. pose proof (a_next _ _ _ _ I n nt N) as Al.
  assert (Pd : forall p, nw m p = Some nt -> D p) by (intros p Q; rewrite (a_uniq _ _ _ _ I p n nt Q N); exact Dn). pose proof (proj1 (proj2 U)) as Pr.
  assert (Keep : stepped ths t o (resume hash_of m o nt k)).
  { destruct (resume_cases m o nt k Al) as [(p' & -> & Pl & Fr & F) | ->].
    - apply (step_plain m ths D P t o (PCopy n nt CProps k)); [exact G | exact Ht | pl | exact Pl | exact Fr |]. apply F; [| exact Pr]. intros _. exact (usable_next m D P n nt I N Pr Dn).
    - apply (step_ret W m ths D P t o (PCopy n nt CProps k)); [exact G | exact Ht | reflexivity | reflexivity | reflexivity | discriminate]. }
  destruct (m_props m) as [q|] eqn:Eq; [| exact Keep]. destruct (q =? n); [| exact Keep].
  pose proof (a_pub _ _ _ _ I n nt N) as Pn.
  destruct (resume_cases (Mem (m_tables m) (Some nt)) o nt k Al) as [(p' & -> & (B1 & B2 & B3 & B4) & Fr & F) | ->].
  - exists D, (fun b => P b \/ b = nt). apply (step_props m ths D P t o (PCopy n nt CProps k)); cbn [th_of]; auto; [pl |]. intros o' p1 E. assert (o' = o /\ p1 = p') as [-> ->] by (split; congruence). split; [reflexivity |].
    apply F; [| discriminate]. intros _. split; [exact Al |]. split; [discriminate |]. split; [left; exact Pn | exact Pd].
  - split; [| discriminate]. exists D, (fun b => P b \/ b = nt). apply (step_props m ths D P t o (PCopy n nt CProps k)); cbn [th_of]; auto; [pl |]. intros o' p1 E. discriminate E.
Qed.

Lemma copies_ok : forall m ths D P t o n nt k, ginv m ths D P -> gz ths t = Some (Some (o, HCopies n nt k)) -> cps m n = 0 -> stepped ths t o (resume hash_of m o nt k).
Proof.
  intros m ths D P t o n nt k G Ht Hc. pose proof (g_mem _ _ _ _ _ G) as I. destruct (g_mono _ _ _ _ _ G t o _ Ht) as (_ & U & N & Sc). pose proof (a_next _ _ _ _ I n nt N) as Al. pose proof (proj1 (proj2 U)) as Pr.
  destruct (resume_cases m o nt k Al) as [(p' & -> & (B1 & B2 & B3 & B4) & Fr & F) | ->]; [| apply (step_ret W m ths D P t o (HCopies n nt k)); [exact G | exact Ht | reflexivity | reflexivity | reflexivity | discriminate]].
  set (D' := fun b => D b \/ (b = n /\ k = KTable)).
  assert (Ac : k = KTable -> all_closed m n) by (intros E; destruct (Sc E) as (i & Hi); destruct (a_started _ _ _ _ I n i Hi) as [A | A]; [exact A | lia]).
  assert (Us : k = KTable -> usable m D' P nt).
  { intros E. split; [exact Al |]. split; [exact Pr |]. split; [exact (a_pub _ _ _ _ I n nt N) |]. intros p Q. right. split; [exact (a_uniq _ _ _ _ I p n nt Q N) | exact E]. }
  exists D', P. apply (step_same W m ths D P m D' t o (HCopies n nt k) (Some (o, p')) G Ht); cbn [th_of]; auto using same_refl.
  - intros b Q. left. exact Q.
  - intros b [Q | (-> & E)]; [left; exact Q | right]. split; [auto |]. split; [exact (proj1 U) |]. apply (others_idle W m ths D P t o (HCopies n nt k) n G Ht). rewrite Hc. reflexivity.
  - intros o' q E. assert (o' = o /\ q = p') as [-> ->] by (split; congruence). split; [reflexivity |]. apply F; [exact Us | exact Pr].
  - congruence.
  - intros a b E. discriminate E.
  - intros b. rewrite B3. reflexivity.
  - intros b. rewrite B4. reflexivity.
Qed.

(* the copying thread sees that it is the last *)
Lemma wait_ok : forall m ths D P t o n nt k, ginv m ths D P -> gz ths t = Some (Some (o, PCopy n nt CWait k)) -> cps m n = 0 -> stepped ths t o (Next m (PCopy n nt CProps k)).
Proof.
  intros m ths D P t o n nt k G Ht Hc. pose proof (g_mem _ _ _ _ _ G) as I. destruct (g_mono _ _ _ _ _ G t o _ Ht) as (_ & U & N & Ac). cbn [cfact] in Ac.
  set (D' := fun b => D b \/ b = n). assert (X : ext m D P m D' P) by (apply ext_same; auto using same_refl; intros b Q; left; exact Q).
  exists D', P. apply (step_same W m ths D P m D' t o (PCopy n nt CWait k) (Some (o, PCopy n nt CProps k)) G Ht); cbn [th_of]; auto using same_refl.
  - intros b Q. left. exact Q.
  - intros b [Q | ->]; [left; exact Q | right]. split; [exact Ac |]. split; [exact (proj1 U) |]. apply (others_idle W m ths D P t o (PCopy n nt CWait k) n G Ht). rewrite Hc. reflexivity.
  - intros o' q E. assert (o' = o /\ q = PCopy n nt CProps k) as [-> ->] by (split; congruence). split; [reflexivity |]. split; [exact (e_usable _ _ _ _ _ _ X n U) |]. split; [exact N | right; reflexivity].
  - intros b E. discriminate E.
Qed.

Lemma out_ok : forall m ths D P t o n nt k tn, len ths <= 1000000000 -> ginv m ths D P -> gz ths t = Some (Some (o, PCopy n nt COut k)) -> tb m n = Some tn ->
  stepped ths t o (Next (set_table m n (Table (t_used tn) (t_open tn) (u32 (t_copies tn + -1)) (t_new tn) (t_items tn))) (PCopy n nt (if 1 <? t_copies tn then CWait else CProps) k)).
Proof.
  intros m ths D P t o n nt k tn Hlen G Ht Hn. pose proof (g_mem _ _ _ _ _ G) as I. destruct (g_mono _ _ _ _ _ G t o _ Ht) as (_ & U & N & Ac). cbn [cfact] in Ac.
  pose proof (self_copies W m ths D P t o _ n G Ht) as Sc. cbn [cop_at] in Sc. rewrite Z.eqb_refl in Sc. pose proof (copies_le W m ths D P n G) as Le. assert (Ec : cps m n = t_copies tn) by (unfold cps; rewrite Hn; reflexivity).
  assert (Eu : u32 (t_copies tn + -1) = cps m n - 1) by (rewrite Ec in *; unfold u32, uwrap; rewrite Z.mod_small; [lia |]; change (2 ^ 32) with 4294967296; lia). rewrite Eu.
  destruct (set_counts_ok m n tn (t_used tn) (t_open tn) (cps m n - 1) (t_new tn) Hn) as (X & Nw & Op & Cs & Pr & _). set (m' := set_table m n (Table (t_used tn) (t_open tn) (cps m n - 1) (t_new tn) (t_items tn))) in *.
  assert (Nw' : forall b, nw m' b = nw m b) by (intros b; rewrite Nw; destruct (Z.eqb_spec b n) as [-> |]; [unfold nw; rewrite Hn; reflexivity | reflexivity]).
  set (D' := fun b => D b \/ (b = n /\ cps m n = 1)). assert (Xe : ext m D P m' D' P) by (apply ext_same; auto; intros b Q; left; exact Q).
  exists D', P. apply (step_same W m ths D P m' D' t o (PCopy n nt COut k) (Some (o, PCopy n nt (if 1 <? t_copies tn then CWait else CProps) k)) G Ht X Nw' Pr); cbn [th_of hold].
  - intros b Q. left. exact Q.
  - intros b [Q | (-> & E)]; [left; exact Q | right]. split; [exact Ac |]. split; [exact (proj1 U) |]. apply (others_idle W m ths D P t o (PCopy n nt COut k) n G Ht). rewrite E. cbn [cop_at]. rewrite Z.eqb_refl. reflexivity.
  - intros b. destruct (Z.eq_dec b n) as [-> | Nb]; [left; exact Ac | right; left]. rewrite Cs. destruct (Z.eqb_spec b n); [contradiction | reflexivity].
  - intros o' q E. assert (o' = o /\ q = PCopy n nt (if 1 <? t_copies tn then CWait else CProps) k) as [-> ->] by (split; congruence). split; [reflexivity |]. split; [exact (e_usable _ _ _ _ _ _ Xe n U) |]. split; [rewrite Nw'; exact N |].
    destruct (Z.ltb_spec 1 (t_copies tn)); cbn [cfact]; [exact (ext_all _ _ _ _ _ _ n Xe (proj1 U) Ac) |]. right. split; [reflexivity | lia].
  - intros b E. destruct (1 <? t_copies tn); discriminate E.
  - intros a b E. discriminate E.
  - destruct (1 <? t_copies tn); reflexivity.
  - intros b. rewrite Op. destruct (Z.eqb_spec b n) as [-> |]; [unfold opn; rewrite Hn |]; destruct (1 <? t_copies tn); cbn [dec_at]; lia.
  - intros b. rewrite Cs. rewrite (Z.eqb_sym b n). destruct (Z.eqb_spec n b) as [<- |]; destruct (1 <? t_copies tn); cbn [cop_at]; rewrite ?Z.eqb_refl; try lia; destruct (Z.eqb_spec n b); try lia.
Qed.

Lemma inc_ok : forall m ths D P t o n nt k i tn, len ths <= 1000000000 -> ginv m ths D P -> gz ths t = Some (Some (o, PCopy n nt (CInc i) k)) -> tb m n = Some tn ->
  stepped ths t o (Next (set_table m n (Table (t_used tn) (t_open tn) (u32 (t_copies tn + 1)) (t_new tn) (t_items tn))) (PCopy n nt (CItem (VClose i)) k)).
Proof.
  intros m ths D P t o n nt k i tn Hlen G Ht Hn. pose proof (g_mem _ _ _ _ _ G) as I. destruct (g_mono _ _ _ _ _ G t o _ Ht) as (_ & U & N & Ri). cbn [cfact] in Ri.
  pose proof (copies_le W m ths D P n G) as Le. assert (Ec : cps m n = t_copies tn) by (unfold cps; rewrite Hn; reflexivity).
  assert (Eu : u32 (t_copies tn + 1) = cps m n + 1) by (rewrite Ec in *; unfold u32, uwrap; rewrite Z.mod_small; [lia |]; change (2 ^ 32) with 4294967296; lia). rewrite Eu.
  destruct (set_counts_ok m n tn (t_used tn) (t_open tn) (cps m n + 1) (t_new tn) Hn) as (X & Nw & Op & Cs & Pr & _). set (m' := set_table m n (Table (t_used tn) (t_open tn) (cps m n + 1) (t_new tn) (t_items tn))) in *.
  assert (Nw' : forall b, nw m' b = nw m b) by (intros b; rewrite Nw; destruct (Z.eqb_spec b n) as [-> |]; [unfold nw; rewrite Hn; reflexivity | reflexivity]).
  assert (Xe : ext m D P m' D P) by (apply ext_same; auto).
  exists D, P. apply (step_same W m ths D P m' D t o (PCopy n nt (CInc i) k) (Some (o, PCopy n nt (CItem (VClose i)) k)) G Ht X Nw' Pr); cbn [th_of hold mid fresh]; auto.
  - intros b. right. rewrite Cs. destruct (Z.eqb_spec b n); [right; lia | left; reflexivity].
  - intros o' q E. assert (o' = o /\ q = PCopy n nt (CItem (VClose i)) k) as [-> ->] by (split; congruence). split; [reflexivity |]. split; [exact (e_usable _ _ _ _ _ _ Xe n U) |]. split; [rewrite Nw'; exact N |]. cbn [cfact vfact]. rewrite (e_cp _ _ _ _ _ _ Xe n (proj1 U)). exact Ri.
  - congruence.
  - intros b. rewrite Op. destruct (Z.eqb_spec b n) as [-> |]; [unfold opn; rewrite Hn |]; cbn [dec_at]; lia.
  - intros b. rewrite Cs. rewrite (Z.eqb_sym b n). destruct (Z.eqb_spec n b) as [<- |]; cbn [cop_at]; rewrite ?Z.eqb_refl; try lia; destruct (Z.eqb_spec n b); try lia.
Qed.

Lemma used_ok : forall m ths D P t o p p' n tn, ginv m ths D P -> gz ths t = Some (Some (o, p)) -> tb m n = Some tn ->
  (forall m', ext m D P m' D P -> tfact m' D P o p') -> mid p' = mid p -> hold p = None -> hold p' = None -> fresh p' = None -> (forall b, dec_at b p' = dec_at b p) -> (forall b, cop_at b p' = cop_at b p) ->
  stepped ths t o (Next (add_used m n tn) p').
Proof.
  intros m ths D P t o p p' n tn G Ht Hn F E1 E2 E3 E4 E5 E6. unfold add_used.
  destruct (set_counts_ok m n tn (u32 (t_used tn + 1)) (t_open tn) (t_copies tn) (t_new tn) Hn) as (X & Nw & Op & Cs & Pr & _). set (m' := set_table m n (Table (u32 (t_used tn + 1)) (t_open tn) (t_copies tn) (t_new tn) (t_items tn))) in *.
  assert (Nw' : forall b, nw m' b = nw m b) by (intros b; rewrite Nw; destruct (Z.eqb_spec b n) as [-> |]; [unfold nw; rewrite Hn; reflexivity | reflexivity]).
  assert (Op' : forall b, opn m' b = opn m b) by (intros b; rewrite Op; destruct (Z.eqb_spec b n) as [-> |]; [unfold opn; rewrite Hn; reflexivity | reflexivity]).
  assert (Cs' : forall b, cps m' b = cps m b) by (intros b; rewrite Cs; destruct (Z.eqb_spec b n) as [-> |]; [unfold cps; rewrite Hn; reflexivity | reflexivity]).
  assert (Xe : ext m D P m' D P) by (apply ext_same; auto).
  exists D, P. apply (step_same W m ths D P m' D t o p (Some (o, p')) G Ht X Nw' Pr); cbn [th_of]; auto.
  - intros o' q E. assert (o' = o /\ q = p') as [-> ->] by (split; congruence). auto.
  - intros b. rewrite E1. intros Q. apply (g_done _ _ _ _ _ G t p b); [exists o; exact Ht | exact Q].
  - congruence.
  - intros b. rewrite Op', E5. reflexivity.
  - intros b. rewrite Cs', E6. reflexivity.
Qed.
End Steps.
