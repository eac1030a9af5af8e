(* Shared objects: the invariant and how a step of one thread preserves what other threads know. *)
From Coq Require Import ZArith List Lia Bool ZifyBool.
Import ListNotations.
From Verif Require Import Base ListZ ObjConcSpec ObjConcModel ObjConcProofs.
From Verif Require ArrayConcProofs.
Local Open Scope Z_scope.
Ltac Zify.zify_post_hook ::= idtac.

Section Inv.
Variable W : key -> Z -> Prop.
Notation minv := (minv W).

Definition op_key (o : op) : key := match o with OSet k _ | OGet k => k end.
Definition opok (o : op) : Prop := match o with OSet k (Some v) => W k v | _ => True end.
Definition some_closed (m : mem) (n : Z) : Prop := exists i, iv m n i = Some Closed.
Definition same_key (m : mem) (n i nt j : Z) : Prop := exists k, ik m n i = Some k /\ ik m nt j = Some k.
Definition good_val (k : key) (v : pval) : Prop := v = Tomb \/ exists x, v = Val x /\ W k x.
Definition vfact (m : mem) (n nt : Z) (s : spc) : Prop :=
  match s with
  | VClose i | VDec i | VFail i => 0 <= i < cp m n
  | VRead i => ik m n i <> None \/ iv m n i = Some Closed
  | VKey i => ik m n i <> None
  | VHash i k => ik m n i = Some k
  | VClaim i k _ j => ik m n i = Some k /\ 0 <= j < cp m nt
  | VDest i k _ j => ik m n i = Some k /\ ik m nt j <> None
  | VSame i k _ j dk => ik m n i = Some k /\ ik m nt j = Some dk
  | VSetHash i _ j | VUsed i j | VRsv i j | VSwap i j => same_key m n i nt j
  | VStore i j v _ => exists k, ik m n i = Some k /\ ik m nt j = Some k /\ good_val k v
  end.
Definition cfact (m : mem) (D : Z -> Prop) (n nt : Z) (c : cpc) : Prop :=
  match c with
  | CStart => True
  | CInc i => 0 <= i < cp m n
  | CItem s => vfact m n nt s
  | COut | CWait => all_closed m n
  | CProps => D n
  end.
Definition tfact (m : mem) (D P : Z -> Prop) (o : op) (p : pc) : Prop :=
  match p with
  | SProps | SAlloc | SFirst _ | GProps => True
  | STable => m_props m <> None
  | SProbe n _ _ | SNeed n _ | GKey n _ _ => usable m D P n
  | RStart n k | RAlloc n k | RLink n _ k => usable m D P n /\ k <> KTable
  | SKey n i _ => usable m D P n /\ 0 <= i < cp m n
  | SHash n i _ | SUsed n i _ | SVal n i _ | SAgain n i _ => usable m D P n /\ ik m n i = Some (op_key o)
  | SSwap n i _ old => usable m D P n /\ ik m n i = Some (op_key o) /\ old <> Closed
  | SCmp n i _ ck | GVal n i _ ck => usable m D P n /\ ik m n i = Some ck
  | GCmp n i _ ck v => usable m D P n /\ ik m n i = Some ck /\ good_val ck v
  | HNew n k => usable m D P n /\ nw m n <> None /\ (k = KTable -> some_closed m n)
  | HCopies n nt k => usable m D P n /\ nw m n = Some nt /\ (k = KTable -> some_closed m n)
  | PCopy n nt c _ => usable m D P n /\ nw m n = Some nt /\ cfact m D n nt c
  end.

Definition mid (p : pc) : option Z :=
  match p with
  | PCopy n _ (CItem (VClose _ | VRead _ | VFail _ | VDec _)) _ => None
  | PCopy n _ (CItem _) _ => Some n
  | _ => None
  end.
Definition hold (p : pc) : option (Z * Z) :=
  match p with PCopy _ nt (CItem (VSwap _ j | VStore _ j _ _)) _ => Some (nt, j) | _ => None end.
Definition fresh (p : pc) : option Z := match p with SFirst nt | RLink _ nt _ => Some nt | _ => None end.
Definition dec_at (b : Z) (p : pc) : Z :=
  match p with PCopy n _ (CItem (VDec _ | VStore _ _ _ true)) _ => if n =? b then 1 else 0 | _ => 0 end.
Definition cop_at (b : Z) (p : pc) : Z := match p with PCopy n _ (CItem _ | COut) _ => if n =? b then 1 else 0 | _ => 0 end.
Definition th_of {A} (d : A) (f : pc -> A) (th : option (op * pc)) : A := match th with Some (_, p) => f p | None => d end.
Notation decs b := (th_of 0 (dec_at b)).
Notation cops b := (th_of 0 (cop_at b)).
Notation th_mid := (th_of None mid).
Notation th_hold := (th_of None hold).
Notation th_fresh := (th_of None fresh).
Lemma dec_range : forall b th, 0 <= decs b th <= 1.
Proof. intros b [[o p]|]; cbn [th_of]; [| lia]. destruct p as [| | | | | | | | | | | | | | | | | | | | | |n nt [| |[]| | |] k]; cbn [dec_at]; try lia; destruct (n =? b); try lia; destruct ret; lia. Qed.
Lemma cop_range : forall b th, 0 <= cops b th <= 1.
Proof. intros b [[o p]|]; cbn [th_of]; [| lia]. destruct p as [| | | | | | | | | | | | | | | | | | | | | |n nt [| |[]| | |] k]; cbn [cop_at]; try lia; destruct (n =? b); lia. Qed.
Lemma mid_cop : forall p n, mid p = Some n -> cop_at n p = 1.
Proof. intros p n H. destruct p as [| | | | | | | | | | | | | | | | | | | | | |b nt [| |[]| | |] k]; cbn [mid] in H; try discriminate H; cbn [cop_at]; assert (b = n) by congruence; subst b; rewrite Z.eqb_refl; reflexivity. Qed.

Definition run_at (ths : list (option (op * pc))) (t : Z) (p : pc) : Prop := exists o, gz ths t = Some (Some (o, p)).

Record ginv (m : mem) (ths : list (option (op * pc))) (D P : Z -> Prop) : Prop := GInv {
  g_mem : minv m D P;
  g_dal : forall n, D n -> alive m n;
  g_mono : forall t o p, gz ths t = Some (Some (o, p)) -> opok o /\ tfact m D P o p;
  g_done : forall t p n, run_at ths t p -> mid p = Some n -> ~ D n;
  g_rsvd : forall nt j, iv m nt j = Some Rsvd -> exists t p, run_at ths t p /\ hold p = Some (nt, j);
  g_fresh : forall t p nb, run_at ths t p -> fresh p = Some nb -> alive m nb /\ ~ P nb;
  g_fresh1 : forall t1 t2 p1 p2 nb, run_at ths t1 p1 -> run_at ths t2 p2 -> fresh p1 = Some nb -> fresh p2 = Some nb -> t1 = t2;
  g_open : forall b, opn m b = cnt m b + total (fun th => decs b th) ths;
  g_copies : forall b, cps m b = total (fun th => cops b th) ths
}.

(* what other threads may rely on *)
Record ext (m : mem) (D P : Z -> Prop) (m' : mem) (D' P' : Z -> Prop) : Prop := Ext {
  e_alive : forall b, alive m b -> alive m' b;
  e_cp : forall b, alive m b -> cp m' b = cp m b;
  e_ik : forall b j k, ik m b j = Some k -> ik m' b j = Some k;
  e_closed : forall b j, iv m b j = Some Closed -> iv m' b j = Some Closed;
  e_nw : forall b x, nw m b = Some x -> nw m' b = Some x;
  e_props : m_props m <> None -> m_props m' <> None;
  e_usable : forall b, usable m D P b -> usable m' D' P' b;
  e_D : forall b, D b -> D' b
}.
Lemma ext_refl : forall m D P, ext m D P m D P.
Proof. intros. constructor; auto. Qed.
Lemma ext_all : forall m D P m' D' P' n, ext m D P m' D' P' -> alive m n -> all_closed m n -> all_closed m' n.
Proof.
  intros m D P m' D' P' n X Al H i v Hv. destruct (iv_range _ _ _ _ Hv) as (_ & R). rewrite (e_cp _ _ _ _ _ _ X n Al) in R. destruct (iv_some m n i R) as (w & Hw). pose proof (H i w Hw) as ->. apply (e_closed _ _ _ _ _ _ X) in Hw. congruence.
Qed.
Lemma ext_key : forall m D P m' D' P' n i, ext m D P m' D' P' -> ik m n i <> None -> ik m' n i <> None.
Proof. intros m D P m' D' P' n i X H. destruct (ik m n i) as [k|] eqn:E; [| contradiction]. rewrite (e_ik _ _ _ _ _ _ X _ _ _ E). discriminate. Qed.
Lemma ext_fact : forall m D P m' D' P' o p, ext m D P m' D' P' -> minv m D P -> tfact m D P o p -> tfact m' D' P' o p.
Proof.
  intros m D P m' D' P' o p X I H. pose proof (fun b => e_usable _ _ _ _ _ _ X b) as U. pose proof (e_ik _ _ _ _ _ _ X) as K. pose proof (e_nw _ _ _ _ _ _ X) as N.
  assert (Sc : forall n, some_closed m n -> some_closed m' n) by (intros n (i & Hi); exists i; apply (e_closed _ _ _ _ _ _ X); exact Hi).
  assert (Uc : forall n, usable m D P n -> cp m' n = cp m n) by (intros n (A & _); apply (e_cp _ _ _ _ _ _ X); exact A).
  destruct p; cbn [tfact] in *; try exact H; try (apply U; exact H).
  - apply (e_props _ _ _ _ _ _ X). exact H.
  - destruct H as (A & B). split; [auto |]. rewrite Uc by exact A. exact B.
  - destruct H as (A & B). split; auto.
  - destruct H as (A & B). split; auto.
  - destruct H as (A & B). split; auto.
  - destruct H as (A & B). split; auto.
  - destruct H as (A & B & C). split; [auto |]. split; auto.
  - destruct H as (A & B). split; auto.
  - destruct H as (A & B). split; auto.
  - destruct H as (A & B & C). split; [auto |]. split; auto.
  - destruct H as (A & B). split; auto.
  - destruct H as (A & B). split; auto.
  - destruct H as (A & B). split; auto.
  - destruct H as (A & B & C). split; [auto |]. split; [| auto]. destruct (nw m n) as [x|] eqn:E; [rewrite (N _ _ E); discriminate | contradiction].
  - destruct H as (A & B & C). split; [auto |]. split; auto.
  - destruct H as (A & B & C). split; [auto |]. split; [auto |]. pose proof (Uc n A) as Cn. pose proof (e_cp _ _ _ _ _ _ X nt (a_next _ _ _ _ I n nt B)) as Cnt.
    assert (Sk : forall i j, same_key m n i nt j -> same_key m' n i nt j) by (intros i j (k0 & K1 & K2); exists k0; split; auto).
    destruct c; cbn [cfact] in *; [exact C | rewrite Cn; exact C | | eapply ext_all; [exact X | exact (proj1 A) | exact C] | eapply ext_all; [exact X | exact (proj1 A) | exact C] | apply (e_D _ _ _ _ _ _ X); exact C].
    destruct s; cbn [vfact] in *; rewrite ?Cn, ?Cnt; try exact C; try (apply Sk; exact C).
    + destruct C as [C | C]; [left; eapply ext_key; eassumption | right; apply (e_closed _ _ _ _ _ _ X); exact C].
    + eapply ext_key; eassumption.
    + auto.
    + destruct C as (C1 & C2). split; auto.
    + destruct C as (C1 & C2). split; [auto | eapply ext_key; eassumption].
    + destruct C as (C1 & C2). split; auto.
    + destruct C as (k0 & C1 & C2 & C3). exists k0. split; [auto |]. split; auto.
Qed.

Lemma run_put : forall ths t th u p, 0 <= t < len ths -> run_at (put ths t th) u p -> (u = t /\ exists o, th = Some (o, p)) \/ (u <> t /\ run_at ths u p).
Proof.
  intros ths t th u p Ht (o & H). rewrite gz_put in H by exact Ht. destruct (Z.eqb_spec u t) as [-> | N].
  - left. split; [reflexivity |]. exists o. congruence.
  - right. split; [exact N |]. exists o. exact H.
Qed.
Lemma run_put_other : forall ths t th u p, 0 <= t < len ths -> u <> t -> run_at ths u p -> run_at (put ths t th) u p.
Proof. intros ths t th u p Ht N (o & H). exists o. rewrite gz_put by exact Ht. destruct (Z.eqb_spec u t); [contradiction | exact H]. Qed.

(* a step of thread t from p to th, changing the memory from m to m' *)
Lemma step_frame : forall m ths D P m' D' P' t o p th,
  ginv m ths D P -> gz ths t = Some (Some (o, p)) ->
  minv m' D' P' -> ext m D P m' D' P' -> (forall n, D' n -> alive m' n) ->
  (forall o' p', th = Some (o', p') -> o' = o /\ tfact m' D' P' o' p') ->
  (forall n, th_mid th = Some n -> ~ D' n) ->
  (forall n, D' n -> D n \/ forall u p1, u <> t -> run_at ths u p1 -> mid p1 <> Some n) ->
  (forall nt j, iv m' nt j = Some Rsvd -> th_hold th = Some (nt, j) \/ (iv m nt j = Some Rsvd /\ hold p <> Some (nt, j))) ->
  (forall nb, th_fresh th = Some nb -> alive m' nb /\ ~ P' nb /\ (fresh p = Some nb \/ ~ alive m nb)) ->
  (forall nb, P' nb -> P nb \/ fresh p = Some nb) ->
  (forall b, opn m' b - cnt m' b - decs b th = opn m b - cnt m b - dec_at b p) ->
  (forall b, cps m' b - cops b th = cps m b - cop_at b p) ->
  ginv m' (put ths t th) D' P'.
Proof.
  intros m ths D P m' D' P' t o p th G Ht M' X Hal Hfact Hmid Hdone Hrsvd Hfresh Hpub Hopen Hcop.
  pose proof (gz_some_inv _ _ _ _ Ht) as Bt. assert (Rt : run_at ths t p) by (exists o; exact Ht).
  constructor.
  - exact M'.
  - exact Hal.
  - intros u o1 p1 H. rewrite gz_put in H by exact Bt. destruct (Z.eqb_spec u t) as [-> | N].
    + destruct (Hfact o1 p1 ltac:(congruence)) as (-> & F). split; [exact (proj1 (g_mono _ _ _ _ G t o p Ht)) | exact F].
    + destruct (g_mono _ _ _ _ G u o1 p1 H) as (A & B). split; [exact A |]. eapply ext_fact; [exact X | exact (g_mem _ _ _ _ G) | exact B].
  - intros u p1 n H E. destruct (run_put _ _ _ _ _ Bt H) as [(-> & o1 & ->) | (N & H1)]; [apply Hmid; exact E |].
    intros Dn. destruct (Hdone n Dn) as [Yd | Nd]; [exact (g_done _ _ _ _ G u p1 n H1 E Yd) | exact (Nd u p1 N H1 E)].
  - intros nt j H. destruct (Hrsvd nt j H) as [A | (A & B)].
    + destruct th as [[o1 p1]|]; [| discriminate A]. exists t, p1. split; [| exact A]. exists o1. rewrite gz_put by exact Bt. rewrite Z.eqb_refl. reflexivity.
    + destruct (g_rsvd _ _ _ _ G nt j A) as (u & p1 & Hu & E). exists u, p1. split; [| exact E]. apply run_put_other; [exact Bt | | exact Hu]. intros ->. destruct Hu as (o1 & Hu). assert (p1 = p) by congruence. subst p1. contradiction.
  - intros u p1 nb H E. destruct (run_put _ _ _ _ _ Bt H) as [(-> & o1 & ->) | (N & H1)]; [destruct (Hfresh nb E) as (A & B & _); split; assumption |].
    destruct (g_fresh _ _ _ _ G u p1 nb H1 E) as (A & B). split; [apply (e_alive _ _ _ _ _ _ X); exact A |]. intros Q. destruct (Hpub nb Q) as [Q1 | Q1]; [contradiction |]. apply N. exact (g_fresh1 _ _ _ _ G u t p1 p nb H1 Rt E Q1).
  - intros u1 u2 p1 p2 nb H1 H2 E1 E2.
    assert (Q : forall u p3, u <> t -> run_at ths u p3 -> fresh p3 = Some nb -> th_fresh th = Some nb -> False).
    { intros u p3 N H3 E3 E. destruct (Hfresh nb E) as (_ & _ & [F | F]); [apply N; exact (g_fresh1 _ _ _ _ G u t p3 p nb H3 Rt E3 F) |]. apply F. exact (proj1 (g_fresh _ _ _ _ G u p3 nb H3 E3)). }
    destruct (run_put _ _ _ _ _ Bt H1) as [(-> & o1 & ->) | (N1 & H1')], (run_put _ _ _ _ _ Bt H2) as [(-> & o2 & Eo) | (N2 & H2')].
    + reflexivity.
    + exfalso. exact (Q u2 p2 N2 H2' E2 E1).
    + exfalso. apply (Q u1 p1 N1 H1' E1). rewrite Eo. exact E2.
    + exact (g_fresh1 _ _ _ _ G u1 u2 p1 p2 nb H1' H2' E1 E2).
  - intros b. rewrite (ArrayConcProofs.total_put _ _ _ _ _ _ Ht). pose proof (g_open _ _ _ _ G b). specialize (Hopen b). cbn [th_of] in *. lia.
  - intros b. rewrite (ArrayConcProofs.total_put _ _ _ _ _ _ Ht). pose proof (g_copies _ _ _ _ G b). specialize (Hcop b). cbn [th_of] in *. lia.
Qed.
End Inv.
