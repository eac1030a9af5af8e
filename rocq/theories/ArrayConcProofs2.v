(* Shared arrays: the invariant and how a step of one thread preserves what other threads know. *)
From Coq Require Import ZArith List Lia Bool ZifyBool.
Import ListNotations.
From Verif Require Import Base ListZ ArrayModel ArrayConcSpec ArrayConcModel ArrayConcProofs.
Local Open Scope Z_scope.
Ltac Zify.zify_post_hook ::= idtac.

(* ch: all storages which are or were linked, in order; d: the position of array->data in ch *)
Record minv (m : mem) (ch : list Z) (d : Z) (l : list Z) : Prop := MInv {
  v_once : forall j k b, gz ch j = Some b -> gz ch k = Some b -> j = k;
  v_data : m_data m = gz ch d;
  v_d : 0 <= d /\ len ch <= d + 2 /\ (d < len ch \/ (ch = [] /\ d = 0 /\ l = []));
  v_size : m_size m = len l;
  v_max : len l <= 1000000000;
  v_chain : forall k b, gz ch k = Some b -> alive m b /\ nx m b = gz ch (k + 1);
  v_free : forall b, alive m b -> (forall k, gz ch k <> Some b) -> nx m b = None /\ forall i v, sl m b i = Some v -> v = Tomb;
  v_caps : forall b, alive m b -> 1 <= cp m b <= 1000000000;
  v_open : forall b, alive m b -> 0 <= opn m b <= 1000000000;
  v_old : forall k b i v, gz ch k = Some b -> k < d -> sl m b i = Some v -> v = Closed;
  v_fit : forall k b, gz ch k = Some b -> k <= d -> len l <= cp m b;
  v_cur : forall b i v, gz ch d = Some b -> sl m b i = Some v ->
          match v with Closed => d + 1 < len ch | Val _ => i < len l | Tomb => len l <= i end;
  v_new : forall b i v, gz ch (d + 1) = Some b -> sl m b i = Some v -> v <> Closed /\ (len l <= i -> v = Tomb);
  v_vals : forall i x, gz l i = Some x -> exists b, gz ch d = Some b /\
           (sl m b i = Some (Val x) \/ (sl m b i = Some Closed /\ exists b', gz ch (d + 1) = Some b' /\ sl m b' i = Some (Val x)))
}.

Definition access (o : op) : Prop := match o with ORead i | OWrite i _ | OCas i _ _ => - 2147483648 <= i < 2147483648 | _ => False end.
Definition growing (o : op) : Prop := match o with OReserve _ => True | _ => False end.
Definition at_el (o : op) (i n : Z) : Prop := access o /\ i = bufidx (op_index o) n /\ 0 <= i < n.
Definition reach (m : mem) (ch : list Z) (d i b : Z) : Prop :=
  exists k, gz ch k = Some b /\ (k <= d \/ (k = d + 1 /\ exists b0, gz ch d = Some b0 /\ sl m b0 i = Some Closed)).
Definition slot_ok (n i : Z) (v : slot) : Prop := match v with Closed => False | Val _ => i < n | Tomb => n <= i end.
Definition cont_ok (o : op) (k : cont) (n : Z) : Prop :=
  match k with KAccess o' i => o' = o /\ at_el o i n /\ (match o with ORead _ => False | _ => True end) | KReserve _ rs => rs = None /\ growing o end.

Definition cmono (m : mem) (n : Z) (old : Z) (c : cpc) : Prop :=
  match c with
  | CStart => True
  | CLoad i s => 0 <= i < cp m old /\ (s = Tomb \/ slot_ok n i s)
  | CDst i s v => 0 <= i < cp m old /\ (s = Tomb \/ slot_ok n i s) /\ slot_ok n i v
  | CSrc i v => 0 <= i < cp m old /\ slot_ok n i v
  | CFail i | CDec i => 0 <= i < cp m old
  | CEnd => forall i v, sl m old i = Some v -> v = Closed
  end.
Definition tmono (m : mem) (ch : list Z) (d n : Z) (o : op) (p : pc) : Prop :=
  match p with
  | PSize o' => o' = o /\ access o
  | PData o' i => o' = o /\ at_el o i n
  | PLoad o' i b => o' = o /\ at_el o i n /\ reach m ch d i b
  | PSwap o' i b cur => o' = o /\ at_el o i n /\ reach m ch d i b /\ (match o with ORead _ => False | OCas _ old _ => cur = old | _ => True end)
  | PCopy old new c k => cont_ok o k n /\ exists j, gz ch j = Some old /\ gz ch (j + 1) = Some new /\ j <= d /\ cmono m n old c
  | PRsv _ rs | PGet _ _ rs => rs = None /\ growing o
  | PNew n' rs => rs = None /\ growing o /\ 1 <= n'
  | PLink _ old _ rs => rs = None /\ growing o /\ match old with None => True | Some b => exists k, gz ch k = Some b /\ k <= d end
  | _ => False
  end.

Definition own (p : pc) : option (Z * Z * Z * Z) :=
  match p with
  | PCopy old new (CLoad i (Val x)) _ | PCopy old new (CDst i (Val x) _) _ | PCopy old new (CSrc i (Val x)) _ => Some (old, new, i, x)
  | _ => None
  end.
Definition owned (m : mem) (ch : list Z) (d : Z) (q : Z * Z * Z * Z) : Prop :=
  let '(old, new, i, x) := q in
  gz ch d = Some old /\ gz ch (d + 1) = Some new /\ sl m new i = Some (Val x) /\ exists v, sl m old i = Some v /\ v <> Closed.
Definition key (q : Z * Z * Z * Z) : Z * Z := let '(old, _, i, _) := q in (old, i).
Definition fresh (p : pc) : option Z := match p with PGet nb _ _ | PLink nb _ _ _ => Some nb | _ => None end.
Definition dec_at (b : Z) (p : pc) : Z := match p with PCopy old _ (CDec _) _ => if old =? b then 1 else 0 | _ => 0 end.
Definition decs (b : Z) (th : option (op * pc)) : Z := match th with Some (_, p) => dec_at b p | None => 0 end.
Lemma decs_range : forall b th, 0 <= decs b th <= 1.
Proof. intros b [[o []]|]; cbn [decs dec_at]; try lia. destruct c; try lia. destruct (old =? b); lia. Qed.

Definition run_at (ths : list (option (op * pc))) (t : Z) (p : pc) : Prop := exists o, gz ths t = Some (Some (o, p)).

Record ginv (m : mem) (ths : list (option (op * pc))) (ch : list Z) (d : Z) (l : list Z) : Prop := GInv {
  g_mem : minv m ch d l;
  g_mono : forall t o p, gz ths t = Some (Some (o, p)) -> tmono m ch d (len l) o p;
  g_own : forall t p q, run_at ths t p -> own p = Some q -> owned m ch d q;
  g_fresh : forall t p nb, run_at ths t p -> fresh p = Some nb -> alive m nb /\ forall k, gz ch k <> Some nb;
  g_own1 : forall t1 t2 p1 p2 q1 q2, run_at ths t1 p1 -> run_at ths t2 p2 -> own p1 = Some q1 -> own p2 = Some q2 -> key q1 = key q2 -> t1 = t2;
  g_fresh1 : forall t1 t2 p1 p2 nb, run_at ths t1 p1 -> run_at ths t2 p2 -> fresh p1 = Some nb -> fresh p2 = Some nb -> t1 = t2;
  g_open : forall b, opn m b = cnt m b + total (decs b) ths
}.

(* what other threads may rely on *)
Record ext (m : mem) (ch : list Z) (d : Z) (m' : mem) (ch' : list Z) (d' : Z) : Prop := Ext {
  e_ch : forall k b, gz ch k = Some b -> gz ch' k = Some b;
  e_d : d <= d';
  e_cp : forall b, alive m b -> cp m' b = cp m b;
  e_alive : forall b, alive m b -> alive m' b;
  e_closed : forall b i, sl m b i = Some Closed -> sl m' b i = Some Closed
}.
Lemma ext_reach : forall m ch d m' ch' d' i b, ext m ch d m' ch' d' -> reach m ch d i b -> reach m' ch' d' i b.
Proof.
  intros m ch d m' ch' d' i b X (k & Hk & H). exists k. split; [apply (e_ch _ _ _ _ _ _ X); exact Hk |]. pose proof (e_d _ _ _ _ _ _ X) as D.
  destruct H as [H | (-> & b0 & Hb & Hc)]; [left; lia |]. destruct (Z.eq_dec d' d) as [-> | N]; [right | left; lia]. split; [reflexivity |]. exists b0.
  split; [apply (e_ch _ _ _ _ _ _ X); exact Hb | apply (e_closed _ _ _ _ _ _ X); exact Hc].
Qed.
Lemma ext_mono : forall m ch d m' ch' d' l n o p, ext m ch d m' ch' d' -> minv m ch d l -> tmono m ch d n o p -> tmono m' ch' d' n o p.
Proof.
  intros m ch d m' ch' d' l n o p X I H. pose proof (e_d _ _ _ _ _ _ X) as D. destruct p; cbn [tmono] in *; try exact H.
  - destruct H as (A & B & C). split; [exact A |]. split; [exact B |]. eapply ext_reach; eassumption.
  - destruct H as (A & B & C & E). split; [exact A |]. split; [exact B |]. split; [eapply ext_reach; eassumption | exact E].
  - destruct H as (A & j & B & C & E & F). split; [exact A |]. exists j. split; [apply (e_ch _ _ _ _ _ _ X); exact B |]. split; [apply (e_ch _ _ _ _ _ _ X); exact C |]. split; [lia |].
    destruct (v_chain _ _ _ _ I j old B) as (Al & _). pose proof (e_cp _ _ _ _ _ _ X old Al) as Cp. destruct c; cbn [cmono] in *; rewrite ?Cp; try exact F.
    intros i v Hv. destruct (sl_range _ _ _ _ Hv) as (_ & R). rewrite Cp in R. destruct (sl_some m old i R) as (w & Hw). pose proof (F i w Hw) as ->. apply (e_closed _ _ _ _ _ _ X) in Hw. congruence.
  - destruct H as (A & B & C). split; [exact A |]. split; [exact B |]. destruct old as [b|]; [| exact Logic.I]. destruct C as (k & C1 & C2). exists k. split; [apply (e_ch _ _ _ _ _ _ X); exact C1 | lia].
Qed.

Lemma run_put : forall ths t th u p, 0 <= t < len ths -> run_at (put ths t th) u p -> (u = t /\ exists o, th = Some (o, p)) \/ (u <> t /\ run_at ths u p).
Proof.
  intros ths t th u p Ht (o & H). rewrite gz_put in H by exact Ht. destruct (Z.eqb_spec u t) as [-> | N].
  - left. split; [reflexivity |]. exists o. congruence.
  - right. split; [exact N |]. exists o. exact H.
Qed.

Definition th_own (th : option (op * pc)) : option (Z * Z * Z * Z) := match th with Some (_, p) => own p | None => None end.
Definition th_fresh (th : option (op * pc)) : option Z := match th with Some (_, p) => fresh p | None => None end.

(* a step of thread t from p to th, changing the memory from m to m' *)
Lemma step_frame : forall m ths ch d l m' ch' d' l' t o p th,
  ginv m ths ch d l -> gz ths t = Some (Some (o, p)) ->
  minv m' ch' d' l' -> len l' = len l -> ext m ch d m' ch' d' ->
  (forall o' p', th = Some (o', p') -> tmono m' ch' d' (len l') o' p') ->
  (* ownership of the thread *)
  (forall q, th_own th = Some q -> owned m' ch' d' q /\
     ((exists q0, own p = Some q0 /\ key q0 = key q) \/ forall u p1 q1, u <> t -> run_at ths u p1 -> own p1 = Some q1 -> key q1 <> key q)) ->
  (* ownership of other threads *)
  (forall u p1 q, u <> t -> run_at ths u p1 -> own p1 = Some q -> (forall q0, own p = Some q0 -> key q0 <> key q) -> owned m' ch' d' q) ->
  (forall nb, th_fresh th = Some nb -> alive m' nb /\ (forall k, gz ch' k <> Some nb) /\ (fresh p = Some nb \/ ~ alive m nb)) ->
  (forall nb, alive m nb -> (forall k, gz ch k <> Some nb) -> fresh p <> Some nb -> forall k, gz ch' k <> Some nb) ->
  (forall b, opn m' b - cnt m' b - decs b th = opn m b - cnt m b - dec_at b p) ->
  ginv m' (put ths t th) ch' d' l'.
Proof.
  intros m ths ch d l m' ch' d' l' t o p th G Ht M' Ll X Hmono Hown Hothers Hfresh Hfresh' Hopen.
  pose proof (gz_some_inv _ _ _ _ Ht) as Bt. assert (Rt : run_at ths t p) by (exists o; exact Ht).
  constructor.
  - exact M'.
  - intros u o1 p1 H. rewrite gz_put in H by exact Bt. destruct (Z.eqb_spec u t) as [-> | N].
    + apply (Hmono o1 p1). congruence.
    + rewrite Ll. eapply ext_mono; [exact X | exact (g_mem _ _ _ _ _ G) |]. exact (g_mono _ _ _ _ _ G u o1 p1 H).
  - intros u p1 q H Hq. apply run_put in H; [| exact Bt]. destruct H as [(-> & o1 & ->) | (N & H)].
    + apply (Hown q). exact Hq.
    + apply (Hothers u p1 q N H Hq). intros q0 Hq0 Hk. apply N. symmetry. exact (g_own1 _ _ _ _ _ G t u p p1 q0 q Rt H Hq0 Hq Hk).
  - intros u p1 nb H Hn. apply run_put in H; [| exact Bt]. destruct H as [(-> & o1 & ->) | (N & H)].
    + destruct (Hfresh nb Hn) as (A & B & _). auto.
    + destruct (g_fresh _ _ _ _ _ G u p1 nb H Hn) as (A & B). split; [apply (e_alive _ _ _ _ _ _ X); exact A |].
      apply (Hfresh' nb A B). intros F. apply N. symmetry. exact (g_fresh1 _ _ _ _ _ G t u p p1 nb Rt H F Hn).
  - intros u1 u2 p1 p2 q1 q2 H1 H2 Q1 Q2 K. apply run_put in H1; [| exact Bt]. apply run_put in H2; [| exact Bt].
    destruct H1 as [(-> & o1 & E1) | (N1 & H1)], H2 as [(-> & o2 & E2) | (N2 & H2)]; [reflexivity | | |].
    + exfalso. subst th. destruct (Hown q1 Q1) as (_ & [(q0 & Hq0 & Hk) | Hno]).
      * apply N2. symmetry. eapply (g_own1 _ _ _ _ _ G t u2 p p2 q0 q2); eauto. congruence.
      * apply (Hno u2 p2 q2 N2 H2 Q2). congruence.
    + exfalso. subst th. destruct (Hown q2 Q2) as (_ & [(q0 & Hq0 & Hk) | Hno]).
      * apply N1. eapply (g_own1 _ _ _ _ _ G u1 t p1 p q1 q0); eauto. congruence.
      * apply (Hno u1 p1 q1 N1 H1 Q1). congruence.
    + exact (g_own1 _ _ _ _ _ G u1 u2 p1 p2 q1 q2 H1 H2 Q1 Q2 K).
  - intros u1 u2 p1 p2 nb H1 H2 F1 F2. apply run_put in H1; [| exact Bt]. apply run_put in H2; [| exact Bt].
    destruct H1 as [(-> & o1 & E1) | (N1 & H1)], H2 as [(-> & o2 & E2) | (N2 & H2)]; [reflexivity | | |].
    + exfalso. subst th. destruct (Hfresh nb F1) as (_ & _ & [F | F]).
      * apply N2. symmetry. exact (g_fresh1 _ _ _ _ _ G t u2 p p2 nb Rt H2 F F2).
      * apply F. exact (proj1 (g_fresh _ _ _ _ _ G u2 p2 nb H2 F2)).
    + exfalso. subst th. destruct (Hfresh nb F2) as (_ & _ & [F | F]).
      * apply N1. exact (g_fresh1 _ _ _ _ _ G u1 t p1 p nb H1 Rt F1 F).
      * apply F. exact (proj1 (g_fresh _ _ _ _ _ G u1 p1 nb H1 F1)).
    + exact (g_fresh1 _ _ _ _ _ G u1 u2 p1 p2 nb H1 H2 F1 F2).
  - intros b. rewrite (total_put _ _ _ _ (Some (o, p))) by exact Ht. pose proof (g_open _ _ _ _ _ G b) as Go. specialize (Hopen b). cbn [decs]. lia.
Qed.

(* a step which does not change the memory *)
Lemma step_local : forall m ths ch d l t o p th,
  ginv m ths ch d l -> gz ths t = Some (Some (o, p)) ->
  (forall o' p', th = Some (o', p') -> tmono m ch d (len l) o' p') ->
  (th_own th = None \/ exists q, th_own th = Some q /\ own p = Some q) -> (th_fresh th = None \/ th_fresh th = fresh p) ->
  (forall b, decs b th = dec_at b p) ->
  ginv m (put ths t th) ch d l.
Proof.
  intros m ths ch d l t o p th G Ht Hm Ho Hf Hd. assert (Rt : run_at ths t p) by (exists o; exact Ht).
  apply (step_frame m ths ch d l m ch d l t o p th G Ht (g_mem _ _ _ _ _ G) eq_refl).
  - constructor; auto. lia.
  - exact Hm.
  - intros q Hq. destruct Ho as [Ho | (q0 & Ho & Hp)]; [congruence |]. assert (q0 = q) by congruence. subst q0. split; [exact (g_own _ _ _ _ _ G t p q Rt Hp) |]. left. exists q. auto.
  - intros u p1 q N R Q _. exact (g_own _ _ _ _ _ G u p1 q R Q).
  - intros nb Hn. destruct Hf as [Hf | Hf]; [congruence |]. assert (F : fresh p = Some nb) by congruence. destruct (g_fresh _ _ _ _ _ G t p nb Rt F) as (A & B). auto.
  - auto.
  - intros b. rewrite Hd. lia.
Qed.
