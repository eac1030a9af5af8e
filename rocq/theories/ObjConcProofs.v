(* Shared objects: memory accessors and the effect of single writes. *)
From Coq Require Import ZArith List Lia Bool ZifyBool.
Import ListNotations.
From Verif Require Import Base ListZ ObjConcSpec ObjConcModel.
From Verif Require ArrayConcProofs.
Local Open Scope Z_scope.
Ltac Zify.zify_post_hook ::= idtac.

Notation total := ArrayConcProofs.total.
Notation len_put := ArrayConcProofs.len_put.
Notation gz_put := ArrayConcProofs.gz_put.

Definition pow2 (c : Z) : Prop := exists k, 2 <= k <= 26 /\ c = 2 ^ k.
Lemma pow2_bound : forall c, pow2 c -> 4 <= c <= 67108864.
Proof. intros c (k & B & ->). change 4 with (2 ^ 2). change 67108864 with (2 ^ 26). split; apply Z.pow_le_mono_r; lia. Qed.
Lemma pow2_land : forall c x, pow2 c -> 0 <= Z.land x (c - 1) < c.
Proof.
  intros c x (k & B & ->). replace (2 ^ k - 1) with (Z.ones k) by (rewrite Z.ones_equiv; lia). rewrite land_low_mask by lia. apply Z.mod_pos_bound. apply Z.pow_pos_nonneg; lia.
Qed.

Definition tb (m : mem) (n : Z) : option table := gz (m_tables m) n.
Definition itm (m : mem) (n i : Z) : option pitem := match tb m n with Some t => gz (t_items t) i | None => None end.
Definition ik (m : mem) (n i : Z) : option key := match itm m n i with Some it => i_key it | None => None end.
Definition iv (m : mem) (n i : Z) : option pval := match itm m n i with Some it => Some (i_val it) | None => None end.
Definition nw (m : mem) (n : Z) : option Z := match tb m n with Some t => t_new t | None => None end.
Definition cp (m : mem) (n : Z) : Z := match tb m n with Some t => cap t | None => 0 end.
Definition opn (m : mem) (n : Z) : Z := match tb m n with Some t => t_open t | None => 0 end.
Definition cps (m : mem) (n : Z) : Z := match tb m n with Some t => t_copies t | None => 0 end.
Definition is_open (it : pitem) : Z := match i_val it with Closed => 0 | _ => 1 end.
Definition cnt (m : mem) (n : Z) : Z := match tb m n with Some t => total is_open (t_items t) | None => 0 end.
Definition alive (m : mem) (n : Z) : Prop := exists t, tb m n = Some t.
Lemma is_open_range : forall it, 0 <= is_open it <= 1.
Proof. intros it. unfold is_open. destruct (i_val it); lia. Qed.

Lemma iv_range : forall m n i v, iv m n i = Some v -> alive m n /\ 0 <= i < cp m n.
Proof.
  intros m n i v H. unfold iv, itm, cp, alive, cap in *. destruct (tb m n) as [t|]; [| discriminate H]. destruct (gz (t_items t) i) as [it|] eqn:E; [| discriminate H]. split; [eauto |]. exact (gz_some_inv _ _ _ _ E).
Qed.
Lemma iv_some : forall m n i, 0 <= i < cp m n -> exists v, iv m n i = Some v.
Proof.
  intros m n i H. unfold iv, itm, cp, cap in *. destruct (tb m n) as [t|]; [| lia]. destruct (gz_some _ _ _ H) as (it & ->). eauto.
Qed.
Lemma ik_iv : forall m n i k, ik m n i = Some k -> exists v, iv m n i = Some v.
Proof. intros m n i k H. unfold ik, iv in *. destruct (itm m n i); [eauto | discriminate H]. Qed.
Lemma ik_range : forall m n i k, ik m n i = Some k -> alive m n /\ 0 <= i < cp m n.
Proof. intros m n i k H. destruct (ik_iv _ _ _ _ H) as (v & Hv). exact (iv_range _ _ _ _ Hv). Qed.

(* what a write to table n means *)
Lemma tb_set : forall m n t t', tb m n = Some t -> forall b, tb (set_table m n t') b = if b =? n then Some t' else tb m b.
Proof. intros m n t t' H b. unfold tb, set_table. cbn [m_tables]. apply gz_put. exact (gz_some_inv _ _ _ _ H). Qed.

Lemma cnt_none : forall m n, cnt m n = 0 -> forall i v, iv m n i = Some v -> v = Closed.
Proof.
  intros m n H i v Hv. unfold cnt, iv, itm in *. destruct (tb m n) as [t|]; [| discriminate Hv]. destruct (gz (t_items t) i) as [it|] eqn:E; [| discriminate Hv].
  pose proof (ArrayConcProofs.total_pos _ is_open (t_items t) i it (fun x => proj1 (is_open_range x)) E) as P. rewrite H in P. unfold is_open in P. assert (v = i_val it) by congruence. subst v. destruct (i_val it); [lia | reflexivity | lia | lia].
Qed.
Lemma cnt_nonneg : forall m n, 0 <= cnt m n <= cp m n.
Proof.
  intros m n. unfold cnt, cp, cap. destruct (tb m n) as [t|]; [| lia]. split; [apply ArrayConcProofs.total_nonneg; intros x; apply is_open_range | apply ArrayConcProofs.total_le; intros x; apply is_open_range].
Qed.

(* an item of table n is replaced *)
Record item_written (m m' : mem) (n i : Z) (it : pitem) : Prop := IW {
  iw_itm : forall b j, itm m' b j = if (b =? n) && (j =? i) then Some it else itm m b j;
  iw_nw : forall b, nw m' b = nw m b;
  iw_cp : forall b, cp m' b = cp m b;
  iw_opn : forall b, opn m' b = opn m b;
  iw_cps : forall b, cps m' b = cps m b;
  iw_alive : forall b, alive m' b <-> alive m b;
  iw_props : m_props m' = m_props m;
  iw_len : len (m_tables m') = len (m_tables m);
  iw_cnt : forall b it0, itm m n i = Some it0 -> cnt m' b = if b =? n then cnt m b - is_open it0 + is_open it else cnt m b
}.
Lemma set_item_ok : forall m n t i it it0, tb m n = Some t -> gz (t_items t) i = Some it0 -> item_written m (set_item m n t i it) n i it.
Proof.
  intros m n t i it it0 Ht Hi. pose proof (gz_some_inv _ _ _ _ Hi) as Bi. unfold set_item. pose proof (tb_set m n t (Table (t_used t) (t_open t) (t_copies t) (t_new t) (put (t_items t) i it)) Ht) as T.
  set (m' := set_table m n (Table (t_used t) (t_open t) (t_copies t) (t_new t) (put (t_items t) i it))) in *. constructor.
  - intros b j. unfold itm. rewrite T. destruct (Z.eqb_spec b n) as [-> | N]; cbn [andb]; [| reflexivity]. rewrite Ht. cbn [t_items]. rewrite gz_put by exact Bi. reflexivity.
  - intros b. unfold nw. rewrite T. destruct (Z.eqb_spec b n) as [-> | N]; [| reflexivity]. rewrite Ht. reflexivity.
  - intros b. unfold cp. rewrite T. destruct (Z.eqb_spec b n) as [-> | N]; [| reflexivity]. rewrite Ht. unfold cap. cbn [t_items]. apply len_put. exact Bi.
  - intros b. unfold opn. rewrite T. destruct (Z.eqb_spec b n) as [-> | N]; [| reflexivity]. rewrite Ht. reflexivity.
  - intros b. unfold cps. rewrite T. destruct (Z.eqb_spec b n) as [-> | N]; [| reflexivity]. rewrite Ht. reflexivity.
  - intros b. unfold alive. rewrite T. destruct (Z.eqb_spec b n) as [-> | N]; [| reflexivity]. rewrite Ht. split; intros _; eauto.
  - reflexivity.
  - unfold m', set_table. cbn [m_tables]. apply len_put. exact (gz_some_inv _ _ _ _ Ht).
  - intros b it1 H1. unfold itm in H1. rewrite Ht in H1. assert (it1 = it0) by congruence. subst it1. unfold cnt. rewrite T. destruct (Z.eqb_spec b n) as [-> | N]; [| reflexivity]. rewrite Ht. cbn [t_items]. apply ArrayConcProofs.total_put. exact Hi.
Qed.

(* items do not change *)
Record same_items (m m' : mem) : Prop := SI {
  si_itm : forall b j, itm m' b j = itm m b j;
  si_cp : forall b, cp m' b = cp m b;
  si_alive : forall b, alive m' b <-> alive m b;
  si_cnt : forall b, cnt m' b = cnt m b
}.
Lemma set_counts_ok : forall m n t u o c w, tb m n = Some t -> let m' := set_table m n (Table u o c w (t_items t)) in
  same_items m m' /\ (forall b, nw m' b = if b =? n then w else nw m b) /\ (forall b, opn m' b = if b =? n then o else opn m b) /\
  (forall b, cps m' b = if b =? n then c else cps m b) /\ m_props m' = m_props m /\ len (m_tables m') = len (m_tables m).
Proof.
  intros m n t u o c w Ht. cbv zeta. pose proof (tb_set m n t (Table u o c w (t_items t)) Ht) as T. set (m' := set_table m n (Table u o c w (t_items t))) in *. split; [| split; [| split; [| split; [| split]]]].
  - constructor.
    + intros b j. unfold itm. rewrite T. destruct (Z.eqb_spec b n) as [-> | N]; [| reflexivity]. rewrite Ht. reflexivity.
    + intros b. unfold cp. rewrite T. destruct (Z.eqb_spec b n) as [-> | N]; [| reflexivity]. rewrite Ht. reflexivity.
    + intros b. unfold alive. rewrite T. destruct (Z.eqb_spec b n) as [-> | N]; [| reflexivity]. rewrite Ht. split; intros _; eauto.
    + intros b. unfold cnt. rewrite T. destruct (Z.eqb_spec b n) as [-> | N]; [| reflexivity]. rewrite Ht. reflexivity.
  - intros b. unfold nw. rewrite T. destruct (b =? n); reflexivity.
  - intros b. unfold opn. rewrite T. destruct (b =? n); reflexivity.
  - intros b. unfold cps. rewrite T. destruct (b =? n); reflexivity.
  - reflexivity.
  - unfold m', set_table. cbn [m_tables]. apply len_put. exact (gz_some_inv _ _ _ _ Ht).
Qed.

Section Inv.
(* W k v: a thread sets property k to v *)
Variable W : key -> Z -> Prop.

(* D: tables which are copied completely; P: tables which are or were known to all threads *)
Definition usable (m : mem) (D P : Z -> Prop) (n : Z) : Prop := alive m n /\ m_props m <> None /\ P n /\ forall p, nw m p = Some n -> D p.
Definition all_closed (m : mem) (n : Z) : Prop := forall i v, iv m n i = Some v -> v = Closed.

Record minv (m : mem) (D P : Z -> Prop) : Prop := MInv {
  a_cap : forall n, alive m n -> pow2 (cp m n);
  a_key : forall n i v, iv m n i = Some v -> ik m n i = None -> v = Tomb \/ v = Closed;
  a_closed : forall n i, iv m n i = Some Closed -> nw m n <> None;
  a_next : forall n nt, nw m n = Some nt -> alive m nt;
  a_uniq : forall p q n, nw m p = Some n -> nw m q = Some n -> p = q;
  a_props : forall n, m_props m = Some n -> usable m D P n;
  a_val : forall n i v, iv m n i = Some (Val v) -> exists k, ik m n i = Some k /\ W k v;
  a_done : forall n, D n -> all_closed m n;
  a_started : forall n i, iv m n i = Some Closed -> all_closed m n \/ 1 <= cps m n;
  a_pub : forall p n, nw m p = Some n -> P n;
  a_pubal : forall n, P n -> alive m n
}.

Lemma minv_item : forall m m' D P n i it0 it, minv m D P -> item_written m m' n i it -> itm m n i = Some it0 ->
  (i_key it = None -> i_val it = Tomb \/ i_val it = Closed) ->
  (i_val it = Closed -> i_val it0 = Closed \/ (nw m n <> None /\ 1 <= cps m n)) ->
  (forall v, i_val it = Val v -> exists k, i_key it = Some k /\ W k v) ->
  (i_val it0 = Closed -> i_val it = Closed) -> minv m' D P.
Proof.
  intros m m' D P n i it0 it I X H0 Hk Hc Hv Hs.
  assert (Iv : forall b j, iv m' b j = if (b =? n) && (j =? i) then Some (i_val it) else iv m b j) by (intros b j; unfold iv; rewrite (iw_itm _ _ _ _ _ X); destruct (_ && _); reflexivity).
  assert (Ik : forall b j, ik m' b j = if (b =? n) && (j =? i) then i_key it else ik m b j) by (intros b j; unfold ik; rewrite (iw_itm _ _ _ _ _ X); destruct (_ && _); reflexivity).
  assert (Iv0 : iv m n i = Some (i_val it0)) by (unfold iv; rewrite H0; reflexivity).
  constructor.
  - intros b Hb. rewrite (iw_cp _ _ _ _ _ X). apply (a_cap _ _ _ I). apply (iw_alive _ _ _ _ _ X). exact Hb.
  - intros b j v H1 H2. rewrite Iv in H1. rewrite Ik in H2. destruct (_ && _); [| exact (a_key _ _ _ I b j v H1 H2)]. assert (v = i_val it) by congruence. subst v. auto.
  - intros b j H1. rewrite (iw_nw _ _ _ _ _ X). rewrite Iv in H1. destruct ((b =? n) && (j =? i)) eqn:E; [| exact (a_closed _ _ _ I b j H1)].
    assert (b = n /\ j = i) as [-> ->] by lia. destruct (Hc ltac:(congruence)) as [Hc' | (Hc' & _)]; [| exact Hc']. apply (a_closed _ _ _ I n i). congruence.
  - intros b nt H1. rewrite (iw_nw _ _ _ _ _ X) in H1. apply (iw_alive _ _ _ _ _ X). exact (a_next _ _ _ I b nt H1).
  - intros p q b H1 H2. rewrite (iw_nw _ _ _ _ _ X) in H1, H2. exact (a_uniq _ _ _ I p q b H1 H2).
  - intros b H1. rewrite (iw_props _ _ _ _ _ X) in H1. destruct (a_props _ _ _ I b H1) as (A & B & Pn & C). split; [apply (iw_alive _ _ _ _ _ X); exact A |]. split; [rewrite (iw_props _ _ _ _ _ X); exact B |]. split; [exact Pn |]. intros p Hp. rewrite (iw_nw _ _ _ _ _ X) in Hp. auto.
  - intros b j v H1. rewrite Iv in H1. rewrite Ik. destruct (_ && _); [| exact (a_val _ _ _ I b j v H1)]. apply Hv. congruence.
  - intros b Hb j v H1. rewrite Iv in H1. destruct ((b =? n) && (j =? i)) eqn:E; [| exact (a_done _ _ _ I b Hb j v H1)]. assert (b = n /\ j = i) as [-> ->] by lia. assert (E1 : v = i_val it) by congruence. rewrite E1. apply Hs. exact (a_done _ _ _ I n Hb i _ Iv0).
  - intros b j H1. rewrite (iw_cps _ _ _ _ _ X).
    assert (Old : forall j0, iv m b j0 = Some Closed -> all_closed m' b \/ 1 <= cps m b).
    { intros j0 H2. destruct (a_started _ _ _ I b j0 H2) as [A | A]; [| right; exact A]. left. intros j1 v H3. rewrite Iv in H3. destruct ((b =? n) && (j1 =? i)) eqn:E; [| exact (A j1 v H3)]. assert (b = n /\ j1 = i) as [-> ->] by lia. assert (E1 : v = i_val it) by congruence. rewrite E1. apply Hs. exact (A i _ Iv0). }
    rewrite Iv in H1. destruct ((b =? n) && (j =? i)) eqn:E; [| eapply Old; exact H1]. assert (b = n /\ j = i) as [-> ->] by lia. destruct (Hc ltac:(congruence)) as [Hc' | (_ & Hc')]; [| right; exact Hc']. apply (Old i). congruence.
  - intros p b H1. rewrite (iw_nw _ _ _ _ _ X) in H1. exact (a_pub _ _ _ I p b H1).
  - intros b H1. apply (iw_alive _ _ _ _ _ X). exact (a_pubal _ _ _ I b H1).
Qed.

(* tables, items and the links are the same; D may grow, counters of copies may change *)
Lemma minv_same : forall m m' D P (D' : Z -> Prop), minv m D P -> same_items m m' -> (forall b, nw m' b = nw m b) -> m_props m' = m_props m ->
  (forall n, D n -> D' n) -> (forall n, D' n -> D n \/ all_closed m n) -> (forall n, all_closed m n \/ cps m' n = cps m n \/ 1 <= cps m' n) -> minv m' D' P.
Proof.
  intros m m' D P D' I X Hn Hp HD HD' Hc.
  assert (Iv : forall b j, iv m' b j = iv m b j) by (intros b j; unfold iv; rewrite (si_itm _ _ X); reflexivity).
  assert (Ik : forall b j, ik m' b j = ik m b j) by (intros b j; unfold ik; rewrite (si_itm _ _ X); reflexivity).
  assert (Ac : forall b, all_closed m b -> all_closed m' b) by (intros b H j v; rewrite Iv; apply H).
  constructor.
  - intros b Hb. rewrite (si_cp _ _ X). apply (a_cap _ _ _ I). apply (si_alive _ _ X). exact Hb.
  - intros b j v H1 H2. rewrite Iv in H1. rewrite Ik in H2. exact (a_key _ _ _ I b j v H1 H2).
  - intros b j H1. rewrite Hn. rewrite Iv in H1. exact (a_closed _ _ _ I b j H1).
  - intros b nt H1. rewrite Hn in H1. apply (si_alive _ _ X). exact (a_next _ _ _ I b nt H1).
  - intros p q b H1 H2. rewrite Hn in H1, H2. exact (a_uniq _ _ _ I p q b H1 H2).
  - intros b H1. rewrite Hp in H1. destruct (a_props _ _ _ I b H1) as (A & B & Pn & C). split; [apply (si_alive _ _ X); exact A |]. split; [rewrite Hp; exact B |]. split; [exact Pn |]. intros p H2. rewrite Hn in H2. auto.
  - intros b j v H1. rewrite Iv in H1. rewrite Ik. exact (a_val _ _ _ I b j v H1).
  - intros b Hb. apply Ac. destruct (HD' b Hb) as [A | A]; [exact (a_done _ _ _ I b A) | exact A].
  - intros b j H1. rewrite Iv in H1. destruct (Hc b) as [A | [A | A]]; [left; apply Ac; exact A | | right; exact A]. rewrite A. destruct (a_started _ _ _ I b j H1) as [B | B]; [left; apply Ac; exact B | right; exact B].
  - intros p b H1. rewrite Hn in H1. exact (a_pub _ _ _ I p b H1).
  - intros b H1. apply (si_alive _ _ X). exact (a_pubal _ _ _ I b H1).
Qed.

(* a new table *)
Lemma minv_alloc : forall m D P c, minv m D P -> pow2 c -> let n := len (m_tables m) in let m' := Mem (m_tables m ++ [new_table c]) (m_props m) in
  (forall p, D p -> alive m p) -> minv m' D P /\ (forall b, alive m b -> tb m' b = tb m b) /\ alive m' n /\ ~ alive m n /\ (forall b j, b <> n -> itm m' b j = itm m b j) /\ (forall b, nw m' b = nw m b) /\
  (forall b, opn m' b - cnt m' b = opn m b - cnt m b) /\ (forall b, cps m' b = cps m b) /\ (forall j v, iv m' n j = Some v -> v = Tomb).
Proof.
  intros m D P c I Pc. cbv zeta. intros Da. set (n := len (m_tables m)). set (m' := Mem (m_tables m ++ [new_table c]) (m_props m)).
  assert (T : forall b, tb m' b = if b =? n then Some (new_table c) else tb m b).
  { intros b. unfold tb, m'. cbn [m_tables]. rewrite gz_app. fold n. destruct (Z.ltb_spec b n), (Z.eqb_spec b n); try lia; try reflexivity.
    - subst b. rewrite Z.sub_diag. reflexivity.
    - rewrite !gz_ge; [reflexivity | unfold n in *; lia | rewrite len_cons, len_nil; lia]. }
  assert (Dead : tb m n = None) by (unfold tb; apply gz_ge; unfold n; lia).
  assert (Tn : forall b, alive m b -> b <> n) by (intros b (t & Ht) ->; congruence).
  assert (It : forall b j, b <> n -> itm m' b j = itm m b j) by (intros b j N; unfold itm; rewrite T; destruct (Z.eqb_spec b n); [contradiction | reflexivity]).
  assert (Nw : forall b, nw m' b = nw m b) by (intros b; unfold nw; rewrite T; destruct (Z.eqb_spec b n) as [-> |]; [rewrite Dead; reflexivity | reflexivity]).
  assert (Cs : forall b, cps m' b = cps m b) by (intros b; unfold cps; rewrite T; destruct (Z.eqb_spec b n) as [-> |]; [rewrite Dead; reflexivity | reflexivity]).
  assert (Itn : forall j it, itm m' n j = Some it -> it = PItem None 0 Tomb) by (intros j it H; unfold itm in H; rewrite T, Z.eqb_refl in H; cbn [new_table t_items] in H; rewrite gz_repeat in H; destruct (_ && _); congruence).
  assert (Ivn : forall j v, iv m' n j = Some v -> v = Tomb) by (intros j v H; unfold iv in H; destruct (itm m' n j) as [it|] eqn:E; [| discriminate H]; apply Itn in E; subst it; cbn [i_val] in H; congruence).
  assert (Iv : forall b j, b <> n -> iv m' b j = iv m b j) by (intros b j N; unfold iv; rewrite It by exact N; reflexivity).
  assert (Ik : forall b j, b <> n -> ik m' b j = ik m b j) by (intros b j N; unfold ik; rewrite It by exact N; reflexivity).
  assert (Al : forall b, alive m b -> alive m' b) by (intros b (t & Ht); exists t; rewrite T; destruct (Z.eqb_spec b n); [congruence | exact Ht]).
  split; [| split; [| split; [| split; [| split; [| split; [| split; [| split]]]]]]].
  - constructor.
    + intros b (t & Ht). unfold cp. rewrite T in *. destruct (Z.eqb_spec b n) as [-> | N].
      * unfold cap, new_table. cbn [t_items]. rewrite len_repeat. pose proof (pow2_bound c Pc). rewrite Z2Nat.id by lia. exact Pc.
      * assert (A : alive m b) by (exists t; exact Ht). exact (a_cap _ _ _ I b A).
    + intros b j v H1 H2. destruct (Z.eq_dec b n) as [-> | N]; [left; exact (Ivn j v H1) |]. rewrite Iv in H1 by exact N. rewrite Ik in H2 by exact N. exact (a_key _ _ _ I b j v H1 H2).
    + intros b j H1. rewrite Nw. destruct (Z.eq_dec b n) as [-> | N]; [apply Ivn in H1; discriminate H1 |]. rewrite Iv in H1 by exact N. exact (a_closed _ _ _ I b j H1).
    + intros b nt H1. rewrite Nw in H1. apply Al. exact (a_next _ _ _ I b nt H1).
    + intros p q b H1 H2. rewrite Nw in H1, H2. exact (a_uniq _ _ _ I p q b H1 H2).
    + intros b H1. destruct (a_props _ _ _ I b H1) as (A & B & Pn & C). split; [apply Al; exact A |]. split; [exact B |]. split; [exact Pn |]. intros p H2. rewrite Nw in H2. auto.
    + intros b j v H1. destruct (Z.eq_dec b n) as [-> | N]; [apply Ivn in H1; discriminate H1 |]. rewrite Iv in H1 by exact N. rewrite Ik by exact N. exact (a_val _ _ _ I b j v H1).
    + intros b Hb j v H1. rewrite Iv in H1 by (apply Tn; apply Da; exact Hb). exact (a_done _ _ _ I b Hb j v H1).
    + intros b j H1. destruct (Z.eq_dec b n) as [-> | N]; [apply Ivn in H1; discriminate H1 |]. rewrite Iv in H1 by exact N. rewrite Cs. destruct (a_started _ _ _ I b j H1) as [A | A]; [left | right; exact A]. intros j1 v H2. rewrite Iv in H2 by exact N. exact (A j1 v H2).
    + intros p b H1. rewrite Nw in H1. exact (a_pub _ _ _ I p b H1).
    + intros b H1. apply Al. exact (a_pubal _ _ _ I b H1).
  - intros b Hb. rewrite T. destruct (Z.eqb_spec b n) as [-> |]; [exfalso; exact (Tn n Hb eq_refl) | reflexivity].
  - exists (new_table c). rewrite T, Z.eqb_refl. reflexivity.
  - intros (t & Ht). congruence.
  - exact It.
  - exact Nw.
  - intros b. unfold opn, cnt. rewrite T. destruct (Z.eqb_spec b n) as [-> |]; [| reflexivity]. rewrite Dead. cbn [new_table t_open t_items]. pose proof (pow2_bound c Pc) as Pb.
    assert (E : forall k, total is_open (repeat (PItem None 0 Tomb) k) = Z.of_nat k) by (induction k as [|k IH]; [reflexivity |]; cbn [repeat ArrayConcProofs.total]; rewrite IH; unfold is_open; cbn [i_val]; lia). rewrite E. lia.
  - exact Cs.
  - exact Ivn.
Qed.

(* a fresh table becomes the successor of n *)
Lemma minv_link : forall m D P n t nt, minv m D P -> tb m n = Some t -> t_new t = None -> alive m nt -> m_props m <> Some nt -> (forall p, nw m p <> Some nt) ->
  let m' := set_table m n (Table (t_used t) (t_open t) (t_copies t) (Some nt) (t_items t)) in minv m' D (fun b => P b \/ b = nt).
Proof.
  intros m D P n t nt I Ht Hn Al Np Nn. cbv zeta. destruct (set_counts_ok m n t (t_used t) (t_open t) (t_copies t) (Some nt) Ht) as (X & Nw & Op & Cs & Pr & _). cbv zeta in *. set (m' := set_table m n (Table (t_used t) (t_open t) (t_copies t) (Some nt) (t_items t))) in *.
  assert (N0 : nw m n = None) by (unfold nw; rewrite Ht; exact Hn).
  assert (Cs' : forall b, cps m' b = cps m b) by (intros b; rewrite Cs; destruct (Z.eqb_spec b n) as [-> |]; [unfold cps; rewrite Ht; reflexivity | reflexivity]).
  assert (Iv : forall b j, iv m' b j = iv m b j) by (intros b j; unfold iv; rewrite (si_itm _ _ X); reflexivity).
  assert (Ik : forall b j, ik m' b j = ik m b j) by (intros b j; unfold ik; rewrite (si_itm _ _ X); reflexivity).
  assert (Ac : forall b, all_closed m b -> all_closed m' b) by (intros b H j v; rewrite Iv; apply H).
  constructor.
  - intros b Hb. rewrite (si_cp _ _ X). apply (a_cap _ _ _ I). apply (si_alive _ _ X). exact Hb.
  - intros b j v H1 H2. rewrite Iv in H1. rewrite Ik in H2. exact (a_key _ _ _ I b j v H1 H2).
  - intros b j H1. rewrite Nw. destruct (b =? n); [discriminate |]. rewrite Iv in H1. exact (a_closed _ _ _ I b j H1).
  - intros b x H1. rewrite Nw in H1. apply (si_alive _ _ X). destruct (b =? n); [assert (x = nt) by congruence; subst x; exact Al | exact (a_next _ _ _ I b x H1)].
  - intros p q b H1 H2. rewrite Nw in H1, H2. destruct (Z.eqb_spec p n) as [-> | N1], (Z.eqb_spec q n) as [-> | N2]; [reflexivity | | | exact (a_uniq _ _ _ I p q b H1 H2)]; exfalso; [apply (Nn q) | apply (Nn p)]; congruence.
  - intros b H1. rewrite Pr in H1. destruct (a_props _ _ _ I b H1) as (A & B & Pn & C). split; [apply (si_alive _ _ X); exact A |]. split; [rewrite Pr; exact B |]. split; [left; exact Pn |]. intros p H2. rewrite Nw in H2. destruct (p =? n); [exfalso; apply Np; congruence | auto].
  - intros b j v H1. rewrite Iv in H1. rewrite Ik. exact (a_val _ _ _ I b j v H1).
  - intros b Hb. apply Ac. exact (a_done _ _ _ I b Hb).
  - intros b j H1. rewrite Iv in H1. rewrite Cs'. destruct (a_started _ _ _ I b j H1) as [A | A]; [left; apply Ac; exact A | right; exact A].
  - intros p b H1. rewrite Nw in H1. destruct (p =? n); [right; congruence | left; exact (a_pub _ _ _ I p b H1)].
  - intros b [H1 | ->]; apply (si_alive _ _ X); [exact (a_pubal _ _ _ I b H1) | exact Al].
Qed.

(* the table of the object changes *)
Lemma minv_props : forall m D P q, minv m D P -> alive m q -> (forall p, nw m p = Some q -> D p) -> minv (Mem (m_tables m) (Some q)) D (fun b => P b \/ b = q).
Proof.
  intros m D P q I Al Pd. destruct I as [I1 I2 I3 I4 I5 I6 I7 I8 I9 I10 I11]. constructor; try assumption; [| intros p n E; left; exact (I10 p n E) | intros n [E | ->]; [exact (I11 n E) | exact Al]].
  intros n E. cbn [m_props] in E. assert (n = q) by congruence. subst n. split; [exact Al |]. split; [discriminate |]. split; [right; reflexivity | exact Pd].
Qed.
End Inv.
