(* Shared arrays: every step preserves the invariant. *)
From Coq Require Import ZArith List Lia Bool ZifyBool.
Import ListNotations.
From Verif Require Import Base ListZ ArrayModel ArrayConcSpec ArrayConcModel ArrayConcProofs ArrayConcProofs2.
Local Open Scope Z_scope.
Ltac Zify.zify_post_hook ::= idtac.

Lemma minv_same : forall m m' ch d l, minv m ch d l ->
  (forall c j, sl m' c j = sl m c j) -> (forall c, cp m' c = cp m c) -> (forall c, nx m' c = nx m c) ->
  len (m_bufs m') = len (m_bufs m) -> m_data m' = m_data m -> m_size m' = m_size m ->
  (forall b, alive m b -> 0 <= opn m' b <= 1000000000) -> minv m' ch d l.
Proof.
  intros m m' ch d l I S C N L D Z O. assert (A : forall b, alive m' b <-> alive m b) by (intros b; unfold alive; rewrite L; tauto).
  destruct I. constructor; try assumption.
  - congruence.
  - congruence.
  - intros k b H. rewrite A, N. auto.
  - intros b H1 H2. rewrite A in H1. rewrite N. destruct (v_free b H1 H2) as (F1 & F2). split; [exact F1 |]. intros i v. rewrite S. apply F2.
  - intros b H. rewrite A in H. rewrite C. auto.
  - intros b H. rewrite A in H. auto.
  - intros k b i v. rewrite S. apply v_old.
  - intros k b. rewrite C. apply v_fit.
  - intros b i v. rewrite S. apply v_cur.
  - intros b i v. rewrite S. apply v_new.
  - intros i x H. destruct (v_vals i x H) as (b & Hb & V). exists b. split; [exact Hb |]. rewrite S. destruct V as [V | (V & b' & V1 & V2)]; [left; exact V | right]. split; [exact V |]. exists b'. rewrite S. auto.
Qed.
Lemma ext_same : forall m m' ch d, (forall c j, sl m' c j = sl m c j) -> (forall c, cp m' c = cp m c) -> len (m_bufs m') = len (m_bufs m) -> ext m ch d m' ch d.
Proof. intros m m' ch d S C L. constructor; auto; [lia | | ]. - intros b. unfold alive. lia. - intros b i. rewrite S. auto. Qed.

Section Step.
Variables (m : mem) (ths : list (option (op * pc))) (ch : list Z) (d : Z) (l : list Z) (t : Z) (o : op).
Hypothesis I : minv m ch d l.

Lemma dlt : forall k b, gz ch k = Some b -> d < len ch.
Proof. intros k b H. destruct (v_d _ _ _ _ I) as (_ & _ & [X | (X & _)]); [exact X |]. rewrite X in H. apply gz_some_inv in H. rewrite len_nil in H. lia. Qed.
Lemma cur_some : forall k b, gz ch k = Some b -> exists c, gz ch d = Some c.
Proof. intros k b H. apply gz_some. pose proof (dlt k b H). pose proof (v_d _ _ _ _ I). lia. Qed.

(* the element is in the slot which is reached *)
Lemma auth : forall i b v, reach m ch d i b -> 0 <= i < len l -> sl m b i = Some v ->
  match v with
  | Tomb => False
  | Val x => gz l i = Some x /\ (gz ch d = Some b \/ (gz ch (d + 1) = Some b /\ exists b0, gz ch d = Some b0 /\ sl m b0 i = Some Closed))
  | Closed => exists k nb, gz ch k = Some b /\ k <= d /\ nx m b = Some nb /\ gz ch (k + 1) = Some nb
  end.
Proof.
  intros i b v (k & Hk & R) Hi Hv. destruct (gz_some _ l i Hi) as (x & Hx). destruct (v_vals _ _ _ _ I i x Hx) as (c & Hc & V).
  destruct (v_chain _ _ _ _ I k b Hk) as (_ & Nx).
  destruct R as [R | (-> & b0 & Hb0 & Hcl)].
  - destruct (Z.eq_dec k d) as [-> | N].
    + assert (c = b) by congruence. subst c. pose proof (v_cur _ _ _ _ I b i v Hk Hv) as Cu. destruct v as [| | w]; [lia | |].
      * destruct (gz_some _ ch (d + 1)) as (nb & Hnb); [pose proof (v_d _ _ _ _ I); lia |]. exists d, nb. split; [exact Hk |]. split; [lia |]. split; [congruence | exact Hnb].
      * split; [destruct V as [V | (V & _)]; congruence | left; exact Hk].
    + pose proof (v_old _ _ _ _ I k b i v Hk ltac:(lia) Hv) as ->. destruct (gz_some _ ch (k + 1)) as (nb & Hnb); [pose proof (gz_some_inv _ _ _ _ Hk); pose proof (dlt k b Hk); lia |].
      exists k, nb. split; [exact Hk |]. split; [exact R |]. split; [congruence | exact Hnb].
  - assert (c = b0) by congruence. subst c. destruct V as [V | (_ & b' & Hb' & V)]; [congruence |]. assert (b' = b) by congruence. subst b'. assert (v = Val x) by congruence. subst v.
    split; [exact Hx |]. right. split; [exact Hk |]. exists b0. auto.
Qed.

Lemma position_el : forall i, at_el o i (len l) -> position l (op_index o) = i.
Proof.
  intros i (A & -> & B). pose proof (v_max _ _ _ _ I) as Mx. unfold position, bufidx in *. assert (R : - 2147483648 <= op_index o < 2147483648) by (destruct o; cbn [access op_index] in *; try contradiction; exact A).
  destruct (op_index o <? 0) eqn:E; [| reflexivity]. unfold u32, uwrap in *. clear - R B Mx E. change (2 ^ 32) with 4294967296 in *.
  assert ((op_index o + len l) mod 4294967296 = op_index o + len l \/ (op_index o + len l) mod 4294967296 = op_index o + len l + 4294967296) by (Z.div_mod_to_equations; lia). lia.
Qed.
Lemma bufidx_nonneg : forall n, access o -> 0 <= bufidx (op_index o) n.
Proof.
  intros n A. unfold bufidx. destruct (op_index o <? 0) eqn:E; [| lia]. unfold u32, uwrap. apply Z.mod_pos_bound. reflexivity.
Qed.
Lemma position_out : access o -> len l <= bufidx (op_index o) (len l) -> gz l (position l (op_index o)) = None.
Proof.
  intros A H. assert (R : - 2147483648 <= op_index o < 2147483648) by (destruct o; cbn [access op_index] in *; try contradiction; exact A). pose proof (v_max _ _ _ _ I) as Mx. pose proof (len_nonneg _ l) as Ln.
  unfold position, bufidx in *. destruct (Z.ltb_spec (op_index o) 0) as [E | E]; [| apply gz_ge; exact H]. apply gz_neg. unfold u32, uwrap in H. change (2 ^ 32) with 4294967296 in *.
  destruct (Z_lt_dec (op_index o + len l) 0) as [|N]; [assumption |]. rewrite Z.mod_small in H by lia. lia.
Qed.

(* an element is replaced *)
Lemma minv_write : forall i b x v new m', reach m ch d i b -> 0 <= i < len l -> gz (m_bufs m) b = Some x -> gz (b_slots x) i = Some (Val v) ->
  m' = set_slot m b x i (Val new) -> minv m' ch d (put l i new).
Proof.
  intros i b x v new m' R Hi Hx Hv ->. pose proof (gz_some_inv _ _ _ _ Hv) as Bi. destruct (slot_write m b x i (Val new) Hx Bi) as (W1 & W2 & W3 & W4 & W5 & W6 & W7 & W8). set (m' := set_slot m b x i (Val new)) in *.
  assert (Sv : sl m b i = Some (Val v)) by (unfold sl; rewrite Hx; exact Hv). pose proof (auth i b (Val v) R Hi Sv) as (Lx & Pos).
  assert (Ll : len (put l i new) = len l) by (apply len_put; exact Hi).
  assert (A : forall b, alive m' b <-> alive m b) by (intros c; unfold alive; rewrite W5; tauto).
  constructor.
  - exact (v_once _ _ _ _ I).
  - rewrite W6. exact (v_data _ _ _ _ I).
  - destruct (v_d _ _ _ _ I) as (D1 & D2 & D3). split; [exact D1 |]. split; [exact D2 |]. destruct D3 as [D3 | (_ & _ & D3)]; [left; exact D3 |]. exfalso. rewrite D3, len_nil in Hi. lia.
  - rewrite W7, Ll. exact (v_size _ _ _ _ I).
  - rewrite Ll. exact (v_max _ _ _ _ I).
  - intros k c H. rewrite A, W3. exact (v_chain _ _ _ _ I k c H).
  - intros c H1 H2. rewrite A in H1. rewrite W3. destruct (v_free _ _ _ _ I c H1 H2) as (F1 & F2). split; [exact F1 |]. intros j w. rewrite W1. destruct ((c =? b) && (j =? i)) eqn:E; [| apply F2].
    exfalso. assert (c = b) by lia. subst c. destruct Pos as [P | (P & _)]; exact (H2 _ P).
  - intros c H. rewrite A in H. rewrite W2. exact (v_caps _ _ _ _ I c H).
  - intros c H. rewrite A in H. rewrite W4. exact (v_open _ _ _ _ I c H).
  - intros k c j w H1 H2 H3. rewrite W1 in H3. destruct ((c =? b) && (j =? i)) eqn:E; [| exact (v_old _ _ _ _ I k c j w H1 H2 H3)].
    exfalso. assert (c = b) by lia. subst c. destruct Pos as [P | (P & _)]; pose proof (v_once _ _ _ _ I _ _ _ P H1); lia.
  - intros k c H. rewrite W2, Ll. exact (v_fit _ _ _ _ I k c H).
  - intros c j w H1 H2. rewrite W1 in H2. rewrite Ll. destruct ((c =? b) && (j =? i)) eqn:E; [| exact (v_cur _ _ _ _ I c j w H1 H2)].
    assert (w = Val new) by congruence. subst w. lia.
  - intros c j w H1 H2. rewrite W1 in H2. rewrite Ll. destruct ((c =? b) && (j =? i)) eqn:E; [| exact (v_new _ _ _ _ I c j w H1 H2)].
    assert (w = Val new) by congruence. subst w. split; [discriminate |]. lia.
  - intros j y Hy. rewrite gz_put in Hy by exact Hi. destruct (Z.eqb_spec j i) as [-> | N].
    + assert (y = new) by congruence. subst y. destruct Pos as [P | (P & b0 & P0 & P1)].
      * exists b. split; [exact P |]. left. rewrite W1, !Z.eqb_refl. reflexivity.
      * exists b0. split; [exact P0 |]. right. rewrite W1. destruct ((b0 =? b) && (i =? i)) eqn:E.
        { exfalso. assert (b0 = b) by lia. subst b0. pose proof (v_once _ _ _ _ I _ _ _ P P0). lia. }
        split; [exact P1 |]. exists b. split; [exact P |]. rewrite W1, !Z.eqb_refl. reflexivity.
    + destruct (v_vals _ _ _ _ I j y Hy) as (c & Hc & V). exists c. split; [exact Hc |]. rewrite W1. replace ((c =? b) && (j =? i)) with false by (destruct (c =? b); lia).
      destruct V as [V | (V & b' & V1 & V2)]; [left; exact V | right]. split; [exact V |]. exists b'. rewrite W1. replace ((b' =? b) && (j =? i)) with false by (destruct (b' =? b); lia). auto.
Qed.

(* a value is copied to the new storage *)
Lemma minv_dst : forall i old new x v y, gz ch d = Some old -> gz ch (d + 1) = Some new -> 0 <= i < len l -> sl m old i = Some v -> v <> Closed ->
  gz (m_bufs m) new = Some x -> 0 <= i < cap x -> minv (set_slot m new x i (Val y)) ch d l.
Proof.
  intros i old new x v y Ho Hn Hi Hv Nc Hx Bi. destruct (slot_write m new x i (Val y) Hx Bi) as (W1 & W2 & W3 & W4 & W5 & W6 & W7 & _). set (m' := set_slot m new x i (Val y)) in *.
  assert (A : forall b, alive m' b <-> alive m b) by (intros c; unfold alive; rewrite W5; tauto).
  assert (Ne : forall k, gz ch k = Some new -> k = d + 1) by (intros k Hk; exact (v_once _ _ _ _ I _ _ _ Hk Hn)).
  assert (Sd : forall k c j, gz ch k = Some c -> k <> d + 1 -> sl m' c j = sl m c j).
  { intros k c j Hk N. rewrite W1. destruct ((c =? new) && (j =? i)) eqn:E; [| reflexivity]. exfalso. assert (c = new) by lia. subst c. apply N. apply Ne. exact Hk. }
  destruct I. constructor; try assumption.
  - intros k c H. rewrite A, W3. auto.
  - intros c H1 H2. rewrite A in H1. rewrite W3. destruct (v_free c H1 H2) as (F1 & F2). split; [exact F1 |]. intros j w. rewrite W1. destruct ((c =? new) && (j =? i)) eqn:E; [| apply F2].
    exfalso. assert (c = new) by lia. subst c. exact (H2 _ Hn).
  - intros c H. rewrite A in H. rewrite W2. auto.
  - intros c H. rewrite A in H. rewrite W4. auto.
  - intros k c j w H1 H2. rewrite (Sd k c j H1) by lia. apply (v_old k); assumption.
  - intros k c. rewrite W2. apply v_fit.
  - intros c j w H1. rewrite (Sd d c j H1) by lia. apply v_cur. exact H1.
  - intros c j w H1 H2. rewrite W1 in H2. destruct ((c =? new) && (j =? i)) eqn:E; [| exact (v_new c j w H1 H2)]. assert (w = Val y) by congruence. subst w. split; [discriminate | lia].
  - intros j z Hz. destruct (v_vals j z Hz) as (c & Hc & V). exists c. split; [exact Hc |]. rewrite (Sd d c j Hc) by lia. assert (c = old) by congruence. subst c.
    destruct V as [V | (V & b' & V1 & V2)]; [left; exact V | right]. split; [exact V |]. exists b'. split; [exact V1 |]. rewrite W1.
    destruct ((b' =? new) && (j =? i)) eqn:E; [| exact V2]. exfalso. assert (j = i) by lia. subst j. congruence.
Qed.

(* a slot of the old storage is closed *)
Lemma minv_close : forall i old new x v, gz ch d = Some old -> gz ch (d + 1) = Some new -> gz (m_bufs m) old = Some x -> gz (b_slots x) i = Some v ->
  (forall y, v = Val y -> sl m new i = Some (Val y)) -> v <> Closed -> minv (set_slot m old x i Closed) ch d l.
Proof.
  intros i old new x v Ho Hn Hx Hv Hd Nc. pose proof (gz_some_inv _ _ _ _ Hv) as Bi. destruct (slot_write m old x i Closed Hx Bi) as (W1 & W2 & W3 & W4 & W5 & W6 & W7 & _). set (m' := set_slot m old x i Closed) in *.
  assert (A : forall b, alive m' b <-> alive m b) by (intros c; unfold alive; rewrite W5; tauto).
  assert (Sd : forall k c j, gz ch k = Some c -> k <> d -> sl m' c j = sl m c j).
  { intros k c j Hk N. rewrite W1. destruct ((c =? old) && (j =? i)) eqn:E; [| reflexivity]. exfalso. assert (c = old) by lia. subst c. apply N. exact (v_once _ _ _ _ I _ _ _ Hk Ho). }
  assert (So : sl m old i = Some v) by (unfold sl; rewrite Hx; exact Hv).
  destruct I. constructor; try assumption.
  - intros k c H. rewrite A, W3. auto.
  - intros c H1 H2. rewrite A in H1. rewrite W3. destruct (v_free c H1 H2) as (F1 & F2). split; [exact F1 |]. intros j w. rewrite W1. destruct ((c =? old) && (j =? i)) eqn:E; [| apply F2].
    exfalso. assert (c = old) by lia. subst c. exact (H2 _ Ho).
  - intros c H. rewrite A in H. rewrite W2. auto.
  - intros c H. rewrite A in H. rewrite W4. auto.
  - intros k c j w H1 H2. rewrite (Sd k c j H1) by lia. apply (v_old k); assumption.
  - intros k c. rewrite W2. apply v_fit.
  - intros c j w H1 H2. rewrite W1 in H2. destruct ((c =? old) && (j =? i)) eqn:E; [| exact (v_cur c j w H1 H2)]. assert (w = Closed) by congruence. subst w. apply gz_some_inv in Hn. lia.
  - intros c j w H1. rewrite (Sd (d + 1) c j H1) by lia. apply v_new. exact H1.
  - intros j z Hz. destruct (v_vals j z Hz) as (c & Hc & V). exists c. split; [exact Hc |]. assert (c = old) by congruence. subst c. rewrite W1, Z.eqb_refl. cbn [andb].
    destruct (Z.eqb_spec j i) as [-> | N].
    + right. split; [reflexivity |]. exists new. split; [exact Hn |]. rewrite (Sd (d + 1) new i Hn) by lia. destruct V as [V | (V & _)]; [| congruence]. apply Hd. congruence.
    + destruct V as [V | (V & b' & V1 & V2)]; [left; exact V | right]. split; [exact V |]. exists b'. split; [exact V1 |]. rewrite (Sd (d + 1) b' j V1) by lia. exact V2.
Qed.

(* array->data is replaced *)
Lemma minv_advance : forall old new, gz ch d = Some old -> gz ch (d + 1) = Some new -> (forall i v, sl m old i = Some v -> v = Closed) ->
  minv (set_data m (Some new)) ch (d + 1) l.
Proof.
  intros old new Ho Hn Hall.
  assert (Vn : forall i x, gz l i = Some x -> sl m new i = Some (Val x)).
  { intros i x H. destruct (v_vals _ _ _ _ I i x H) as (c & Hc & V). assert (c = old) by congruence. subst c. destruct V as [V | (_ & b' & V1 & V2)]; [apply Hall in V; discriminate V |]. congruence. }
  destruct I. constructor; try assumption.
  - cbn. congruence.
  - pose proof (gz_some_inv _ _ _ _ Hn). lia.
  - intros k c i v H1 H2 H3. destruct (Z.eq_dec k d) as [-> | N]; [| apply (v_old k c i v); [assumption | lia | exact H3]]. assert (c = old) by congruence. subst c. exact (Hall i v H3).
  - intros k c H1 H2. destruct (Z.eq_dec k (d + 1)) as [-> | N]; [| apply (v_fit k); [exact H1 | lia]]. assert (c = new) by congruence. subst c. pose proof (len_nonneg _ l).
    destruct (Z.eq_dec (len l) 0) as [-> | N]; [destruct (v_chain _ _ Hn) as (Al & _); pose proof (v_caps new Al); change (cp (set_data m (Some new)) new) with (cp m new); lia |].
    destruct (gz_some _ l (len l - 1) ltac:(lia)) as (x & Hx). apply Vn in Hx. apply sl_range in Hx. change (cp (set_data m (Some new)) new) with (cp m new). lia.
  - intros c i v H1 H2. change (sl (set_data m (Some new)) c i) with (sl m c i) in H2. destruct (v_new c i v H1 H2) as (N1 & N2). assert (c = new) by congruence. subst c. destruct v as [| | x]; [| congruence |].
    + destruct (Z_le_dec (len l) i) as [|N]; [assumption |]. destruct (gz_some _ l i) as (x & Hx); [apply sl_range in H2; lia |]. apply Vn in Hx. congruence.
    + destruct (Z_lt_dec i (len l)) as [|N]; [assumption |]. specialize (N2 ltac:(lia)). discriminate N2.
  - intros c i v H1. apply gz_some_inv in H1. lia.
  - intros i x H. exists new. split; [exact Hn |]. left. exact (Vn i x H).
Qed.

(* a storage is allocated *)
Lemma minv_alloc : forall n, 1 <= alloc_capacity n <= 1000000000 -> let m' := Mem (m_bufs m ++ [new_buf n]) (m_data m) (m_size m) in
  minv m' ch d l /\ ext m ch d m' ch d /\ alive m' (len (m_bufs m)) /\ (forall k, gz ch k <> Some (len (m_bufs m))) /\
  (forall b, opn m' b - cnt m' b = opn m b - cnt m b) /\ cp m' (len (m_bufs m)) = alloc_capacity n.
Proof.
  intros n Hn m'. assert (G : forall b, gz (m_bufs m') b = if b =? len (m_bufs m) then Some (new_buf n) else gz (m_bufs m) b).
  { intros b. subst m'. cbn [m_bufs]. destruct (Z_lt_dec b 0) as [Hb | Hb]; [rewrite !gz_neg by lia; pose proof (len_nonneg _ (m_bufs m)); destruct (Z.eqb_spec b (len (m_bufs m))); [lia | reflexivity] |].
    rewrite gz_app. destruct (Z.eqb_spec b (len (m_bufs m))) as [-> | N].
    - rewrite Z.ltb_irrefl, Z.sub_diag. reflexivity.
    - destruct (Z.ltb_spec b (len (m_bufs m))); [reflexivity |]. rewrite (gz_ge _ (m_bufs m)) by lia. apply gz_ge. rewrite len_cons, len_nil. lia. }
  assert (Lb : len (m_bufs m') = len (m_bufs m) + 1) by (subst m'; cbn [m_bufs]; rewrite len_app, len_cons, len_nil; lia).
  assert (Nc : forall k, gz ch k <> Some (len (m_bufs m))) by (intros k H; destruct (v_chain _ _ _ _ I _ _ H) as (Al & _); unfold alive in Al; lia).
  assert (S : forall b i, alive m b -> sl m' b i = sl m b i) by (intros b i Al; unfold sl; rewrite G; unfold alive in Al; destruct (Z.eqb_spec b (len (m_bufs m))); [lia | reflexivity]).
  assert (C : forall b, alive m b -> cp m' b = cp m b) by (intros b Al; unfold cp; rewrite G; unfold alive in Al; destruct (Z.eqb_spec b (len (m_bufs m))); [lia | reflexivity]).
  assert (N : forall b, alive m b -> nx m' b = nx m b) by (intros b Al; unfold nx; rewrite G; unfold alive in Al; destruct (Z.eqb_spec b (len (m_bufs m))); [lia | reflexivity]).
  assert (Cn : cp m' (len (m_bufs m)) = alloc_capacity n) by (unfold cp; rewrite G, Z.eqb_refl; unfold cap, new_buf; cbn [b_slots]; rewrite len_repeat; lia).
  assert (Sn : forall i v, sl m' (len (m_bufs m)) i = Some v -> v = Tomb).
  { intros i v H. unfold sl in H. rewrite G, Z.eqb_refl in H. apply gz_in in H. apply repeat_spec in H. exact H. }
  split; [| split; [| split; [| split; [| split]]]].
  - assert (Chain : forall k b, gz ch k = Some b -> alive m b) by (intros k b H; exact (proj1 (v_chain _ _ _ _ I k b H))).
    destruct I. constructor; try assumption.
    + intros k b H. destruct (v_chain k b H) as (Al & Nx). split; [unfold alive in *; lia |]. rewrite N by exact Al. exact Nx.
    + intros b Al Hf. destruct (Z.eq_dec b (len (m_bufs m))) as [-> | Nb].
      * split; [unfold nx; rewrite G, Z.eqb_refl; reflexivity | exact Sn].
      * assert (Al' : alive m b) by (unfold alive in *; lia). rewrite N by exact Al'. destruct (v_free b Al' Hf) as (F1 & F2). split; [exact F1 |]. intros i v. rewrite S by exact Al'. apply F2.
    + intros b Al. destruct (Z.eq_dec b (len (m_bufs m))) as [-> | Nb]; [lia |]. assert (Al' : alive m b) by (unfold alive in *; lia). rewrite C by exact Al'. auto.
    + intros b Al. destruct (Z.eq_dec b (len (m_bufs m))) as [-> | Nb].
      * unfold opn. rewrite G, Z.eqb_refl. unfold new_buf. cbn [b_open]. lia.
      * assert (Al' : alive m b) by (unfold alive in *; lia). specialize (v_open b Al'). unfold opn in *. rewrite G. destruct (Z.eqb_spec b (len (m_bufs m))); [lia | exact v_open].
    + intros k b i v H. rewrite S by exact (Chain k b H). apply v_old. exact H.
    + intros k b H. rewrite C by exact (Chain k b H). apply v_fit. exact H.
    + intros b i v H. rewrite S by exact (Chain d b H). apply v_cur. exact H.
    + intros b i v H. rewrite S by exact (Chain _ b H). apply v_new. exact H.
    + intros i x H. destruct (v_vals i x H) as (b & Hb & V). exists b. split; [exact Hb |]. rewrite S by exact (Chain d b Hb). destruct V as [V | (V & b' & V1 & V2)]; [left; exact V | right]. split; [exact V |]. exists b'. rewrite S by exact (Chain _ b' V1). auto.
  - constructor; auto; [lia | |].
    + intros b. unfold alive. lia.
    + intros b i H. rewrite S; [exact H |]. exact (proj1 (sl_range _ _ _ _ H)).
  - unfold alive. pose proof (len_nonneg _ (m_bufs m)). lia.
  - exact Nc.
  - intros b. unfold opn, cnt. rewrite G. destruct (Z.eqb_spec b (len (m_bufs m))) as [-> | Nb]; [| reflexivity]. rewrite (gz_ge _ (m_bufs m)) by lia. unfold new_buf. cbn [b_open b_slots].
    assert (T : forall k, total is_open (repeat Tomb k) = Z.of_nat k) by (induction k as [|k IH]; [reflexivity |]; cbn [repeat total]; rewrite IH; cbn [is_open]; lia). rewrite T. lia.
  - exact Cn.
Qed.

(* the first storage *)
Lemma minv_first : forall nb, m_data m = None -> alive m nb -> (forall k, gz ch k <> Some nb) -> ch = [] /\ minv (set_data m (Some nb)) [nb] 0 l.
Proof.
  intros nb Hd Al Hf. assert (Ec : ch = [] /\ d = 0 /\ l = []).
  { destruct (v_d _ _ _ _ I) as (D0 & _ & [D | D]); [| exact D]. destruct (gz_some _ ch d ltac:(lia)) as (b & Hb). rewrite (v_data _ _ _ _ I) in Hd. congruence. }
  destruct Ec as (-> & -> & ->). split; [reflexivity |]. destruct (v_free _ _ _ _ I nb Al Hf) as (F1 & F2).
  assert (G : forall k b, gz [nb] k = Some b -> k = 0 /\ b = nb).
  { intros k b H. pose proof (gz_some_inv _ _ _ _ H) as B. rewrite len_cons, len_nil in B. assert (k = 0) by lia. subst k. cbn in H. split; [reflexivity | congruence]. }
  destruct I. constructor; try assumption.
  - intros j k b H1 H2. destruct (G _ _ H1), (G _ _ H2). lia.
  - reflexivity.
  - rewrite len_cons, len_nil. lia.
  - intros k b H. destruct (G _ _ H) as (-> & ->). split; [exact Al |]. change (nx (set_data m (Some nb)) nb) with (nx m nb). rewrite F1. reflexivity.
  - intros b H1 H2. apply (v_free b H1). intros k H3; apply gz_some_inv in H3; rewrite len_nil in H3; lia.
  - intros k b i v H1 H2. destruct (G _ _ H1). lia.
  - intros k b H1 _. destruct (G _ _ H1) as (-> & ->). pose proof (v_caps nb Al). rewrite len_nil. change (cp (set_data m (Some nb)) nb) with (cp m nb). lia.
  - intros b i v H1 H2. destruct (G _ _ H1) as (_ & ->). rewrite (F2 i v H2). apply sl_range in H2. rewrite len_nil. lia.
  - intros i x H. apply gz_some_inv in H. rewrite len_nil in H. lia.
Qed.

(* the next storage *)
Lemma minv_link : forall old x nb, gz ch d = Some old -> len ch = d + 1 -> gz (m_bufs m) old = Some x -> alive m nb -> (forall k, gz ch k <> Some nb) ->
  minv (set_buf m old (Buf (b_slots x) (b_open x) (Some nb))) (ch ++ [nb]) d l.
Proof.
  intros old x nb Ho Lc Hx Al Hf. destruct (link_write m old x (Some nb) Hx) as (W1 & W2 & W3 & W4 & W5 & W6 & W7 & _). set (m' := set_buf m old (Buf (b_slots x) (b_open x) (Some nb))) in *.
  assert (A : forall b, alive m' b <-> alive m b) by (intros c; unfold alive; rewrite W5; tauto). pose proof (v_d _ _ _ _ I) as (D0 & _).
  assert (G : forall k, gz (ch ++ [nb]) k = if k =? d + 1 then Some nb else gz ch k).
  { intros k. destruct (Z_lt_dec k 0); [rewrite !gz_neg by lia; destruct (Z.eqb_spec k (d + 1)); [lia | reflexivity] |]. rewrite gz_app. destruct (Z.eqb_spec k (d + 1)) as [-> | N].
    - destruct (Z.ltb_spec (d + 1) (len ch)); [lia |]. rewrite Lc, Z.sub_diag. reflexivity.
    - destruct (Z.ltb_spec k (len ch)); [reflexivity |]. rewrite (gz_ge _ ch) by lia. apply gz_ge. rewrite len_cons, len_nil. lia. }
  destruct (v_free _ _ _ _ I nb Al Hf) as (F1 & F2).
  assert (Vi : forall c, alive m' c -> 0 <= opn m' c <= 1000000000) by (intros c H; rewrite A in H; rewrite W4; exact (v_open _ _ _ _ I c H)).
  destruct I. constructor; try assumption.
  - intros j k b. rewrite !G. destruct (Z.eqb_spec j (d + 1)), (Z.eqb_spec k (d + 1)); intros H1 H2; [lia | | | eauto].
    + exfalso. apply (Hf k). congruence.
    + exfalso. apply (Hf j). congruence.
  - rewrite G. destruct (Z.eqb_spec d (d + 1)); [lia |]. congruence.
  - rewrite len_app, len_cons, len_nil. lia.
  - intros k b. rewrite A, W3, !G. destruct (Z.eqb_spec k (d + 1)) as [-> | N]; intros H.
    + assert (b = nb) by congruence. subst b. split; [exact Al |]. destruct (Z.eqb_spec nb old) as [-> | Nn]; [exfalso; exact (Hf d Ho) |]. rewrite F1. destruct (Z.eqb_spec (d + 1 + 1) (d + 1)); [lia |]. symmetry. apply gz_ge. lia.
    + destruct (v_chain k b H) as (Ab & Nb). split; [exact Ab |]. destruct (Z.eqb_spec b old) as [-> | Nn].
      * pose proof (v_once _ _ _ H Ho). subst k. rewrite Z.eqb_refl. reflexivity.
      * destruct (Z.eqb_spec (k + 1) (d + 1)) as [Ek | _]; [| exact Nb]. assert (k = d) by lia. subst k. congruence.
  - intros b H1 H2. rewrite A in H1. assert (H3 : forall k, gz ch k <> Some b).
    { intros k Hk. apply (H2 k). rewrite G. destruct (Z.eqb_spec k (d + 1)) as [-> | _]; [| exact Hk]. apply gz_some_inv in Hk. lia. }
    rewrite W3. destruct (Z.eqb_spec b old) as [-> | Nn]; [exfalso; exact (H3 d Ho) |]. destruct (v_free b H1 H3) as (X1 & X2). split; [exact X1 |]. intros i v. rewrite W1. apply X2.
  - intros b H. rewrite A in H. rewrite W2. auto.
  - intros k b i v H1 H2. rewrite G in H1. destruct (Z.eqb_spec k (d + 1)); [lia |]. rewrite W1. apply (v_old k); assumption.
  - intros k b H1 H2. rewrite G in H1. destruct (Z.eqb_spec k (d + 1)); [lia |]. rewrite W2. apply (v_fit k); assumption.
  - intros b i v H1 H2. rewrite G in H1. destruct (Z.eqb_spec d (d + 1)); [lia |]. rewrite W1 in H2. pose proof (v_cur b i v H1 H2) as X. destruct v; auto. rewrite len_app, len_cons, len_nil. lia.
  - intros b i v H1 H2. rewrite G, Z.eqb_refl in H1. assert (b = nb) by congruence. subst b. rewrite W1 in H2. rewrite (F2 i v H2). split; [discriminate | reflexivity].
  - intros i z H. destruct (v_vals i z H) as (b & Hb & V). exists b. rewrite G. destruct (Z.eqb_spec d (d + 1)); [lia |]. split; [exact Hb |]. rewrite W1. destruct V as [V | (V & b' & V1 & V2)]; [left; exact V |].
    exfalso. apply gz_some_inv in V1. lia.
Qed.
End Step.

Lemma alloc_capacity_ok : forall n, 1 <= n < MAX_ARRAY_SIZE -> n <= alloc_capacity n /\ 1 <= alloc_capacity n <= 1000000000.
Proof.
  intros n H. unfold MAX_ARRAY_SIZE in H. unfold alloc_capacity, u32, uwrap. change (2 ^ 32) with 4294967296.
  rewrite (Z.mod_small ((n - 1) * 8)) by lia. rewrite (Z.mod_small (32 + (n - 1) * 8)) by lia. rewrite (Z.mod_small (32 + (n - 1) * 8 + 31)) by lia.
  set (q := (32 + (n - 1) * 8 + 31) / 32). assert (Q : 32 * q <= 32 + (n - 1) * 8 + 31 < 32 * q + 32) by (subst q; clear; Z.div_mod_to_equations; lia). clearbody q.
  rewrite (Z.mod_small (q * 32 - 32)) by lia. set (r := (q * 32 - 32) / 8). assert (R : 8 * r = q * 32 - 32) by (subst r; clear; Z.div_mod_to_equations; lia). clearbody r.
  rewrite Z.mod_small by lia. lia.
Qed.
