(* Objects: lemmas on reading properties and on sequences of operations. *)
From Coq Require Import ZArith List Lia Bool ZifyBool.
Import ListNotations.
From Verif Require Import Base ListZ ArraySpec ArrayProofs ObjModel ObjSpec ObjCalls ObjProofs ObjProofs2.
Local Open Scope Z_scope.
Ltac Zify.zify_post_hook ::= idtac.

Section World.
Variable hash : key -> Z.
Variable alloc_ok : Z -> bool.
Hypothesis alloc_range : forall c, alloc_ok c = true -> 0 < c <= 2147483648.

Lemma abs_nth : forall w o, nth_error (abs w) o = option_map (abs_obj w) (nth_error (w_objs w) o).
Proof. intros. apply nth_error_map. Qed.

Lemma sval_prop_of : forall v, sval_of (prop_of v) = sval_of v.
Proof. intros [[| | | |]|]; reflexivity. Qed.

(* own properties *)
Lemma abs_own : forall w o ob, wwf hash w -> nth_error (w_objs w) o = Some ob ->
  match o_props ob with
  | None => s_own (abs_obj w ob) = None
  | Some _ => exists m, s_own (abs_obj w ob) = Some m /\ forall k, m k = sval_of (omap w o k)
  end.
Proof.
  intros w o ob W E. unfold abs_obj. cbn [s_own]. unfold omap, props_of. rewrite E. destruct (o_props ob) as [[n|]|] eqn:P; [ | | reflexivity ].
  - destruct (proj1 (proj1 W o ob E) n P) as [t [G T]]. rewrite G. eexists. split; [ reflexivity | ]. intros k. rewrite sval_prop_of. reflexivity.
  - eexists. split; [ reflexivity | ]. reflexivity.
Qed.

Lemma assoc_live : forall t k v, twf hash t -> assoc (t_items t) k = Some v -> v = Tomb \/ live_val v.
Proof.
  intros t k v T A. destruct (assoc_kat _ _ _ A) as [j [it [G [E1 E2]]]]. destruct (tw_core _ _ T) as [_ [_ [S _]]].
  specialize (S _ _ G). unfold slot_ok in S. rewrite E1 in S. subst v. tauto.
Qed.

Lemma find_ok : forall w o n k, wwf hash w -> props_of w o = Some (Some n) ->
  exists t, get_table w n = Some t /\ find_property t k (hash k) = match omap w o k with Some v => GFound v | None => GTryPrototype end.
Proof.
  intros w o n k W P. destruct (wwf_table hash w o n W P) as [t [G T]]. exists t. split; [ exact G | ].
  rewrite (find_property_ok hash) by apply (tw_core _ _ T). rewrite (omap_table w o n t k P G).
  destruct (assoc (t_items t) k) as [[| | | |]|]; reflexivity.
Qed.

Lemma omap_live : forall w o k v, wwf hash w -> omap w o k = Some v -> live_val v.
Proof.
  intros w o k v W H. unfold omap in H. destruct (props_of w o) as [[n|]|] eqn:P; try discriminate.
  destruct (wwf_table hash w o n W P) as [t [G T]]. rewrite G in H. destruct (assoc (t_items t) k) as [x|] eqn:A; [ | discriminate ].
  destruct (assoc_live t k x T A) as [->|L]; cbn in H; [ discriminate | ]. destruct x; try contradiction; inversion H; exact L.
Qed.
Lemma live_sval : forall v, live_val v -> exists s, sval_of (Some v) = Some s.
Proof. intros [| | | |]; cbn; try contradiction; eauto. Qed.

(* what an object shows *)
Lemma sees_fun : forall l o k v1, sees l o k v1 -> forall v2, sees l o k v2 -> v1 = v2.
Proof.
  induction 1 as [o ob m k v E1 E2 E3 | o ob p k v E1 E2 E3 S IH]; intros v2 S2; inversion S2; subst.
  - congruence.
  - assert (ob0 = ob) by congruence. subst. rewrite (H0 m E2) in E3. discriminate.
  - assert (ob0 = ob) by congruence. subst. rewrite (E2 _ H0) in H1. discriminate.
  - assert (ob0 = ob) by congruence. subst. assert (p0 = p) by congruence. subst. auto.
Qed.

Lemma sees_own_iff : forall w o k v x, wwf hash w -> omap w o k = Some x -> (sees (abs w) o k v <-> sval_of (Some x) = Some v).
Proof.
  intros w o k v x W Hx.
  assert (Q : exists ob, nth_error (w_objs w) o = Some ob /\ exists n, o_props ob = Some n).
  { unfold omap, props_of in Hx. destruct (nth_error (w_objs w) o) as [ob|]; [ | discriminate ]. destruct (o_props ob) eqn:P; [ | discriminate ]. eauto. }
  destruct Q as [ob [E [n P]]]. pose proof (abs_own w o ob W E) as A. rewrite P in A. destruct A as [m [Em Hm]].
  assert (N : nth_error (abs w) o = Some (abs_obj w ob)) by (rewrite abs_nth, E; reflexivity).
  specialize (Hm k). rewrite Hx in Hm. split.
  - intros S. inversion S; subst.
    + assert (ob0 = abs_obj w ob) by congruence. subst. congruence.
    + assert (ob0 = abs_obj w ob) by congruence. subst. rewrite (H0 m Em) in Hm.
      destruct (live_sval x (omap_live w o k x W Hx)) as [s Hs]. congruence.
  - intros S. apply (sees_own _ o (abs_obj w ob) m); congruence.
Qed.

Lemma sees_up : forall w o k v ob, wwf hash w -> nth_error (w_objs w) o = Some ob -> omap w o k = None ->
  (sees (abs w) o k v <-> exists p, o_proto ob = Some p /\ sees (abs w) p k v).
Proof.
  intros w o k v ob W E Hn. assert (N : nth_error (abs w) o = Some (abs_obj w ob)) by (rewrite abs_nth, E; reflexivity).
  pose proof (abs_own w o ob W E) as A.
  assert (Z : forall m, s_own (abs_obj w ob) = Some m -> m k = None).
  { intros m Em. destruct (o_props ob); [ | congruence ]. destruct A as [m' [Em' Hm']]. rewrite Em in Em'. inversion Em'. subst. rewrite Hm', Hn. reflexivity. }
  split.
  - intros S. inversion S; subst.
    + assert (ob0 = abs_obj w ob) by congruence. subst. rewrite (Z _ H0) in H1. discriminate.
    + assert (ob0 = abs_obj w ob) by congruence. subst. exists p. split; [ assumption | assumption ].
  - intros [p [Ep S]]. apply (sees_proto _ o (abs_obj w ob) p); auto.
Qed.

Lemma proto_obj : forall w o ob p, wwf hash w -> nth_error (w_objs w) o = Some ob -> o_proto ob = Some p ->
  (p < o)%nat /\ exists ob', nth_error (w_objs w) p = Some ob'.
Proof.
  intros w o ob p W E P. pose proof (proj2 (proj1 W o ob E) p P) as L. split; [ exact L | ].
  assert (o < length (w_objs w))%nat by (apply nth_error_Some; congruence).
  destruct (nth_error (w_objs w) p) eqn:Q; [ eauto | ]. apply nth_error_None in Q. lia.
Qed.

Lemma fvp_ok : forall fuel w o ob k props, wwf hash w -> nth_error (w_objs w) o = Some ob -> (o < fuel)%nat ->
  (props = props_of w o \/ props = None /\ omap w o k = None) ->
  match find_valid_prototype fuel w o props with
  | None => False
  | Some None => forall v, ~ sees (abs w) o k v
  | Some (Some (o', n)) => props_of w o' = Some (Some n) /\ ((o' < o)%nat \/ o' = o /\ props = props_of w o) /\
      forall v, sees (abs w) o k v <-> sees (abs w) o' k v
  end.
Proof.
  induction fuel as [|f IH]; intros w o ob k props W E L Hp; [ lia | ]. cbn [find_valid_prototype].
  destruct props as [[n|]|].
  - destruct Hp as [Hp|[? ?]]; [ | discriminate ]. split; [ congruence | ]. split; [ auto | ]. intros; tauto.
  - destruct Hp as [Hp|[? ?]]; [ | discriminate ].
    assert (Hn : omap w o k = None) by (unfold omap; rewrite <- Hp; reflexivity).
    rewrite E. destruct (o_proto ob) as [p|] eqn:Pr.
    + destruct (proto_obj w o ob p W E Pr) as [Lp [ob' E']]. specialize (IH w p ob' k (props_of w p) W E' ltac:(lia) (or_introl eq_refl)).
      destruct (find_valid_prototype f w p (props_of w p)) as [[[o' n]|]|].
      * destruct IH as [A [B C]]. split; [ exact A | ]. split; [ left; lia | ]. intros v. rewrite (sees_up w o k v ob W E Hn), <- C.
        split; [ intros [p' [Ep S]]; congruence | eauto ].
      * intros v S. apply (sees_up w o k v ob W E Hn) in S. destruct S as [p' [Ep S]]. apply (IH v). congruence.
      * exact IH.
    + intros v S. apply (sees_up w o k v ob W E Hn) in S. destruct S as [p' [Ep S]]. congruence.
  - assert (Hn : omap w o k = None). { destruct Hp as [Hp|[_ Hn]]; [ | exact Hn ]. unfold omap. rewrite <- Hp. reflexivity. }
    rewrite E. destruct (o_proto ob) as [p|] eqn:Pr.
    + destruct (proto_obj w o ob p W E Pr) as [Lp [ob' E']]. specialize (IH w p ob' k (props_of w p) W E' ltac:(lia) (or_introl eq_refl)).
      destruct (find_valid_prototype f w p (props_of w p)) as [[[o' n]|]|].
      * destruct IH as [A [B C]]. split; [ exact A | ]. split; [ left; lia | ]. intros v. rewrite (sees_up w o k v ob W E Hn), <- C.
        split; [ intros [p' [Ep S]]; congruence | eauto ].
      * intros v S. apply (sees_up w o k v ob W E Hn) in S. destruct S as [p' [Ep S]]. apply (IH v). congruence.
      * exact IH.
    + intros v S. apply (sees_up w o k v ob W E Hn) in S. destruct S as [p' [Ep S]]. congruence.
Qed.

Definition get_post (w : world) (o : nat) (k : key) (shallow : bool) (r : get_status * world) : Prop :=
  snd r = w /\
  match fst r with
  | GFound v => live_val v /\ if shallow then omap w o k = Some v else exists s, sval_of (Some v) = Some s /\ sees (abs w) o k s
  | GTryPrototype => if shallow then omap w o k = None else forall v, ~ sees (abs w) o k v
  | _ => False
  end.

Lemma props_obj : forall w o p, props_of w o = Some p -> exists ob, nth_error (w_objs w) o = Some ob.
Proof. intros w o p H. unfold props_of in H. destruct (nth_error (w_objs w) o); [ eauto | discriminate ]. Qed.

Lemma get_loop_ok : forall fuel w o n k shallow, wwf hash w -> props_of w o = Some (Some n) -> (o < fuel)%nat ->
  get_post w o k shallow (get_loop fuel w o n k (hash k) shallow).
Proof.
  induction fuel as [|f IH]; intros w o n k shallow W P L; [ lia | ]. cbn [get_loop].
  destruct (find_ok w o n k W P) as [t [G F]]. rewrite G, F. destruct (omap w o k) as [v|] eqn:Om.
  - split; [ reflexivity | ]. cbn [fst]. split; [ apply (omap_live w o k v W Om) | ]. destruct shallow; [ exact Om | ].
    destruct (live_sval v (omap_live w o k v W Om)) as [s Hs]. exists s. split; [ exact Hs | ]. apply (sees_own_iff w o k s v W Om). exact Hs.
  - destruct shallow; [ split; [ reflexivity | exact Om ] | ].
    destruct (props_obj w o _ P) as [ob E]. assert (o < length (w_objs w))%nat by (apply nth_error_Some; congruence).
    pose proof (fvp_ok (S (length (w_objs w))) w o ob k None W E ltac:(lia) (or_intror (conj eq_refl Om))) as Fv.
    destruct (find_valid_prototype (S (length (w_objs w))) w o None) as [[[o' m]|]|]; [ | | contradiction ].
    + destruct Fv as [A [B C]]. destruct B as [B|[_ B]]; [ | congruence ].
      specialize (IH w o' m k false W A ltac:(lia)). unfold get_post in *. destruct (get_loop f w o' m k (hash k) false) as [[| |v|] w']; cbn [fst snd] in *.
      * tauto.
      * destruct IH as [-> I]. split; [ reflexivity | ]. intros v S. apply C in S. apply (I v S).
      * destruct IH as [-> [I1 [s [I2 I3]]]]. split; [ reflexivity | ]. split; [ exact I1 | ]. exists s. split; [ exact I2 | apply C; exact I3 ].
      * tauto.
    + split; [ reflexivity | exact Fv ].
Qed.

Lemma get_ok : forall w o k shallow, wwf hash w -> (o < length (w_objs w))%nat -> get_post w o k shallow (get_property hash w o k shallow).
Proof.
  intros w o k shallow W L. unfold get_property. cbv zeta. destruct (nth_error (w_objs w) o) as [ob|] eqn:E; [ | apply nth_error_None in E; lia ].
  destruct shallow.
  - destruct (props_of w o) as [[n|]|] eqn:P.
    + apply get_loop_ok; auto. lia.
    + split; [ reflexivity | ]. cbn [fst]. unfold omap. rewrite P. reflexivity.
    + split; [ reflexivity | ]. cbn [fst]. unfold omap. rewrite P. reflexivity.
  - pose proof (fvp_ok (S (length (w_objs w))) w o ob k _ W E ltac:(lia) (or_introl eq_refl)) as Fv.
    destruct (find_valid_prototype (S (length (w_objs w))) w o (props_of w o)) as [[[o' m]|]|]; [ | | contradiction ].
    + destruct Fv as [A [B C]]. assert (o' <= o)%nat by lia.
      pose proof (get_loop_ok (S (length (w_objs w)) + length (w_tables w)) w o' m k false W A ltac:(lia)) as I. unfold get_post in *.
      destruct (get_loop (S (length (w_objs w)) + length (w_tables w)) w o' m k (hash k) false) as [[| |v|] w']; cbn [fst snd] in *.
      * tauto.
      * destruct I as [-> I]. split; [ reflexivity | ]. intros v S. apply C in S. apply (I v S).
      * destruct I as [-> [I1 [s [I2 I3]]]]. split; [ reflexivity | ]. split; [ exact I1 | ]. exists s. split; [ exact I2 | apply C; exact I3 ].
      * tauto.
    + split; [ reflexivity | exact Fv ].
Qed.

(* ---- few keys ---- *)
Fixpoint klist (l : list pitem) : list key :=
  match l with [] => [] | it :: t => match i_key it with Some k => k :: klist t | None => klist t end end.
Lemma klist_length : forall l, (length (klist l) <= length l)%nat.
Proof. induction l as [|it l IH]; cbn [klist length]; [ lia | ]. destruct (i_key it); cbn [length]; lia. Qed.
Lemma assoc_klist : forall l k v, assoc l k = Some v -> In k (klist l).
Proof.
  induction l as [|it l IH]; intros k v A; cbn [assoc klist] in *; [ discriminate | ]. destruct (i_key it) as [k'|].
  - destruct (keyb k k') eqn:B; [ apply keyb_eq in B; left; auto | right; eauto ].
  - eauto.
Qed.

Lemma passed_keys : forall cap l k d, icore hash cap l -> passed hash cap l k (Z.of_nat d) -> Z.of_nat d <= cap ->
  exists L, length L = d /\ NoDup L /\ forall x, In x L -> x <> k /\ exists j, 0 <= j < Z.of_nat d /\ kat l (probe hash cap k j) = Some x.
Proof.
  intros cap l k d C. pose proof C as [Pw [_ [_ [U _]]]]. pose proof (pow2_range _ Pw). induction d as [|d IH]; intros P Hd.
  - exists []. split; [ reflexivity | ]. split; [ constructor | ]. intros x [].
  - destruct IH as [L [L1 [L2 L3]]]; [ intros e He; apply P; lia | lia | ].
    destruct (P (Z.of_nat d) ltac:(lia)) as [x [K N]]. exists (x :: L). split; [ cbn; lia | ]. split.
    + constructor; [ | exact L2 ]. intros I. destruct (L3 x I) as [_ [j [Hj Kj]]]. pose proof (U _ _ _ Kj K) as Eq. unfold probe in Eq.
      assert (Z.of_nat d - j = 0); [ | lia ]. assert (D : (Z.of_nat d - j) mod cap = 0).
      { replace (Z.of_nat d - j) with ((hash k + Z.of_nat d) - (hash k + j)) by lia. rewrite Zminus_mod, Eq, Z.sub_diag. apply Z.mod_0_l. lia. }
      rewrite Z.mod_small in D by lia. exact D.
    + intros y [<-|I].
      * split; [ congruence | ]. exists (Z.of_nat d). split; [ lia | exact K ].
      * destruct (L3 y I) as [A [j [B D]]]. split; [ exact A | ]. exists j. split; [ lia | exact D ].
Qed.

Lemma kat_assoc : forall cap l j k, icore hash cap l -> kat l j = Some k -> exists v, assoc l k = Some v.
Proof.
  intros cap l j k C K. unfold kat in K. destruct (gz l j) as [it|] eqn:G; [ | discriminate ]. exists (i_val it). apply (icore_assoc hash cap l j it k C G K).
Qed.

(* with at most nine other keys a table without deleted keys has a free slot *)
Lemma few_room : forall t k ks, twf hash t -> (forall k', assoc (t_items t) k' <> Some Tomb) -> (length ks <= 9)%nat ->
  (forall k', k' <> k -> assoc (t_items t) k' <> None -> In k' ks) -> (t_cap t = 8 -> (length ks <= 7)%nat) -> 8 <= t_cap t ->
  passed hash (t_cap t) (t_items t) k 10 -> False.
Proof.
  intros t k ks T NT L In8 L8 H8 P. pose proof (tw_core _ _ T) as C. pose proof C as [[e [He Ee]] _].
  assert (Hc : t_cap t = 8 \/ 16 <= t_cap t).
  { destruct (Z.eq_dec e 3) as [->|]; [ left; exact Ee | ]. right. rewrite Ee. change 16 with (2 ^ 4). apply Z.pow_le_mono_r; [ lia | ].
    destruct (Z.eq_dec e 2) as [->|]; [ change (2 ^ 2) with 4 in Ee; lia | lia ]. }
  destruct Hc as [Hc|Hc].
  - assert (P8 : passed hash (t_cap t) (t_items t) k (Z.of_nat 8)) by (intros e0 H0; apply P; lia).
    destruct (passed_keys _ _ _ 8%nat C P8 ltac:(lia)) as [Lk [L1 [L2 L3]]].
    assert (I : incl Lk ks). { intros x Ix. destruct (L3 x Ix) as [N [j [_ K]]]. apply In8; [ exact N | ]. destruct (kat_assoc _ _ _ _ C K). congruence. }
    pose proof (NoDup_incl_length L2 I). specialize (L8 Hc). lia.
  - destruct (passed_keys _ _ _ 10%nat C P ltac:(lia)) as [Lk [L1 [L2 L3]]].
    assert (I : incl Lk ks). { intros x Ix. destruct (L3 x Ix) as [N [j [_ K]]]. apply In8; [ exact N | ]. destruct (kat_assoc _ _ _ _ C K). congruence. }
    pose proof (NoDup_incl_length L2 I). lia.
Qed.

Definition succeeded (r : ores world) : Prop := match r with OOk _ | OSetter _ _ => True | _ => False end.

Lemma finish_ok : forall w o n t r, wwf hash w -> props_of w o = Some (Some n) -> get_table w n = Some t -> alloc_ok (2 * t_cap t) = true ->
  succeeded (if need_resize t r then resize_prop_table alloc_ok w o (Some n) 2 else OOk w).
Proof.
  intros w o n t r W P G A. destruct (need_resize t r); [ | exact I ].
  destruct (resize_ok hash alloc_ok alloc_range w o n t W P G) as [[w' [m [t' [R _]]]]|[R Al]]; rewrite R; [ exact I | ].
  pose proof (alloc_range _ A). rewrite u32_small in Al by lia. replace (t_cap t * 2) with (2 * t_cap t) in Al by lia. congruence.
Qed.

Lemma frame_cap : forall o w w' n t t', frame o w w' -> props_of w o = Some (Some n) -> get_table w n = Some t -> get_table w' n = Some t' -> t_cap t' = t_cap t.
Proof. intros o w w' n t t' F P G G'. destruct (fr_own _ _ _ F n t G P) as [t1 [G1 [C _]]]. congruence. Qed.

Lemma set_few : forall fuel w o n t k v ks, wwf hash w -> props_of w o = Some (Some n) -> get_table w n = Some t -> okval v ->
  (2 <= fuel)%nat -> (length ks <= 9)%nat -> (forall k', k' <> k -> omap w o k' <> None -> In k' ks) ->
  alloc_ok (2 * t_cap t) = true -> alloc_ok (4 * t_cap t) = true ->
  succeeded (set_retry alloc_ok hash fuel w o n k v).
Proof.
  intros fuel w o n t k v ks W P G V Hf Lk Hk A2 A4. destruct fuel as [|[|f]]; try lia. cbn [set_retry].
  pose proof (alloc_range _ A2) as R2. pose proof (alloc_range _ A4) as R4.
  pose proof (set_once_ok hash alloc_ok alloc_range w o n k v W P V) as Ps.
  destruct (set_property_once alloc_ok hash w o n k v) as [[r|m| |x|] w1]; cbn [set_post] in Ps; [ | | | exact I | contradiction ].
  - destruct Ps as [W1 [F [P1 _]]]. destruct (wwf_table hash w1 o n W1 P1) as [t1 [G1 T1]]. rewrite G1.
    apply finish_ok; auto. rewrite (frame_cap _ _ _ _ _ _ F P G G1). exact A2.
  - destruct Ps as [W1 [F [P1 [M [t0 [t1 [G0 [G1 [Cp [Ps0 As]]]]]]]]]]. assert (t0 = t) by congruence. subst t0.
    assert (T1 : twf hash t1) by (destruct (wwf_table hash w1 o m W1 P1) as [tx [Gx Tx]]; congruence).
    assert (T0 : twf hash t) by (destruct (wwf_table hash w o n W P) as [tx [Gx Tx]]; congruence).
    assert (NoP : passed hash (t_cap t1) (t_items t1) k 10 -> False).
    { intros Pd. pose proof (tw_core _ _ T0) as C0. pose proof C0 as [Pw0 [L0 _]]. pose proof (pow2_range _ Pw0).
      assert (Tb : forall k', assoc (t_items t1) k' <> Some Tomb) by (intros k'; rewrite As; apply prop_of_tomb).
      assert (Hk1 : forall k', k' <> k -> assoc (t_items t1) k' <> None -> In k' ks).
      { intros k' N A. apply Hk; [ exact N | ]. rewrite (omap_table w o n t k' P G), <- As. exact A. }
      destruct (Z.eq_dec (t_cap t1) 8) as [E8|E8].
      - (* four slots before: at most four keys *)
        assert (Kl : forall k', k' <> k -> assoc (t_items t1) k' <> None -> In k' (klist (t_items t))).
        { intros k' N A. rewrite As in A. destruct (assoc (t_items t) k') as [y|] eqn:E; [ apply (assoc_klist _ _ _ E) | exfalso; apply A; reflexivity ]. }
        pose proof (klist_length (t_items t)) as KL. assert (length (t_items t) = 4%nat) by (unfold len in L0; lia).
        apply (few_room t1 k (klist (t_items t)) T1 Tb ltac:(lia) Kl ltac:(lia) ltac:(lia) Pd).
      - apply (few_room t1 k ks T1 Tb Lk Hk1 ltac:(lia) ltac:(lia) Pd). }
    pose proof (set_once_ok hash alloc_ok alloc_range w1 o m k v W1 P1 V) as Ps.
    destruct (set_property_once alloc_ok hash w1 o m k v) as [[r|m2| |x|] w2]; cbn [set_post] in Ps; [ | | | exact I | contradiction ].
    + destruct Ps as [W2 [F2 [P2 _]]]. destruct (wwf_table hash w2 o m W2 P2) as [t2 [G2 T2]]. rewrite G2.
      apply finish_ok; auto. rewrite (frame_cap _ _ _ _ _ _ F2 P1 G1 G2), Cp. replace (2 * (2 * t_cap t)) with (4 * t_cap t) by lia. exact A4.
    + destruct Ps as [_ [_ [_ [_ [t2 [t3 [G2 [_ [_ [Pd _]]]]]]]]]]. assert (t2 = t1) by congruence. subst. destruct (NoP Pd).
    + destruct Ps as [_ [t2 [G2 [_ Pd]]]]. assert (t2 = t1) by congruence. subst. destruct (NoP Pd).
  - destruct Ps as [_ [t2 [G2 [Al _]]]]. assert (t2 = t) by congruence. subst. rewrite u32_small in Al by lia.
    replace (t_cap t * 2) with (2 * t_cap t) in Al by lia. congruence.
Qed.
End World.
