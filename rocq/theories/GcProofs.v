(* Object ids, page layouts. *)
From Coq Require Import ZArith List Lia Bool ZifyBool.
Import ListNotations.
From Verif Require Import Base ListZ GcModel GcSpec.
Local Open Scope Z_scope.
Ltac Zify.zify_post_hook ::= idtac.

(* ------------------------------------------------------------------ ids *)

Lemma is_heap_mod : forall v, is_heap v = (v mod 32 =? 1).
Proof. intros v. unfold is_heap. change 31 with (Z.ones 5). rewrite Z.land_ones by lia. reflexivity. Qed.

Lemma is_tracked_mod : forall v, is_tracked v = (v mod 32 =? 1) || (v mod 32 =? 9).
Proof.
  intros v. unfold is_tracked.
  assert (E : Z.land v 23 = Z.land (v mod 32) 23).
  { change 32 with (2 ^ 5). rewrite <- Z.land_ones by lia. rewrite <- Z.land_assoc. reflexivity. }
  rewrite E.
  assert (T : zall 32 0 (fun r => Bool.eqb (Z.land r 23 =? 1) ((r =? 1) || (r =? 9))) = true) by (vm_compute; reflexivity).
  assert (B : 0 <= v mod 32 < 32) by (apply Z.mod_pos_bound; lia).
  pose proof (zall_spec _ _ _ T (v mod 32) ltac:(lia)) as R. apply eqb_prop in R. exact R.
Qed.

Lemma heap_id_iff : forall v, heap_id v <-> is_heap v && negb (is_bad v) = true.
Proof.
  intros v. unfold heap_id, is_bad. rewrite is_heap_mod.
  rewrite andb_true_iff, negb_true_iff, Z.eqb_eq, Z.eqb_neq. tauto.
Qed.

Lemma huge_not_heap : forall v, huge_id v -> is_heap v = false.
Proof. intros v. unfold huge_id. rewrite is_heap_mod. intros ->. reflexivity. Qed.

Lemma heap_is_heap : forall v, heap_id v -> is_heap v = true.
Proof. intros v [H _]. rewrite is_heap_mod, H. reflexivity. Qed.

Lemma heap_not_huge : forall v, heap_id v -> huge_id v -> False.
Proof. intros v [H _] G. unfold huge_id in G. congruence. Qed.

Lemma managed_iff : forall v, managed v <-> negb (is_bad v) && is_tracked v = true.
Proof.
  intros v. unfold managed, heap_id, huge_id, is_bad. rewrite is_tracked_mod.
  rewrite andb_true_iff, negb_true_iff, orb_true_iff, !Z.eqb_eq, Z.eqb_neq.
  split; [ intros [[A B]|A] | intros [A [B|B]] ]; auto.
  split; [ | auto ]. intros ->. discriminate A.
Qed.

Lemma managed_dec : forall v, managed v \/ ~ managed v.
Proof.
  intros v. destruct (negb (is_bad v) && is_tracked v) eqn:E.
  - left. apply managed_iff; assumption.
  - right. rewrite managed_iff. congruence.
Qed.

Lemma heap_id_dec : forall v, heap_id v \/ ~ heap_id v.
Proof.
  intros v. destruct (is_heap v && negb (is_bad v)) eqn:E.
  - left. apply heap_id_iff; assumption.
  - right. rewrite heap_id_iff. congruence.
Qed.

Lemma slot_id_page : forall p i, 0 <= i < 126 -> page_of (slot_id p i) = p.
Proof.
  intros. unfold page_of, slot_id, PAGE_SIZE, SLOTS_OFFS. Z.div_mod_to_equations. lia.
Qed.

Lemma slot_id_mod : forall p i, slot_id p i mod 32 = 1.
Proof.
  intros. unfold slot_id, PAGE_SIZE, SLOTS_OFFS.
  replace (p * 4096 + 64 + 32 * i + 1) with (1 + (p * 128 + 2 + i) * 32) by ring.
  rewrite Z_mod_plus_full. reflexivity.
Qed.

Lemma slot_id_heap : forall p i, 0 <= p -> 0 <= i -> heap_id (slot_id p i).
Proof.
  intros. split; [ apply slot_id_mod | ]. unfold slot_id, PAGE_SIZE, SLOTS_OFFS. lia.
Qed.

Lemma slot_id_add : forall p i n, slot_id p (i + n) = slot_id p i + 32 * n.
Proof. intros. unfold slot_id. lia. Qed.

(* ------------------------------------------------------------------ chains *)

Lemma chain_le : forall m l a e, chain m a e l -> a <= e.
Proof.
  induction l as [|x l IH]; intros a e H; cbn [chain] in H.
  - lia.
  - destruct H as [_ [s [_ [Hs [_ H]]]]]. apply IH in H. lia.
Qed.

Lemma chain_in : forall m l a e x, chain m a e l -> In x l ->
  exists k s, x = a + 32 * k /\ 0 <= k /\ c_hdr (m x) = HSize s /\ 0 < s /\ s mod 32 = 0 /\ x + s <= e.
Proof.
  induction l as [|y l IH]; intros a e x H Hx; [ destruct Hx | ].
  cbn [chain] in H. destruct H as [-> [s [Hh [Hs [Hm H]]]]].
  destruct Hx as [<- | Hx].
  - exists 0, s. pose proof (chain_le _ _ _ _ H). repeat split; try assumption; lia.
  - destruct (IH _ _ _ H Hx) as [k [s' [-> [Hk [Hh' R]]]]].
    exists (s / 32 + k), s'.
    assert (E : s = 32 * (s / 32)) by (clear - Hm; Z.div_mod_to_equations; lia).
    assert (0 <= s / 32) by (clear - Hs; Z.div_mod_to_equations; lia).
    repeat split; try (exact (proj1 R)); try apply R; try assumption; lia.
Qed.

Lemma chain_lt : forall m l a e x, chain m a e l -> In x l -> a <= x < e.
Proof.
  intros m l a e x H Hx. destruct (chain_in _ _ _ _ _ H Hx) as [k [s R]]. lia.
Qed.

Lemma chain_hdr : forall m l a e x, chain m a e l -> In x l -> exists s, c_hdr (m x) = HSize s.
Proof. intros m l a e x H Hx. destruct (chain_in _ _ _ _ _ H Hx) as [k [s R]]. exists s. apply R. Qed.

Lemma chain_ext : forall m m' l a e, chain m a e l ->
  (forall x, In x l -> c_hdr (m' x) = c_hdr (m x)) -> chain m' a e l.
Proof.
  induction l as [|y l IH]; intros a e H Hx; cbn [chain] in *; [ assumption | ].
  destruct H as [-> [s [Hh [Hs [Hm H]]]]]. split; [ reflexivity | ]. exists s.
  repeat split; try assumption.
  - rewrite Hx by (left; reflexivity). assumption.
  - apply IH; [ assumption | ]. intros; apply Hx; right; assumption.
Qed.

Lemma chain_app : forall m l1 l2 a b e, chain m a b l1 -> chain m b e l2 -> chain m a e (l1 ++ l2).
Proof.
  induction l1 as [|y l1 IH]; intros l2 a b e H1 H2; cbn [chain app] in *.
  - subst. assumption.
  - destruct H1 as [-> [s [Hh [Hs [Hm H]]]]]. split; [ reflexivity | ]. exists s.
    repeat split; try assumption. eapply IH; eassumption.
Qed.

Lemma chain_split : forall m l1 l2 a e, chain m a e (l1 ++ l2) ->
  exists b, chain m a b l1 /\ chain m b e l2.
Proof.
  induction l1 as [|y l1 IH]; intros l2 a e H; cbn [chain app] in *.
  - exists a. split; [ reflexivity | assumption ].
  - destruct H as [-> [s [Hh [Hs [Hm H]]]]]. destruct (IH _ _ _ H) as [b [A B]].
    exists b. split; [ | assumption ]. split; [ reflexivity | ]. exists s. auto.
Qed.

Lemma chain_fun : forall m l1 l2 a e, chain m a e l1 -> chain m a e l2 -> l1 = l2.
Proof.
  induction l1 as [|y l1 IH]; intros [|z l2] a e H1 H2; cbn [chain] in *.
  - reflexivity.
  - destruct H2 as [-> [s [Hh [Hs [Hm H]]]]]. apply chain_le in H. lia.
  - destruct H1 as [-> [s [Hh [Hs [Hm H]]]]]. apply chain_le in H. lia.
  - destruct H1 as [-> [s [Hh [Hs [Hm H]]]]]. destruct H2 as [-> [s' [Hh' [Hs' [Hm' H']]]]].
    assert (s = s') by congruence. subst s'. f_equal. eapply IH; eassumption.
Qed.

Lemma chain_nodup : forall m l a e, chain m a e l -> NoDup l.
Proof.
  induction l as [|y l IH]; intros a e H; cbn [chain] in H; constructor.
  - destruct H as [-> [s [Hh [Hs [Hm H]]]]]. intros C. pose proof (chain_lt _ _ _ _ _ H C). lia.
  - destruct H as [-> [s [Hh [Hs [Hm H]]]]]. eapply IH; eassumption.
Qed.

Lemma chain_length : forall m l a e, chain m a e l -> 32 * len l <= e - a.
Proof.
  induction l as [|y l IH]; intros a e H; cbn [chain] in H.
  - change (len (@nil Z)) with 0. lia.
  - destruct H as [-> [s [Hh [Hs [Hm H]]]]]. apply IH in H.
    assert (32 <= s) by (clear - Hs Hm; Z.div_mod_to_equations; lia). lenz. lia.
Qed.

Lemma pobjs_in : forall h p l x, 0 <= p -> 0 <= nalloc h p <= 126 -> pobjs h p l -> In x l ->
  heap_id x /\ page_of x = p /\ exists k, x = slot_id p k /\ 0 <= k < nalloc h p.
Proof.
  intros h p l x Hp Hn H Hx. destruct (chain_in _ _ _ _ _ H Hx) as [k [s [-> [Hk [Hh [Hs [Hm He]]]]]]].
  rewrite <- slot_id_add in *. rewrite Z.add_0_l in *.
  assert (k < nalloc h p) by (unfold slot_id in He; lia).
  split; [ apply slot_id_heap; lia | ]. split; [ apply slot_id_page; lia | ].
  exists k. split; [ reflexivity | lia ].
Qed.

Lemma pobjs_size : forall h p l x, 0 <= nalloc h p <= 126 -> pobjs h p l -> In x l ->
  exists s, c_hdr (mem h x) = HSize s /\ 0 < s <= 4032 /\ s mod 32 = 0.
Proof.
  intros h p l x Hn H Hx. destruct (chain_in _ _ _ _ _ H Hx) as [k [s [-> [Hk [Hh [Hs [Hm He]]]]]]].
  exists s. repeat split; try assumption. unfold slot_id in He. lia.
Qed.

Lemma pobjs_len : forall h p l, 0 <= nalloc h p -> pobjs h p l -> (length l <= page_fuel h p)%nat.
Proof.
  intros h p l Hn H. apply chain_length in H. unfold page_fuel. unfold slot_id in H.
  unfold len in H. lia.
Qed.

Lemma csize_hsize : forall c s, c_hdr c = HSize s -> csize c = s.
Proof. intros c s H. unfold csize. rewrite H. reflexivity. Qed.

Lemma fupd_same : forall (A : Type) (f : Z -> A) k a, fupd f k a k = a.
Proof. intros. unfold fupd. rewrite Z.eqb_refl. reflexivity. Qed.

Lemma fupd_other : forall (A : Type) (f : Z -> A) k a x, x <> k -> fupd f k a x = f x.
Proof. intros. unfold fupd. destruct (x =? k) eqn:E; [ lia | reflexivity ]. Qed.
