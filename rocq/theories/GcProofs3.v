(* Allocation from the heap during a collection. *)
From Coq Require Import ZArith List Lia Bool ZifyBool Permutation.
Import ListNotations.
From Verif Require Import Base ListZ GcModel GcSpec GcProofs.
Local Open Scope Z_scope.
Ltac Zify.zify_post_hook ::= idtac.

(* The bytes used by the pages [l]. *)
Definition psum (nal : Z -> Z) (l : list Z) : Z :=
  fold_right Z.add 0 (map (fun p => 64 + 32 * nal p) l).

Lemma psum_nil : forall nal, psum nal [] = 0.
Proof. reflexivity. Qed.

Lemma psum_cons : forall nal p l, psum nal (p :: l) = 64 + 32 * nal p + psum nal l.
Proof. reflexivity. Qed.

Lemma psum_app : forall nal l1 l2, psum nal (l1 ++ l2) = psum nal l1 + psum nal l2.
Proof.
  induction l1 as [|p l1 IH]; intros l2; cbn [app]; [ rewrite psum_nil; lia | ].
  rewrite !psum_cons, IH. lia.
Qed.

Lemma psum_perm : forall nal l1 l2, Permutation l1 l2 -> psum nal l1 = psum nal l2.
Proof.
  intros nal l1 l2 H. induction H; rewrite ?psum_cons; lia.
Qed.

Lemma psum_ext : forall nal nal' l, (forall p, In p l -> nal' p = nal p) -> psum nal' l = psum nal l.
Proof.
  induction l as [|p l IH]; intros H; [ reflexivity | ]. rewrite !psum_cons, IH.
  - rewrite H by (left; reflexivity). reflexivity.
  - intros q Hq. apply H. right. assumption.
Qed.

Lemma psum_out : forall nal q n l, ~ In q l -> psum (fupd nal q n) l = psum nal l.
Proof.
  intros. apply psum_ext. intros p Hp. apply fupd_other. intros ->. contradiction.
Qed.

Lemma psum_in : forall nal q n l, NoDup l -> In q l ->
  psum (fupd nal q n) l = psum nal l + 32 * (n - nal q).
Proof.
  intros nal q n l ND Hq. apply in_split in Hq. destruct Hq as [l1 [l2 ->]].
  apply NoDup_remove_2 in ND. rewrite in_app_iff in ND.
  rewrite !psum_app, !psum_cons, !psum_out by tauto. rewrite fupd_same. lia.
Qed.

(* What allocation leaves alone. *)
Record same_objs (h h1 : heap) : Prop := {
  so_mem : mem h1 = mem h; so_bref : bref h1 = bref h; so_color : color h1 = color h;
  so_flags : pflags h1 = pflags h; so_fins : fins h1 = fins h;
  so_nfreed : nfreed h1 = nfreed h; so_nkept : nkept h1 = nkept h }.

Lemma same_objs_refl : forall h, same_objs h h.
Proof. intros; constructor; reflexivity. Qed.

Lemma same_objs_trans : forall a b c, same_objs a b -> same_objs b c -> same_objs a c.
Proof. intros a b c [] []; constructor; congruence. Qed.

Definition same_pages (h h1 : heap) : Prop :=
  nalloc h1 = nalloc h /\ free h1 = free h /\ resv h1 = resv h.

Lemma push_page_spec : forall h p,
  same_objs h (push_page h p) /\ same_pages h (push_page h p) /\
  cur (push_page h p) = cur h /\ usz (push_page h p) = usz h /\
  Permutation (used (push_page h p)) (p :: used h).
Proof.
  intros h p. unfold push_page.
  destruct (nalloc h p =? SLOTS);
    (split; [ constructor; reflexivity | ]; split; [ repeat split | ]; split; [ reflexivity | ]; split; [ reflexivity | ]);
    cbn [set_used used]; [ | reflexivity ].
  rewrite <- Permutation_cons_append. reflexivity.
Qed.

Lemma push_objs_spec : forall h p,
  same_objs h (push_page_with_objects h p) /\ same_pages h (push_page_with_objects h p) /\
  cur (push_page_with_objects h p) = cur h /\
  usz (push_page_with_objects h p) = usz h + (64 + 32 * nalloc h p) /\
  Permutation (used (push_page_with_objects h p)) (p :: used h).
Proof.
  intros h p. unfold push_page_with_objects. cbv zeta.
  destruct (push_page_spec h p) as [[] [[A [B C]] [D [F G]]]].
  repeat split; try assumption.
  cbn [set_usz usz]. unfold used_page_size, SLOTS_OFFS. rewrite A, F. reflexivity.
Qed.

Lemma release_cur_spec : forall h,
  same_objs h (release_cur h) /\ same_pages h (release_cur h) /\
  cur (release_cur h) = None /\ Permutation (used (release_cur h)) (in_use h) /\
  usz (release_cur h) - psum (nalloc (release_cur h)) (used (release_cur h)) = usz h - psum (nalloc h) (used h).
Proof.
  intros h. unfold release_cur, in_use. destruct (cur h) as [c|] eqn:E; cbn [opt_list].
  - destruct (push_objs_spec h c) as [A [[B1 [B2 B3]] [C [D F]]]].
    split; [ destruct A; constructor; assumption | ]. split; [ repeat split; assumption | ].
    split; [ reflexivity | ]. cbn [set_cur used usz nalloc]. split.
    + rewrite F. apply Permutation_cons_append.
    + rewrite D, B1, (psum_perm _ _ _ F), psum_cons. lia.
  - split; [ apply same_objs_refl | ]. split; [ repeat split | ]. split; [ assumption | ].
    split; [ rewrite app_nil_r; reflexivity | lia ].
Qed.

Lemma release_cur_in_use : forall h, Permutation (in_use (release_cur h)) (in_use h).
Proof.
  intros h. destruct (release_cur_spec h) as [_ [_ [A [B _]]]]. unfold in_use at 1. rewrite A.
  cbn [opt_list]. rewrite app_nil_r. assumption.
Qed.

(* An object of [n] slots was allocated at [w], in the page [q]. *)
Record allocated (h h1 : heap) (n q na w : Z) : Prop := {
  al_same : same_objs h h1;
  al_w : w = slot_id q na;
  al_fit : 0 <= na /\ na + n <= 126;
  al_in : In q (in_use h1);
  al_nalloc : nalloc h1 q = na + n;
  al_other : forall p, p <> q -> nalloc h1 p = nalloc h p;
  al_usz : usz h1 - psum (nalloc h1) (used h1) = usz h - psum (nalloc h) (used h);
  al_where :
    (In q (in_use h) /\ na = nalloc h q /\ Permutation (in_use h1) (in_use h) /\
     free h1 = free h /\ resv h1 = resv h) \/
    (na = 0 /\ Permutation (in_use h1) (q :: in_use h) /\ free h = q :: free h1 /\ resv h1 = resv h) \/
    (na = 0 /\ Permutation (in_use h1) (q :: in_use h) /\ free h = [] /\ free h1 = [] /\ resv h = q :: resv h1)
}.

Definition room (h : heap) : Prop :=
  NoDup (in_use h ++ free h ++ resv h) /\
  (forall p, In p (in_use h) -> 0 <= nalloc h p <= 126) /\
  (forall p, In p (free h) -> nalloc h p = 0).

Lemma nodup_app_l : forall (A : Type) (l1 l2 : list A), NoDup (l1 ++ l2) -> NoDup l1.
Proof.
  induction l1 as [|x l1 IH]; intros l2 H; [ constructor | ].
  inversion H as [|? ? N ND]; subst. constructor; [ rewrite in_app_iff in N; tauto | eapply IH; eassumption ].
Qed.

Lemma nodup_app_r : forall (A : Type) (l1 l2 : list A), NoDup (l1 ++ l2) -> NoDup l2.
Proof.
  induction l1 as [|x l1 IH]; intros l2 H; [ assumption | ].
  inversion H; subst. apply IH. assumption.
Qed.

Lemma nodup_app_disj : forall (A : Type) (l1 l2 : list A) x, NoDup (l1 ++ l2) -> In x l1 -> In x l2 -> False.
Proof.
  induction l1 as [|y l1 IH]; intros l2 x H H1 H2; [ destruct H1 | ].
  cbn [app] in H. inversion H as [|? ? N ND]; subst. destruct H1 as [-> | H1].
  - apply N. rewrite in_app_iff. tauto.
  - eapply IH; eassumption.
Qed.

Lemma seek_spec : forall d h pre rest n v h1, room h -> 0 < n -> used h = pre ++ rest ->
  seek d h pre rest n = Some (v, h1) -> exists q na, allocated h h1 n q na v.
Proof.
  induction d as [|d IH]; intros h pre rest n v h1 R Hn U H; [ discriminate H | ].
  cbn [seek] in H. destruct rest as [|p rest']; [ discriminate H | ].
  destruct (nalloc h p =? SLOTS) eqn:E1; [ discriminate H | ].
  assert (Next : forall r, seek d h (pre ++ [p]) rest' n = Some r -> r = (v, h1) -> exists q na, allocated h h1 n q na v).
  { intros r Hr ->. eapply IH; [ exact R | exact Hn | | exact Hr ]. rewrite U, <- app_assoc. reflexivity. }
  destruct (SLOTS - nalloc h p <? n) eqn:E2; [ eapply Next; [ exact H | reflexivity ] | ].
  unfold alloc_from_page in H. cbv zeta in H.
  destruct (nalloc h p + n <=? SLOTS) eqn:E3; [ | eapply Next; [ exact H | reflexivity ] ].
  clear Next IH. unfold SLOTS in *.
  destruct R as [ND [Rg _]].
  assert (Hp : In p (used h)) by (rewrite U; apply in_or_app; right; left; reflexivity).
  assert (Hpu : In p (in_use h)) by (unfold in_use; apply in_or_app; left; assumption).
  specialize (Rg p Hpu) as Rp.
  assert (NDu : NoDup (used h)) by (unfold in_use in ND; rewrite <- app_assoc in ND; eapply nodup_app_l; eassumption).
  set (nal := fupd (nalloc h) p (nalloc h p + n)) in *.
  assert (Np : nal p = nalloc h p + n) by (apply fupd_same).
  assert (Perm : Permutation (used h) (p :: pre ++ rest')) by (rewrite U; symmetry; apply Permutation_middle).
  assert (Sum : psum nal (used h) = psum (nalloc h) (used h) + 32 * n) by (unfold nal; rewrite psum_in by assumption; lia).
  assert (Sum2 : psum nal (used h) = 64 + 32 * nal p + psum nal (pre ++ rest')) by (rewrite (psum_perm _ _ _ Perm); reflexivity).
  change (nalloc (set_usz (set_nalloc h nal) (usz (set_nalloc h nal) + 32 * n))) with nal in H.
  exists p, (nalloc h p).
  assert (Stay : v = slot_id p (nalloc h p) -> h1 = set_usz (set_nalloc h nal) (usz (set_nalloc h nal) + 32 * n) ->
                 allocated h h1 n p (nalloc h p) v).
  { intros -> ->. constructor; try reflexivity; try assumption; try lia.
    - constructor; reflexivity.
    - intros x Hx. apply fupd_other. assumption.
    - cbn [set_usz set_nalloc usz nalloc used]. lia.
    - left. repeat split; assumption || reflexivity. }
  destruct (nal p =? 126) eqn:E4.
  { destruct rest' as [|p2 rest2].
    - apply Stay; congruence.
    - assert (v = slot_id p (nalloc h p) /\ h1 = push_page (set_used (set_usz (set_nalloc h nal) (usz (set_nalloc h nal) + 32 * n)) (pre ++ p2 :: rest2)) p)
        as [-> ->] by (split; congruence). clear H Stay.
      set (hh := set_used (set_usz (set_nalloc h nal) (usz (set_nalloc h nal) + 32 * n)) (pre ++ p2 :: rest2)).
      destruct (push_page_spec hh p) as [[] [[B1 [B2 B3]] [C [D F]]]].
      assert (PU : Permutation (used (push_page hh p)) (used h)) by (rewrite F, Perm; reflexivity).
      assert (PI : Permutation (in_use (push_page hh p)) (in_use h)).
      { unfold in_use. rewrite C. change (cur hh) with (cur h). apply Permutation_app_tail. assumption. }
      constructor; try reflexivity; try lia.
      + constructor; assumption.
      + eapply Permutation_in; [ symmetry; exact PI | assumption ].
      + rewrite B1. exact Np.
      + intros x Hx. rewrite B1. apply fupd_other. assumption.
      + rewrite D, B1. change (nalloc hh) with nal. rewrite (psum_perm _ _ _ PU).
        change (usz hh) with (usz h + 32 * n). lia.
      + left. repeat split; try assumption. }
  destruct (match cur h with None => true | Some c => nal p <? nal c end) eqn:E5; [ | apply Stay; congruence ].
  clear Stay.
  set (h3 := set_used (set_usz (set_nalloc h nal) (usz (set_nalloc h nal) + 32 * n)) (pre ++ rest')) in *.
  set (h4 := set_usz h3 (usz h3 - used_page_size h3 p)) in *.
  assert (U4 : usz h4 = usz h + 32 * n - (64 + 32 * nal p)) by reflexivity.
  destruct (cur h) as [c|] eqn:Cur.
  - assert (v = slot_id p (nalloc h p) /\ h1 = set_cur (push_page_with_objects h4 c) (Some p)) as [-> ->] by (split; congruence). clear H.
    destruct (push_objs_spec h4 c) as [[] [[B1 [B2 B3]] [C [D F]]]].
    assert (PI : Permutation (in_use (set_cur (push_page_with_objects h4 c) (Some p))) (in_use h)).
    { unfold in_use. rewrite Cur. cbn [set_cur used cur opt_list].
      change (used h4) with (pre ++ rest') in F.
      rewrite F, Perm. cbn [app]. rewrite <- !Permutation_cons_append. apply perm_swap. }
    constructor; try reflexivity; try lia.
    + constructor; assumption.
    + eapply Permutation_in; [ symmetry; exact PI | assumption ].
    + cbn [set_cur nalloc]. rewrite B1. exact Np.
    + intros x Hx. cbn [set_cur nalloc]. rewrite B1. apply fupd_other. assumption.
    + cbn [set_cur nalloc usz used]. rewrite (psum_perm _ _ _ F), psum_cons, D, B1.
      change (used h4) with (pre ++ rest'). change (nalloc h4) with nal. lia.
    + left. repeat split; try assumption.
  - assert (v = slot_id p (nalloc h p) /\ h1 = set_cur h4 (Some p)) as [-> ->] by (split; congruence). clear H.
    assert (PI : Permutation (in_use (set_cur h4 (Some p))) (in_use h)).
    { unfold in_use. rewrite Cur. cbn [set_cur used cur opt_list].
      change (used h4) with (pre ++ rest').
      rewrite Perm, app_nil_r. rewrite <- Permutation_cons_append. reflexivity. }
    constructor; try reflexivity; try lia.
    + constructor; reflexivity.
    + eapply Permutation_in; [ symmetry; exact PI | assumption ].
    + exact Np.
    + intros x Hx. apply fupd_other. assumption.
    + cbn [set_cur nalloc usz used].
      change (used h4) with (pre ++ rest'). change (nalloc h4) with nal. lia.
    + left. repeat split; try assumption.
Qed.

Lemma alloc_object_spec : forall h s v h1, room h -> 0 < s <= 4032 -> s mod 32 = 0 ->
  alloc_object h s = (v, h1) ->
  match v with
  | Some w => exists q na, allocated h h1 (s / 32) q na w
  | None => h1 = release_cur h /\ free h = [] /\ resv h = []
  end.
Proof.
  intros h s v h1 R Hs Hm H. unfold alloc_object in H. cbv zeta in H.
  assert (En : (s + 31) / 32 = s / 32) by (clear - Hs Hm; Z.div_mod_to_equations; lia).
  assert (Hn : 0 < s / 32 <= 126) by (clear - Hs Hm; Z.div_mod_to_equations; lia).
  rewrite En in H. set (n := s / 32) in *. clearbody n. clear En Hm Hs s.
  set (slow := match seek 8 h [] (used h) n with
               | Some (v, h1) => (Some v, h1)
               | None => let h1 := release_cur h in
                 match alloc_page h1 with
                 | None => (None, h1)
                 | Some (p, h2) => let h3 := set_cur h2 (Some p) in
                   match alloc_from_page h3 p n with
                   | Some (v, h4) => (Some v, h4)
                   | None => (None, h3)
                   end
                 end
               end) in *.
  assert (Slow : slow = (v, h1) ->
    match v with
    | Some w => exists q na, allocated h h1 n q na w
    | None => h1 = release_cur h /\ free h = [] /\ resv h = []
    end).
  { clear H. unfold slow. clear slow. intros H.
    destruct (seek 8 h [] (used h) n) as [[w h2]|] eqn:Sk.
    { assert (v = Some w /\ h1 = h2) as [-> ->] by (split; congruence).
      eapply seek_spec; [ exact R | lia | | exact Sk ]. reflexivity. }
    cbv zeta in H. destruct (release_cur_spec h) as [A [[B1 [B2 B3]] [C [D F]]]].
    pose proof (release_cur_in_use h) as PI0.
    set (hr := release_cur h) in *. unfold alloc_page in H.
    destruct (free hr) as [|q l] eqn:Fr.
    - destruct (resv hr) as [|q l] eqn:Rs.
      + assert (v = None /\ h1 = hr) as [-> ->] by (split; congruence). repeat split; congruence.
      + unfold alloc_from_page in H. cbn [set_cur set_nalloc set_resv nalloc] in H.
        rewrite fupd_same in H. unfold SLOTS in H.
        destruct (0 + n <=? 126) eqn:E; [ | lia ].
        assert (v = Some (slot_id q 0) /\ h1 = set_nalloc (set_cur (set_nalloc (set_resv hr l) (fupd (nalloc hr) q 0)) (Some q)) (fupd (fupd (nalloc hr) q 0) q (0 + n))) as [-> ->]
          by (split; congruence).
        assert (PI : Permutation (used hr ++ [q]) (q :: in_use h)).
        { rewrite <- Permutation_cons_append. apply perm_skip. exact D. }
        assert (Hq : ~ In q (used hr)).
        { intros K. destruct R as [ND _]. apply (Permutation_in q D) in K.
          eapply nodup_app_disj; [ exact ND | exact K | ]. apply in_or_app. right. rewrite <- B3. left. reflexivity. }
        exists q, 0. constructor; try reflexivity; try lia.
        * destruct A; constructor; assumption.
        * unfold in_use. cbn [set_nalloc set_cur used cur opt_list]. apply in_or_app. right. left. reflexivity.
        * cbn [set_nalloc nalloc]. rewrite fupd_same. reflexivity.
        * intros p Hp. cbn [set_nalloc nalloc]. rewrite !fupd_other by assumption. rewrite B1. reflexivity.
        * cbn [set_nalloc set_cur set_resv nalloc usz used]. rewrite !psum_out by assumption. exact F.
        * right. right. cbn [set_nalloc set_cur set_resv resv free]. repeat split; try congruence. exact PI.
    - unfold alloc_from_page in H. cbn [set_cur set_free nalloc] in H.
      assert (Nq : nalloc hr q = 0).
      { rewrite B1. destruct R as [_ [_ R]]. apply R. rewrite <- B2. left. reflexivity. }
      rewrite Nq in H. unfold SLOTS in H.
      destruct (0 + n <=? 126) eqn:E; [ | lia ].
      assert (v = Some (slot_id q 0) /\ h1 = set_nalloc (set_cur (set_free hr l) (Some q)) (fupd (nalloc hr) q (0 + n))) as [-> ->]
        by (split; congruence).
      assert (PI : Permutation (used hr ++ [q]) (q :: in_use h)).
      { rewrite <- Permutation_cons_append. apply perm_skip. exact D. }
      assert (Hq : ~ In q (used hr)).
      { intros K. destruct R as [ND _]. apply (Permutation_in q D) in K.
        eapply nodup_app_disj; [ exact ND | exact K | ]. apply in_or_app. left. rewrite <- B2. left. reflexivity. }
      exists q, 0. constructor; try reflexivity; try lia.
      + destruct A; constructor; assumption.
      + unfold in_use. cbn [set_nalloc set_cur used cur opt_list]. apply in_or_app. right. left. reflexivity.
      + cbn [set_nalloc nalloc]. rewrite fupd_same. reflexivity.
      + intros p Hp. cbn [set_nalloc nalloc]. rewrite !fupd_other by assumption. rewrite B1. reflexivity.
      + cbn [set_nalloc set_cur set_free nalloc usz used]. rewrite !psum_out by assumption. exact F.
      + right. left. cbn [set_nalloc set_cur set_free resv free]. repeat split; try congruence. exact PI. }
  destruct (cur h) as [c|] eqn:Cur; [ | apply Slow; exact H ].
  unfold alloc_from_page in H. cbv zeta in H.
  destruct (nalloc h c + n <=? SLOTS) eqn:E; [ | apply Slow; exact H ].
  unfold SLOTS in E.
  assert (v = Some (slot_id c (nalloc h c)) /\ h1 = set_nalloc h (fupd (nalloc h) c (nalloc h c + n))) as [-> ->] by (split; congruence).
  assert (Hc : In c (in_use h)) by (unfold in_use; rewrite Cur; apply in_or_app; right; left; reflexivity).
  destruct R as [ND [Rg _]]. specialize (Rg c Hc).
  assert (Nu : ~ In c (used h)).
  { intros K. unfold in_use in ND. rewrite Cur, <- app_assoc in ND. eapply nodup_app_disj; [ exact ND | exact K | left; reflexivity ]. }
  exists c, (nalloc h c). constructor; try reflexivity; try lia.
  - constructor; reflexivity.
  - exact Hc.
  - cbn [set_nalloc nalloc]. apply fupd_same.
  - intros p Hp. cbn [set_nalloc nalloc]. apply fupd_other. assumption.
  - cbn [set_nalloc nalloc usz used]. rewrite psum_out by assumption. reflexivity.
  - left. repeat split; try assumption; reflexivity.
Qed.
