(* The update of the references after the evacuation. *)
From Coq Require Import ZArith List Lia Bool ZifyBool Permutation.
Import ListNotations.
From Verif Require Import Base ListZ GcModel GcSpec GcProofs GcProofs3 GcProofs4 GcProofs5.
Local Open Scope Z_scope.
Ltac Zify.zify_post_hook ::= idtac.

(* Only memory and back references change, headers stay. *)
Record same_upd (h h' : heap) : Prop := {
  su_hdr : forall y, c_hdr (mem h' y) = c_hdr (mem h y);
  su_nalloc : nalloc h' = nalloc h; su_flags : pflags h' = pflags h;
  su_color : color h' = color h; su_used : used h' = used h; su_free : free h' = free h;
  su_resv : resv h' = resv h; su_cur : cur h' = cur h; su_usz : usz h' = usz h;
  su_fins : fins h' = fins h; su_nfreed : nfreed h' = nfreed h }.

Lemma su_refl : forall h, same_upd h h.
Proof. intros; constructor; reflexivity. Qed.

Lemma su_trans : forall a b c, same_upd a b -> same_upd b c -> same_upd a c.
Proof. intros a b c [] []; constructor; try congruence. Qed.

Lemma set_body_mem : forall h v o y, mem (set_body h v o) y = if y =? v then mkcell (c_hdr (mem h v)) o else mem h y.
Proof. intros. reflexivity. Qed.

Lemma su_set_body : forall h v o, same_upd h (set_body h v o).
Proof.
  intros. constructor; try reflexivity. intros y. rewrite set_body_mem. destruct (y =? v) eqn:Q; [ | reflexivity ].
  assert (y = v) by lia. subst. reflexivity.
Qed.

Lemma su_child_ptrs : forall h v, same_upd h (update_child_ptrs h v).
Proof.
  intros h v. unfold update_child_ptrs. destruct (c_obj (mem h v)); try apply su_set_body.
  destruct (is_bad object); [ apply su_refl | ]. cbv zeta. eapply su_trans; [ | apply su_set_body ]. constructor; reflexivity.
Qed.

Definition upd_list (l : list Z) (h : heap) : heap := fold_left update_child_ptrs l h.

Lemma su_upd_list : forall l h, same_upd h (upd_list l h).
Proof.
  induction l as [|x l IH]; intros h; [ apply su_refl | ]. cbn [upd_list fold_left].
  eapply su_trans; [ apply su_child_ptrs | apply IH ].
Qed.

Lemma upd_list_app : forall l1 l2 h, upd_list (l1 ++ l2) h = upd_list l2 (upd_list l1 h).
Proof. intros. apply fold_left_app. Qed.

Lemma update_loop_list : forall l fuel h a e, (length l <= fuel)%nat -> chain (mem h) a e l ->
  update_loop fuel h a e = upd_list l h.
Proof.
  induction l as [|x l IH]; intros fuel h a e Hf Hc.
  - cbn [chain] in Hc. subst e. destruct fuel; [ reflexivity | ]. cbn [update_loop]. rewrite Z.ltb_irrefl. reflexivity.
  - pose proof (chain_lt _ _ _ _ x Hc ltac:(left; reflexivity)) as Lt. cbn [chain] in Hc. destruct Hc as [-> [s [Hs [S1 [S2 Hc]]]]].
    destruct fuel as [|k]; [ cbn [length] in Hf; lia | ]. cbn [update_loop].
    destruct (a <? e) eqn:Q; [ | lia ]. cbv zeta. rewrite (csize_hsize _ _ Hs). cbn [upd_list fold_left].
    apply IH; [ cbn [length] in Hf; lia | ]. eapply chain_ext; [ exact Hc | ]. intros y _. apply (su_hdr _ _ (su_child_ptrs h a)).
Qed.

Lemma update_page_list : forall h p a l, (length l <= page_fuel h p)%nat -> chain (mem h) a (page_end h p) l ->
  update_page h p a = upd_list l h.
Proof. intros. apply update_loop_list; assumption. Qed.

Lemma update_pages_list : forall ps h, NoDup ps -> (forall p, In p ps -> 0 <= p /\ 0 <= nalloc h p <= 126 /\ exists l, pobjs h p l) ->
  exists U, update_pages h ps = upd_list U h /\ NoDup U /\
    forall x, In x U <-> exists p l, In p ps /\ pobjs h p l /\ In x l.
Proof.
  induction ps as [|p ps IH]; intros h ND H.
  - exists []. split; [ reflexivity | ]. split; [ constructor | ]. intros x. split; [ intros [] | intros [p [l [[] _]]] ].
  - destruct (H p ltac:(left; reflexivity)) as [P0 [R [l Hl]]]. inversion ND as [|? ? N1 N2]; subst.
    cbn [update_pages]. rewrite (update_page_list h p (page_start p) l); [ | apply pobjs_len; [ lia | assumption ] | exact Hl ].
    pose proof (su_upd_list l h) as SU. set (h1 := upd_list l h) in *.
    assert (PO : forall q k, pobjs h1 q k <-> pobjs h q k).
    { intros q k. unfold pobjs. rewrite (su_nalloc _ _ SU). split; intros Q; (eapply chain_ext; [ exact Q | ]); intros y _;
        [ symmetry | ]; apply (su_hdr _ _ SU). }
    destruct (IH h1 N2) as [U [E [NU HU]]].
    { intros q Hq. rewrite (su_nalloc _ _ SU). destruct (H q ltac:(right; assumption)) as [A [B [k Hk]]].
      split; [ assumption | ]. split; [ assumption | ]. exists k. apply PO. assumption. }
    exists (l ++ U). split; [ rewrite upd_list_app; exact E | ].
    assert (HU' : forall x, In x U <-> exists q k, In q ps /\ pobjs h q k /\ In x k).
    { intros x. rewrite HU. split; intros [q [k [A [B C]]]]; exists q, k; (split; [ assumption | ]); (split; [ apply PO; assumption | assumption ]). }
    split.
    + assert (D : forall x, In x l -> ~ In x U).
      { intros x Hx Hu. apply HU' in Hu. destruct Hu as [q [k [A [B C]]]].
        destruct (pobjs_in h p l x P0 R Hl Hx) as [_ [Q1 _]].
        destruct (H q ltac:(right; assumption)) as [P1 [R1 _]].
        destruct (pobjs_in h q k x P1 R1 B C) as [_ [Q2 _]]. congruence. }
      pose proof (chain_nodup _ _ _ _ Hl) as NL. clear - D NL NU. induction l as [|y l IH]; [ assumption | ].
      inversion NL; subst. cbn [app]. constructor.
      * rewrite in_app_iff. intros [A | A]; [ contradiction | ]. apply (D y); [ left; reflexivity | assumption ].
      * apply IH; [ intros x Hx; apply D; right; assumption | assumption ].
    + intros x. rewrite in_app_iff, HU'. split.
      * intros [A | [q [k [A B]]]]; [ exists p, l; split; [ left; reflexivity | auto ] | exists q, k; split; [ right; assumption | assumption ] ].
      * intros [q [k [[<- | A] [B C]]]]; [ left; rewrite (chain_fun _ _ _ _ _ Hl B); assumption | right; exists q, k; auto ].
Qed.

Lemma ucp_ext : forall h h' v, (forall y, c_hdr (mem h' y) = c_hdr (mem h y)) -> update_child_ptr h' v = update_child_ptr h v.
Proof. intros h h' v H. unfold update_child_ptr. rewrite H. reflexivity. Qed.

Lemma update_obj_ext : forall h h' v b, (forall y, c_hdr (mem h' y) = c_hdr (mem h y)) -> update_obj h' v b = update_obj h v b.
Proof.
  intros h h' v b H. pose proof (fun w => ucp_ext h h' w H) as E. destruct b; cbn [update_obj]; cbv zeta; rewrite ?E; try reflexivity.
  - f_equal. apply map_ext. intros [[a1 c1] d1]. cbn [fst snd]. rewrite !E. reflexivity.
  - f_equal. apply map_ext. apply E.
  - f_equal. apply map_ext. apply E.
Qed.

Lemma update_inst_ext : forall h h' i, (forall y, c_hdr (mem h' y) = c_hdr (mem h y)) -> update_inst h' i = update_inst h i.
Proof.
  intros h h' i H. pose proof (fun w => ucp_ext h h' w H) as E. unfold update_inst. rewrite E. f_equal.
  - apply map_ext. apply E.
  - apply map_ext. apply E.
  - apply map_ext. intros t. rewrite !E. reflexivity.
  - apply map_ext. intros x. rewrite !E. f_equal; apply map_ext; apply E.
Qed.

Lemma update_obj_shape : forall h v b, shape (update_obj h v b) = shape b.
Proof.
  intros h v b. destruct b; cbn [update_obj shape]; cbv zeta; try reflexivity.
  - f_equal. lia.
  - f_equal. rewrite map_map. reflexivity.
  - f_equal. rewrite map_map. reflexivity.
  - destruct external; reflexivity.
  - f_equal. rewrite map_map. reflexivity.
Qed.

Lemma update_obj_refs : forall h v b, (forall s d o, b = OTracker s d o -> ~ heap_id o) ->
  refs (update_obj h v b) = map (update_child_ptr h) (refs b).
Proof.
  intros h v b H. destruct b; cbn [update_obj refs map]; cbv zeta; try reflexivity.
  - f_equal. rewrite map_app, !map_map. reflexivity.
  - unfold update_child_ptr. destruct (is_heap object && negb (is_bad object)) eqn:Q; [ | reflexivity ].
    exfalso. apply (H size data object eq_refl). apply heap_id_iff. assumption.
Qed.

Lemma update_obj_storage : forall h v b d p x, update_obj h v b = OBufStorage d false p x -> p = v + 23.
Proof.
  intros h v b d p x. destruct b; cbn [update_obj]; cbv zeta; intros Q; try discriminate.
  destruct external; [ discriminate | ]. assert (v - 1 + 24 = p) by congruence. lia.
Qed.

Lemma update_obj_tracker : forall h v b s d o, update_obj h v b = OTracker s d o <-> b = OTracker s d o.
Proof. intros. destruct b; cbn [update_obj]; cbv zeta; split; intros Q; try discriminate; assumption. Qed.

Lemma update_obj_opaque : forall h v b, is_opaque (update_obj h v b) <-> is_opaque b.
Proof. intros. destruct b; cbn [update_obj]; cbv zeta; split; intros [x Q]; try discriminate; exists x; assumption. Qed.

Lemma roots_update : forall h i, roots (update_inst h i) = map (update_child_ptr h) (roots i).
Proof.
  intros h i. unfold roots, update_inst. cbn [i_args i_protos i_modules i_threads i_ctxs map]. f_equal.
  rewrite !map_app. f_equal. f_equal. f_equal.
  - induction (i_threads i) as [|t l IH]; [ reflexivity | ]. cbn [map concat]. rewrite map_app, IH. reflexivity.
  - induction (i_ctxs i) as [|x l IH]; [ reflexivity | ]. cbn [map concat]. rewrite map_app, IH.
    cbn [x_exc x_stack x_locals x_ulocals map]. rewrite map_app. reflexivity.
Qed.

(* The object changed by the update of [x]. *)
Definition tgt (h : heap) (x : Z) : Z :=
  match body h x with OTracker _ _ o => if o =? 1 then x else o | _ => x end.

Lemma tgt_ext : forall h h' y, (forall s d o, body h' y = OTracker s d o <-> body h y = OTracker s d o) ->
  tgt h' y = tgt h y.
Proof.
  intros h h' y. unfold tgt. generalize (body h y) (body h' y). intros a b H.
  assert (Ha : forall s d o, a = OTracker s d o -> b = OTracker s d o) by (intros s d o; apply H).
  assert (Hb : forall s d o, b = OTracker s d o -> a = OTracker s d o) by (intros s d o; apply H).
  destruct a; destruct b; try reflexivity; try (specialize (Ha _ _ _ eq_refl); inversion Ha; reflexivity);
    specialize (Hb _ _ _ eq_refl); inversion Hb; reflexivity.
Qed.

Definition upd_cell (h : heap) (y : Z) : cell := mkcell (c_hdr (mem h y)) (update_obj h y (body h y)).

Lemma child_ptrs_spec : forall h x, heap_id x -> (forall s d o, body h x = OTracker s d o -> o <> 1 -> huge_id o) ->
  let h' := update_child_ptrs h x in
  (forall y, mem h' y = if y =? tgt h x then upd_cell h y else mem h y) /\
  (forall o, bref h' o = if (o =? tgt h x) && negb (o =? x) then x else bref h o).
Proof.
  intros h x Hx Ht h'. unfold h', update_child_ptrs, tgt. unfold body in Ht |- *.
  assert (exists b, c_obj (mem h x) = b) as [b Eb] by (eexists; reflexivity). rewrite Eb in *.
  assert (Plain : forall b', c_obj (mem h x) = b' ->
    (forall y, mem (set_body h x (update_obj h x b')) y = if y =? x then upd_cell h y else mem h y) /\
    (forall o, bref (set_body h x (update_obj h x b')) o = if (o =? x) && negb (o =? x) then x else bref h o)).
  { intros b' E'. split.
    - intros y. rewrite set_body_mem. destruct (y =? x) eqn:Q; [ | reflexivity ]. assert (y = x) by lia. subst y.
      unfold upd_cell, body. rewrite E'. reflexivity.
    - intros o. destruct (o =? x); reflexivity. }
  destruct b; try (apply Plain; assumption).
  unfold is_bad. destruct (object =? 1) eqn:Q1.
  - split.
    + intros y. destruct (y =? x) eqn:Q; [ | reflexivity ]. assert (y = x) by lia. subst y.
      unfold upd_cell, body. rewrite Eb. cbn [update_obj]. rewrite <- Eb. destruct (mem h x); reflexivity.
    + intros o. destruct (o =? x); reflexivity.
  - cbv zeta. specialize (Ht size data object eq_refl ltac:(lia)).
    assert (object <> x) by (intros ->; exact (heap_not_huge x Hx Ht)).
    split.
    + intros y. rewrite set_body_mem. destruct (y =? object) eqn:Q; [ | reflexivity ]. assert (y = object) by lia. subst y.
      unfold upd_cell, body. cbn [set_bref mem]. f_equal.
    + intros o. cbn [set_body set_mem set_bref bref]. unfold fupd. destruct (o =? object) eqn:Q; [ | reflexivity ].
      assert (o = object) by lia. subst o. destruct (object =? x) eqn:Q2; [ lia | reflexivity ].
Qed.

Lemma upd_cell_ext : forall h h' y, (forall z, c_hdr (mem h' z) = c_hdr (mem h z)) -> body h' y = body h y ->
  upd_cell h' y = upd_cell h y.
Proof. intros h h' y H B. unfold upd_cell. rewrite H, B. rewrite (update_obj_ext h h' _ _ H). reflexivity. Qed.

Lemma upd_list_spec : forall U h, (forall x, In x U -> heap_id x) ->
  (forall x s d o, In x U -> body h x = OTracker s d o -> o <> 1 -> huge_id o) ->
  NoDup (map (tgt h) U) ->
  let h' := upd_list U h in
  (forall x, In x U -> mem h' (tgt h x) = upd_cell h (tgt h x)) /\
  (forall y, ~ In y (map (tgt h) U) -> mem h' y = mem h y) /\
  (forall x s d o, In x U -> body h x = OTracker s d o -> o <> 1 -> bref h' o = x).
Proof.
  cbv zeta. induction U as [|x U IH]; intros h Hh Ht ND.
  - split; [ intros x [] | ]. split; [ reflexivity | intros x s d o [] ].
  - cbn [map] in ND. inversion ND as [|? ? N1 N2]; subst. cbn [upd_list fold_left].
    destruct (child_ptrs_spec h x) as [A B].
    { apply Hh. left. reflexivity. }
    { intros s d o. apply Ht. left. reflexivity. }
    cbv zeta in A, B. pose proof (su_hdr _ _ (su_child_ptrs h x)) as HH. set (h1 := update_child_ptrs h x) in *.
    assert (Bo : forall y, heap_id y -> (y = x -> tgt h y = y) -> forall s d o, body h1 y = OTracker s d o <-> body h y = OTracker s d o).
    { intros y Hy Hyx s d o. unfold body at 1. rewrite A. destruct (y =? tgt h x) eqn:Q; [ | reflexivity ].
      assert (Ey : y = tgt h x) by lia. unfold upd_cell. cbn [c_obj]. apply update_obj_tracker. }
    assert (Tg : forall y, In y U -> tgt h1 y = tgt h y /\ (forall s d o, body h1 y = OTracker s d o <-> body h y = OTracker s d o)).
    { intros y Hy. assert (Hy' : heap_id y) by (apply Hh; right; assumption).
      assert (BB : forall s d o, body h1 y = OTracker s d o <-> body h y = OTracker s d o).
      { intros s d o. unfold body at 1. rewrite A. destruct (y =? tgt h x) eqn:Q; [ | reflexivity ].
        unfold upd_cell. cbn [c_obj]. apply update_obj_tracker. }
      split; [ | exact BB ]. apply tgt_ext. exact BB. }
    assert (MT : map (tgt h1) U = map (tgt h) U) by (apply map_ext_in; intros y Hy; apply Tg; assumption).
    destruct (IH h1) as [I1 [I2 I3]].
    { intros y Hy. apply Hh. right. assumption. }
    { intros y s d o Hy Q. apply Tg in Q; [ | assumption ]. apply (Ht y s d o); [ right; assumption | assumption ]. }
    { rewrite MT. assumption. }
    fold (upd_list U h1). split; [ | split ].
    + intros y [<- | Hy].
      * rewrite I2 by (rewrite MT; assumption). rewrite A, Z.eqb_refl. reflexivity.
      * destruct (Tg y Hy) as [T1 T2]. specialize (I1 y Hy). rewrite T1 in I1. rewrite I1. apply upd_cell_ext; [ exact HH | ].
        unfold body. rewrite A. destruct (tgt h y =? tgt h x) eqn:Q; [ | reflexivity ].
        exfalso. apply N1. apply in_map_iff. exists y. split; [ lia | assumption ].
    + intros y Hy. cbn [map In] in Hy. rewrite I2 by (rewrite MT; tauto). rewrite A.
      destruct (y =? tgt h x) eqn:Q; [ | reflexivity ]. exfalso. apply Hy. left. lia.
    + intros y s d o [<- | Hy] Q Ho.
      * assert (T1 : tgt h x = o) by (unfold tgt; rewrite Q; destruct (o =? 1) eqn:Q1; [ lia | reflexivity ]).
        assert (Huge : huge_id o) by (apply (Ht x s d o); [ left; reflexivity | assumption | assumption ]).
        assert (o <> x) by (intros ->; exact (heap_not_huge x (Hh x ltac:(left; reflexivity)) Huge)).
        assert (B2 : bref (upd_list U h1) o = bref h1 o).
        { clear - N1 T1 MT Hh Ht Tg Huge. assert (Nn : ~ In o (map (tgt h1) U)) by (rewrite MT; congruence).
          assert (Hx : forall y, In y U -> heap_id y) by (intros y Hy; apply Hh; right; assumption).
          assert (Hu : forall y s d o, In y U -> body h1 y = OTracker s d o -> o <> 1 -> huge_id o).
          { intros y s d o' Hy Q. apply Tg in Q; [ | assumption ]. apply (Ht y s d o'); [ right; assumption | assumption ]. }
          clear N1 T1 MT Hh Ht Tg. clearbody h1. revert h1 Nn Hu. induction U as [|z U IH]; intros h1 Nn Hu; [ reflexivity | ].
          cbn [upd_list fold_left]. fold (upd_list U (update_child_ptrs h1 z)).
          destruct (child_ptrs_spec h1 z) as [A B]; [ apply Hx; left; reflexivity | intros s d o'; apply Hu; left; reflexivity | ].
          cbv zeta in A, B. set (h2 := update_child_ptrs h1 z) in *. cbn [map In] in Nn.
          assert (BB : forall y s d o, body h2 y = OTracker s d o <-> body h1 y = OTracker s d o).
          { intros y s d o'. unfold body at 1. rewrite A. destruct (y =? tgt h1 z) eqn:Q; [ | reflexivity ].
            unfold upd_cell. cbn [c_obj]. apply update_obj_tracker. }
          rewrite IH.
          - rewrite B. destruct (o =? tgt h1 z) eqn:Q; [ | reflexivity ]. exfalso. apply Nn. left. lia.
          - intros y Hy. apply Hx. right. assumption.
          - intros C. apply Nn. right. replace (map (tgt h1) U) with (map (tgt h2) U); [ assumption | ].
            apply map_ext_in. intros y Hy. apply tgt_ext. apply BB.
          - intros y s d o' Hy Q. apply BB in Q. apply (Hu y s d o'); [ right; assumption | assumption ]. }
        rewrite B2, B, T1, Z.eqb_refl. destruct (o =? x) eqn:Q2; [ lia | reflexivity ].
      * apply (I3 y s d o Hy); [ apply Tg; assumption | assumption ].
Qed.
