(* Marking: whatever the schedule of the threads, when they are all done the
   marked objects are the reachable ones. *)
From Coq Require Import ZArith List Lia Bool ZifyBool.
Import ListNotations.
From Verif Require Import Base ListZ GcModel GcSpec GcProofs.
Local Open Scope Z_scope.
Ltac Zify.zify_post_hook ::= idtac.

Definition target (o : op) : Z := match o with MBlack v | MGray v | MSetBlack v => v end.

(* ------------------------------------------------------ children and refs *)

Lemma refs_children : forall b w, (forall s d o, b <> OTracker s d o) -> In w (refs b) ->
  exists o, In o (obj_children b) /\ target o = w.
Proof.
  intros b w NT H. destruct b; cbn [refs] in H; try (destruct H; fail);
    try (exfalso; eapply NT; reflexivity);
    cbn [obj_children];
    try (repeat match goal with H : In _ (_ :: _) |- _ => destruct H as [<- | H] | H : In _ [] |- _ => destruct H end;
         match goal with |- exists o, _ /\ target o = ?x =>
           first [ exists (MGray x); split; [ cbn [In]; tauto | reflexivity ]
                 | exists (MBlack x); split; [ cbn [In]; tauto | reflexivity ]
                 | exists (MSetBlack x); split; [ cbn [In]; tauto | reflexivity ] ] end).
  - destruct H as [<- | H].
    { exists (MGray next). split; [ | reflexivity ]. apply in_or_app. right. left. reflexivity. }
    apply in_app_or in H. destruct H as [H | H]; apply in_map_iff in H; destruct H as [[[k x] y] [E H]]; cbn [fst snd] in E; subst.
    + exists (MGray w). split; [ | reflexivity ]. apply in_or_app. left. apply in_flat_map.
      exists (w, x, y). split; [ assumption | ]. left. reflexivity.
    + exists (MGray w). split; [ | reflexivity ]. apply in_or_app. left. apply in_flat_map.
      exists (k, x, w). split; [ assumption | ]. right. left. reflexivity.
  - destruct H as [<- | H].
    { exists (MGray next). split; [ | reflexivity ]. apply in_or_app. right. left. reflexivity. }
    exists (MGray w). split; [ | reflexivity ]. apply in_or_app. left. apply in_map. assumption.
  - exists (MGray w). split; [ | reflexivity ]. apply in_map. assumption.
Qed.

Lemma children_refs : forall b o, In o (obj_children b) -> In (target o) (refs b).
Proof.
  intros b o H. destruct b; cbn [obj_children] in H; try (destruct H; fail);
    try (repeat match goal with H : In _ (_ :: _) |- _ => destruct H as [<- | H] | H : In _ [] |- _ => destruct H end;
         cbn [refs target In]; tauto).
  - cbn [refs]. apply in_app_or in H. destruct H as [H | [<- | []]]; [ | left; reflexivity ].
    apply in_flat_map in H. destruct H as [[[k x] y] [Hi [<- | [<- | []]]]]; cbn [target fst snd]; right; apply in_or_app.
    + left. apply in_map_iff. exists (k, x, y). auto.
    + right. apply in_map_iff. exists (k, x, y). auto.
  - cbn [refs]. apply in_app_or in H. destruct H as [H | [<- | []]]; [ | left; reflexivity ].
    apply in_map_iff in H. destruct H as [x [<- H]]. right. assumption.
  - cbn [refs]. apply in_map_iff in H. destruct H as [x [<- H]]. assumption.
Qed.

Lemma setblack_buffer : forall b v, In (MSetBlack v) (obj_children b) -> exists d, b = OBuffer d v.
Proof.
  intros b v H. destruct b; cbn [obj_children] in H;
    repeat match goal with H : In _ (_ :: _) |- _ => destruct H as [H | H] | H : In _ [] |- _ => destruct H end;
    try discriminate H.
  - injection H as ->. eexists. reflexivity.
  - apply in_app_or in H. destruct H as [H | [H | []]]; [ | discriminate ].
    apply in_flat_map in H. destruct H as [x [_ [H | [H | []]]]]; discriminate.
  - apply in_app_or in H. destruct H as [H | [H | []]]; [ | discriminate ].
    apply in_map_iff in H. destruct H as [x [H _]]. discriminate.
  - apply in_map_iff in H. destruct H as [x [H _]]. discriminate.
Qed.

(* ------------------------------------------------------ roots *)

Lemma roots_marked : forall i v, In v (roots i) -> exists o, In o (mark_roots i) /\ target o = v.
Proof.
  intros i v H. unfold roots, mark_roots in *.
  destruct H as [<- | H].
  { exists (MBlack (i_args i)). split; [ | reflexivity ]. rewrite !in_app_iff. right. right. right. left. left. reflexivity. }
  rewrite !in_app_iff in H. destruct H as [H | [H | [H | H]]].
  - exists (MBlack v). split; [ | reflexivity ]. rewrite !in_app_iff. left. apply in_map. assumption.
  - exists (MBlack v). split; [ | reflexivity ]. rewrite !in_app_iff. right. left. apply in_map. assumption.
  - apply in_concat in H. destruct H as [l [Hl Hv]]. apply in_map_iff in Hl. destruct Hl as [t [<- Ht]].
    exists (MGray v). split; [ | reflexivity ]. rewrite !in_app_iff. right. right. left. apply in_flat_map.
    exists t. split; [ assumption | ]. cbn [In] in *. destruct Hv as [<-|[<-|[<-|[<-|[<-|[]]]]]]; tauto.
  - apply in_concat in H. destruct H as [l [Hl Hv]]. apply in_map_iff in Hl. destruct Hl as [t [<- Ht]].
    exists (MBlack v). split; [ | reflexivity ]. rewrite !in_app_iff. right. right. right. right. apply in_flat_map.
    exists t. split; [ assumption | ]. rewrite !in_app_iff. cbn [In] in *. rewrite in_app_iff in Hv.
    destruct Hv as [<-|[<-|[Hv|Hv]]]; try tauto; right; [ left | right ]; apply in_map; assumption.
Qed.

Lemma marked_roots : forall i o, In o (mark_roots i) -> In (target o) (roots i) /\ forall v, o <> MSetBlack v.
Proof.
  intros i o H. unfold mark_roots, roots in *. rewrite !in_app_iff in H. cbn [In].
  rewrite !in_app_iff.
  destruct H as [H | [H | [H | [H | H]]]].
  - apply in_map_iff in H. destruct H as [x [<- H]]. cbn [target]. split; [ tauto | discriminate ].
  - apply in_map_iff in H. destruct H as [x [<- H]]. cbn [target]. split; [ tauto | discriminate ].
  - apply in_flat_map in H. destruct H as [t [Ht H]].
    assert (In (target o) (concat (map (fun t => [th_func t; th_this t; th_args t; th_retval t; th_exc t]) (i_threads i))) /\ (forall v, o <> MSetBlack v)).
    { cbn [In] in H. split.
      - apply in_concat. eexists. split; [ apply in_map; exact Ht | ].
        destruct H as [<-|[<-|[<-|[<-|[<-|[]]]]]]; cbn [target In]; tauto.
      - destruct H as [<-|[<-|[<-|[<-|[<-|[]]]]]]; discriminate. }
    tauto.
  - destruct H as [<- | []]. cbn [target]. split; [ tauto | discriminate ].
  - apply in_flat_map in H. destruct H as [t [Ht H]].
    assert (In (target o) (concat (map (fun x => x_exc x :: x_stack x :: x_locals x ++ x_ulocals x) (i_ctxs i))) /\ (forall v, o <> MSetBlack v)).
    { rewrite !in_app_iff in H. cbn [In] in H. split.
      - apply in_concat. eexists. split; [ apply in_map; exact Ht | ]. cbn [In]. rewrite in_app_iff.
        destruct H as [[<-|[<-|[]]]|[H|H]]; cbn [target]; try tauto;
          apply in_map_iff in H; destruct H as [x [<- H]]; cbn [target]; tauto.
      - destruct H as [[<-|[<-|[]]]|[H|H]]; try discriminate;
          apply in_map_iff in H; destruct H as [x [<- H]]; discriminate. }
    tauto.
Qed.

(* ------------------------------------------------------ the invariant *)

Section Mark.
Variable h : heap.
Variable i : inst.
Hypothesis OK : objs_ok h i.

Definition rep (v : Z) : Z := mark_loc h v.

Lemma rep_heap : forall v, heap_id v -> rep v = v.
Proof. intros v H. unfold rep, mark_loc. rewrite heap_is_heap by assumption. reflexivity. Qed.

Lemma rep_huge : forall v, huge_id v -> rep v = bref h v.
Proof. intros v H. unfold rep, mark_loc. rewrite huge_not_heap by assumption. reflexivity. Qed.

Lemma reach_managed : forall v, reach h i v -> managed v.
Proof. intros v H; destruct H; assumption. Qed.

Lemma reach_bref : forall v, reach h i v -> huge_id v -> reach h i (bref h v).
Proof.
  intros v R G. destruct OK as [_ [_ [K _]]]. destruct (K v R G) as [_ [B _]].
  eapply reach_step; [ exact R | right; auto | left; assumption ].
Qed.

Lemma reach_rep : forall v, reach h i v -> heap_id (rep v) /\ reach h i (rep v).
Proof.
  intros v R. destruct (reach_managed v R) as [H | H].
  - rewrite rep_heap by assumption. auto.
  - rewrite rep_huge by assumption. split; [ | apply reach_bref; assumption ].
    destruct OK as [_ [_ [K _]]]. apply (K v R H).
Qed.

(* The children of a reachable object only depend on where its mark is. *)
Lemma children_rep : forall v, reach h i v -> children (mem h) v = children (mem h) (rep v).
Proof.
  intros v R. destruct (reach_managed v R) as [H | H].
  - rewrite rep_heap by assumption. reflexivity.
  - rewrite rep_huge by assumption. destruct OK as [_ [_ [K _]]].
    destruct (K v R H) as [_ [_ [[s [d Eb]] NT]]].
    unfold children. unfold body in *. rewrite Eb.
    assert (Ev : is_bad v = false).
    { unfold is_bad. destruct (v =? 1) eqn:E; [ | reflexivity ]. apply Z.eqb_eq in E. subst v. discriminate H. }
    rewrite Ev. destruct (c_obj (mem h v)); try reflexivity. exfalso. eapply NT; reflexivity.
Qed.

Lemma child_reach : forall v o, reach h i v -> In o (children (mem h) v) -> managed (target o) ->
  reach h i (target o).
Proof.
  intros v o R Ho M. unfold children in Ho.
  destruct (c_obj (mem h v)) as [] eqn:Eb; try (eapply reach_step; [ exact R | left; unfold body; rewrite Eb; apply children_refs; exact Ho | exact M ]).
  destruct (is_bad object) eqn:Bo; [ destruct Ho | ].
  assert (Ho2 : managed object).
  { destruct OK as [K1 [K2 [K3 _]]]. destruct (reach_managed v R) as [Hv | Hv].
    - right. destruct (K1 v size data object (K2 v R Hv) Eb) as [G _]; [ | exact G ].
      unfold is_bad in Bo. apply Z.eqb_neq in Bo. assumption.
    - destruct (K3 v R Hv) as [_ [_ [_ NT]]]. exfalso. eapply NT. exact Eb. }
  assert (Ro : reach h i object).
  { eapply reach_step; [ exact R | left; unfold body; rewrite Eb; left; reflexivity | exact Ho2 ]. }
  eapply reach_step; [ exact Ro | left; apply children_refs; exact Ho | exact M ].
Qed.

Lemma setblack_leaf : forall v w, reach h i v -> In (MSetBlack w) (children (mem h) v) -> managed w ->
  children (mem h) w = [].
Proof.
  intros v w R Ho M.
  assert (G : forall v', reach h i v' -> In (MSetBlack w) (obj_children (c_obj (mem h v'))) -> children (mem h) w = []).
  { intros v' R' H'. apply setblack_buffer in H'. destruct H' as [d Eb].
    destruct OK as [_ [_ [_ K]]]. destruct (K v' d w R' Eb M) as [d' [e [p [f E]]]].
    unfold children. unfold body in E. rewrite E. reflexivity. }
  unfold children in Ho.
  destruct (c_obj (mem h v)) as [] eqn:Eb; try (apply (G v R); rewrite Eb; exact Ho).
  destruct (is_bad object) eqn:Bo; [ destruct Ho | ].
  apply (G object); [ | exact Ho ].
  destruct OK as [K1 [K2 [K3 _]]]. destruct (reach_managed v R) as [Hv | Hv].
  - eapply reach_step; [ exact R | left; unfold body; rewrite Eb; left; reflexivity | ].
    right. destruct (K1 v size data object (K2 v R Hv) Eb) as [X _]; [ | exact X ].
    unfold is_bad in Bo. apply Z.eqb_neq in Bo. assumption.
  - destruct (K3 v R Hv) as [_ [_ [_ NT]]]. exfalso. eapply NT. exact Eb.
Qed.

Variable c0 : Z -> Z.
Hypothesis C0 : forall v, reach h i v -> c0 (rep v) = 0.

Definition opok (P : op -> Prop) (c : Z -> Z) (o : op) : Prop :=
  P o \/ ~ managed (target o) \/ c (rep (target o)) <> 0.

Record minv (P : op -> Prop) (Sd : Z -> Prop) (c : Z -> Z) : Prop := {
  mi_range : forall v, reach h i v -> 0 <= c (rep v) <= 3;
  mi_only : forall n, c n = c0 n \/ exists v, reach h i v /\ rep v = n;
  mi_ops : forall o, P o -> managed (target o) -> reach h i (target o);
  mi_set : forall v, P (MSetBlack v) -> managed v -> children (mem h) v = [];
  mi_sched : forall v, Sd v -> reach h i v;
  mi_done : forall v, reach h i v -> c (rep v) <> 0 ->
    (exists v', Sd v' /\ rep v' = rep v) \/
    (exists v', P (MBlack v') /\ rep v' = rep v /\ managed v') \/
    ((2 <= c (rep v)) /\ forall o, In o (children (mem h) v) -> opok P c o);
  mi_roots : forall o, In o (mark_roots i) -> opok P c o
}.

Lemma land_lor_bits : forall x st, 0 <= x <= 3 -> st = 1 \/ st = 2 ->
  (Z.land x st = 0 -> 0 < Z.lor x st <= 3 /\ (st = 2 -> 2 <= Z.lor x st) /\ (2 <= x -> 2 <= Z.lor x st)) /\
  (Z.land x st <> 0 -> 0 < x /\ (st = 2 -> 2 <= x)).
Proof.
  intros x st Hx Hs.
  assert (X : x = 0 \/ x = 1 \/ x = 2 \/ x = 3) by lia.
  destruct Hs as [-> | ->]; destruct X as [-> | [-> | [-> | ->]]]; cbn; repeat split; intros; try lia; try congruence.
Qed.

(* setting a mark *)
Lemma set_mark_state_spec : forall c v st b c', st = 1 \/ st = 2 ->
  (managed v -> 0 <= c (rep v) <= 3) ->
  set_mark_state h c v st = (b, c') ->
  (~ managed v -> b = false /\ forall n, c' n = c n) /\
  (managed v -> (forall n, n <> rep v -> c' n = c n) /\ 0 < c' (rep v) <= 3 /\
                (2 <= c (rep v) -> 2 <= c' (rep v)) /\ (st = 2 -> 2 <= c' (rep v)) /\
                (b = false -> forall n, c' n = c n)).
Proof.
  intros c v st b c' Hst Hr H. unfold set_mark_state in H.
  destruct (negb (is_bad v) && is_tracked v) eqn:M.
  - assert (Mv : managed v) by (apply managed_iff; assumption). split; [ intros N; contradiction | intros _ ].
    specialize (Hr Mv). unfold set_mark in H. fold (rep v) in H.
    destruct (land_lor_bits _ _ Hr Hst) as [A B].
    destruct (Z.land (c (rep v)) st =? 0) eqn:E; injection H as <- <-.
    + apply Z.eqb_eq in E. specialize (A E). rewrite fupd_same. repeat split; try apply A; try discriminate.
      intros n Hn. apply fupd_other; assumption.
    + apply Z.eqb_neq in E. specialize (B E). repeat split; try lia; try apply B; try reflexivity.
  - assert (Mv : ~ managed v) by (rewrite managed_iff; congruence). injection H as <- <-.
    split; [ auto | intros; contradiction ].
Qed.

Lemma opok_mono : forall (P P' : op -> Prop) c c' o,
  (P o -> P' o \/ ~ managed (target o) \/ c' (rep (target o)) <> 0) ->
  (reach h i (target o) \/ ~ managed (target o) \/ (c (rep (target o)) <> 0 -> c' (rep (target o)) <> 0)) ->
  (forall v, reach h i v -> c (rep v) <> 0 -> c' (rep v) <> 0) ->
  opok P c o -> opok P' c' o.
Proof.
  intros P P' c c' o A B C [H | [H | H]].
  - destruct (A H) as [K | [K | K]]; unfold opok; auto.
  - right. left. assumption.
  - destruct B as [B | [B | B]]; [ right; right; apply C; auto | right; left; auto | right; right; auto ].
Qed.

(* Colors only grow. *)
Definition grow (c c' : Z -> Z) : Prop := forall n, c n <> 0 -> c' n <> 0.

Lemma set_mark_grow : forall c v st b c', st = 1 \/ st = 2 ->
  (managed v -> 0 <= c (rep v) <= 3) ->
  set_mark_state h c v st = (b, c') -> grow c c'.
Proof.
  intros c v st b c' Hst Hr H n Hn.
  destruct (set_mark_state_spec c v st b c' Hst Hr H) as [A B].
  destruct (managed_dec v) as [M | M].
  - destruct (B M) as [X [Y _]]. destruct (Z.eq_dec n (rep v)) as [-> | D]; [ lia | rewrite X by assumption; assumption ].
  - destruct (A M) as [_ X]. rewrite X. assumption.
Qed.

Lemma opok_grow : forall (P P' : op -> Prop) c c' o, grow c c' ->
  (P o -> opok P' c' o) -> opok P c o -> opok P' c' o.
Proof.
  intros P P' c c' o G A [H | [H | H]]; [ auto | right; left; assumption | ].
  right. right. apply G. assumption.
Qed.

Lemma range_of : forall P Sd c v, minv P Sd c -> (managed v -> reach h i v) -> managed v -> 0 <= c (rep v) <= 3.
Proof. intros P Sd c v I R M. apply (mi_range _ _ _ I). auto. Qed.

(* The operation [o] = set black / black / gray of [v] was removed from the
   pending ones; the operations in [more] were added. *)
Lemma step_black : forall (P P' : op -> Prop) Sd c v b c',
  minv P Sd c -> P (MBlack v) ->
  set_mark_state h c v 2 = (b, c') ->
  (forall o, P o -> P' o \/ o = MBlack v) ->
  (forall o, P' o -> P o \/ (managed v /\ In o (children (mem h) v))) ->
  (managed v -> forall o, In o (children (mem h) v) -> P' o) ->
  minv P' Sd c'.
Proof.
  intros P P' Sd c v b c' I Pv H Q1 Q2 Q3.
  assert (Rv : managed v -> reach h i v) by (apply (mi_ops _ _ _ I _ Pv)).
  pose proof (range_of _ _ _ v I Rv) as Hr.
  destruct (set_mark_state_spec c v 2 b c' (or_intror eq_refl) Hr H) as [A B].
  pose proof (set_mark_grow c v 2 b c' (or_intror eq_refl) Hr H) as G.
  assert (OP : forall o, opok P c o -> opok P' c' o).
  { intros o. apply opok_grow; [ exact G | ]. intros Po. destruct (Q1 o Po) as [K | ->]; [ left; assumption | ].
    destruct (managed_dec v) as [M | M]; [ right; right | right; left; assumption ].
    cbn [target]. destruct (B M) as [_ [Y _]]. lia. }
  constructor.
  - intros w Rw. destruct (managed_dec v) as [M | M].
    + destruct (B M) as [X [Y _]]. destruct (Z.eq_dec (rep w) (rep v)) as [E | E]; [ rewrite E; lia | rewrite X by assumption ].
      apply (mi_range _ _ _ I); assumption.
    + destruct (A M) as [_ X]. rewrite X. apply (mi_range _ _ _ I); assumption.
  - intros n. destruct (managed_dec v) as [M | M].
    + destruct (Z.eq_dec n (rep v)) as [-> | E]; [ right; exists v; auto | ].
      destruct (B M) as [X _]. rewrite X by assumption. apply (mi_only _ _ _ I).
    + destruct (A M) as [_ X]. rewrite X. apply (mi_only _ _ _ I).
  - intros o Po Mo. destruct (Q2 o Po) as [K | [M K]]; [ apply (mi_ops _ _ _ I); assumption | ].
    eapply child_reach; eauto.
  - intros w Pw Mw. destruct (Q2 _ Pw) as [K | [M K]]; [ apply (mi_set _ _ _ I); assumption | ].
    eapply setblack_leaf; eauto.
  - apply (mi_sched _ _ _ I).
  - intros w Rw Cw. destruct (managed_dec v) as [M | M].
    + destruct (Z.eq_dec (rep w) (rep v)) as [E | E].
      * right. right. rewrite E. split; [ apply (B M); reflexivity | ].
        intros o Ho. left. apply Q3; [ assumption | ]. rewrite (children_rep v (Rv M)), <- E, <- (children_rep w Rw). assumption.
      * destruct (B M) as [X _]. rewrite X in * by assumption.
        destruct (mi_done _ _ _ I w Rw Cw) as [K | [[v' [Pv' [Ev' Mv']]] | [K1 K2]]].
        -- left. assumption.
        -- right. left. exists v'. repeat split; auto. destruct (Q1 _ Pv') as [K | K]; [ assumption | ].
           injection K as ->. congruence.
        -- right. right. split; [ assumption | ]. intros o Ho. apply OP. auto.
    + destruct (A M) as [_ X]. rewrite X in *.
      destruct (mi_done _ _ _ I w Rw Cw) as [K | [[v' [Pv' [Ev' Mv']]] | [K1 K2]]].
      * left. assumption.
      * right. left. exists v'. repeat split; auto. destruct (Q1 _ Pv') as [K | K]; [ assumption | ].
        injection K as ->. contradiction.
      * right. right. split; [ assumption | ]. intros o Ho. apply OP. auto.
  - intros o Ho. apply OP. apply (mi_roots _ _ _ I). assumption.
Qed.

Lemma step_setblack : forall (P P' : op -> Prop) Sd c v b c',
  minv P Sd c -> P (MSetBlack v) ->
  set_mark_state h c v 2 = (b, c') ->
  (forall o, P o -> P' o \/ o = MSetBlack v) ->
  (forall o, P' o -> P o) ->
  minv P' Sd c'.
Proof.
  intros P P' Sd c v b c' I Pv H Q1 Q2.
  assert (Rv : managed v -> reach h i v) by (apply (mi_ops _ _ _ I _ Pv)).
  pose proof (range_of _ _ _ v I Rv) as Hr.
  destruct (set_mark_state_spec c v 2 b c' (or_intror eq_refl) Hr H) as [A B].
  pose proof (set_mark_grow c v 2 b c' (or_intror eq_refl) Hr H) as G.
  assert (OP : forall o, opok P c o -> opok P' c' o).
  { intros o. apply opok_grow; [ exact G | ]. intros Po. destruct (Q1 o Po) as [K | ->]; [ left; assumption | ].
    destruct (managed_dec v) as [M | M]; [ right; right | right; left; assumption ].
    cbn [target]. destruct (B M) as [_ [Y _]]. lia. }
  constructor.
  - intros w Rw. destruct (managed_dec v) as [M | M].
    + destruct (B M) as [X [Y _]]. destruct (Z.eq_dec (rep w) (rep v)) as [E | E]; [ rewrite E; lia | rewrite X by assumption ].
      apply (mi_range _ _ _ I); assumption.
    + destruct (A M) as [_ X]. rewrite X. apply (mi_range _ _ _ I); assumption.
  - intros n. destruct (managed_dec v) as [M | M].
    + destruct (Z.eq_dec n (rep v)) as [-> | E]; [ right; exists v; auto | ].
      destruct (B M) as [X _]. rewrite X by assumption. apply (mi_only _ _ _ I).
    + destruct (A M) as [_ X]. rewrite X. apply (mi_only _ _ _ I).
  - intros o Po Mo. apply (mi_ops _ _ _ I); auto.
  - intros w Pw Mw. apply (mi_set _ _ _ I); auto.
  - apply (mi_sched _ _ _ I).
  - intros w Rw Cw. destruct (managed_dec v) as [M | M].
    + destruct (Z.eq_dec (rep w) (rep v)) as [E | E].
      * right. right. rewrite E. split; [ apply (B M); reflexivity | ].
        intros o Ho. rewrite (children_rep w Rw), E, <- (children_rep v (Rv M)), (mi_set _ _ _ I v Pv M) in Ho. destruct Ho.
      * destruct (B M) as [X _]. rewrite X in * by assumption.
        destruct (mi_done _ _ _ I w Rw Cw) as [K | [[v' [Pv' [Ev' Mv']]] | [K1 K2]]].
        -- left. assumption.
        -- right. left. exists v'. repeat split; auto. destruct (Q1 _ Pv') as [K | K]; [ assumption | discriminate K ].
        -- right. right. split; [ assumption | ]. intros o Ho. apply OP. auto.
    + destruct (A M) as [_ X]. rewrite X in *.
      destruct (mi_done _ _ _ I w Rw Cw) as [K | [[v' [Pv' [Ev' Mv']]] | [K1 K2]]].
      * left. assumption.
      * right. left. exists v'. repeat split; auto. destruct (Q1 _ Pv') as [K | K]; [ assumption | discriminate K ].
      * right. right. split; [ assumption | ]. intros o Ho. apply OP. auto.
  - intros o Ho. apply OP. apply (mi_roots _ _ _ I). assumption.
Qed.

Lemma step_gray : forall (P P' : op -> Prop) (Sd Sd' : Z -> Prop) c v b c',
  minv P Sd c -> P (MGray v) ->
  set_mark_state h c v 1 = (b, c') ->
  (forall o, P o -> P' o \/ o = MGray v) ->
  (forall o, P' o -> P o) ->
  (forall w, Sd w -> Sd' w) ->
  (forall w, Sd' w -> Sd w \/ (b = true /\ w = v)) ->
  (b = true -> Sd' v) ->
  minv P' Sd' c'.
Proof.
  intros P P' Sd Sd' c v b c' I Pv H Q1 Q2 Q3 Q4 Q5.
  assert (Rv : managed v -> reach h i v) by (apply (mi_ops _ _ _ I _ Pv)).
  pose proof (range_of _ _ _ v I Rv) as Hr.
  destruct (set_mark_state_spec c v 1 b c' (or_introl eq_refl) Hr H) as [A B].
  pose proof (set_mark_grow c v 1 b c' (or_introl eq_refl) Hr H) as G.
  assert (OP : forall o, opok P c o -> opok P' c' o).
  { intros o. apply opok_grow; [ exact G | ]. intros Po. destruct (Q1 o Po) as [K | ->]; [ left; assumption | ].
    destruct (managed_dec v) as [M | M]; [ right; right | right; left; assumption ].
    cbn [target]. destruct (B M) as [_ [Y _]]. lia. }
  assert (Old : forall w, reach h i w -> c' (rep w) = c (rep w) -> c' (rep w) <> 0 ->
    (exists v', Sd' v' /\ rep v' = rep w) \/
    (exists v', P' (MBlack v') /\ rep v' = rep w /\ managed v') \/
    ((2 <= c' (rep w)) /\ forall o, In o (children (mem h) w) -> opok P' c' o)).
  { intros w Rw E Cw. rewrite E in *.
    destruct (mi_done _ _ _ I w Rw Cw) as [[v' [K K']] | [[v' [Pv' [Ev' Mv']]] | [K1 K2]]].
    + left. exists v'. auto.
    + right. left. exists v'. repeat split; auto. destruct (Q1 _ Pv') as [K | K]; [ assumption | discriminate K ].
    + right. right. split; [ assumption | ]. intros o Ho. apply OP. auto. }
  constructor.
  - intros w Rw. destruct (managed_dec v) as [M | M].
    + destruct (B M) as [X [Y _]]. destruct (Z.eq_dec (rep w) (rep v)) as [E | E]; [ rewrite E; lia | rewrite X by assumption ].
      apply (mi_range _ _ _ I); assumption.
    + destruct (A M) as [_ X]. rewrite X. apply (mi_range _ _ _ I); assumption.
  - intros n. destruct (managed_dec v) as [M | M].
    + destruct (Z.eq_dec n (rep v)) as [-> | E]; [ right; exists v; auto | ].
      destruct (B M) as [X _]. rewrite X by assumption. apply (mi_only _ _ _ I).
    + destruct (A M) as [_ X]. rewrite X. apply (mi_only _ _ _ I).
  - intros o Po Mo. apply (mi_ops _ _ _ I); auto.
  - intros w Pw Mw. apply (mi_set _ _ _ I); auto.
  - intros w Sw. destruct (Q4 w Sw) as [K | [Eb ->]]; [ apply (mi_sched _ _ _ I); assumption | ].
    apply Rv. destruct (managed_dec v) as [M | M]; [ assumption | ]. destruct (A M) as [F _]. congruence.
  - intros w Rw Cw. destruct (managed_dec v) as [M | M].
    + destruct (B M) as [X [Y [_ [_ Z0]]]].
      destruct (Z.eq_dec (rep w) (rep v)) as [E | E]; [ | apply Old; auto ].
      destruct b.
      * left. exists v. auto.
      * apply Old; auto.
    + destruct (A M) as [_ X]. apply Old; auto.
  - intros o Ho. apply OP. apply (mi_roots _ _ _ I). assumption.
Qed.

(* A scheduled object becomes a call. *)
Lemma step_pop : forall (P P' : op -> Prop) (Sd Sd' : Z -> Prop) c v,
  minv P Sd c -> Sd v ->
  (forall o, P o -> P' o) -> (forall o, P' o -> P o \/ o = MBlack v) -> P' (MBlack v) ->
  (forall w, Sd w -> Sd' w \/ w = v) -> (forall w, Sd' w -> Sd w) ->
  minv P' Sd' c.
Proof.
  intros P P' Sd Sd' c v I Sv Q1 Q2 Q3 Q4 Q5.
  assert (OP : forall o, opok P c o -> opok P' c o).
  { intros o [K | K]; [ left; auto | right; assumption ]. }
  constructor.
  - apply (mi_range _ _ _ I).
  - apply (mi_only _ _ _ I).
  - intros o Po Mo. destruct (Q2 _ Po) as [K | ->]; [ apply (mi_ops _ _ _ I); assumption | apply (mi_sched _ _ _ I); assumption ].
  - intros w Pw. destruct (Q2 _ Pw) as [K | K]; [ apply (mi_set _ _ _ I); assumption | discriminate K ].
  - intros w Sw. apply (mi_sched _ _ _ I). auto.
  - intros w Rw Cw. destruct (mi_done _ _ _ I w Rw Cw) as [[v' [K K']] | [[v' [Pv' [Ev' Mv']]] | [K1 K2]]].
    + destruct (Q4 _ K) as [L | ->]; [ left; exists v'; auto | ].
      right. left. exists v. repeat split; auto. apply reach_managed, (mi_sched _ _ _ I). assumption.
    + right. left. exists v'. auto.
    + right. right. split; [ assumption | ]. intros o Ho. apply OP. auto.
  - intros o Ho. apply OP. apply (mi_roots _ _ _ I). assumption.
Qed.

Lemma step_same : forall (P P' : op -> Prop) (Sd Sd' : Z -> Prop) c,
  minv P Sd c ->
  (forall o, P o <-> P' o) -> (forall w, Sd w <-> Sd' w) -> minv P' Sd' c.
Proof.
  intros P P' Sd Sd' c I Q1 Q2.
  assert (OP : forall o, opok P c o -> opok P' c o).
  { intros o [K | K]; [ left; apply Q1; auto | right; assumption ]. }
  constructor.
  - apply (mi_range _ _ _ I).
  - apply (mi_only _ _ _ I).
  - intros o Po Mo. apply (mi_ops _ _ _ I); [ apply Q1 | ]; assumption.
  - intros w Pw. apply (mi_set _ _ _ I). apply Q1. assumption.
  - intros w Sw. apply (mi_sched _ _ _ I). apply Q2. assumption.
  - intros w Rw Cw. destruct (mi_done _ _ _ I w Rw Cw) as [[v' [K K']] | [[v' [Pv' [Ev' Mv']]] | [K1 K2]]].
    + left. exists v'. split; [ apply Q2 | ]; assumption.
    + right. left. exists v'. repeat split; auto. apply Q1. assumption.
    + right. right. split; [ assumption | ]. intros o Ho. apply OP. auto.
  - intros o Ho. apply OP. apply (mi_roots _ _ _ I). assumption.
Qed.

(* ------------------------------------------------------ the machine *)

Definition pending (s : mst) (o : op) : Prop := exists t, In o (t_ops (m_thr s t)).
Definition scheduled (s : mst) (v : Z) : Prop :=
  (exists t, In v (t_group (m_thr s t)) \/ In v (t_cur (m_thr s t))) \/
  (exists e, In e (m_pool s) /\ In v (snd e)).

Record mok (s : mst) : Prop := {
  mo_inv : minv (pending s) (scheduled s) (m_color s);
  mo_idle : forall t, t_run (m_thr s t) = false ->
    t_ops (m_thr s t) = [] /\ t_group (m_thr s t) = [] /\ t_cur (m_thr s t) = [];
  mo_pool : forall e, In e (m_pool s) -> t_run (m_thr s (fst e)) = true
}.

Lemma thr_put : forall (f : Z -> thr) t th u, fupd f t th u = if u =? t then th else f u.
Proof. reflexivity. Qed.

(* pending / scheduled after thread t was replaced *)
Lemma pending_put : forall c pool f t th o,
  pending (mkmst c pool (fupd f t th)) o <->
  In o (t_ops th) \/ exists u, u <> t /\ In o (t_ops (f u)).
Proof.
  intros. unfold pending. cbn [m_thr]. split.
  - intros [u H]. unfold fupd in H. destruct (u =? t) eqn:E; [ left; assumption | right ].
    exists u. split; [ lia | assumption ].
  - intros [H | [u [Hu H]]].
    + exists t. rewrite fupd_same. assumption.
    + exists u. rewrite fupd_other by assumption. assumption.
Qed.

Lemma scheduled_put : forall c pool f t th v,
  scheduled (mkmst c pool (fupd f t th)) v <->
  (In v (t_group th) \/ In v (t_cur th) \/ (exists u, u <> t /\ (In v (t_group (f u)) \/ In v (t_cur (f u)))) \/
   exists e, In e pool /\ In v (snd e)).
Proof.
  intros. unfold scheduled. cbn [m_thr m_pool]. split.
  - intros [[u H] | H]; [ | tauto ]. unfold fupd in H. destruct (u =? t) eqn:E; [ tauto | ].
    right. right. left. exists u. split; [ lia | assumption ].
  - intros [H | [H | [[u [Hu H]] | H]]].
    + left. exists t. rewrite fupd_same. tauto.
    + left. exists t. rewrite fupd_same. tauto.
    + left. exists u. rewrite fupd_other by assumption. assumption.
    + right. assumption.
Qed.

Lemma pending_at : forall s t o,
  pending s o <-> In o (t_ops (m_thr s t)) \/ exists u, u <> t /\ In o (t_ops (m_thr s u)).
Proof.
  intros. unfold pending. split.
  - intros [u H]. destruct (Z.eq_dec u t) as [-> | N]; [ tauto | right; exists u; tauto ].
  - intros [H | [u [_ H]]]; eexists; eassumption.
Qed.

Lemma scheduled_at : forall s t v,
  scheduled s v <->
  (In v (t_group (m_thr s t)) \/ In v (t_cur (m_thr s t)) \/
   (exists u, u <> t /\ (In v (t_group (m_thr s u)) \/ In v (t_cur (m_thr s u)))) \/
   exists e, In e (m_pool s) /\ In v (snd e)).
Proof.
  intros. unfold scheduled. split.
  - intros [[u H] | H]; [ | tauto ]. destruct (Z.eq_dec u t) as [-> | N]; [ tauto | right; right; left; exists u; tauto ].
  - intros [H | [H | [[u [_ H]] | H]]]; [ left; exists t; tauto | left; exists t; tauto | left; exists u; assumption | right; assumption ].
Qed.

Lemma take_spec : forall pool k g pool', take pool k = Some (g, pool') ->
  exists t, In (t, g) pool /\ (forall e, In e pool' -> In e pool) /\
            (forall e, In e pool -> In e pool' \/ e = (t, g)).
Proof.
  intros pool k g pool' H. unfold take in H.
  destruct (nth_error pool k) as [[t g']|] eqn:E; [ | discriminate ]. assert (g' = g /\ firstn k pool ++ skipn (S k) pool = pool') as [-> <-] by (split; congruence).
  exists t. split; [ eapply nth_error_In; eassumption | ].
  apply nth_error_split in E. destruct E as [l1 [l2 [-> Hl]]].
  assert (F : firstn k (l1 ++ (t, g) :: l2) = l1) by (rewrite firstn_app; replace (k - length l1)%nat with O by lia; rewrite firstn_O, app_nil_r; apply firstn_all2; lia).
  assert (K : skipn (S k) (l1 ++ (t, g) :: l2) = l2).
  { rewrite skipn_app. replace (S k - length l1)%nat with 1%nat by lia. rewrite skipn_all2 by lia. reflexivity. }
  rewrite F, K. split; intros e He; rewrite in_app_iff in *; cbn [In] in *; intuition.
Qed.

Lemma owns_spec : forall t pool, owns t pool = false -> forall e, In e pool -> fst e <> t.
Proof.
  intros t pool H e He C. unfold owns in H.
  assert (existsb (fun e0 => fst e0 =? t) pool = true) by (apply existsb_exists; exists e; split; [ assumption | lia ]).
  congruence.
Qed.

Lemma take0_none : forall pool, take pool 0 = None -> pool = [].
Proof. intros [|[t g] l] H; [ reflexivity | discriminate H ]. Qed.

Lemma mstep_ok : forall s t k skip, mok s -> mok (mstep h t k skip s).
Proof.
  intros s t k skip I. unfold mstep.
  destruct (t_run (m_thr s t)) eqn:Run.
  2:{ destruct (mo_idle _ I t Run) as [A [B C]]. constructor.
      - cbn [m_color]. eapply step_same; [ apply (mo_inv _ I) | | ].
        + intros o. rewrite pending_put, (pending_at s t). cbn [t_ops]. tauto.
        + intros w. rewrite scheduled_put, (scheduled_at s t). cbn [t_group t_cur]. tauto.
      - cbn [m_thr]. intros u. rewrite thr_put. destruct (u =? t); [ discriminate | apply (mo_idle _ I) ].
      - cbn [m_thr m_pool]. intros e He. rewrite thr_put. destruct (fst e =? t); [ reflexivity | apply (mo_pool _ I); assumption ]. }
  assert (Pool : forall pool th', t_run th' = true -> (forall e, In e pool -> In e (m_pool s) \/ fst e = t) ->
    forall e, In e pool -> t_run (fupd (m_thr s) t th' (fst e)) = true).
  { intros pool th' R Q e He. rewrite thr_put. destruct (fst e =? t) eqn:E; [ assumption | ].
    destruct (Q e He) as [K | K]; [ apply (mo_pool _ I); assumption | lia ]. }
  assert (Idle : forall th', t_run th' = true -> forall u, t_run (fupd (m_thr s) t th' u) = false ->
    t_ops (fupd (m_thr s) t th' u) = [] /\ t_group (fupd (m_thr s) t th' u) = [] /\ t_cur (fupd (m_thr s) t th' u) = []).
  { intros th' R u. rewrite thr_put. destruct (u =? t); [ congruence | apply (mo_idle _ I) ]. }
  destruct (t_ops (m_thr s t)) as [|[v|v|v] ops] eqn:Ops.
  - (* no call in progress *)
    destruct (t_group (m_thr s t)) as [|v g] eqn:Gr.
    2:{ constructor; cbn [m_color m_thr m_pool].
        - eapply step_pop with (v := v); [ apply (mo_inv _ I) | apply (scheduled_at s t); left; rewrite Gr; left; reflexivity | | | | | ].
          + intros o. rewrite pending_put, (pending_at s t), Ops. cbn [t_ops In]. tauto.
          + intros o. rewrite pending_put, (pending_at s t), Ops. cbn [t_ops In]. intuition.
          + rewrite pending_put. cbn [t_ops In]. tauto.
          + intros w. rewrite scheduled_put, (scheduled_at s t), Gr. cbn [t_group t_cur In]. intuition.
          + intros w. rewrite scheduled_put, (scheduled_at s t), Gr. cbn [t_group t_cur In]. intuition.
        - apply Idle. reflexivity.
        - apply Pool; [ reflexivity | auto ]. }
    assert (T : forall g pool, (exists t', In (t', g) (m_pool s) /\ (forall e, In e pool -> In e (m_pool s)) /\
                 (forall e, In e (m_pool s) -> In e pool \/ e = (t', g))) ->
              mok (mkmst (m_color s) pool (fupd (m_thr s) t (mkthr true [] g (t_cur (m_thr s t)))))).
    { intros g pool [t' [X [Y Z0]]]. constructor; cbn [m_color m_thr m_pool].
      - eapply step_same; [ apply (mo_inv _ I) | | ].
        + intros o. rewrite pending_put, (pending_at s t), Ops. cbn [t_ops]. tauto.
        + intros w. rewrite scheduled_put, (scheduled_at s t), Gr. cbn [t_group t_cur In].
          split.
          * intros [[] | [K | [K | [e [He Hw]]]]]; auto.
            destruct (Z0 e He) as [L | ->]; [ right; right; right; exists e; auto | left; exact Hw ].
          * intros [K | [K | [K | [e [He Hw]]]]]; auto.
            -- right. right. right. exists (t', g). auto.
            -- right. right. right. exists e. auto.
      - apply Idle. reflexivity.
      - apply Pool; [ reflexivity | auto ]. }
    assert (N : owns t (m_pool s) = false \/ m_pool s = [] ->
                mok (match t_cur (m_thr s t) with
                     | [] => mkmst (m_color s) (m_pool s) (fupd (m_thr s) t (mkthr false [] [] []))
                     | _ :: _ => mkmst (m_color s) (m_pool s) (fupd (m_thr s) t (mkthr true [] (t_cur (m_thr s t)) []))
                     end)).
    { intros O. destruct (t_cur (m_thr s t)) as [|x cu] eqn:Cu.
      - constructor; cbn [m_color m_thr m_pool].
        + eapply step_same; [ apply (mo_inv _ I) | | ].
          * intros o. rewrite pending_put, (pending_at s t), Ops. cbn [t_ops]. tauto.
          * intros w. rewrite scheduled_put, (scheduled_at s t), Gr, Cu. cbn [t_group t_cur In]. tauto.
        + intros u. rewrite thr_put. destruct (u =? t); [ cbn [t_ops t_group t_cur]; auto | apply (mo_idle _ I) ].
        + intros e He. rewrite thr_put.
          assert (fst e <> t) by (destruct O as [O | O]; [ eapply owns_spec; eassumption | rewrite O in He; destruct He ]).
          destruct (fst e =? t) eqn:E; [ lia | apply (mo_pool _ I); assumption ].
      - constructor; cbn [m_color m_thr m_pool].
        + eapply step_same; [ apply (mo_inv _ I) | | ].
          * intros o. rewrite pending_put, (pending_at s t), Ops. cbn [t_ops]. tauto.
          * intros w. rewrite scheduled_put, (scheduled_at s t), Gr, Cu. cbn [t_group t_cur]. cbn [In]. tauto.
        + apply Idle. reflexivity.
        + apply Pool; [ reflexivity | auto ]. }
    assert (N' : forall b, b = (if skip && negb (owns t (m_pool s)) then true else match take (m_pool s) k with Some _ => false | None => match take (m_pool s) 0 with Some _ => false | None => true end end) ->
       b = true -> owns t (m_pool s) = false \/ m_pool s = []).
    { intros b -> Hb. destruct (skip && negb (owns t (m_pool s))) eqn:E.
      - left. apply andb_prop in E. destruct E as [_ E]. apply negb_true_iff in E. assumption.
      - destruct (take (m_pool s) k); [ discriminate | ]. destruct (take (m_pool s) 0) eqn:E0; [ discriminate | ].
        right. apply take0_none. assumption. }
    destruct (skip && negb (owns t (m_pool s))) eqn:Sk.
    { specialize (N (N' true eq_refl eq_refl)). destruct (t_cur (m_thr s t)) eqn:Cu; exact N. }
    destruct (take (m_pool s) k) as [[g pool]|] eqn:E1.
    { apply T. eapply take_spec. exact E1. }
    destruct (take (m_pool s) 0) as [[g pool]|] eqn:E0.
    { apply T. eapply take_spec. exact E0. }
    specialize (N (N' true eq_refl eq_refl)). destruct (t_cur (m_thr s t)) eqn:Cu; exact N.
  - (* black *)
    destruct (set_mark_state h (m_color s) v 2) as [b c] eqn:E.
    constructor; cbn [m_color m_thr m_pool].
    + eapply step_same with (Sd := scheduled s); [ | intros o; reflexivity | ].
      * eapply step_black; [ apply (mo_inv _ I) | apply (pending_at s t); left; rewrite Ops; left; reflexivity | exact E | | | ].
        -- intros o. rewrite pending_put, (pending_at s t), Ops. cbn [t_ops In]. rewrite in_app_iff. intuition.
        -- intros o. rewrite pending_put, (pending_at s t), Ops. cbn [t_ops In]. rewrite in_app_iff.
           destruct (negb (is_bad v) && is_tracked v) eqn:M.
           ++ apply managed_iff in M. intuition.
           ++ cbn [In]. intuition.
        -- intros M o Ho. apply managed_iff in M. rewrite pending_put, M. cbn [t_ops]. rewrite in_app_iff. auto.
      * intros w. rewrite scheduled_put, (scheduled_at s t). cbn [t_group t_cur]. tauto.
    + apply Idle. reflexivity.
    + apply Pool; [ reflexivity | auto ].
  - (* gray *)
    destruct (set_mark_state h (m_color s) v 1) as [b c] eqn:E.
    destruct b.
    + destruct (schedule t (m_pool s) (t_cur (m_thr s t)) v) as [pool cu] eqn:Sc.
      assert (SC : (forall w, In w (t_cur (m_thr s t)) \/ w = v \/ (exists e, In e (m_pool s) /\ In w (snd e)) <->
                              In w cu \/ exists e, In e pool /\ In w (snd e)) /\
                   forall e, In e pool -> In e (m_pool s) \/ fst e = t).
      { unfold schedule in Sc. destruct (len (t_cur (m_thr s t) ++ [v]) =? GROUP); injection Sc as <- <-.
        - split.
          + intros w. cbn [In]. split.
            * intros [K | [-> | [e [He Hw]]]].
              -- right. exists (t, t_cur (m_thr s t) ++ [v]). split; [ left; reflexivity | ]. apply in_or_app. left. assumption.
              -- right. exists (t, t_cur (m_thr s t) ++ [v]). split; [ left; reflexivity | ]. apply in_or_app. right. left. reflexivity.
              -- right. exists e. auto.
            * intros [[] | [e [[<- | He] Hw]]]; [ | right; right; exists e; auto ].
              cbn [snd] in Hw. apply in_app_or in Hw. destruct Hw as [K | [-> | []]]; auto.
          + intros e [<- | He]; auto.
        - split.
          + intros w. rewrite in_app_iff. cbn [In]. intuition.
          + auto. }
      destruct SC as [SC1 SC2].
      constructor; cbn [m_color m_thr m_pool].
      * eapply step_gray; [ apply (mo_inv _ I) | apply (pending_at s t); left; rewrite Ops; left; reflexivity | exact E | | | | | ].
        -- intros o. rewrite pending_put, (pending_at s t), Ops. cbn [t_ops In]. intuition.
        -- intros o. rewrite pending_put, (pending_at s t), Ops. cbn [t_ops In]. intuition.
        -- intros w. rewrite scheduled_put, (scheduled_at s t). cbn [t_group t_cur]. specialize (SC1 w). tauto.
        -- intros w. rewrite scheduled_put, (scheduled_at s t). cbn [t_group t_cur]. specialize (SC1 w). tauto.
        -- intros _. rewrite scheduled_put. cbn [t_group t_cur]. specialize (SC1 v). tauto.
      * apply Idle. reflexivity.
      * apply Pool; [ reflexivity | exact SC2 ].
    + constructor; cbn [m_color m_thr m_pool].
      * eapply step_gray with (Sd := scheduled s); [ apply (mo_inv _ I) | apply (pending_at s t); left; rewrite Ops; left; reflexivity | exact E | | | | | ].
        -- intros o. rewrite pending_put, (pending_at s t), Ops. cbn [t_ops In]. intuition.
        -- intros o. rewrite pending_put, (pending_at s t), Ops. cbn [t_ops In]. intuition.
        -- intros w. rewrite scheduled_put, (scheduled_at s t). cbn [t_group t_cur]. tauto.
        -- intros w. rewrite scheduled_put, (scheduled_at s t). cbn [t_group t_cur]. tauto.
        -- discriminate.
      * apply Idle. reflexivity.
      * apply Pool; [ reflexivity | auto ].
  - (* set black *)
    destruct (set_mark_state h (m_color s) v 2) as [b c] eqn:E.
    constructor; cbn [m_color m_thr m_pool].
    + eapply step_same with (Sd := scheduled s); [ | intros o; reflexivity | ].
      * eapply step_setblack; [ apply (mo_inv _ I) | apply (pending_at s t); left; rewrite Ops; left; reflexivity | exact E | | ].
        -- intros o. rewrite pending_put, (pending_at s t), Ops. cbn [t_ops In]. intuition.
        -- intros o. rewrite pending_put, (pending_at s t), Ops. cbn [t_ops In]. intuition.
      * intros w. rewrite scheduled_put, (scheduled_at s t). cbn [t_group t_cur]. tauto.
    + apply Idle. reflexivity.
    + apply Pool; [ reflexivity | auto ].
Qed.

Lemma mark_run_ok : forall sched s, mok s -> mok (mark_run h sched s).
Proof.
  induction sched as [|[[t k] skip] l IH]; intros s H; cbn [mark_run]; [ assumption | ].
  apply IH. apply mstep_ok. assumption.
Qed.

(* Threads which do not move stay as they are. *)
Lemma mstep_other : forall s t k skip u, u <> t -> m_thr (mstep h t k skip s) u = m_thr s u.
Proof.
  intros s t k skip u N. unfold mstep.
  repeat match goal with
         | |- context [if ?b then _ else _] => destruct b
         | |- context [match ?x with _ => _ end] => destruct x
         end; cbn [m_thr]; rewrite ?fupd_other by assumption; reflexivity.
Qed.

Lemma mark_run_other : forall sched s u, ~ In u (map (fun e => fst (fst e)) sched) ->
  m_thr (mark_run h sched s) u = m_thr s u.
Proof.
  induction sched as [|[[t k] skip] l IH]; intros s u N; cbn [mark_run]; [ reflexivity | ].
  cbn [map fst In] in N. rewrite IH by tauto. apply mstep_other. intros ->. tauto.
Qed.

Lemma mark_init_ok : color h = c0 -> mok (mark_init h i).
Proof.
  intros E. constructor.
  - assert (P0 : forall o, pending (mark_init h i) o <-> In o (mark_roots i)).
    { intros o. unfold pending, mark_init. cbn [m_thr]. split.
      - intros [t H]. destruct (t =? 0); [ exact H | destruct H ].
      - intros H. exists 0. exact H. }
    assert (S0 : forall v, ~ scheduled (mark_init h i) v).
    { intros v [[t H] | [e [[] _]]]. unfold mark_init in H. cbn [m_thr] in H.
      destruct (t =? 0); cbn [t_group t_cur In] in H; tauto. }
    unfold mark_init at 3. cbn [m_color]. rewrite E.
    constructor.
    + intros v R. rewrite C0 by assumption. lia.
    + auto.
    + intros o Po M. apply P0 in Po. apply marked_roots in Po. apply reach_root; [ apply Po | assumption ].
    + intros v Pv. apply P0 in Pv. apply marked_roots in Pv. exfalso. eapply (proj2 Pv). reflexivity.
    + intros v Sv. exfalso. eapply S0. eassumption.
    + intros v R C. rewrite C0 in C by assumption. congruence.
    + intros o Ho. left. apply P0. assumption.
  - intros t. unfold mark_init. cbn [m_thr]. destruct (t =? 0); [ discriminate | cbn [t_ops t_group t_cur]; auto ].
  - intros e [].
Qed.

(* When all threads are done the marked objects are the reachable ones. *)
Lemma mark_final : forall s, mok s -> (forall t, t_run (m_thr s t) = false) ->
  (forall v, reach h i v -> 2 <= m_color s (rep v) <= 3) /\
  (forall n, m_color s n <> c0 n -> heap_id n /\ reach h i n).
Proof.
  intros s I D.
  assert (NP : forall o, ~ pending s o).
  { intros o [t H]. destruct (mo_idle _ I t (D t)) as [A _]. rewrite A in H. destruct H. }
  assert (NS : forall v, ~ scheduled s v).
  { intros v [[t H] | [e [He _]]].
    - destruct (mo_idle _ I t (D t)) as [_ [A B]]. rewrite A, B in H. destruct H as [[] | []].
    - pose proof (mo_pool _ I e He). rewrite D in H. discriminate. }
  pose proof (mo_inv _ I) as J.
  assert (X : forall v, reach h i v -> m_color s (rep v) <> 0).
  { intros v R. induction R as [v Hv M | v w R IH Sc M].
    - apply roots_marked in Hv. destruct Hv as [o [Ho <-]].
      destruct (mi_roots _ _ _ J o Ho) as [K | [K | K]]; [ exfalso; eapply NP; exact K | contradiction | exact K ].
    - destruct (mi_done _ _ _ J v R IH) as [[v' [K _]] | [[v' [K _]] | [_ K]]]; [ exfalso; eapply NS; exact K | exfalso; eapply NP; exact K | ].
      destruct Sc as [Sc | [G ->]].
      + assert (W : (exists o, In o (children (mem h) v) /\ target o = w) \/ rep w = rep v).
        { unfold body in Sc. destruct (c_obj (mem h v)) as [] eqn:Eb;
            try (left; unfold children; rewrite Eb; apply refs_children; [ discriminate | exact Sc ]).
          right. destruct Sc as [<- | []].
          destruct OK as [K1 [K2 [K3 _]]]. destruct (reach_managed v R) as [Hv | Hv].
          - destruct (K1 v size data object (K2 v R Hv) Eb) as [G Eo].
            { intros ->. destruct M as [[_ M] | M]; [ congruence | discriminate M ]. }
            rewrite (rep_huge object G), (rep_heap v Hv). exact Eo.
          - destruct (K3 v R Hv) as [_ [_ [_ NT]]]. exfalso. eapply NT. exact Eb. }
        destruct W as [[o [Ho <-]] | ->]; [ | exact IH ].
        destruct (K o Ho) as [L | [L | L]]; [ exfalso; eapply NP; exact L | contradiction | exact L ].
      + destruct OK as [_ [_ [K3 _]]]. destruct (K3 v R G) as [_ [Hb _]].
        rewrite (rep_heap _ Hb). rewrite <- (rep_huge v G). exact IH. }
  split.
  - intros v R. pose proof (mi_range _ _ _ J v R).
    destruct (mi_done _ _ _ J v R (X v R)) as [[v' [K _]] | [[v' [K _]] | [K _]]]; [ exfalso; eapply NS; exact K | exfalso; eapply NP; exact K | lia ].
  - intros n Hn. destruct (mi_only _ _ _ J n) as [K | [v [R <-]]]; [ contradiction | ]. apply reach_rep. assumption.
Qed.

End Mark.
