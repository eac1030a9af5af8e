(* The objects after one pass. *)
From Coq Require Import ZArith List Lia Bool ZifyBool Permutation.
Import ListNotations.
From Verif Require Import Base ListZ GcModel GcSpec GcProofs GcProofs3 GcProofs4 GcProofs5 GcProofs6 GcProofs7 GcProofs8.
Local Open Scope Z_scope.
Ltac Zify.zify_post_hook ::= idtac.

Lemma is_obj_heap : forall h x, pages_ok h -> is_obj h x -> heap_id x /\ In (page_of x) (in_use h).
Proof.
  intros h x [_ [P [R _]]] [p [l [Hp [Hl Hx]]]]. destruct (R p Hp) as [Rn _].
  destruct (pobjs_in h p l x (P p (in_or_app _ _ _ (or_introl Hp))) Rn Hl Hx) as [A [-> _]]. auto.
Qed.

(* The reachable objects of [h] are in [h'], moved by [f]. *)
Record moved_by (f : Z -> Z) (h : heap) (i : inst) (h' : heap) (i' : inst) : Prop := {
  mv_other : forall v, ~ heap_id v -> f v = v;
  mv_roots : roots i' = map f (roots i);
  mv_same : forall v, reach h i v -> same_object f h v h' (f v);
  mv_obj : forall v, reach h i v -> heap_id v -> is_obj h' (f v) }.

Section Moved.
Variables (f : Z -> Z) (h : heap) (i : inst) (h' : heap) (i' : inst).
Hypothesis OK : objs_ok h i.
Hypothesis P' : pages_ok h'.
Hypothesis MV : moved_by f h i h' i'.

Lemma mv_heap : forall v, reach h i v -> heap_id v -> heap_id (f v).
Proof. intros v R H. apply (is_obj_heap h'); [ assumption | ]. apply (mv_obj _ _ _ _ _ MV); assumption. Qed.

Lemma mv_huge : forall v, huge_id v -> f v = v.
Proof. intros v H. apply (mv_other _ _ _ _ _ MV). intros C. exact (heap_not_huge v C H). Qed.

Lemma mv_managed : forall v, reach h i v -> managed (f v).
Proof.
  intros v R. assert (managed v) as [H | H] by (destruct R; assumption).
  - left. apply mv_heap; assumption.
  - right. rewrite mv_huge; assumption.
Qed.

Lemma mv_unmanaged : forall v, managed (f v) -> managed v.
Proof.
  intros v H. destruct (heap_id_dec v) as [A | A]; [ left; assumption | ].
  rewrite (mv_other _ _ _ _ _ MV v A) in H. assumption.
Qed.

Lemma reach_fwd : forall v, reach h i v -> reach h' i' (f v).
Proof.
  intros v R. induction R as [v Hr Hm | v w R IH Hs Hm].
  - apply reach_root; [ rewrite (mv_roots _ _ _ _ _ MV); apply in_map; assumption | ].
    apply mv_managed. apply reach_root; assumption.
  - pose proof (mv_managed w (reach_step h i v w R Hs Hm)) as Mw.
    apply reach_step with (v := f v); [ assumption | | assumption ].
    destruct (mv_same _ _ _ _ _ MV v R) as [_ [_ [E [_ B]]]]. destruct Hs as [Hs | [Hh ->]].
    + left. rewrite E. apply in_map. assumption.
    + right. destruct (B Hh) as [E1 E2]. rewrite E2. split; [ rewrite E1; assumption | reflexivity ].
Qed.

Lemma mv_huge_inv : forall v, reach h i v -> huge_id (f v) -> huge_id v /\ f v = v.
Proof.
  intros v R H. assert (managed v) as [Hv | Hv] by (destruct R; assumption).
  - exfalso. exact (heap_not_huge _ (mv_heap v R Hv) H).
  - split; [ assumption | apply mv_huge; assumption ].
Qed.

Lemma reach_back : forall w, reach h' i' w -> exists v, reach h i v /\ w = f v.
Proof.
  intros w R. induction R as [w Hr Hm | u w R IH Hs Hm].
  - rewrite (mv_roots _ _ _ _ _ MV) in Hr. apply in_map_iff in Hr. destruct Hr as [v [<- Hv]].
    exists v. split; [ | reflexivity ]. apply reach_root; [ assumption | apply mv_unmanaged; assumption ].
  - destruct IH as [v [Rv ->]]. destruct (mv_same _ _ _ _ _ MV v Rv) as [_ [_ [E [_ B]]]]. destruct Hs as [Hs | [Hh ->]].
    + rewrite E in Hs. apply in_map_iff in Hs. destruct Hs as [w' [<- Hw]]. exists w'. split; [ | reflexivity ].
      apply reach_step with (v := v); [ assumption | left; assumption | apply mv_unmanaged; assumption ].
    + destruct (mv_huge_inv v Rv Hh) as [Hv _]. destruct (B Hv) as [_ E2]. exists (bref h v). split; [ | assumption ].
      destruct OK as [_ [_ [Q _]]]. destruct (Q v Rv Hv) as [_ [Q1 _]].
      apply reach_step with (v := v); [ assumption | right; auto | left; assumption ].
Qed.

Lemma shape_tracker : forall b s d, shape b = OTracker s d 0 -> exists o, b = OTracker s d o.
Proof.
  intros b s d H. destruct b; cbn [shape] in H; try discriminate; try (destruct external; discriminate).
  exists object. congruence.
Qed.

(* The clauses of [objs_ok] about the reachable objects. *)
Lemma mv_objs :
  (forall v, reach h' i' v -> heap_id v -> is_obj h' v) /\
  (forall v, reach h' i' v -> huge_id v ->
     (exists s, c_hdr (mem h' v) = HSize s) /\
     heap_id (bref h' v) /\ (exists s d, body h' (bref h' v) = OTracker s d v) /\
     (forall s d o, body h' v <> OTracker s d o)) /\
  (forall v d x, reach h' i' v -> body h' v = OBuffer d x -> managed x ->
     exists d' e p f, body h' x = OBufStorage d' e p f).
Proof.
  destruct OK as [_ [_ [O3 O4]]]. split; [ | split ].
  - intros w R H. destruct (reach_back w R) as [v [Rv ->]]. apply (mv_obj _ _ _ _ _ MV); [ assumption | ].
    destruct (heap_id_dec v) as [A | A]; [ assumption | ]. rewrite (mv_other _ _ _ _ _ MV v A) in H. contradiction.
  - intros w R H. destruct (reach_back w R) as [v [Rv ->]]. destruct (mv_huge_inv v Rv H) as [Hv Ef].
    destruct (O3 v Rv Hv) as [[s Hs] [Hb [[s1 [d1 Ht]] Nt]]].
    assert (Rb : reach h i (bref h v)) by (apply reach_step with (v := v); [ assumption | right; auto | left; assumption ]).
    destruct (mv_same _ _ _ _ _ MV v Rv) as [S1 [S2 [_ [_ S5]]]]. destruct (S5 Hv) as [_ Eb].
    split; [ exists s; rewrite S1; assumption | ]. split; [ rewrite Eb; apply mv_heap; assumption | ].
    split.
    + rewrite Eb. destruct (mv_same _ _ _ _ _ MV _ Rb) as [_ [T2 [T3 _]]]. rewrite Ht in T2, T3. cbn [shape refs map] in T2, T3.
      destruct (shape_tracker _ _ _ T2) as [o Eo]. exists s1, d1. rewrite Eo in T3 |- *. cbn [refs] in T3. congruence.
    + intros s' d' o' Q. rewrite Q in S2. cbn [shape] in S2. symmetry in S2. destruct (shape_tracker _ _ _ S2) as [o2 Q2].
      apply (Nt s' d' o2). assumption.
  - intros w d x R E Hm. destruct (reach_back w R) as [v [Rv ->]].
    destruct (mv_same _ _ _ _ _ MV v Rv) as [_ [S2 [S3 _]]]. rewrite E in S2, S3. cbn [shape refs] in S2, S3.
    assert (exists d0 x0, body h v = OBuffer d0 x0 /\ x = f x0) as [d0 [x0 [E0 ->]]].
    { destruct (body h v) as [| | | | | | |d0 x0| | | | |d0 ext p0 x0| | | | |]; cbn [shape] in S2; try discriminate.
      - exists d0, x0. split; [ reflexivity | ]. cbn [refs map] in S3. congruence.
    }
    assert (Mx : managed x0) by (apply mv_unmanaged; assumption).
    assert (Rx : reach h i x0).
    { apply reach_step with (v := v); [ assumption | left; rewrite E0; left; reflexivity | assumption ]. }
    destruct (O4 v d0 x0 Rv E0 Mx) as [d' [e' [p' [f' Q]]]].
    destruct (mv_same _ _ _ _ _ MV x0 Rx) as [_ [T2 _]]. rewrite Q in T2.
    destruct (body h' (f x0)) as [| | | | | | | | | | | |d1 ext p1 x1| | | | |] eqn:Q2; cbn [shape] in T2; try (destruct e'; discriminate).
    exists d1, ext, p1, x1. reflexivity.
Qed.

End Moved.

Section Pass.
Variables (h0 : heap) (i : inst).
Hypothesis HOK : heap_ok h0 i.
Hypothesis Cur0 : cur h0 = None.
Hypothesis MK : marked h0 i.

Let OK0 : pages_ok h0 := proj1 HOK.
Let OB0 : objs_ok h0 i := proj1 (proj2 HOK).
Let Trk := proj1 OB0.

Variables (h1 : heap) (F : list Z) (M : list (Z * Z)) (Lp rest : list Z) (inc : option (Z * Z)) (err : bool).
Hypothesis EE : evac_end h0 h1 F M Lp rest inc err.
Hypothesis Cur1 : cur h1 = None.
Hypothesis GF : gfins h0 h0 h1.
Hypothesis LG : forall x, is_obj h0 x -> color h0 x = 0 -> lg h0 h1 x.

Variable U : list Z.
Hypothesis UN : NoDup U.
Hypothesis UI : forall x, In x U <-> exists p l, In p (used h1) /\ pobjs h1 p l /\ In x l.

Local Notation f := (update_child_ptr h1).
Local Notation hF := (h4 h1 F inc U).
Local Notation i2 := (update_inst (upd_list U h1) i).
Let K : core h0 [] Lp F M (fun x => In x rest /\ col h0 x) h1 := proj1 EE.
Local Notation W' := (W rest U).
Let RS : result h1 F Lp rest inc U := result_ok h0 OK0 Cur0 h1 F M Lp rest inc err EE Cur1 U.

Lemma reach_live : forall v, reach h0 i v -> heap_id v -> live h0 v.
Proof. intros v R H. split; [ apply (proj1 (proj2 OB0)); assumption | apply (c_reach _ _ MK); assumption ]. Qed.

Lemma W_in' : forall x, In x W' <-> is_obj h1 x \/ In x rest.
Proof. exact (W_in h1 rest Cur1 U UI). Qed.

Lemma obj4 : forall x, is_obj hF x <-> In x W' \/ hole inc x.
Proof.
  intros x. split.
  - intros [p [l [Hp [Hl Hx]]]]. unfold in_use in Hp. rewrite (r_cur _ _ _ _ _ _ RS) in Hp. cbn [opt_list] in Hp. rewrite app_nil_r in Hp.
    apply (Permutation_in p (r_used _ _ _ _ _ _ RS)) in Hp. apply in_app_or in Hp. destruct Hp as [Hp | Hp].
    + pose proof EE as [_ [I _]]. assert (exists j, inc = j) as [j Ej] by (eexists; reflexivity). rewrite Ej in I.
      destruct j as [[q v]|]; [ | destruct I as [Q _]; rewrite Q in Hp; destruct Hp ].
      destruct I as [El _]. rewrite El in Hp. destruct Hp as [<- | []].
      pose proof (r_inc _ _ _ _ _ _ RS q v Ej) as Q. rewrite (chain_fun _ _ _ _ _ Hl Q) in Hx. destruct Hx as [<- | Hx].
      * right. exists q, v. auto.
      * left. apply W_in'. auto.
    + destruct (r_pages _ _ _ _ _ _ RS p Hp) as [l2 [A B]]. rewrite (chain_fun _ _ _ _ _ Hl A) in Hx.
      left. apply W_in'. left. exists p, l2. split; [ rewrite (in_use1 h1 Cur1); assumption | auto ].
  - assert (IN : forall p, In p (Lp ++ used h1) -> In p (in_use hF)).
    { intros p Hp. unfold in_use. apply in_or_app. left. apply (Permutation_in p (Permutation_sym (r_used _ _ _ _ _ _ RS))). assumption. }
    intros [Hx | [p [v [Ej ->]]]].
    + apply W_in' in Hx. destruct Hx as [[p [l [Hp [Hl Hx]]]] | Hx].
      * rewrite (in_use1 h1 Cur1) in Hp. destruct (r_pages _ _ _ _ _ _ RS p Hp) as [l2 [A B]].
        rewrite (chain_fun _ _ _ _ _ Hl B) in Hx. exists p, l2. split; [ apply IN; apply in_or_app; right; assumption | auto ].
      * destruct (rest_obj h0 OK0 Cur0 h1 F M Lp rest inc err EE x Hx) as [p [v [d [Ej [El _]]]]].
        exists p, (page_start p :: rest). split; [ apply IN; apply in_or_app; left; rewrite El; left; reflexivity | ].
        split; [ apply (r_inc _ _ _ _ _ _ RS p v Ej) | right; assumption ].
    + exists p, (page_start p :: rest). pose proof EE as [_ [I _]]. rewrite Ej in I. destruct I as [El _].
      split; [ apply IN; apply in_or_app; left; rewrite El; left; reflexivity | ].
      split; [ apply (r_inc _ _ _ _ _ _ RS p v Ej) | left; reflexivity ].
Qed.

Lemma pages4 : pages_ok hF.
Proof.
  assert (IU : Permutation (in_use hF) (Lp ++ used h1)).
  { unfold in_use. rewrite (r_cur _ _ _ _ _ _ RS). cbn [opt_list]. rewrite app_nil_r. apply (r_used _ _ _ _ _ _ RS). }
  assert (FR : free hF = F ++ free h1) by (apply (r_free _ _ _ _ _ _ RS)).
  assert (RV : resv hF = resv h1) by (apply (r_resv _ _ _ _ _ _ RS)).
  assert (PM : Permutation (in_use hF ++ free hF ++ resv hF) (in_use h1 ++ [] ++ Lp ++ F ++ free h1 ++ resv h1)).
  { rewrite IU, FR, RV, (in_use1 h1 Cur1). cbn [app]. rewrite <- !app_assoc.
    rewrite (app_assoc Lp (used h1)), (Permutation_app_comm Lp (used h1)), <- app_assoc. reflexivity. }
  split; [ eapply Permutation_NoDup; [ apply Permutation_sym; exact PM | apply (k_nodup _ _ _ _ _ _ _ K) ] | ].
  split; [ intros p Hp; apply (Permutation_in p PM) in Hp; apply (k_pos _ _ _ _ _ _ _ K); assumption | ].
  split.
  - intros p Hp. apply (Permutation_in p IU) in Hp.
    assert (NA : nalloc hF p = nalloc h1 p) by (apply (r_nalloc _ _ _ _ _ _ RS); apply (not_F h0 h1 F M Lp rest inc err EE Cur1); assumption).
    rewrite NA. apply in_app_or in Hp. destruct Hp as [Hp | Hp].
    + pose proof EE as [_ [I _]]. assert (exists j, inc = j) as [j Ej] by (eexists; reflexivity). rewrite Ej in I.
      destruct j as [[q v]|]; [ | destruct I as [Q _]; rewrite Q in Hp; destruct Hp ].
      destruct I as [El [Hq [Nq _]]]. rewrite El in Hp. destruct Hp as [<- | []]. rewrite Nq.
      split; [ apply (page0 h0 OK0 Cur0 q Hq) | ]. exists (page_start q :: rest). apply (r_inc _ _ _ _ _ _ RS q v Ej).
    + destruct (k_pages _ _ _ _ _ _ _ K p) as [R _]; [ rewrite (in_use1 h1 Cur1); assumption | ].
      split; [ assumption | ]. destruct (r_pages _ _ _ _ _ _ RS p Hp) as [l [A _]]. exists l. assumption.
  - intros p Hp. rewrite FR in Hp. destruct (in_dec Z.eq_dec p F) as [Q | Q]; [ apply (r_nallocF _ _ _ _ _ _ RS); assumption | ].
    change (nalloc hF p) with (nalloc (h4 h1 F inc U) p). rewrite (r_nalloc _ _ _ _ _ _ RS p Q).
    apply (k_free _ _ _ _ _ _ _ K). apply in_app_or in Hp. tauto.
Qed.

Lemma mem_live : forall v, live h0 v -> mem hF (f v) = mkcell (c_hdr (mem h0 v)) (update_obj h1 (f v) (body h0 v)).
Proof.
  intros v Hv. pose proof (W_live h0 OK0 Cur0 h1 F M Lp rest inc err EE Cur1 U UI v Hv) as HW.
  change (mem hF) with (mem (h4 h1 F inc U)).  rewrite (r_mem _ _ _ _ _ _ RS).
  - destruct (updated h0 OK0 Cur0 Trk h1 F M Lp rest inc err EE Cur1 U UN UI) as [A _]. rewrite (A _ HW).
    unfold upd_cell, body. destruct (live_at h0 OK0 Cur0 h1 F M Lp rest inc err EE v Hv) as [E _].  rewrite E. reflexivity.
  - intros Q. exact (hole_out h0 h1 F M Lp rest inc err EE Cur1 U UI _ Q HW).
Qed.

Lemma heap_hole : forall x, hole inc x -> heap_id x.
Proof.
  intros x [p [v [Ej ->]]]. apply slot_id_heap; [ | lia ]. pose proof EE as [_ [I _]]. rewrite Ej in I. destruct I as [_ [Hp _]].
  apply (page0 h0 OK0 Cur0 p Hp).
Qed.

Lemma mem_huge : forall o t s d, live h0 t -> body h0 t = OTracker s d o -> o <> 1 ->
  mem hF o = mkcell (c_hdr (mem h0 o)) (update_obj h1 o (body h0 o)) /\ bref hF o = f t.
Proof.
  intros o t s d Ht Eb Ho. destruct (Trk t s d o (proj1 Ht) Eb Ho) as [Hh Bo].
  pose proof (W_live h0 OK0 Cur0 h1 F M Lp rest inc err EE Cur1 U UI t Ht) as HW.
  destruct (live_at h0 OK0 Cur0 h1 F M Lp rest inc err EE t Ht) as [E _].
  destruct (updated h0 OK0 Cur0 Trk h1 F M Lp rest inc err EE Cur1 U UN UI) as [_ B].
  destruct (B _ s d o HW) as [B1 B2]; [ unfold body; rewrite E; exact Eb | assumption | ].
  assert (Em : mem h1 o = mem h0 o).
  { apply (k_huge _ _ _ _ _ _ _ K); [ assumption | ]. left. rewrite Bo. apply Ht. }
  split.
  - change (mem hF) with (mem (h4 h1 F inc U)). rewrite (r_mem _ _ _ _ _ _ RS).
    + rewrite B1. unfold upd_cell, body. rewrite Em. reflexivity.
    + intros Q. exact (heap_not_huge o (heap_hole o Q) Hh).
  - change (bref hF) with (bref (h4 h1 F inc U)). rewrite (r_bref _ _ _ _ _ _ RS). exact B2.
Qed.

Lemma tracker_obj : forall v, reach h0 i v -> forall s d o, body h0 v = OTracker s d o -> ~ heap_id o.
Proof.
  intros v R s d o E C. assert (managed v) as [H | H] by (destruct R; assumption).
  - destruct (Z.eq_dec o 1) as [-> | Ho]; [ destruct C as [_ C]; congruence | ].
    destruct (Trk v s d o (proj1 (reach_live v R H)) E Ho) as [Q _]. exact (heap_not_huge o C Q).
  - pose proof OB0 as [_ [_ [O3 _]]]. destruct (O3 v R H) as [_ [_ [_ N]]]. exact (N s d o E).
Qed.

Lemma moved : moved_by f h0 i hF i2.
Proof.
  constructor.
  - intros v. apply (f_other h1).
  - rewrite roots_update. apply map_ext. intros v. apply ucp_ext. apply (su_hdr _ _ (su_upd_list U h1)).
  - intros v R. assert (managed v) as [H | H] by (destruct R; assumption).
    + pose proof (mem_live v (reach_live v R H)) as E. unfold same_object, body. rewrite E. cbn [c_hdr c_obj].
      split; [ reflexivity | ]. split; [ apply update_obj_shape | ].
      split; [ apply update_obj_refs; intros s d o Q; eapply tracker_obj; eassumption | ].
      split; [ intros d p x Q; eapply update_obj_storage; exact Q | ].
      intros C. exfalso. exact (heap_not_huge v H C).
    + pose proof OB0 as [_ [_ [O3 _]]]. destruct (O3 v R H) as [_ [Hb [[s [d Et]] Nt]]].
      assert (Rt : reach h0 i (bref h0 v)) by (apply reach_step with (v := v); [ assumption | right; auto | left; assumption ]).
      destruct (mem_huge v (bref h0 v) s d (reach_live _ Rt Hb) Et) as [E B].
      { intros ->. unfold huge_id in H. change (1 mod 32) with 1 in H. lia. }
      assert (Ef : f v = v) by (apply (f_other h1); intros C; exact (heap_not_huge v C H)).
      rewrite Ef. unfold same_object, body. rewrite E. cbn [c_hdr c_obj].
      split; [ reflexivity | ]. split; [ apply update_obj_shape | ].
      split; [ apply update_obj_refs; intros s' d' o Q; exfalso; exact (Nt s' d' o Q) | ].
      split; [ intros d' p x Q; eapply update_obj_storage; exact Q | ]. auto.
  - intros v R H. apply obj4. left. apply (W_live h0 OK0 Cur0 h1 F M Lp rest inc err EE Cur1 U UI). apply reach_live; assumption.
Qed.

(* What is left is reachable or opaque. *)
Lemma left_over : forall w, is_obj hF w -> is_opaque (body hF w) \/ exists v, live h0 v /\ w = f v.
Proof.
  intros w Hw. apply obj4 in Hw. destruct Hw as [Hw | Hw].
  - destruct (W_cls h0 OK0 Cur0 h1 F M Lp rest inc err EE Cur1 U UI w Hw) as [Q | [v [Lv [Ef _]]]]; [ left | right; exists v; auto ].
    unfold body. change (mem hF) with (mem (h4 h1 F inc U)). rewrite (r_mem _ _ _ _ _ _ RS).
    + destruct (updated h0 OK0 Cur0 Trk h1 F M Lp rest inc err EE Cur1 U UN UI) as [A _]. rewrite (A _ Hw).
      unfold upd_cell. cbn [c_obj]. apply update_obj_opaque. assumption.
    + intros C. exact (hole_out h0 h1 F M Lp rest inc err EE Cur1 U UI _ C Hw).
  - left. unfold body. change (mem hF) with (mem (h4 h1 F inc U)). rewrite (r_hole _ _ _ _ _ _ RS w Hw). exists []. reflexivity.
Qed.

Lemma left_over2 : forall w, is_obj hF w -> is_opaque (body hF w) \/ exists v, reach h0 i v /\ w = f v.
Proof.
  intros w Hw. destruct (left_over w Hw) as [Q | [v [Lv ->]]]; [ auto | ].
  destruct (c_live _ _ MK v (proj1 Lv) (proj2 Lv)) as [R | R]; [ right; exists v; auto | left ].
  unfold body. rewrite (mem_live v Lv). cbn [c_obj]. apply update_obj_opaque. assumption.
Qed.

Lemma pass_collected : collected h0 i hF i2.
Proof.
  split; [ | split ].
  - exists f. split; [ apply (mv_other _ _ _ _ _ moved) | ]. split.
    + intros v w Rv Rw E.
      assert (Mv : managed v) by (destruct Rv; assumption). assert (Mw : managed w) by (destruct Rw; assumption).
      destruct Mv as [Hv | Hv]; destruct Mw as [Hw | Hw].
      * apply (f_inj h0 OK0 Cur0 h1 F M Lp rest inc err EE v w (reach_live v Rv Hv) (reach_live w Rw Hw) E).
      * exfalso. pose proof (mv_heap f h0 i hF i2 pages4 moved v Rv Hv) as A. rewrite E in A.
        rewrite (mv_huge f h0 i hF i2 moved w Hw) in A. exact (heap_not_huge w A Hw).
      * exfalso. pose proof (mv_heap f h0 i hF i2 pages4 moved w Rw Hw) as A. rewrite <- E in A.
        rewrite (mv_huge f h0 i hF i2 moved v Hv) in A. exact (heap_not_huge v A Hv).
      * rewrite (mv_huge f h0 i hF i2 moved v Hv), (mv_huge f h0 i hF i2 moved w Hw) in E. assumption.
    + split; [ apply (mv_roots _ _ _ _ _ moved) | ]. split; [ apply (mv_same _ _ _ _ _ moved) | ].
      split; [ apply (mv_obj _ _ _ _ _ moved) | exact left_over2 ].
  - destruct GF as [new [E G]]. exists new. split; [ change (fins hF) with (fins (h4 h1 F inc U)); rewrite (r_fins _ _ _ _ _ _ RS); assumption | ].
    intros d Hd. destruct (G d Hd) as [x [Hx Fx]]. exists x. destruct Hx as [[Ox Cx] | [t [s [y [Ot [Ct [Et [Ny Nx]]]]]]]].
    + split; [ left; assumption | ]. split; [ | assumption ]. intros R.
      apply (c_reach _ _ MK x R); [ destruct (obj0 h0 OK0 Cur0 x Ox) as [lx [Q _]]; exact Q | assumption ].
    + split; [ right; exists t, s, y; auto | ]. split; [ | assumption ]. intros R.
      destruct (Trk t s y x Ot Et Nx) as [Hx Bx].
      pose proof OB0 as [_ [_ [O3 _]]]. destruct (O3 x R Hx) as [_ [Hb _]].
      apply (c_reach _ _ MK (bref h0 x)); [ | assumption | rewrite Bx; assumption ].
      apply reach_step with (v := x); [ assumption | right; auto | left; assumption ].
  - intros d [x [Hx [NR Fx]]]. change (fins hF) with (fins (h4 h1 F inc U)). rewrite (r_fins _ _ _ _ _ _ RS).
    destruct Hx as [Ox | [t [s [y [Ot [Et [Ny Nx]]]]]]].
    + apply (LG x Ox); [ | left; assumption ].
      destruct (Z.eq_dec (color h0 x) 0) as [C | C]; [ assumption | exfalso ].
      destruct (c_live _ _ MK x Ox C) as [R | [y Q]]; [ contradiction | rewrite Q in Fx; discriminate ].
    + apply (LG t Ot); [ | right; exists s, y, x; auto ].
      destruct (Z.eq_dec (color h0 t) 0) as [C | C]; [ assumption | exfalso ].
      destruct (c_live _ _ MK t Ot C) as [R | [z Q]]; [ | congruence ].
      apply NR. destruct (Trk t s y x Ot Et Nx) as [Hx _].
      apply reach_step with (v := t); [ assumption | left; rewrite Et; left; reflexivity | right; assumption ].
Qed.

Lemma pass_heap_ok : heap_ok hF i2.
Proof.
  split; [ exact pages4 | ]. split.
  - split; [ | apply (mv_objs f h0 i hF i2 OB0 pages4 moved) ].
    intros t s d o Ot Et Ho. destruct (left_over t Ot) as [[y Q] | [v [Lv ->]]]; [ congruence | ].
    unfold body in Et. rewrite (mem_live v Lv) in Et. cbn [c_obj] in Et. apply update_obj_tracker in Et.
    destruct (Trk v s d o (proj1 Lv) Et Ho) as [Hh _]. split; [ assumption | ].
    apply (mem_huge o v s d Lv Et Ho).
  - change (usz hF) with (usz (h4 h1 F inc U)). rewrite (r_usz _ _ _ _ _ _ RS).
    change (psum (nalloc h1) (used hF) = psum (nalloc hF) (used hF)). apply psum_ext. intros p Hp. symmetry.
    apply (r_nalloc _ _ _ _ _ _ RS). apply (not_F h0 h1 F M Lp rest inc err EE Cur1).
    apply (Permutation_in p (r_used _ _ _ _ _ _ RS)). assumption.
Qed.

(* When memory ran out the marks are good for another pass. *)
Lemma used4 : forall p, In p (used hF) -> In p Lp \/ In p (used h1).
Proof. intros p Hp. apply (Permutation_in p (r_used _ _ _ _ _ _ RS)) in Hp. apply in_app_or. assumption. Qed.

Lemma live_color : err = true -> forall v, live h0 v -> color hF (f v) <> 0.
Proof.
  intros Er v Lv. pose proof EE as [_ [I [_ J]]]. destruct (J Er) as [_ JP].
  assert (Old : forall x, is_obj h1 x -> (live h0 x \/ exists w, In (w, x) M) -> color h1 x <> 0).
  { intros x Ox Hx. destruct (core_obj h0 _ _ _ _ _ _ x K Ox) as [_ [Px _]]. rewrite (in_use1 h1 Cur1) in Px.
    destruct (JP _ Px) as [[_ Q] | [[_ [_ [_ [Q _]]]] Nm]]; [ rewrite (Q x eq_refl); discriminate | ].
    rewrite (Q x eq_refl). destruct Hx as [[_ Hx] | [w Hw]]; [ assumption | ]. exfalso. exact (Nm w x Hw eq_refl). }
  assert (OldC : forall x, is_obj h1 x -> color hF x = color h1 x).
  { intros x Ox. apply (r_colorU _ _ _ _ _ _ RS). destruct (core_obj h0 _ _ _ _ _ _ x K Ox) as [_ [Px _]]. rewrite (in_use1 h1 Cur1) in Px. assumption. }
  destruct (live_at h0 OK0 Cur0 h1 F M Lp rest inc err EE v Lv) as [_ [[E [H | H]] | [H Hm]]].
  - rewrite E. change (color hF) with (color (h4 h1 F inc U)). rewrite (r_colorR _ _ _ _ _ _ RS v H).
    destruct (rest_obj h0 OK0 Cur0 h1 F M Lp rest inc err EE v H) as [p [v' [d [Ej [_ [_ [_ [_ [Pv _]]]]]]]]].
    rewrite Ej in I. destruct I as [_ [_ [_ [_ [Q _]]]]]. rewrite (Q v Pv). apply Lv.
  - rewrite E, OldC by assumption. apply Old; auto.
  - rewrite OldC by assumption. apply Old; [ assumption | right; exists v; assumption ].
Qed.

Lemma pass_marked : err = true -> marked hF i2.
Proof.
  intros Er. pose proof EE as [_ [I [_ J]]]. destruct (J Er) as [_ JP].
  assert (IncU : forall p v, inc = Some (p, v) -> ~ In p (used h1)).
  { intros p v Ej. rewrite Ej in I. destruct I as [El _]. apply (page_out h0 h1 F M Lp rest inc err EE Cur1). rewrite El. left. reflexivity. }
  constructor.
  - intros w R H. destruct (reach_back f h0 i hF i2 OB0 pages4 moved w R) as [v [Rv ->]].
    apply live_color; [ assumption | ]. apply reach_live; [ assumption | ].
    destruct (heap_id_dec v) as [A | A]; [ assumption | ]. rewrite (mv_other _ _ _ _ _ moved v A) in H. contradiction.
  - intros w Ow _. destruct (left_over2 w Ow) as [Q | [v [Rv ->]]]; [ right; assumption | left ].
    apply (reach_fwd f h0 i hF i2 pages4 moved). assumption.
  - intros p l x Hp Hf Hl Hx. change (pflags hF p) with (pflags (h4 h1 F inc U) p) in Hf. rewrite (r_flags _ _ _ _ _ _ RS) in Hf.
    destruct (used4 p Hp) as [Hq | Hq].
    + exfalso. destruct (k_F _ _ _ _ _ _ _ K p (in_or_app _ _ _ (or_introl Hq))) as [_ Nf].
      assert (exists j, inc = j) as [j Ej] by (eexists; reflexivity). rewrite Ej in I.
      destruct j as [[q v]|]; [ | destruct I as [Q _]; rewrite Q in Hq; destruct Hq ].
      destruct I as [El [_ [_ [Fq _]]]]. rewrite El in Hq. destruct Hq as [<- | []]. congruence.
    + assert (Ox : is_obj h1 x /\ page_of x = p).
      { destruct (r_pages _ _ _ _ _ _ RS p Hq) as [l2 [A B]]. rewrite (chain_fun _ _ _ _ _ Hl A) in Hx.
        assert (O : is_obj h1 x) by (exists p, l2; split; [ rewrite (in_use1 h1 Cur1); assumption | auto ]). split; [ assumption | ].
        destruct (k_pages _ _ _ _ _ _ _ K p) as [R _]; [ rewrite (in_use1 h1 Cur1); assumption | ].
        assert (P0 : 0 <= p) by (apply (k_pos _ _ _ _ _ _ _ K); rewrite (in_use1 h1 Cur1); apply in_or_app; left; assumption).
        destruct (pobjs_in h1 p l2 x P0 R B Hx) as [_ [E _]]. assumption. }
      destruct Ox as [Ox Px]. change (color hF) with (color (h4 h1 F inc U)).
      rewrite (r_colorU _ _ _ _ _ _ RS) by (rewrite Px; assumption).
      destruct (JP p Hq) as [[_ Q] | [[Q1 [Q2 [Q3 [Q4 [l3 [Q5 [Q6 Q7]]]]]]] _]]; [ rewrite (Q x Px); discriminate | ].
      rewrite (Q4 x Px). apply (c_flag _ _ MK p l3 x Q1); [ congruence | assumption | ].
      destruct (r_pages _ _ _ _ _ _ RS p Hq) as [l2 [A B]]. rewrite (chain_fun _ _ _ _ _ Hl A) in Hx.
      assert (B2 : pobjs h1 p l3).
      { unfold pobjs. rewrite Q2. eapply chain_ext; [ exact Q5 | ]. intros y Hy. destruct (col_dec h0 y) as [Cy | Cy];
          [ rewrite (Q6 y Hy Cy) | rewrite (Q7 y Hy Cy) ]; reflexivity. }
      rewrite (chain_fun _ _ _ _ _ B2 B). assumption.
  - intros p x Hp Hf Px Cx. change (pflags hF p) with (pflags (h4 h1 F inc U) p) in Hf. rewrite (r_flags _ _ _ _ _ _ RS) in Hf.
    change (color hF x) with (color (h4 h1 F inc U) x) in Cx.
    assert (Cx1 : color h1 x <> 0) by (destruct (r_color _ _ _ _ _ _ RS x); congruence).
    apply obj4. left. apply W_in'. destruct (used4 p Hp) as [Hq | Hq].
    + right. assert (exists j, inc = j) as [j Ej] by (eexists; reflexivity). rewrite Ej in I.
      destruct j as [[q v]|]; [ | destruct I as [Q _]; rewrite Q in Hq; destruct Hq ].
      destruct I as [El [Hu [_ [Fq [Cq [done [Hl [_ [Hv [Hc _]]]]]]]]]]. rewrite El in Hq. destruct Hq as [<- | []].
      assert (Cx0 : color h0 x <> 0) by (rewrite <- (Cq x Px); assumption).
      assert (O0 : is_obj h0 x) by (apply (c_in _ _ MK q x Hu); [ congruence | assumption | assumption ]).
      destruct (obj0 h0 OK0 Cur0 x O0) as [l2 [_ [_ [L1 L2]]]]. rewrite Px in L1. rewrite (chain_fun _ _ _ _ _ L1 Hl) in L2.
      apply in_app_or in L2. destruct L2 as [L2 | L2]; [ exfalso | assumption ].
      apply Cx. apply (r_colorD _ _ _ _ _ _ RS q v x Ej).
      pose proof Hl as Hs. unfold pobjs in Hs. apply chain_split in Hs. destruct Hs as [b [S1 S2]].
      assert (b = v).
      { destruct rest as [|r rs]; [ destruct Hv | ]. cbn [chain] in S2, Hc. destruct S2 as [Q1 _]. destruct Hc as [Q2 _]. congruence. }
      subst b. apply (chain_lt _ _ _ _ x S1 L2).
    + left. destruct (JP p Hq) as [[Q _] | [[Q1 [Q2 [Q3 [Q4 [l3 [Q5 [Q6 Q7]]]]]]] _]]; [ congruence | ].
      assert (O0 : is_obj h0 x).
      { apply (c_in _ _ MK p x Q1); [ congruence | assumption | rewrite <- (Q4 x Px); assumption ]. }
      destruct (obj0 h0 OK0 Cur0 x O0) as [l2 [_ [_ [L1 L2]]]]. rewrite Px in L1. rewrite (chain_fun _ _ _ _ _ L1 Q5) in L2.
      exists p, l3. split; [ rewrite (in_use1 h1 Cur1); assumption | ]. split; [ | assumption ].
      unfold pobjs. rewrite Q2. eapply chain_ext; [ exact Q5 | ]. intros y Hy. destruct (col_dec h0 y) as [Cy | Cy];
          [ rewrite (Q6 y Hy Cy) | rewrite (Q7 y Hy Cy) ]; reflexivity.
Qed.

(* Pages not yet marked as tried. *)
Definition untried (h : heap) : list Z := filter (fun p => negb (pflags h p =? 1)) (used h).

Lemma pass_progress : err = true -> (length (untried hF) + length F <= length (untried h0))%nat.
Proof.
  intros Er. rewrite <- app_length. pose proof EE as [_ [I [_ J]]]. destruct (J Er) as [_ JP].
  apply NoDup_incl_length.
  - pose proof pages4 as [ND _]. unfold in_use in ND. rewrite (r_cur _ _ _ _ _ _ RS) in ND. cbn [opt_list] in ND. rewrite app_nil_r in ND.
    assert (FR : free hF = F ++ free h1) by (apply (r_free _ _ _ _ _ _ RS)). rewrite FR in ND.
    apply nodup_app_intro.
    + unfold untried. apply NoDup_filter. apply nodup_app_l in ND. assumption.
    + apply nodup_app_r in ND. rewrite <- app_assoc in ND. apply nodup_app_l in ND. assumption.
    + intros p Hp Hq. unfold untried in Hp. apply filter_In in Hp. eapply nodup_app_disj; [ exact ND | apply Hp | ].
      rewrite !in_app_iff. tauto.
  - intros p Hp. unfold untried. apply filter_In. apply in_app_or in Hp. destruct Hp as [Hp | Hp].
    + apply filter_In in Hp. destruct Hp as [Hp Hf]. change (pflags hF p) with (pflags (h4 h1 F inc U) p) in Hf.
      rewrite (r_flags _ _ _ _ _ _ RS) in Hf. destruct (used4 p Hp) as [Hq | Hq].
      * destruct (k_F _ _ _ _ _ _ _ K p (in_or_app _ _ _ (or_introl Hq))) as [A B]. split; [ assumption | ]. lia.
      * destruct (JP p Hq) as [[Q _] | [[Q1 [Q2 [Q3 _]]] _]]; [ rewrite Q in Hf; discriminate | ]. split; [ assumption | ]. rewrite <- Q3. assumption.
    + destruct (k_F _ _ _ _ _ _ _ K p (in_or_app _ _ _ (or_intror Hp))) as [A B]. split; [ assumption | ]. lia.
Qed.

End Pass.
