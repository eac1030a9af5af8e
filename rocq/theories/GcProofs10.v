(* The whole collection. *)
From Coq Require Import ZArith List Lia Bool ZifyBool Permutation.
Import ListNotations.
From Verif Require Import Base ListZ GcModel GcSpec GcProofs GcProofs2 GcProofs3 GcProofs4 GcProofs5 GcProofs6 GcProofs7 GcProofs8 GcProofs9.
Local Open Scope Z_scope.
Ltac Zify.zify_post_hook ::= idtac.

Lemma gc_pass_ok : forall h i h' i' err np,
  heap_ok h i -> cur h = None -> marked h i -> gc_pass h i = (h', i', err, np) ->
  heap_ok h' i' /\ cur h' = None /\ collected h i h' i' /\
  (err = true -> marked h' i' /\ (np = false -> (length (untried h') < length (untried h))%nat)).
Proof.
  intros h i h' i' err np HOK Cu MK H. unfold gc_pass in H.
  destruct (evacuate h) as [[[h1 F] inc] er] eqn:EV. cbv zeta in H.
  pose proof HOK as [OK0 [OB0 US]]. pose proof OB0 as [Trk _].
  destruct (evacuate_ok h OK0 Cu Trk (c_flag _ _ MK) (c_in _ _ MK) h1 F inc er US EV) as [Cu1 [GF [LG [M [Lp [rest EE]]]]]].
  pose proof (proj1 EE) as K. pose proof (in_use1 h1 Cu1) as IU.
  destruct (update_pages_list (used h1) h1) as [U [EU [UN UI]]].
  { pose proof (k_nodup _ _ _ _ _ _ _ K) as ND. rewrite IU in ND. apply nodup_app_l in ND. assumption. }
  { intros p Hp. split; [ apply (k_pos _ _ _ _ _ _ _ K); rewrite IU; apply in_or_app; left; assumption | ].
    destruct (k_pages _ _ _ _ _ _ _ K p) as [R [l [Hl _]]]; [ rewrite IU; assumption | ]. split; [ assumption | exists l; assumption ]. }
  rewrite EU in H.
  assert (h' = h4 h1 F inc U /\ i' = update_inst (upd_list U h1) i /\ err = er /\
          np = (nfreed (update_incomplete_page (upd_list U h1) inc) =? nfreed (h4 h1 F inc U))) as [-> [-> [-> ->]]] by (repeat split; unfold h4; congruence).
  split; [ exact (pass_heap_ok h i HOK Cu MK h1 F M Lp rest inc er EE Cu1 U UN UI) | ].
  split; [ exact (r_cur _ _ _ _ _ _ (result_ok h OK0 Cu h1 F M Lp rest inc er EE Cu1 U)) | ].
  split; [ exact (pass_collected h i HOK Cu MK h1 F M Lp rest inc er EE Cu1 GF LG U UN UI) | ].
  intros Er. split; [ exact (pass_marked h i HOK Cu MK h1 F M Lp rest inc er EE Cu1 U UN UI Er) | ].
  intros Np. pose proof (pass_progress h i HOK Cu h1 F M Lp rest inc er EE Cu1 U Er) as PP.
  destruct F as [|p F]; [ | cbn [length] in PP; lia ].
  exfalso. unfold h4 in Np. cbn [reclaim_free_pages set_nfreed nfreed] in Np. change (len (@nil Z)) with 0 in Np. lia.
Qed.

Lemma collected_moved : forall h i h' i', collected h i h' i' ->
  exists f, moved_by f h i h' i' /\ (forall v w, reach h i v -> reach h i w -> f v = f w -> v = w) /\
    (forall w, is_obj h' w -> is_opaque (body h' w) \/ exists v, reach h i v /\ w = f v) /\
    (exists new, fins h' = new ++ fins h /\ forall d, In d new -> garbage_data h i d) /\
    (forall d, garbage_data h i d -> In d (fins h')).
Proof.
  intros h i h' i' [[f [A [B [C [D [E G]]]]]] [N N']]. exists f. split; [ constructor; assumption | ]. auto.
Qed.

Lemma collected_trans : forall h i h1 i1 h2 i2,
  objs_ok h i -> pages_ok h1 -> objs_ok h1 i1 -> pages_ok h2 ->
  collected h i h1 i1 -> collected h1 i1 h2 i2 -> collected h i h2 i2.
Proof.
  intros h i h1 i1 h2 i2 OB P1 OB1 P2 C1 C2.
  destruct (collected_moved _ _ _ _ C1) as [f [MV1 [J1 [L1 [[n1 [N1 G1]] A1]]]]].
  destruct (collected_moved _ _ _ _ C2) as [g [MV2 [J2 [L2 [[n2 [N2 G2]] A2]]]]].
  pose proof (reach_fwd f h i h1 i1 P1 MV1) as RF.
  pose proof (reach_back f h i h1 i1 OB P1 MV1) as RB.
  split; [ | split ].
  - exists (fun v => g (f v)). split; [ | split; [ | split; [ | split; [ | split ] ] ] ].
    + intros v Hv. rewrite (mv_other _ _ _ _ _ MV1 v Hv). apply (mv_other _ _ _ _ _ MV2 v Hv).
    + intros v w Rv Rw E. apply J1; [ assumption | assumption | ]. apply J2; auto.
    + rewrite (mv_roots _ _ _ _ _ MV2), (mv_roots _ _ _ _ _ MV1), map_map. reflexivity.
    + intros v Rv. destruct (mv_same _ _ _ _ _ MV1 v Rv) as [E1 [E2 [E3 [E4 E5]]]].
      destruct (mv_same _ _ _ _ _ MV2 (f v) (RF v Rv)) as [B1 [B2 [B3 [B4 B5]]]].
      split; [ congruence | ]. split; [ congruence | ]. split; [ rewrite B3, E3, map_map; reflexivity | ].
      split; [ exact B4 | ]. intros Hh. destruct (E5 Hh) as [Q1 Q2]. rewrite Q1 in *. destruct (B5 Hh) as [Q3 Q4].
      split; [ assumption | ]. rewrite Q4, Q2. reflexivity.
    + intros v Rv Hv. apply (mv_obj _ _ _ _ _ MV2); [ auto | ]. apply (mv_heap f h i h1 i1 P1 MV1); assumption.
    + intros w Hw. destruct (L2 w Hw) as [Q | [u [Ru ->]]]; [ auto | ]. destruct (RB u Ru) as [v [Rv ->]]. right. exists v. auto.
  - exists (n2 ++ n1). split; [ rewrite N2, N1; apply app_assoc | ]. intros d Hd. apply in_app_or in Hd. destruct Hd as [Hd | Hd]; [ | auto ].
    exfalso. destruct (G2 d Hd) as [v [Hv [NR Fd]]]. apply NR. destruct Hv as [Ov | [t [s [x [Ot [Et [_ Nv]]]]]]].
    + destruct (L1 v Ov) as [[y Q] | [u [Ru ->]]]; [ rewrite Q in Fd; discriminate | auto ].
    + destruct (L1 t Ot) as [[y Q] | [u [Ru ->]]]; [ congruence | ].
      destruct OB1 as [T1 _]. destruct (T1 _ _ _ _ Ot Et Nv) as [Hh _].
      apply reach_step with (v := f u); [ auto | left; rewrite Et; left; reflexivity | right; assumption ].
  - intros d Hd. rewrite N2. apply in_or_app. right. apply A1. assumption.
Qed.

Definition gc_ok (h : heap) (i : inst) (r : gcres) : Prop :=
  exists h' i', (r = GDone h' i' \/ r = GOom h' i') /\ collected h i h' i' /\ heap_ok h' i' /\ cur h' = None.

Lemma gc_passes_ok : forall fuel h i, heap_ok h i -> cur h = None -> marked h i ->
  (length (untried h) < fuel)%nat -> gc_ok h i (gc_passes fuel h i).
Proof.
  induction fuel as [|k IH]; intros h i HOK Cu MK Hf; [ lia | ]. cbn [gc_passes].
  destruct (gc_pass h i) as [[[h1 i1] err] np] eqn:E.
  destruct (gc_pass_ok h i h1 i1 err np HOK Cu MK E) as [HOK1 [Cu1 [C1 R1]]].
  destruct err; [ | exists h1, i1; auto ]. destruct (R1 eq_refl) as [MK1 PR]. destruct np; [ exists h1, i1; auto | ].
  destruct (IH h1 i1 HOK1 Cu1 MK1) as [h2 [i2 [Er [C2 [HOK2 Cu2]]]]]; [ specialize (PR eq_refl); lia | ].
  exists h2, i2. split; [ assumption | ]. split; [ | auto ].
  eapply collected_trans; [ apply HOK | apply HOK1 | apply HOK1 | apply HOK2 | exact C1 | exact C2 ].
Qed.

(* Heaps with the same objects. *)
Section Same.
Variables (h h1 : heap) (i : inst).
Hypothesis EM : mem h1 = mem h.
Hypothesis EB : bref h1 = bref h.
Hypothesis EN : nalloc h1 = nalloc h.
Hypothesis EI : Permutation (in_use h1) (in_use h).

Lemma same_reach : forall v, reach h1 i v <-> reach h i v.
Proof.
  intros v. split; intros R; induction R; try (apply reach_root; assumption);
    (eapply reach_step; [ exact IHR | | assumption ]); unfold succ, body in *; [ rewrite <- EM, <- EB | rewrite EM, EB ]; assumption.
Qed.

Lemma same_obj : forall v, is_obj h1 v <-> is_obj h v.
Proof.
  intros v. unfold is_obj, pobjs. rewrite EM, EN. split; intros [p [l [A B]]]; exists p, l; (split; [ | assumption ]);
    [ apply (Permutation_in p EI) | apply (Permutation_in p (Permutation_sym EI)) ]; assumption.
Qed.

Lemma same_objs_ok : objs_ok h i -> objs_ok h1 i.
Proof.
  intros [O1 [O2 [O3 O4]]]. split; [ | split; [ | split ] ].
  - intros t s d o Ot. rewrite EB. unfold body. rewrite EM. apply O1. apply same_obj. assumption.
  - intros v R. apply same_reach in R. rewrite same_obj. auto.
  - intros v R. apply same_reach in R. unfold body. rewrite EM, EB. apply O3. assumption.
  - intros v d x R. apply same_reach in R. unfold body. rewrite EM. apply O4. assumption.
Qed.

Lemma same_collected : fins h1 = fins h -> forall h' i', collected h1 i h' i' -> collected h i h' i'.
Proof.
  intros EF h' i' [[f [A [B [C [D [E G]]]]]] [[new [N1 N2]] N3]]. split; [ | split ].
  - exists f. split; [ assumption | ]. split; [ intros v w Rv Rw; apply B; apply same_reach; assumption | ].
    split; [ assumption | ]. split.
    + intros v R. apply same_reach in R. specialize (D v R). unfold same_object, body in *. rewrite EM, EB in D. assumption.
    + split; [ intros v R; apply E; apply same_reach; assumption | ].
      intros w Hw. destruct (G w Hw) as [Q | [v [R ->]]]; [ auto | right; exists v; split; [ apply same_reach; assumption | reflexivity ] ].
  - exists new. rewrite <- EF. split; [ assumption | ]. intros d Hd. destruct (N2 d Hd) as [v [X1 [X2 X3]]]. exists v.
    split; [ | split; [ rewrite <- same_reach; assumption | unfold body in *; rewrite <- EM; assumption ] ].
    destruct X1 as [X1 | [t [s [x [X1 [Y1 Y2]]]]]]; [ left; apply same_obj; assumption | right ].
    exists t, s, x. split; [ apply same_obj; assumption | ]. unfold body in *. rewrite <- EM. auto.
  - intros d [v [X1 [X2 X3]]]. apply N3. exists v.
    split; [ | split; [ rewrite same_reach; assumption | unfold body in *; rewrite EM; assumption ] ].
    destruct X1 as [X1 | [t [s [x [X1 [Y1 Y2]]]]]]; [ left; apply same_obj; assumption | right ].
    exists t, s, x. split; [ apply same_obj; assumption | ]. unfold body in *. rewrite EM. auto.
Qed.

Lemma same_pages_ok : free h1 = free h -> resv h1 = resv h -> pages_ok h -> pages_ok h1.
Proof.
  intros EF ER [N1 [N2 [N3 N4]]].
  assert (PM : Permutation (in_use h1 ++ free h1 ++ resv h1) (in_use h ++ free h ++ resv h)) by (rewrite EI, EF, ER; reflexivity).
  split; [ eapply Permutation_NoDup; [ apply Permutation_sym; exact PM | assumption ] | ].
  split; [ intros p Hp; apply N2; apply (Permutation_in p PM); assumption | ].
  split.
  - intros p Hp. unfold pobjs. rewrite EM, EN. apply N3. apply (Permutation_in p EI). assumption.
  - intros p Hp. rewrite EN. apply N4. rewrite <- EF. assumption.
Qed.
End Same.

Lemma filter_len : forall (A : Type) (g : A -> bool) l, (length (filter g l) <= length l)%nat.
Proof. induction l as [|a l IH]; [ reflexivity | ]. cbn [filter length]. destruct (g a); cbn [length]; lia. Qed.

Theorem collect_ok : forall sched h i r, heap_ok h i -> collect sched h i = Some r -> gc_ok h i r.
Proof.
  intros sched h i r HOK H. unfold collect in H. cbv zeta in H.
  destruct (release_cur_spec h) as [[X1 X2 X3 X4 X5 X6 X7] [[B1 [B2 B3]] [C D]]].
  pose proof (release_cur_in_use h) as RI.
  set (hr := release_cur h) in *. set (h1 := clear_marking hr) in *.
  assert (M1 : mem h1 = mem h) by exact X1.
  assert (Bf : bref h1 = bref h) by exact X2.
  assert (Nf : nalloc h1 = nalloc h) by exact B1.
  assert (I1 : Permutation (in_use h1) (in_use h)) by exact RI.
  assert (Cu1 : cur h1 = None) by exact C.
  destruct HOK as [OK0 [OB0 US]].
  assert (PO1 : pages_ok h1) by (apply (same_pages_ok h h1 M1 Nf I1); [ exact B2 | exact B3 | assumption ]).
  assert (OB1 : objs_ok h1 i) by (apply (same_objs_ok h h1 i M1 Bf Nf I1); assumption).
  assert (US1 : usz h1 = fold_right Z.add 0 (map (fun p => 64 + 32 * nalloc h1 p) (used h1))).
  { change (usz hr = psum (nalloc h1) (used hr)). rewrite Nf. revert D US. clear. intros D US.
    unfold hr in *. unfold release_cur in *. destruct (cur h) as [p|] eqn:E; [ | exact US ].
    destruct (push_objs_spec h p) as [_ [_ [_ [Y5 Y6]]]]. cbn [set_cur usz used]. rewrite Y5, (psum_perm _ _ _ Y6), psum_cons.
    change (usz h = psum (nalloc h) (used h)) in US. lia. }
  assert (C1 : forall x, In (page_of x) (used h1) -> color h1 x = 0).
  { intros x Hx. unfold h1, clear_marking. cbn [set_marking_in_pages set_pflags set_color color].
    replace (existsb (Z.eqb (page_of x)) (used hr)) with true; [ reflexivity | ]. symmetry. apply existsb_exists.
    exists (page_of x). split; [ exact Hx | apply Z.eqb_refl ]. }
  assert (F1 : forall p, In p (used h1) -> pflags h1 p = 0).
  { intros p Hp. unfold h1, clear_marking. cbn [set_marking_in_pages set_pflags set_color pflags].
    replace (existsb (Z.eqb p) (used hr)) with true; [ reflexivity | ]. symmetry. apply existsb_exists.
    exists p. split; [ exact Hp | apply Z.eqb_refl ]. }
  assert (IU1 : in_use h1 = used h1) by (unfold in_use; rewrite Cu1; apply app_nil_r).
  assert (OC : forall x, is_obj h1 x -> color h1 x = 0).
  { intros x Ox. apply C1. rewrite <- IU1. apply (is_obj_heap h1 x PO1 Ox). }
  set (s := mark_run h1 sched (mark_init h1 i)) in *.
  destruct (idle (0 :: map (fun e => fst (fst e)) sched) s) eqn:ID; [ | discriminate ].
  assert (r = gc_passes (S (length (used (set_color h1 (m_color s))))) (set_color h1 (m_color s)) i) as -> by congruence.
  assert (C0 : forall v, reach h1 i v -> color h1 (rep h1 v) = 0).
  { intros v R. destruct (reach_rep h1 i OB1 v R) as [Hh Rr]. apply OC. apply (proj1 (proj2 OB1)); assumption. }
  assert (Idle : forall t, t_run (m_thr s t) = false).
  { intros t. unfold idle in ID. rewrite forallb_forall in ID.
    destruct (in_dec Z.eq_dec t (0 :: map (fun e => fst (fst e)) sched)) as [Q | Q].
    - apply ID in Q. apply negb_true_iff. exact Q.
    - unfold s. cbn [In] in Q. rewrite mark_run_other by tauto. cbn [mark_init m_thr]. destruct (t =? 0) eqn:Q0; [ lia | reflexivity ]. }
  destruct (mark_final h1 i OB1 (color h1) s) as [MF1 MF2].
  { apply mark_run_ok; [ assumption | ]. apply mark_init_ok; [ assumption | reflexivity ]. }
  { exact Idle. }
  set (h2 := set_color h1 (m_color s)).
  assert (MK : marked h2 i).
  { assert (R2 : forall v, reach h2 i v <-> reach h1 i v) by (intros v; apply same_reach; reflexivity).
    assert (O2 : forall v, is_obj h2 v <-> is_obj h1 v) by (intros v; apply same_obj; reflexivity).
    constructor.
    - intros v R Hv. apply R2 in R. specialize (MF1 v R). rewrite (rep_heap h1 v Hv) in MF1. cbn [h2 set_color color]. lia.
    - intros v Ov Cv. apply O2 in Ov. left. apply R2. apply MF2. rewrite (OC v Ov). exact Cv.
    - intros p l x Hp Hf. exfalso. change (pflags h1 p = 1) in Hf. rewrite (F1 p Hp) in Hf. discriminate.
    - intros p x Hp _ Px Cx. apply O2. change (m_color s x <> 0) in Cx. destruct (MF2 x) as [Hx Rx].
      + rewrite (C1 x) by (rewrite Px; exact Hp). exact Cx.
      + apply (proj1 (proj2 OB1)); assumption. }
  assert (HOK2 : heap_ok h2 i).
  { split; [ apply (same_pages_ok h1 h2); try reflexivity; assumption | ].
    split; [ apply (same_objs_ok h1 h2 i); try reflexivity; assumption | exact US1 ]. }
  destruct (gc_passes_ok (S (length (used h2))) h2 i HOK2 Cu1 MK) as [h' [i' [E [Cc [Hh Hc]]]]].
  { unfold untried. pose proof (filter_len _ (fun p => negb (pflags h2 p =? 1)) (used h2)). lia. }
  exists h', i'. split; [ exact E | ]. split; [ | auto ].
  apply (same_collected h h2 i M1 Bf Nf I1 X5). exact Cc.
Qed.
