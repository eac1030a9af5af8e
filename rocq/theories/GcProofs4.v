(* Evacuation: the invariant and its basic steps. *)
From Coq Require Import ZArith List Lia Bool ZifyBool Permutation.
Import ListNotations.
From Verif Require Import Base ListZ GcModel GcSpec GcProofs GcProofs3.
Local Open Scope Z_scope.
Ltac Zify.zify_post_hook ::= idtac.

Section Evac.
Variable h0 : heap.
Hypothesis OK0 : pages_ok h0.
Hypothesis Cur0 : cur h0 = None.

Definition col (x : Z) : Prop := color h0 x <> 0.

Lemma col_dec : forall x, col x \/ color h0 x = 0.
Proof. intros x. unfold col. destruct (Z.eq_dec (color h0 x) 0); tauto. Qed.

Lemma in_use0 : in_use h0 = used h0.
Proof. unfold in_use. rewrite Cur0. apply app_nil_r. Qed.

Lemma page0 : forall p, In p (used h0) -> 0 <= p /\ 0 <= nalloc h0 p <= 126 /\ exists l, pobjs h0 p l.
Proof.
  intros p Hp. destruct OK0 as [_ [A [B _]]]. rewrite in_use0 in *. split.
  - apply A. apply in_or_app. left. assumption.
  - apply B. assumption.
Qed.

Lemma obj0 : forall x, is_obj h0 x -> exists l,
  heap_id x /\ In (page_of x) (used h0) /\ pobjs h0 (page_of x) l /\ In x l.
Proof.
  intros x [p [l [Hp [Hl Hx]]]]. rewrite in_use0 in Hp. destruct (page0 p Hp) as [P0 [P1 _]].
  destruct (pobjs_in h0 p l x P0 P1 Hl Hx) as [A [B _]]. subst p. exists l. auto.
Qed.

Lemma obj0_intro : forall p l x, In p (used h0) -> pobjs h0 p l -> In x l -> is_obj h0 x /\ page_of x = p.
Proof.
  intros p l x Hp Hl Hx. split.
  - exists p, l. rewrite in_use0. auto.
  - destruct (page0 p Hp) as [P0 [P1 _]]. apply (pobjs_in h0 p l x P0 P1 Hl Hx).
Qed.

Lemma obj0_size : forall x, is_obj h0 x -> exists s, c_hdr (mem h0 x) = HSize s /\ 0 < s <= 4032 /\ s mod 32 = 0.
Proof.
  intros x [p [l [Hp [Hl Hx]]]]. rewrite in_use0 in Hp. destruct (page0 p Hp) as [P0 [P1 _]].
  eapply pobjs_size; eassumption.
Qed.

(* What an object in a page in use may be. *)
Definition cls (M : list (Z * Z)) (h : heap) (x : Z) : Prop :=
  (exists v, In (v, x) M) \/ (is_obj h0 x /\ col x /\ mem h x = mem h0 x) \/ is_opaque (body h x).

(* The pages still to do [T], the page being evacuated [Lp], the pages
   evacuated [F], the objects moved [M] and those not processed yet [Pd]. *)
Record core (T Lp F : list Z) (M : list (Z * Z)) (Pd : Z -> Prop) (h : heap) : Prop := {
  k_nodup : NoDup (in_use h ++ T ++ Lp ++ F ++ free h ++ resv h);
  k_pos : forall p, In p (in_use h ++ T ++ Lp ++ F ++ free h ++ resv h) -> 0 <= p;
  k_T : forall p, In p T -> In p (used h0) /\ nalloc h p = nalloc h0 p /\ pflags h p = pflags h0 p;
  k_F : forall p, In p (Lp ++ F) -> In p (used h0) /\ pflags h0 p <> 1;
  k_pages : forall p, In p (in_use h) ->
    0 <= nalloc h p <= 126 /\ exists l, pobjs h p l /\ forall x, In x l -> cls M h x;
  k_pd : forall x, Pd x -> is_obj h0 x /\ In (page_of x) (T ++ Lp) /\ mem h x = mem h0 x;
  k_moved : forall v w, In (v, w) M ->
    is_obj h0 v /\ col v /\ mem h v = mkcell (HFwd w) (body h0 v) /\ mem h w = mem h0 v /\
    In (page_of v) (Lp ++ F) /\ nalloc h (page_of v) <> 0 /\ is_obj h w /\ ~ (is_obj h0 w /\ col w);
  k_inj : NoDup (map fst M) /\ NoDup (map snd M);
  k_all : forall v, is_obj h0 v -> col v ->
    Pd v \/ (exists w, In (v, w) M) \/ (is_obj h v /\ mem h v = mem h0 v);
  k_free : forall p, In p (free h) -> nalloc h p = 0;
  k_bref : bref h = bref h0;
  k_huge : forall o, huge_id o -> col (bref h0 o) \/ Pd (bref h0 o) -> mem h o = mem h0 o;
  k_usz : usz h = psum (nalloc h) (used h) + psum (nalloc h) T
}.

Lemma core_obj : forall T Lp F M Pd h x, core T Lp F M Pd h -> is_obj h x ->
  heap_id x /\ In (page_of x) (in_use h) /\ exists k, x = slot_id (page_of x) k /\ 0 <= k < nalloc h (page_of x).
Proof.
  intros T Lp F M Pd h x K [p [l [Hp [Hl Hx]]]].
  destruct (k_pages _ _ _ _ _ _ K p Hp) as [R _].
  assert (P0 : 0 <= p) by (apply (k_pos _ _ _ _ _ _ K); apply in_or_app; left; assumption).
  destruct (pobjs_in h p l x P0 R Hl Hx) as [A [B C]]. subst p. auto.
Qed.

(* Only the memory changes, and not where it matters. *)
Record same_but_mem (h h' : heap) : Prop := {
  sb_bref : bref h' = bref h; sb_nalloc : nalloc h' = nalloc h; sb_flags : pflags h' = pflags h;
  sb_color : color h' = color h; sb_used : used h' = used h; sb_free : free h' = free h;
  sb_resv : resv h' = resv h; sb_cur : cur h' = cur h; sb_usz : usz h' = usz h;
  sb_nfreed : nfreed h' = nfreed h; sb_nkept : nkept h' = nkept h }.

Lemma sb_refl : forall h, same_but_mem h h.
Proof. intros; constructor; reflexivity. Qed.

Lemma sb_trans : forall a b c, same_but_mem a b -> same_but_mem b c -> same_but_mem a c.
Proof. intros a b c [] []; constructor; congruence. Qed.

Lemma sb_in_use : forall h h', same_but_mem h h' -> in_use h' = in_use h.
Proof. intros h h' []. unfold in_use. congruence. Qed.

Lemma is_obj_ext : forall h h' x, in_use h' = in_use h -> nalloc h' = nalloc h ->
  (forall y, is_obj h y -> c_hdr (mem h' y) = c_hdr (mem h y)) -> is_obj h x -> is_obj h' x.
Proof.
  intros h h' x U N Hm [p [l [Hp [Hl Hx]]]]. exists p, l. rewrite U. repeat split; try assumption.
  unfold pobjs in *. rewrite N. eapply chain_ext; [ exact Hl | ]. intros y Hy. apply Hm. exists p, l. auto.
Qed.

Lemma core_mem : forall T Lp F M (Pd Pd' : Z -> Prop) h h',
  core T Lp F M Pd h -> same_but_mem h h' ->
  (forall x, Pd' x -> Pd x) -> (forall v, is_obj h0 v -> col v -> Pd v -> Pd' v) ->
  (forall x, heap_id x -> In (page_of x) (in_use h) -> mem h' x = mem h x) ->
  (forall v, is_obj h0 v -> col v -> mem h' v = mem h v) ->
  (forall x, Pd' x -> mem h' x = mem h x) ->
  (forall o, huge_id o -> col (bref h0 o) \/ Pd' (bref h0 o) -> mem h' o = mem h o) ->
  core T Lp F M Pd' h'.
Proof.
  intros T Lp F M Pd Pd' h h' K SB P1 P2 M1 M2 M3 M4.
  pose proof (sb_in_use _ _ SB) as U. destruct SB as [S1 S2 S3 S4 S5 S6 S7 S8 S9 S10 S11].
  assert (MO : forall x, is_obj h x -> mem h' x = mem h x).
  { intros x Hx. destruct (core_obj _ _ _ _ _ _ _ K Hx) as [A [B _]]. auto. }
  assert (IO : forall x, is_obj h x -> is_obj h' x).
  { intros x. apply is_obj_ext; [ assumption | assumption | ]. intros y Hy. rewrite MO by assumption. reflexivity. }
  constructor.
  - rewrite U, S6, S7. apply (k_nodup _ _ _ _ _ _ K).
  - rewrite U, S6, S7. apply (k_pos _ _ _ _ _ _ K).
  - intros p Hp. rewrite S2, S3. apply (k_T _ _ _ _ _ _ K). assumption.
  - apply (k_F _ _ _ _ _ _ K).
  - intros p Hp. rewrite U in Hp. rewrite S2. destruct (k_pages _ _ _ _ _ _ K p Hp) as [A [l [Hl Hc]]].
    split; [ assumption | ]. exists l.
    assert (Hlo : forall x, In x l -> is_obj h x) by (intros x Hx; exists p, l; auto).
    split.
    + unfold pobjs. rewrite S2. eapply chain_ext; [ exact Hl | ]. intros x Hx. rewrite MO by auto. reflexivity.
    + intros x Hx. unfold cls, body. rewrite MO by auto. apply Hc. assumption.
  - intros x Hx. rewrite M3 by assumption. apply (k_pd _ _ _ _ _ _ K). auto.
  - intros v w Hv. destruct (k_moved _ _ _ _ _ _ K v w Hv) as [A1 [A2 [A3 [A4 [A5 [A6 [A7 A8]]]]]]].
    rewrite S2, M2, MO by assumption. repeat split; auto.
  - apply (k_inj _ _ _ _ _ _ K).
  - intros v Hv Cv. destruct (k_all _ _ _ _ _ _ K v Hv Cv) as [A | [A | [A B]]]; auto.
    right. right. rewrite MO by assumption. auto.
  - intros p Hp. rewrite S2. rewrite S6 in Hp. apply (k_free _ _ _ _ _ _ K). assumption.
  - rewrite S1. apply (k_bref _ _ _ _ _ _ K).
  - intros o Ho Hc. rewrite M4 by assumption. apply (k_huge _ _ _ _ _ _ K); [ assumption | ].
    destruct Hc; auto.
  - rewrite S9, S2, S5. apply (k_usz _ _ _ _ _ _ K).
Qed.

Lemma in_use_obj_neq : forall T Lp F M Pd h h1 n q na w x, core T Lp F M Pd h -> 0 < n ->
  allocated h h1 n q na w -> is_obj h x -> x <> w.
Proof.
  intros T Lp F M Pd h h1 n q na w x K Hn A Hx E.
  destruct (core_obj _ _ _ _ _ _ _ K Hx) as [_ [B [k [C D]]]].
  pose proof (al_w _ _ _ _ _ _ A) as W. destruct (al_fit _ _ _ _ _ _ A) as [F1 F2].
  assert (P : page_of x = q) by (rewrite E, W; apply slot_id_page; lia).
  rewrite P in *. pose proof (k_nodup _ _ _ _ _ _ K) as ND.
  destruct (al_where _ _ _ _ _ _ A) as [[G1 [G2 _]] | [[G1 [G2 [G3 _]]] | [G1 [G2 [_ [_ G3]]]]]].
  - unfold slot_id in *. lia.
  - eapply nodup_app_disj; [ exact ND | exact B | ]. rewrite !in_app_iff, G3. cbn [In]. tauto.
  - eapply nodup_app_disj; [ exact ND | exact B | ]. rewrite !in_app_iff, G3. cbn [In]. tauto.
Qed.

Lemma alloc_perm : forall h h1 n q na w T, allocated h h1 n q na w ->
  Permutation (in_use h1 ++ T ++ free h1 ++ resv h1) (in_use h ++ T ++ free h ++ resv h).
Proof.
  intros h h1 n q na w T A.
  destruct (al_where _ _ _ _ _ _ A) as [[_ [_ [G2 [G3 G4]]]] | [[_ [G2 [G3 G4]]] | [_ [G2 [G3 [G4 G5]]]]]].
  - rewrite G3, G4. apply Permutation_app_tail. assumption.
  - rewrite G2, G3, G4. cbn [app]. rewrite !(app_assoc (in_use h) T). apply Permutation_middle.
  - rewrite G2, G3, G4, G5. cbn [app]. rewrite !(app_assoc (in_use h) T). apply Permutation_middle.
Qed.

Lemma alloc_in_use : forall h h1 n q na w p, allocated h h1 n q na w ->
  In p (in_use h1) -> In p (in_use h) \/ p = q.
Proof.
  intros h h1 n q na w p A H.
  destruct (al_where _ _ _ _ _ _ A) as [[_ [_ [G2 _]]] | [[_ [G2 _]] | [_ [G2 _]]]];
    apply (Permutation_in p G2) in H; [ tauto | destruct H; auto | destruct H; auto ].
Qed.

Lemma alloc_in_use_old : forall h h1 n q na w p, allocated h h1 n q na w ->
  In p (in_use h) -> In p (in_use h1).
Proof.
  intros h h1 n q na w p A H.
  destruct (al_where _ _ _ _ _ _ A) as [[_ [_ [G2 _]]] | [[_ [G2 _]] | [_ [G2 _]]]];
    (apply (Permutation_in p (Permutation_sym G2)); [ tauto || (right; assumption) ]) ||
    (apply (Permutation_in p (Permutation_sym G2)); right; assumption).
Qed.

(* An object was evacuated. *)
Lemma core_move : forall T Lp F M (Pd : Z -> Prop) h a s h1 q na w,
  core T Lp F M Pd h -> Pd a -> col a -> In (page_of a) Lp -> nalloc h (page_of a) <> 0 ->
  c_hdr (mem h0 a) = HSize s -> 0 < s <= 4032 -> s mod 32 = 0 ->
  allocated h h1 (s / 32) q na w ->
  let m1 := fupd (mem h1) w (mem h1 a) in
  core T Lp F ((a, w) :: M) (fun x => Pd x /\ x <> a)
       (set_mem h1 (fupd m1 a (mkcell (HFwd w) (c_obj (m1 a))))).
Proof.
  intros T Lp F M Pd h a s h1 q na w K Pa Ca La Na Hs Hs1 Hs2 A. cbv zeta.
  assert (Hn : 0 < s / 32 <= 126 /\ s = 32 * (s / 32)) by (clear - Hs1 Hs2; Z.div_mod_to_equations; lia).
  set (n := s / 32) in *. clearbody n. destruct Hn as [Hn En].
  destruct (k_pd _ _ _ _ _ _ K a Pa) as [Oa [Pga Ma]].
  destruct (al_same _ _ _ _ _ _ A) as [X1 X2 X3 X4 X5 X6 X7].
  pose proof (al_w _ _ _ _ _ _ A) as W. destruct (al_fit _ _ _ _ _ _ A) as [F1 F2].
  pose proof (al_in _ _ _ _ _ _ A) as Qin.
  assert (PERM : Permutation (in_use h1 ++ T ++ Lp ++ F ++ free h1 ++ resv h1) (in_use h ++ T ++ Lp ++ F ++ free h ++ resv h)).
  { pose proof (alloc_perm _ _ _ _ _ _ (T ++ Lp ++ F) A) as P. rewrite <- !app_assoc in P. exact P. }
  assert (ND1 : NoDup (in_use h1 ++ T ++ Lp ++ F ++ free h1 ++ resv h1)).
  { eapply Permutation_NoDup; [ symmetry; exact PERM | apply (k_nodup _ _ _ _ _ _ K) ]. }
  assert (POS1 : forall p, In p (in_use h1 ++ T ++ Lp ++ F ++ free h1 ++ resv h1) -> 0 <= p).
  { intros p Hp. apply (k_pos _ _ _ _ _ _ K). eapply Permutation_in; [ exact PERM | exact Hp ]. }
  assert (Q0 : 0 <= q) by (apply POS1; apply in_or_app; left; assumption).
  assert (Hw : heap_id w) by (rewrite W; apply slot_id_heap; lia).
  assert (Pw : page_of w = q) by (rewrite W; apply slot_id_page; lia).
  assert (Qout : forall p, In p (T ++ Lp ++ F ++ free h1 ++ resv h1) -> p <> q).
  { intros p Hp ->. eapply nodup_app_disj; [ exact ND1 | exact Qin | exact Hp ]. }
  assert (Wne : forall x, In (page_of x) (T ++ Lp ++ F) -> x <> w).
  { intros x Hx ->. rewrite Pw in Hx. apply (Qout q); [ | reflexivity ].
    rewrite !in_app_iff in *. tauto. }
  assert (Wa : a <> w) by (apply Wne; rewrite !in_app_iff; tauto).
  assert (E1 : fupd (mem h1) w (mem h1 a) a = mem h0 a) by (rewrite fupd_other by assumption; rewrite X1; assumption).
  rewrite E1. rewrite X1. rewrite Ma. clear E1.
  set (m' := fupd (fupd (mem h) w (mem h0 a)) a (mkcell (HFwd w) (c_obj (mem h0 a)))).
  assert (Mw : m' w = mem h0 a) by (unfold m'; rewrite fupd_other by congruence; apply fupd_same).
  assert (Mo : forall x, x <> a -> x <> w -> m' x = mem h x).
  { intros x Hx1 Hx2. unfold m'. rewrite !fupd_other by assumption. reflexivity. }
  assert (MoA : m' a = mkcell (HFwd w) (c_obj (mem h0 a))) by (apply fupd_same).
  assert (Obn : forall x, is_obj h x -> x <> a /\ x <> w).
  { intros x Hx. split; [ | eapply in_use_obj_neq; try eassumption; lia ].
    intros ->. destruct (core_obj _ _ _ _ _ _ _ K Hx) as [_ [B _]].
    eapply nodup_app_disj; [ apply (k_nodup _ _ _ _ _ _ K) | exact B | rewrite !in_app_iff; tauto ]. }
  assert (MO : forall x, is_obj h x -> m' x = mem h x).
  { intros x Hx. destruct (Obn x Hx). apply Mo; assumption. }
  set (h' := set_mem h1 m').
  assert (N' : forall p, p <> q -> nalloc h' p = nalloc h p) by (apply (al_other _ _ _ _ _ _ A)).
  assert (Nq : nalloc h' q = na + n) by (apply (al_nalloc _ _ _ _ _ _ A)).
  (* the page of the copy *)
  assert (PQ : exists l, pobjs h' q (l ++ [w]) /\ forall x, In x l -> is_obj h x).
  { assert (L1 : exists l, chain (mem h) (slot_id q 0) (slot_id q na) l /\ forall x, In x l -> is_obj h x).
    { destruct (al_where _ _ _ _ _ _ A) as [[G1 [G2 _]] | [[G1 _] | [G1 _]]].
      - destruct (k_pages _ _ _ _ _ _ K q G1) as [_ [l [Hl _]]]. exists l. split.
        + rewrite G2. exact Hl.
        + intros x Hx. exists q, l. auto.
      - exists []. split; [ rewrite G1; reflexivity | intros x [] ].
      - exists []. split; [ rewrite G1; reflexivity | intros x [] ]. }
    destruct L1 as [l [Hl Hlo]]. exists l. split; [ | exact Hlo ].
    unfold pobjs. rewrite Nq. apply chain_app with (b := slot_id q na).
    - eapply chain_ext; [ exact Hl | ]. intros x Hx. cbn [h' set_mem mem]. rewrite MO by auto. reflexivity.
    - cbn [chain]. split; [ exact W | ]. exists s. change (mem h') with m'. rewrite Mw.
      repeat split; try assumption; try lia. rewrite En. symmetry. apply slot_id_add. }
  destruct PQ as [lq [PQ1 PQ2]].
  assert (IO : forall x, is_obj h x -> is_obj h' x).
  { intros x [p [l [Hp [Hl Hx]]]].
    destruct (Z.eq_dec p q) as [-> | D].
    - exists q, (lq ++ [w]). split; [ exact Qin | ]. split; [ exact PQ1 | ].
      assert (Hlo : forall y, In y l -> is_obj h y) by (intros y Hy; exists q, l; auto).
      destruct (al_where _ _ _ _ _ _ A) as [[G1 [G2 _]] | [[G1 [G2 [G3 _]]] | [G1 [G2 [G3 [G4 G5]]]]]].
      + unfold pobjs in PQ1. rewrite Nq in PQ1. apply chain_split in PQ1. destruct PQ1 as [b [C1 C2]].
        cbn [chain] in C2. destruct C2 as [Eb _]. subst b. rewrite W in C1.
        assert (C3 : chain (mem h') (slot_id q 0) (slot_id q na) l).
        { rewrite G2. eapply chain_ext; [ exact Hl | ]. intros y Hy. change (mem h') with m'. rewrite MO by auto. reflexivity. }
        rewrite (chain_fun _ _ _ _ _ C1 C3). apply in_or_app. left. assumption.
      + exfalso. eapply nodup_app_disj; [ apply (k_nodup _ _ _ _ _ _ K) | exact Hp | ]. rewrite !in_app_iff, G3. cbn [In]. tauto.
      + exfalso. eapply nodup_app_disj; [ apply (k_nodup _ _ _ _ _ _ K) | exact Hp | ]. rewrite !in_app_iff, G5. cbn [In]. tauto.
    - exists p, l. split; [ exact (alloc_in_use_old _ _ _ _ _ _ p A Hp) | ]. split; [ | assumption ].
      unfold pobjs. rewrite N' by assumption. eapply chain_ext; [ exact Hl | ].
      intros y Hy. change (mem h') with m'. rewrite MO; [ reflexivity | exists p, l; auto ]. }
  assert (Iw : is_obj h' w).
  { exists q, (lq ++ [w]). split; [ exact Qin | ]. split; [ exact PQ1 | ]. apply in_or_app. right. left. reflexivity. }
  assert (CL : forall x, is_obj h x -> cls ((a, w) :: M) h' x).
  { intros x Ox. destruct Ox as [p [l [Hp [Hl Hx]]]].
    assert (Ox : is_obj h x) by (exists p, l; auto).
    destruct (k_pages _ _ _ _ _ _ K p Hp) as [_ [l2 [Hl2 Hc]]].
    rewrite (chain_fun _ _ _ _ _ Hl Hl2) in Hx. specialize (Hc x Hx).
    unfold cls, body in *. change (mem h') with m'. rewrite MO by assumption.
    destruct Hc as [[v Hv] | Hc]; [ left; exists v; right; assumption | right; assumption ]. }
  assert (Nw : ~ (is_obj h0 w /\ col w)).
  { intros [O C]. destruct (k_all _ _ _ _ _ _ K w O C) as [B | [[x B] | [B _]]].
    - destruct (k_pd _ _ _ _ _ _ K w B) as [_ [B1 _]]. apply (Wne w); [ | reflexivity ].
      rewrite !in_app_iff in *. tauto.
    - destruct (k_moved _ _ _ _ _ _ K w x B) as [_ [_ [_ [_ [B1 _]]]]]. apply (Wne w); [ | reflexivity ].
      rewrite !in_app_iff in *. tauto.
    - destruct (Obn w B) as [_ Z0]. congruence. }
  constructor.
  - exact ND1.
  - exact POS1.
  - intros p Hp. assert (p <> q) by (apply Qout; rewrite !in_app_iff; tauto).
    rewrite N' by assumption. change (pflags h' p) with (pflags h1 p). rewrite X4. apply (k_T _ _ _ _ _ _ K). assumption.
  - apply (k_F _ _ _ _ _ _ K).
  - intros p Hp. change (In p (in_use h1)) in Hp. destruct (Z.eq_dec p q) as [-> | D].
    + rewrite Nq. split; [ lia | ]. exists (lq ++ [w]). split; [ exact PQ1 | ].
      intros x Hx. apply in_app_or in Hx. destruct Hx as [Hx | [<- | []]]; [ apply CL; auto | ].
      left. exists a. left. reflexivity.
    + destruct (alloc_in_use _ _ _ _ _ _ p A Hp) as [Hp' | ->]; [ | congruence ].
      rewrite N' by assumption. destruct (k_pages _ _ _ _ _ _ K p Hp') as [R [l [Hl _]]].
      split; [ assumption | ]. exists l. split.
      * unfold pobjs. rewrite N' by assumption. eapply chain_ext; [ exact Hl | ].
        intros y Hy. change (mem h') with m'. rewrite MO; [ reflexivity | exists p, l; auto ].
      * intros x Hx. apply CL. exists p, l. auto.
  - intros x [Hx Hxa]. destruct (k_pd _ _ _ _ _ _ K x Hx) as [B1 [B2 B3]]. repeat split; try assumption.
    change (mem h') with m'. rewrite Mo; [ assumption | assumption | ]. apply Wne. rewrite !in_app_iff in *. tauto.
  - intros v x [E | Hv].
    + injection E as <- <-. change (mem h') with m'. rewrite N' by (apply Qout; rewrite !in_app_iff; tauto).
      repeat split; try assumption. rewrite in_app_iff. tauto.
    + destruct (k_moved _ _ _ _ _ _ K v x Hv) as [A1 [A2 [A3 [A4 [A5 [A6 [A7 A8]]]]]]].
      assert (v <> a) by (intros ->; rewrite Ma in A3; rewrite A3 in Hs; discriminate Hs).
      change (mem h') with m'. rewrite Mo by (assumption || (apply Wne; rewrite !in_app_iff in *; tauto)).
      rewrite (MO x A7). rewrite N' by (apply Qout; rewrite !in_app_iff in *; tauto).
      repeat split; auto.
  - destruct (k_inj _ _ _ _ _ _ K) as [I1 I2]. cbn [map fst snd]. split; constructor; try assumption.
    + intros C. apply in_map_iff in C. destruct C as [[v x] [E Hv]]. cbn [fst] in E. subst v.
      destruct (k_moved _ _ _ _ _ _ K a x Hv) as [_ [_ [A3 _]]]. rewrite Ma in A3. rewrite A3 in Hs. discriminate Hs.
    + intros C. apply in_map_iff in C. destruct C as [[v x] [E Hv]]. cbn [snd] in E. subst x.
      destruct (k_moved _ _ _ _ _ _ K v w Hv) as [_ [_ [_ [_ [_ [_ [A7 _]]]]]]]. destruct (Obn w A7). congruence.
  - intros v Hv Cv. destruct (Z.eq_dec v a) as [-> | D]; [ right; left; exists w; left; reflexivity | ].
    destruct (k_all _ _ _ _ _ _ K v Hv Cv) as [B | [[x B] | [B1 B2]]].
    + left. auto.
    + right. left. exists x. right. assumption.
    + right. right. change (mem h') with m'. rewrite MO by assumption. auto.
  - intros p Hp. change (In p (free h1)) in Hp. assert (p <> q) by (apply Qout; rewrite !in_app_iff; tauto).
    rewrite N' by assumption. apply (k_free _ _ _ _ _ _ K).
    destruct (al_where _ _ _ _ _ _ A) as [[_ [_ [_ [G _]]]] | [[_ [_ [G _]]] | [_ [_ [_ [G _]]]]]].
    + rewrite <- G. assumption.
    + rewrite G. right. assumption.
    + rewrite G in Hp. destruct Hp.
  - change (bref h1 = bref h0). rewrite X2. apply (k_bref _ _ _ _ _ _ K).
  - intros o Ho Hc. change (mem h') with m'.
    destruct (obj0 a Oa) as [la [Ha _]].
    assert (o <> a /\ o <> w) as [O1 O2] by (split; intros ->; [ exact (heap_not_huge _ Ha Ho) | exact (heap_not_huge _ Hw Ho) ]).
    rewrite Mo by assumption.
    apply (k_huge _ _ _ _ _ _ K); [ assumption | ]. destruct Hc as [Hc | [Hc _]]; auto.
  - change (usz h1 = psum (nalloc h1) (used h1) + psum (nalloc h1) T).
    pose proof (al_usz _ _ _ _ _ _ A). pose proof (k_usz _ _ _ _ _ _ K).
    rewrite (psum_ext (nalloc h) (nalloc h1) T); [ lia | ].
    intros p Hp. apply N'. apply Qout. rewrite !in_app_iff. tauto.
Qed.

(* ------------------------------------------------------ page lists *)

(* The same objects, the pages arranged differently. *)
Lemma core_arrange : forall T Lp F M (Pd : Z -> Prop) h h',
  core T Lp F M Pd h -> same_objs h h' -> nalloc h' = nalloc h -> free h' = free h -> resv h' = resv h ->
  Permutation (in_use h') (in_use h) ->
  usz h' - psum (nalloc h') (used h') = usz h - psum (nalloc h) (used h) ->
  core T Lp F M Pd h'.
Proof.
  intros T Lp F M Pd h h' K [S1 S2 S3 S4 S5 S6 S7] N Fr Rs PI U.
  assert (IO : forall x, is_obj h x -> is_obj h' x).
  { intros x [p [l [Hp [Hl Hx]]]]. exists p, l. split; [ eapply Permutation_in; [ symmetry; exact PI | exact Hp ] | ].
    split; [ | assumption ]. unfold pobjs in *. rewrite S1, N. assumption. }
  assert (PERM : Permutation (in_use h' ++ T ++ Lp ++ F ++ free h' ++ resv h') (in_use h ++ T ++ Lp ++ F ++ free h ++ resv h)).
  { rewrite Fr, Rs. apply Permutation_app_tail. assumption. }
  constructor.
  - eapply Permutation_NoDup; [ symmetry; exact PERM | apply (k_nodup _ _ _ _ _ _ K) ].
  - intros p Hp. apply (k_pos _ _ _ _ _ _ K). eapply Permutation_in; [ exact PERM | exact Hp ].
  - intros p Hp. rewrite N, S4. apply (k_T _ _ _ _ _ _ K). assumption.
  - apply (k_F _ _ _ _ _ _ K).
  - intros p Hp. apply (Permutation_in p PI) in Hp. rewrite N.
    destruct (k_pages _ _ _ _ _ _ K p Hp) as [R [l [Hl Hc]]]. split; [ assumption | ]. exists l.
    split; [ unfold pobjs in *; rewrite S1, N; assumption | ].
    intros x Hx. unfold cls, body. rewrite S1. apply Hc. assumption.
  - intros x Hx. rewrite S1. apply (k_pd _ _ _ _ _ _ K). assumption.
  - intros v w Hv. rewrite S1, N. destruct (k_moved _ _ _ _ _ _ K v w Hv) as [A1 [A2 [A3 [A4 [A5 [A6 [A7 A8]]]]]]].
    repeat split; auto.
  - apply (k_inj _ _ _ _ _ _ K).
  - intros v Hv Cv. rewrite S1. destruct (k_all _ _ _ _ _ _ K v Hv Cv) as [B | [B | [B1 B2]]]; auto.
  - intros p Hp. rewrite N. rewrite Fr in Hp. apply (k_free _ _ _ _ _ _ K). assumption.
  - rewrite S2. apply (k_bref _ _ _ _ _ _ K).
  - intros o. rewrite S1. apply (k_huge _ _ _ _ _ _ K).
  - pose proof (k_usz _ _ _ _ _ _ K). rewrite N in *. lia.
Qed.

Lemma core_release : forall T Lp F M (Pd : Z -> Prop) h,
  core T Lp F M Pd h -> core T Lp F M Pd (release_cur h).
Proof.
  intros T Lp F M Pd h K. destruct (release_cur_spec h) as [A [[B1 [B2 B3]] [C [D G]]]].
  eapply core_arrange; try eassumption. apply release_cur_in_use.
Qed.

Lemma filter_perm : forall (f : Z -> bool) l,
  Permutation (filter f l ++ filter (fun x => negb (f x)) l) l.
Proof.
  induction l as [|x l IH]; [ reflexivity | ]. cbn [filter]. destruct (f x); cbn [negb app].
  - apply perm_skip. assumption.
  - rewrite <- Permutation_middle. apply perm_skip. assumption.
Qed.

(* Evacuated pages without copied objects can be used at once. *)
Lemma core_unlock : forall T Lp F M (Pd : Z -> Prop) h h' keep any,
  core T Lp F M Pd h -> unlock_pages h F = (h', keep, any) ->
  core T Lp keep M Pd h' /\ incl keep F /\ color h' = color h /\ fins h' = fins h /\ cur h' = cur h /\
  (forall p, In p (T ++ Lp) -> nalloc h' p = nalloc h p) /\ pflags h' = pflags h.
Proof.
  intros T Lp F M Pd h h' keep any K H. unfold unlock_pages in H.
  set (rec := filter (fun p => nalloc h p =? 0) F) in *.
  set (kp := filter (fun p => negb (nalloc h p =? 0)) F) in *.
  assert (h' = reclaim_free_pages h rec /\ keep = kp) as [-> ->] by (split; congruence). clear H any.
  assert (HK : incl kp F) by (intros p Hp; unfold kp in Hp; apply filter_In in Hp; apply Hp).
  assert (PF : Permutation (rec ++ kp) F) by apply filter_perm.
  assert (RZ : forall p, In p rec -> In p F /\ nalloc h p = 0).
  { intros p Hp. unfold rec in Hp. apply filter_In in Hp. split; [ apply Hp | lia ]. }
  assert (KN : forall p, existsb (Z.eqb p) rec = true -> In p rec).
  { intros p Hp. apply existsb_exists in Hp. destruct Hp as [x [Hx E]]. apply Z.eqb_eq in E. subst. assumption. }
  assert (NN : forall p, nalloc (reclaim_free_pages h rec) p = nalloc h p).
  { intros p. cbn [reclaim_free_pages set_nfreed set_nalloc set_free nalloc].
    destruct (existsb (Z.eqb p) rec) eqn:E; [ | reflexivity ]. apply KN in E. apply RZ in E. lia. }
  set (h' := reclaim_free_pages h rec) in *.
  assert (IU : in_use h' = in_use h) by reflexivity.
  assert (IO : forall x, is_obj h x <-> is_obj h' x).
  { intros x; split; intros [p [l [Hp [Hl Hx]]]]; exists p, l; split; try exact Hp; split; try exact Hx; unfold pobjs in *;
      [ rewrite NN | rewrite <- NN ]; exact Hl. }
  split.
  2:{ split; [ exact HK | ]. split; [ reflexivity | ]. split; [ reflexivity | ]. split; [ reflexivity | ].
      split; [ intros; apply NN | reflexivity ]. }
  assert (PERM : Permutation (in_use h' ++ T ++ Lp ++ kp ++ free h' ++ resv h') (in_use h ++ T ++ Lp ++ F ++ free h ++ resv h)).
  { rewrite IU. do 3 apply Permutation_app_head. change (free h') with (rec ++ free h). change (resv h') with (resv h).
    rewrite <- PF. rewrite <- !app_assoc. rewrite (app_assoc kp), (Permutation_app_comm kp rec), <- app_assoc. reflexivity. }
  constructor.
  - eapply Permutation_NoDup; [ symmetry; exact PERM | apply (k_nodup _ _ _ _ _ _ K) ].
  - intros p Hp. apply (k_pos _ _ _ _ _ _ K). eapply Permutation_in; [ exact PERM | exact Hp ].
  - intros p Hp. rewrite NN. apply (k_T _ _ _ _ _ _ K). assumption.
  - intros p Hp. apply (k_F _ _ _ _ _ _ K). rewrite in_app_iff in *. destruct Hp; auto.
  - intros p Hp. rewrite NN. destruct (k_pages _ _ _ _ _ _ K p Hp) as [R [l [Hl Hc]]]. split; [ assumption | ].
    exists l. split; [ unfold pobjs; rewrite NN; exact Hl | exact Hc ].
  - apply (k_pd _ _ _ _ _ _ K).
  - intros v w Hv. destruct (k_moved _ _ _ _ _ _ K v w Hv) as [A1 [A2 [A3 [A4 [A5 [A6 [A7 A8]]]]]]].
    rewrite NN. split; [ assumption | ]. split; [ assumption | ]. split; [ assumption | ]. split; [ assumption | ].
    split; [ | split; [ assumption | split; [ apply IO; assumption | assumption ] ] ].
    rewrite in_app_iff in *. destruct A5 as [A5 | A5]; [ auto | right ]. unfold kp. apply filter_In. split; [ assumption | lia ].
  - apply (k_inj _ _ _ _ _ _ K).
  - intros v Hv Cv. destruct (k_all _ _ _ _ _ _ K v Hv Cv) as [B | [B | [B1 B2]]]; auto.
    right. right. split; [ apply IO; assumption | assumption ].
  - intros p Hp. rewrite NN. change (In p (rec ++ free h)) in Hp. apply in_app_or in Hp.
    destruct Hp as [Hp | Hp]; [ apply RZ; assumption | apply (k_free _ _ _ _ _ _ K); assumption ].
  - apply (k_bref _ _ _ _ _ _ K).
  - apply (k_huge _ _ _ _ _ _ K).
  - change (usz h' = psum (nalloc h') (used h) + psum (nalloc h') T).
    rewrite !(psum_ext (nalloc h) (nalloc h')) by (intros; apply NN). apply (k_usz _ _ _ _ _ _ K).
Qed.

(* The next page is taken for evacuation. *)
Lemma core_start : forall P T F M (Pd : Z -> Prop) h,
  core (P :: T) [] F M Pd h -> pflags h0 P <> 1 ->
  core T [P] F M Pd (set_usz h (usz h - used_page_size h P)).
Proof.
  intros P T F M Pd h K NF.
  assert (PERM : Permutation (in_use h ++ T ++ [P] ++ F ++ free h ++ resv h) (in_use h ++ (P :: T) ++ [] ++ F ++ free h ++ resv h)).
  { apply Permutation_app_head. cbn [app]. symmetry. apply Permutation_middle. }
  constructor.
  - eapply Permutation_NoDup; [ symmetry; exact PERM | apply (k_nodup _ _ _ _ _ _ K) ].
  - intros p Hp. apply (k_pos _ _ _ _ _ _ K). eapply Permutation_in; [ exact PERM | exact Hp ].
  - intros p Hp. apply (k_T _ _ _ _ _ _ K). right. assumption.
  - intros p [<- | Hp]; [ split; [ apply (k_T _ _ _ _ _ _ K); left; reflexivity | assumption ] | ].
    apply (k_F _ _ _ _ _ _ K). assumption.
  - apply (k_pages _ _ _ _ _ _ K).
  - intros x Hx. destruct (k_pd _ _ _ _ _ _ K x Hx) as [A [B C]]. repeat split; try assumption.
    rewrite in_app_iff in *. cbn [In] in *. tauto.
  - intros v w Hv. destruct (k_moved _ _ _ _ _ _ K v w Hv) as [A1 [A2 [A3 [A4 [A5 A6]]]]].
    split; [ assumption | ]. split; [ assumption | ]. split; [ assumption | ]. split; [ assumption | ].
    split; [ right; exact A5 | exact A6 ].
  - apply (k_inj _ _ _ _ _ _ K).
  - apply (k_all _ _ _ _ _ _ K).
  - apply (k_free _ _ _ _ _ _ K).
  - apply (k_bref _ _ _ _ _ _ K).
  - apply (k_huge _ _ _ _ _ _ K).
  - pose proof (k_usz _ _ _ _ _ _ K) as U. rewrite psum_cons in U.
    cbn [set_usz usz nalloc used]. unfold used_page_size, SLOTS_OFFS. lia.
Qed.

(* All objects of a page were evacuated. *)
Lemma core_finish : forall P T F M (Pd : Z -> Prop) h h',
  core T [P] F M Pd h -> (forall x, Pd x -> In (page_of x) T) ->
  (h' = h \/ ((forall v w, In (v, w) M -> page_of v <> P) /\ h' = set_nalloc h (fupd (nalloc h) P 0))) ->
  core T [] (F ++ [P]) M Pd h'.
Proof.
  intros P T F M Pd h h' K PT H.
  assert (PERM : Permutation (in_use h ++ T ++ [] ++ (F ++ [P]) ++ free h ++ resv h) (in_use h ++ T ++ [P] ++ F ++ free h ++ resv h)).
  { do 2 apply Permutation_app_head. cbn [app]. rewrite <- app_assoc. cbn [app]. symmetry. apply Permutation_middle. }
  assert (Out : forall p, In p (in_use h ++ T ++ F ++ free h ++ resv h) -> p <> P).
  { intros p Hp ->. pose proof (k_nodup _ _ _ _ _ _ K) as ND.
    assert (ND' : NoDup (P :: in_use h ++ T ++ F ++ free h ++ resv h)).
    { eapply Permutation_NoDup; [ | exact ND ]. rewrite !app_assoc. rewrite <- !app_assoc.
      rewrite (app_assoc (in_use h) T). rewrite (app_assoc (in_use h) T). symmetry. apply Permutation_middle. }
    inversion ND'; contradiction. }
  assert (NE : forall p, p <> P -> nalloc h' p = nalloc h p).
  { intros p Hp. destruct H as [-> | [_ ->]]; [ reflexivity | ]. apply fupd_other. assumption. }
  assert (EQ : mem h' = mem h /\ bref h' = bref h /\ pflags h' = pflags h /\ used h' = used h /\ free h' = free h /\
               resv h' = resv h /\ cur h' = cur h /\ usz h' = usz h).
  { destruct H as [-> | [_ ->]]; repeat split. }
  destruct EQ as [Q1 [Q2 [Q3 [Q4 [Q5 [Q6 [Q7 Q8]]]]]]].
  assert (IU : in_use h' = in_use h) by (unfold in_use; congruence).
  assert (IO : forall x, is_obj h x -> is_obj h' x).
  { intros x [p [l [Hp [Hl Hx]]]]. exists p, l. rewrite IU. split; [ assumption | ]. split; [ | assumption ].
    unfold pobjs in *. rewrite Q1, NE; [ assumption | ]. apply Out. apply in_or_app. left. assumption. }
  constructor.
  - rewrite IU, Q5, Q6. eapply Permutation_NoDup; [ symmetry; exact PERM | apply (k_nodup _ _ _ _ _ _ K) ].
  - rewrite IU, Q5, Q6. intros p Hp. apply (k_pos _ _ _ _ _ _ K). eapply Permutation_in; [ exact PERM | exact Hp ].
  - intros p Hp. rewrite NE by (apply Out; rewrite !in_app_iff; tauto). rewrite Q3. apply (k_T _ _ _ _ _ _ K). assumption.
  - intros p Hp. apply (k_F _ _ _ _ _ _ K). rewrite !in_app_iff in *. cbn [In] in *. tauto.
  - intros p Hp. rewrite IU in Hp. assert (p <> P) by (apply Out; rewrite !in_app_iff; tauto).
    rewrite NE by assumption. destruct (k_pages _ _ _ _ _ _ K p Hp) as [R [l [Hl Hc]]]. split; [ assumption | ].
    exists l. split; [ unfold pobjs in *; rewrite Q1, NE by assumption; exact Hl | ].
    intros x Hx. unfold cls, body. rewrite Q1. apply Hc. assumption.
  - intros x Hx. rewrite Q1. destruct (k_pd _ _ _ _ _ _ K x Hx) as [A [B C]]. repeat split; try assumption.
    rewrite app_nil_r. apply PT. assumption.
  - intros v w Hv. destruct (k_moved _ _ _ _ _ _ K v w Hv) as [A1 [A2 [A3 [A4 [A5 [A6 [A7 A8]]]]]]].
    rewrite Q1. split; [ assumption | ]. split; [ assumption | ]. split; [ assumption | ]. split; [ assumption | ].
    split; [ rewrite !in_app_iff in *; cbn [In] in *; tauto | ].
    split; [ | split; [ apply IO; assumption | assumption ] ].
    destruct H as [-> | [H ->]]; [ assumption | ]. cbn [set_nalloc nalloc]. rewrite fupd_other by (eapply H; eassumption). assumption.
  - apply (k_inj _ _ _ _ _ _ K).
  - intros v Hv Cv. rewrite Q1. destruct (k_all _ _ _ _ _ _ K v Hv Cv) as [B | [B | [B1 B2]]]; auto.
  - intros p Hp. rewrite Q5 in Hp. rewrite NE by (apply Out; rewrite !in_app_iff; tauto).
    apply (k_free _ _ _ _ _ _ K). assumption.
  - rewrite Q2. apply (k_bref _ _ _ _ _ _ K).
  - intros o. rewrite Q1. apply (k_huge _ _ _ _ _ _ K).
  - rewrite Q8, Q4. pose proof (k_usz _ _ _ _ _ _ K) as U.
    rewrite !(psum_ext (nalloc h) (nalloc h')); [ exact U | | ]; intros p Hp; apply NE, Out; unfold in_use; rewrite !in_app_iff; tauto.
Qed.

(* A page goes back to the used ones with its live objects; the others are
   opaque. *)
Lemma core_keep : forall P T Lp T' Lp' F M (Pd Pd' : Z -> Prop) h h' l,
  core T Lp F M Pd h -> Permutation (T ++ Lp) (P :: T' ++ Lp') -> incl T' T -> incl Lp' Lp ->
  In P (used h0) -> nalloc h P = nalloc h0 P ->
  (forall v w, In (v, w) M -> page_of v <> P) ->
  pobjs h P l -> pobjs h0 P l ->
  (forall x, In x l -> (col x /\ mem h x = mem h0 x) \/ is_opaque (body h x)) ->
  (forall x, In x l -> col x -> mem h x = mem h0 x) ->
  (forall x, Pd' x <-> Pd x /\ page_of x <> P) ->
  mem h' = mem h -> bref h' = bref h -> nalloc h' = nalloc h ->
  (forall p, In p T' -> pflags h' p = pflags h p) ->
  free h' = free h -> resv h' = resv h ->
  Permutation (in_use h') (P :: in_use h) ->
  usz h' = psum (nalloc h) (used h') + psum (nalloc h) T' ->
  core T' Lp' F M Pd' h'.
Proof.
  intros P T Lp T' Lp' F M Pd Pd' h h' l K PT IT IL P0 NP MP Hl Hl0 Hc Hcol HPd E1 E2 E3 E4 E5 E6 PI U.
  assert (PERM : Permutation (in_use h' ++ T' ++ Lp' ++ F ++ free h' ++ resv h') (in_use h ++ T ++ Lp ++ F ++ free h ++ resv h)).
  { rewrite E5, E6. rewrite (app_assoc T' Lp'), (app_assoc T Lp), PT, PI. cbn [app]. rewrite <- Permutation_middle. reflexivity. }
  assert (IO : forall x, is_obj h x -> is_obj h' x).
  { intros x [p [l2 [Hp [Hl2 Hx]]]]. exists p, l2. split; [ | split; [ | assumption ] ].
    - eapply Permutation_in; [ symmetry; exact PI | right; assumption ].
    - unfold pobjs in *. rewrite E1, E3. assumption. }
  destruct (page0 P P0) as [P00 [PR _]].
  constructor.
  - eapply Permutation_NoDup; [ symmetry; exact PERM | apply (k_nodup _ _ _ _ _ _ K) ].
  - intros p Hp. apply (k_pos _ _ _ _ _ _ K). eapply Permutation_in; [ exact PERM | exact Hp ].
  - intros p Hp. rewrite E3, E4 by assumption. apply (k_T _ _ _ _ _ _ K). auto.
  - intros p Hp. apply (k_F _ _ _ _ _ _ K). rewrite in_app_iff in *. destruct Hp; auto.
  - intros p Hp. apply (Permutation_in p PI) in Hp. rewrite E3. destruct Hp as [<- | Hp].
    + rewrite NP. split; [ lia | ]. exists l. split; [ unfold pobjs in *; rewrite E1, E3; assumption | ].
      intros x Hx. unfold cls, body. rewrite E1. destruct (Hc x Hx) as [[A B] | A]; [ right; left | right; right; assumption ].
      split; [ | auto ]. apply (obj0_intro P l x P0 Hl0 Hx).
    + destruct (k_pages _ _ _ _ _ _ K p Hp) as [R [l2 [Hl2 Hc2]]]. split; [ assumption | ]. exists l2.
      split; [ unfold pobjs in *; rewrite E1, E3; assumption | ].
      intros x Hx. unfold cls, body. rewrite E1. apply Hc2. assumption.
  - intros x Hx. apply HPd in Hx. destruct Hx as [Hx Hp]. destruct (k_pd _ _ _ _ _ _ K x Hx) as [A [B C]].
    rewrite E1. split; [ assumption | split; [ | assumption ] ].
    apply (Permutation_in _ PT) in B. destruct B as [B | B]; [ congruence | assumption ].
  - intros v w Hv. destruct (k_moved _ _ _ _ _ _ K v w Hv) as [A1 [A2 [A3 [A4 [A5 [A6 [A7 A8]]]]]]].
    rewrite E1, E3. split; [ assumption | ]. split; [ assumption | ]. split; [ assumption | ]. split; [ assumption | ].
    split; [ | split; [ assumption | split; [ apply IO; assumption | assumption ] ] ].
    rewrite in_app_iff in *. destruct A5 as [A5 | A5]; [ left | right; assumption ].
    assert (B : In (page_of v) (T ++ Lp)) by (rewrite in_app_iff; auto).
    apply (Permutation_in _ PT) in B. destruct B as [B | B]; [ exfalso; eapply MP; [ exact Hv | congruence ] | ].
    apply in_app_or in B. destruct B as [B | B]; [ | assumption ].
    exfalso. pose proof (k_nodup _ _ _ _ _ _ K) as ND.
    apply nodup_app_r in ND. eapply nodup_app_disj; [ exact ND | apply IT; exact B | ].
    rewrite in_app_iff. left. exact A5.
  - apply (k_inj _ _ _ _ _ _ K).
  - intros v Hv Cv. rewrite E1. destruct (k_all _ _ _ _ _ _ K v Hv Cv) as [B | [B | [B1 B2]]]; auto.
    destruct (Z.eq_dec (page_of v) P) as [D | D].
    + right. right. destruct (obj0 v Hv) as [l2 [_ [_ [L1 L2]]]]. rewrite D in L1.
      rewrite <- (chain_fun _ _ _ _ _ Hl0 L1) in L2.
      split; [ | auto ]. exists P, l. split; [ eapply Permutation_in; [ symmetry; exact PI | left; reflexivity ] | ].
      split; [ unfold pobjs in *; rewrite E1, E3; assumption | assumption ].
    + left. apply HPd. auto.
  - intros p Hp. rewrite E3. rewrite E5 in Hp. apply (k_free _ _ _ _ _ _ K). assumption.
  - rewrite E2. apply (k_bref _ _ _ _ _ _ K).
  - intros o Ho Hcc. rewrite E1. apply (k_huge _ _ _ _ _ _ K); [ assumption | ].
    destruct Hcc as [Hcc | Hcc]; [ auto | right; apply HPd in Hcc; apply Hcc ].
  - rewrite E3. exact U.
Qed.

Lemma core_room : forall T Lp F M Pd h, core T Lp F M Pd h -> room h.
Proof.
  intros T Lp F M Pd h K. split; [ | split ].
  - pose proof (k_nodup _ _ _ _ _ _ K) as ND.
    eapply (nodup_app_l _ _ (T ++ Lp ++ F)).
    eapply Permutation_NoDup; [ | exact ND ]. rewrite <- !app_assoc. apply Permutation_app_head.
    rewrite (app_assoc (free h)). rewrite (Permutation_app_comm (free h ++ resv h)). rewrite <- !app_assoc. reflexivity.
  - intros p Hp. apply (k_pages _ _ _ _ _ _ K). assumption.
  - apply (k_free _ _ _ _ _ _ K).
Qed.

End Evac.
