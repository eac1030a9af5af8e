(* Evacuation: all pages, including the end when memory runs out. *)
From Coq Require Import ZArith List Lia Bool ZifyBool Permutation.
Import ListNotations.
From Verif Require Import Base ListZ GcModel GcSpec GcProofs GcProofs3 GcProofs4 GcProofs5.
Local Open Scope Z_scope.
Ltac Zify.zify_post_hook ::= idtac.

Section Evac.
Variable h0 : heap.
Hypothesis OK0 : pages_ok h0.
Hypothesis Cur0 : cur h0 = None.
Hypothesis Trk : forall t s d o, is_obj h0 t -> body h0 t = OTracker s d o -> o <> 1 ->
  huge_id o /\ bref h0 o = t.
(* a page with the flag has only marked objects; elsewhere only objects are marked *)
Hypothesis Cfl : forall p l x, In p (used h0) -> pflags h0 p = 1 -> pobjs h0 p l -> In x l -> col h0 x.
Hypothesis Cin : forall p x, In p (used h0) -> pflags h0 p <> 1 -> page_of x = p -> col h0 x -> is_obj h0 x.

Definition pd2 (R : Z -> Prop) (T : list Z) (x : Z) : Prop := R x \/ (is_obj h0 x /\ In (page_of x) T).

Definition opaque_cell (x : Z) : cell := mkcell (c_hdr (mem h0 x)) (OOpaque []).

Lemma core_iff2 : forall T Lp F M (Pd Pd' : Z -> Prop) h, core h0 T Lp F M Pd h -> (forall x, Pd x <-> Pd' x) ->
  core h0 T Lp F M Pd' h.
Proof.
  intros T Lp F M Pd Pd' h K E. eapply core_mem; try eassumption; try (intros; apply E; assumption); try reflexivity.
  apply sb_refl.
Qed.

(* The marks and the flags of the pages do not matter. *)
Lemma core_marks : forall T Lp F M (Pd : Z -> Prop) h h', core h0 T Lp F M Pd h ->
  mem h' = mem h -> bref h' = bref h -> nalloc h' = nalloc h -> used h' = used h -> free h' = free h ->
  resv h' = resv h -> cur h' = cur h -> usz h' = usz h ->
  (forall p, In p T -> pflags h' p = pflags h p) -> core h0 T Lp F M Pd h'.
Proof.
  intros T Lp F M Pd h h' K E1 E2 E3 E4 E5 E6 E7 E8 E9.
  assert (IU : in_use h' = in_use h) by (unfold in_use; congruence).
  assert (IO : forall x, is_obj h x -> is_obj h' x).
  { intros x. apply is_obj_ext; [ assumption | assumption | rewrite E1; reflexivity ]. }
  constructor.
  - rewrite IU, E5, E6. apply (k_nodup _ _ _ _ _ _ _ K).
  - rewrite IU, E5, E6. apply (k_pos _ _ _ _ _ _ _ K).
  - intros p Hp. rewrite E3, E9 by assumption. apply (k_T _ _ _ _ _ _ _ K). assumption.
  - apply (k_F _ _ _ _ _ _ _ K).
  - intros p Hp. rewrite IU in Hp. rewrite E3. destruct (k_pages _ _ _ _ _ _ _ K p Hp) as [A [l [B C]]].
    split; [ assumption | ]. exists l. split; [ unfold pobjs; rewrite E1, E3; exact B | ].
    intros x Hx. unfold cls, body. rewrite E1. apply C. assumption.
  - intros x Hx. rewrite E1. apply (k_pd _ _ _ _ _ _ _ K). assumption.
  - intros v w Hv. rewrite E1, E3. destruct (k_moved _ _ _ _ _ _ _ K v w Hv) as [A1 [A2 [A3 [A4 [A5 [A6 [A7 A8]]]]]]].
    repeat split; auto.
  - apply (k_inj _ _ _ _ _ _ _ K).
  - intros v Hv Cv. rewrite E1. destruct (k_all _ _ _ _ _ _ _ K v Hv Cv) as [B | [B | [B1 B2]]]; auto.
  - intros p Hp. rewrite E3. rewrite E5 in Hp. apply (k_free _ _ _ _ _ _ _ K). assumption.
  - rewrite E2. apply (k_bref _ _ _ _ _ _ _ K).
  - intros o. rewrite E1. apply (k_huge _ _ _ _ _ _ _ K).
  - rewrite E8, E3, E4. apply (k_usz _ _ _ _ _ _ _ K).
Qed.

Lemma no_dup_T : forall P T Lp F M Pd h, core h0 (P :: T) Lp F M Pd h -> ~ In P T /\ ~ In P (in_use h) /\ ~ In P (Lp ++ F).
Proof.
  intros P T Lp F M Pd h K. pose proof (k_nodup _ _ _ _ _ _ _ K) as ND. split; [ | split ]; intros C.
  - apply nodup_app_r in ND. inversion ND as [|? ? N _]. apply N. apply in_or_app. left. assumption.
  - eapply nodup_app_disj; [ exact ND | exact C | left; reflexivity ].
  - apply nodup_app_r in ND. inversion ND as [|? ? N _]. apply N. rewrite !in_app_iff in *. tauto.
Qed.

(* A page put back with its dead objects made opaque. *)
Lemma keep_page : forall P T Lp F M (R : Z -> Prop) h hh l,
  core h0 (P :: T) Lp F M (pd2 R (P :: T)) h -> (forall x, R x -> page_of x <> P) ->
  mem hh = mem h -> nalloc hh = nalloc h -> (forall x, page_of x = P -> color hh x = color h0 x) ->
  pobjs h0 P l ->
  let h1 := mark_unused_objects_opaque hh P in
  same_but_mem hh h1 /\ gfins h0 hh h1 /\
  (forall x, In x l -> col h0 x -> mem h1 x = mem h0 x) /\
  (forall x, In x l -> color h0 x = 0 -> mem h1 x = opaque_cell x /\ lg h0 h1 x) /\
  (forall y, heap_id y -> page_of y <> P -> mem h1 y = mem h y) /\
  forall h', mem h' = mem h1 -> bref h' = bref h -> nalloc h' = nalloc h ->
    (forall p, In p T -> pflags h' p = pflags h p) -> free h' = free h -> resv h' = resv h ->
    Permutation (in_use h') (P :: in_use h) ->
    usz h' = psum (nalloc h) (used h') + psum (nalloc h) T ->
    core h0 T Lp F M (pd2 R T) h'.
Proof.
  intros P T Lp F M R h hh l K HR Em En Ec Hl h1.
  destruct (k_T _ _ _ _ _ _ _ K P ltac:(left; reflexivity)) as [HP [NP FP]].
  destruct (no_dup_T _ _ _ _ _ _ _ K) as [NT [NU NL]].
  assert (Lo : forall x, In x l -> is_obj h0 x /\ page_of x = P) by (intros x Hx; apply (obj0_intro h0 OK0 Cur0 P l x HP Hl Hx)).
  assert (Lp0 : forall x, In x l -> pd2 R (P :: T) x).
  { intros x Hx. right. destruct (Lo x Hx) as [A B]. split; [ assumption | left; congruence ]. }
  assert (Lm : forall x, In x l -> mem hh x = mem h0 x) by (intros x Hx; rewrite Em; apply (k_pd _ _ _ _ _ _ _ K); auto).
  destruct (opaque_page_ok h0 OK0 Cur0 Trk hh P l HP) as [A1 [A2 [A3 [A4 [A5 A6]]]]].
  { rewrite En. assumption. }
  { assumption. }
  { intros x Hx. destruct (Lo x Hx) as [Ox Px]. split.
    - unfold hsize. destruct (obj0_size h0 OK0 Cur0 x Ox) as [s [Hs _]]. rewrite (Lm x Hx), Hs. symmetry. apply csize_hsize. assumption.
    - split; [ auto | ]. intros _. left. split; [ auto | ]. intros s d o E Ho.
      rewrite Em. destruct (Trk x s d o Ox E Ho) as [G1 G2]. apply (k_huge _ _ _ _ _ _ _ K); [ assumption | ].
      right. rewrite G2. auto. }
  fold h1 in A1, A2, A3, A4, A5, A6.
  assert (Lh : forall x, In x l -> heap_id x) by (intros x Hx; destruct (obj0 h0 OK0 Cur0 x (proj1 (Lo x Hx))) as [_ [Q _]]; exact Q).
  assert (B1 : forall x, In x l -> col h0 x -> mem h1 x = mem h0 x).
  { intros x Hx Cx. rewrite A5; [ auto | auto | ]. intros [_ Z0]. contradiction. }
  assert (B2 : forall y, heap_id y -> page_of y <> P -> mem h1 y = mem h y).
  { intros y Hy Py. rewrite A5; [ rewrite Em; reflexivity | assumption | ]. intros [Hi _]. apply Py. apply Lo. assumption. }
  split; [ assumption | ]. split; [ assumption | ]. split; [ assumption | ].
  split; [ exact A3 | ]. split; [ assumption | ].
  intros h' E1 E2 E3 E4 E5 E6 PI U.
  set (hk := set_mem h (mem h1)).
  assert (Kk : core h0 (P :: T) Lp F M (fun x => pd2 R (P :: T) x /\ (page_of x = P -> col h0 x)) hk).
  { eapply core_mem; [ exact K | constructor; reflexivity | | | | | | ].
    - intros x [Hx _]. exact Hx.
    - intros v Hv Cv Hp. auto.
    - intros x Hx Hu. apply B2; [ assumption | ]. intros Q. rewrite Q in Hu. contradiction.
    - intros v Hv Cv. change (mem h1 v = mem h v). rewrite <- Em.
      destruct (obj0 h0 OK0 Cur0 v Hv) as [_ [Q _]]. apply A5; [ assumption | ]. intros [_ Z0]. contradiction.
    - intros x [Hx Hc]. change (mem h1 x = mem h x). rewrite <- Em.
      destruct (k_pd _ _ _ _ _ _ _ K x Hx) as [Ox _]. destruct (obj0 h0 OK0 Cur0 x Ox) as [_ [Q _]].
      apply A5; [ assumption | ]. intros [Hi Z0]. apply (Hc (proj2 (Lo x Hi))). assumption.
    - intros o Ho Hc. change (mem h1 o = mem h o). rewrite <- Em. apply A6; [ assumption | ].
      intros [Hi Z0]. destruct Hc as [Hc | [_ Hc]]; [ contradiction | ]. apply (Hc (proj2 (Lo _ Hi))). assumption. }
  eapply core_keep with (P := P) (T := P :: T) (Lp := Lp) (h := hk) (l := l); try eassumption; try exact Kk.
  - apply Permutation_refl.
  - intros x Hx. right. assumption.
  - apply incl_refl.
  - intros v w Hv Q. destruct (k_moved _ _ _ _ _ _ _ K v w Hv) as [_ [_ [_ [_ [X _]]]]]. rewrite Q in X. contradiction.
  - unfold pobjs. change (nalloc hk) with (nalloc h). rewrite NP. eapply chain_ext; [ exact Hl | ].
    intros x Hx. change (mem hk) with (mem h1). rewrite A4. rewrite Lm by assumption. reflexivity.
  - intros x Hx. change (mem hk) with (mem h1). unfold body. change (mem hk) with (mem h1).
    destruct (col_dec h0 x) as [C | C]; [ left; auto | right ]. rewrite (proj1 (A3 x Hx C)). exists []. reflexivity.
  - intros x. unfold pd2. cbn [In]. split.
    + intros [Hx | [Hx1 Hx2]].
      * specialize (HR x Hx). split; [ split; [ tauto | congruence ] | assumption ].
      * assert (page_of x <> P) by (intros Q; rewrite Q in Hx2; contradiction).
        split; [ split; [ tauto | congruence ] | assumption ].
    + intros [[[Hx | [Hx1 [Hx2 | Hx2]]] _] Hx3]; [ tauto | congruence | tauto ].
Qed.

(* Pages left as they were, but for the dead objects. *)
Definition oldpage (h : heap) (p : Z) : Prop :=
  In p (used h0) /\ nalloc h p = nalloc h0 p /\ pflags h p = pflags h0 p /\
  (forall x, page_of x = p -> color h x = color h0 x) /\
  exists l, pobjs h0 p l /\ (forall x, In x l -> col h0 x -> mem h x = mem h0 x) /\
            (forall x, In x l -> color h0 x = 0 -> mem h x = opaque_cell x).

Lemma put_back_ok : forall T Lp F M (R : Z -> Prop) h,
  core h0 T Lp F M (pd2 R T) h -> (forall x, R x -> ~ In (page_of x) T) ->
  (forall p x, In p T -> page_of x = p -> color h x = color h0 x) ->
  let h' := put_back h T in
  core h0 [] Lp F M (pd2 R []) h' /\ gfins h0 h h' /\ color h' = color h /\ pflags h' = pflags h /\
  nalloc h' = nalloc h /\ cur h' = cur h /\ Permutation (used h') (T ++ used h) /\
  (forall p, In p T -> oldpage h' p) /\
  (forall y, heap_id y -> ~ In (page_of y) T -> mem h' y = mem h y) /\
  (forall x, is_obj h0 x -> color h0 x = 0 -> In (page_of x) T -> lg h0 h' x).
Proof.
  induction T as [|P T IH]; intros Lp F M R h K HR Ec h'.
  - unfold h'. cbn [put_back]. split; [ assumption | ]. split; [ apply gfins_refl; reflexivity | ].
    do 4 (split; [ reflexivity | ]). split; [ apply Permutation_refl | ]. split; [ intros p [] | ]. split; [ reflexivity | intros x _ _ [] ].
  - destruct (k_T _ _ _ _ _ _ _ K P ltac:(left; reflexivity)) as [HP [NP FP]].
    destruct (page0 h0 OK0 Cur0 P HP) as [_ [_ [l Hl]]].
    destruct (no_dup_T _ _ _ _ _ _ _ K) as [NT [NU NL]].
    destruct (keep_page P T Lp F M R h h l K) as [A1 [A2 [A3 [A4 [A5 A6]]]]]; try assumption; try reflexivity.
    { intros x Hx Q. apply (HR x Hx). left. congruence. }
    { intros x Hx. apply (Ec P); [ left; reflexivity | assumption ]. }
    set (h1 := mark_unused_objects_opaque h P) in *.
    destruct (push_page_spec h1 P) as [[X1 X2 X3 X4 X5 X6 X7] [[B1 [B2 B3]] [C [D F']]]].
    set (h2 := push_page h1 P) in *.
    assert (U2 : used h2 = used h2) by reflexivity.
    assert (K2 : core h0 T Lp F M (pd2 R T) h2).
    { apply A6.
      - assumption.
      - rewrite X2. apply (sb_bref _ _ A1).
      - rewrite B1. apply (sb_nalloc _ _ A1).
      - intros p Hp. rewrite X4. rewrite (sb_flags _ _ A1). reflexivity.
      - rewrite B2. apply (sb_free _ _ A1).
      - rewrite B3. apply (sb_resv _ _ A1).
      - unfold in_use. rewrite C, (sb_cur _ _ A1), F', (sb_used _ _ A1). reflexivity.
      - rewrite D, (sb_usz _ _ A1), (psum_perm _ _ _ F'), psum_cons, (sb_used _ _ A1).
        pose proof (k_usz _ _ _ _ _ _ _ K) as U. rewrite psum_cons in U. lia. }
    assert (Cc : color h2 = color h) by (rewrite X3; apply (sb_color _ _ A1)).
    destruct (IH Lp F M R h2 K2) as [I1 [I2 [I3 [I4 [I5 [I6 [I7 [I8 [I9 I10]]]]]]]]].
    { intros x Hx Q. apply (HR x Hx). right. assumption. }
    { intros p x Hp Hx. rewrite Cc. apply (Ec p); [ right; assumption | assumption ]. }
    unfold h'. cbn [put_back]. fold h1 h2. cbv zeta in I1, I2, I3, I4, I5, I6, I7, I8, I9, I10.
    split; [ assumption | ].
    split; [ eapply gfins_trans; [ exact A2 | ]; eapply gfins_trans; [ apply gfins_refl; exact X5 | exact I2 ] | ].
    split; [ congruence | ].
    split; [ rewrite I4, X4; apply (sb_flags _ _ A1) | ].
    split; [ rewrite I5, B1; apply (sb_nalloc _ _ A1) | ].
    split; [ rewrite I6, C; apply (sb_cur _ _ A1) | ].
    split.
    { rewrite I7, F', (sb_used _ _ A1). cbn [app]. rewrite Permutation_middle. reflexivity. }
    split.
    { intros p [<- | Hp]; [ | apply I8; assumption ].
      split; [ assumption | ]. split; [ rewrite I5, B1, (sb_nalloc _ _ A1); assumption | ].
      split; [ rewrite I4, X4, (sb_flags _ _ A1); assumption | ].
      split; [ intros x Hx; rewrite I3, Cc; apply (Ec P); [ left; reflexivity | assumption ] | ].
      exists l. split; [ assumption | ].
      assert (Lo : forall x, In x l -> heap_id x /\ page_of x = P).
      { intros x Hx. destruct (obj0_intro h0 OK0 Cur0 P l x HP Hl Hx) as [Ox Px].
        destruct (obj0 h0 OK0 Cur0 x Ox) as [_ [Q _]]. auto. }
      assert (Mm : forall x, In x l -> mem (put_back h2 T) x = mem h1 x).
      { intros x Hx. destruct (Lo x Hx) as [Q1 Q2]. rewrite I9; [ rewrite X1; reflexivity | assumption | ]. rewrite Q2. assumption. }
      split; intros x Hx Cx; rewrite Mm by assumption; [ auto | apply A4; assumption ]. }
    split.
    2:{ intros x Ox Cx [Px | Px]; [ | apply I10; assumption ].
        destruct (obj0 h0 OK0 Cur0 x Ox) as [l2 [_ [_ [L1 L2]]]]. rewrite <- Px in L1. rewrite <- (chain_fun _ _ _ _ _ Hl L1) in L2.
        eapply lg_mono; [ exact I2 | ]. intros d Hd. rewrite X5. apply (A4 x L2 Cx). assumption. }
    intros y Hy Py. cbn [In] in Py. rewrite I9 by tauto. rewrite X1. apply A5; [ assumption | ]. intros Q. apply Py. left. congruence.
Qed.

(* After the evacuation: [Lp] and [rest] are the incomplete page and what is
   left on it. *)
Definition inc_ok (h : heap) (M : list (Z * Z)) (Lp rest : list Z) (inc : option (Z * Z)) : Prop :=
  match inc with
  | None => Lp = [] /\ rest = []
  | Some (p, v) =>
      Lp = [p] /\ In p (used h0) /\ nalloc h p = nalloc h0 p /\ pflags h p = pflags h0 p /\
      (forall x, page_of x = p -> color h x = color h0 x) /\
      exists done, pobjs h0 p (done ++ rest) /\ done <> [] /\ In v rest /\
        chain (mem h0) v (slot_id p (nalloc h0 p)) rest /\
        (forall x, In x rest -> col h0 x -> mem h x = mem h0 x) /\
        (forall x, In x rest -> color h0 x = 0 -> mem h x = opaque_cell x) /\
        (forall x, In x done -> col h0 x -> exists w, In (x, w) M)
  end.

Definition evac_end (h : heap) (F : list Z) (M : list (Z * Z)) (Lp rest : list Z)
  (inc : option (Z * Z)) (err : bool) : Prop :=
  core h0 [] Lp F M (fun x => In x rest /\ col h0 x) h /\ inc_ok h M Lp rest inc /\
  (err = false -> inc = None) /\
  (err = true -> cur h = None /\
     forall p, In p (used h) -> (pflags h p = 1 /\ forall x, page_of x = p -> color h x = 2) \/
       (oldpage h p /\ forall v w, In (v, w) M -> page_of w <> p)).

Lemma chain_start_nil : forall m l a, chain m a a l -> l = [].
Proof.
  intros m [|x l] a H; [ reflexivity | ]. cbn [chain] in H. destruct H as [_ [s [_ [Hs [_ H]]]]].
  apply chain_le in H. lia.
Qed.

(* Memory ran out in the page P. *)
Lemma evac_fail : forall hs P T F M l done rest h nevac v h2 h3 h4 inc,
  In P (used h0) -> pobjs h0 P l -> pflags hs P = pflags h0 P ->
  loopst h0 hs T P l F M done rest h nevac -> cur h = None ->
  chain (mem h0) v (slot_id P (nalloc h0 P)) rest -> In v rest ->
  h2 = set_marking_in_pages h (used h) 2 1 -> h3 = mark_unused_objects_opaque h2 P ->
  (h4, inc) = (if v =? page_start P then (push_page_with_objects h3 P, None) else (h3, Some (P, v))) ->
  gfins h0 hs (put_back h4 T) /\
  (forall x, is_obj h0 x -> color h0 x = 0 -> In (page_of x) (P :: T) -> lg h0 (put_back h4 T) x) /\
  exists Lp rest', evac_end (put_back h4 T) F M Lp rest' inc true.
Proof.
  intros hs P T F M l done rest h nevac v h2 h3 h4 inc HP Hl FP L Cu Hcv Hv E2 E3 E4.
  pose proof (l_core _ _ _ _ _ _ _ _ _ _ _ L) as K.
  pose proof (l_list _ _ _ _ _ _ _ _ _ _ _ L) as Ll.
  pose proof (k_nodup _ _ _ _ _ _ _ K) as ND.
  assert (IU : in_use h = used h) by (unfold in_use; rewrite Cu; apply app_nil_r).
  rewrite IU in ND.
  assert (NPu : ~ In P (used h)) by (intros C; eapply nodup_app_disj; [ exact ND | exact C | rewrite !in_app_iff; cbn [In]; tauto ]).
  assert (NPT : ~ In P T).
  { intros C. apply nodup_app_r in ND. eapply nodup_app_disj; [ exact ND | exact C | left; reflexivity ]. }
  assert (NTu : forall p, In p T -> ~ In p (used h)).
  { intros p Hp C. eapply nodup_app_disj; [ exact ND | exact C | rewrite !in_app_iff; tauto ]. }
  assert (EX : forall p, existsb (Z.eqb p) (used h) = true <-> In p (used h)).
  { intros p. rewrite existsb_exists. split; [ intros [x [Hx Q]]; apply Z.eqb_eq in Q; subst; assumption | intros Hp; exists p; split; [ assumption | apply Z.eqb_refl ] ]. }
  assert (C2 : forall x, color h2 x = if existsb (Z.eqb (page_of x)) (used h) then 2 else color h0 x).
  { intros x. rewrite E2. cbn [set_marking_in_pages set_pflags set_color color]. rewrite (l_color _ _ _ _ _ _ _ _ _ _ _ L). reflexivity. }
  assert (F2 : forall p, pflags h2 p = if existsb (Z.eqb p) (used h) then 1 else pflags h p).
  { intros p. rewrite E2. reflexivity. }
  assert (C2' : forall p x, ~ In p (used h) -> page_of x = p -> color h2 x = color h0 x).
  { intros p x Hp Hx. rewrite C2. destruct (existsb (Z.eqb (page_of x)) (used h)) eqn:Q; [ | reflexivity ].
    apply EX in Q. rewrite Hx in Q. contradiction. }
  assert (F2' : forall p, ~ In p (used h) -> pflags h2 p = pflags h p).
  { intros p Hp. rewrite F2. destruct (existsb (Z.eqb p) (used h)) eqn:Q; [ apply EX in Q; contradiction | reflexivity ]. }
  assert (K2 : core h0 T [P] F M (pdr h0 T rest) h2).
  { eapply core_marks; [ exact K | | | | | | | | | ]; try (rewrite E2; reflexivity). intros p Hp. apply F2'. auto. }
  assert (M2 : mem h2 = mem h) by (rewrite E2; reflexivity).
  assert (Lo : forall x, In x l -> is_obj h0 x /\ page_of x = P /\ heap_id x).
  { intros x Hx. destruct (obj0_intro h0 OK0 Cur0 P l x HP Hl Hx) as [A B]. destruct (obj0 h0 OK0 Cur0 x A) as [_ [Q _]]. auto. }
  assert (Hdr0 : forall x, In x l -> exists s, c_hdr (mem h0 x) = HSize s).
  { intros x Hx. destruct (obj0_size h0 OK0 Cur0 x (proj1 (Lo x Hx))) as [s [Hs _]]. exists s. assumption. }
  assert (Rl : forall x, In x rest -> In x l) by (intros x Hx; rewrite Ll; apply in_or_app; right; assumption).
  assert (Dl : forall x, In x done -> In x l) by (intros x Hx; rewrite Ll; apply in_or_app; left; assumption).
  assert (Rm : forall x, In x rest -> mem h x = mem h0 x).
  { intros x Hx. apply (k_pd _ _ _ _ _ _ _ K). left. assumption. }
  destruct (opaque_page_ok h0 OK0 Cur0 Trk h2 P l HP) as [A1 [A2 [A3 [A4 [A5 A6]]]]].
  { rewrite E2. apply (l_nalloc _ _ _ _ _ _ _ _ _ _ _ L). }
  { assumption. }
  { intros x Hx. destruct (Hdr0 x Hx) as [s Hs]. split; [ | split ].
    - unfold hsize. rewrite M2. rewrite (csize_hsize _ _ Hs). rewrite Ll in Hx. apply in_app_or in Hx. destruct Hx as [Hx | Hx].
      + destruct (l_done _ _ _ _ _ _ _ _ _ _ _ L x Hx) as [D1 D2]. destruct (col_dec h0 x) as [Cx | Cx].
        * destruct (D2 Cx) as [w Hw]. destruct (k_moved _ _ _ _ _ _ _ K x w Hw) as [_ [_ [B1 [B2 _]]]].
          rewrite B1. cbn [c_hdr]. rewrite B2. apply csize_hsize. assumption.
        * rewrite (proj1 (D1 Cx)). unfold fin_cell. cbn [c_hdr]. rewrite Hs. reflexivity.
      + rewrite (Rm x Hx), Hs. reflexivity.
    - apply (C2' P); [ assumption | apply Lo; assumption ].
    - intros Cx. unfold fresh. rewrite M2. rewrite Ll in Hx. apply in_app_or in Hx. destruct Hx as [Hx | Hx].
      + right. destruct (l_done _ _ _ _ _ _ _ _ _ _ _ L x Hx) as [D1 _]. destruct (D1 Cx) as [D2 D3]. split; [ assumption | ].
        unfold lg. rewrite E2. exact D3.
      + left. split; [ auto | ]. intros s' d o E Ho. destruct (Trk x s' d o (proj1 (Lo x (Rl x Hx))) E Ho) as [G1 G2].
        apply (k_huge _ _ _ _ _ _ _ K); [ assumption | ]. right. rewrite G2. left. assumption. }
  rewrite <- E3 in A1, A2, A3, A4, A5, A6.
  set (R := fun x => In x rest /\ col h0 x).
  assert (K3 : core h0 T [P] F M (pd2 R T) h3).
  { eapply core_mem; [ exact K2 | exact A1 | | | | | | ].
    - intros x [[Hx _] | Hx]; [ left; assumption | right; assumption ].
    - intros w Hw Cw [Hx | Hx]; [ left; split; assumption | right; assumption ].
    - intros x Hx Hu. apply A5; [ assumption | ]. intros [Hi _]. destruct (Lo x Hi) as [_ [Q _]]. rewrite Q in Hu.
      assert (In P (in_use h2)) by exact Hu. rewrite E2 in H. apply NPu. rewrite <- IU. exact H.
    - intros w Hw Cw. destruct (obj0 h0 OK0 Cur0 w Hw) as [_ [Q _]]. apply A5; [ assumption | ]. intros [_ Z0]. contradiction.
    - intros x Hx. destruct Hx as [[Hx Cx] | [Hx1 Hx2]].
      + apply A5; [ apply Lo; auto | ]. intros [_ Z0]. contradiction.
      + destruct (obj0 h0 OK0 Cur0 x Hx1) as [_ [Q _]]. apply A5; [ assumption | ]. intros [Hi _].
        destruct (Lo x Hi) as [_ [Q2 _]]. rewrite Q2 in Hx2. contradiction.
    - intros o Ho Hc. apply A6; [ assumption | ]. intros [Hi Z0]. destruct Hc as [Hc | [[_ Hc] | [_ Hc]]]; [ contradiction | contradiction | ].
      destruct (Lo _ Hi) as [_ [Q2 _]]. rewrite Q2 in Hc. contradiction. }
  assert (N3 : nalloc h3 = nalloc h) by (rewrite (sb_nalloc _ _ A1), E2; reflexivity).
  assert (U3 : used h3 = used h) by (rewrite (sb_used _ _ A1), E2; reflexivity).
  assert (Cu3 : cur h3 = None) by (rewrite (sb_cur _ _ A1), E2; exact Cu).
  assert (B1 : forall x, In x rest -> col h0 x -> mem h3 x = mem h0 x).
  { intros x Hx Cx. rewrite A5; [ rewrite M2; auto | apply Lo; auto | ]. intros [_ Z0]. contradiction. }
  assert (B2 : forall x, In x rest -> color h0 x = 0 -> mem h3 x = opaque_cell x).
  { intros x Hx Cx. apply A3; auto. }
  assert (LG : forall hf x, gfins h0 h3 hf -> is_obj h0 x -> color h0 x = 0 -> page_of x = P -> lg h0 hf x).
  { intros hf x Gf Ox Cx Px. destruct (obj0 h0 OK0 Cur0 x Ox) as [l2 [_ [_ [L1 L2]]]]. rewrite Px in L1.
    rewrite <- (chain_fun _ _ _ _ _ Hl L1) in L2. eapply lg_mono; [ exact Gf | ]. apply A3; assumption. }
  assert (G3 : gfins h0 hs h3).
  { eapply gfins_trans; [ apply (l_fins _ _ _ _ _ _ _ _ _ _ _ L) | ]. eapply gfins_trans; [ | exact A2 ].
    apply gfins_refl. rewrite E2. reflexivity. }
  assert (MP : forall a w, In (a, w) M -> page_of a = P -> ~ In a rest).
  { intros a w Ha Pa Hr. destruct (k_moved _ _ _ _ _ _ _ K a w Ha) as [_ [_ [Q _]]]. rewrite (Rm a Hr) in Q.
    destruct (Hdr0 a (Rl a Hr)) as [s Hs]. rewrite Q in Hs. discriminate Hs. }
  assert (FPh : pflags h P = pflags h0 P) by (rewrite (l_flags _ _ _ _ _ _ _ _ _ _ _ L); assumption).
  assert (FP3 : pflags h3 P = pflags h0 P) by (rewrite (sb_flags _ _ A1), F2'; assumption).
  assert (Col3 : forall p x, ~ In p (used h) -> page_of x = p -> color h3 x = color h0 x).
  { intros p x Hp Hx. rewrite (sb_color _ _ A1). eapply C2'; eassumption. }
  assert (UP : forall p, In p (used h) -> pflags h3 p = 1 /\ forall x, page_of x = p -> color h3 x = 2).
  { intros p Hp. rewrite (sb_flags _ _ A1), F2. apply EX in Hp as Hp'. rewrite Hp'. split; [ reflexivity | ].
    intros x Hx. rewrite (sb_color _ _ A1), C2, Hx, Hp'. reflexivity. }
  assert (MW : forall p a w, ~ In p (used h) -> In (a, w) M -> page_of w <> p).
  { intros p a w Hp Ha Q. destruct (k_moved _ _ _ _ _ _ _ K a w Ha) as [_ [_ [_ [_ [_ [_ [Ow _]]]]]]].
    destruct (core_obj h0 _ _ _ _ _ _ w K Ow) as [_ [Iw _]]. rewrite IU, Q in Iw. contradiction. }
  assert (Rext : forall r x, (In x r /\ col h0 x) <-> pd2 (fun x => In x r /\ col h0 x) [] x).
  { intros r x. unfold pd2. cbn [In]. tauto. }
  destruct (v =? page_start P) eqn:Ev.
  - (* nothing was evacuated from the page *)
    assert (h4 = push_page_with_objects h3 P /\ inc = None) as [-> ->] by (split; congruence). clear E4.
    assert (v = page_start P) by lia. subst v.
    assert (Hd : done = []).
    { pose proof Hl as Hc. unfold pobjs in Hc. rewrite Ll in Hc. apply chain_split in Hc. destruct Hc as [b [X1 X2]].
      destruct rest as [|r rest2]; [ destruct Hv | ]. cbn [chain] in X2, Hcv. destruct X2 as [Q1 _]. destruct Hcv as [Q2 _].
      assert (b = slot_id P 0) by (rewrite <- Q1, Q2; reflexivity). rewrite H in X1. eapply chain_start_nil. exact X1. }
    subst done. cbn [app] in Ll. subst l.
    destruct (push_objs_spec h3 P) as [[X1 X2 X3 X4 X5 X6 X7] [[Y1 [Y2 Y3]] [Y4 [Y5 Y6]]]].
    set (h4 := push_page_with_objects h3 P) in *.
    assert (PI4 : Permutation (in_use h4) (P :: in_use h3)) by (unfold in_use; rewrite Y4, Cu3; cbn [opt_list]; rewrite !app_nil_r; assumption).
    assert (K4 : core h0 T [] F M (pd2 (fun _ => False) T) h4).
    { eapply core_keep with (P := P) (T := T) (Lp := [P]) (h := h3) (l := rest); try eassumption; try exact K3.
      - rewrite app_nil_r. rewrite <- Permutation_cons_append. reflexivity.
      - apply incl_refl.
      - intros x [].
      - rewrite N3. apply (l_nalloc _ _ _ _ _ _ _ _ _ _ _ L).
      - intros a w Ha Q. apply (MP a w Ha Q). destruct (k_moved _ _ _ _ _ _ _ K a w Ha) as [Oa _].
        destruct (obj0 h0 OK0 Cur0 a Oa) as [la [_ [_ [Q1 Q2]]]]. rewrite Q in Q1. rewrite (chain_fun _ _ _ _ _ Hl Q1). assumption.
      - unfold pobjs. rewrite N3, (l_nalloc _ _ _ _ _ _ _ _ _ _ _ L). eapply chain_ext; [ exact Hl | ].
        intros x Hx. rewrite A4, M2. rewrite Rm by assumption. reflexivity.
      - intros x Hx. destruct (col_dec h0 x) as [Cx | Cx]; [ left; auto | right ]. unfold body. rewrite (B2 x Hx Cx). exists []. reflexivity.
      - intros x. unfold pd2, R. split.
        + intros [[] | [Q1 Q2]]. split; [ right; auto | ]. intros Q. rewrite Q in Q2. contradiction.
        + intros [[[Q1 _] | Q1] Q2]; [ exfalso; apply Q2; apply Lo; assumption | right; assumption ].
      - intros p Hp. rewrite X4. reflexivity.
      - rewrite Y5, (psum_perm _ _ _ Y6), psum_cons. pose proof (k_usz _ _ _ _ _ _ _ K3). lia. }
    destruct (put_back_ok T [] F M (fun _ => False) h4 K4) as [Z1 [Z2 [Z3 [Z4 [Z5 [Z6 [Z7 [Z8 [Z9 Z10]]]]]]]]].
    { intros x []. }
    { intros p x Hp Hx. rewrite X3. eapply Col3; [ apply NTu; exact Hp | assumption ]. }
    split; [ eapply gfins_trans; [ exact G3 | ]; eapply gfins_trans; [ apply gfins_refl; exact X5 | exact Z2 ] | ].
    split.
    { intros x Ox Cx [Px | Px]; [ | apply Z10; assumption ]. apply LG; try assumption; [ | congruence ].
      eapply gfins_trans; [ apply gfins_refl; exact X5 | exact Z2 ]. }
    exists [], []. split; [ eapply core_iff2; [ exact Z1 | ]; intros x; unfold pd2; cbn [In]; tauto | ].
    split; [ split; reflexivity | ]. split; [ reflexivity | ]. intros _. split; [ rewrite Z6, Y4; exact Cu3 | ].
    intros p Hp. apply (Permutation_in p Z7) in Hp. apply in_app_or in Hp. destruct Hp as [Hp | Hp]; [ right; split; [ apply Z8; assumption | intros a w; apply MW; auto ] | ].
    apply (Permutation_in p Y6) in Hp. destruct Hp as [<- | Hp].
    + right. split; [ | intros a w; apply MW; assumption ]. split; [ assumption | ]. split; [ rewrite Z5, Y1, N3; apply (l_nalloc _ _ _ _ _ _ _ _ _ _ _ L) | ].
      split; [ rewrite Z4, X4; assumption | ].
      split; [ intros x Hx; rewrite Z3, X3; eapply Col3; [ exact NPu | exact Hx ] | ].
      exists rest. split; [ assumption | ].
      assert (Mm : forall x, In x rest -> mem (put_back h4 T) x = mem h3 x).
      { intros x Hx. destruct (Lo x Hx) as [_ [Q1 Q2]]. rewrite Z9; [ rewrite X1; reflexivity | assumption | rewrite Q1; assumption ]. }
      split; intros x Hx Cx; rewrite Mm by assumption; auto.
    + left. rewrite U3 in Hp. destruct (UP p Hp) as [Q1 Q2]. rewrite Z4, X4. split; [ assumption | ].
      intros x Hx. rewrite Z3, X3. auto.
  - assert (h4 = h3 /\ inc = Some (P, v)) as [-> ->] by (split; congruence). clear E4.
    destruct (put_back_ok T [P] F M R h3 K3) as [Z1 [Z2 [Z3 [Z4 [Z5 [Z6 [Z7 [Z8 [Z9 Z10]]]]]]]]].
    { intros x [Hx _] Q. destruct (Lo x (Rl x Hx)) as [_ [Q2 _]]. rewrite Q2 in Q. contradiction. }
    { intros p x Hp Hx. eapply Col3; [ apply NTu; exact Hp | assumption ]. }
    split; [ eapply gfins_trans; [ exact G3 | exact Z2 ] | ].
    split.
    { intros x Ox Cx [Px | Px]; [ | apply Z10; assumption ]. apply LG; try assumption. congruence. }
    assert (Mm : forall x, In x l -> mem (put_back h3 T) x = mem h3 x).
    { intros x Hx. destruct (Lo x Hx) as [_ [Q1 Q2]]. rewrite Z9; [ reflexivity | assumption | rewrite Q1; assumption ]. }
    exists [P], rest. split; [ eapply core_iff2; [ exact Z1 | ]; intros x; unfold pd2, R; cbn [In]; tauto | ].
    split; [ | split; [ discriminate | ] ].
    + cbn [inc_ok]. split; [ reflexivity | ]. split; [ assumption | ].
      split; [ rewrite Z5, N3; apply (l_nalloc _ _ _ _ _ _ _ _ _ _ _ L) | ].
      split; [ rewrite Z4; assumption | ].
      split; [ intros x Hx; rewrite Z3; eapply Col3; [ exact NPu | exact Hx ] | ].
      exists done. rewrite <- Ll. split; [ assumption | ].
      split.
      { intros ->. cbn [app] in Ll. subst l. destruct rest as [|r rest2]; [ destruct Hv | ].
        unfold pobjs in Hl. cbn [chain] in Hl, Hcv. destruct Hl as [Q1 _]. destruct Hcv as [Q2 _].
        unfold page_start in Ev. lia. }
      split; [ assumption | ]. split; [ assumption | ].
      split; [ intros x Hx Cx; rewrite Mm by auto; auto | ].
      split; [ intros x Hx Cx; rewrite Mm by auto; auto | ].
      intros x Hx. apply (l_done _ _ _ _ _ _ _ _ _ _ _ L x Hx).
    + intros _. split; [ rewrite Z6; exact Cu3 | ].
      intros p Hp. apply (Permutation_in p Z7) in Hp. apply in_app_or in Hp. destruct Hp as [Hp | Hp]; [ right; split; [ apply Z8; assumption | intros a w; apply MW; auto ] | left ].
      rewrite U3 in Hp. destruct (UP p Hp) as [Q1 Q2]. rewrite Z4. split; [ assumption | ]. intros x Hx. rewrite Z3. auto.
Qed.

Lemma evac_pages_ok : forall T hs h F M h' F' inc err,
  core h0 T [] F M (pdr h0 T []) h -> color h = color h0 -> gfins h0 hs h ->
  evac_pages T h F = (h', F', inc, err) ->
  gfins h0 hs h' /\ (forall x, is_obj h0 x -> color h0 x = 0 -> In (page_of x) T -> lg h0 h' x) /\
  exists M' Lp rest, evac_end h' F' M' Lp rest inc err.
Proof.
  induction T as [|P T IH]; intros hs h F M h' F' inc err K Ec G H.
  - cbn [evac_pages] in H. assert (h' = h /\ F' = F /\ inc = None /\ err = false) as [-> [-> [-> ->]]] by (repeat split; congruence).
    split; [ assumption | ]. split; [ intros x _ _ [] | ]. exists M, [], []. split.
    + eapply core_iff2; [ exact K | ]. intros x. unfold pdr. cbn [In]. tauto.
    + split; [ split; reflexivity | ]. split; [ reflexivity | discriminate ].
  - destruct (k_T _ _ _ _ _ _ _ K P ltac:(left; reflexivity)) as [HP [NP FP]].
    destruct (page0 h0 OK0 Cur0 P HP) as [PP [PR [l Hl]]].
    destruct (no_dup_T _ _ _ _ _ _ _ K) as [NT [NU NL]].
    cbn [evac_pages] in H. cbv zeta in H. cbn [app] in NL.
    set (nused := if pflags h P =? 1 then nalloc h P else get_num_slots_used h P) in *.
    set (hu := set_usz h (usz h - used_page_size h P)) in *.
    assert (Lo : forall x, In x l -> is_obj h0 x /\ page_of x = P) by (intros x Hx; apply (obj0_intro h0 OK0 Cur0 P l x HP Hl Hx)).
    assert (Lm : forall x, In x l -> mem h x = mem h0 x).
    { intros x Hx. apply (k_pd _ _ _ _ _ _ _ K). right. destruct (Lo x Hx) as [A B]. split; [ assumption | left; congruence ]. }
    assert (Full : nused >= nalloc h0 P -> forall x, In x l -> col h0 x).
    { intros Hn x Hx. unfold nused in Hn. rewrite FP, NP in Hn. destruct (pflags h0 P =? 1) eqn:Q.
      - eapply Cfl; try eassumption. lia.
      - unfold get_num_slots_used in Hn. unfold page_start, page_end in Hn. rewrite NP in Hn.
        rewrite (count_loop_ok h0 l) in Hn.
        + destruct (live_slots_full h0 l _ _ Hl) as [Q1 Q2]. apply Q2; [ | assumption ]. unfold slot_id in *. lia.
        + unfold page_fuel. rewrite NP. apply (pobjs_len h0 P l ltac:(lia) Hl).
        + exact Hl.
        + exact Lm.
        + exact Ec.
        + unfold slot_id. replace (P * PAGE_SIZE + SLOTS_OFFS + 32 * nalloc h0 P + 1 - (P * PAGE_SIZE + SLOTS_OFFS + 32 * 0 + 1)) with (nalloc h0 P * 32) by lia.
          apply Z_mod_mult.
        + intros k Hk Hlt Hcol.
          assert (Ek : slot_id P 0 + 32 * k = slot_id P k) by (unfold slot_id; lia). rewrite Ek in *.
          assert (k < nalloc h0 P) by (unfold slot_id in Hlt; lia).
          assert (Pk : page_of (slot_id P k) = P) by (apply slot_id_page; lia).
          pose proof (Cin P (slot_id P k) HP ltac:(lia) Pk Hcol) as Ok.
          destruct (obj0 h0 OK0 Cur0 _ Ok) as [l2 [_ [_ [L1 L2]]]]. rewrite Pk in L1.
          rewrite (chain_fun _ _ _ _ _ Hl L1). assumption. }
    destruct (nalloc h P - nused <? UNUSED_SLOTS) eqn:Keep.
    + (* the page stays *)
      assert (KP : exists h1, h1 = (if nused <? nalloc h P then mark_unused_objects_opaque hu P else hu) /\
         same_but_mem hu h1 /\ gfins h0 hu h1 /\ (forall x, In x l -> color h0 x = 0 -> lg h0 h1 x) /\
         forall h2, mem h2 = mem h1 -> bref h2 = bref h -> nalloc h2 = nalloc h ->
           (forall p, In p T -> pflags h2 p = pflags h p) -> free h2 = free h -> resv h2 = resv h ->
           Permutation (in_use h2) (P :: in_use h) ->
           usz h2 = psum (nalloc h) (used h2) + psum (nalloc h) T ->
           core h0 T [] F M (pdr h0 T []) h2).
      { assert (K' : core h0 (P :: T) [] F M (pd2 (fun _ => False) (P :: T)) h).
        { eapply core_iff2; [ exact K | ]. intros x. unfold pdr, pd2. cbn [In]. tauto. }
        assert (Cv : forall h2, core h0 T [] F M (pd2 (fun _ => False) T) h2 -> core h0 T [] F M (pdr h0 T []) h2).
        { intros h2 Q. eapply core_iff2; [ exact Q | ]. intros x. unfold pdr, pd2. cbn [In]. tauto. }
        eexists. split; [ reflexivity | ]. destruct (nused <? nalloc h P) eqn:Q.
        - destruct (keep_page P T [] F M (fun _ => False) h hu l K') as [A1 [A2 [A3 [A4 [A5 A6]]]]]; try reflexivity; try assumption.
          { intros x []. }
          { intros x _. change (color hu) with (color h). rewrite Ec. reflexivity. }
          split; [ assumption | ]. split; [ assumption | ]. split; [ apply A4 | ]. intros. apply Cv. apply A6; assumption.
        - assert (Fl : forall x, In x l -> col h0 x) by (apply Full; lia).
          split; [ apply sb_refl | ]. split; [ apply gfins_refl; reflexivity | ].
          split; [ intros x Hx Cx; exfalso; apply (Fl x Hx); assumption | ].
          intros h2 E1 E2 E3 E4 E5 E6 PI U. apply Cv.
          eapply core_keep with (P := P) (T := P :: T) (Lp := []) (h := h) (l := l); try eassumption; try exact K'.
          + apply Permutation_refl.
          + intros x Hx. right. assumption.
          + apply incl_refl.
          + intros a w Ha Q1. destruct (k_moved _ _ _ _ _ _ _ K a w Ha) as [_ [_ [_ [_ [X _]]]]]. rewrite Q1 in X. contradiction.
          + unfold pobjs. rewrite NP. eapply chain_ext; [ exact Hl | ]. intros x Hx. rewrite Lm by assumption. reflexivity.
          + intros x Hx. left. split; [ apply Fl; assumption | apply Lm; assumption ].
          + intros x Hx _. apply Lm. assumption.
          + intros x. unfold pd2. cbn [In]. split.
            * intros [[] | [Q1 Q2]]. split; [ right; auto | ]. intros Q3. rewrite Q3 in Q2. contradiction.
            * intros [[[] | [Q1 [Q2 | Q2]]] Q3]; [ congruence | right; auto ]. }
      destruct KP as [h1 [Eh1 [S1 [G1 [LG1 Kc]]]]]. rewrite <- Eh1 in H.
      destruct (push_objs_spec h1 P) as [[X1 X2 X3 X4 X5 X6 X7] [[Y1 [Y2 Y3]] [Y4 [Y5 Y6]]]].
      set (h2 := push_page_with_objects h1 P) in *.
      set (h3 := if nused =? 1 then h2 else set_pflags (set_nkept h2 (nkept h2 + 1)) (fupd (pflags h2) P 1)) in *.
      assert (E3 : mem h3 = mem h2 /\ bref h3 = bref h2 /\ nalloc h3 = nalloc h2 /\ used h3 = used h2 /\ free h3 = free h2 /\
                   resv h3 = resv h2 /\ cur h3 = cur h2 /\ usz h3 = usz h2 /\ color h3 = color h2 /\ fins h3 = fins h2 /\
                   forall p, p <> P -> pflags h3 p = pflags h2 p).
      { unfold h3. destruct (nused =? 1); repeat split; intros p Hp. apply fupd_other. assumption. }
      destruct E3 as [W1 [W2 [W3 [W4 [W5 [W6 [W7 [W8 [W9 [W10 W11]]]]]]]]]].
      destruct S1 as [S1 S2 S3 S4 S5 S6 S7 S8 S9 S10 S11].
      assert (U3 : Permutation (used h3) (P :: used h)) by (rewrite W4, Y6, S5; reflexivity).
      assert (G3 : gfins h0 hs h3).
      { eapply gfins_trans; [ exact G | ]. eapply gfins_trans; [ | apply gfins_refl; rewrite W10; exact X5 ].
        eapply gfins_trans; [ | exact G1 ]. apply gfins_refl. reflexivity. }
      destruct (IH h3 h3 F M h' F' inc err) as [IG [IL IE]]; [ | | | exact H | ].
      4:{ split; [ eapply gfins_trans; [ exact G3 | exact IG ] | ]. split; [ | exact IE ].
          intros x Ox Cx [Px | Px]; [ | apply IL; assumption ].
          destruct (obj0 h0 OK0 Cur0 x Ox) as [l2 [_ [_ [L1 L2]]]]. rewrite <- Px in L1. rewrite <- (chain_fun _ _ _ _ _ Hl L1) in L2.
          eapply lg_mono; [ exact IG | ]. intros d Hd. rewrite W10, X5. apply (LG1 x L2 Cx). assumption. }
      * apply Kc.
        -- rewrite W1. assumption.
        -- rewrite W2, X2, S1. reflexivity.
        -- rewrite W3, Y1, S2. reflexivity.
        -- intros p Hp. rewrite W11 by (intros ->; contradiction). rewrite X4, S3. reflexivity.
        -- rewrite W5, Y2, S6. reflexivity.
        -- rewrite W6, Y3, S7. reflexivity.
        -- unfold in_use. rewrite W7, Y4, S8, U3. reflexivity.
        -- rewrite W8, Y5, S9, S2, (psum_perm _ _ _ U3), psum_cons.
           pose proof (k_usz _ _ _ _ _ _ _ K) as U. rewrite psum_cons in U.
           unfold hu. cbn [set_usz usz nalloc]. unfold used_page_size, SLOTS_OFFS. lia.
      * rewrite W9, X3, S4. exact Ec.
      * apply gfins_refl. reflexivity.
    + (* the page is evacuated *)
      assert (NF : pflags h0 P <> 1).
      { intros Q. unfold nused in Keep. rewrite FP, Q in Keep. cbn [Z.eqb Pos.eqb] in Keep. unfold UNUSED_SLOTS in Keep. lia. }
      pose proof (core_start h0 P T F M _ h K NF) as KS. fold hu in KS.
      assert (L0 : loopst h0 hu T P l F M [] l hu 0).
      { constructor.
        - eapply core_iff2; [ exact KS | ]. intros x. unfold pdr. cbn [In]. split.
          + intros [[] | [Q1 [Q2 | Q2]]]; [ left | right; auto ].
            destruct (obj0 h0 OK0 Cur0 x Q1) as [l2 [_ [_ [L1 L2]]]]. rewrite <- Q2 in L1. rewrite (chain_fun _ _ _ _ _ Hl L1). assumption.
          + intros [Q | [Q1 Q2]]; right; [ destruct (Lo x Q); split; [ assumption | left; congruence ] | auto ].
        - reflexivity.
        - exact Ec.
        - reflexivity.
        - intros x [].
        - apply gfins_refl. reflexivity.
        - exact NP.
        - lia.
        - intros _ a w Ha Q1. destruct (k_moved _ _ _ _ _ _ _ K a w Ha) as [_ [_ [_ [_ [X _]]]]]. rewrite Q1 in X. contradiction. }
      assert (PF : page_fuel hu P = Z.to_nat (nalloc h0 P)) by (unfold page_fuel, hu; cbn [set_usz nalloc]; rewrite NP; reflexivity).
      assert (PE : page_end hu P = slot_id P (nalloc h0 P)) by (unfold page_end, hu; cbn [set_usz nalloc]; rewrite NP; reflexivity).
      destruct (evac_loop (page_fuel hu P) hu F (page_start P) (page_end hu P) 0) as [[[h1 F1] ne] res] eqn:EL.
      assert (Hf : (length l <= page_fuel hu P)%nat) by (rewrite PF; apply (pobjs_len h0 P l ltac:(lia) Hl)).
      assert (Hc : chain (mem h0) (page_start P) (page_end hu P) l) by (rewrite PE; exact Hl).
      destruct (evac_loop_ok h0 OK0 Cur0 Trk hu T P l HP Hl l _ hu F M [] _ _ 0 h1 F1 ne res Hf Hc L0 EL) as [M1 [I1 R1]].
      assert (Gu : gfins h0 hs hu) by (eapply gfins_trans; [ exact G | apply gfins_refl; reflexivity ]).
      destruct res as [v|].
      * destruct R1 as [done [rest [L1 [Cu1 [Hcv Hv]]]]]. rewrite PE in Hcv.
        set (h2 := set_marking_in_pages h1 (used h1) 2 1) in *.
        set (h3 := mark_unused_objects_opaque h2 P) in *.
        destruct (if v =? page_start P then (push_page_with_objects h3 P, None) else (h3, Some (P, v))) as [h4 inc4] eqn:E4.
        assert (h' = put_back h4 T /\ F' = F1 /\ inc = inc4 /\ err = true) as [-> [-> [-> ->]]] by (repeat split; congruence).
        destruct (evac_fail hu P T F1 M1 l done rest h1 ne v h2 h3 h4 inc4 HP Hl FP L1 Cu1 Hcv Hv eq_refl eq_refl (eq_sym E4)) as [Gf [Lf [Lp [rest' Ef]]]].
        split; [ eapply gfins_trans; [ exact Gu | exact Gf ] | ]. split; [ exact Lf | ]. exists M1, Lp, rest'. exact Ef.
      * set (h2 := if ne =? 0 then set_nalloc h1 (fupd (nalloc h1) P 0) else h1) in *.
        assert (Fi : fins h2 = fins h1) by (unfold h2; destruct (ne =? 0); reflexivity).
        destruct (IH h2 h2 (F1 ++ [P]) M1 h' F' inc err) as [IG [IL IE]]; [ | | | exact H | ].
        4:{ split; [ eapply gfins_trans; [ exact Gu | ]; eapply gfins_trans; [ apply (l_fins _ _ _ _ _ _ _ _ _ _ _ R1) | ];
                     eapply gfins_trans; [ apply gfins_refl; exact Fi | exact IG ] | ].
            split; [ | exact IE ].
            intros x Ox Cx [Px | Px]; [ | apply IL; assumption ].
            destruct (obj0 h0 OK0 Cur0 x Ox) as [l2 [_ [_ [L1 L2]]]]. rewrite <- Px in L1. rewrite <- (chain_fun _ _ _ _ _ Hl L1) in L2.
            eapply lg_mono; [ exact IG | ]. intros d Hd. rewrite Fi.
            destruct (l_done _ _ _ _ _ _ _ _ _ _ _ R1 x L2) as [D1 _]. apply (D1 Cx). assumption. }
        -- eapply core_iff2.
           ++ eapply core_finish; [ exact (l_core _ _ _ _ _ _ _ _ _ _ _ R1) | | ].
              ** intros x [[] | [_ Q]]. assumption.
              ** unfold h2. destruct (ne =? 0) eqn:Q; [ right | left; reflexivity ].
                 split; [ apply (l_none _ _ _ _ _ _ _ _ _ _ _ R1); lia | reflexivity ].
           ++ intros x. reflexivity.
        -- unfold h2. destruct (ne =? 0); apply (l_color _ _ _ _ _ _ _ _ _ _ _ R1).
        -- apply gfins_refl. reflexivity.
Qed.

Lemma core_init : usz h0 = psum (nalloc h0) (used h0) ->
  core h0 (used h0) [] [] [] (pdr h0 (used h0) []) (set_used h0 []).
Proof.
  intros U. destruct OK0 as [N1 [N2 [N3 N4]]]. rewrite (in_use0 h0 Cur0) in *.
  assert (IU : in_use (set_used h0 []) = []) by (unfold in_use; cbn [set_used used cur]; rewrite Cur0; reflexivity).
  constructor.
  - rewrite IU. exact N1.
  - rewrite IU. exact N2.
  - intros p Hp. auto.
  - intros p [].
  - rewrite IU. intros p [].
  - intros x [[] | [A B]]. rewrite app_nil_r. auto.
  - intros v w [].
  - split; constructor.
  - intros v Hv Cv. left. right. split; [ assumption | ]. destruct (obj0 h0 OK0 Cur0 v Hv) as [l [_ [A _]]]. assumption.
  - exact N4.
  - reflexivity.
  - reflexivity.
  - cbn [set_used usz nalloc used]. rewrite psum_nil. lia.
Qed.

Lemma evacuate_ok : forall h' F' inc err, usz h0 = psum (nalloc h0) (used h0) ->
  evacuate h0 = (h', F', inc, err) ->
  cur h' = None /\ gfins h0 h0 h' /\ (forall x, is_obj h0 x -> color h0 x = 0 -> lg h0 h' x) /\
  exists M' Lp rest, evac_end h' F' M' Lp rest inc err.
Proof.
  intros h' F' inc err U H. unfold evacuate in H.
  destruct (evac_pages (used h0) (set_used h0 []) []) as [[[h1 F1] inc1] err1] eqn:E.
  assert (h' = release_cur h1 /\ F' = F1 /\ inc = inc1 /\ err = err1) as [-> [-> [-> ->]]] by (repeat split; congruence).
  destruct (evac_pages_ok (used h0) h0 _ _ _ h1 F1 inc1 err1 (core_init U) eq_refl) as [G [LG [M [Lp [rest [K [I [J1 J2]]]]]]]].
  { apply gfins_refl. reflexivity. }
  { exact E. }
  destruct (release_cur_spec h1) as [[X1 X2 X3 X4 X5 X6 X7] [[B1 [B2 B3]] [C [D _]]]].
  split; [ exact C | ]. split; [ eapply gfins_trans; [ exact G | apply gfins_refl; exact X5 ] | ].
  split.
  { intros x Ox Cx. unfold lg. rewrite X5. apply LG; try assumption. destruct (obj0 h0 OK0 Cur0 x Ox) as [l [_ [A _]]]. assumption. }
  exists M, Lp, rest. destruct err1.
  - destruct (J2 eq_refl) as [Cu J3]. assert (R : release_cur h1 = h1) by (unfold release_cur; rewrite Cu; reflexivity).
    rewrite R. split; [ exact K | ]. auto.
  - specialize (J1 eq_refl). subst inc1. split; [ apply core_release; exact K | ].
    split; [ exact I | ]. split; [ reflexivity | discriminate ].
Qed.

End Evac.
