(* Evacuation: the objects of one page. *)
From Coq Require Import ZArith List Lia Bool ZifyBool Permutation.
Import ListNotations.
From Verif Require Import Base ListZ GcModel GcSpec GcProofs GcProofs3 GcProofs4.
Local Open Scope Z_scope.
Ltac Zify.zify_post_hook ::= idtac.

(* What finalization leaves of an object. *)
Definition fin_body (b : obj) : obj :=
  match b with
  | OObject p q _ => OObject p q None
  | OBufStorage d true ptr (Some _) => OBufStorage d true 0 None
  | OTracker s d o => if d =? 0 then b else OTracker 0 0 1
  | _ => b
  end.

Definition fin_cell (c : cell) : cell := mkcell (c_hdr c) (fin_body (c_obj c)).

Lemma cell_eta : forall c, mkcell (c_hdr c) (c_obj c) = c.
Proof. intros []. reflexivity. Qed.

Lemma mem_set_body : forall h v o y,
  mem (set_body h v o) y = if y =? v then mkcell (c_hdr (mem h v)) o else mem h y.
Proof. intros. reflexivity. Qed.

Lemma sb_set_body : forall h v o, same_but_mem h (set_body h v o).
Proof. intros. constructor; reflexivity. Qed.

Lemma sb_set_fins : forall h x, same_but_mem h (set_fins h x).
Proof. intros. constructor; reflexivity. Qed.

Lemma finalize_leaf_spec : forall h o,
  let h' := finalize_leaf h o in
  same_but_mem h h' /\ (forall y, y <> o -> mem h' y = mem h y) /\
  c_hdr (mem h' o) = c_hdr (mem h o) /\
  ((forall s d x, body h o <> OTracker s d x) -> body h' o = fin_body (body h o)) /\
  ((fins h' = fins h /\ final_data (body h o) = None) \/
   exists d, final_data (body h o) = Some d /\ fins h' = d :: fins h).
Proof.
  intros h o h'. unfold h', finalize_leaf, body. clear h'.
  assert (Same : forall b, c_obj (mem h o) = b -> ((forall s d x, b <> OTracker s d x) -> b = fin_body b) -> final_data b = None ->
    same_but_mem h h /\ (forall y, y <> o -> mem h y = mem h y) /\ c_hdr (mem h o) = c_hdr (mem h o) /\
    ((forall s d x, b <> OTracker s d x) -> c_obj (mem h o) = fin_body b) /\
    ((fins h = fins h /\ final_data b = None) \/ exists d, final_data b = Some d /\ fins h = d :: fins h)).
  { intros b E F N. repeat split; auto. intros G. rewrite E. auto. }
  assert (Upd : forall b b' d, c_obj (mem h o) = b -> b' = fin_body b -> final_data b = Some d ->
    let h1 := set_fins (set_body h o b') (d :: fins h) in
    same_but_mem h h1 /\ (forall y, y <> o -> mem h1 y = mem h y) /\ c_hdr (mem h1 o) = c_hdr (mem h o) /\
    ((forall s d x, b <> OTracker s d x) -> c_obj (mem h1 o) = fin_body b) /\
    ((fins h1 = fins h /\ final_data b = None) \/ exists d, final_data b = Some d /\ fins h1 = d :: fins h)).
  { intros b b' d E F G h1. unfold h1. split; [ constructor; reflexivity | ].
    split; [ intros y Hy; apply fupd_other; assumption | ].
    split; [ cbn [set_fins mem set_body set_mem]; rewrite fupd_same; reflexivity | ].
    split; [ intros _; cbn [set_fins mem set_body set_mem]; rewrite fupd_same; exact F | ].
    right. exists d. split; [ assumption | reflexivity ]. }
  assert (Eb : exists b, c_obj (mem h o) = b) by (eexists; reflexivity). destruct Eb as [b Eb]. rewrite Eb.
  destruct b; try (apply (Same _ Eb); intros; reflexivity).
  - destruct priv as [d|]; [ | apply (Same _ Eb); intros; reflexivity ].
    apply (Upd _ _ _ Eb eq_refl eq_refl).
  - destruct external; [ | apply (Same _ Eb); intros; reflexivity ].
    destruct priv as [x|]; [ | apply (Same _ Eb); intros; reflexivity ].
    apply (Upd _ _ _ Eb eq_refl eq_refl).
  - destruct finalize as [f|]; [ | apply (Same _ Eb); intros; reflexivity ].
    split; [ constructor; reflexivity | ]. split; [ reflexivity | ]. split; [ reflexivity | ].
    split; [ intros _; cbn [set_fins mem]; rewrite Eb; reflexivity | ].
    right. exists f. split; reflexivity.
  - apply (Same _ Eb); [ | reflexivity ]. intros F. exfalso. eapply F. reflexivity.
Qed.

Section Evac.
Variable h0 : heap.
Hypothesis OK0 : pages_ok h0.
Hypothesis Cur0 : cur h0 = None.
Hypothesis Trk : forall t s d o, is_obj h0 t -> body h0 t = OTracker s d o -> o <> 1 ->
  huge_id o /\ bref h0 o = t.

Definition gdata (d : Z) : Prop :=
  exists x, ((is_obj h0 x /\ color h0 x = 0) \/
             (exists t s y, is_obj h0 t /\ color h0 t = 0 /\ body h0 t = OTracker s y x /\ y <> 0 /\ x <> 1)) /\
            final_data (body h0 x) = Some d.

Definition gfins (h h' : heap) : Prop :=
  exists new, fins h' = new ++ fins h /\ forall d, In d new -> gdata d.

Lemma gfins_refl : forall h h', fins h' = fins h -> gfins h h'.
Proof. intros h h' E. exists []. split; [ exact E | intros d [] ]. Qed.

Lemma gfins_trans : forall a b c, gfins a b -> gfins b c -> gfins a c.
Proof.
  intros a b c [n1 [E1 H1]] [n2 [E2 H2]]. exists (n2 ++ n1). split; [ rewrite E2, E1; apply app_assoc | ].
  intros d Hd. apply in_app_or in Hd. destruct Hd; auto.
Qed.

(* The data of the finalizers of [x] and of the huge object it tracks are in
   the log. *)
Definition owed (x d : Z) : Prop :=
  final_data (body h0 x) = Some d \/
  exists s y o, body h0 x = OTracker s y o /\ y <> 0 /\ o <> 1 /\ final_data (body h0 o) = Some d.

Definition lg (h : heap) (x : Z) : Prop := forall d, owed x d -> In d (fins h).

Lemma lg_mono : forall h h' x, gfins h h' -> lg h x -> lg h' x.
Proof. intros h h' x [new [E _]] L d Hd. rewrite E. apply in_or_app. right. apply L. assumption. Qed.

(* A dead object not finalized yet, or already finalized. *)
Definition fresh (h : heap) (x : Z) : Prop :=
  (mem h x = mem h0 x /\ forall s d o, body h0 x = OTracker s d o -> o <> 1 -> mem h o = mem h0 o) \/
  (mem h x = fin_cell (mem h0 x) /\ lg h x).

Lemma final_fin : forall b, (forall s d o, b <> OTracker s d o) ->
  fin_body (fin_body b) = fin_body b /\ (final_data (fin_body b) = None \/ final_data (fin_body b) = final_data b).
Proof.
  intros b NT. destruct b; try (split; [ reflexivity | tauto ]).
  - destruct external; [ destruct priv | ]; cbn; auto.
  - exfalso. eapply NT. reflexivity.
Qed.

Lemma finalize_spec : forall h x, is_obj h0 x -> color h0 x = 0 -> fresh h x ->
  let h' := finalize_object h x in
  same_but_mem h h' /\ mem h' x = fin_cell (mem h0 x) /\
  (forall y, y <> x -> (forall s d, body h0 x = OTracker s d y -> y = 1) -> mem h' y = mem h y) /\
  (forall y, c_hdr (mem h' y) = c_hdr (mem h y)) /\ gfins h h' /\ lg h' x.
Proof.
  intros h x Ox Cx Fr h'. unfold h'. clear h'.
  destruct (obj0 h0 OK0 Cur0 x Ox) as [_ [Hx _]].
  assert (Leaf : (forall s d o, body h0 x <> OTracker s d o) ->
    let h' := finalize_leaf h x in
    same_but_mem h h' /\ mem h' x = fin_cell (mem h0 x) /\
    (forall y, y <> x -> (forall s d, body h0 x = OTracker s d y -> y = 1) -> mem h' y = mem h y) /\
    (forall y, c_hdr (mem h' y) = c_hdr (mem h y)) /\ gfins h h' /\ lg h' x).
  { intros NT h'. destruct (finalize_leaf_spec h x) as [A [B [C [D F]]]]. fold h' in A, B, C, D, F.
    assert (Hb : body h x = body h0 x \/ body h x = fin_body (body h0 x)).
    { destruct Fr as [[E _] | [E _]]; unfold body; rewrite E; [ left | right ]; reflexivity. }
    assert (Hh : c_hdr (mem h x) = c_hdr (mem h0 x)).
    { destruct Fr as [[E _] | [E _]]; rewrite E; reflexivity. }
    destruct (final_fin (body h0 x) NT) as [FF FD].
    assert (NT' : forall s d o, body h x <> OTracker s d o).
    { intros s d o E. destruct Hb as [Hb | Hb]; [ rewrite Hb in E; eapply NT; exact E | ].
      rewrite Hb in E. destruct (body h0 x) as [] eqn:Eb; cbn [fin_body] in E; try discriminate E.
      - destruct external; [ destruct priv | ]; discriminate E.
      - eapply NT. reflexivity. }
    specialize (D NT'). split; [ exact A | ]. split.
    { rewrite <- (cell_eta (mem h' x)). unfold fin_cell. f_equal; [ congruence | ].
      change (body h' x = fin_body (body h0 x)). rewrite D. destruct Hb as [-> | ->]; [ reflexivity | exact FF ]. }
    split; [ intros; apply B; assumption | ].
    split; [ intros y; destruct (Z.eq_dec y x) as [-> | N]; [ exact C | rewrite B by assumption; reflexivity ] | ].
    assert (GF : gfins h h'); [ | split; [ exact GF | ] ].
    2:{ destruct Fr as [[E _] | [_ L]]; [ | eapply lg_mono; eassumption ].
        intros d [Hd | [s [y [o [Q _]]]]]; [ | exfalso; eapply NT; exact Q ].
        destruct F as [[_ F] | [d' [F1 F2]]]; unfold body in *; rewrite E in *; [ congruence | ].
        rewrite F2. left. congruence. }
    destruct F as [[F _] | [d [F1 F2]]]; [ apply gfins_refl; exact F | ].
    exists [d]. split; [ exact F2 | ]. intros d' [<- | []]. exists x. split; [ left; auto | ].
    destruct Hb as [Hb | Hb]; rewrite Hb in F1; [ exact F1 | ]. destruct FD as [FD | FD]; congruence. }
  unfold finalize_object. fold (body h x).
  destruct (body h0 x) as [] eqn:Eb0;
    try (specialize (Leaf ltac:(discriminate)); cbv zeta in Leaf;
         replace (match body h x with OTracker _ data o => if data =? 0 then h else set_body (if is_bad o then h else finalize_leaf h o) x (OTracker 0 0 1) | _ => finalize_leaf h x end) with (finalize_leaf h x);
         [ exact Leaf
         | destruct Fr as [[E _] | [E _]]; unfold body; rewrite E; unfold body in Eb0; cbn [fin_cell c_obj]; rewrite Eb0;
           cbn [fin_body]; try reflexivity;
           repeat match goal with |- context [if ?b then _ else _] => destruct b | |- context [match ?o with Some _ => _ | None => _ end] => destruct o end; reflexivity ]).
  (* a tracker *)
  clear Leaf.
  assert (Stay : forall c, mem h x = c -> c = fin_cell (mem h0 x) -> lg h x ->
    same_but_mem h h /\ mem h x = fin_cell (mem h0 x) /\
    (forall y, y <> x -> (forall s d, OTracker size data object = OTracker s d y -> y = 1) -> mem h y = mem h y) /\
    (forall y, c_hdr (mem h y) = c_hdr (mem h y)) /\ gfins h h /\ lg h x).
  { intros c E1 E2 L. split; [ apply sb_refl | ]. split; [ congruence | ]. split; [ reflexivity | ]. split; [ reflexivity | ].
    split; [ apply gfins_refl; reflexivity | exact L ]. }
  destruct Fr as [[E Fo] | [E L]].
  2:{ unfold body. rewrite E. cbn [fin_cell c_obj]. fold (body h0 x). rewrite Eb0. cbn [fin_body].
      destruct (data =? 0) eqn:D; [ rewrite D | cbn [Z.eqb] ]; (eapply Stay; [ exact E | reflexivity | exact L ]). }
  unfold body. rewrite E. fold (body h0 x). rewrite Eb0.
  destruct (data =? 0) eqn:D.
  { eapply Stay; [ exact E | | ].
    { unfold fin_cell. fold (body h0 x). rewrite Eb0. cbn [fin_body]. rewrite D. rewrite <- Eb0. symmetry. apply cell_eta. }
    intros d [Hd | [s [y [o [Q [Q2 _]]]]]]; [ rewrite Eb0 in Hd; discriminate | ].
    assert (y = data) by congruence. lia. }
  clear Stay. unfold is_bad. destruct (object =? 1) eqn:B1.
  { split; [ apply sb_set_body | ].
    split; [ rewrite mem_set_body, Z.eqb_refl, E; unfold fin_cell; fold (body h0 x); rewrite Eb0; cbn [fin_body]; rewrite D; reflexivity | ].
    split; [ intros y Hy _; rewrite mem_set_body; destruct (y =? x) eqn:Q; [ lia | reflexivity ] | ].
    split; [ intros y; rewrite mem_set_body; destruct (y =? x) eqn:Q; [ assert (y = x) as -> by lia; reflexivity | reflexivity ] | ].
    split; [ apply gfins_refl; reflexivity | ].
    intros d [Hd | [s [y [o [Q [_ [Q2 _]]]]]]]; [ rewrite Eb0 in Hd; discriminate | ].
    assert (o = object) by congruence. lia. }
  assert (Ob : object <> 1) by lia.
  destruct (Trk x size data object Ox Eb0 Ob) as [Hg Hbr].
  assert (Nx : x <> object) by (intros ->; match goal with A : heap_id ?v, B : huge_id ?v |- _ => exact (heap_not_huge v A B) end).
  destruct (finalize_leaf_spec h object) as [A [B [C [Dd F]]]]. cbv zeta in A, B, C, Dd, F.
  set (h1 := finalize_leaf h object) in *.
  split; [ eapply sb_trans; [ exact A | apply sb_set_body ] | ].
  split.
  { rewrite mem_set_body, Z.eqb_refl, B, E by assumption. unfold fin_cell. fold (body h0 x). rewrite Eb0. cbn [fin_body]. rewrite D. reflexivity. }
  split.
  { intros y Hy Hy2. rewrite mem_set_body. destruct (y =? x) eqn:Q; [ lia | ]. apply B. intros ->.
    apply Ob. eapply Hy2. reflexivity. }
  split.
  { intros y. rewrite mem_set_body. destruct (y =? x) eqn:Q.
    - assert (y = x) as -> by lia. cbn [c_hdr]. rewrite B by assumption. reflexivity.
    - destruct (Z.eq_dec y object) as [-> | N]; [ exact C | rewrite B by assumption; reflexivity ]. }
  assert (Bo : body h object = body h0 object) by (unfold body; rewrite (Fo _ _ _ Eb0 Ob); reflexivity).
  rewrite Bo in F. split.
  - destruct F as [[F _] | [d [F1 F2]]]; [ apply gfins_refl; exact F | ].
    exists [d]. split; [ exact F2 | ]. intros d' [<- | []]. exists object. split; [ right; exists x, size, data | exact F1 ].
    repeat split; try assumption. lia.
  - intros d [Hd | [s [y [o [Q [_ [_ Hd]]]]]]]; [ rewrite Eb0 in Hd; discriminate | ].
    assert (o = object) by congruence. subst o.
    destruct F as [[_ F] | [d' [F1 F2]]]; [ congruence | ]. change (In d (fins h1)). rewrite F2. left. congruence.
Qed.

(* ------------------------------------------------------ dead objects become opaque *)

Lemma fresh_ext : forall h h' x y, is_obj h0 x -> is_obj h0 y -> x <> y ->
  (forall z, z <> x -> (forall s d, body h0 x = OTracker s d z -> z = 1) -> mem h' z = mem h z) ->
  gfins h h' -> fresh h y -> fresh h' y.
Proof.
  intros h h' x y Ox Oy N M GF Fr.
  destruct (obj0 h0 OK0 Cur0 x Ox) as [_ [Hx _]]. destruct (obj0 h0 OK0 Cur0 y Oy) as [_ [Hy _]].
  assert (Ey : mem h' y = mem h y).
  { apply M; [ congruence | ]. intros s d E. destruct (Z.eq_dec y 1) as [-> | K]; [ reflexivity | ].
    exfalso. destruct (Trk x s d y Ox E K) as [G _]. match goal with A : heap_id ?v, B : huge_id ?v |- _ => exact (heap_not_huge v A B) end. }
  destruct Fr as [[A B] | [A B]]; [ left | right; split; [ congruence | eapply lg_mono; eassumption ] ].
  split; [ congruence | ]. intros s d o E Ho. rewrite <- (B s d o E Ho). apply M.
  - intros ->. destruct (Trk y s d x Oy E Ho) as [G _]. match goal with A : heap_id ?v, B : huge_id ?v |- _ => exact (heap_not_huge v A B) end.
  - intros s' d' E'. destruct (Z.eq_dec o 1) as [K | K]; [ assumption | ].
    exfalso. apply N. destruct (Trk x s' d' o Ox E' K) as [_ Q1]. destruct (Trk y s d o Oy E K) as [_ Q2]. congruence.
Qed.

Lemma opaque_loop_ok : forall l fuel h a e, (length l <= fuel)%nat -> chain (mem h0) a e l ->
  (forall x, In x l -> is_obj h0 x /\ hsize h x = csize (mem h0 x) /\ color h x = color h0 x /\
                       (color h0 x = 0 -> fresh h x)) ->
  let h' := opaque_loop fuel h a e in
  same_but_mem h h' /\ gfins h h' /\
  (forall x, In x l -> color h0 x = 0 -> mem h' x = mkcell (c_hdr (mem h0 x)) (OOpaque []) /\ lg h' x) /\
  (forall y, c_hdr (mem h' y) = c_hdr (mem h y)) /\
  (forall y, ~ (In y l /\ color h0 y = 0) ->
     (forall x s d, In x l -> color h0 x = 0 -> body h0 x = OTracker s d y -> y = 1) -> mem h' y = mem h y).
Proof.
  induction l as [|x l IH]; intros fuel h a e Hf Hc Hx h'.
  - unfold h'. cbn [chain] in Hc. subst e.
    assert (E : opaque_loop fuel h a a = h).
    { destruct fuel; cbn [opaque_loop]; [ reflexivity | ]. destruct (a <? a) eqn:E; [ lia | reflexivity ]. }
    rewrite E. split; [ apply sb_refl | ]. split; [ apply gfins_refl; reflexivity | ].
    split; [ intros x [] | ]. split; reflexivity.
  - pose proof (chain_lt _ _ _ _ x Hc ltac:(left; reflexivity)) as Lt.
    pose proof (chain_nodup _ _ _ _ Hc) as ND.
    cbn [chain] in Hc. destruct Hc as [-> [s [Hh [Hs [Hm Hc]]]]].
    cbn [length] in Hf. destruct fuel as [|k]; [ lia | ]. unfold h'. clear h'. cbn [opaque_loop].
    destruct (a <? e) eqn:E; [ | lia ].
    destruct (Hx a ltac:(left; reflexivity)) as [Oa [Sa [Ca Fa]]].
    rewrite Sa, (csize_hsize _ _ Hh). unfold make_opaque. rewrite Ca.
    inversion ND as [|? ? Na ND']; subst.
    destruct (color h0 a =? 0) eqn:Cz.
    + assert (Cz' : color h0 a = 0) by lia. specialize (Fa Cz').
      destruct (finalize_spec h a Oa Cz' Fa) as [A1 [A2 [A3 [A4 [A5 A6]]]]]. cbv zeta in A1, A2, A3, A4, A5, A6.
      set (h1 := finalize_object h a) in *. set (h2 := set_body h1 a (OOpaque [])).
      assert (M2 : forall y, y <> a -> mem h2 y = mem h1 y).
      { intros y Hy. unfold h2. rewrite mem_set_body. destruct (y =? a) eqn:Q; [ lia | reflexivity ]. }
      assert (Ma : mem h2 a = mkcell (c_hdr (mem h0 a)) (OOpaque [])).
      { unfold h2. rewrite mem_set_body, Z.eqb_refl, A2. reflexivity. }
      assert (H2 : forall y, c_hdr (mem h2 y) = c_hdr (mem h y)).
      { intros y. unfold h2. rewrite mem_set_body. destruct (y =? a) eqn:Q; [ | apply A4 ].
        assert (y = a) as -> by lia. cbn [c_hdr]. apply A4. }
      assert (M3 : forall y, y <> a -> (forall s d, body h0 a = OTracker s d y -> y = 1) -> mem h2 y = mem h y).
      { intros y Hy Hy2. rewrite M2 by assumption. apply A3; assumption. }
      assert (SB : same_but_mem h h2) by (eapply sb_trans; [ exact A1 | apply sb_set_body ]).
      destruct (IH k h2 (a + s) e ltac:(lia) Hc) as [B1 [B2 [B3 [B4 B5]]]].
      { intros y Hy. destruct (Hx y ltac:(right; assumption)) as [Oy [Sy [Cy Fy]]].
        split; [ assumption | ]. split; [ | split ].
        - rewrite <- Sy. unfold hsize. rewrite H2. destruct (c_hdr (mem h y)); [ reflexivity | ].
          unfold csize. rewrite H2. reflexivity.
        - rewrite (sb_color _ _ SB). assumption.
        - intros C. eapply fresh_ext; [ exact Oa | exact Oy | intros ->; contradiction | exact M3 | exact A5 | auto ]. }
      cbv zeta in B1, B2, B3, B4, B5.
      split; [ eapply sb_trans; eassumption | ].
      split; [ eapply gfins_trans; [ exact A5 | ]; eapply gfins_trans; [ apply gfins_refl; reflexivity | exact B2 ] | ].
      split.
      { intros y [<- | Hy] C; [ | apply B3; assumption ]. split; [ | eapply lg_mono; [ exact B2 | exact A6 ] ]. rewrite B5; [ exact Ma | tauto | ].
        intros y' s' d' Hy' Cy' E'. destruct (Z.eq_dec a 1) as [-> | K]; [ reflexivity | exfalso ].
        destruct (Hx y' ltac:(right; assumption)) as [Oy' _].
        destruct (Trk y' s' d' a Oy' E' K) as [G _]. destruct (obj0 h0 OK0 Cur0 a Oa) as [_ [Ha _]].
        match goal with A : heap_id ?v, B : huge_id ?v |- _ => exact (heap_not_huge v A B) end. }
      split; [ intros y; rewrite B4; apply H2 | ].
      intros y Hy Hy2. rewrite B5.
      * apply M3; [ intros ->; apply Hy; split; [ left; reflexivity | assumption ] | ].
        intros s' d' E'. eapply Hy2; [ left; reflexivity | assumption | exact E' ].
      * intros [C1 C2]. apply Hy. split; [ right; assumption | assumption ].
      * intros y' s' d' Hy' Cy' E'. eapply Hy2; [ right; exact Hy' | assumption | exact E' ].
    + destruct (IH k h (a + s) e ltac:(lia) Hc) as [B1 [B2 [B3 [B4 B5]]]].
      { intros y Hy. apply Hx. right. assumption. }
      cbv zeta in B1, B2, B3, B4, B5.
      split; [ assumption | ]. split; [ assumption | ].
      split; [ intros y [<- | Hy] C; [ lia | apply B3; assumption ] | ].
      split; [ assumption | ].
      intros y Hy Hy2. apply B5.
      * intros [C1 C2]. apply Hy. split; [ right; assumption | assumption ].
      * intros y' s' d' Hy' Cy' E'. eapply Hy2; [ right; exact Hy' | assumption | exact E' ].
Qed.

(* The same for a page. *)
Lemma opaque_page_ok : forall h p l, In p (used h0) -> nalloc h p = nalloc h0 p -> pobjs h0 p l ->
  (forall x, In x l -> hsize h x = csize (mem h0 x) /\ color h x = color h0 x /\ (color h0 x = 0 -> fresh h x)) ->
  let h' := mark_unused_objects_opaque h p in
  same_but_mem h h' /\ gfins h h' /\
  (forall x, In x l -> color h0 x = 0 -> mem h' x = mkcell (c_hdr (mem h0 x)) (OOpaque []) /\ lg h' x) /\
  (forall y, c_hdr (mem h' y) = c_hdr (mem h y)) /\
  (forall y, heap_id y -> ~ (In y l /\ color h0 y = 0) -> mem h' y = mem h y) /\
  (forall o, huge_id o -> ~ (In (bref h0 o) l /\ color h0 (bref h0 o) = 0) -> mem h' o = mem h o).
Proof.
  intros h p l Hp Hn Hl Hx h'. destruct (page0 h0 OK0 Cur0 p Hp) as [_ [R _]].
  assert (Hf : (length l <= page_fuel h p)%nat) by (unfold page_fuel; rewrite Hn; apply (pobjs_len h0 p l ltac:(lia) Hl)).
  assert (Hc : chain (mem h0) (page_start p) (page_end h p) l) by (unfold page_start, page_end; rewrite Hn; exact Hl).
  assert (Hxo : forall x, In x l -> is_obj h0 x) by (intros x Hi; apply (obj0_intro h0 OK0 Cur0 p l x Hp Hl Hi)).
  destruct (opaque_loop_ok l (page_fuel h p) h _ _ Hf Hc) as [A [B [C [D F]]]].
  { intros x Hi. split; [ auto | ]. apply Hx. assumption. }
  fold (mark_unused_objects_opaque h p) in A, B, C, D, F. fold h' in A, B, C, D, F.
  repeat (split; [ assumption | ]). split.
  - intros y Hy Hn2. apply F; [ assumption | ]. intros x s d Hi Ci E.
    destruct (Z.eq_dec y 1) as [-> | K]; [ reflexivity | exfalso ].
    destruct (Trk x s d y (Hxo x Hi) E K) as [G _]. match goal with A : heap_id ?v, B : huge_id ?v |- _ => exact (heap_not_huge v A B) end.
  - intros o Ho Hn2. apply F.
    + intros [Hi _]. destruct (obj0 h0 OK0 Cur0 o (Hxo o Hi)) as [_ [G _]]. match goal with A : heap_id ?v, B : huge_id ?v |- _ => exact (heap_not_huge v A B) end.
    + intros x s d Hi Ci E. destruct (Z.eq_dec o 1) as [K | K]; [ assumption | exfalso ].
      destruct (Trk x s d o (Hxo x Hi) E K) as [_ G]. apply Hn2. rewrite G. auto.
Qed.

(* ------------------------------------------------------ counting *)

Lemma skip_white_some : forall fuel c a e b, skip_white fuel c a e = Some b ->
  exists k, b = a + 32 * k /\ 0 <= k /\ b < e /\ c b <> 0 /\ forall j, 0 <= j < k -> c (a + 32 * j) = 0.
Proof.
  induction fuel as [|n IH]; intros c a e b H; cbn [skip_white] in H; [ discriminate | ].
  destruct (a <? e) eqn:E; [ | discriminate ]. destruct (c a =? 0) eqn:Ca.
  - apply IH in H. destruct H as [k [-> [Hk [Hb [Hc Hj]]]]]. exists (k + 1).
    split; [ lia | ]. split; [ lia | ]. split; [ lia | ]. split; [ assumption | ].
    intros j Hjk. destruct (Z.eq_dec j 0) as [-> | N]; [ rewrite Z.mul_0_r, Z.add_0_r; lia | ].
    replace (a + 32 * j) with (a + 32 + 32 * (j - 1)) by lia. apply Hj. lia.
  - injection H as <-. exists 0. split; [ lia | ]. split; [ lia | ]. split; [ lia | ]. split; [ lia | ]. intros; lia.
Qed.

Lemma skip_white_none : forall fuel c a e, skip_white fuel c a e = None -> e - a <= 32 * Z.of_nat fuel ->
  forall j, 0 <= j -> a + 32 * j < e -> c (a + 32 * j) = 0.
Proof.
  induction fuel as [|n IH]; intros c a e H Hf j Hj Hlt; cbn [skip_white] in H; [ lia | ].
  destruct (a <? e) eqn:E; [ | lia ]. destruct (c a =? 0) eqn:Ca; [ | discriminate ].
  destruct (Z.eq_dec j 0) as [-> | N]; [ rewrite Z.mul_0_r, Z.add_0_r; lia | ].
  replace (a + 32 * j) with (a + 32 + 32 * (j - 1)) by lia. eapply IH; [ exact H | lia | lia | lia ].
Qed.

Definition slots (x : Z) : Z := csize (mem h0 x) / 32.
Definition live_slots (l : list Z) : Z :=
  fold_right Z.add 0 (map (fun x => if color h0 x =? 0 then 0 else slots x) l).

Lemma live_slots_app : forall l1 l2, live_slots (l1 ++ l2) = live_slots l1 + live_slots l2.
Proof.
  induction l1 as [|x l1 IH]; intros l2; [ reflexivity | ].
  unfold live_slots in *. cbn [app map fold_right]. rewrite IH. lia.
Qed.

Lemma live_slots_white : forall l, (forall x, In x l -> color h0 x = 0) -> live_slots l = 0.
Proof.
  induction l as [|x l IH]; intros H; [ reflexivity | ].
  unfold live_slots in *. cbn [map fold_right]. rewrite (H x) by (left; reflexivity).
  rewrite IH by (intros; apply H; right; assumption). reflexivity.
Qed.

Lemma count_loop_ok : forall l fuel h a e n, (length l <= fuel)%nat -> chain (mem h0) a e l ->
  (forall x, In x l -> mem h x = mem h0 x) -> color h = color h0 -> (e - a) mod 32 = 0 ->
  (forall k, 0 <= k -> a + 32 * k < e -> color h0 (a + 32 * k) <> 0 -> In (a + 32 * k) l) ->
  count_loop fuel h a e n = n + live_slots l.
Proof.
  intros l. remember (length l) as n0 eqn:L. assert (Ll : (length l <= n0)%nat) by lia. clear L. revert l Ll.
  induction n0 as [|n0 IH]; intros l Ll fuel h a e n Hf Hc Hm Hco Hmod Hin.
  - destruct l; [ | cbn [length] in Ll; lia ]. cbn [chain] in Hc. subst e.
    destruct fuel; cbn [count_loop]; [ change (live_slots []) with 0; lia | ].
    replace (a - a) with 0 by lia. cbn. change (live_slots []) with 0. lia.
  - pose proof (chain_le _ _ _ _ Hc) as Hle.
    assert (Hq : e - a = 32 * ((e - a) / 32)) by (clear - Hmod; Z.div_mod_to_equations; lia).
    destruct fuel as [|k]; [ lia | ]. cbn [count_loop]. rewrite Hco.
    destruct (skip_white (Z.to_nat ((e - a) / 32)) (color h0) a e) as [b|] eqn:Sk.
    + apply skip_white_some in Sk. destruct Sk as [j [-> [Hj [Hb [Hcb Hw]]]]].
      pose proof (Hin j Hj Hb Hcb) as Hbl. set (b := a + 32 * j) in *.
      apply in_split in Hbl. destruct Hbl as [l1 [l2 ->]].
      pose proof (chain_split _ _ _ _ _ Hc) as [b' [C1 C2]].
      cbn [chain] in C2. destruct C2 as [Eb [s [Hh [Hs [Hsm C2]]]]]. subst b'.
      assert (Wl1 : forall x, In x l1 -> color h0 x = 0).
      { intros x Hx. destruct (chain_in _ _ _ _ _ C1 Hx) as [k2 [s2 [-> [Hk2 [_ [Hs2 [_ He2]]]]]]]. apply Hw. unfold b in He2. lia. }
      rewrite Hm by (apply in_or_app; right; left; reflexivity).
      rewrite (csize_hsize _ _ Hh).
      rewrite (IH l2).
      * rewrite live_slots_app, (live_slots_white l1 Wl1). unfold live_slots at 2. cbn [map fold_right].
        fold (live_slots l2). destruct (color h0 b =? 0) eqn:Cb; [ lia | ].
        unfold slots. rewrite (csize_hsize _ _ Hh). lia.
      * rewrite app_length in Ll. cbn [length] in Ll. lia.
      * lia.
      * exact C2.
      * intros x Hx. apply Hm. apply in_or_app. right. right. assumption.
      * exact Hco.
      * unfold b. clear - Hmod Hsm. Z.div_mod_to_equations. lia.
      * intros k2 Hk2 Hlt Hcol.
        assert (Es : s = 32 * (s / 32)) by (clear - Hsm; Z.div_mod_to_equations; lia).
        assert (EE : b + s + 32 * k2 = a + 32 * (j + s / 32 + k2)) by (unfold b; lia).
        rewrite EE in *. pose proof (Hin (j + s / 32 + k2) ltac:(lia) Hlt Hcol) as Hi.
        apply in_app_or in Hi. destruct Hi as [Hi | [Hi | Hi]]; [ | | exact Hi ].
        -- pose proof (chain_lt _ _ _ _ _ C1 Hi). lia.
        -- lia.
    + assert (W : forall x, In x l -> color h0 x = 0).
      { intros x Hx. destruct (chain_in _ _ _ _ _ Hc Hx) as [k2 [s2 [-> [Hk2 [_ [Hs2 [_ He2]]]]]]].
        eapply skip_white_none; [ exact Sk | | lia | lia ]. rewrite Z2Nat.id by (clear - Hle; Z.div_mod_to_equations; lia). lia. }
      rewrite live_slots_white by exact W. lia.
Qed.

Lemma live_slots_full : forall l a e, chain (mem h0) a e l ->
  32 * live_slots l <= e - a /\ (32 * live_slots l = e - a -> forall x, In x l -> col h0 x).
Proof.
  induction l as [|x l IH]; intros a e Hc.
  - cbn [chain] in Hc. subst. change (live_slots []) with 0. split; [ lia | intros _ x [] ].
  - cbn [chain] in Hc. destruct Hc as [-> [s [Hh [Hs [Hm Hc]]]]].
    destruct (IH _ _ Hc) as [A B].
    assert (Es : s = 32 * (s / 32)) by (clear - Hm; Z.div_mod_to_equations; lia).
    unfold live_slots in *. cbn [map fold_right]. unfold slots at 1 3. rewrite (csize_hsize _ _ Hh).
    set (r := fold_right Z.add 0 (map (fun x => if color h0 x =? 0 then 0 else slots x) l)) in *.
    destruct (color h0 a =? 0) eqn:C; (split; [ lia | ]).
    + intros H. lia.
    + intros H x [<- | Hx]; [ unfold col; lia | ]. apply B; [ lia | assumption ].
Qed.

(* ------------------------------------------------------ one page *)

Section Page.
Variable hs : heap.
Variable T : list Z.
Variable P : Z.
Variable l0 : list Z.
Hypothesis HP : In P (used h0).
Hypothesis Hl0 : pobjs h0 P l0.

Definition pdr (rest : list Z) (x : Z) : Prop := In x rest \/ (is_obj h0 x /\ In (page_of x) T).

Record loopst (F : list Z) (M : list (Z * Z)) (done rest : list Z) (h : heap) (nevac : Z) : Prop := {
  l_core : core h0 T [P] F M (pdr rest) h;
  l_list : l0 = done ++ rest;
  l_color : color h = color h0;
  l_flags : pflags h = pflags hs;
  l_done : forall x, In x done -> (color h0 x = 0 -> mem h x = fin_cell (mem h0 x) /\ lg h x) /\
                                 (col h0 x -> exists w, In (x, w) M);
  l_fins : gfins hs h;
  l_nalloc : nalloc h P = nalloc h0 P;
  l_nevac : 0 <= nevac;
  l_none : nevac = 0 -> forall v w, In (v, w) M -> page_of v <> P
}.

Lemma l0_obj : forall x, In x l0 -> is_obj h0 x /\ page_of x = P.
Proof. intros x Hx. apply (obj0_intro h0 OK0 Cur0 P l0 x HP Hl0 Hx). Qed.

Lemma l0_nalloc : forall x, In x l0 -> nalloc h0 P <> 0.
Proof.
  intros x Hx. destruct (page0 h0 OK0 Cur0 P HP) as [A [B _]].
  destruct (pobjs_in h0 P l0 x A B Hl0 Hx) as [_ [_ [k [_ Hk]]]]. lia.
Qed.

Lemma P_notT : forall F M Pd h, core h0 T [P] F M Pd h -> ~ In P T /\ ~ In P (in_use h).
Proof.
  intros F M Pd h K. pose proof (k_nodup _ _ _ _ _ _ _ K) as ND. split; intros C.
  - apply nodup_app_r in ND. eapply nodup_app_disj; [ exact ND | exact C | left; reflexivity ].
  - eapply nodup_app_disj; [ exact ND | exact C | rewrite !in_app_iff; cbn [In]; tauto ].
Qed.

Lemma core_iff : forall Lp F M (Pd Pd' : Z -> Prop) h, core h0 T Lp F M Pd h -> (forall x, Pd x <-> Pd' x) ->
  core h0 T Lp F M Pd' h.
Proof.
  intros Lp F M Pd Pd' h K E. eapply core_mem; try eassumption; try (intros; apply E; assumption); try reflexivity.
  apply sb_refl.
Qed.

Lemma try_move : forall F M done a rest h nevac b h1,
  loopst F M done (a :: rest) h nevac -> col h0 a ->
  evacuate_object h a (csize (mem h a)) = (b, h1) ->
  if b then exists w, loopst F ((a, w) :: M) (done ++ [a]) rest h1 (nevac + 1)
  else loopst F M done (a :: rest) h1 nevac /\ cur h1 = None.
Proof.
  intros F M done a rest h nevac b h1 L Ca H.
  pose proof (l_core _ _ _ _ _ _ L) as K.
  assert (Al : In a l0) by (rewrite (l_list _ _ _ _ _ _ L); apply in_or_app; right; left; reflexivity).
  destruct (l0_obj a Al) as [Oa Pa].
  assert (Pda : pdr (a :: rest) a) by (left; left; reflexivity).
  destruct (k_pd _ _ _ _ _ _ _ K a Pda) as [_ [_ Ma]].
  destruct (obj0_size h0 OK0 Cur0 a Oa) as [s [Hs [Hs1 Hs2]]].
  rewrite Ma, (csize_hsize _ _ Hs) in H. unfold evacuate_object in H.
  destruct (alloc_object h s) as [r h2] eqn:AO.
  pose proof (alloc_object_spec h s r h2 (core_room _ _ _ _ _ _ _ K) Hs1 Hs2 AO) as SP.
  destruct r as [w|].
  - assert (b = true /\ h1 = set_mem h2 (fupd (fupd (mem h2) w (mem h2 a)) a (mkcell (HFwd w) (c_obj (fupd (mem h2) w (mem h2 a) a))))) as [-> ->]
      by (split; congruence). clear H.
    destruct SP as [q [na A]]. exists w.
    pose proof (core_move h0 OK0 Cur0 T [P] F M (pdr (a :: rest)) h a s h2 q na w K Pda Ca
                  ltac:(rewrite Pa; left; reflexivity)
                  ltac:(rewrite Pa, (l_nalloc _ _ _ _ _ _ L); exact (l0_nalloc a Al)) Hs Hs1 Hs2 A) as K2.
    cbv zeta in K2.
    set (h' := set_mem h2 (fupd (fupd (mem h2) w (mem h2 a)) a (mkcell (HFwd w) (c_obj (fupd (mem h2) w (mem h2 a) a))))) in *.
    pose proof (chain_nodup _ _ _ _ Hl0) as ND. rewrite (l_list _ _ _ _ _ _ L) in ND.
    assert (Na : ~ In a (done ++ rest)) by (apply NoDup_remove_2; assumption).
    destruct (P_notT _ _ _ _ K2) as [NT NU].
    destruct (al_same _ _ _ _ _ _ A) as [X1 X2 X3 X4 X5 X6 X7].
    assert (Wp : page_of w <> P).
    { destruct (k_moved _ _ _ _ _ _ _ K2 a w ltac:(left; reflexivity)) as [_ [_ [_ [_ [_ [_ [W _]]]]]]].
      destruct (core_obj _ _ _ _ _ _ _ _ K2 W) as [_ [W2 _]]. intros E. rewrite E in W2. contradiction. }
    assert (Nq : P <> q).
    { intros <-. apply Wp. rewrite (al_w _ _ _ _ _ _ A). apply slot_id_page. destruct (al_fit _ _ _ _ _ _ A).
      assert (0 < s / 32) by (clear - Hs1 Hs2; Z.div_mod_to_equations; lia). lia. }
    constructor.
    + eapply core_iff; [ exact K2 | ]. intros x. unfold pdr. cbn [In]. split.
      * intros [[[-> | Hx] | Hx] Hne]; [ congruence | left; assumption | right; assumption ].
      * intros [Hx | [Hx1 Hx2]]; (split; [ tauto | ]).
        -- intros ->. apply Na. apply in_or_app. right. assumption.
        -- intros ->. rewrite Pa in Hx2. contradiction.
    + rewrite <- app_assoc. apply (l_list _ _ _ _ _ _ L).
    + change (color h2 = color h0). rewrite X3. apply (l_color _ _ _ _ _ _ L).
    + change (pflags h2 = pflags hs). rewrite X4. apply (l_flags _ _ _ _ _ _ L).
    + intros x Hx. apply in_app_or in Hx. destruct Hx as [Hx | [<- | []]].
      * destruct (l_done _ _ _ _ _ _ L x Hx) as [D1 D2].
        split; [ | intros C; destruct (D2 C) as [w' Hw']; exists w'; right; assumption ].
        intros C. split; [ | intros d Hd; change (In d (fins h2)); rewrite X5; apply (D1 C); assumption ].
        rewrite <- (proj1 (D1 C)). unfold h'. cbn [set_mem mem].
        assert (Px : page_of x = P) by (apply l0_obj; rewrite (l_list _ _ _ _ _ _ L); apply in_or_app; left; assumption).
        rewrite !fupd_other.
        -- rewrite X1. reflexivity.
        -- intros ->. contradiction.
        -- intros ->. apply Na. apply in_or_app. left. assumption.
      * split; [ intros C; contradiction | ]. intros _. exists w. left. reflexivity.
    + eapply gfins_trans; [ apply (l_fins _ _ _ _ _ _ L) | apply gfins_refl; exact X5 ].
    + change (nalloc h2 P = nalloc h0 P). rewrite (al_other _ _ _ _ _ _ A) by assumption. apply (l_nalloc _ _ _ _ _ _ L).
    + pose proof (l_nevac _ _ _ _ _ _ L). lia.
    + intros Z0. pose proof (l_nevac _ _ _ _ _ _ L). lia.
  - destruct SP as [-> _]. assert (b = false /\ h1 = release_cur h) as [-> ->] by (split; congruence).
    destruct (release_cur_spec h) as [[X1 X2 X3 X4 X5 X6 X7] [[B1 [B2 B3]] [C [D G]]]].
    split; [ | exact C ]. constructor.
    + apply core_release. exact K.
    + apply (l_list _ _ _ _ _ _ L).
    + rewrite X3. apply (l_color _ _ _ _ _ _ L).
    + rewrite X4. apply (l_flags _ _ _ _ _ _ L).
    + unfold lg. rewrite X1, X5. apply (l_done _ _ _ _ _ _ L).
    + eapply gfins_trans; [ apply (l_fins _ _ _ _ _ _ L) | apply gfins_refl; exact X5 ].
    + rewrite B1. apply (l_nalloc _ _ _ _ _ _ L).
    + apply (l_nevac _ _ _ _ _ _ L).
    + apply (l_none _ _ _ _ _ _ L).
Qed.

Lemma do_finalize : forall F M done a rest h nevac,
  loopst F M done (a :: rest) h nevac -> color h0 a = 0 ->
  loopst F M (done ++ [a]) rest (finalize_object h a) nevac.
Proof.
  intros F M done a rest h nevac L Ca.
  pose proof (l_core _ _ _ _ _ _ L) as K.
  assert (Al : In a l0) by (rewrite (l_list _ _ _ _ _ _ L); apply in_or_app; right; left; reflexivity).
  destruct (l0_obj a Al) as [Oa Pa]. destruct (obj0 h0 OK0 Cur0 a Oa) as [_ [Ha _]].
  assert (Pda : pdr (a :: rest) a) by (left; left; reflexivity).
  destruct (k_pd _ _ _ _ _ _ _ K a Pda) as [_ [_ Ma]].
  pose proof (chain_nodup _ _ _ _ Hl0) as ND. rewrite (l_list _ _ _ _ _ _ L) in ND.
  assert (Na : ~ In a (done ++ rest)) by (apply NoDup_remove_2; assumption).
  destruct (P_notT _ _ _ _ K) as [NT NU].
  assert (Np : ~ pdr rest a).
  { intros [C | [_ C]]; [ apply Na; apply in_or_app; right; assumption | rewrite Pa in C; contradiction ]. }
  destruct (finalize_spec h a Oa Ca) as [A1 [A2 [A3 [A4 [A5 A6]]]]].
  { left. split; [ assumption | ]. intros s d o E Ho. destruct (Trk a s d o Oa E Ho) as [G1 G2].
    apply (k_huge _ _ _ _ _ _ _ K); [ assumption | ]. right. rewrite G2. exact Pda. }
  cbv zeta in A1, A2, A3, A4, A5, A6. set (h' := finalize_object h a) in *.
  assert (MH : forall x, heap_id x -> x <> a -> mem h' x = mem h x).
  { intros x Hx Hne. apply A3; [ assumption | ]. intros s d E. destruct (Z.eq_dec x 1) as [K1 | K1]; [ assumption | exfalso ].
    destruct (Trk a s d x Oa E K1) as [G _]. match goal with A : heap_id ?v, B : huge_id ?v |- _ => exact (heap_not_huge v A B) end. }
  constructor.
  - eapply core_mem; [ exact K | exact A1 | | | | | | ].
    + intros x [Hx | Hx]; [ left; right; assumption | right; assumption ].
    + intros v Hv Cv [[<- | Hx] | Hx]; [ contradiction | left; assumption | right; assumption ].
    + intros x Hx Hu. apply MH; [ assumption | ]. intros ->. rewrite Pa in Hu. contradiction.
    + intros v Hv Cv. destruct (obj0 h0 OK0 Cur0 v Hv) as [_ [Hh _]]. apply MH; [ assumption | ]. intros ->. contradiction.
    + intros x Hx. destruct (k_pd _ _ _ _ _ _ _ K x) as [Ox _]; [ destruct Hx as [Hx | Hx]; [ left; right; assumption | right; assumption ] | ].
      destruct (obj0 h0 OK0 Cur0 x Ox) as [_ [Hh _]]. apply MH; [ assumption | ]. intros ->. contradiction.
    + intros o Ho Hc. apply A3; [ intros ->; match goal with A : heap_id ?v, B : huge_id ?v |- _ => exact (heap_not_huge v A B) end | ].
      intros s d E. destruct (Z.eq_dec o 1) as [K1 | K1]; [ assumption | exfalso ].
      destruct (Trk a s d o Oa E K1) as [_ G]. rewrite G in Hc. destruct Hc as [Hc | Hc]; contradiction.
  - rewrite <- app_assoc. apply (l_list _ _ _ _ _ _ L).
  - rewrite (sb_color _ _ A1). apply (l_color _ _ _ _ _ _ L).
  - rewrite (sb_flags _ _ A1). apply (l_flags _ _ _ _ _ _ L).
  - intros x Hx. apply in_app_or in Hx. destruct Hx as [Hx | [<- | []]].
    + destruct (l_done _ _ _ _ _ _ L x Hx) as [D1 D2]. split; [ | assumption ].
      intros C. split; [ | eapply lg_mono; [ exact A5 | apply (D1 C) ] ]. rewrite <- (proj1 (D1 C)). apply MH.
      * destruct (l0_obj x) as [Ox _]; [ rewrite (l_list _ _ _ _ _ _ L); apply in_or_app; left; assumption | ].
        destruct (obj0 h0 OK0 Cur0 x Ox) as [_ [Hh _]]. assumption.
      * intros ->. apply Na. apply in_or_app. left. assumption.
    + split; [ intros _; split; [ exact A2 | exact A6 ] | intros C; contradiction ].
  - eapply gfins_trans; [ apply (l_fins _ _ _ _ _ _ L) | exact A5 ].
  - rewrite (sb_nalloc _ _ A1). apply (l_nalloc _ _ _ _ _ _ L).
  - apply (l_nevac _ _ _ _ _ _ L).
  - apply (l_none _ _ _ _ _ _ L).
Qed.

Lemma do_unlock : forall F M done rest h nevac h' keep any,
  loopst F M done rest h nevac -> unlock_pages h F = (h', keep, any) ->
  loopst keep M done rest h' nevac /\ incl keep F /\ cur h' = cur h.
Proof.
  intros F M done rest h nevac h' keep any L H.
  destruct (core_unlock h0 T [P] F M _ h h' keep any (l_core _ _ _ _ _ _ L) H) as [A [B [C [D [G [I J]]]]]].
  split; [ | split; assumption ]. constructor.
  - exact A.
  - apply (l_list _ _ _ _ _ _ L).
  - rewrite C. apply (l_color _ _ _ _ _ _ L).
  - rewrite J. apply (l_flags _ _ _ _ _ _ L).
  - assert (E : mem h' = mem h) by (unfold unlock_pages in H; injection H as <- _ _; reflexivity).
    unfold lg. rewrite E, D. apply (l_done _ _ _ _ _ _ L).
  - eapply gfins_trans; [ apply (l_fins _ _ _ _ _ _ L) | apply gfins_refl; exact D ].
  - rewrite I by (apply in_or_app; right; left; reflexivity). apply (l_nalloc _ _ _ _ _ _ L).
  - apply (l_nevac _ _ _ _ _ _ L).
  - apply (l_none _ _ _ _ _ _ L).
Qed.

Lemma evac_loop_ok : forall rest fuel h F M done a e nevac h' F' nevac' res,
  (length rest <= fuel)%nat -> chain (mem h0) a e rest -> loopst F M done rest h nevac ->
  evac_loop fuel h F a e nevac = (h', F', nevac', res) ->
  exists M', incl F' F /\
  match res with
  | None => loopst F' M' l0 [] h' nevac'
  | Some v => exists done' rest', loopst F' M' done' rest' h' nevac' /\ cur h' = None /\
                                  chain (mem h0) v e rest' /\ In v rest'
  end.
Proof.
  induction rest as [|x rest IH]; intros fuel h F M done a e nevac h' F' nevac' res Hf Hc L H.
  - cbn [chain] in Hc. subst e.
    assert (E : evac_loop fuel h F a a nevac = (h, F, nevac, None)).
    { destruct fuel; cbn [evac_loop]; [ reflexivity | ]. destruct (a <? a) eqn:E; [ lia | reflexivity ]. }
    rewrite E in H. assert (h' = h /\ F' = F /\ nevac' = nevac /\ res = None) as [-> [-> [-> ->]]] by (repeat split; congruence).
    exists M. split; [ apply incl_refl | ].
    assert (done = l0) as -> by (rewrite (l_list _ _ _ _ _ _ L), app_nil_r; reflexivity). exact L.
  - pose proof (chain_lt _ _ _ _ x Hc ltac:(left; reflexivity)) as Lt. pose proof Hc as Hc0.
    cbn [chain] in Hc. destruct Hc as [-> [s [Hh [Hs [Hm Hc]]]]].
    cbn [length] in Hf. destruct fuel as [|k]; [ lia | ]. cbn [evac_loop] in H.
    destruct (a <? e) eqn:E; [ | lia ].
    pose proof (l_core _ _ _ _ _ _ L) as K.
    destruct (k_pd _ _ _ _ _ _ _ K a ltac:(left; left; reflexivity)) as [Oa [_ Ma]].
    assert (Es : csize (mem h a) = s) by (rewrite Ma; apply csize_hsize; assumption).
    rewrite (l_color _ _ _ _ _ _ L) in H.
    destruct (color h0 a =? 0) eqn:C.
    + rewrite Es in H. eapply IH; [ | exact Hc | | exact H ]; [ lia | ]. apply do_finalize; [ exact L | lia ].
    + assert (Ca : col h0 a) by (unfold col; lia).
      destruct (evacuate_object h a (csize (mem h a))) as [b h1] eqn:EO.
      pose proof (try_move F M done a rest h nevac b h1 L Ca EO) as TM.
      destruct b.
      * destruct TM as [w L2]. rewrite Es in H. eapply IH; [ | exact Hc | exact L2 | exact H ]. lia.
      * destruct TM as [L1 Cu1].
        assert (R1 : release_cur h1 = h1) by (unfold release_cur; rewrite Cu1; reflexivity).
        rewrite R1 in H.
        destruct (unlock_pages h1 F) as [[h3 F3] any] eqn:UN.
        destruct (do_unlock F M done _ h1 nevac h3 F3 any L1 UN) as [L3 [I3 Cu3]].
        destruct any.
        -- assert (Es3 : csize (mem h a) = csize (mem h3 a)).
           { destruct (k_pd _ _ _ _ _ _ _ (l_core _ _ _ _ _ _ L3) a ltac:(left; left; reflexivity)) as [_ [_ M3]]. congruence. }
           rewrite Es3 in H.
           destruct (evacuate_object h3 a (csize (mem h3 a))) as [b h4] eqn:EO2.
           pose proof (try_move F3 M done a rest h3 nevac b h4 L3 Ca EO2) as TM2.
           destruct b.
           ++ destruct TM2 as [w L4]. rewrite <- Es3, Es in H.
              destruct (IH k h4 F3 _ _ (a + s) e (nevac + 1) h' F' nevac' res ltac:(lia) Hc L4 H) as [M' [I' R']].
              exists M'. split; [ eapply incl_tran; eassumption | exact R' ].
           ++ destruct TM2 as [L4 Cu4].
              assert (h' = h4 /\ F' = F3 /\ nevac' = nevac /\ res = Some a) as [-> [-> [-> ->]]] by (repeat split; congruence).
              exists M. split; [ assumption | ]. exists done, (a :: rest). split; [ exact L4 | ]. split; [ assumption | ].
              split; [ exact Hc0 | left; reflexivity ].
        -- assert (h' = h3 /\ F' = F3 /\ nevac' = nevac /\ res = Some a) as [-> [-> [-> ->]]] by (repeat split; congruence).
           exists M. split; [ assumption | ]. exists done, (a :: rest). split; [ exact L3 | ]. split; [ congruence | ].
           split; [ exact Hc0 | left; reflexivity ].
Qed.

End Page.
End Evac.
