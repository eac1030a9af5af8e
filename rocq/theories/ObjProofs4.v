(* Objects: sequences of operations and walks. *)
From Coq Require Import ZArith List Lia Bool ZifyBool.
Import ListNotations.
From Verif Require Import Base ListZ ArraySpec ArrayProofs ObjModel ObjSpec ObjCalls ObjProofs ObjProofs2 ObjProofs3.
Local Open Scope Z_scope.
Ltac Zify.zify_post_hook ::= idtac.

Section World.
Variable hash : key -> Z.
Variable alloc_ok : Z -> bool.
Hypothesis alloc_range : forall c, alloc_ok c = true -> 0 < c <= 2147483648.

Lemma own_abs : forall w o k, wwf hash w -> own (abs w) o k = sval_of (omap w o k).
Proof.
  intros w o k W. unfold own. rewrite abs_nth. destruct (nth_error (w_objs w) o) as [ob|] eqn:E.
  - cbn [option_map]. pose proof (abs_own hash w o ob W E) as A. destruct (o_props ob) eqn:P.
    + destruct A as [m [-> Hm]]. apply Hm.
    + rewrite A. unfold omap, props_of. rewrite E, P. reflexivity.
  - cbn [option_map]. unfold omap, props_of. rewrite E. reflexivity.
Qed.

Lemma abs_length : forall w, length (abs w) = length (w_objs w).
Proof. intros. apply map_length. Qed.

Lemma abs_own_none : forall w o ob, wwf hash w -> nth_error (w_objs w) o = Some ob -> (s_own (abs_obj w ob) = None <-> o_props ob = None).
Proof.
  intros w o ob W E. pose proof (abs_own hash w o ob W E) as A. destruct (o_props ob).
  - destruct A as [m [-> _]]. split; discriminate.
  - tauto.
Qed.

Lemma has_own_abs : forall w o, wwf hash w -> (has_own (abs w) o <-> props_of w o <> None).
Proof.
  intros w o W. unfold has_own, props_of. split.
  - intros [ob [m [E S]]]. rewrite abs_nth in E. destruct (nth_error (w_objs w) o) as [ob0|] eqn:E0; [ | discriminate ].
    cbn [option_map] in E. inversion E. subst ob. intros P. apply (abs_own_none w o ob0 W E0) in P. congruence.
  - intros P. destruct (nth_error (w_objs w) o) as [ob0|] eqn:E0; [ | congruence ].
    pose proof (abs_own hash w o ob0 W E0) as A. destruct (o_props ob0); [ | congruence ]. destruct A as [m [A _]].
    exists (abs_obj w ob0), m. rewrite abs_nth, E0. auto.
Qed.

(* objects other than o keep their properties *)
Lemma frame_omap : forall o w w' o' k, wwf hash w -> frame o w w' -> o' <> o -> omap w' o' k = omap w o' k.
Proof.
  intros o w w' o' k W F N. unfold omap.
  assert (P : props_of w' o' = props_of w o') by (unfold props_of; rewrite (fr_objs _ _ _ F o' N); reflexivity).
  rewrite P. destruct (props_of w o') as [[n|]|] eqn:Po; try reflexivity.
  destruct (wwf_table hash w o' n W Po) as [t [G _]]. rewrite G, (fr_other _ _ _ F n t G); [ reflexivity | ].
  intros Pn. apply N. apply (proj2 W o' o n Po Pn).
Qed.

Lemma frame_abs : forall o w w', wwf hash w -> wwf hash w' -> frame o w w' ->
  length (abs w') = length (abs w) /\
  (forall o', option_map s_proto (nth_error (abs w') o') = option_map s_proto (nth_error (abs w) o')) /\
  (forall o' ob ob', nth_error (abs w) o' = Some ob -> nth_error (abs w') o' = Some ob' -> (s_own ob' = None <-> s_own ob = None)).
Proof.
  intros o w w' W W' F. split; [ rewrite !abs_length; apply (fr_len _ _ _ F) | ].
  assert (Q : forall o', match nth_error (w_objs w) o', nth_error (w_objs w') o' with
     | Some a, Some b => o_proto b = o_proto a /\ (o_props b = None <-> o_props a = None)
     | None, None => True
     | _, _ => False
     end).
  { intros o'. destruct (Nat.eq_dec o' o) as [->|N].
    - destruct (nth_error (w_objs w) o) as [a|] eqn:E.
      + destruct (fr_obj _ _ _ F a E) as [b [-> H]]. exact H.
      + apply nth_error_None in E. rewrite <- (fr_len _ _ _ F) in E. apply nth_error_None in E. rewrite E. exact I.
    - rewrite (fr_objs _ _ _ F o' N). destruct (nth_error (w_objs w) o'); [ tauto | exact I ]. }
  split.
  - intros o'. rewrite !abs_nth. specialize (Q o'). destruct (nth_error (w_objs w) o'), (nth_error (w_objs w') o'); cbn [option_map]; try tauto.
    destruct Q as [Q _]. cbn. rewrite Q. reflexivity.
  - intros o' ob ob'. rewrite !abs_nth. specialize (Q o').
    destruct (nth_error (w_objs w) o') as [a|] eqn:Ea, (nth_error (w_objs w') o') as [b|] eqn:Eb; cbn [option_map]; try discriminate.
    intros X Y. inversion X. inversion Y. subst. rewrite (abs_own_none w' o' b W' Eb), (abs_own_none w o' a W Ea). tauto.
Qed.

Lemma frame_unchanged : forall o w w', wwf hash w -> wwf hash w' -> frame o w w' -> (forall k, omap w' o k = omap w o k) -> unchanged (abs w) (abs w').
Proof.
  intros o w w' W W' F H. destruct (frame_abs o w w' W W' F) as [A [B C]]. split; [ exact A | ]. split; [ exact B | ]. split; [ exact C | ].
  intros o' k. rewrite !own_abs by assumption. destruct (Nat.eq_dec o' o) as [->|N]; [ rewrite H; reflexivity | ].
  rewrite (frame_omap o w w' o' k W F N). reflexivity.
Qed.

Lemma frame_changes : forall o w w' k v, wwf hash w -> wwf hash w' -> frame o w w' ->
  (forall k', omap w' o k' = if keyb k' k then v else omap w o k') -> changes (abs w) (abs w') o k (sval_of v).
Proof.
  intros o w w' k v W W' F H. destruct (frame_abs o w w' W W' F) as [A [B C]]. split; [ exact A | ]. split; [ exact B | ]. split; [ exact C | ].
  intros o' k'. rewrite !own_abs by assumption. destruct (Nat.eqb_spec o' o) as [->|N].
  - rewrite H. unfold keyb. cbn [andb]. destruct (list_eq_dec Z.eq_dec k' k); reflexivity.
  - cbn [andb]. rewrite (frame_omap o w w' o' k' W F N). reflexivity.
Qed.

Lemma unchanged_refl : forall l, unchanged l l.
Proof. intros l. split; [ reflexivity | ]. split; [ reflexivity | ]. split; [ | reflexivity ]. intros o' a b E1 E2. replace b with a by congruence. tauto. Qed.

Lemma okval_of : forall v, okval (pval_of v).
Proof. intros [v|v]; right; exact I. Qed.
Lemma sval_pval : forall v, sval_of (prop_of (Some (pval_of v))) = Some v.
Proof. intros [v|v]; reflexivity. Qed.
Lemma pval_of_tomb : forall v, pval_of v <> Tomb.
Proof. intros [v|v]; discriminate. Qed.

(* what may happen to the state *)
Definition wstep (w w' : world) : Prop :=
  (exists o, frame o w w') \/ (exists ob, o_props ob = Some None /\ w' = World (w_tables w) (w_objs w ++ [ob])).

Lemma new_obj_wf : forall w p, wwf hash w -> (forall q, p = Some q -> (q < length (w_objs w))%nat) ->
  wwf hash (World (w_tables w) (w_objs w ++ [Obj (Some None) p])).
Proof.
  intros w p [W1 W2] Hp.
  assert (N : forall o ob, nth_error (w_objs w ++ [Obj (Some None) p]) o = Some ob ->
     nth_error (w_objs w) o = Some ob \/ (o = length (w_objs w) /\ ob = Obj (Some None) p)).
  { intros o ob E. destruct (Nat.lt_ge_cases o (length (w_objs w))) as [L|L].
    - rewrite nth_error_app1 in E by exact L. auto.
    - rewrite nth_error_app2 in E by exact L. destruct (o - length (w_objs w))%nat as [|[|x]] eqn:D; cbn [nth_error] in E; try discriminate.
      inversion E. right. split; [ lia | reflexivity ]. }
  split.
  - intros o ob E. cbn [w_objs] in E. destruct (N o ob E) as [Q|[-> ->]].
    + apply (W1 o ob Q).
    + cbn [o_props o_proto]. split; [ discriminate | ]. intros q Eq. apply Hp. exact Eq.
  - intros o1 o2 n P1 P2. unfold props_of in P1, P2. cbn [w_objs] in P1, P2.
    destruct (nth_error (w_objs w ++ [Obj (Some None) p]) o1) as [b1|] eqn:E1; [ | discriminate ].
    destruct (nth_error (w_objs w ++ [Obj (Some None) p]) o2) as [b2|] eqn:E2; [ | discriminate ].
    destruct (N _ _ E1) as [Q1|[_ ->]]; [ | discriminate ]. destruct (N _ _ E2) as [Q2|[_ ->]]; [ | discriminate ].
    apply (W2 o1 o2 n); unfold props_of; rewrite ?Q1, ?Q2; assumption.
Qed.

Lemma tomb_frame : forall w w' o o' k, wwf hash w -> frame o w w' -> o' <> o -> tomb w' o' k -> tomb w o' k.
Proof.
  intros w w' o o' k W F N [n [t [P [G A]]]].
  assert (P0 : props_of w o' = Some (Some n)) by (rewrite <- P; unfold props_of; rewrite (fr_objs _ _ _ F o' N); reflexivity).
  destruct (wwf_table hash w o' n W P0) as [t0 [G0 _]]. exists n, t0. split; [ exact P0 | ]. split; [ exact G0 | ].
  assert (Gw : get_table w' n = Some t0). { apply (fr_other _ _ _ F n t0 G0). intros Pn. apply N. apply (proj2 W o' o n P0 Pn). }
  congruence.
Qed.
Lemma tomb_put : forall w w' o k v, wwf hash w -> frame o w w' -> (forall k', tomb w' o k' -> tomb w o k' \/ k' = k /\ pval_of v = Tomb) ->
  forall o' k', tomb w' o' k' -> tomb w o' k' \/ Put o k v = Delete o' k'.
Proof.
  intros w w' o k v W F Tb o' k' Tk. left. destruct (Nat.eq_dec o' o) as [->|N]; [ | apply (tomb_frame w w' o o' k' W F N Tk) ].
  destruct (Tb k' Tk) as [X|[_ X]]; [ exact X | destruct (pval_of_tomb _ X) ].
Qed.
Lemma tomb_del : forall w w' o k, wwf hash w -> frame o w w' -> (forall k', tomb w' o k' -> tomb w o k' \/ k' = k /\ Tomb = Tomb) ->
  forall o' k', tomb w' o' k' -> tomb w o' k' \/ Delete o k = Delete o' k'.
Proof.
  intros w w' o k W F Tb o' k' Tk. destruct (Nat.eq_dec o' o) as [->|N]; [ | left; apply (tomb_frame w w' o o' k' W F N Tk) ].
  destruct (Tb k' Tk) as [X|[-> _]]; auto.
Qed.

Lemma run_op_ok : forall w x, wwf hash w -> valid (abs w) x ->
  exists out w', run_op alloc_ok hash w x = Some (out, w') /\ (wwf hash w' /\ forall o k, tomb w' o k -> tomb w o k \/ x = Delete o k) /\
    wstep w w' /\ step (abs w) x out (abs w').
Proof.
  intros w x W V. destruct x as [o k v|o k|o k shallow|p]; cbn [valid run_op] in *; rewrite ?abs_length in V.
  - destruct (props_of w o) as [p|] eqn:P.
    + pose proof (set_property_ok hash alloc_ok alloc_range w o k (pval_of v) W ltac:(congruence) (okval_of v)) as S.
      assert (HO : has_own (abs w) o) by (apply has_own_abs; [ exact W | congruence ]).
      destruct (set_property alloc_ok hash w o k (pval_of v)) as [w'|w'|d w'|]; cbn [set_result ores_outcome] in *; [ | | | contradiction ].
      * destruct S as [[W' [F Tb]] [ND M]]. exists Done, w'. split; [ reflexivity | ]. split; [ split; [ exact W' | apply (tomb_put w w' o k v W F Tb) ] | ]. split; [ left; eauto | ].
        apply st_put; [ exact HO | | ].
        -- intros d. rewrite own_abs by exact W. specialize (ND (pval_of_tomb v)). intros Ed.
           destruct (omap w o k) as [[| | | |y]|]; try discriminate. apply (ND y). reflexivity.
        -- rewrite <- sval_pval. apply frame_changes; assumption.
      * destruct S as [[W' [F Tb]] M]. exists Raised, w'. split; [ reflexivity | ]. split; [ split; [ exact W' | apply (tomb_put w w' o k v W F Tb) ] | ]. split; [ left; eauto | ].
        destruct M as [M|[ND M]].
        -- apply st_put_fail; [ exact HO | ]. apply (frame_unchanged o); assumption.
        -- apply st_put_late; [ exact HO | | ].
           ++ intros d. rewrite own_abs by exact W. specialize (ND (pval_of_tomb v)). intros Ed.
              destruct (omap w o k) as [[| | | |y]|]; try discriminate. apply (ND y). reflexivity.
           ++ rewrite <- sval_pval. apply frame_changes; assumption.
      * destruct S as [[W' [F Tb]] [_ [D M]]]. exists (Setter d), w'. split; [ reflexivity | ]. split; [ split; [ exact W' | apply (tomb_put w w' o k v W F Tb) ] | ]. split; [ left; eauto | ].
        apply st_setter; [ rewrite own_abs, D by exact W; reflexivity | ]. apply (frame_unchanged o); assumption.
    + rewrite set_property_none by exact P. cbn [ores_outcome]. exists Raised, w. split; [ reflexivity | ]. split; [ auto | ].
      split; [ left; exists o; apply frame_refl | ]. apply st_put_none; [ | apply unchanged_refl ]. intros H. apply has_own_abs in H; [ congruence | exact W ].
  - unfold delete_property. destruct (props_of w o) as [p|] eqn:P.
    + pose proof (set_property_ok hash alloc_ok alloc_range w o k Tomb W ltac:(congruence) (or_introl eq_refl)) as S.
      assert (HO : has_own (abs w) o) by (apply has_own_abs; [ exact W | congruence ]).
      destruct (set_property alloc_ok hash w o k Tomb) as [w'|w'|d w'|]; cbn [set_result ores_outcome] in *; [ | | | contradiction ].
      * destruct S as [[W' [F Tb]] [_ M]]. exists Done, w'. split; [ reflexivity | ]. split; [ split; [ exact W' | apply (tomb_del w w' o k W F Tb) ] | ]. split; [ left; eauto | ].
        apply st_del; [ exact HO | ]. apply (frame_changes o w w' k (prop_of (Some Tomb))); assumption.
      * destruct S as [[W' [F Tb]] M]. exists Raised, w'. split; [ reflexivity | ]. split; [ split; [ exact W' | apply (tomb_del w w' o k W F Tb) ] | ]. split; [ left; eauto | ].
        destruct M as [M|[_ M]].
        -- apply st_del_fail; [ exact HO | ]. apply (frame_unchanged o); assumption.
        -- apply st_del_late; [ exact HO | ]. apply (frame_changes o w w' k (prop_of (Some Tomb))); assumption.
      * destruct S as [_ [N _]]. congruence.
    + cbn [ores_outcome]. exists Done, w. split; [ reflexivity | ]. split; [ auto | ].
      split; [ left; exists o; apply frame_refl | ]. apply st_del_none; [ | apply unchanged_refl ]. intros H. apply has_own_abs in H; [ congruence | exact W ].
  - pose proof (get_ok hash w o k shallow W V) as G. unfold get_post in G.
    destruct (get_property hash w o k shallow) as [[| |v|] w']; cbn [fst snd] in G; destruct G as [-> G]; try contradiction.
    + exists Absent, w. split; [ reflexivity | ]. split; [ auto | ]. split; [ left; exists o; apply frame_refl | ].
      destruct shallow.
      * apply st_own_absent; [ rewrite own_abs, G by exact W; reflexivity | apply unchanged_refl ].
      * apply st_absent; [ exact G | apply unchanged_refl ].
    + destruct G as [L G]. destruct (live_sval v L) as [s Hs]. rewrite Hs. exists (Found s), w. split; [ reflexivity | ]. split; [ auto | ].
      split; [ left; exists o; apply frame_refl | ]. destruct shallow.
      * apply st_own; [ rewrite own_abs, G by exact W; exact Hs | apply unchanged_refl ].
      * destruct G as [s' [Hs' S]]. assert (s' = s) by congruence. subst s'. apply st_found; [ exact S | apply unchanged_refl ].
  - cbn [new_object]. exists (Created (length (w_objs w))), (World (w_tables w) (w_objs w ++ [Obj (Some None) p])). split; [ reflexivity | ].
    split; [ | split ].
    + split; [ apply new_obj_wf; [ exact W | ]; intros q ->; rewrite ?abs_length in V; exact V | ].
      intros o k [n [t [P [G A]]]]. left. exists n, t. split; [ | auto ]. unfold props_of in *. cbn [w_objs] in P.
      destruct (Nat.lt_ge_cases o (length (w_objs w))) as [L|L]; [ rewrite nth_error_app1 in P by exact L; exact P | ].
      rewrite nth_error_app2 in P by exact L. destruct (o - length (w_objs w))%nat as [|[|y]]; discriminate.
    + right. exists (Obj (Some None) p). auto.
    + assert (A : abs (World (w_tables w) (w_objs w ++ [Obj (Some None) p])) = abs w ++ [SObj (Some no_props) p]).
      { unfold abs. cbn [w_objs]. rewrite map_app. cbn [map]. reflexivity. }
      rewrite A, <- (abs_length w). apply st_create.
Qed.

Lemma empty_wf : wwf hash empty_world.
Proof.
  split.
  - intros o ob E. destruct o; discriminate.
  - intros o1 o2 n P. unfold props_of in P. destruct o1; discriminate.
Qed.

Lemma step_length : forall l x out l', step l x out l' -> length l' = match x with Create _ => S (length l) | _ => length l end.
Proof.
  intros l x out l' S. inversion S; subst; try (match goal with H : changes _ _ _ _ _ |- _ => apply H | H : unchanged _ _ |- _ => apply H end).
  rewrite app_length. cbn. lia.
Qed.

Lemma run_ok : forall xs w, wwf hash w -> valid_ops (length (abs w)) xs ->
  exists outs w', run alloc_ok hash w xs = Some (outs, w') /\ wwf hash w' /\ steps (abs w) xs outs (abs w') /\
    (forall o k, tomb w' o k -> tomb w o k \/ In (Delete o k) xs).
Proof.
  induction xs as [|x xs IH]; intros w W V.
  - exists [], w. split; [ reflexivity | ]. split; [ exact W | ]. split; [ constructor | auto ].
  - assert (V1 : valid (abs w) x /\ valid_ops (match x with Create _ => S (length (abs w)) | _ => length (abs w) end) xs).
    { cbn [valid_ops] in V. destruct x as [? ? ?|? ?|? ? ?|[p|]]; cbn [valid]; tauto. }
    destruct V1 as [V1 V2]. destruct (run_op_ok w x W V1) as [out [w1 [R [[W1 Tb1] [_ S1]]]]].
    rewrite <- (step_length _ _ _ _ S1) in V2. destruct (IH w1 W1 V2) as [outs [w2 [R2 [W2 [S2 Tb2]]]]].
    exists (out :: outs), w2. cbn [run]. rewrite R, R2. split; [ reflexivity | ]. split; [ exact W2 | ].
    split; [ econstructor; eassumption | ]. intros o k Tk. cbn [In]. destruct (Tb2 o k Tk) as [X|X]; [ destruct (Tb1 o k X); auto | auto ].
Qed.

(* ---- shallow walks ---- *)

Record winv (w : world) (k : walker) (o : nat) (i : Z) : Prop := WInv {
  wi_index : k_index k = i;
  wi_deep : k_deep k = false;
  wi_obj : k_prop_obj k = o;
  wi_ret : k_returned k = None;
  wi_nonneg : 0 <= i;
  wi_lt : (o < length (w_objs w))%nat;
  wi_table : forall n, k_table k = Some n -> exists t, get_table w n = Some t /\ once t /\ len (t_items t) = t_cap t /\ t_cap t <= 2147483648 /\
     (props_of w o = Some (Some n) \/ (exists m, dead t m)) }.

Definition slots (w : world) (k : walker) : Z :=
  match k_table k with Some n => match get_table w n with Some t => t_cap t | None => 0 end | None => 0 end.
Definition slot_key (w : world) (k : walker) (j : Z) : option key :=
  match k_table k with Some n => match get_table w n with Some t => kat (t_items t) j | None => None end | None => None end.

Lemma total_ge : forall (l : list table) n t, nth_error l n = Some t ->
  (length (t_items t) <= fold_right (fun t n => (length (t_items t) + n)%nat) 0%nat l)%nat.
Proof.
  induction l as [|a l IH]; intros [|n] t E; cbn [nth_error fold_right] in *; try discriminate.
  - inversion E. lia.
  - specialize (IH n t E). lia.
Qed.
Lemma fuel_ge : forall w n t, get_table w n = Some t -> Z.of_nat (walk_fuel w) >= len (t_items t) + 2.
Proof.
  intros w n t G. unfold walk_fuel, total_slots, len. pose proof (total_ge (w_tables w) n t G) as H.
  set (x := fold_right (fun t n => (length (t_items t) + n)%nat) 0%nat (w_tables w)) in *.
  assert (1 * (x + 2) <= S (length (w_objs w)) * (x + 2))%nat by (apply Nat.mul_le_mono_r; lia). lia.
Qed.

Lemma walk_shallow : forall fuel w k o i, wwf hash w -> winv w k o i -> i < 4294967295 - 1 -> slots w k - i + 1 <= Z.of_nat fuel -> (1 <= fuel)%nat ->
  exists y k' i', walk_loop alloc_ok hash fuel w k = OOk (y, k', w) /\ winv w k' o i' /\ k_table k' = k_table k /\
    match y with
    | Some (x, v) => i < i' <= slots w k /\ slot_key w k (i' - 1) = Some x /\ omap w o x = Some v /\
        (forall j z, i <= j < i' - 1 -> slot_key w k j = Some z -> omap w o z = None)
    | None => i' = Z.max i (slots w k) + 1 /\ (forall j z, i <= j -> slot_key w k j = Some z -> omap w o z = None)
    end.
Proof.
  induction fuel as [|f IH]; intros w k o i W V Hi Hf H1; [ lia | ]. cbn [walk_loop].
  pose proof V as [V1 V2 V3 V4 V5 V6 V7]. rewrite V1.
  assert (Vn : winv w (Walker (u32 (i + 1)) (k_deep k) (k_prop_obj k) (k_table k) (k_returned k)) o (i + 1)).
  { constructor; cbn [k_index k_deep k_prop_obj k_returned k_table]; auto; try lia. apply u32_small. lia. }
  set (kn := Walker (u32 (i + 1)) (k_deep k) (k_prop_obj k) (k_table k) (k_returned k)) in *.
  change (k_deep kn) with (k_deep k). change (k_table kn) with (k_table k). change (k_returned kn) with (k_returned k).
  change (k_prop_obj kn) with (k_prop_obj k).
  assert (En : forall kn', k_table kn' = k_table k -> slots w kn' = slots w k /\ slot_key w kn' = slot_key w k).
  { intros kn' E. unfold slots, slot_key. rewrite E. auto. }
  destruct (k_table k) as [n|] eqn:Kt.
  - destruct (V7 n eq_refl) as [t [G [On [Lt [Ct Al]]]]]. rewrite G.
    assert (Sl : slots w k = t_cap t) by (unfold slots; rewrite Kt, G; reflexivity).
    assert (Sk : forall j, slot_key w k j = kat (t_items t) j) by (intros; unfold slot_key; rewrite Kt, G; reflexivity).
    destruct (Z.leb_spec (t_cap t) i).
    + rewrite V2. exists None, kn, (i + 1). split; [ reflexivity | ]. split; [ exact Vn | ]. split; [ reflexivity | ].
      split; [ lia | ]. intros j z Hj. rewrite Sk. unfold kat. destruct (gz (t_items t) j) eqn:Gj; [ | discriminate ].
      apply gz_some_inv in Gj. lia.
    + rewrite item_at_gz. destruct (gz_some _ (t_items t) i ltac:(lia)) as [it Gi]. rewrite Gi.
      assert (Ki : kat (t_items t) i = i_key it) by (unfold kat; rewrite Gi; reflexivity).
      assert (Skip : (forall z, i_key it = Some z -> omap w o z = None) ->
        exists y k' i', walk_loop alloc_ok hash f w kn = OOk (y, k', w) /\ winv w k' o i' /\ k_table k' = Some n /\
          match y with
          | Some (x, v) => i < i' <= slots w k /\ slot_key w k (i' - 1) = Some x /\ omap w o x = Some v /\
              (forall j z, i <= j < i' - 1 -> slot_key w k j = Some z -> omap w o z = None)
          | None => i' = Z.max i (slots w k) + 1 /\ (forall j z, i <= j -> slot_key w k j = Some z -> omap w o z = None)
          end).
      { intros Sp. destruct (En kn ltac:(unfold kn; cbn [k_table]; congruence)) as [S1 S2].
        destruct (IH w kn o (i + 1) W Vn ltac:(lia) ltac:(rewrite S1; lia) ltac:(lia)) as [y [k' [i' [R [I1 [I2 I3]]]]]].
        exists y, k', i'. split; [ exact R | ]. split; [ exact I1 | ]. split; [ rewrite I2; reflexivity | ]. rewrite S1, S2 in I3.
        destruct y as [[x v]|].
        - destruct I3 as [J1 [J2 [J3 J4]]]. split; [ lia | ]. split; [ exact J2 | ]. split; [ exact J3 | ].
          intros j z Hj K. destruct (Z.eq_dec j i) as [->|]; [ apply Sp; rewrite <- Ki, <- Sk; exact K | apply (J4 j); [ lia | exact K ] ].
        - destruct I3 as [J1 J2]. split; [ lia | ].
          intros j z Hj K. destruct (Z.eq_dec j i) as [->|]; [ apply Sp; rewrite <- Ki, <- Sk; exact K | apply (J2 j); [ lia | exact K ] ]. }
      destruct (i_key it) as [x|] eqn:Kx; [ | apply Skip; discriminate ].
      rewrite V4, V3.
      assert (Yield : forall v, omap w o x = Some v -> exists y k' i', OOk (Some (x, v), kn, w) = @OOk (option (key * pval) * walker * world) (y, k', w) /\ winv w k' o i' /\ k_table k' = Some n /\
          match y with
          | Some (x, v) => i < i' <= slots w k /\ slot_key w k (i' - 1) = Some x /\ omap w o x = Some v /\
              (forall j z, i <= j < i' - 1 -> slot_key w k j = Some z -> omap w o z = None)
          | None => i' = Z.max i (slots w k) + 1 /\ (forall j z, i <= j -> slot_key w k j = Some z -> omap w o z = None)
          end).
      { intros v Ho. exists (Some (x, v)), kn, (i + 1). split; [ reflexivity | ]. split; [ exact Vn | ]. split; [ reflexivity | ].
        split; [ lia | ]. split; [ rewrite Sk; replace (i + 1 - 1) with i by lia; exact Ki | ]. split; [ exact Ho | ]. intros j z Hj. lia. }
      assert (Dead : (exists m, dead t m) -> i_val it = Closed) by (intros [m D]; apply (dd_vals _ _ D i it Gi)).
      assert (Live : props_of w o = Some (Some n) -> omap w o x = prop_of (Some (i_val it)) /\ (i_val it = Tomb \/ live_val (i_val it))).
      { intros P. destruct (wwf_table hash w o n W P) as [t0 [G0 T]]. assert (t0 = t) by congruence. subst t0.
        pose proof (icore_assoc hash _ _ _ _ x (tw_core _ _ T) Gi Kx) as A. rewrite (omap_table w o n t x P G), A. split; [ reflexivity | ].
        apply (assoc_live hash t x _ T A). }
      pose proof (get_ok hash w o x true W V6) as Gt. unfold get_post in Gt.
      destruct (i_val it) as [| | |v|v] eqn:Iv.
      * apply Skip. intros z Ez. inversion Ez. subst z. destruct Al as [P|D]; [ | specialize (Dead D); discriminate ]. apply (proj1 (Live P)).
      * destruct (get_property hash w o x true) as [[| |v|] w']; cbn [fst snd] in Gt; destruct Gt as [-> Gt]; try contradiction.
        -- apply Skip. intros z Ez. inversion Ez. subst z. exact Gt.
        -- apply Yield. apply Gt.
      * destruct Al as [P|D]; [ | specialize (Dead D); discriminate ]. destruct (Live P) as [_ [L|L]]; [ discriminate | contradiction ].
      * destruct Al as [P|D]; [ | specialize (Dead D); discriminate ]. apply Yield. apply (proj1 (Live P)).
      * destruct Al as [P|D]; [ | specialize (Dead D); discriminate ]. apply Yield. apply (proj1 (Live P)).
  - destruct (Z.leb_spec 0 i); [ | lia ]. rewrite V2. exists None, kn, (i + 1). split; [ reflexivity | ]. split; [ exact Vn | ]. split; [ reflexivity | ].
    unfold slots, slot_key. rewrite Kt. split; [ lia | ]. discriminate.
Qed.

(* a walk and an operation *)
Lemma winv_step : forall w w' k o i, wwf hash w -> wwf hash w' -> wstep w w' -> winv w k o i ->
  winv w' k o i /\ slots w' k = slots w k /\ (forall j x, slot_key w k j = Some x -> slot_key w' k j = Some x).
Proof.
  intros w w' k o i W W' S V. pose proof V as [V1 V2 V3 V4 V5 V6 V7]. destruct S as [[o2 F]|[ob [Eo ->]]].
  - assert (T : forall n t, k_table k = Some n -> get_table w n = Some t -> once t -> len (t_items t) = t_cap t -> t_cap t <= 2147483648 ->
       (props_of w o = Some (Some n) \/ (exists m, dead t m)) ->
       exists t', get_table w' n = Some t' /\ once t' /\ len (t_items t') = t_cap t' /\ t_cap t' = t_cap t /\
         (forall j x, kat (t_items t) j = Some x -> kat (t_items t') j = Some x) /\
         (props_of w' o = Some (Some n) \/ (exists m, dead t' m))).
    { intros n t Kt G On Lt Ct Al.
      assert (D : props_of w o2 = Some (Some n) \/ props_of w o2 <> Some (Some n)).
      { destruct (props_of w o2) as [[y|]|]; try (right; discriminate). destruct (Nat.eq_dec y n); [ left; congruence | right; congruence ]. }
      destruct D as [D|D].
      - destruct (fr_own _ _ _ F n t G D) as [t' [G' [C' [K' [O' A']]]]]. exists t'. split; [ exact G' | ]. split; [ auto | ].
        destruct Al as [P|[m Dd]].
        + assert (o2 = o) by (apply (proj2 W o2 o n D P)). subst o2.
          assert (L' : len (t_items t') = t_cap t').
          { destruct A' as [A'|[m A']]; [ | apply (dd_cap _ _ A') ]. destruct (wwf_table hash w' o n W' A') as [t2 [G2 T2]].
            assert (t2 = t') by congruence. subst t2. apply (tw_core _ _ T2). }
          auto.
        + exfalso. destruct (wwf_table hash w o2 n W D) as [t2 [G2 T2]]. assert (t2 = t) by congruence. subst t2.
          pose proof (tw_new _ _ T2). pose proof (dd_new _ _ Dd). congruence.
      - exists t. split; [ apply (fr_other _ _ _ F n t G D) | ]. split; [ exact On | ]. split; [ exact Lt | ]. split; [ reflexivity | ]. split; [ auto | ].
        destruct Al as [P|Dd]; [ | right; exact Dd ]. left. rewrite <- P. unfold props_of. destruct (Nat.eq_dec o o2) as [->|N].
        + contradiction.
        + rewrite (fr_objs _ _ _ F o N). reflexivity. }
    split; [ constructor; auto; [ rewrite (fr_len _ _ _ F); exact V6 | ] | ].
    + intros n Kt. destruct (V7 n Kt) as [t [G [On [Lt [Ct Al]]]]]. destruct (T n t Kt G On Lt Ct Al) as [t' [G' [On' [L' [C' [K' A']]]]]].
      exists t'. split; [ exact G' | ]. split; [ exact On' | ]. split; [ exact L' | ]. split; [ lia | exact A' ].
    + unfold slots, slot_key. destruct (k_table k) as [n|]; [ | auto ]. destruct (V7 n eq_refl) as [t [G [On [Lt [Ct Al]]]]].
      destruct (T n t eq_refl G On Lt Ct Al) as [t' [G' [On' [L' [C' [K' A']]]]]]. rewrite G, G'. auto.
  - split; [ | split; [ reflexivity | auto ] ]. constructor; auto.
    + cbn [w_objs]. rewrite app_length. lia.
    + intros n Kt. destruct (V7 n Kt) as [t [G [On [Lt [Ct Al]]]]]. exists t. split; [ exact G | ]. split; [ exact On | ]. split; [ exact Lt | ]. split; [ exact Ct | ].
      destruct Al as [P|D]; [ left | right; exact D ]. unfold props_of in *. cbn [w_objs]. rewrite nth_error_app1 by exact V6. exact P.
Qed.

Lemma slots_le : forall w k o i, winv w k o i -> slots w k <= 2147483648.
Proof.
  intros w k o i V. unfold slots. destruct (k_table k) as [n|] eqn:Kt; [ | lia ].
  destruct (wi_table _ _ _ _ V n Kt) as [t [G [_ [_ [C _]]]]]. rewrite G. exact C.
Qed.
Lemma slot_once : forall w k o i j1 j2 x, winv w k o i -> slot_key w k j1 = Some x -> slot_key w k j2 = Some x -> j1 = j2.
Proof.
  intros w k o i j1 j2 x V. unfold slot_key. destruct (k_table k) as [n|] eqn:Kt; [ | discriminate ].
  destruct (wi_table _ _ _ _ V n Kt) as [t [G [On _]]]. rewrite G. apply On.
Qed.
Lemma walk_fuel_ok : forall w k o i, winv w k o i -> slots w k - i + 1 <= Z.of_nat (walk_fuel w) /\ (1 <= walk_fuel w)%nat.
Proof.
  intros w k o i V. pose proof (wi_nonneg _ _ _ _ V). unfold slots. assert (1 <= walk_fuel w)%nat by (unfold walk_fuel; lia).
  destruct (k_table k) as [n|] eqn:Kt; [ | lia ].
  destruct (wi_table _ _ _ _ V n Kt) as [t [G [_ [L [C _]]]]]. rewrite G. pose proof (fuel_ge w n t G). lia.
Qed.

Lemma session_ok : forall es w k o i, wwf hash w -> winv w k o i -> valid_events (length (abs w)) es ->
  i <= 2147483648 + 2147483640 - len es -> len es <= 2147483640 ->
  exists states ys, session alloc_ok hash w k es = Some (states, ys) /\
    (forall s x v, In (s, Some (x, v)) ys -> own s o x = Some v) /\
    (forall x j, In x (yielded ys) -> slot_key w k j = Some x -> i <= j) /\
    NoDup (yielded ys) /\
    (forall s x j, In (s, None) ys -> (forall s', In s' states -> own s' o x <> None) -> slot_key w k j = Some x -> i <= j -> In x (yielded ys)) /\
    In (abs w) states.
Proof.
  induction es as [|[|op0] es IH]; intros w k o i W V Ve Hi Hl; rewrite ?len_cons in Hi, Hl.
  - exists [abs w], []. cbn [session]. split; [ reflexivity | ]. split; [ intros ? ? ? [] | ]. split; [ intros ? ? [] | ].
    split; [ constructor | ]. split; [ intros ? ? ? [] | ]. left. reflexivity.
  - pose proof (len_nonneg _ es) as Le. cbn [session]. pose proof (walk_fuel_ok w k o i V) as [Fu1 Fu2].
    destruct (walk_shallow (walk_fuel w) w k o i W V ltac:(lia) Fu1 Fu2) as [y [k' [i' [R [V' [Kt Y]]]]]].
    unfold object_walk. rewrite R. cbn [valid_events] in Ve.
    assert (Es : slots w k' = slots w k /\ forall j, slot_key w k' j = slot_key w k j) by (unfold slots, slot_key; rewrite Kt; auto).
    destruct Es as [Es1 Es2]. pose proof (slots_le w k o i V) as SL.
    destruct y as [[x v]|].
    + destruct Y as [Y1 [Y2 [Y3 Y4]]].
      destruct (IH w k' o i' W V' Ve ltac:(lia) ltac:(lia)) as [states [ys [Se [A [B [C [D E]]]]]]]. rewrite Se.
      destruct (live_sval v (omap_live hash w o x v W Y3)) as [s Hs]. rewrite Hs.
      exists (abs w :: states), ((abs w, Some (x, s)) :: ys). split; [ reflexivity | ]. split; [ | split; [ | split; [ | split ] ] ].
      * intros s0 x0 v0 [I0|I0]; [ | apply (A _ _ _ I0) ]. inversion I0. subst. rewrite own_abs, Y3 by exact W. exact Hs.
      * intros x0 j I0 K0. cbn [yielded flat_map snd] in I0. destruct I0 as [<-|I0].
        -- rewrite (slot_once w k o i j (i' - 1) x V K0 Y2). lia.
        -- assert (i' <= j) by (apply (B x0 j I0); rewrite Es2; exact K0). lia.
      * cbn [yielded flat_map snd app]. constructor; [ | exact C ]. intros I0.
        assert (i' <= i' - 1) by (apply (B x (i' - 1) I0); rewrite Es2; exact Y2). lia.
      * intros s0 x0 j I0 St K0 Hj. cbn [yielded flat_map snd app]. destruct I0 as [I0|I0]; [ discriminate | ].
        destruct (Z_lt_le_dec j (i' - 1)) as [L|L].
        -- exfalso. apply (St (abs w) (or_introl eq_refl)). rewrite own_abs, (Y4 j x0) by (auto; lia). reflexivity.
        -- destruct (Z.eq_dec j (i' - 1)) as [->|].
           ++ left. congruence.
           ++ right. apply (D s0 x0 j I0); [ intros s' Is; apply St; right; exact Is | rewrite Es2; exact K0 | lia ].
      * left. reflexivity.
    + destruct Y as [Y1 Y2].
      destruct (IH w k' o i' W V' Ve ltac:(lia) ltac:(lia)) as [states [ys [Se [A [B [C [D E]]]]]]]. rewrite Se.
      exists (abs w :: states), ((abs w, None) :: ys). split; [ reflexivity | ]. split; [ | split; [ | split; [ | split ] ] ].
      * intros s0 x0 v0 [I0|I0]; [ discriminate | apply (A _ _ _ I0) ].
      * intros x0 j I0 K0. cbn [yielded flat_map snd app] in I0. assert (i' <= j) by (apply (B x0 j I0); rewrite Es2; exact K0). lia.
      * exact C.
      * intros s0 x0 j I0 St K0 Hj. exfalso. apply (St (abs w) (or_introl eq_refl)). rewrite own_abs, (Y2 j x0) by (auto; lia). reflexivity.
      * left. reflexivity.
  - pose proof (len_nonneg _ es) as Le. cbn [session]. cbn [valid_events] in Ve.
    assert (V1 : valid (abs w) op0 /\ valid_events (match op0 with Create _ => S (length (abs w)) | _ => length (abs w) end) es).
    { destruct op0 as [? ? ?|? ?|? ? ?|[p|]]; cbn [valid]; tauto. }
    destruct V1 as [V1 V2]. destruct (run_op_ok w op0 W V1) as [out [w1 [R [[W1 _] [St1 S1]]]]].
    rewrite <- (step_length _ _ _ _ S1) in V2. destruct (winv_step w w1 k o i W W1 St1 V) as [Vw [Sl Sk]].
    destruct (IH w1 k o i W1 Vw V2 ltac:(lia) ltac:(lia)) as [states [ys [Se [A [B [C [D E]]]]]]]. rewrite R, Se.
    exists (abs w :: states), ys. split; [ reflexivity | ]. split; [ exact A | ]. split; [ | split; [ exact C | split ] ].
    + intros x j I0 K0. apply (B x j I0). auto.
    + intros s0 x0 j I0 St K0 Hj. apply (D s0 x0 j I0); auto. intros s' Is. apply St. right. exact Is.
    + left. reflexivity.
Qed.

Lemma walk_start : forall w o, wwf hash w -> (o < length (w_objs w))%nat ->
  exists k, new_object_walk w o false = (w, k) /\ winv w k o 0 /\ forall x, omap w o x <> None -> exists j, 0 <= j /\ slot_key w k j = Some x.
Proof.
  intros w o W L. unfold new_object_walk. eexists. split; [ reflexivity | ]. split.
  - constructor; cbn [k_index k_deep k_prop_obj k_returned k_table]; try reflexivity; try lia.
    intros n Kt. destruct (props_of w o) as [[m|]|] eqn:P; try discriminate. inversion Kt. subst m.
    destruct (wwf_table hash w o n W P) as [t [G T]]. exists t. pose proof (tw_core _ _ T) as [Pw [Ll [_ [U _]]]]. pose proof (pow2_range _ Pw).
    split; [ exact G | ]. split; [ exact U | ]. split; [ exact Ll | ]. split; [ lia | ]. auto.
  - intros x Hx. unfold omap in Hx. unfold slot_key. cbn [k_table]. destruct (props_of w o) as [[m|]|]; try congruence.
    destruct (get_table w m) as [t|]; [ | congruence ]. destruct (assoc (t_items t) x) as [v|] eqn:A; [ | cbn in Hx; congruence ].
    destruct (assoc_kat _ _ _ A) as [j [it [Gj [E1 E2]]]]. exists j. split; [ apply gz_some_inv in Gj; lia | ]. unfold kat. rewrite Gj. exact E1.
Qed.
End World.
