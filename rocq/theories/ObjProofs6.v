(* Objects: a table crowded with keys of one hash. *)
From Coq Require Import ZArith List Lia Bool ZifyBool.
Import ListNotations.
From Verif Require Import Base ListZ ArraySpec ArrayProofs ObjModel ObjSpec ObjCalls ObjProofs ObjProofs2 ObjProofs3 ObjProofs4.
Local Open Scope Z_scope.
Ltac Zify.zify_post_hook ::= idtac.

Section World.
Variable hash : key -> Z.
Variable alloc_ok : Z -> bool.
Hypothesis alloc_range : forall c, alloc_ok c = true -> 0 < c <= 2147483648.

Lemma crowded_used : forall t k ks e, twf hash t -> NoDup ks -> length ks = 10%nat ->
  (forall x, In x ks -> hash x = hash k /\ assoc (t_items t) x <> None) -> 0 <= e < 10 ->
  kat (t_items t) (probe hash (t_cap t) k e) <> None.
Proof.
  intros t k ks e T ND L H He K. pose proof (tw_core _ _ T) as [Pw [_ [_ [_ R]]]].
  assert (D : forall l, NoDup l -> incl l ks -> exists ds, length ds = length l /\ NoDup ds /\
     forall d, In d ds -> (Z.of_nat d < e /\ exists x, In x l /\ kat (t_items t) (probe hash (t_cap t) k (Z.of_nat d)) = Some x)).
  { induction l as [|x l IH]; intros Nl Il.
    - exists []. split; [ reflexivity | ]. split; [ constructor | ]. intros d [].
    - inversion Nl. subst. destruct IH as [ds [L1 [N1 P1]]]; [ assumption | intros y Iy; apply Il; right; exact Iy | ].
      destruct (H x (Il x (or_introl eq_refl))) as [Hx Ax]. destruct (assoc (t_items t) x) as [v|] eqn:A; [ | congruence ].
      destruct (assoc_kat _ _ _ A) as [j [it [Gj [K1 _]]]]. assert (Kj : kat (t_items t) j = Some x) by (unfold kat; rewrite Gj; exact K1).
      destruct (R j x Kj) as [d [Hd [Ej Hp]]]. rewrite Hx in Ej, Hp.
      assert (Lt : d < e).
      { destruct (Z_lt_le_dec d e) as [X|X]; [ exact X | exfalso ]. destruct (Z.eq_dec d e) as [->|Ne].
        - unfold probe in K. rewrite <- Ej in K. congruence.
        - apply (Hp e ltac:(lia)). exact K. }
      exists (Z.to_nat d :: ds). split; [ cbn; lia | ]. split.
      + constructor; [ | exact N1 ]. intros Id. destruct (P1 _ Id) as [_ [y [Iy Ky]]]. rewrite Z2Nat.id in Ky by lia. unfold probe in Ky.
        rewrite <- Ej in Ky. assert (y = x) by congruence. subst y. contradiction.
      + intros d' [<-|Id].
        * rewrite Z2Nat.id by lia. split; [ exact Lt | ]. exists x. split; [ left; reflexivity | ]. unfold probe. rewrite <- Ej. exact Kj.
        * destruct (P1 d' Id) as [A1 [y [Iy Ky]]]. split; [ exact A1 | ]. exists y. split; [ right; exact Iy | exact Ky ]. }
  destruct (D ks ND (incl_refl ks)) as [ds [L1 [N1 P1]]].
  assert (I : incl ds (seq 0 (Z.to_nat e))). { intros d Id. destruct (P1 d Id) as [A _]. apply in_seq. lia. }
  pose proof (NoDup_incl_length N1 I) as Le. rewrite seq_length in Le. lia.
Qed.

Lemma crowded_passed : forall t k ks, twf hash t -> NoDup ks -> length ks = 10%nat ->
  (forall x, In x ks -> hash x = hash k /\ assoc (t_items t) x <> None) -> assoc (t_items t) k = None ->
  passed hash (t_cap t) (t_items t) k 10.
Proof.
  intros t k ks T ND L H A e He. pose proof (crowded_used t k ks e T ND L H He) as K.
  destruct (kat (t_items t) (probe hash (t_cap t) k e)) as [x|] eqn:E; [ | congruence ]. exists x. split; [ reflexivity | ].
  intros ->. destruct (kat_assoc hash _ _ _ _ (tw_core _ _ T) E). congruence.
Qed.

Lemma set_loop_passed : forall fuel w o n t k v d idx, wwf hash w -> props_of w o = Some (Some n) -> get_table w n = Some t ->
  passed hash (t_cap t) (t_items t) k 10 -> 0 <= d -> d <= 9 -> okval v -> Z.land idx (t_cap t - 1) = probe hash (t_cap t) k d ->
  forall r w', set_loop alloc_ok fuel w o n k (hash k) v idx (t_cap t - 1) d <> (SSuccess r, w').
Proof.
  induction fuel as [|f IH]; intros w o n t k v d idx W P G A Hd Hd9 V Hi r w'; [ discriminate | ].
  destruct (wwf_table hash w o n W P) as [t0 [G0 T]]. rewrite G in G0. inversion G0. subst t0. clear G0.
  pose proof (tw_core _ _ T) as C. pose proof C as [Pw [L [S _]]].
  cbn [set_loop]. rewrite G. cbv zeta. rewrite Hi, item_at_gz.
  pose proof (probe_range hash (t_cap t) k d Pw) as Rg.
  destruct (gz_some _ (t_items t) (probe hash (t_cap t) k d) ltac:(lia)) as [it Gi]. rewrite Gi.
  destruct (A d ltac:(lia)) as [ck [K N]]. unfold kat in K. rewrite Gi in K. rewrite K.
  rewrite (key_equal hash it k ck (S _ _ Gi) K). replace (keyb k ck) with false by (symmetry; apply keyb_neq; congruence).
  assert (X : (if 8 <? d
      then match resize_prop_table alloc_ok w o (Some n) 2 with
           | OOk w => match props_of w o with
                      | Some (Some m) => (STryAgain m, w)
                      | _ => (SBad, w)
                      end
           | OExn w => (SFailed, w)
           | _ => (SBad, w)
           end
      else set_loop alloc_ok f w o n k (hash k) v (u32 (probe hash (t_cap t) k d + 1)) (t_cap t - 1) (d + 1)) <> (SSuccess r, w')).
  { destruct (Z.ltb_spec 8 d).
    - destruct (resize_prop_table alloc_ok w o (Some n) 2) as [w2| | |]; try discriminate. destruct (props_of w2 o) as [[m|]|]; discriminate.
    - apply (IH w o n t k v (d + 1) _ W P G A); auto; try lia. apply probe_next. exact Pw. }
  destruct v; exact X.
Qed.

Lemma crowded_retry : forall fuel w o n t k v ks e, wwf hash w -> props_of w o = Some (Some n) -> get_table w n = Some t -> okval v ->
  NoDup ks -> length ks = 10%nat -> (forall x, In x ks -> hash x = hash k /\ omap w o x <> None) -> assoc (t_items t) k = None ->
  t_cap t = 2 ^ e -> 2 <= e <= 31 -> 32 - e <= Z.of_nat fuel ->
  exists w', set_retry alloc_ok hash fuel w o n k v = OExn w' /\ wwf hash w' /\ (forall k', omap w' o k' = omap w o k').
Proof.
  induction fuel as [|f IH]; intros w o n t k v ks e W P G V ND L H A Ee He Hf; [ lia | ]. cbn [set_retry].
  destruct (wwf_table hash w o n W P) as [t0 [G0 T]]. assert (t0 = t) by congruence. subst t0. clear G0.
  assert (H' : forall x, In x ks -> hash x = hash k /\ assoc (t_items t) x <> None).
  { intros x Ix. destruct (H x Ix) as [H1 H2]. split; [ exact H1 | ]. rewrite (omap_table w o n t x P G) in H2. intros N. rewrite N in H2. apply H2. reflexivity. }
  pose proof (crowded_passed t k ks T ND L H' A) as Ps. pose proof (tw_core _ _ T) as [Pw _].
  pose proof (set_once_ok hash alloc_ok alloc_range w o n k v W P V) as So.
  assert (Ns : forall r w', set_property_once alloc_ok hash w o n k v <> (SSuccess r, w')).
  { intros r w'. unfold set_property_once. rewrite G. apply (set_loop_passed 11 w o n t k v 0 (hash k) W P G Ps); auto; try lia. apply probe_first. exact Pw. }
  destruct (set_property_once alloc_ok hash w o n k v) as [[r|m| |x|] w']; cbn [set_post] in So.
  - destruct (Ns r w' eq_refl).
  - destruct So as [W' [F [P' [Mp [t1 [t2 [G1 [G2 [Cp [_ As]]]]]]]]]]. assert (t1 = t) by congruence. subst t1.
    destruct (wwf_table hash w' o m W' P') as [t3 [G3 T3]]. assert (t3 = t2) by congruence. subst t3.
    pose proof (tw_core _ _ T3) as [Pw2 _]. pose proof (pow2_range _ Pw2).
    assert (Ec : t_cap t2 = 2 ^ (e + 1)) by (rewrite Z.pow_add_r by lia; lia).
    assert (e + 1 <= 31).
    { destruct (Z_le_gt_dec (e + 1) 31); [ assumption | ]. exfalso. assert (e = 31) by lia. subst e.
      rewrite Ec in *. change (2 ^ (31 + 1)) with 4294967296 in *. lia. }
    destruct (IH w' o m t2 k v ks (e + 1) W' P' G2 V ND L) as [w2 [R [W2 M2]]]; auto; try lia.
    + intros x Ix. rewrite Mp. apply H. exact Ix.
    + rewrite As, A. reflexivity.
    + exists w2. split; [ exact R | ]. split; [ exact W2 | ]. intros k'. rewrite M2. apply Mp.
  - destruct So as [-> _]. exists w. auto.
  - destruct So as [_ [So _]]. rewrite (omap_table w o n t k P G), A in So. discriminate.
  - contradiction.
Qed.

Lemma crowded_set : forall w o k v ks, wwf hash w -> okval v -> v <> Tomb ->
  NoDup ks -> length ks = 10%nat -> (forall x, In x ks -> hash x = hash k /\ omap w o x <> None) -> omap w o k = None -> ~ tomb w o k ->
  exists w', set_property alloc_ok hash w o k v = OExn w' /\ wwf hash w' /\ (forall k', omap w' o k' = omap w o k').
Proof.
  intros w o k v ks W V NT ND L H Hk Tk. unfold set_property.
  assert (P : exists n, props_of w o = Some (Some n)).
  { destruct ks as [|x ks]; [ discriminate | ]. destruct (H x (or_introl eq_refl)) as [_ X]. unfold omap in X.
    destruct (props_of w o) as [[n|]|]; try congruence. eauto. }
  destruct P as [n P]. rewrite P. destruct (wwf_table hash w o n W P) as [t [G T]]. pose proof (tw_core _ _ T) as [[e [He Ee]] _].
  apply (crowded_retry 40 w o n t k v ks e); auto; try lia.
  rewrite (omap_table w o n t k P G) in Hk. destruct (assoc (t_items t) k) as [x|] eqn:A; [ | reflexivity ].
  destruct (assoc_live hash t k x T A) as [->|Lv]; [ exfalso; apply Tk; apply (tomb_table w o n t k P G); exact A | ].
  destruct x; try contradiction; discriminate.
Qed.

(* few keys: the whole operation *)
Definition cap_of (w : world) (o : nat) : Z :=
  match props_of w o with Some (Some n) => match get_table w n with Some t => t_cap t | None => 0 end | _ => 0 end.

Lemma set_property_few : forall w o k v ks, wwf hash w -> props_of w o <> None -> okval v -> (length ks <= 9)%nat ->
  (forall k', k' <> k -> omap w o k' <> None -> In k' ks) ->
  (forall c, 0 < c <= Z.max 16 (4 * cap_of w o) -> alloc_ok c = true) -> succeeded (set_property alloc_ok hash w o k v).
Proof.
  intros w o k v ks W P V L H A. unfold set_property. destruct (props_of w o) as [[n|]|] eqn:Po; [ | | congruence ].
  - destruct (wwf_table hash w o n W Po) as [t [G T]]. pose proof (tw_core _ _ T) as [Pw _]. pose proof (pow2_range _ Pw).
    assert (Ec : cap_of w o = t_cap t) by (unfold cap_of; rewrite Po, G; reflexivity).
    apply (set_few hash alloc_ok alloc_range 40 w o n t k v ks); auto; try lia; apply A; lia.
  - destruct V as [->|V]; [ exact I | ].
    assert (A4 : alloc_ok 4 = true) by (apply A; lia).
    unfold resize_prop_table. rewrite A4. cbv zeta. change (props_of (World (w_tables w ++ [new_table 4]) (w_objs w)) o) with (props_of w o). rewrite Po.
    destruct (first_table hash w o W Po) as [W' [F [P' G']]]. rewrite P'.
    assert (Em : forall k', omap (set_props (World (w_tables w ++ [new_table 4]) (w_objs w)) o (Some (length (w_tables w)))) o k' = None).
    { intros k'. rewrite (omap_table _ o _ _ k' P' G'), new_table_assoc. reflexivity. }
    assert (S : succeeded (set_retry alloc_ok hash 40 (set_props (World (w_tables w ++ [new_table 4]) (w_objs w)) o (Some (length (w_tables w)))) o (length (w_tables w)) k v)).
    { apply (set_few hash alloc_ok alloc_range 40 _ o _ (new_table 4) k v [] W' P' G'); auto; try lia; try (right; exact V).
      - cbn. lia.
      - intros k' _ X. rewrite Em in X. congruence.
      - apply A. cbn [new_table t_cap]. lia.
      - apply A. cbn [new_table t_cap]. lia. }
    destruct v; try contradiction; exact S.
Qed.
End World.
