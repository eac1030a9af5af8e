(* Objects: lemmas on property operations. *)
From Coq Require Import ZArith List Lia Bool ZifyBool.
Import ListNotations.
From Verif Require Import Base ListZ ArraySpec ArrayProofs ObjModel ObjSpec ObjCalls ObjProofs.
Local Open Scope Z_scope.
Ltac Zify.zify_post_hook ::= idtac.

Lemma upd_same : forall A (l : list A) n x, nth_error l n = Some x -> upd l n x = l.
Proof. induction l; intros [|n] x H; cbn [upd nth_error] in *; try congruence. f_equal. auto. Qed.

Section World.
Variable hash : key -> Z.
Hypothesis hash_range : forall k, 0 <= hash k < 2 ^ 32.
Variable alloc_ok : Z -> bool.
Hypothesis alloc_range : forall c, alloc_ok c = true -> 0 < c <= 2147483648.

Definition wwf (w : world) : Prop :=
  (forall o ob, nth_error (w_objs w) o = Some ob ->
     (forall n, o_props ob = Some (Some n) -> exists t, get_table w n = Some t /\ twf hash t) /\
     (forall p, o_proto ob = Some p -> (p < o)%nat)) /\
  (forall o1 o2 n, props_of w o1 = Some (Some n) -> props_of w o2 = Some (Some n) -> o1 = o2).

(* own properties of an object *)
Definition omap (w : world) (o : nat) (k : key) : option pval :=
  match props_of w o with
  | Some (Some n) => match get_table w n with Some t => prop_of (assoc (t_items t) k) | None => None end
  | _ => None
  end.

Lemma wwf_table : forall w o n, wwf w -> props_of w o = Some (Some n) -> exists t, get_table w n = Some t /\ twf hash t.
Proof.
  intros w o n [W _] P. unfold props_of in P. destruct (nth_error (w_objs w) o) as [ob|] eqn:E; [ | discriminate ].
  apply (proj1 (W o ob E) n P).
Qed.
Lemma omap_table : forall w o n t k, props_of w o = Some (Some n) -> get_table w n = Some t -> omap w o k = prop_of (assoc (t_items t) k).
Proof. intros w o n t k P G. unfold omap. rewrite P, G. reflexivity. Qed.

(* a key occurs in one slot *)
Definition once (t : table) : Prop := forall j1 j2 k, kat (t_items t) j1 = Some k -> kat (t_items t) j2 = Some k -> j1 = j2.

(* what an operation on object o may change *)
Definition kept (w' : world) (o n : nat) (t t' : table) : Prop :=
  t_cap t' = t_cap t /\
  (forall j k, kat (t_items t) j = Some k -> kat (t_items t') j = Some k) /\
  (once t -> once t') /\
  (props_of w' o = Some (Some n) \/ exists m, dead t' m).

Record frame (o : nat) (w w' : world) : Prop := Frame {
  fr_len : length (w_objs w') = length (w_objs w);
  fr_objs : forall o', o' <> o -> nth_error (w_objs w') o' = nth_error (w_objs w) o';
  fr_obj : forall ob, nth_error (w_objs w) o = Some ob ->
     exists ob', nth_error (w_objs w') o = Some ob' /\ o_proto ob' = o_proto ob /\ (o_props ob' = None <-> o_props ob = None);
  fr_props : props_of w' o = props_of w o \/ exists m, props_of w' o = Some (Some m) /\ (length (w_tables w) <= m)%nat;
  fr_tables : (length (w_tables w) <= length (w_tables w'))%nat;
  fr_other : forall n t, get_table w n = Some t -> props_of w o <> Some (Some n) -> get_table w' n = Some t;
  fr_own : forall n t, get_table w n = Some t -> props_of w o = Some (Some n) ->
     exists t', get_table w' n = Some t' /\ kept w' o n t t' }.

Lemma frame_refl : forall o w, frame o w w.
Proof.
  intros. constructor; auto.
  - intros ob E. exists ob. tauto.
  - intros n t G P. exists t. split; [ exact G | ]. split; [ reflexivity | ]. auto.
Qed.

Lemma get_table_lt : forall w n t, get_table w n = Some t -> (n < length (w_tables w))%nat.
Proof. intros w n t G. apply nth_error_Some. unfold get_table in G. congruence. Qed.

Lemma frame_trans : forall o w w1 w2, frame o w w1 -> frame o w1 w2 -> frame o w w2.
Proof.
  intros o w w1 w2 A B. constructor.
  - rewrite (fr_len _ _ _ B). apply (fr_len _ _ _ A).
  - intros o' N. rewrite (fr_objs _ _ _ B) by exact N. apply (fr_objs _ _ _ A). exact N.
  - intros ob E. destruct (fr_obj _ _ _ A ob E) as [ob1 [E1 [P1 Q1]]]. destruct (fr_obj _ _ _ B ob1 E1) as [ob2 [E2 [P2 Q2]]].
    exists ob2. split; [ exact E2 | ]. split; [ congruence | tauto ].
  - pose proof (fr_tables _ _ _ A). destruct (fr_props _ _ _ B) as [E|[m [E L]]].
    + rewrite E. apply (fr_props _ _ _ A).
    + right. exists m. split; [ exact E | lia ].
  - pose proof (fr_tables _ _ _ A). pose proof (fr_tables _ _ _ B). lia.
  - intros n t G P. pose proof (fr_other _ _ _ A n t G P) as G1. apply (fr_other _ _ _ B n t G1).
    intros P1. destruct (fr_props _ _ _ A) as [E|[m [E L]]]; [ congruence | ]. pose proof (get_table_lt _ _ _ G). rewrite P1 in E. inversion E. lia.
  - intros n t G P. destruct (fr_own _ _ _ A n t G P) as [t1 [G1 [K1 [K3 [K5 K4]]]]].
    assert (D : props_of w1 o = Some (Some n) \/ props_of w1 o <> Some (Some n)).
    { destruct (props_of w1 o) as [[x|]|]; try (right; discriminate). destruct (Nat.eq_dec x n); [ left; congruence | right; congruence ]. }
    destruct D as [D|D].
    + destruct (fr_own _ _ _ B n t1 G1 D) as [t2 [G2 [L1 [L3 [L5 L4]]]]]. exists t2. split; [ exact G2 | ].
      split; [ congruence | ]. split; [ auto | ]. split; [ auto | exact L4 ].
    + exists t1. split; [ apply (fr_other _ _ _ B n t1 G1 D) | ]. split; [ exact K1 | ]. split; [ exact K3 | ]. split; [ exact K5 | ].
      right. destruct K4 as [K4|K4]; [ contradiction | exact K4 ].
Qed.

(* ---- resizing ---- *)

Lemma nth_error_app_l : forall A (l m : list A) n x, nth_error l n = Some x -> nth_error (l ++ m) n = Some x.
Proof. intros A l m n x H. rewrite nth_error_app1; [ exact H | ]. apply nth_error_Some. congruence. Qed.

Lemma props_set : forall w o p o', props_of w o <> None ->
  props_of (set_props w o p) o' = if Nat.eqb o' o then Some p else props_of w o'.
Proof.
  intros w o p o' N. unfold props_of, set_props in *. destruct (nth_error (w_objs w) o) as [ob|] eqn:E; [ | congruence ].
  cbn [w_objs]. rewrite nth_error_upd. assert (o < length (w_objs w))%nat by (apply nth_error_Some; congruence).
  destruct (Nat.eqb_spec o' o) as [->|]; [ | reflexivity ]. destruct (Nat.ltb_spec o (length (w_objs w))); [ reflexivity | lia ].
Qed.

Lemma resize_ok : forall w o n t, wwf w -> props_of w o = Some (Some n) -> get_table w n = Some t ->
  (exists w' m t', resize_prop_table alloc_ok w o (Some n) 2 = OOk w' /\ wwf w' /\ frame o w w' /\ props_of w' o = Some (Some m) /\
     get_table w' m = Some t' /\ t_cap t' = 2 * t_cap t /\ (forall k, assoc (t_items t') k = prop_of (assoc (t_items t) k))) \/
  (resize_prop_table alloc_ok w o (Some n) 2 = OExn w /\ alloc_ok (u32 (t_cap t * 2)) = false).
Proof.
  intros w o n t W P G. destruct (wwf_table w o n W P) as [t0 [G0 T]]. rewrite G in G0. inversion G0. subst t0. clear G0.
  unfold resize_prop_table. rewrite G, (tw_new _ _ T). cbv zeta. pose proof (tw_core _ _ T) as C. pose proof C as [Pw _].
  pose proof (pow2_range _ Pw) as Hcap.
  destruct (alloc_ok (u32 (t_cap t * 2))) eqn:A; [ left | right; split; reflexivity ].
  pose proof (alloc_range _ A) as R.
  assert (Lim : 2 * t_cap t <= 2147483648).
  { destruct (Z_le_gt_dec (2 * t_cap t) 2147483648); [ assumption | ]. exfalso. destruct Pw as [e [He Ee]].
    assert (e = 31). { destruct (Z.eq_dec e 31); [ assumption | ]. assert (2 ^ e <= 2 ^ 30) by (apply Z.pow_le_mono_r; lia).
      change (2 ^ 30) with 1073741824 in *. lia. }
    subst e. rewrite Ee in R. vm_compute in R. destruct R. discriminate. }
  rewrite u32_small in * by lia. replace (t_cap t * 2) with (2 * t_cap t) in * by lia.
  destruct (copy_table_ok hash t (2 * t_cap t) (length (w_tables w)) T (pow2_double _ Pw Lim) ltac:(lia))
    as [ot' [nt' [E [D [N [NC [OC [OK OM]]]]]]]].
  set (m := length (w_tables w)) in *. pose proof (get_table_lt _ _ _ G) as Ln. fold m in Ln.
  set (w1 := World (upd (upd (upd (w_tables w ++ [new_table (2 * t_cap t)]) n (with_new t (Some m))) n ot') m nt') (w_objs w)).
  match goal with |- exists w' m0 t', ?X = OOk w' /\ _ => assert (RS : X = OOk (set_props w1 o (Some m))) end.
  { unfold copy_tables, get_table, put_table. cbn [w_tables w_objs].
    rewrite !nth_error_upd, !app_length. cbn [length]. rewrite Nat.eqb_refl. fold m.
    destruct (Nat.ltb_spec n (m + 1)) as [_|X]; [ | lia ].
    destruct (Nat.eqb_spec m n); [ lia | ]. rewrite nth_error_app2 by (unfold m; lia). unfold m at 1. rewrite Nat.sub_diag. cbn [nth_error].
    rewrite E. unfold props_of at 1. cbn [w_objs]. change (match nth_error (w_objs w) o with Some ob => o_props ob | None => None end) with (props_of w o).
    rewrite P, Nat.eqb_refl. reflexivity. }
  assert (P1 : forall o', props_of w1 o' = props_of w o') by reflexivity.
  assert (P2 : forall o', props_of (set_props w1 o (Some m)) o' = if Nat.eqb o' o then Some (Some m) else props_of w o').
  { intros o'. rewrite props_set; [ reflexivity | rewrite P1, P; discriminate ]. }
  assert (GT : forall x, get_table (set_props w1 o (Some m)) x =
     if Nat.eqb x m then Some nt' else if Nat.eqb x n then Some ot' else get_table w x).
  { intros x. unfold set_props. assert (Q : exists ob, nth_error (w_objs w1) o = Some ob).
    { unfold props_of in P. change (w_objs w1) with (w_objs w). destruct (nth_error (w_objs w) o); [ eauto | discriminate ]. }
    destruct Q as [ob Q]. rewrite Q. unfold get_table. cbn [w_tables]. unfold w1. cbn [w_tables].
    rewrite !nth_error_upd, !upd_length, app_length. cbn [length]. fold m.
    destruct (Nat.eqb_spec x m).
    - destruct (Nat.ltb_spec m (m + 1)); [ reflexivity | lia ].
    - destruct (Nat.eqb_spec x n); [ destruct (Nat.ltb_spec n (m + 1)); [ reflexivity | lia ] | ].
      destruct (Nat.lt_ge_cases x m).
      + rewrite nth_error_app1 by (unfold m in *; lia). reflexivity.
      + rewrite (proj2 (nth_error_None _ _)) by (rewrite app_length; cbn; unfold m in *; lia).
        symmetry. apply nth_error_None. unfold m in *. lia. }
  exists (set_props w1 o (Some m)), m, nt'. split; [ exact RS | ].
  assert (Pn : forall o', props_of w o' = Some (Some m) -> False).
  { intros o' Po. destruct (wwf_table _ _ _ W Po) as [tx [Gx _]]. apply get_table_lt in Gx. unfold m in Gx. lia. }
  assert (OBJ : forall o', nth_error (w_objs (set_props w1 o (Some m))) o' =
     if Nat.eqb o' o then option_map (fun ob => Obj (Some (Some m)) (o_proto ob)) (nth_error (w_objs w) o') else nth_error (w_objs w) o').
  { intros o'. unfold set_props. change (w_objs w1) with (w_objs w). destruct (nth_error (w_objs w) o) as [ob|] eqn:Q.
    - cbn [w_objs]. rewrite nth_error_upd. destruct (Nat.eqb_spec o' o) as [->|]; [ | reflexivity ].
      assert (o < length (w_objs w))%nat by (apply nth_error_Some; congruence).
      destruct (Nat.ltb_spec o (length (w_objs w))); [ | lia ]. rewrite Q. reflexivity.
    - unfold props_of in P. rewrite Q in P. discriminate. }
  split; [ | split; [ | split; [ rewrite P2, Nat.eqb_refl; reflexivity | split; [ rewrite GT, Nat.eqb_refl; reflexivity | split; [ exact NC | exact OM ] ] ] ] ].
  - split.
    + intros o' ob Eo. rewrite OBJ in Eo. pose proof W as W0. destruct W as [W _]. destruct (Nat.eqb_spec o' o) as [->|Ne].
      * destruct (nth_error (w_objs w) o) as [ob0|] eqn:Q; [ | discriminate ]. cbn [option_map] in Eo. inversion Eo. subst ob. cbn [o_props o_proto].
        split; [ | apply (proj2 (W o ob0 Q)) ]. intros x Ex. inversion Ex. subst x. exists nt'. rewrite GT, Nat.eqb_refl. auto.
      * destruct (W o' ob Eo) as [W1 W2]. split; [ | exact W2 ]. intros x Ex. destruct (W1 x Ex) as [tx [Gx Tx]]. exists tx.
        split; [ | exact Tx ]. rewrite GT. pose proof (get_table_lt _ _ _ Gx). destruct (Nat.eqb_spec x m); [ unfold m in *; lia | ].
        destruct (Nat.eqb_spec x n) as [->|]; [ | exact Gx ]. exfalso.
        assert (Px : props_of w o' = Some (Some n)) by (unfold props_of; rewrite Eo; exact Ex).
        apply Ne. apply (proj2 W0 o' o n Px P).
    + intros o1 o2 x. rewrite !P2. destruct (Nat.eqb_spec o1 o); destruct (Nat.eqb_spec o2 o); intros E1 E2.
      * congruence.
      * inversion E1. subst x. destruct (Pn _ E2).
      * inversion E2. subst x. destruct (Pn _ E1).
      * apply (proj2 W o1 o2 x E1 E2).
  - constructor.
    + unfold set_props. change (w_objs w1) with (w_objs w). destruct (nth_error (w_objs w) o); [ | reflexivity ]. cbn [w_objs]. apply upd_length.
    + intros o' Ne. rewrite OBJ. destruct (Nat.eqb_spec o' o); [ contradiction | reflexivity ].
    + intros ob Eo. rewrite OBJ, Nat.eqb_refl, Eo. cbn [option_map]. eexists. split; [ reflexivity | ]. split; [ reflexivity | ].
      cbn [o_props]. unfold props_of in P. rewrite Eo in P. rewrite P. split; discriminate.
    + right. exists m. rewrite P2, Nat.eqb_refl. auto.
    + unfold set_props. assert (length (w_tables w1) = (m + 1)%nat) by (unfold w1; cbn [w_tables]; rewrite !upd_length, app_length; reflexivity).
      destruct (nth_error (w_objs w1) o); cbn [w_tables]; unfold m in *; lia.
    + intros x tx Gx Px. rewrite GT. pose proof (get_table_lt _ _ _ Gx). destruct (Nat.eqb_spec x m); [ unfold m in *; lia | ].
      destruct (Nat.eqb_spec x n); [ congruence | exact Gx ].
    + intros x tx Gx Px. assert (x = n) by congruence. subst x. assert (tx = t) by congruence. subst tx. exists ot'.
      rewrite GT, Nat.eqb_refl. destruct (Nat.eqb_spec n m); [ lia | ]. split; [ reflexivity | ].
      split; [ exact OC | ]. split; [ intros j k; rewrite OK; auto | ]. split; [ intros _ j1 j2 k; rewrite !OK; apply C | ]. right. exists m. exact D.
Qed.

(* writing a new version of the table of the object *)
Lemma put_get : forall w n t t' x, get_table w n = Some t -> get_table (put_table w n t') x = if Nat.eqb x n then Some t' else get_table w x.
Proof.
  intros w n t t' x G. apply get_table_lt in G. unfold get_table, put_table. cbn [w_tables]. rewrite nth_error_upd.
  destruct (Nat.ltb_spec n (length (w_tables w))); [ reflexivity | lia ].
Qed.

Lemma put_ok : forall w o n t t', wwf w -> props_of w o = Some (Some n) -> get_table w n = Some t -> twf hash t' -> t_cap t' = t_cap t ->
  (forall j k, kat (t_items t) j = Some k -> kat (t_items t') j = Some k) ->
  wwf (put_table w n t') /\ frame o w (put_table w n t').
Proof.
  intros w o n t t' W P G T Ec Hk. pose proof (fun x => put_get w n t t' x G) as GT. split.
  - destruct W as [W1 W2]. split; [ | exact W2 ]. intros o' ob Eo. change (w_objs (put_table w n t')) with (w_objs w) in Eo.
    destruct (W1 o' ob Eo) as [A B]. split; [ | exact B ]. intros x Ex. destruct (A x Ex) as [tx [Gx Tx]].
    rewrite GT. destruct (Nat.eqb_spec x n); eauto.
  - constructor; auto.
    + intros ob E. exists ob. tauto.
    + unfold put_table. cbn [w_tables]. rewrite upd_length. lia.
    + intros x tx Gx Px. rewrite GT. destruct (Nat.eqb_spec x n); [ congruence | exact Gx ].
    + intros x tx Gx Px. assert (x = n) by congruence. subst x. assert (tx = t) by congruence. subst tx. exists t'.
      rewrite GT, Nat.eqb_refl. split; [ reflexivity | ]. split; [ exact Ec | ]. split; [ exact Hk | ]. split; [ intros _; destruct (tw_core _ _ T) as [_ [_ [_ [D _]]]]; exact D | left; exact P ].
Qed.

Lemma passed_cap : forall cap l k d, pow2 cap -> passed hash cap l k d -> 0 <= d ->
  (kat l (probe hash cap k d) = None \/ kat l (probe hash cap k d) = Some k) -> d < cap.
Proof.
  intros cap l k d P A Hd H. pose proof (pow2_range _ P). destruct (Z_lt_le_dec d cap); [ assumption | ]. exfalso.
  destruct (A (d mod cap)) as [k' [K N]].
  - pose proof (Z.mod_pos_bound d cap ltac:(lia)). lia.
  - unfold probe in *. rewrite Zplus_mod_idemp_r in K. destruct H; congruence.
Qed.

(* a deleted key which still has its slot *)
Definition tomb (w : world) (o : nat) (k : key) : Prop :=
  exists n t, props_of w o = Some (Some n) /\ get_table w n = Some t /\ assoc (t_items t) k = Some Tomb.
Lemma tomb_table : forall w o n t k, props_of w o = Some (Some n) -> get_table w n = Some t -> (tomb w o k <-> assoc (t_items t) k = Some Tomb).
Proof.
  intros w o n t k P G. split.
  - intros [n' [t' [P' [G' A]]]]. assert (n' = n) by congruence. subst n'. congruence.
  - intros A. exists n, t. auto.
Qed.

(* the property set, as seen by the user *)
Definition okval (v : pval) : Prop := v = Tomb \/ live_val v.

Definition set_post (w : world) (o n : nat) (k : key) (v : pval) (r : set_status * world) : Prop :=
  match r with
  | (SSuccess _, w') => wwf w' /\ frame o w w' /\ props_of w' o = Some (Some n) /\
      (v <> Tomb -> forall x, omap w o k <> Some (Dyn x)) /\
      (forall k', omap w' o k' = if keyb k' k then prop_of (Some v) else omap w o k') /\
      (forall k', tomb w' o k' -> tomb w o k' \/ k' = k /\ v = Tomb)
  | (STryAgain m, w') => wwf w' /\ frame o w w' /\ props_of w' o = Some (Some m) /\ (forall k', omap w' o k' = omap w o k') /\
      (exists t t', get_table w n = Some t /\ get_table w' m = Some t' /\ t_cap t' = 2 * t_cap t /\
         passed hash (t_cap t) (t_items t) k 10 /\ forall k, assoc (t_items t') k = prop_of (assoc (t_items t) k))
  | (SFailed, w') => w' = w /\ exists t, get_table w n = Some t /\ alloc_ok (u32 (t_cap t * 2)) = false /\ passed hash (t_cap t) (t_items t) k 10
  | (SCallSetter x, w') => v <> Tomb /\ omap w o k = Some (Dyn x) /\ w' = w
  | (SBad, _) => False
  end.

Lemma prop_of_tomb : forall v, prop_of v <> Some Tomb.
Proof. intros [[| | | |]|]; discriminate. Qed.
Lemma prop_of_idem : forall v, prop_of (prop_of v) = prop_of v.
Proof. intros [[| | | |]|]; reflexivity. Qed.

Lemma set_loop_ok : forall fuel w o n t k v d idx, wwf w -> props_of w o = Some (Some n) -> get_table w n = Some t ->
  passed hash (t_cap t) (t_items t) k d -> 0 <= d -> 9 - d < Z.of_nat fuel -> d <= 9 -> okval v ->
  Z.land idx (t_cap t - 1) = probe hash (t_cap t) k d ->
  set_post w o n k v (set_loop alloc_ok fuel w o n k (hash k) v idx (t_cap t - 1) d).
Proof.
  induction fuel as [|f IH]; intros w o n t k v d idx W P G A Hd Hf Hd9 V Hi; [ lia | ].
  destruct (wwf_table w o n W P) as [t0 [G0 T]]. rewrite G in G0. inversion G0. subst t0. clear G0.
  pose proof (tw_core _ _ T) as C. pose proof C as [Pw [L [S _]]]. pose proof (pow2_range _ Pw) as Hcap.
  cbn [set_loop]. rewrite G. cbv zeta. rewrite Hi, item_at_gz.
  pose proof (probe_range hash (t_cap t) k d Pw) as Rg.
  destruct (gz_some _ (t_items t) (probe hash (t_cap t) k d) ltac:(lia)) as [it Gi]. rewrite Gi.
  pose proof (S _ _ Gi) as Si. unfold slot_ok in Si.
  assert (K : kat (t_items t) (probe hash (t_cap t) k d) = i_key it) by (unfold kat; rewrite Gi; reflexivity).
  destruct (i_key it) as [ck|] eqn:Ek.
  - (* a used slot *)
    replace (is_key_equal k (hash k) ck (i_hash it)) with (keyb k ck)
      by (symmetry; apply (key_equal hash it k ck); [ unfold slot_ok; rewrite Ek; exact Si | exact Ek ]).
    destruct (keyb k ck) eqn:B.
    + apply keyb_eq in B. subst ck. pose proof (passed_cap _ _ _ _ Pw A Hd (or_intror K)) as Hdc.
      destruct Si as [Eh Ev]. pose proof (icore_assoc hash _ _ _ _ k C Gi Ek) as As.
      pose proof (icore_put hash (t_cap t) (t_items t) k d v C A ltac:(lia) (or_intror K) V) as Pt. cbv zeta in Pt.
      destruct Pt as [Pc [Pa Pk]].
      assert (T' : twf hash (set_item t (probe hash (t_cap t) k d) (PItem (i_key it) (i_hash it) v))).
      { destruct T as [X1 X2 X3 X4 X5]. constructor; cbn [set_item t_cap t_used t_open t_copies t_new t_items]; auto.
        - rewrite Ek, Eh. exact Pc.
        - rewrite (keys_used_upd _ _ it) by exact Gi. cbn [i_key]. rewrite Ek. lia. }
      pose proof (put_ok w o n t _ W P G T' eq_refl) as PO.
      assert (Succ : (v <> Tomb -> forall x, omap w o k <> Some (Dyn x)) ->
        set_post w o n k v (SSuccess d, put_table w n (set_item t (probe hash (t_cap t) k d) (PItem (i_key it) (i_hash it) v)))).
      { intros ND. unfold set_post. destruct PO as [W' F'].
        - cbn [set_item t_items]. rewrite Ek, Eh. exact Pk.
        - split; [ exact W' | ]. split; [ exact F' | ]. split; [ exact P | ]. split; [ exact ND | ]. split.
          2:{ intros k' Tk. apply (tomb_table _ o n (set_item t (probe hash (t_cap t) k d) (PItem (i_key it) (i_hash it) v))) in Tk;
                [ | exact P | rewrite (put_get w n t _ n G), Nat.eqb_refl; reflexivity ].
              cbn [set_item t_items] in Tk. rewrite Ek, Eh, Pa in Tk. destruct (keyb k' k) eqn:B; [ right; apply keyb_eq in B; split; congruence | ].
              left. apply (tomb_table w o n t k' P G). exact Tk. }
          intros k'.
          rewrite (omap_table (put_table w n (set_item t (probe hash (t_cap t) k d) (PItem (i_key it) (i_hash it) v))) o n (set_item t (probe hash (t_cap t) k d) (PItem (i_key it) (i_hash it) v)) k' P)
            by (rewrite (put_get w n t _ n G), Nat.eqb_refl; reflexivity).
          rewrite (omap_table w o n t k' P G). cbn [set_item t_items]. rewrite Ek, Eh, Pa. destruct (keyb k' k); reflexivity. }
      rewrite Ek in Succ.
      assert (Om : omap w o k = prop_of (Some (i_val it))) by (rewrite (omap_table w o n t k P G), As; reflexivity).
      assert (Wsame : put_table w n t = w).
      { unfold put_table. rewrite upd_same by exact G. destruct w; reflexivity. }
      rewrite Ek. destruct Ev as [Ev|Ev].
      * rewrite Ev. destruct v; cbn iota beta; apply Succ; rewrite Om, Ev; intros _ x; cbn; discriminate.
      * destruct (i_val it) as [| | |y|y] eqn:Ei; cbn [live_val] in Ev; try contradiction.
        -- destruct v; cbn iota beta; apply Succ; rewrite Om; intros _ x; cbn; discriminate.
        -- destruct V as [->|V].
           ++ cbn iota beta. apply Succ. congruence.
           ++ destruct v; cbn [live_val] in V; try contradiction; cbn iota beta; cbn [set_post]; rewrite Om; cbn [prop_of];
              (split; [ discriminate | ]; split; [ reflexivity | exact Wsame ]).
    + apply keyb_neq in B. assert (A' : passed hash (t_cap t) (t_items t) k (d + 1)) by (apply (passed_next hash _ _ _ _ ck A Hd K); congruence).
      assert (Main : set_post w o n k v
        (if 8 <? d
            then match resize_prop_table alloc_ok w o (Some n) 2 with
                 | OOk w => match props_of w o with
                            | Some (Some m) => (STryAgain m, w)
                            | _ => (SBad, w)
                            end
                 | OExn w => (SFailed, w)
                 | _ => (SBad, w)
                 end
            else set_loop alloc_ok f w o n k (hash k) v (u32 (probe hash (t_cap t) k d + 1)) (t_cap t - 1) (d + 1))).
      { destruct (Z.ltb_spec 8 d).
        - destruct (resize_ok w o n t W P G) as [[w' [m [t' [R [W' [F [P' [G' [Cp As]]]]]]]]]|[R Al]]; rewrite R.
          + rewrite P'. unfold set_post. split; [ exact W' | ]. split; [ exact F | ]. split; [ exact P' | ]. split.
            * intros k'. rewrite (omap_table w' o m t' k' P' G'), (omap_table w o n t k' P G), As. apply prop_of_idem.
            * exists t, t'. split; [ exact G | ]. split; [ exact G' | ]. split; [ exact Cp | ].
              replace 10 with (d + 1) by lia. auto.
          + unfold set_post. split; [ reflexivity | ]. exists t. replace 10 with (d + 1) by lia. auto.
        - apply IH; auto; try lia. apply probe_next. exact Pw. }
      destruct v; exact Main.
  - (* an empty slot *)
    pose proof (passed_cap _ _ _ _ Pw A Hd (or_introl K)) as Hdc.
    pose proof (absent_empty hash _ _ _ _ C A Hd K) as As.
    assert (Om : omap w o k = None) by (rewrite (omap_table w o n t k P G), As; reflexivity).
    destruct V as [->|V].
    + cbn [set_post]. split; [ exact W | ]. split; [ apply frame_refl | ]. split; [ exact P | ]. split; [ congruence | ]. split; [ | auto ].
      intros k'. destruct (keyb k' k) eqn:B; [ | reflexivity ]. apply keyb_eq in B. subst k'. exact Om.
    + pose proof (icore_put hash (t_cap t) (t_items t) k d v C A ltac:(lia) (or_introl K) (or_intror V)) as Pt. cbv zeta in Pt.
      destruct Pt as [Pc [Pa Pk]].
      set (p := probe hash (t_cap t) k d) in *.
      set (t1 := with_used (set_item t p (PItem (Some k) (hash k) (i_val it))) (u32 (t_used t + 1))).
      assert (E2 : set_item t1 p (PItem (Some k) (hash k) v) = with_used (set_item t p (PItem (Some k) (hash k) v)) (u32 (t_used t + 1))).
      { unfold t1, set_item, with_used. cbn [t_cap t_used t_open t_copies t_new t_items]. rewrite upd_upd. reflexivity. }
      assert (T' : twf hash (set_item t1 p (PItem (Some k) (hash k) v))).
      { rewrite E2. destruct T as [X1 X2 X3 X4 X5]. constructor; cbn [with_used set_item t_cap t_used t_open t_copies t_new t_items]; auto.
        rewrite (keys_used_upd _ _ it) by exact Gi. cbn [i_key]. rewrite Ek, X2.
        pose proof (keys_used_range (upd (t_items t) (Z.to_nat p) (PItem (Some k) (hash k) v))) as KR. rewrite (keys_used_upd _ _ it) in KR by exact Gi.
        cbn [i_key] in KR. rewrite Ek, upd_len in KR. rewrite u32_small by (pose proof (keys_used_range (t_items t)); lia). lia. }
      pose proof (put_ok w o n t _ W P G T') as PO. rewrite E2 in PO. specialize (PO eq_refl Pk). destruct PO as [W' F'].
      assert (Succ : set_post w o n k v (SSuccess d, put_table w n (set_item t1 p (PItem (Some k) (hash k) v)))).
      { unfold set_post. rewrite E2. split; [ exact W' | ]. split; [ exact F' | ]. split; [ exact P | ]. split; [ congruence | ]. split.
        2:{ intros k' Tk. apply (tomb_table _ o n (with_used (set_item t p (PItem (Some k) (hash k) v)) (u32 (t_used t + 1)))) in Tk;
              [ | exact P | rewrite (put_get w n t _ n G), Nat.eqb_refl; reflexivity ].
            cbn [with_used set_item t_items] in Tk. rewrite Pa in Tk. destruct (keyb k' k) eqn:B; [ right; apply keyb_eq in B; split; congruence | ].
            left. apply (tomb_table w o n t k' P G). exact Tk. }
        intros k'.
        rewrite (omap_table (put_table w n (with_used (set_item t p (PItem (Some k) (hash k) v)) (u32 (t_used t + 1)))) o n (with_used (set_item t p (PItem (Some k) (hash k) v)) (u32 (t_used t + 1))) k' P)
            by (rewrite (put_get w n t _ n G), Nat.eqb_refl; reflexivity).
        rewrite (omap_table w o n t k' P G). cbn [with_used set_item t_items]. rewrite Pa. destruct (keyb k' k); reflexivity. }
      cbn [i_val i_key i_hash]. rewrite Si in *. destruct v; cbn [live_val] in V; try contradiction; exact Succ.
Qed.

(* ---- the whole operation ---- *)
Definition set_result (w : world) (o : nat) (k : key) (v : pval) (r : ores world) : Prop :=
  match r with
  | OOk w' => (wwf w' /\ frame o w w' /\ (forall k', tomb w' o k' -> tomb w o k' \/ k' = k /\ v = Tomb)) /\
      (v <> Tomb -> forall x, omap w o k <> Some (Dyn x)) /\
      (forall k', omap w' o k' = if keyb k' k then prop_of (Some v) else omap w o k')
  | OExn w' => (wwf w' /\ frame o w w' /\ (forall k', tomb w' o k' -> tomb w o k' \/ k' = k /\ v = Tomb)) /\
      ((forall k', omap w' o k' = omap w o k') \/
       (v <> Tomb -> forall x, omap w o k <> Some (Dyn x)) /\ (forall k', omap w' o k' = if keyb k' k then prop_of (Some v) else omap w o k'))
  | OSetter x w' => (wwf w' /\ frame o w w' /\ (forall k', tomb w' o k' -> tomb w o k' \/ k' = k /\ v = Tomb)) /\
      v <> Tomb /\ omap w o k = Some (Dyn x) /\ (forall k', omap w' o k' = omap w o k')
  | OBad => False
  end.

Lemma set_result_trans : forall w w1 o k v r, frame o w w1 -> (forall k', ~ tomb w1 o k') -> (forall k', omap w1 o k' = omap w o k') ->
  set_result w1 o k v r -> set_result w o k v r.
Proof.
  intros w w1 o k v r F NT M.
  assert (T : forall w', (wwf w' /\ frame o w1 w' /\ (forall k', tomb w' o k' -> tomb w1 o k' \/ k' = k /\ v = Tomb)) ->
    wwf w' /\ frame o w w' /\ (forall k', tomb w' o k' -> tomb w o k' \/ k' = k /\ v = Tomb)).
  { intros w' [A [B C]]. split; [ exact A | ]. split; [ apply (frame_trans _ _ _ _ F B) | ]. intros k' Tk.
    destruct (C k' Tk) as [X|X]; [ destruct (NT _ X) | auto ]. }
  destruct r as [w'|w'|x w'|]; cbn [set_result]; try tauto.
  - intros [A [C D]]. split; [ auto | ]. split; [ rewrite <- M; exact C | ].
    intros k'. rewrite D, M. reflexivity.
  - intros [A D]. split; [ auto | ].
    destruct D as [D|[D1 D]].
    + left. intros k'. rewrite D. apply M.
    + right. split; [ rewrite <- M; exact D1 | ]. intros k'. rewrite D, M. reflexivity.
  - intros [A [C [D E]]]. split; [ auto | ]. split; [ exact C | ].
    split; [ rewrite <- M; exact D | ]. intros k'. rewrite E. apply M.
Qed.

Lemma set_once_ok : forall w o n k v, wwf w -> props_of w o = Some (Some n) -> okval v ->
  set_post w o n k v (set_property_once alloc_ok hash w o n k v).
Proof.
  intros w o n k v W P V. destruct (wwf_table w o n W P) as [t [G T]]. unfold set_property_once. rewrite G.
  pose proof (tw_core _ _ T) as [Pw _].
  apply (set_loop_ok 11 w o n t k v 0 (hash k)); auto; try lia.
  - apply passed_0.
  - apply probe_first. exact Pw.
Qed.

Lemma set_retry_ok : forall fuel w o n t k v e, wwf w -> props_of w o = Some (Some n) -> get_table w n = Some t -> okval v ->
  t_cap t = 2 ^ e -> 2 <= e <= 31 -> 32 - e <= Z.of_nat fuel ->
  set_result w o k v (set_retry alloc_ok hash fuel w o n k v).
Proof.
  induction fuel as [|f IH]; intros w o n t k v e W P G V Ee He Hf; [ lia | ].
  cbn [set_retry]. pose proof (set_once_ok w o n k v W P V) as Ps.
  destruct (set_property_once alloc_ok hash w o n k v) as [[r|m| |x|] w']; cbn [set_post] in Ps.
  - destruct Ps as [W' [F [P' [ND [M Tb]]]]]. destruct (wwf_table w' o n W' P') as [t' [G' T']]. rewrite G'.
    destruct (need_resize t' r).
    + destruct (resize_ok w' o n t' W' P' G') as [[w2 [m [t2 [R [W2 [F2 [P2 [G2 [Cp As]]]]]]]]]|[R Al]]; rewrite R; cbn [set_result].
      * split; [ split; [ exact W2 | split; [ apply (frame_trans _ _ _ _ F F2) | ] ] | ].
        { intros k' Tk. apply (tomb_table w2 o m t2 k' P2 G2) in Tk. rewrite As in Tk. destruct (prop_of_tomb _ Tk). }
        split; [ exact ND | ].
        intros k'. rewrite <- M, (omap_table w2 o m t2 k' P2 G2), (omap_table w' o n t' k' P' G'), As. apply prop_of_idem.
      * split; [ auto | ]. right. auto.
    + cbn [set_result]. auto.
  - destruct Ps as [W' [F [P' [M [t1 [t2 [G1 [G2 [Cp [_ As]]]]]]]]]]. assert (t1 = t) by congruence. subst t1.
    apply (set_result_trans w w'); [ exact F | | exact M | ].
    { intros k' Tk. apply (tomb_table w' o m t2 k' P' G2) in Tk. rewrite As in Tk. destruct (prop_of_tomb _ Tk). }
    destruct (wwf_table w' o m W' P') as [t3 [G3 T3]]. assert (t3 = t2) by congruence. subst t3.
    pose proof (tw_core _ _ T3) as [Pw _]. pose proof (pow2_range _ Pw).
    assert (Ec : t_cap t2 = 2 ^ (e + 1)) by (rewrite Z.pow_add_r by lia; lia).
    apply (IH w' o m t2 k v (e + 1)); auto; try lia.
    split; [ lia | ]. destruct (Z_le_gt_dec (e + 1) 31); [ assumption | ]. exfalso. assert (e = 31) by lia. subst e.
    rewrite Ec in *. change (2 ^ (31 + 1)) with 4294967296 in *. lia.
  - destruct Ps as [-> _]. cbn [set_result]. split; [ split; [ exact W | split; [ apply frame_refl | auto ] ] | ]. left. reflexivity.
  - destruct Ps as [A [B ->]]. cbn [set_result]. split; [ split; [ exact W | split; [ apply frame_refl | auto ] ] | ]. auto.
  - contradiction.
Qed.

(* a table for an object without one *)
Lemma first_table : forall w o, wwf w -> props_of w o = Some None ->
  let m := length (w_tables w) in
  let w' := set_props (World (w_tables w ++ [new_table 4]) (w_objs w)) o (Some m) in
  wwf w' /\ frame o w w' /\ props_of w' o = Some (Some m) /\ get_table w' m = Some (new_table 4).
Proof.
  intros w o W P m w'.
  set (w1 := World (w_tables w ++ [new_table 4]) (w_objs w)) in *.
  destruct (nth_error (w_objs w) o) as [ob|] eqn:Q; [ | unfold props_of in P; rewrite Q in P; discriminate ].
  assert (P2 : forall o', props_of w' o' = if Nat.eqb o' o then Some (Some m) else props_of w o').
  { intros o'. unfold w'. rewrite props_set; [ reflexivity | ]. unfold w1, props_of. cbn [w_objs]. unfold props_of in P. rewrite P. discriminate. }
  assert (Tb : w_tables w' = w_tables w ++ [new_table 4]).
  { unfold w', set_props. change (w_objs w1) with (w_objs w). rewrite Q. reflexivity. }
  assert (GT : forall x t, get_table w x = Some t -> get_table w' x = Some t).
  { intros x t Gx. unfold get_table in *. rewrite Tb. apply nth_error_app_l. exact Gx. }
  assert (Gm : get_table w' m = Some (new_table 4)).
  { unfold get_table. rewrite Tb. rewrite nth_error_app2 by (unfold m; lia). unfold m. rewrite Nat.sub_diag. reflexivity. }
  assert (OBJ : forall o', nth_error (w_objs w') o' = if Nat.eqb o' o then Some (Obj (Some (Some m)) (o_proto ob)) else nth_error (w_objs w) o').
  { intros o'. unfold w', set_props. change (w_objs w1) with (w_objs w). rewrite Q. cbn [w_objs]. rewrite nth_error_upd.
    assert (o < length (w_objs w))%nat by (apply nth_error_Some; congruence).
    destruct (Nat.eqb_spec o' o) as [->|]; [ | reflexivity ]. destruct (Nat.ltb_spec o (length (w_objs w))); [ reflexivity | lia ]. }
  assert (Pn : forall o', props_of w o' = Some (Some m) -> False).
  { intros o' Po. destruct (wwf_table _ _ _ W Po) as [tx [Gx _]]. apply get_table_lt in Gx. unfold m in Gx. lia. }
  assert (P4 : pow2 4) by (exists 2; split; [ lia | reflexivity ]).
  split; [ | split; [ | split; [ rewrite P2, Nat.eqb_refl; reflexivity | exact Gm ] ] ].
  - split.
    + intros o' ob' Eo. rewrite OBJ in Eo. destruct (Nat.eqb_spec o' o) as [->|Ne].
      * inversion Eo. subst ob'. cbn [o_props o_proto]. split.
        -- intros x Ex. inversion Ex. subst x. exists (new_table 4). split; [ exact Gm | apply new_table_wf; exact P4 ].
        -- apply (proj2 (proj1 W o ob Q)).
      * destruct (proj1 W o' ob' Eo) as [A B]. split; [ | exact B ]. intros x Ex. destruct (A x Ex) as [tx [Gx Tx]]. eauto.
    + intros o1 o2 x. rewrite !P2. destruct (Nat.eqb_spec o1 o); destruct (Nat.eqb_spec o2 o); intros E1 E2.
      * congruence.
      * inversion E1. subst x. destruct (Pn _ E2).
      * inversion E2. subst x. destruct (Pn _ E1).
      * apply (proj2 W o1 o2 x E1 E2).
  - constructor.
    + unfold w', set_props. change (w_objs w1) with (w_objs w). rewrite Q. cbn [w_objs]. apply upd_length.
    + intros o' Ne. rewrite OBJ. destruct (Nat.eqb_spec o' o); [ contradiction | reflexivity ].
    + intros ob0 Eo. rewrite OBJ, Nat.eqb_refl. eexists. split; [ reflexivity | ]. cbn [o_props o_proto].
      unfold props_of in P. rewrite Q in *. inversion Eo. subst ob0. rewrite P. split; [ reflexivity | split; discriminate ].
    + right. exists m. rewrite P2, Nat.eqb_refl. auto.
    + rewrite Tb, app_length. lia.
    + intros x tx Gx _. apply GT. exact Gx.
    + intros x tx Gx Px. congruence.
Qed.

Lemma set_property_ok : forall w o k v, wwf w -> props_of w o <> None -> okval v ->
  set_result w o k v (set_property alloc_ok hash w o k v).
Proof.
  intros w o k v W P V. unfold set_property. destruct (props_of w o) as [[n|]|] eqn:Po; [ | | congruence ].
  - destruct (wwf_table w o n W Po) as [t [G T]]. pose proof (tw_core _ _ T) as [[e [He Ee]] _].
    apply (set_retry_ok 40 w o n t k v e); auto; lia.
  - assert (Em : forall k', omap w o k' = None) by (intros; unfold omap; rewrite Po; reflexivity).
    assert (Main : v <> Tomb -> set_result w o k v
      match resize_prop_table alloc_ok w o None 0 with
      | OOk w => match props_of w o with
                 | Some (Some n) => set_retry alloc_ok hash 40 w o n k v
                 | _ => OBad
                 end
      | r => r
      end).
    { intros NT. unfold resize_prop_table. destruct (alloc_ok 4) eqn:A4.
      - cbv zeta. change (props_of (World (w_tables w ++ [new_table 4]) (w_objs w)) o) with (props_of w o). rewrite Po.
        destruct (first_table w o W Po) as [W' [F [P' G']]]. rewrite P'.
        apply (set_result_trans w (set_props (World (w_tables w ++ [new_table 4]) (w_objs w)) o (Some (length (w_tables w))))); [ exact F | | | ].
        + intros k' Tk. apply (tomb_table _ o _ _ k' P' G') in Tk. rewrite new_table_assoc in Tk. discriminate.
        + intros k'. rewrite Em, (omap_table _ o _ _ k' P' G'), new_table_assoc. reflexivity.
        + apply (set_retry_ok 40 _ o _ _ k v 2 W' P' G'); auto; lia.
      - cbn [set_result]. split; [ split; [ exact W | split; [ apply frame_refl | auto ] ] | ]. left. reflexivity. }
    destruct v; try (apply Main; discriminate).
    cbn [set_result]. split; [ split; [ exact W | split; [ apply frame_refl | auto ] ] | ]. split; [ congruence | ]. intros k'. rewrite !Em. destruct (keyb k' k); reflexivity.
Qed.

Lemma set_property_none : forall w o k v, props_of w o = None -> set_property alloc_ok hash w o k v = OExn w.
Proof. intros w o k v P. unfold set_property. rewrite P. reflexivity. Qed.
End World.
