(* Objects: deep walks. *)
From Coq Require Import ZArith List Lia Bool ZifyBool.
Import ListNotations.
From Verif Require Import Base ListZ ArraySpec ArrayProofs ObjModel ObjSpec ObjCalls ObjProofs ObjProofs2 ObjProofs3 ObjProofs4.
Local Open Scope Z_scope.
Ltac Zify.zify_post_hook ::= idtac.

Section World.
Variable hash : key -> Z.
Variable alloc_ok : Z -> bool.
Hypothesis alloc_range : forall c, alloc_ok c = true -> 0 < c <= 2147483648.

(* the next object with a table, for keys which the object itself does not have *)
Lemma np_ok : forall fuel w o ob, wwf hash w -> nth_error (w_objs w) o = Some ob -> (o < fuel)%nat ->
  match next_prototype fuel w o with
  | None => False
  | Some None => forall k v, omap w o k = None -> ~ sees (abs w) o k v
  | Some (Some (p, n)) => props_of w p = Some (Some n) /\ (p < o)%nat /\
      forall k v, omap w o k = None -> (sees (abs w) o k v <-> sees (abs w) p k v)
  end.
Proof.
  induction fuel as [|f IH]; intros w o ob W E L; [ lia | ]. cbn [next_prototype]. rewrite E.
  destruct (o_proto ob) as [p|] eqn:Pr.
  - destruct (proto_obj hash w o ob p W E Pr) as [Lp [ob' E']].
    assert (Up : forall k v, omap w o k = None -> (sees (abs w) o k v <-> sees (abs w) p k v)).
    { intros k v Hn. rewrite (sees_up hash w o k v ob W E Hn). split; [ intros [p' [Ep S]]; congruence | eauto ]. }
    assert (Rec : (forall k, omap w p k = None) ->
      match next_prototype f w p with
      | None => False
      | Some None => forall k v, omap w o k = None -> ~ sees (abs w) o k v
      | Some (Some (p, n)) => props_of w p = Some (Some n) /\ (p < o)%nat /\
          forall k v, omap w o k = None -> (sees (abs w) o k v <-> sees (abs w) p k v)
      end).
    { intros Hp. specialize (IH w p ob' W E' ltac:(lia)). destruct (next_prototype f w p) as [[[q n]|]|]; [ | | exact IH ].
      - destruct IH as [A [B C]]. split; [ exact A | ]. split; [ lia | ]. intros k v Hn. rewrite (Up k v Hn). apply C. apply Hp.
      - intros k v Hn S. apply (Up k v Hn) in S. apply (IH k v (Hp k) S). }
    destruct (props_of w p) as [[n|]|] eqn:P.
    + split; [ exact P | ]. split; [ exact Lp | exact Up ].
    + apply Rec. intros k. unfold omap. rewrite P. reflexivity.
    + apply Rec. intros k. unfold omap. rewrite P. reflexivity.
  - intros k v Hn S. apply (sees_up hash w o k v ob W E Hn) in S. destruct S as [p' [Ep S]]. congruence.
Qed.

(* objects below r do not depend on r *)
Lemma sees_below : forall w w' r, wwf hash w -> wwf hash w' -> frame r w w' -> forall o, (o < r)%nat ->
  forall k v, sees (abs w') o k v <-> sees (abs w) o k v.
Proof.
  intros w w' r W W' F o. induction o as [o IH] using (well_founded_induction lt_wf). intros L k v.
  pose proof (frame_omap hash r w w' o k W F ltac:(lia)) as Om. pose proof (fr_objs _ _ _ F o ltac:(lia)) as Eo.
  destruct (omap w o k) as [x|] eqn:Ex.
  - rewrite (sees_own_iff hash w o k v x W Ex), (sees_own_iff hash w' o k v x W' Om). tauto.
  - destruct (nth_error (w_objs w) o) as [ob|] eqn:E.
    + rewrite (sees_up hash w o k v ob W E Ex), (sees_up hash w' o k v ob W' Eo Om). split; intros [p [Ep S]]; exists p; (split; [ exact Ep | ]);
      destruct (proto_obj hash w o ob p W E Ep) as [Lp _]; apply (IH p Lp ltac:(lia) k v); exact S.
    + split; intros S; exfalso; inversion S; subst; rewrite abs_nth, ?E, ?Eo in *; discriminate.
Qed.

Section Deep.
(* w0: the state when the walk started, r: the object with the returned keys *)
Variable w0 : world.
Variable r o0 : nat.
Hypothesis W0 : wwf hash w0.
Hypothesis R0 : props_of w0 r <> None.
Variable M : Z.
Hypothesis Mok : forall q n t, props_of w0 q = Some (Some n) -> get_table w0 n = Some t -> t_cap t <= M.

Definition seenkey (w : world) (x : key) : Prop := omap w r x <> None.

Record dinv (w : world) (k : walker) (p : nat) (ys : list (key * pval)) : Prop := DInv {
  di_wf : wwf hash w;
  di_fr : frame r w0 w;
  di_deep : k_deep k = true;
  di_obj : k_prop_obj k = p;
  di_ret : k_returned k = Some r;
  di_lt : (p < r)%nat;
  di_o : (o0 < r)%nat;
  di_i : 0 <= k_index k;
  di_table : forall n, k_table k = Some n -> props_of w0 p = Some (Some n) /\ exists t, get_table w0 n = Some t;
  di_none : k_table k = None -> forall x, omap w0 p x = None;
  di_slots : forall n t j x, k_table k = Some n -> get_table w0 n = Some t -> 0 <= j < k_index k -> kat (t_items t) j = Some x -> seenkey w x;
  di_level : forall x v, ~ seenkey w x -> (sees (abs w0) o0 x v <-> sees (abs w0) p x v);
  di_compl : forall x s, seenkey w x -> sees (abs w0) o0 x s -> (forall q, ~ tomb w0 q x) -> exists v, sval_of (Some v) = Some s /\ In (x, v) ys;
  di_sound : forall x v, In (x, v) ys -> seenkey w x /\ exists s, sval_of (Some v) = Some s /\ sees (abs w0) o0 x s;
  di_nodup : NoDup (map fst ys);
  di_rdyn : forall x d, omap w r x <> Some (Dyn d) }.

Definition dslots (k : walker) : Z :=
  match k_table k with Some n => match get_table w0 n with Some t => t_cap t | None => 0 end | None => 0 end.
Definition measure (k : walker) (p : nat) : Z := Z.of_nat p * (M + 2) + Z.max 0 (dslots k - k_index k) + 1.

Lemma dslots_M : forall k p, 0 <= M -> (forall n, k_table k = Some n -> props_of w0 p = Some (Some n)) -> dslots k <= M.
Proof.
  intros k p H Hp. unfold dslots. destruct (k_table k) as [n|]; [ | lia ]. destruct (get_table w0 n) as [t|] eqn:G; [ | lia ].
  apply (Mok p n t (Hp n eq_refl) G).
Qed.

Lemma level_table : forall w p n t, wwf hash w -> frame r w0 w -> (p < r)%nat -> props_of w0 p = Some (Some n) -> get_table w0 n = Some t ->
  get_table w n = Some t /\ props_of w p = Some (Some n) /\ twf hash t.
Proof.
  intros w p n t W F L P G. split; [ | split ].
  - apply (fr_other _ _ _ F n t G). intros Pr. assert (p = r) by (apply (proj2 W0 p r n P Pr)). lia.
  - rewrite <- P. unfold props_of. rewrite (fr_objs _ _ _ F p ltac:(lia)). reflexivity.
  - destruct (wwf_table hash w0 p n W0 P) as [t0 [G0 T]]. congruence.
Qed.

(* marking a key as returned *)
Lemma mark_ok : forall w x, wwf hash w -> frame r w0 w -> omap w r x = None ->
  match set_property alloc_ok hash w r x (Val 0) with
  | OOk w' => wwf hash w' /\ frame r w0 w' /\ (forall y, omap w' r y = if keyb y x then Some (Val 0) else omap w r y)
  | OExn _ => True
  | _ => False
  end.
Proof.
  intros w x W F N.
  assert (P : props_of w r <> None).
  { unfold props_of in *. destruct (nth_error (w_objs w0) r) as [ob|] eqn:E; [ | congruence ].
    destruct (fr_obj _ _ _ F ob E) as [ob' [-> [_ H]]]. intros X. apply R0. apply H. exact X. }
  pose proof (set_property_ok hash alloc_ok alloc_range w r x (Val 0) W P (or_intror I)) as S.
  destruct (set_property alloc_ok hash w r x (Val 0)) as [w'|w'|d w'|]; cbn [set_result] in S; [ | exact I | | exact S ].
  - destruct S as [[W' [F' _]] [_ D]]. split; [ exact W' | ]. split; [ apply (frame_trans _ _ _ _ F F') | exact D ].
  - destruct S as [_ [_ [S _]]]. congruence.
Qed.

Lemma walk_deep : forall fuel w k p ys, dinv w k p ys -> 0 <= M <= 2147483648 -> k_index k <= 2147483649 -> measure k p <= Z.of_nat fuel ->
  match walk_loop alloc_ok hash fuel w k with
  | OOk (Some (x, v), k', w') => exists p', dinv w' k' p' (ys ++ [(x, v)]) /\ measure k' p' < measure k p /\ k_index k' <= 2147483649
  | OOk (None, _, w') =>
      forall x s, sees (abs w0) o0 x s -> (forall q, ~ tomb w0 q x) -> exists v, sval_of (Some v) = Some s /\ In (x, v) ys
  | OExn _ => True
  | _ => False
  end.
Proof.
  induction fuel as [|f IH]; intros w k p ys D HM Hi Hf; [ unfold measure in Hf; pose proof (Z.mul_nonneg_nonneg (Z.of_nat p) (M + 2)); lia | ].
  pose proof D as [W F D1 D2 D3 D4 D4o D5 D6 D7 D8 D9 D10 D11 D12 D13]. cbn [walk_loop].
  assert (E0 : exists ob, nth_error (w_objs w0) p = Some ob).
  { destruct (nth_error (w_objs w0) p) eqn:E; [ eauto | ]. exfalso. apply nth_error_None in E. unfold props_of in R0.
    destruct (nth_error (w_objs w0) r) eqn:Er; [ | congruence ]. assert (r < length (w_objs w0))%nat by (apply nth_error_Some; congruence). lia. }
  destruct E0 as [ob0 E0]. assert (E1 : nth_error (w_objs w) p = Some ob0) by (rewrite (fr_objs _ _ _ F p ltac:(lia)); exact E0).
  assert (Lp : (p < length (w_objs w))%nat) by (apply nth_error_Some; congruence).
  (* when the slots of this object are done *)
  assert (Up : dslots k <= k_index k ->
    match (match next_prototype (S (length (w_objs w))) w p with
           | None => OBad
           | Some None => OOk (None, Walker (u32 (k_index k + 1)) (k_deep k) (k_prop_obj k) (k_table k) (k_returned k), w)
           | Some (Some (q, n)) => walk_loop alloc_ok hash f w (Walker 0 true q (Some n) (Some r))
           end) with
    | OOk (Some (x, v), k', w') => exists p', dinv w' k' p' (ys ++ [(x, v)]) /\ measure k' p' < measure k p /\ k_index k' <= 2147483649
    | OOk (None, _, w') =>
        forall x s, sees (abs w0) o0 x s -> (forall q, ~ tomb w0 q x) -> exists v, sval_of (Some v) = Some s /\ In (x, v) ys
    | OExn _ => True
    | _ => False
    end).
  { intros Done. pose proof (np_ok (S (length (w_objs w))) w p ob0 W E1 ltac:(lia)) as Np.
    assert (Abs : forall x, ~ seenkey w x -> omap w p x = None).
    { intros x Ns. rewrite (frame_omap hash r w0 w p x W0 F ltac:(lia)). destruct (k_table k) as [n|] eqn:Kt; [ | apply D7; reflexivity ].
      destruct (D6 n eq_refl) as [P [t G]]. rewrite (omap_table w0 p n t x P G). destruct (assoc (t_items t) x) as [y|] eqn:A; [ | reflexivity ].
      exfalso. apply Ns. destruct (assoc_kat _ _ _ A) as [j [it [Gj [K1 _]]]]. apply (D8 n t j x eq_refl G); [ | unfold kat; rewrite Gj; exact K1 ].
      destruct (level_table w p n t W F D4 P G) as [_ [_ T]]. pose proof (tw_core _ _ T) as [_ [Ll _]]. apply gz_some_inv in Gj.
      unfold dslots in Done. rewrite Kt, G in Done. lia. }
    destruct (next_prototype (S (length (w_objs w))) w p) as [[[q n]|]|]; [ | | exact Np ].
    - destruct Np as [Pq [Lq Sq]].
      assert (Pq0 : props_of w0 q = Some (Some n)) by (rewrite <- Pq; unfold props_of; rewrite (fr_objs _ _ _ F q ltac:(lia)); reflexivity).
      destruct (wwf_table hash w0 q n W0 Pq0) as [tq [Gq Tq]].
      assert (Dn : dinv w (Walker 0 true q (Some n) (Some r)) q ys).
      { constructor; cbn [k_deep k_prop_obj k_returned k_index k_table]; auto; try lia.
        - intros n' En. inversion En. subst n'. split; [ exact Pq0 | eauto ].
        - discriminate.
        - intros x v Ns. rewrite (D9 x v Ns). rewrite <- !(sees_below w0 w r W0 W F) by lia. apply (Sq x v). apply Abs. exact Ns. }
      pose proof (IH w (Walker 0 true q (Some n) (Some r)) q ys Dn HM) as I. cbn [k_index] in I. specialize (I ltac:(lia)).
      assert (Me : measure (Walker 0 true q (Some n) (Some r)) q < measure k p).
      { unfold measure. pose proof (dslots_M (Walker 0 true q (Some n) (Some r)) q ltac:(lia) ltac:(intros n1 E; cbn [k_table] in E; congruence)) as DM. cbn [k_index].
        assert ((Z.of_nat q + 1) * (M + 2) <= Z.of_nat p * (M + 2)) by (apply Z.mul_le_mono_nonneg_r; lia). lia. }
      specialize (I ltac:(lia)).
      destruct (walk_loop alloc_ok hash f w (Walker 0 true q (Some n) (Some r))) as [[[[[x v]|] k'] w']| | |]; auto.
      destruct I as [p' [I1 [I2 I3]]]. exists p'. split; [ exact I1 | ]. split; [ lia | exact I3 ].
    - intros x s Sx Ct.
      destruct (omap w r x) as [y|] eqn:Sk; [ apply D10; auto; unfold seenkey; congruence | ].
      exfalso. assert (Ns : ~ seenkey w x) by (unfold seenkey; congruence). apply (D9 x s Ns) in Sx.
      apply (Np x s (Abs x Ns)). apply (sees_below w0 w r W0 W F) ; [ lia | exact Sx ]. }
  rewrite D1, D2, D3 in *. cbn [k_deep k_prop_obj k_returned k_table k_index].
  destruct (k_table k) as [n|] eqn:Kt.
  2:{ destruct (Z.leb_spec 0 (k_index k)); [ | lia ]. apply Up. unfold dslots. rewrite Kt. lia. }
  destruct (D6 n eq_refl) as [P [t G]]. destruct (level_table w p n t W F D4 P G) as [Gw [Pw T]]. rewrite Gw.
  assert (Ds : dslots k = t_cap t) by (unfold dslots; rewrite Kt, G; reflexivity). rewrite Ds in Up.
  destruct (Z.leb_spec (t_cap t) (k_index k)) as [Le|Lt]; [ apply Up; exact Le | ]. clear Up.
  pose proof (tw_core _ _ T) as C. pose proof C as [Pow [Ll [Sok _]]]. pose proof (pow2_range _ Pow).
  rewrite item_at_gz. destruct (gz_some _ (t_items t) (k_index k) ltac:(lia)) as [it Gi]. rewrite Gi.
  rewrite u32_small by lia.
  set (kn := Walker (k_index k + 1) true p (Some n) (Some r)).
  assert (Me : measure kn p < measure k p).
  { unfold measure. replace (dslots kn) with (t_cap t) by (unfold dslots, kn; cbn [k_table]; rewrite G; reflexivity). rewrite Ds.
    unfold kn. cbn [k_index]. lia. }
  (* the next state, once the key of this slot is marked *)
  assert (Dn : forall w' ys', wwf hash w' -> frame r w0 w' -> (forall y, seenkey w y -> seenkey w' y) ->
      (forall y d, omap w' r y <> Some (Dyn d)) ->
      (forall x, i_key it = Some x -> seenkey w' x) ->
      (forall y, seenkey w' y -> ~ seenkey w y -> i_key it = Some y) ->
      (forall x s, seenkey w' x -> sees (abs w0) o0 x s -> (forall q, ~ tomb w0 q x) -> exists v, sval_of (Some v) = Some s /\ In (x, v) ys') ->
      (forall x v, In (x, v) ys' -> seenkey w' x /\ exists s, sval_of (Some v) = Some s /\ sees (abs w0) o0 x s) ->
      NoDup (map fst ys') -> dinv w' kn p ys').
  { intros w' ys' Wn Fn Sk Dy Kx Kn Cm Sd Nd. constructor; unfold kn; cbn [k_deep k_prop_obj k_returned k_index k_table]; auto; try lia; try discriminate.
    - intros n' t' j x En Gn Hj K. inversion En. subst n'. assert (t' = t) by congruence. subst t'.
      destruct (Z.eq_dec j (k_index k)) as [->|].
      + apply Kx. unfold kat in K. rewrite Gi in K. exact K.
      + apply Sk. apply (D8 n t j x eq_refl G); [ lia | exact K ].
  }
  assert (Step : forall w' ys', dinv w' kn p ys' ->
     match walk_loop alloc_ok hash f w' kn with
     | OOk (Some (x, v), k', w'') => exists p', dinv w'' k' p' (ys' ++ [(x, v)]) /\ measure k' p' < measure k p /\ k_index k' <= 2147483649
     | OOk (None, _, w'') =>
        forall x s, sees (abs w0) o0 x s -> (forall q, ~ tomb w0 q x) -> exists v, sval_of (Some v) = Some s /\ In (x, v) ys'
     | OExn _ => True
     | _ => False
     end).
  { intros w' ys' Dw. pose proof (IH w' kn p ys' Dw HM ltac:(unfold kn; cbn [k_index]; lia) ltac:(lia)) as I.
    destruct (walk_loop alloc_ok hash f w' kn) as [[[[[x v]|] k'] w'']| | |]; auto.
    destruct I as [p' [I1 [I2 I3]]]. exists p'. split; [ exact I1 | ]. split; [ lia | exact I3 ]. }
  destruct (i_key it) as [x|] eqn:Kx.
  2:{ apply Step. apply Dn; auto; try discriminate. intros y A B. contradiction. }
  (* is the key marked? *)
  assert (Lr : (r < length (w_objs w))%nat).
  { rewrite (fr_len _ _ _ F). unfold props_of in R0. apply nth_error_Some. destruct (nth_error (w_objs w0) r); congruence. }
  pose proof (get_ok hash w r x true W Lr) as Gt. unfold get_post in Gt.
  destruct (get_property hash w r x true) as [[| |y|] w1]; cbn [fst snd] in Gt; destruct Gt as [-> Gt]; try contradiction.
  2:{ destruct Gt as [_ Gt]. apply Step. apply Dn; auto.
      - intros z Ez. inversion Ez. subst z. unfold seenkey. congruence.
      - intros z A B. contradiction. }
  pose proof (mark_ok w x W F Gt) as Mk.
  destruct (set_property alloc_ok hash w r x (Val 0)) as [w1|w1|d w1|]; [ | exact I | contradiction | contradiction ].
  destruct Mk as [W1 [F1 M1]].
  assert (Kp : forall z, seenkey w z -> seenkey w1 z).
  { intros z Sz. unfold seenkey in *. rewrite M1. destruct (keyb z x); [ discriminate | exact Sz ]. }
  assert (Kz : forall z, seenkey w1 z -> ~ seenkey w z -> Some x = Some z).
  { intros z A B. unfold seenkey in *. rewrite M1 in A. destruct (keyb z x) eqn:Bz; [ apply keyb_eq in Bz; congruence | contradiction ]. }
  assert (Sx : seenkey w1 x) by (unfold seenkey; rewrite M1, keyb_refl; discriminate).
  assert (Nx : ~ seenkey w x) by (unfold seenkey; congruence).
  assert (Dy : forall y d, omap w1 r y <> Some (Dyn d)) by (intros z d; rewrite M1; destruct (keyb z x); [ discriminate | apply D13 ]).
  pose proof (icore_assoc hash _ _ _ _ x C Gi Kx) as As.
  pose proof (Sok _ _ Gi) as So. unfold slot_ok in So. rewrite Kx in So. destruct So as [_ So].
  (* the value found *)
  assert (Yield : forall v, i_val it = v -> live_val v -> exists p', dinv w1 kn p' (ys ++ [(x, v)]) /\ measure kn p' < measure k p /\ k_index kn <= 2147483649).
  { intros v Ev Lv. exists p. split; [ | split; [ exact Me | unfold kn; cbn [k_index]; lia ] ].
    assert (Om : omap w0 p x = Some v). { rewrite (omap_table w0 p n t x P G), As, Ev. destruct v; try contradiction; reflexivity. }
    destruct (live_sval v Lv) as [s Hs].
    assert (Se : sees (abs w0) o0 x s) by (apply (D9 x s Nx); apply (sees_own_iff hash w0 p x s v W0 Om); exact Hs).
    apply Dn; auto.
    - intros z Ez. inversion Ez. subst z. exact Sx.
    - intros z s' Sz Sv Ct. destruct (omap w r z) as [u|] eqn:Uz.
      + destruct (D10 z s' ltac:(unfold seenkey; congruence) Sv Ct) as [v' [H1 H2]]. exists v'. split; [ exact H1 | apply in_or_app; auto ].
      + assert (x = z). { assert (E : Some x = Some z) by (apply Kz; [ exact Sz | unfold seenkey; congruence ]). congruence. }
        subst z. exists v. split; [ | apply in_or_app; right; left; reflexivity ].
        rewrite Hs. f_equal. apply (sees_fun _ _ _ _ Se _ Sv).
    - intros z v' Iz. apply in_app_or in Iz. destruct Iz as [Iz|[Iz|[]]].
      + destruct (D11 z v' Iz) as [A B]. auto.
      + inversion Iz. subst. split; [ exact Sx | eauto ].
    - rewrite map_app. cbn [map fst]. apply NoDup_rev in D12. rewrite <- (rev_involutive (map fst ys ++ [x])). apply NoDup_rev.
      rewrite rev_app_distr. cbn [rev app]. constructor; [ | exact D12 ]. intros Ir. apply in_rev in Ir. apply in_map_iff in Ir.
      destruct Ir as [[z v'] [Ez Iz]]. cbn in Ez. subst z. apply Nx. apply (D11 x v' Iz). }
  destruct (i_val it) as [| | |v|v] eqn:Iv.
  - (* deleted *)
    apply Step. apply Dn; auto.
    + intros z Ez. inversion Ez. subst z. exact Sx.
    + intros z s' Sz Sv Ct. destruct (omap w r z) as [u|] eqn:Uz.
      * apply (D10 z s' ltac:(unfold seenkey; congruence) Sv Ct).
      * exfalso. assert (E : Some x = Some z) by (apply Kz; [ exact Sz | unfold seenkey; congruence ]). inversion E. subst z.
        apply (Ct p). exists n, t. auto.
    + intros z v' Iz. destruct (D11 z v' Iz) as [A B]. auto.
  - destruct So as [So|So]; [ discriminate | contradiction ].
  - destruct So as [So|So]; [ discriminate | contradiction ].
  - apply Yield; [ reflexivity | exact I ].
  - apply Yield; [ reflexivity | exact I ].
Qed.

Hypothesis Mmax : M = 0 \/ exists q n t, (q < r)%nat /\ props_of w0 q = Some (Some n) /\ get_table w0 n = Some t /\ t_cap t = M.

Lemma fuel_deep : forall w k p ys, dinv w k p ys -> 0 <= M -> measure k p <= Z.of_nat (walk_fuel w).
Proof.
  intros w k p ys D HM. pose proof D as [W F D1 D2 D3 D4 D4o D5 D6 D7 D8 D9 D10 D11 D12 D13]. unfold measure.
  pose proof (dslots_M k p HM (fun n E => proj1 (D6 n E))) as DM.
  assert (Lr : (r < length (w_objs w))%nat).
  { rewrite (fr_len _ _ _ F). unfold props_of in R0. apply nth_error_Some. destruct (nth_error (w_objs w0) r); congruence. }
  assert (Mt : M <= Z.of_nat (total_slots w)).
  { destruct Mmax as [->|[q [n [t [Lq [P [G E]]]]]]]; [ lia | ]. destruct (level_table w q n t W F Lq P G) as [Gw [_ T]].
    pose proof (tw_core _ _ T) as [_ [Ll _]]. pose proof (total_ge _ _ _ Gw) as H. unfold total_slots. unfold len in Ll. lia. }
  unfold walk_fuel. rewrite Nat2Z.inj_mul, Nat2Z.inj_add.
  assert ((Z.of_nat p + 1) * (M + 2) <= Z.of_nat (S (length (w_objs w))) * (Z.of_nat (total_slots w) + Z.of_nat 2)).
  { apply Z.mul_le_mono_nonneg; lia. }
  lia.
Qed.

Lemma walk_list_ok : forall fuel w k p ys, dinv w k p ys -> 0 <= M <= 2147483648 -> k_index k <= 2147483649 -> measure k p <= Z.of_nat fuel ->
  match walk_list alloc_ok hash fuel w k with
  | OOk l => NoDup (map fst (ys ++ l)) /\
      (forall x v, In (x, v) (ys ++ l) -> exists s, sval_of (Some v) = Some s /\ sees (abs w0) o0 x s) /\
      (forall x s, sees (abs w0) o0 x s -> (forall q, ~ tomb w0 q x) -> exists v, sval_of (Some v) = Some s /\ In (x, v) (ys ++ l))
  | OExn _ => True
  | _ => False
  end.
Proof.
  induction fuel as [|f IH]; intros w k p ys D HM Hi Hf; [ unfold measure in Hf; pose proof (Z.mul_nonneg_nonneg (Z.of_nat p) (M + 2)); lia | ].
  cbn [walk_list]. unfold object_walk.
  pose proof (walk_deep (walk_fuel w) w k p ys D HM Hi (fuel_deep w k p ys D ltac:(lia))) as S.
  destruct (walk_loop alloc_ok hash (walk_fuel w) w k) as [[[[[x v]|] k'] w']|w'|d w'|]; [ | | exact I | contradiction | contradiction ].
  - destruct S as [p' [D' [Me Hi']]]. specialize (IH w' k' p' (ys ++ [(x, v)]) D' HM Hi' ltac:(lia)).
    destruct (walk_list alloc_ok hash f w' k') as [l| | |]; auto. rewrite <- app_assoc in IH. exact IH.
  - rewrite app_nil_r. split; [ apply (di_nodup _ _ _ _ D) | ]. split; [ | exact S ]. intros x v Ix. apply (di_sound _ _ _ _ D x v Ix).
Qed.

End Deep.

Lemma max_cap : forall w N, wwf hash w -> exists M, 0 <= M <= 2147483648 /\
  (forall q n t, (q < N)%nat -> props_of w q = Some (Some n) -> get_table w n = Some t -> t_cap t <= M) /\
  (M = 0 \/ exists q n t, (q < N)%nat /\ props_of w q = Some (Some n) /\ get_table w n = Some t /\ t_cap t = M).
Proof.
  intros w N W. induction N as [|N [M [H1 [H2 H3]]]].
  - exists 0. split; [ lia | ]. split; [ intros; lia | auto ].
  - assert (Skip : (forall n, props_of w N <> Some (Some n)) -> exists M, 0 <= M <= 2147483648 /\
       (forall q n t, (q < S N)%nat -> props_of w q = Some (Some n) -> get_table w n = Some t -> t_cap t <= M) /\
       (M = 0 \/ exists q n t, (q < S N)%nat /\ props_of w q = Some (Some n) /\ get_table w n = Some t /\ t_cap t = M)).
    { intros X. exists M. split; [ exact H1 | ]. split.
      - intros q n t L P G. destruct (Nat.eq_dec q N) as [->|]; [ destruct (X n P) | apply (H2 q n t); auto; lia ].
      - destruct H3 as [H3|[q [n [t [L H3]]]]]; [ auto | ]. right. exists q, n, t. split; [ lia | exact H3 ]. }
    destruct (props_of w N) as [[n|]|] eqn:P; [ | apply Skip; discriminate | apply Skip; discriminate ].
    destruct (wwf_table hash w N n W P) as [t [G T]]. pose proof (tw_core _ _ T) as [Pw _]. pose proof (pow2_range _ Pw) as R.
    exists (Z.max M (t_cap t)). split; [ lia | ]. split.
    + intros q n' t' L P' G'. destruct (Nat.eq_dec q N) as [->|].
      * assert (n' = n) by congruence. subst n'. assert (t' = t) by congruence. subst t'. lia.
      * assert (t_cap t' <= M) by (apply (H2 q n' t'); auto; lia). lia.
    + right. destruct (Z.max_spec M (t_cap t)) as [[_ ->]|[C ->]].
      * exists N, n, t. auto.
      * destruct H3 as [H3|[q [n' [t' [L H3]]]]]; [ lia | ]. exists q, n', t'. split; [ lia | exact H3 ].
Qed.

Lemma deep_walk_ok : forall w o, wwf hash w -> (o < length (w_objs w))%nat ->
  let '(w0, k) := new_object_walk w o true in
  match walk_list alloc_ok hash (walk_fuel w0) w0 k with
  | OOk l => NoDup (map fst l) /\
      (forall x v, In (x, v) l -> exists s, sval_of (Some v) = Some s /\ sees (abs w) o x s) /\
      (forall x s, sees (abs w) o x s -> (forall q, ~ tomb w q x) -> exists v, sval_of (Some v) = Some s /\ In (x, v) l)
  | OExn _ => True
  | _ => False
  end.
Proof.
  intros w o W L. unfold new_object_walk. cbn [new_object].
  set (r := length (w_objs w)). set (w0 := World (w_tables w) (w_objs w ++ [Obj (Some None) None])).
  assert (W0 : wwf hash w0) by (apply new_obj_wf; [ exact W | discriminate ]).
  assert (Nr : nth_error (w_objs w0) r = Some (Obj (Some None) None)).
  { unfold w0, r. cbn [w_objs]. rewrite nth_error_app2 by lia. rewrite Nat.sub_diag. reflexivity. }
  assert (Pr : props_of w0 r = Some None) by (unfold props_of; rewrite Nr; reflexivity).
  assert (Pq : forall q, (q < r)%nat -> nth_error (w_objs w0) q = nth_error (w_objs w) q) by (intros q H; unfold w0; cbn [w_objs]; apply nth_error_app1; exact H).
  assert (Pp : forall q, (q < r)%nat -> props_of w0 q = props_of w q) by (intros q H; unfold props_of; rewrite Pq by exact H; reflexivity).
  assert (Om : forall q x, (q < r)%nat -> omap w0 q x = omap w q x) by (intros q x H; unfold omap; rewrite Pp by exact H; reflexivity).
  assert (Ow : forall q n, props_of w0 q = Some (Some n) -> (q < r)%nat).
  { intros q n P. destruct (Nat.lt_ge_cases q r) as [H|H]; [ exact H | ]. exfalso. destruct (Nat.eq_dec q r) as [->|]; [ congruence | ].
    unfold props_of in P. rewrite (proj2 (nth_error_None _ _)) in P; [ discriminate | ]. unfold w0, r in *. cbn [w_objs]. rewrite app_length. cbn. lia. }
  assert (Se : forall q, (q < r)%nat -> forall x v, sees (abs w0) q x v <-> sees (abs w) q x v).
  { intros q. induction q as [q IH] using (well_founded_induction lt_wf). intros Hq x v. pose proof (Om q x Hq) as E.
    destruct (omap w q x) as [y|] eqn:Ey.
    - rewrite (sees_own_iff hash w0 q x v y W0 E), (sees_own_iff hash w q x v y W Ey). tauto.
    - destruct (nth_error (w_objs w) q) as [ob|] eqn:Eq; [ | apply nth_error_None in Eq; unfold r in Hq; lia ].
      rewrite (sees_up hash w q x v ob W Eq Ey), (sees_up hash w0 q x v ob W0 ltac:(rewrite Pq by exact Hq; exact Eq) E).
      split; intros [p [Ep S]]; exists p; (split; [ exact Ep | ]); destruct (proto_obj hash w q ob p W Eq Ep) as [Lp _]; apply (IH p Lp ltac:(lia) x v); exact S. }
  destruct (max_cap w0 r W0) as [M [M1 [M2 M3]]].
  set (k := Walker 0 true o (match props_of w o with Some (Some n) => Some n | _ => None end) (Some r)).
  assert (D : dinv w0 r o w0 k o []).
  { constructor; unfold k; cbn [k_index k_deep k_prop_obj k_returned k_table]; auto; try lia.
    - apply frame_refl.
    - intros n E. assert (P : props_of w0 o = Some (Some n)) by (rewrite Pp by exact L; destruct (props_of w o) as [[m|]|]; congruence).
      split; [ exact P | ]. destruct (wwf_table hash w0 o n W0 P) as [t [G _]]. eauto.
    - intros E x. rewrite Om by exact L. unfold omap. destruct (props_of w o) as [[m|]|]; [ discriminate | reflexivity | reflexivity ].
    - intros x v _. tauto.
    - intros x s Sx. unfold seenkey, omap in Sx. rewrite Pr in Sx. congruence.
    - intros x v [].
    - constructor.
    - intros x d. unfold omap. rewrite Pr. discriminate. }
  assert (Mo : forall q n t, props_of w0 q = Some (Some n) -> get_table w0 n = Some t -> t_cap t <= M).
  { intros q n t P G. apply (M2 q n t); auto. apply (Ow q n P). }
  pose proof (walk_list_ok w0 r o W0 ltac:(congruence) M Mo M3 (walk_fuel w0) w0 k o [] D M1 ltac:(unfold k; cbn [k_index]; lia)
    (fuel_deep w0 r o W0 ltac:(congruence) M Mo M3 w0 k o [] D ltac:(lia))) as R.
  destruct (walk_list alloc_ok hash (walk_fuel w0) w0 k) as [l| | |]; auto. cbn [app] in R. destruct R as [R1 [R2 R3]].
  split; [ exact R1 | ]. split.
  - intros x v Ix. destruct (R2 x v Ix) as [s [H1 H2]]. exists s. split; [ exact H1 | ]. apply (Se o L). exact H2.
  - intros x s Sx Ct. apply R3; [ apply (Se o L); exact Sx | ]. intros q [n [t [P [G A]]]]. apply (Ct q). exists n, t.
    split; [ rewrite <- Pp by apply (Ow q n P); exact P | ]. auto.
Qed.
End World.
