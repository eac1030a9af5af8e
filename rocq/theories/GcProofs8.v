(* One pass of evacuation, update and reclamation. *)
From Coq Require Import ZArith List Lia Bool ZifyBool Permutation.
Import ListNotations.
From Verif Require Import Base ListZ GcModel GcSpec GcProofs GcProofs3 GcProofs4 GcProofs5 GcProofs6 GcProofs7.
Local Open Scope Z_scope.
Ltac Zify.zify_post_hook ::= idtac.

Lemma nodup_map_in : forall (A B : Type) (f : A -> B) l, NoDup l ->
  (forall x y, In x l -> In y l -> f x = f y -> x = y) -> NoDup (map f l).
Proof.
  intros A B f l. induction l as [|a l IH]; intros ND H; [ constructor | ]. inversion ND; subst. cbn [map]. constructor.
  - intros C. apply in_map_iff in C. destruct C as [b [E Hb]]. assert (b = a) by (apply H; [ right | left | ]; auto). congruence.
  - apply IH; [ assumption | ]. intros x y Hx Hy. apply H; right; assumption.
Qed.

Lemma nodup_app_intro : forall (A : Type) (l1 l2 : list A), NoDup l1 -> NoDup l2 -> (forall x, In x l1 -> ~ In x l2) -> NoDup (l1 ++ l2).
Proof.
  intros A l1 l2 N1 N2 D. induction l1 as [|a l IH]; [ assumption | ]. inversion N1; subst. cbn [app]. constructor.
  - rewrite in_app_iff. intros [C | C]; [ contradiction | ]. apply (D a); [ left; reflexivity | assumption ].
  - apply IH; [ assumption | ]. intros x Hx. apply D. right. assumption.
Qed.

Lemma nodup_snd : forall (M : list (Z * Z)) a b y, NoDup (map snd M) -> In (a, y) M -> In (b, y) M -> a = b.
Proof.
  induction M as [|[a0 b0] l IH]; intros a b y N E1 E2; [ destruct E1 | ]. cbn [map snd] in N. inversion N as [|? ? N1 N2]; subst.
  destruct E1 as [E1 | E1]; destruct E2 as [E2 | E2].
  + congruence.
  + exfalso. apply N1. apply in_map_iff. exists (b, y). split; [ cbn [snd]; congruence | assumption ].
  + exfalso. apply N1. apply in_map_iff. exists (a, y). split; [ cbn [snd]; congruence | assumption ].
  + eapply IH; eassumption.
Qed.

(* The marks agree with the reachable objects. *)
Record marked (h : heap) (i : inst) : Prop := {
  c_reach : forall v, reach h i v -> heap_id v -> color h v <> 0;
  c_live : forall v, is_obj h v -> color h v <> 0 -> reach h i v \/ is_opaque (body h v);
  c_flag : forall p l x, In p (used h) -> pflags h p = 1 -> pobjs h p l -> In x l -> color h x <> 0;
  c_in : forall p x, In p (used h) -> pflags h p <> 1 -> page_of x = p -> color h x <> 0 -> is_obj h x }.

Section Pass.
Variable h0 : heap.
Hypothesis OK0 : pages_ok h0.
Hypothesis Cur0 : cur h0 = None.
Hypothesis Trk : forall t s d o, is_obj h0 t -> body h0 t = OTracker s d o -> o <> 1 ->
  huge_id o /\ bref h0 o = t.

Variables (h1 : heap) (F : list Z) (M : list (Z * Z)) (Lp rest : list Z) (inc : option (Z * Z)) (err : bool).
Hypothesis EE : evac_end h0 h1 F M Lp rest inc err.
Hypothesis Cur1 : cur h1 = None.

Let f := update_child_ptr h1.
Let K : core h0 [] Lp F M (fun x => In x rest /\ col h0 x) h1 := proj1 EE.

Lemma in_use1 : in_use h1 = used h1.
Proof. unfold in_use. rewrite Cur1. apply app_nil_r. Qed.

Lemma f_other : forall v, ~ heap_id v -> f v = v.
Proof.
  intros v H. unfold f, update_child_ptr. destruct (is_heap v && negb (is_bad v)) eqn:Q; [ | reflexivity ].
  exfalso. apply H. apply heap_id_iff. assumption.
Qed.

Lemma f_stay : forall v s, c_hdr (mem h1 v) = HSize s -> f v = v.
Proof. intros v s H. unfold f, update_child_ptr. rewrite H. destruct (is_heap v && negb (is_bad v)); reflexivity. Qed.

Lemma f_moved : forall v w, In (v, w) M -> f v = w.
Proof.
  intros v w H. destruct (k_moved _ _ _ _ _ _ _ K v w H) as [Ov [_ [E [_ [_ [_ [Ow _]]]]]]].
  destruct (obj0 h0 OK0 Cur0 v Ov) as [_ [Hv _]]. destruct (core_obj h0 _ _ _ _ _ _ w K Ow) as [Hw _].
  unfold f, update_child_ptr. rewrite (proj1 (heap_id_iff v) Hv), E. cbn [c_hdr]. rewrite (heap_is_heap w Hw). reflexivity.
Qed.

Definition live (v : Z) : Prop := is_obj h0 v /\ col h0 v.

(* Where the objects are after the evacuation. *)
Lemma live_at : forall v, live v ->
  mem h1 (f v) = mem h0 v /\
  ((f v = v /\ (In v rest \/ is_obj h1 v)) \/ (In (v, f v) M /\ is_obj h1 (f v))).
Proof.
  intros v [Ov Cv]. destruct (obj0_size h0 OK0 Cur0 v Ov) as [s [Hs _]].
  destruct (k_all _ _ _ _ _ _ _ K v Ov Cv) as [Hp | [[w Hw] | [Hb Hm]]].
  - destruct (k_pd _ _ _ _ _ _ _ K v Hp) as [_ [_ Hm]]. assert (E : f v = v) by (apply (f_stay v s); rewrite Hm; assumption).
    rewrite E. split; [ assumption | ]. left. split; [ reflexivity | left; apply Hp ].
  - rewrite (f_moved v w Hw). destruct (k_moved _ _ _ _ _ _ _ K v w Hw) as [_ [_ [_ [Em [_ [_ [Ow _]]]]]]].
    split; [ assumption | ]. right. auto.
  - assert (E : f v = v) by (apply (f_stay v s); rewrite Hm; assumption). rewrite E. split; [ assumption | ]. left. auto.
Qed.

Lemma f_inj : forall v w, live v -> live w -> f v = f w -> v = w.
Proof.
  intros v w Hv Hw E. destruct (live_at v Hv) as [_ [[E1 _] | [E1 _]]]; destruct (live_at w Hw) as [_ [[E2 _] | [E2 _]]].
  - congruence.
  - exfalso. destruct (k_moved _ _ _ _ _ _ _ K w (f w) E2) as [_ [_ [_ [_ [_ [_ [_ N]]]]]]]. apply N.
    rewrite <- E, E1. exact Hv.
  - exfalso. destruct (k_moved _ _ _ _ _ _ _ K v (f v) E1) as [_ [_ [_ [_ [_ [_ [_ N]]]]]]]. apply N.
    rewrite E, E2. exact Hw.
  - destruct (k_inj _ _ _ _ _ _ _ K) as [_ N]. rewrite E in E1. exact (nodup_snd M v w (f w) N E1 E2).
Qed.

Lemma rest_obj : forall x, In x rest -> exists p v done, inc = Some (p, v) /\ Lp = [p] /\ In p (used h0) /\
  pobjs h0 p (done ++ rest) /\ is_obj h0 x /\ page_of x = p /\ heap_id x.
Proof.
  intros x Hx. pose proof EE as [_ [I _]]. assert (exists j, inc = j) as [j Ej] by (eexists; reflexivity). rewrite Ej in I |- *. unfold inc_ok in I. destruct j as [[p v]|].
  - destruct I as [E [Hp [_ [_ [_ [done [Hl _]]]]]]]. exists p, v, done.
    destruct (obj0_intro h0 OK0 Cur0 p _ x Hp Hl (in_or_app _ _ _ (or_intror Hx))) as [A B].
    destruct (obj0 h0 OK0 Cur0 x A) as [_ [C _]]. auto 8.
  - destruct I as [_ Q]. rewrite Q in Hx. destruct Hx.
Qed.

(* All objects after the evacuation. *)
Variable U : list Z.
Hypothesis UN : NoDup U.
Hypothesis UI : forall x, In x U <-> exists p l, In p (used h1) /\ pobjs h1 p l /\ In x l.

Lemma U_obj : forall x, In x U <-> is_obj h1 x.
Proof. intros x. rewrite UI. unfold is_obj. rewrite in_use1. reflexivity. Qed.

Definition W : list Z := U ++ rest.

Lemma W_in : forall x, In x W <-> is_obj h1 x \/ In x rest.
Proof. intros x. unfold W. rewrite in_app_iff, U_obj. reflexivity. Qed.

Lemma W_heap : forall x, In x W -> heap_id x.
Proof.
  intros x Hx. apply W_in in Hx. destruct Hx as [Hx | Hx].
  - apply (core_obj h0 _ _ _ _ _ _ x K Hx).
  - destruct (rest_obj x Hx) as [p [v [d [_ [_ [_ [_ [_ [_ H]]]]]]]]]. exact H.
Qed.

Lemma W_live : forall v, live v -> In (f v) W.
Proof.
  intros v Hv. apply W_in. destruct (live_at v Hv) as [_ [[E [H | H]] | [_ H]]]; [ rewrite E; auto | rewrite E; auto | auto ].
Qed.

Lemma W_cls : forall x, In x W -> is_opaque (body h1 x) \/ exists v, live v /\ x = f v /\ mem h1 x = mem h0 v.
Proof.
  assert (Stay : forall x, live x -> mem h1 x = mem h0 x -> exists v, live v /\ x = f v /\ mem h1 x = mem h0 v).
  { intros x Hx Em. exists x. split; [ assumption | ]. split; [ | assumption ].
    destruct (obj0_size h0 OK0 Cur0 x (proj1 Hx)) as [s [Hs _]]. symmetry. apply (f_stay x s). rewrite Em. assumption. }
  intros x Hx. apply W_in in Hx. destruct Hx as [[p [l [Hp [Hl Hx]]]] | Hx].
  - destruct (k_pages _ _ _ _ _ _ _ K p Hp) as [_ [l2 [Hl2 Hc]]]. rewrite (chain_fun _ _ _ _ _ Hl Hl2) in Hx.
    destruct (Hc x Hx) as [[v Hv] | [[A [B C]] | Q]].
    + right. exists v. destruct (k_moved _ _ _ _ _ _ _ K v x Hv) as [Ov [Cv [_ [Em _]]]].
      split; [ split; assumption | ]. split; [ symmetry; apply f_moved; assumption | assumption ].
    + right. apply Stay; [ split; assumption | assumption ].
    + left. assumption.
  - destruct (rest_obj x Hx) as [p [v [d [Ei [_ [_ [_ [Ox _]]]]]]]].
    pose proof EE as [_ [I _]]. rewrite Ei in I. destruct I as [_ [_ [_ [_ [_ [done [_ [_ [_ [_ [R1 [R2 _]]]]]]]]]]]].
    destruct (col_dec h0 x) as [Cx | Cx].
    + right. apply Stay; [ split; assumption | auto ].
    + left. unfold body. rewrite (R2 x Hx Cx). exists []. reflexivity.
Qed.

Lemma W_tracker : forall x s d o, In x W -> body h1 x = OTracker s d o -> o <> 1 ->
  exists v, live v /\ x = f v /\ body h0 v = OTracker s d o /\ huge_id o /\ bref h0 o = v.
Proof.
  intros x s d o Hx E Ho. destruct (W_cls x Hx) as [[y Q] | [v [Hv [Ef Em]]]]; [ congruence | ].
  exists v. unfold body in E. rewrite Em in E. destruct (Trk v s d o (proj1 Hv) E Ho) as [A B]. auto.
Qed.

Lemma page_out : forall p, In p Lp -> ~ In p (used h1) /\ ~ In p (F ++ free h1 ++ resv h1).
Proof.
  intros p Hp. pose proof (k_nodup _ _ _ _ _ _ _ K) as ND. rewrite in_use1 in ND. cbn [app] in ND. split; intros C.
  - eapply nodup_app_disj; [ exact ND | exact C | apply in_or_app; left; assumption ].
  - apply nodup_app_r in ND. eapply nodup_app_disj; [ exact ND | exact Hp | exact C ].
Qed.

Lemma W_nodup : NoDup W.
Proof.
  apply nodup_app_intro; [ exact UN | | ].
  - pose proof EE as [_ [I _]]. assert (exists j, inc = j) as [j Ej] by (eexists; reflexivity). rewrite Ej in I. unfold inc_ok in I. destruct j as [[p v]|]; [ | destruct I as [_ Q]; rewrite Q; constructor ].
    destruct I as [_ [_ [_ [_ [_ [done [Hl _]]]]]]]. apply chain_nodup in Hl. apply nodup_app_r in Hl. assumption.
  - intros x Hx Hr. apply U_obj in Hx. destruct (core_obj h0 _ _ _ _ _ _ x K Hx) as [_ [C _]].
    destruct (rest_obj x Hr) as [p [v [d [_ [El [_ [_ [_ [Ep _]]]]]]]]]. rewrite in_use1, Ep in C.
    apply (proj1 (page_out p ltac:(rewrite El; left; reflexivity))). assumption.
Qed.

Lemma tgt_cases : forall x, In x W -> tgt h1 x = x \/ exists s d o, body h1 x = OTracker s d o /\ o <> 1 /\ tgt h1 x = o /\ huge_id o.
Proof.
  intros x Hx. unfold tgt. destruct (body h1 x) eqn:E; auto.
  destruct (object =? 1) eqn:Q; [ auto | ]. right. exists size, data, object.
  assert (Ho : object <> 1) by lia. destruct (W_tracker x _ _ _ Hx E Ho) as [v [_ [_ [_ [H _]]]]]. auto.
Qed.

Lemma tgt_nodup : NoDup (map (tgt h1) W).
Proof.
  apply nodup_map_in; [ apply W_nodup | ]. intros x y Hx Hy E.
  destruct (tgt_cases x Hx) as [A | [s [d [o [A1 [A2 [A3 A4]]]]]]]; destruct (tgt_cases y Hy) as [B | [s' [d' [o' [B1 [B2 [B3 B4]]]]]]].
  - congruence.
  - exfalso. apply (heap_not_huge x (W_heap x Hx)). rewrite <- A, E, B3. assumption.
  - exfalso. apply (heap_not_huge y (W_heap y Hy)). rewrite <- B, <- E, A3. assumption.
  - destruct (W_tracker x s d o Hx A1 A2) as [v [_ [V1 [_ [_ V2]]]]].
    destruct (W_tracker y s' d' o' Hy B1 B2) as [v' [_ [V1' [_ [_ V2']]]]]. congruence.
Qed.

(* Every object was updated. *)
Lemma updated :
  let h2 := upd_list W h1 in
  (forall x, In x W -> mem h2 x = upd_cell h1 x) /\
  (forall x s d o, In x W -> body h1 x = OTracker s d o -> o <> 1 -> mem h2 o = upd_cell h1 o /\ bref h2 o = x).
Proof.
  intros h2. destruct (upd_list_spec W h1 W_heap) as [A [B C]].
  { intros x s d o Hx E Ho. destruct (W_tracker x s d o Hx E Ho) as [v [_ [_ [_ [H _]]]]]. assumption. }
  { exact tgt_nodup. }
  fold h2 in A, B, C. split.
  - intros x Hx. destruct (tgt_cases x Hx) as [T | [s [d [o [A1 [A2 [A3 A4]]]]]]].
    + specialize (A x Hx). rewrite T in A. assumption.
    + rewrite B.
      * unfold upd_cell. rewrite A1. cbn [update_obj]. rewrite <- A1. unfold body. destruct (mem h1 x); reflexivity.
      * intros Q. apply in_map_iff in Q. destruct Q as [y [Ey Hy]].
        destruct (tgt_cases y Hy) as [T | [s' [d' [o' [_ [_ [B3 B4]]]]]]].
        -- assert (y = x) by congruence. subst y. apply (heap_not_huge x (W_heap x Hx)). rewrite <- T, A3. exact A4.
        -- apply (heap_not_huge x (W_heap x Hx)). rewrite <- Ey, B3. assumption.
  - intros x s d o Hx E Ho. split; [ | apply (C x s d o); assumption ].
    specialize (A x Hx). unfold tgt in A. rewrite E in A. destruct (o =? 1) eqn:Q; [ lia | ]. assumption.
Qed.

(* The page left incomplete gets one opaque object for what was evacuated. *)
Definition hole (x : Z) : Prop := exists p v, inc = Some (p, v) /\ x = page_start p.

Lemma hole_out : forall x, hole x -> ~ In x W.
Proof.
  intros x [p [v [Ei ->]]] Hx. pose proof EE as [_ [I _]]. rewrite Ei in I.
  destruct I as [El [Hp [_ [_ [_ [done [Hl [Nd _]]]]]]]].
  destruct done as [|y done]; [ contradiction | ]. pose proof Hl as Hc. unfold pobjs in Hc. cbn [app chain] in Hc. destruct Hc as [Ey _].
  change (page_start p) with (slot_id p 0) in Hx. apply W_in in Hx. destruct Hx as [Hx | Hx].
  - destruct (core_obj h0 _ _ _ _ _ _ _ K Hx) as [_ [C _]]. rewrite in_use1, slot_id_page in C by lia.
    apply (proj1 (page_out p ltac:(rewrite El; left; reflexivity))). assumption.
  - apply chain_nodup in Hl. cbn [app] in Hl. inversion Hl as [|? ? N _]. apply N. apply in_or_app. right. rewrite Ey. assumption.
Qed.

Definition h4 : heap := reclaim_free_pages (update_incomplete_page (upd_list U h1) inc) F.

Record result : Prop := {
  r_mem : forall x, ~ hole x -> mem h4 x = mem (upd_list W h1) x;
  r_hole : forall x, hole x -> mem h4 x = mkcell (c_hdr (mem h4 x)) (OOpaque []);
  r_bref : bref h4 = bref (upd_list W h1);
  r_used : Permutation (used h4) (Lp ++ used h1);
  r_cur : cur h4 = None;
  r_free : free h4 = F ++ free h1;
  r_resv : resv h4 = resv h1;
  r_nalloc : forall p, ~ In p F -> nalloc h4 p = nalloc h1 p;
  r_nallocF : forall p, In p F -> nalloc h4 p = 0;
  r_usz : usz h4 = psum (nalloc h1) (used h4);
  r_fins : fins h4 = fins h1;
  r_flags : pflags h4 = pflags h1;
  r_color : forall x, color h4 x = 0 \/ color h4 x = color h1 x;
  r_colorU : forall x, In (page_of x) (used h1) -> color h4 x = color h1 x;
  r_colorR : forall x, In x rest -> color h4 x = color h1 x;
  r_colorD : forall p v x, inc = Some (p, v) -> page_start p <= x < v -> color h4 x = 0;
  r_pages : forall p, In p (used h1) -> exists l, pobjs h4 p l /\ pobjs h1 p l;
  r_inc : forall p v, inc = Some (p, v) -> pobjs h4 p (page_start p :: rest)
}.

Lemma not_F : forall p, In p (Lp ++ used h1) -> ~ In p F.
Proof.
  intros p Hp C. pose proof (k_nodup _ _ _ _ _ _ _ K) as ND. rewrite in_use1 in ND. cbn [app] in ND.
  apply in_app_or in Hp. destruct Hp as [Hp | Hp].
  - apply nodup_app_r in ND. eapply nodup_app_disj; [ exact ND | exact Hp | apply in_or_app; left; assumption ].
  - eapply nodup_app_disj; [ exact ND | exact Hp | rewrite !in_app_iff; tauto ].
Qed.

Lemma exF : forall p, existsb (Z.eqb p) F = true <-> In p F.
Proof.
  intros p. rewrite existsb_exists. split; [ intros [x [Hx Q]]; apply Z.eqb_eq in Q; subst; assumption | ].
  intros Hp. exists p. split; [ assumption | apply Z.eqb_refl ].
Qed.

Lemma na4 : forall h p, (~ In p F -> nalloc (reclaim_free_pages h F) p = nalloc h p) /\
                        (In p F -> nalloc (reclaim_free_pages h F) p = 0).
Proof.
  intros h p. cbn [reclaim_free_pages set_nfreed set_nalloc nalloc]. destruct (existsb (Z.eqb p) F) eqn:Q.
  - apply exF in Q. split; [ contradiction | reflexivity ].
  - split; [ reflexivity | ]. intros Hp. apply exF in Hp. congruence.
Qed.

Lemma pages_hdr : forall h p, (forall y, In (page_of y) (used h1) -> c_hdr (mem h y) = c_hdr (mem h1 y)) ->
  In p (used h1) -> nalloc h p = nalloc h1 p -> exists l, pobjs h p l /\ pobjs h1 p l.
Proof.
  intros h p Hh Hp Hn. destruct (k_pages _ _ _ _ _ _ _ K p) as [R [l [Hl _]]]; [ rewrite in_use1; assumption | ].
  exists l. split; [ | assumption ]. unfold pobjs. rewrite Hn. eapply chain_ext; [ exact Hl | ]. intros x Hx. apply Hh.
  assert (P0 : 0 <= p) by (apply (k_pos _ _ _ _ _ _ _ K); rewrite in_use1; apply in_or_app; left; assumption).
  destruct (pobjs_in h1 p l x P0 R Hl Hx) as [_ [-> _]]. assumption.
Qed.

Lemma result_ok : result.
Proof.
  pose proof (su_upd_list W h1) as SU. pose proof (su_upd_list U h1) as SV.
  pose proof (k_usz _ _ _ _ _ _ _ K) as US. rewrite psum_nil in US.
  pose proof EE as [_ [I _]].
  assert (PE : forall p v, inc = Some (p, v) -> exists off, off = v - slot_id p 0 /\ 0 < off /\ off mod 32 = 0 /\
     chain (mem h1) v (slot_id p (nalloc h1 p)) rest /\ (length rest <= Z.to_nat (nalloc h1 p))%nat /\
     (forall x, In x rest -> v <= x) /\ Lp = [p] /\ 0 <= p).
  { intros p v Ei. pose proof I as J. rewrite Ei in J. destruct J as [El [Hp [En [_ [_ [done [Hl [Nd [Hv [Hc [R1 [R2 _]]]]]]]]]]]].
    exists (v - slot_id p 0). split; [ reflexivity | ].
    destruct (page0 h0 OK0 Cur0 p Hp) as [P0 [R _]].
    pose proof Hl as Hs. unfold pobjs in Hs. apply chain_split in Hs. destruct Hs as [b [S1 S2]].
    assert (b = v).
    { destruct rest as [|r rs]; [ destruct Hv | ]. cbn [chain] in S2, Hc. destruct S2 as [Q1 _]. destruct Hc as [Q2 _]. congruence. }
    subst b. destruct done as [|y done]; [ contradiction | ]. pose proof S1 as S3. cbn [chain] in S3. destruct S3 as [Ey [s [Hs1 [Hs2 [Hs3 S4]]]]].
    apply chain_le in S4. split; [ lia | ]. split.
    { destruct rest as [|r rs]; [ destruct Hv | ]. assert (r = v) by (cbn [chain] in S2; tauto). subst r.
      destruct (chain_in _ _ _ _ v Hl ltac:(apply in_or_app; right; left; reflexivity)) as [k [_ [Ev _]]].
      rewrite Ev. replace (slot_id p 0 + 32 * k - slot_id p 0) with (k * 32) by lia. apply Z_mod_mult. }
    split.
    { rewrite En. eapply chain_ext; [ exact Hc | ]. intros x Hx. destruct (col_dec h0 x) as [Cx | Cx];
        [ rewrite (R1 x Hx Cx) | rewrite (R2 x Hx Cx) ]; reflexivity. }
    split.
    { pose proof (pobjs_len h0 p _ ltac:(lia) Hl) as Q. unfold page_fuel in Q. rewrite app_length in Q. rewrite En. lia. }
    split; [ intros x Hx; apply (chain_lt _ _ _ _ x Hc Hx) | ]. auto. }
  assert (exists j, inc = j) as [j Ei] by (eexists; reflexivity). assert (E4 : h4 = reclaim_free_pages (update_incomplete_page (upd_list U h1) j) F) by (unfold h4; rewrite Ei; reflexivity).
  rewrite Ei in I. destruct j as [[p v]|].
  - destruct (PE p v Ei) as [off [Eo [O1 [O2 [Hc [Hlen [Hge [El P0]]]]]]]].
    assert (Lpp : In p Lp) by (rewrite El; left; reflexivity).
    destruct (page_out p Lpp) as [NU NF]. assert (PF : ~ In p F) by (intros C; apply NF; apply in_or_app; left; assumption).
    cbn [update_incomplete_page] in E4. cbv zeta in E4.
    assert (EU : update_page (upd_list U h1) p v = upd_list W h1).
    { unfold W. rewrite upd_list_app. apply update_page_list.
      - unfold page_fuel. rewrite (su_nalloc _ _ SV). assumption.
      - unfold page_end. rewrite (su_nalloc _ _ SV). eapply chain_ext; [ exact Hc | ]. intros x _. apply (su_hdr _ _ SV). }
    rewrite EU in E4. clear EU. set (h2 := upd_list W h1) in *.
    set (hm := set_mem h2 (fupd (mem h2) (page_start p) (mkcell (HSize (v - page_start p)) (OOpaque [])))).
    set (hc := clear_page_mark_state hm p (v - page_start p)).
    destruct (push_objs_spec hc p) as [[X1 X2 X3 X4 X5 X6 X7] [[Y1 [Y2 Y3]] [Y4 [Y5 Y6]]]].
    set (hp := push_page_with_objects hc p) in *.
    assert (Mp : forall x, mem hp x = if x =? page_start p then mkcell (HSize (v - page_start p)) (OOpaque []) else mem h2 x) by (intros x; rewrite X1; reflexivity).
    assert (Np : nalloc hp = nalloc h1) by (rewrite Y1; unfold hc, hm; cbn; apply (su_nalloc _ _ SU)).
    assert (Up : Permutation (used hp) (p :: used h1)) by (rewrite Y6; unfold hc, hm; cbn; rewrite (su_used _ _ SU); reflexivity).
    assert (Cp : forall x, color hp x = if (page_start p <=? x) && (x <? v) then 0 else color h1 x).
    { intros x. rewrite X3. unfold hc, hm. cbn [clear_page_mark_state set_color set_mem color]. rewrite (su_color _ _ SU).
      replace (page_start p + (v - page_start p)) with v by lia. reflexivity. }
    assert (Rg : page_start p <= v /\ v < slot_id p 126).
    { split; [ change (page_start p) with (slot_id p 0); lia | ]. destruct I as [_ [Hp0 [En [_ [_ [done [_ [_ [Hv [Hc0 _]]]]]]]]]].
      destruct (page0 h0 OK0 Cur0 p Hp0) as [_ [R _]]. pose proof (chain_lt _ _ _ _ v Hc0 Hv). unfold slot_id in *. lia. }
    assert (Hr4 : forall y, c_hdr (mem (reclaim_free_pages hp F) y) = if y =? page_start p then HSize (v - page_start p) else c_hdr (mem h1 y)).
    { intros y. change (mem (reclaim_free_pages hp F)) with (mem hp). rewrite Mp. destruct (y =? page_start p); [ reflexivity | apply (su_hdr _ _ SU) ]. }
    fold hm in E4. fold hc in E4. fold hp in E4. constructor; rewrite ?E4.
    + intros x Hx. change (mem (reclaim_free_pages hp F)) with (mem hp). rewrite Mp. destruct (x =? page_start p) eqn:Q; [ | reflexivity ].
      exfalso. apply Hx. exists p, v. split; [ assumption | lia ].
    + intros x [p' [v' [E ->]]]. assert (p' = p) by congruence. subst p'. change (mem (reclaim_free_pages hp F)) with (mem hp). rewrite Mp, Z.eqb_refl. reflexivity.
    + exact X2.
    + change (used (reclaim_free_pages hp F)) with (used hp). rewrite El. exact Up.
    + change (cur (reclaim_free_pages hp F)) with (cur hp). rewrite Y4. unfold hc, hm. cbn. rewrite (su_cur _ _ SU). assumption.
    + change (free (reclaim_free_pages hp F)) with (F ++ free hp). rewrite Y2. unfold hc, hm. cbn. rewrite (su_free _ _ SU). reflexivity.
    + change (resv (reclaim_free_pages hp F)) with (resv hp). rewrite Y3. unfold hc, hm. cbn. apply (su_resv _ _ SU).
    + intros q Hq. rewrite (proj1 (na4 hp q) Hq), Np. reflexivity.
    + intros q Hq. apply (proj2 (na4 hp q) Hq).
    + change (usz (reclaim_free_pages hp F)) with (usz hp). change (used (reclaim_free_pages hp F)) with (used hp).
      rewrite Y5, (psum_perm _ _ _ Up), psum_cons. unfold hc, hm. cbn [clear_page_mark_state set_color set_mem usz nalloc].
      rewrite (su_usz _ _ SU), (su_nalloc _ _ SU), US. lia.
    + change (fins (reclaim_free_pages hp F)) with (fins hp). rewrite X5. unfold hc, hm. cbn. apply (su_fins _ _ SU).
    + change (pflags (reclaim_free_pages hp F)) with (pflags hp). rewrite X4. unfold hc, hm. cbn. apply (su_flags _ _ SU).
    + intros x. change (color (reclaim_free_pages hp F)) with (color hp). rewrite Cp. destruct ((page_start p <=? x) && (x <? v)); auto.
    + intros x Hx. change (color (reclaim_free_pages hp F)) with (color hp). rewrite Cp. destruct ((page_start p <=? x) && (x <? v)) eqn:Q; [ | reflexivity ].
      exfalso. apply NU. replace p with (page_of x); [ assumption | ]. clear - Q Rg P0.
      unfold page_of, page_start, slot_id, PAGE_SIZE, SLOTS_OFFS in *. symmetry. apply Z.div_unique with (r := x - p * 4096); lia.
    + intros x Hx. change (color (reclaim_free_pages hp F)) with (color hp). rewrite Cp. specialize (Hge x Hx). destruct ((page_start p <=? x) && (x <? v)) eqn:Q; [ lia | reflexivity ].
    + intros p' v' x E Hx. assert (p' = p /\ v' = v) as [-> ->] by (split; congruence). change (color (reclaim_free_pages hp F)) with (color hp). rewrite Cp.
      destruct ((page_start p <=? x) && (x <? v)) eqn:Q; [ reflexivity | lia ].
    + intros q Hq. apply pages_hdr; [ | assumption | rewrite (proj1 (na4 hp q)), Np; [ reflexivity | apply not_F; apply in_or_app; right; assumption ] ].
      intros y Hy. rewrite Hr4. destruct (y =? page_start p) eqn:Q; [ | reflexivity ]. exfalso. apply NU.
      assert (y = slot_id p 0) by (change (slot_id p 0) with (page_start p); lia). subst y. rewrite slot_id_page in Hy by lia. assumption.
    + intros p' v' E. assert (p' = p /\ v' = v) as [-> ->] by (split; congruence). unfold pobjs. rewrite (proj1 (na4 hp p) PF), Np.
      cbn [chain]. split; [ reflexivity | ]. exists off. rewrite Hr4, Z.eqb_refl. split; [ change (page_start p) with (slot_id p 0); congruence | ].
      split; [ assumption | ]. split; [ assumption | ]. replace (slot_id p 0 + off) with v by lia.
      eapply chain_ext; [ exact Hc | ]. intros x Hx. rewrite Hr4. specialize (Hge x Hx).
      destruct (x =? page_start p) eqn:Q; [ | reflexivity ]. change (page_start p) with (slot_id p 0) in Q. lia.
  - destruct I as [El Er]. cbn [update_incomplete_page] in E4.
    assert (EW : upd_list W h1 = upd_list U h1) by (unfold W; rewrite Er, app_nil_r; reflexivity). rewrite <- EW in E4.
    set (h2 := upd_list W h1) in *.
    constructor; rewrite ?E4.
    + reflexivity.
    + intros x [p [v [E _]]]. congruence.
    + reflexivity.
    + change (used (reclaim_free_pages h2 F)) with (used h2). rewrite El, (su_used _ _ SU). reflexivity.
    + change (cur (reclaim_free_pages h2 F)) with (cur h2). rewrite (su_cur _ _ SU). assumption.
    + change (free (reclaim_free_pages h2 F)) with (F ++ free h2). rewrite (su_free _ _ SU). reflexivity.
    + apply (su_resv _ _ SU).
    + intros q Hq. rewrite (proj1 (na4 h2 q) Hq). rewrite (su_nalloc _ _ SU). reflexivity.
    + intros q Hq. apply (proj2 (na4 h2 q) Hq).
    + change (usz (reclaim_free_pages h2 F)) with (usz h2). change (used (reclaim_free_pages h2 F)) with (used h2).
      rewrite (su_usz _ _ SU), (su_used _ _ SU), US. lia.
    + apply (su_fins _ _ SU).
    + apply (su_flags _ _ SU).
    + intros x. right. change (color h2 x = color h1 x). rewrite (su_color _ _ SU). reflexivity.
    + intros x _. change (color h2 x = color h1 x). rewrite (su_color _ _ SU). reflexivity.
    + intros x _. change (color h2 x = color h1 x). rewrite (su_color _ _ SU). reflexivity.
    + intros p v x E. congruence.
    + intros q Hq. apply pages_hdr; [ | assumption | rewrite (proj1 (na4 h2 q)), (su_nalloc _ _ SU); [ reflexivity | apply not_F; apply in_or_app; right; assumption ] ].
      intros y _. apply (su_hdr _ _ SU).
    + intros p v E. congruence.
Qed.

End Pass.
