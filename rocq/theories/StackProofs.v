(* The representation invariant of the call stack. *)
From Coq Require Import ZArith List Lia Bool ZifyBool.
Import ListNotations.
From Verif Require Import Base ListZ StackModel StackSpec.
Local Open Scope Z_scope.

Definition frame_ok (f : frame) : Prop := 0 <= nregs f <= 255 /\ f_info f mod 256 = nregs f.

Definition gen_obj (s0 : slot) (f : frame) : stk :=
  mkstk (nregs f + 5) true (s0 :: f_body f ++ [SInt (f_info f)]).

Definition frame_slots (f : frame) : list slot :=
  match f_gen f with Some g => [SPtr g] | None => f_body f ++ [SInt (f_info f)] end.

Fixpoint slots_of (fs : list frame) : list slot :=
  match fs with [] => [] | f :: r => slots_of r ++ frame_slots f end.

Definition link (r : list (Z * list frame)) : slot :=
  match r with [] => SBad | (id, _) :: _ => SPtr id end.

Fixpoint chunks_ok (h : heap) (cks : list (Z * list frame)) : Prop :=
  match cks with
  | [] => True
  | (id, fs) :: r =>
      h id = Some (mkstk STACK_CAPACITY false (link r :: slots_of fs)) /\
      Forall frame_ok fs /\
      1 + len (slots_of fs) <= STACK_CAPACITY /\
      (forall f g, In f fs -> f_gen f = Some g -> h g = Some (gen_obj (SPtr id) f)) /\
      chunks_ok h r
  end.

Definition gen_ids (fs : list frame) : list Z :=
  flat_map (fun f => match f_gen f with Some g => [g] | None => [] end) fs.

Definition all_frames (cks : list (Z * list frame)) : list frame := flat_map snd cks.

Definition top_ok (c : ctx) (cks : list (Z * list frame)) (gtop : list frame) : Prop :=
  match gtop, cks with
  | [], [] => cur c = None /\ regs_idx c = 0
  | [], (id, f :: fs) :: _ =>
      f_gen f = None /\ cur c = Some id /\ regs_idx c = len (slots_of (f :: fs)) - nregs f
  | [f], (id, _) :: _ =>
      exists g, f_gen f = Some g /\ cur c = Some g /\ regs_idx c = 4 /\ frame_ok f /\
                hp c g = Some (gen_obj (SPtr id) f)
  | _, _ => False
  end.

Definition nonempty (p : Z * list frame) : Prop := snd p <> [].

Definition sobj (h : heap) (g : Z) (f : frame) : Prop :=
  match f_gen f with
  | Some g' => g' = g /\ frame_ok f /\ exists s0, h g = Some (gen_obj s0 f)
  | None => 0 <= nregs f /\ exists cap s0, h g = Some (mkstk cap true (s0 :: f_body f ++ [SInt (f_info f)]))
  end.

Definition saved_ok (h : heap) (sv : Z -> option frame) (ids : list Z) : Prop :=
  forall g f, sv g = Some f ->
    sobj h g f /\ ~ In g ids.

Definition ids_of (cks : list (Z * list frame)) (fs : list frame) : list Z := map fst cks ++ gen_ids fs.

Definition rep_with (c : ctx) (a : astate) (cks : list (Z * list frame)) (gtop : list frame) : Prop :=
  frames a = gtop ++ all_frames cks /\
  chunks_ok (hp c) cks /\
  top_ok c cks gtop /\
  Forall nonempty (tl cks) /\
  NoDup (ids_of cks (frames a)) /\
  saved_ok (hp c) (saved a) (ids_of cks (frames a)) /\
  depth c = total (frames a) + Z.max 0 (len cks - 1).

Definition rep (c : ctx) (a : astate) : Prop := exists cks gtop, rep_with c a cks gtop.

(* between unchaining and adding the new frame: the current object is the top chunk *)
Definition mid (c : ctx) (a : astate) (cks : list (Z * list frame)) : Prop :=
  frames a = all_frames cks /\
  chunks_ok (hp c) cks /\
  (exists id fs r, cks = (id, fs) :: r /\ cur c = Some id) /\
  Forall nonempty (tl cks) /\
  NoDup (ids_of cks (frames a)) /\
  saved_ok (hp c) (saved a) (ids_of cks (frames a)) /\
  depth c = total (frames a) + len cks - 1.

Lemma hset_same : forall h x s, hset h x s x = Some s.
Proof. intros. unfold hset. rewrite Z.eqb_refl. reflexivity. Qed.

Lemma hset_other : forall h x s y, y <> x -> hset h x s y = h y.
Proof. intros. unfold hset. destruct (y =? x) eqn:E; [lia | reflexivity]. Qed.

Lemma gen_ids_app : forall a b, gen_ids (a ++ b) = gen_ids a ++ gen_ids b.
Proof. intros. apply flat_map_app. Qed.

Lemma gen_ids_in : forall fs f g, In f fs -> f_gen f = Some g -> In g (gen_ids fs).
Proof.
  intros fs f g H E. apply in_flat_map. exists f. split; [exact H |]. rewrite E. left. reflexivity.
Qed.

Lemma chunks_ids : forall h cks x, chunks_ok h cks -> h x = None -> ~ In x (ids_of cks (all_frames cks)).
Proof.
  induction cks as [| [id fs] r IH]; intros x H E I.
  - destruct I.
  - cbn [chunks_ok] in H. destruct H as (H1 & _ & _ & H4 & H5).
    unfold ids_of in I. cbn [map fst all_frames flat_map snd] in I.
    rewrite gen_ids_app in I. cbn [app] in I.
    destruct I as [I | I]; [congruence |].
    rewrite !in_app_iff in I. destruct I as [I | [I | I]].
    + apply (IH x H5 E). apply in_or_app. left. exact I.
    + apply in_flat_map in I. destruct I as (f & I1 & I2).
      destruct (f_gen f) eqn:G; [| destruct I2]. destruct I2 as [-> | []].
      rewrite (H4 _ _ I1 G) in E. discriminate.
    + apply (IH x H5 E). apply in_or_app. right. exact I.
Qed.

Lemma chunks_frame : forall h cks x s, chunks_ok h cks -> ~ In x (ids_of cks (all_frames cks)) ->
  chunks_ok (hset h x s) cks.
Proof.
  induction cks as [| [id fs] r IH]; intros x s H N; [exact Logic.I |].
  cbn [chunks_ok] in *. destruct H as (H1 & H2 & H3 & H4 & H5).
  unfold ids_of in N. cbn [map fst all_frames flat_map snd app] in N. rewrite gen_ids_app in N.
  repeat split; try assumption.
  - rewrite hset_other; [exact H1 |]. intro Q. apply N. left. exact Q.
  - intros f g I G. rewrite hset_other; [apply H4; assumption |].
    intro Q. subst. apply N. right. rewrite !in_app_iff. right. left. exact (gen_ids_in _ _ _ I G).
  - apply IH; [exact H5 |]. intro I. apply N. right. unfold ids_of in I. rewrite !in_app_iff in *. tauto.
Qed.

Lemma sobj_some : forall h g f, sobj h g f -> h g <> None.
Proof.
  intros h g f H. unfold sobj in H. destruct (f_gen f).
  - destruct H as (_ & _ & s0 & E). congruence.
  - destruct H as (_ & cap & s0 & E). congruence.
Qed.

Lemma sobj_eq : forall h h' g f, h' g = h g -> sobj h g f -> sobj h' g f.
Proof. intros h h' g f E H. unfold sobj in *. rewrite E. exact H. Qed.

Lemma saved_frame : forall h sv ids x s, saved_ok h sv ids -> sv x = None -> saved_ok (hset h x s) sv ids.
Proof.
  intros h sv ids x s H N g f E. destruct (H g f E) as (A & D). split; [| exact D].
  eapply sobj_eq; [| exact A]. apply hset_other. congruence.
Qed.

Lemma saved_ids : forall h sv ids ids', saved_ok h sv ids ->
  (forall x, In x ids' -> In x ids) -> saved_ok h sv ids'.
Proof.
  intros h sv ids ids' H N g f E. destruct (H g f E) as (A & D).
  split; [exact A |]. intro I. apply D, N, I.
Qed.

Lemma saved_new : forall h sv ids ids' x, saved_ok h sv ids -> h x = None ->
  (forall y, In y ids' -> y = x \/ In y ids) -> saved_ok h sv ids'.
Proof.
  intros h sv ids ids' x H N K g f E. destruct (H g f E) as (A & D).
  split; [exact A |].
  intro I. destruct (K _ I) as [-> | I']; [exact (sobj_some _ _ _ A N) | exact (D I')].
Qed.

Lemma saved_none : forall h sv ids x, saved_ok h sv ids -> h x = None -> sv x = None.
Proof.
  intros h sv ids x H E. destruct (sv x) eqn:S; [| reflexivity].
  destruct (H _ _ S) as (A & _). exfalso. exact (sobj_some _ _ _ A E).
Qed.

Lemma saved_in : forall h sv ids x, saved_ok h sv ids -> In x ids -> sv x = None.
Proof.
  intros h sv ids x H I. destruct (sv x) eqn:S; [| reflexivity].
  destruct (H _ _ S) as (_ & D). tauto.
Qed.

Lemma slots_nonneg : forall fs, 0 <= len (slots_of fs).
Proof. intros. apply len_nonneg. Qed.

Lemma len_frame_slots : forall f, frame_ok f -> f_gen f = None -> len (frame_slots f) = nregs f + 4.
Proof. intros f [H _] G. unfold frame_slots. rewrite G, len_app, len_cons, len_nil. unfold nregs. lia. Qed.

Lemma size_gen_obj : forall s0 f, size (gen_obj s0 f) = nregs f + 5.
Proof. intros. unfold size, gen_obj. cbn [s_slots]. rewrite len_cons, len_app, len_cons, len_nil. unfold nregs. lia. Qed.

Lemma set_slot0_gen : forall s0 f x, set_slot0 (gen_obj s0 f) x = gen_obj x f.
Proof. reflexivity. Qed.

Lemma len_empty_body : forall func n, 0 <= n -> len (empty_body func n) = n + 3.
Proof. intros. unfold empty_body. rewrite len_app, len_repeat, !len_cons, len_nil. lia. Qed.

(* adding a frame to the top chunk *)
Lemma push_plain_mid : forall c a cks id fs r func n info,
  mid c a cks -> cks = (id, fs) :: r -> info_ok n info = true ->
  1 + len (slots_of fs) + n + 4 <= STACK_CAPACITY ->
  exists c', write_frame c func n info = Done c' /\
    rep c' (mka (mkframe None (empty_body func n) info :: frames a) (saved a)).
Proof.
  intros c a cks id fs r func n info M -> OK FIT.
  destruct M as (F & C & (id' & fs' & r' & E & CUR) & T & ND & SV & D). inversion E; subst id' fs' r'; clear E.
  cbn [chunks_ok] in C. destruct C as (C1 & C2 & C3 & C4 & C5).
  unfold info_ok in OK. apply andb_prop in OK. destruct OK as [OK O3]. apply andb_prop in OK. destruct OK as [O1 O2].
  unfold write_frame. rewrite CUR, C1. unfold size. cbn [s_slots s_cap].
  rewrite len_cons. unfold KOS_STACK_EXTRA.
  destruct (STACK_CAPACITY <? 1 + len (slots_of fs) + n + 4) eqn:Q; [lia |].
  eexists. split; [reflexivity |].
  set (f := mkframe None (empty_body func n) info).
  assert (NR : nregs f = n) by (unfold nregs, f; cbn [f_body]; rewrite len_empty_body by lia; lia).
  assert (FO : frame_ok f) by (split; [rewrite NR; lia | rewrite NR; unfold f; cbn [f_info]; lia]).
  exists ((id, f :: fs) :: r), []. unfold rep_with. cbn [frames saved hp cur regs_idx depth].
  assert (AF : f :: frames a = all_frames ((id, f :: fs) :: r)).
  { rewrite F. reflexivity. }
  assert (ID : ids_of ((id, f :: fs) :: r) (f :: frames a) = ids_of ((id, fs) :: r) (frames a)) by reflexivity.
  split; [exact AF |].
  assert (IDN : ~ In id (ids_of r (all_frames r))).
  { unfold ids_of in ND. rewrite F in ND. cbn [map fst app] in ND. apply NoDup_cons_iff in ND. destruct ND as [ND _].
    intro I. apply ND. unfold ids_of in I. unfold all_frames. cbn [flat_map snd].
    rewrite gen_ids_app, !in_app_iff in *. unfold all_frames in I. tauto. }
  assert (GN : forall f' g, In f' fs -> f_gen f' = Some g -> g <> id).
  { intros f' g I G Q'. subst g. unfold ids_of in ND. rewrite F in ND. cbn [map fst app] in ND.
    apply NoDup_cons_iff in ND. destruct ND as [ND _].
    apply ND. unfold all_frames. cbn [flat_map snd]. rewrite gen_ids_app, !in_app_iff.
    right. left. exact (gen_ids_in _ _ _ I G). }
  split; [| split; [| split; [| split; [| split]]]].
  - cbn [chunks_ok]. rewrite hset_same. split; [| split; [| split; [| split]]].
    + reflexivity.
    + constructor; assumption.
    + cbn [slots_of]. rewrite len_app, (len_frame_slots f FO eq_refl), NR. lia.
    + intros f' g [<- | I] G; [discriminate |]. rewrite hset_other by (eapply GN; eassumption). apply C4; assumption.
    + apply chunks_frame; assumption.
  - cbn [top_ok]. split; [reflexivity |]. split; [reflexivity |].
    cbn [slots_of regs_idx]. rewrite len_app, (len_frame_slots f FO eq_refl), NR. lia.
  - exact T.
  - rewrite ID. exact ND.
  - rewrite ID. apply saved_frame; [exact SV |]. eapply saved_in; [exact SV |]. left. reflexivity.
  - rewrite D. unfold total. cbn [fold_right]. fold (total (frames a)). rewrite !len_cons.
    pose proof (len_nonneg _ r). unfold cost. rewrite NR. unfold f. cbn [f_gen]. lia.
Qed.

(* a new chunk on top of the non-empty ones *)
Lemma new_chunk_mid : forall c a cks n,
  mid c a cks -> Forall nonempty cks -> hp c n = None ->
  mid (chain_new c n STACK_CAPACITY false) a ((n, []) :: cks).
Proof.
  intros c a cks n M NE H.
  destruct M as (F & C & (id & fs & r & E & CUR) & T & ND & SV & D).
  assert (NI : ~ In n (ids_of cks (frames a))).
  { rewrite F. eapply chunks_ids; eassumption. }
  unfold chain_new. rewrite CUR. unfold mid. cbn [hp cur depth].
  split; [exact F |]. split; [| split; [| split; [| split; [| split]]]].
  - cbn [chunks_ok slots_of]. rewrite hset_same. split; [rewrite E; reflexivity |].
    split; [constructor |]. split; [unfold STACK_CAPACITY; change (len (@nil slot)) with 0; lia |].
    split; [intros f g [] |]. apply chunks_frame; [exact C |]. rewrite F in NI. exact NI.
  - exists n, [], cks. split; reflexivity.
  - exact NE.
  - unfold ids_of. cbn [map fst app]. constructor; assumption.
  - apply saved_frame; [| eapply saved_none; eassumption].
    eapply saved_new; [exact SV | exact H |].
    intros y I. unfold ids_of in I. cbn [map fst app] in I. destruct I as [<- | I]; [left; reflexivity | right; exact I].
  - rewrite D, len_cons. lia.
Qed.

Lemma bottom_mid : forall c a n, rep c a -> cur c = None -> hp c n = None ->
  frames a = [] /\ mid (chain_new c n STACK_CAPACITY false) a [(n, [])].
Proof.
  intros c a n (cks & gtop & F & C & T & NE & ND & SV & D) CUR H.
  assert (cks = [] /\ gtop = []) as [-> ->].
  { destruct gtop as [| g [| g' gt]], cks as [| [id fs] r]; cbn [top_ok] in T; auto; try contradiction.
    - destruct fs; [contradiction |]. destruct T as (_ & T & _). congruence.
    - destruct T as (x & _ & T & _). congruence. }
  cbn [app all_frames flat_map] in F. split; [exact F |].
  unfold chain_new. rewrite CUR. unfold mid. cbn [hp cur depth].
  rewrite F in *. split; [reflexivity |]. split; [| split; [| split; [| split; [| split]]]].
  - cbn [chunks_ok slots_of link]. rewrite hset_same. split; [reflexivity |].
    split; [constructor |]. split; [unfold STACK_CAPACITY; change (len (@nil slot)) with 0; lia |].
    split; [intros f g [] | exact Logic.I].
  - exists n, [], []. split; reflexivity.
  - constructor.
  - unfold ids_of. cbn [map fst app gen_ids flat_map]. repeat constructor. intros [].
  - apply saved_frame; [| eapply saved_none; eassumption].
    eapply saved_new; [exact SV | exact H |].
    intros y [<- | []]. left. reflexivity.
  - rewrite D. reflexivity.
Qed.

(* storing the current generator's object in the top chunk *)
Lemma unchain_ok : forall c a n id, rep c a -> cur c = Some id -> hp c n = None ->
  exists c' cks', unchain_reentrant_frame c (Some n) = Done c' /\ mid c' a cks' /\ Forall nonempty cks' /\
    (forall x, x <> n -> hp c x = None -> hp c' x = None) /\
    (forall x, ~ In x (ids_of cks' (frames a)) -> hp c' x = hp c x).
Proof.
  intros c a n id0 (cks & gtop & F & C & T & NE & ND & SV & D) CUR H.
  unfold unchain_reentrant_frame. rewrite CUR.
  destruct gtop as [| f [| f' gt]], cks as [| [id fs] r]; cbn [top_ok] in T; try contradiction.
  - destruct T; congruence.
  - destruct fs as [| f fs]; [contradiction |]. destruct T as (T1 & T2 & T3).
    assert (id0 = id) by congruence. subst id0.
    pose proof C as C'. cbn [chunks_ok] in C'. destruct C' as (C1 & _). rewrite C1. cbn [s_re].
    exists c, ((id, f :: fs) :: r). split; [reflexivity |]. split.
    + unfold mid. split; [exact F |]. split; [exact C |]. split; [exists id, (f :: fs), r; auto |].
      split; [exact NE |]. split; [exact ND |]. split; [exact SV |]. rewrite D, len_cons. pose proof (len_nonneg _ r). lia.
    + split; [| split; intros; auto]. constructor; [discriminate | exact NE].
  - destruct T as (g & G & TC & TR & FO & HG). assert (id0 = g) by congruence. subst id0.
    rewrite HG. cbn [s_re gen_obj s_slots].
    pose proof C as C'. cbn [chunks_ok] in C'. destruct C' as (C1 & C2 & C3 & C4 & C5).
    rewrite C1. cbn [s_re]. unfold size. cbn [s_slots s_cap]. rewrite len_cons.
    cbn [app] in F.
    assert (IDS : ids_of ((id, fs) :: r) (frames a) = map fst ((id, fs) :: r) ++ g :: gen_ids (all_frames ((id, fs) :: r))).
    { unfold ids_of. rewrite F. cbn [gen_ids flat_map]. rewrite G. reflexivity. }
    pose proof ND as ND'. rewrite IDS in ND'.
    assert (GN : ~ In g (ids_of ((id, fs) :: r) (all_frames ((id, fs) :: r)))).
    { apply NoDup_remove_2 in ND'. exact ND'. }
    assert (NI : ~ In n (ids_of ((id, fs) :: r) (all_frames ((id, fs) :: r)))) by (eapply chunks_ids; eassumption).
    assert (GNE : g <> n) by congruence.
    destruct (1 + len (slots_of fs) =? STACK_CAPACITY) eqn:Q.
    + (* chunk full *)
      unfold chain_new. cbn [cur hp regs_idx depth].
      rewrite hset_other by congruence. rewrite hset_same.
      eexists _, ((n, [f]) :: (id, fs) :: r). split; [reflexivity |].
      assert (FSN : fs <> []).
      { intros ->. cbn [slots_of] in Q. unfold STACK_CAPACITY in Q. change (len (@nil slot)) with 0 in Q. lia. }
      split; [| split; [| split]].
      * unfold mid. cbn [hp cur depth]. split; [rewrite F; reflexivity |].
        split; [| split; [| split; [| split; [| split]]]].
        -- cbn [chunks_ok]. rewrite hset_same. split; [| split; [| split; [| split; [|]]]].
           ++ unfold append. cbn [s_cap s_re s_slots slots_of link]. unfold frame_slots. rewrite G. reflexivity.
           ++ constructor; [exact FO | constructor].
           ++ cbn [slots_of]. unfold frame_slots. rewrite G. unfold STACK_CAPACITY. change (len ([] ++ [SPtr g])) with 1. lia.
           ++ intros f' g' [<- | []] G'. assert (g' = g) by congruence. subst g'.
              rewrite hset_other by congruence. rewrite hset_same. rewrite set_slot0_gen. reflexivity.
           ++ apply (chunks_frame _ ((id, fs) :: r)); [| exact NI].
              apply (chunks_frame _ ((id, fs) :: r)); [| exact GN].
              apply (chunks_frame _ ((id, fs) :: r)); [exact C | exact NI].
        -- exists n, [f], ((id, fs) :: r). split; reflexivity.
        -- cbn [tl]. constructor; [exact FSN | exact NE].
        -- unfold ids_of in *. cbn [map fst app] in *. constructor; [| exact ND].
           intro I. apply NI. rewrite F in I. cbn [gen_ids flat_map] in I. rewrite G in I.
           cbn [In app] in *. rewrite !in_app_iff in *. cbn [In app] in I. intuition congruence.
        -- apply saved_frame; [| eapply saved_none; eassumption].
           apply saved_frame; [| eapply saved_in; [exact SV | rewrite IDS; apply in_elt]].
           apply saved_frame; [| eapply saved_none; eassumption].
           eapply saved_new; [exact SV | exact H |].
           intros y I. unfold ids_of in I. cbn [map fst app] in I. destruct I as [<- | I]; [left; reflexivity | right; exact I].
        -- rewrite D. rewrite !len_cons. pose proof (len_nonneg _ r). lia.
      * constructor; [discriminate |]. constructor; [exact FSN | exact NE].
      * cbn [hp]. intros x X HX. rewrite hset_other by exact X. rewrite hset_other by congruence.
        rewrite hset_other by exact X. exact HX.
      * cbn [hp]. intros x X. unfold ids_of in X. cbn [map fst app In] in X.
        rewrite hset_other by (intro; subst; tauto). rewrite hset_other.
        -- rewrite hset_other by (intro; subst; tauto). reflexivity.
        -- intro; subst x. apply X. right. right. rewrite in_app_iff. right. rewrite F. cbn [gen_ids flat_map]. rewrite G. left. reflexivity.
    + eexists _, ((id, f :: fs) :: r). split; [reflexivity |].
      assert (AFE : all_frames ((id, f :: fs) :: r) = f :: all_frames ((id, fs) :: r)) by reflexivity.
      assert (IDN : ~ In id (map fst r ++ g :: gen_ids (all_frames ((id, fs) :: r)))).
      { cbn [map fst app] in ND'. apply NoDup_cons_iff in ND'. tauto. }
      split; [| split; [| split]].
      * unfold mid. cbn [hp cur depth]. split; [rewrite F; reflexivity |].
        split; [| split; [| split; [| split; [| split]]]].
        -- cbn [chunks_ok]. rewrite hset_same. split; [| split; [| split; [| split; [|]]]].
           ++ unfold append. cbn [s_cap s_re s_slots slots_of]. unfold frame_slots. rewrite G. reflexivity.
           ++ constructor; assumption.
           ++ cbn [slots_of]. unfold frame_slots. rewrite G, len_app, len_cons, len_nil. lia.
           ++ intros f' g' I' G'. rewrite hset_other.
              ** destruct I' as [<- | I']; [| apply C4; assumption].
                 assert (g' = g) by congruence. subst g'. exact HG.
              ** intro; subst g'. apply IDN. apply in_or_app. right.
                 destruct I' as [<- | I']; [left; congruence | right].
                 unfold all_frames. cbn [flat_map snd]. rewrite gen_ids_app. apply in_or_app. left.
                 exact (gen_ids_in _ _ _ I' G').
           ++ apply chunks_frame; [exact C5 |]. intro I. apply IDN. unfold ids_of in I.
              unfold all_frames in *. cbn [flat_map snd]. rewrite gen_ids_app.
              rewrite !in_app_iff in *. cbn [In]. rewrite in_app_iff. tauto.
        -- exists id, (f :: fs), r. split; reflexivity.
        -- exact NE.
        -- exact ND.
        -- apply saved_frame; [exact SV | eapply saved_in; [exact SV | left; reflexivity]].
        -- rewrite D. rewrite !len_cons. pose proof (len_nonneg _ r). lia.
      * constructor; [discriminate | exact NE].
      * cbn [hp]. intros x X HX. rewrite hset_other by congruence. exact HX.
      * cbn [hp]. intros x X. rewrite hset_other; [reflexivity |]. intro; subst. apply X. left. reflexivity.
Qed.
