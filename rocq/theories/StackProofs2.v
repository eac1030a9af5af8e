(* Every operation preserves the representation of the call stack. *)
From Coq Require Import ZArith List Lia Bool ZifyBool.
Import ListNotations.
From Verif Require Import Base ListZ StackModel StackSpec StackProofs.
Local Open Scope Z_scope.

Lemma nodup_id : forall gt id fs r,
  NoDup (ids_of ((id, fs) :: r) (gt ++ all_frames ((id, fs) :: r))) ->
  ~ In id (ids_of r (all_frames r)) /\
  (forall f g, In f (gt ++ fs) -> f_gen f = Some g -> g <> id).
Proof.
  intros gt id fs r ND. unfold ids_of in ND. cbn [map fst app] in ND. apply NoDup_cons_iff in ND.
  destruct ND as [ND _]. unfold all_frames in *. cbn [flat_map snd] in ND. rewrite !gen_ids_app in ND.
  rewrite !in_app_iff in ND. split.
  - unfold ids_of. rewrite in_app_iff. tauto.
  - intros f g I G Q. subst g. apply gen_ids_in with (g := id) in I; [| exact G].
    rewrite gen_ids_app, in_app_iff in I. tauto.
Qed.

Lemma set_chunk : forall h id fs r fs',
  chunks_ok h ((id, fs) :: r) -> ~ In id (ids_of r (all_frames r)) ->
  (forall f g, In f fs' -> f_gen f = Some g -> g <> id /\ h g = Some (gen_obj (SPtr id) f)) ->
  Forall frame_ok fs' -> 1 + len (slots_of fs') <= STACK_CAPACITY ->
  chunks_ok (hset h id (mkstk STACK_CAPACITY false (link r :: slots_of fs'))) ((id, fs') :: r).
Proof.
  intros h id fs r fs' C N G F L. cbn [chunks_ok] in *. destruct C as (_ & _ & _ & _ & C5).
  rewrite hset_same. split; [reflexivity |]. split; [exact F |]. split; [exact L |]. split.
  - intros f g I E. destruct (G f g I E) as [A B]. rewrite hset_other by exact A. exact B.
  - apply chunks_frame; assumption.
Qed.

Lemma total_cons : forall f fs, total (f :: fs) = cost f + total fs.
Proof. reflexivity. Qed.

Lemma total_nonneg : forall fs, Forall frame_ok fs -> 0 <= total fs.
Proof.
  induction 1 as [| f fs [H _] _ IH]; [cbn; lia |]. rewrite total_cons. unfold cost. destruct (f_gen f); lia.
Qed.

(* a new generator or closure frame *)
Lemma push_new_mid : forall c a cks n2 func n info,
  mid c a cks -> hp c n2 = None -> info_ok n info = true ->
  exists c', write_frame (chain_new c n2 (n + KOS_STACK_EXTRA + 1) true) func n info = Done c' /\
    rep c' (mka (mkframe (Some n2) (empty_body func n) info :: frames a) (saved a)).
Proof.
  intros c a cks n2 func n info (F & C & (id & fs & r & E & CUR) & T & ND & SV & D) H OK.
  unfold info_ok in OK. apply andb_prop in OK. destruct OK as [OK O3]. apply andb_prop in OK. destruct OK as [O1 O2].
  unfold chain_new. rewrite CUR. unfold write_frame. cbn [cur hp]. rewrite hset_same. unfold size. cbn [s_slots s_cap].
  rewrite len_cons, len_nil. unfold KOS_STACK_EXTRA.
  destruct (n + 4 + 1 <? 1 + 0 + n + 4) eqn:Q; [lia |].
  eexists. split; [reflexivity |].
  set (f := mkframe (Some n2) (empty_body func n) info).
  assert (NR : nregs f = n) by (unfold nregs, f; cbn [f_body]; rewrite len_empty_body by lia; lia).
  assert (FO : frame_ok f) by (split; [rewrite NR; lia | rewrite NR; unfold f; cbn [f_info]; lia]).
  assert (NI : ~ In n2 (ids_of cks (frames a))) by (rewrite F; eapply chunks_ids; eassumption).
  pose proof NI as NI'. rewrite F in NI'.
  assert (SN : saved a n2 = None) by (eapply saved_none; eassumption).
  exists cks, [f]. unfold rep_with. cbn [frames saved hp cur regs_idx depth].
  split; [rewrite F; reflexivity |]. split; [| split; [| split; [| split; [| split]]]].
  - apply chunks_frame; [| exact NI']. apply chunks_frame; [exact C | exact NI'].
  - rewrite E. cbn [top_ok]. exists n2. split; [reflexivity |]. split; [reflexivity |]. split; [reflexivity |].
    split; [exact FO |]. cbn [hp]. rewrite hset_same. unfold append, gen_obj. cbn [s_cap s_re s_slots]. rewrite NR.
    replace (n + 4 + 1) with (n + 5) by lia. reflexivity.
  - exact T.
  - unfold ids_of in *. cbn [gen_ids flat_map]. unfold f at 1. cbn [f_gen app].
    apply NoDup_Add with (a := n2) (l := map fst cks ++ gen_ids (frames a)); [apply Add_app | split; assumption].
  - apply saved_frame; [| exact SN]. apply saved_frame; [| exact SN].
    eapply saved_new; [exact SV | exact H |]. intros y I. unfold ids_of in *. cbn [gen_ids flat_map] in I.
    unfold f at 1 in I. cbn [f_gen app] in I. rewrite in_app_iff in *. cbn [In] in I.
    destruct I as [I | [I | I]]; [right; left; exact I | left; symmetry; exact I | right; right; exact I].
  - rewrite D, total_cons. unfold cost. rewrite NR. unfold f. cbn [f_gen].
    assert (1 <= len cks) by (rewrite E, len_cons; pose proof (len_nonneg _ r); lia). lia.
Qed.

Lemma removelast_gen : forall s0 f info,
  set_last (s_slots (gen_obj s0 f)) (SInt info) = s0 :: f_body f ++ [SInt info].
Proof.
  intros. unfold set_last, gen_obj. cbn [s_slots]. rewrite app_comm_cons, removelast_last. reflexivity.
Qed.

(* a suspended generator *)
Lemma push_gen_mid : forall c a cks g f info id,
  mid c a cks -> cur c = Some id -> saved a g = Some f -> is_gen f = true -> info_ok (nregs f) info = true ->
  exists gs, hp c g = Some gs /\
  (let h1 := hset (hp c) g (set_slot0 gs (SPtr id)) in
   exists gs1, h1 g = Some gs1 /\
   rep (mkctx (hset h1 g (mkstk (s_cap gs1) (s_re gs1) (set_last (s_slots gs1) (SInt info)))) (Some g) 4
              (depth c + size gs))
     (mka (mkframe (Some g) (f_body f) info :: frames a) (sset (saved a) g None))).
Proof.
  intros c a cks g f info id0 (F & C & (id & fs & r & E & CUR) & T & ND & SV & D) CUR' SG IG OK.
  assert (id0 = id) by congruence. subst id0. clear CUR'.
  unfold info_ok in OK. apply andb_prop in OK. destruct OK as [OK O3]. apply andb_prop in OK. destruct OK as [O1 O2].
  destruct (SV _ _ SG) as (SO & NI). unfold sobj in SO. unfold is_gen in IG.
  destruct (f_gen f) as [g' |] eqn:FG; [| discriminate]. destruct SO as (-> & FO & s0 & HG).
  exists (gen_obj s0 f). split; [exact HG |]. cbv zeta. rewrite set_slot0_gen.
  exists (gen_obj (SPtr id) f). split; [apply hset_same |].
  rewrite removelast_gen, size_gen_obj.
  set (f' := mkframe (Some g) (f_body f) info).
  assert (NR : nregs f' = nregs f) by reflexivity.
  assert (FO' : frame_ok f') by (split; [rewrite NR; apply FO | rewrite NR; cbn [f_info f']; unfold f'; cbn [f_info]; lia]).
  pose proof NI as NI'. rewrite F in NI'.
  exists cks, [f']. unfold rep_with. cbn [frames saved hp cur regs_idx depth].
  split; [rewrite F; reflexivity |]. split; [| split; [| split; [| split; [| split]]]].
  - apply chunks_frame; [| exact NI']. apply chunks_frame; [exact C | exact NI'].
  - rewrite E. cbn [top_ok]. exists g. split; [reflexivity |]. split; [reflexivity |]. split; [reflexivity |].
    split; [exact FO' |]. cbn [hp]. rewrite hset_same. reflexivity.
  - exact T.
  - unfold ids_of in *. cbn [gen_ids flat_map]. unfold f' at 1. cbn [f_gen app].
    apply NoDup_Add with (a := g) (l := map fst cks ++ gen_ids (frames a)); [apply Add_app | split; assumption].
  - intros g1 f1 S1. unfold sset in S1. destruct (g1 =? g) eqn:Q; [discriminate |].
    destruct (SV _ _ S1) as (A1 & A4). split.
    + eapply sobj_eq; [| exact A1]. rewrite !hset_other by lia. reflexivity.
    + intro I. apply A4. unfold ids_of in *. cbn [gen_ids flat_map] in I.
      unfold f' at 1 in I. cbn [f_gen app] in I. rewrite in_app_iff in *. cbn [In] in I.
      destruct I as [I | [I | I]]; [left; exact I | lia | right; exact I].
  - rewrite D, total_cons. unfold cost. rewrite NR. unfold f'. cbn [f_gen].
    assert (1 <= len cks) by (rewrite E, len_cons; pose proof (len_nonneg _ r); lia). lia.
Qed.

Definition fresh2 (c : ctx) (n1 n2 : Z) : Prop := hp c n1 = None /\ hp c n2 = None /\ n1 <> n2.

Lemma push_plain_ok : forall c a n1 n2 func n info,
  rep c a -> fresh2 c n1 n2 -> info_ok n info = true -> depth c + (n + 4) <= KOS_MAX_STACK_DEPTH ->
  exists c', kos_stack_push c FPlain func n info (Some n1) (Some n2) = Done c' /\
    rep c' (mka (mkframe None (empty_body func n) info :: frames a) (saved a)).
Proof.
  intros c a n1 n2 func n info R (H1 & H2 & H3) OK DP.
  unfold kos_stack_push. unfold KOS_STACK_EXTRA.
  destruct (KOS_MAX_STACK_DEPTH <? depth c + (n + 4)) eqn:Q; [lia |]. clear Q.
  assert (NB : 1 <= n <= 255) by (unfold info_ok in OK; lia).
  destruct (cur c) as [id |] eqn:CUR.
  2:{ destruct (bottom_mid c a n1 R CUR H1) as [F M]. cbn [push_new_stack bind].
      eapply push_plain_mid; [exact M | reflexivity | exact OK |].
      cbn [slots_of]. change (len (@nil slot)) with 0. unfold STACK_CAPACITY. lia. }
  destruct (unchain_ok c a n1 id R CUR H1) as (c1 & cks1 & U & M & NE & FR & _).
  destruct (hp c id) as [s |] eqn:HS.
  2:{ unfold unchain_reentrant_frame in U. rewrite CUR, HS in U. discriminate. }
  destruct (s_cap s <? size s + (n + 4)) eqn:Q.
  - rewrite U. cbn [bind].
    pose proof M as M'. destruct M' as (F & C & (id1 & fs1 & r1 & E & CUR1) & _). subst cks1.
    rewrite CUR1. cbn [chunks_ok] in C. destruct C as (C1 & C2 & C3 & _). rewrite C1.
    unfold size. cbn [s_cap s_slots]. rewrite len_cons.
    destruct (STACK_CAPACITY <? 1 + len (slots_of fs1) + (n + 4)) eqn:Q1; cbn [push_new_stack bind].
    + assert (HN : hp c1 n2 = None) by (apply FR; [congruence | exact H2]).
      pose proof (new_chunk_mid c1 a _ n2 M NE HN) as M2.
      eapply push_plain_mid; [exact M2 | reflexivity | exact OK |].
      cbn [slots_of]. change (len (@nil slot)) with 0. unfold STACK_CAPACITY. lia.
    + eapply push_plain_mid; [exact M | reflexivity | exact OK | lia].
  - (* room in the current object: it is a chunk *)
    assert (RE : s_re s = false).
    { destruct R as (cks & gtop & F & C & T & _).
      destruct gtop as [| f [| f' gt]], cks as [| [id1 fs] r]; cbn [top_ok] in T; try contradiction.
      - destruct T; congruence.
      - destruct fs as [| f fs]; [contradiction |]. destruct T as (T1 & T2 & T3).
        assert (id1 = id) by congruence. subst id1. cbn [chunks_ok] in C. destruct C as (C1 & _).
        rewrite HS in C1. apply f_equal with (f := fun o => match o with Some x => s_re x | None => true end) in C1. exact C1.
      - destruct T as (g & _ & T2 & _ & _ & T5). assert (g = id) by congruence. subst g.
        rewrite HS in T5. assert (s = gen_obj (SPtr id1) f) by congruence. subst s. rewrite size_gen_obj in Q.
        cbn [s_cap gen_obj] in Q. lia. }
    unfold unchain_reentrant_frame in U. rewrite CUR, HS, RE in U. assert (c1 = c) by congruence. subst c1.
    pose proof M as M'. destruct M' as (F & C & (id1 & fs1 & r1 & E & CUR1) & _). subst cks1.
    assert (id1 = id) by congruence. subst id1.
    cbn [chunks_ok] in C. destruct C as (C1 & C2 & C3 & _).
    assert (s = mkstk STACK_CAPACITY false (link r1 :: slots_of fs1)) by congruence. subst s.
    unfold size in Q. cbn [s_cap s_slots] in Q. rewrite len_cons in Q.
    eapply push_plain_mid; [exact M | reflexivity | exact OK | lia].
Qed.

Lemma push_new_ok : forall c a n1 n2 func n info,
  rep c a -> fresh2 c n1 n2 -> info_ok n info = true -> depth c + (n + 4) <= KOS_MAX_STACK_DEPTH ->
  exists c', kos_stack_push c FNew func n info (Some n1) (Some n2) = Done c' /\
    rep c' (mka (mkframe (Some n2) (empty_body func n) info :: frames a) (saved a)).
Proof.
  intros c a n1 n2 func n info R (H1 & H2 & H3) OK DP.
  unfold kos_stack_push. change (n + KOS_STACK_EXTRA) with (n + 4).
  destruct (KOS_MAX_STACK_DEPTH <? depth c + (n + 4)) eqn:Q; [lia |]. clear Q.
  destruct (cur c) as [id |] eqn:CUR.
  - cbn [bind]. unfold push_new_reentrant_stack.
    destruct (unchain_ok c a n1 id R CUR H1) as (c1 & cks1 & U & M & NE & FR & _).
    rewrite U. cbn [bind].
    assert (HN : hp c1 n2 = None) by (apply FR; [congruence | exact H2]).
    exact (push_new_mid c1 a cks1 n2 func n info M HN OK).
  - destruct (bottom_mid c a n1 R CUR H1) as [F M]. cbn [push_new_stack bind]. unfold push_new_reentrant_stack.
    assert (U : unchain_reentrant_frame (chain_new c n1 STACK_CAPACITY false) (Some n1) = Done (chain_new c n1 STACK_CAPACITY false)).
    { unfold unchain_reentrant_frame, chain_new. rewrite CUR. cbn [cur hp]. rewrite hset_same. reflexivity. }
    rewrite U. cbn [bind].
    assert (HN : hp (chain_new c n1 STACK_CAPACITY false) n2 = None).
    { unfold chain_new. rewrite CUR. cbn [hp]. rewrite hset_other by congruence. exact H2. }
    exact (push_new_mid _ a _ n2 func n info M HN OK).
Qed.

Lemma push_gen_ok : forall c a n1 n2 g f func info,
  rep c a -> fresh2 c n1 n2 -> saved a g = Some f -> is_gen f = true -> info_ok (nregs f) info = true ->
  depth c + (nregs f + 4) <= KOS_MAX_STACK_DEPTH ->
  exists c', kos_stack_push c (FGen g) func (nregs f) info (Some n1) (Some n2) = Done c' /\
    rep c' (mka (mkframe (Some g) (f_body f) info :: frames a) (sset (saved a) g None)).
Proof.
  intros c a n1 n2 g f func info R (H1 & H2 & H3) SG IG OK DP.
  unfold kos_stack_push. change (nregs f + KOS_STACK_EXTRA) with (nregs f + 4).
  destruct (KOS_MAX_STACK_DEPTH <? depth c + (nregs f + 4)) eqn:Q; [lia |]. clear Q.
  assert (K : forall c1 cks1, unchain_reentrant_frame c1 (Some n1) = Done c1 \/ True -> mid c1 a cks1 ->
    forall c0, unchain_reentrant_frame c0 (Some n1) = Done c1 ->
    exists c', bind (chain_stack_frame c0 g (Some n1)) (fun c =>
      match hp c g with
      | None => Bad
      | Some gs => Done (mkctx (hset (hp c) g (mkstk (s_cap gs) (s_re gs) (set_last (s_slots gs) (SInt info)))) (cur c) 4 (depth c))
      end) = Done c' /\ rep c' (mka (mkframe (Some g) (f_body f) info :: frames a) (sset (saved a) g None))).
  { intros c1 cks1 _ M c0 U. unfold chain_stack_frame. rewrite U.
    pose proof M as M'. destruct M' as (_ & _ & (id1 & fs1 & r1 & E & CUR1) & _).
    destruct (push_gen_mid c1 a cks1 g f info id1 M CUR1 SG IG OK) as (gs & HG & gs1 & HG1 & RR).
    rewrite CUR1, HG. cbn [bind hp cur depth]. rewrite HG1.
    eexists. split; [reflexivity | exact RR]. }
  destruct (cur c) as [id |] eqn:CUR.
  - cbn [bind].
    destruct (unchain_ok c a n1 id R CUR H1) as (c1 & cks1 & U & M & _).
    exact (K c1 cks1 (or_intror Logic.I) M c U).
  - destruct (bottom_mid c a n1 R CUR H1) as [F M]. cbn [push_new_stack bind].
    assert (U : unchain_reentrant_frame (chain_new c n1 STACK_CAPACITY false) (Some n1) = Done (chain_new c n1 STACK_CAPACITY false)).
    { unfold unchain_reentrant_frame, chain_new. rewrite CUR. cbn [cur hp]. rewrite hset_same. reflexivity. }
    exact (K _ _ (or_intror Logic.I) M _ U).
Qed.

(* pop *)
Lemma pop_top : forall fuel c a id f fs r, (1 <= fuel)%nat ->
  mid c a ((id, f :: fs) :: r) -> cur c = Some id ->
  exists c', pop_chunks fuel c id = Done c' /\ rep c' a.
Proof.
  intros fuel c a id f fs r FU (F & C & _ & T & ND & SV & D) CUR.
  destruct fuel as [| fuel]; [lia |]. cbn [pop_chunks].
  pose proof C as C'. cbn [chunks_ok] in C'. destruct C' as (C1 & C2 & C3 & C4 & C5). rewrite C1.
  assert (FO : frame_ok f) by (inversion C2; assumption).
  unfold size. cbn [s_slots slots_of s_cap s_re].
  pose proof (slots_nonneg fs) as LN.
  destruct (f_gen f) as [g |] eqn:G.
  - assert (FS : frame_slots f = [SPtr g]) by (unfold frame_slots; rewrite G; reflexivity).
    rewrite FS. rewrite len_cons, len_app, len_cons, len_nil.
    destruct (1 + (len (slots_of fs) + (1 + 0)) =? 1) eqn:Q; [lia |]. clear Q.
    rewrite app_comm_cons, last_last, removelast_last.
    rewrite F in ND. destruct (nodup_id [] id (f :: fs) r ND) as [N1 N2].
    assert (GNE : g <> id) by (apply (N2 f g); [left; reflexivity | exact G]).
    assert (HG : hp c g = Some (gen_obj (SPtr id) f)) by (apply C4; [left; reflexivity | exact G]).
    rewrite hset_other by exact GNE. rewrite HG. eexists. split; [reflexivity |].
    rewrite set_slot0_gen.
    exists ((id, fs) :: r), [f]. unfold rep_with. cbn [hp cur regs_idx depth].
    assert (AF : frames a = [f] ++ all_frames ((id, fs) :: r)) by (rewrite F; reflexivity).
    assert (GN : ~ In g (ids_of ((id, fs) :: r) (all_frames ((id, fs) :: r)))).
    { unfold ids_of in ND. unfold all_frames in ND. cbn [flat_map snd app gen_ids] in ND. rewrite G in ND.
      apply NoDup_remove_2 in ND. exact ND. }
    split; [exact AF |]. split; [| split; [| split; [| split; [| split]]]].
    + apply chunks_frame; [| exact GN].
      apply (set_chunk (hp c) id (f :: fs) r fs C N1).
      * intros f' g' I G'. split; [apply (N2 f' g'); [right; exact I | exact G'] | apply C4; [right; exact I | exact G']].
      * inversion C2; assumption.
      * cbn [slots_of] in C3. rewrite len_app in C3. pose proof (len_nonneg _ (frame_slots f)). lia.
    + cbn [top_ok]. exists g. split; [exact G |]. split; [reflexivity |]. split; [reflexivity |].
      split; [exact FO |]. cbn [hp]. apply hset_same.
    + exact T.
    + rewrite F. exact ND.
    + apply saved_frame; [apply saved_frame; [exact SV |] |].
      * eapply saved_in; [exact SV |]. left. reflexivity.
      * eapply saved_in; [exact SV |]. apply in_or_app. right. eapply gen_ids_in; [| exact G].
        rewrite F. left. reflexivity.
    + rewrite D. rewrite !len_cons. pose proof (len_nonneg _ r). lia.
  - pose proof (len_frame_slots f FO G) as LF.
    rewrite len_cons, len_app, LF. destruct FO as [FO1 FO2].
    destruct (1 + (len (slots_of fs) + (nregs f + 4)) =? 1) eqn:Q; [lia |]. clear Q.
    assert (LAST : last (link r :: slots_of fs ++ frame_slots f) SBad = SInt (f_info f)).
    { unfold frame_slots. rewrite G. rewrite app_assoc, app_comm_cons, last_last. reflexivity. }
    rewrite LAST. eexists. split; [reflexivity |].
    exists ((id, f :: fs) :: r), []. unfold rep_with. cbn [hp cur regs_idx depth].
    split; [exact F |]. split; [exact C |]. split; [| split; [exact T | split; [exact ND | split; [exact SV |]]]].
    + cbn [top_ok regs_idx cur]. split; [exact G |]. split; [reflexivity |].
      cbn [slots_of]. rewrite len_app, LF, FO2. lia.
    + rewrite D. rewrite !len_cons. pose proof (len_nonneg _ r). lia.
Qed.

Lemma mid_drop : forall c a id id1 fs1 r, mid c a ((id, []) :: (id1, fs1) :: r) ->
  mid (mkctx (hp c) (Some id1) (regs_idx c) (depth c - 1)) a ((id1, fs1) :: r).
Proof.
  intros c a id id1 fs1 r (F & C & _ & T & ND & SV & D). unfold mid. cbn [hp cur depth].
  split; [exact F |]. split; [cbn [chunks_ok] in C; cbn [chunks_ok]; tauto |].
  split; [exists id1, fs1, r; split; reflexivity |].
  cbn [tl] in T. split; [inversion T; assumption |].
  unfold ids_of in *. cbn [map fst app] in *. split; [inversion ND; assumption |].
  split; [eapply saved_ids; [exact SV |]; intros x I; right; exact I |].
  rewrite D, !len_cons. lia.
Qed.

Lemma pop_chunks_ok : forall fuel c a cks id, (2 <= fuel)%nat -> mid c a cks -> cur c = Some id ->
  exists c', pop_chunks fuel c id = Done c' /\ rep c' a.
Proof.
  intros fuel c a cks id FU M CUR.
  pose proof M as M'. destruct M' as (F & C & (id1 & fs & r & E & CUR1) & T & ND & SV & D).
  assert (id1 = id) by congruence. subst id1 cks.
  destruct fs as [| f fs].
  - destruct fuel as [| fuel]; [lia |]. cbn [pop_chunks].
    pose proof C as C'. cbn [chunks_ok] in C'. destruct C' as (C1 & C2 & C3 & C4 & C5). rewrite C1.
    unfold size. cbn [s_slots slots_of]. change (len [link r] =? 1) with true. cbn iota.
    destruct r as [| [id1 fs1] r]; cbn [link].
    + eexists. split; [reflexivity |]. exists [], []. unfold rep_with. cbn [hp cur regs_idx depth].
      cbn [all_frames flat_map snd app] in F. rewrite F in *.
      split; [reflexivity |]. split; [exact Logic.I |]. split; [split; reflexivity |].
      split; [constructor |]. split; [constructor |]. split; [| rewrite D; reflexivity].
      eapply saved_ids; [exact SV |]. intros x [].
    + destruct fs1 as [| f1 fs1]; [cbn [tl] in T; inversion T as [| ? ? X _]; exfalso; apply X; reflexivity |].
      eapply pop_top; [lia | apply mid_drop with (1 := M) | reflexivity].
  - eapply pop_top; [lia | exact M | exact CUR].
Qed.

Lemma pop_ok : forall fuel c a f r, (2 <= fuel)%nat -> rep c a -> frames a = f :: r ->
  exists c', kos_stack_pop fuel c = Done c' /\
    rep c' (mka r (match f_gen f with Some g => sset (saved a) g (Some f) | None => saved a end)).
Proof.
  intros fuel c a f r FU (cks & gtop & F & C & T & NE & ND & SV & D) FR.
  rewrite FR in F. unfold kos_stack_pop.
  destruct gtop as [| f0 [| f' gt]], cks as [| [id fs] cr]; cbn [top_ok] in T; try contradiction; [discriminate | |].
  - destruct fs as [| f0 fs]; [contradiction |]. destruct T as (T1 & T2 & T3).
    unfold all_frames in F. cbn [app flat_map snd] in F. injection F as E1 E2. subst f0.
    rewrite T2. pose proof C as C'. cbn [chunks_ok] in C'. destruct C' as (C1 & C2 & C3 & C4 & C5). rewrite C1.
    assert (FO : frame_ok f) by (inversion C2; assumption).
    pose proof (len_frame_slots f FO T1) as LF. pose proof (slots_nonneg fs) as LN. destruct FO as [FO1 FO2].
    cbn [slots_of] in T3. rewrite len_app, LF in T3.
    unfold size. cbn [s_slots slots_of s_re s_cap]. rewrite len_cons, len_app, LF, T3. unfold KOS_STACK_EXTRA.
    destruct (1 <? 1 + (len (slots_of fs) + (nregs f + 4))) eqn:Q; [| lia]. clear Q.
    set (s1 := 1 + (len (slots_of fs) + (nregs f + 4)) - (len (slots_of fs) + (nregs f + 4) - nregs f) - 1 + 4).
    assert (s1 = nregs f + 4) as -> by (unfold s1; lia).
    destruct (1 + (len (slots_of fs) + (nregs f + 4)) <? nregs f + 4) eqn:Q; [lia |]. clear Q.
    replace (1 + (len (slots_of fs) + (nregs f + 4)) - (nregs f + 4)) with (1 + len (slots_of fs)) by lia.
    assert (FN : firstn (Z.to_nat (1 + len (slots_of fs))) (link cr :: slots_of fs ++ frame_slots f) = link cr :: slots_of fs).
    { rewrite app_comm_cons. rewrite firstn_app.
      replace (Z.to_nat (1 + len (slots_of fs))) with (length (link cr :: slots_of fs)) by (unfold len; cbn [length]; lia).
      rewrite firstn_all, Nat.sub_diag, firstn_O, app_nil_r. reflexivity. }
    rewrite FN, T1.
    rewrite FR in *. assert (AF : f :: r = all_frames ((id, f :: fs) :: cr)) by (rewrite E2; reflexivity).
    rewrite AF in ND. destruct (nodup_id [] id (f :: fs) cr ND) as [N1 N2].
    eapply pop_chunks_ok with (cks := (id, fs) :: cr); [exact FU | | reflexivity].
    unfold mid. cbn [hp cur depth frames saved]. split; [rewrite E2; reflexivity |].
    assert (IDE : ids_of ((id, fs) :: cr) r = ids_of ((id, f :: fs) :: cr) (all_frames ((id, f :: fs) :: cr))).
    { unfold ids_of. rewrite <- AF. cbn [gen_ids flat_map]. rewrite T1. reflexivity. }
    split; [| split; [| split; [| split; [| split]]]].
    + apply (set_chunk (hp c) id (f :: fs) cr fs C N1).
      * intros f' g' I G'. split; [apply (N2 f' g'); [right; exact I | exact G'] | apply C4; [right; exact I | exact G']].
      * inversion C2; assumption.
      * cbn [slots_of] in C3. rewrite len_app in C3. pose proof (len_nonneg _ (frame_slots f)). lia.
    + exists id, fs, cr. split; reflexivity.
    + exact NE.
    + rewrite IDE. exact ND.
    + rewrite IDE. rewrite <- AF. apply saved_frame; [exact SV |]. eapply saved_in; [exact SV | left; reflexivity].
    + rewrite D, total_cons. unfold cost. rewrite T1, !len_cons. pose proof (len_nonneg _ cr). lia.
  - destruct T as (g & G & TC & TR & FO & HG). cbn [app] in F. injection F as E1 E2. subst f0.
    rewrite TC, HG, size_gen_obj. destruct FO as [FO1 FO2].
    destruct (1 <? nregs f + 5) eqn:Q; [| lia]. clear Q. cbn [s_re gen_obj s_slots]. rewrite G.
    eapply pop_chunks_ok with (cks := (id, fs) :: cr); [exact FU | | reflexivity].
    rewrite FR in *.
    assert (IDS : ids_of ((id, fs) :: cr) (f :: r) = map fst ((id, fs) :: cr) ++ g :: gen_ids r).
    { unfold ids_of. cbn [gen_ids flat_map]. rewrite G. reflexivity. }
    rewrite IDS in *.
    unfold mid. cbn [hp cur depth frames saved]. split; [exact E2 |].
    split; [exact C |]. split; [exists id, fs, cr; split; reflexivity |]. split; [exact NE |].
    split; [eapply NoDup_remove_1; exact ND |]. split.
    + intros g1 f1 S1. unfold sset in S1. destruct (g1 =? g) eqn:Q.
      * assert (g1 = g) by lia. subst g1. assert (f1 = f) by congruence. subst f1.
        split; [unfold sobj; rewrite G; split; [reflexivity | split; [split; assumption | eexists; exact HG]] |].
        apply NoDup_remove_2 in ND. exact ND.
      * destruct (SV _ _ S1) as (A1 & A4). split; [exact A1 |].
        intro I. apply A4. unfold ids_of in I. rewrite in_app_iff in *. cbn [In]. tauto.
    + rewrite D, total_cons. unfold cost. rewrite G, !len_cons. pose proof (len_nonneg _ cr). lia.
Qed.

(* changing the current frame *)
Lemma upd_app : forall a b i x, upd (a ++ b) (length a + i) x = a ++ upd b i x.
Proof. induction a; intros; cbn; [reflexivity | rewrite IHa; reflexivity]. Qed.

Lemma upd_app_l : forall a b i x, (i < length a)%nat -> upd (a ++ b) i x = upd a i x ++ b.
Proof.
  induction a; intros b i x H; cbn in *; [lia |]. destruct i; [reflexivity |]. rewrite IHa by lia. reflexivity.
Qed.

Lemma len_upd : forall l i x, len (upd l i x) = len l.
Proof.
  induction l; intros; [reflexivity |]. destruct i; cbn [upd]; rewrite !len_cons; [reflexivity | rewrite IHl; reflexivity].
Qed.

Lemma upd_mid : forall a body t k x, 0 <= k < len body ->
  upd (a ++ body ++ t) (Z.to_nat (len a + k)) x = a ++ upd body (Z.to_nat k) x ++ t.
Proof.
  intros a body t k x H. unfold len in *.
  replace (Z.to_nat (Z.of_nat (length a) + k)) with (length a + Z.to_nat k)%nat by lia.
  rewrite upd_app, upd_app_l by lia. reflexivity.
Qed.

Lemma write_ok : forall c a f r k x, rep c a -> frames a = f :: r -> -3 <= k < nregs f ->
  exists c', write_reg c k x = Done c' /\
    rep c' (mka (mkframe (f_gen f) (upd (f_body f) (Z.to_nat (k + 3)) x) (f_info f) :: r) (saved a)).
Proof.
  intros c a f r k x (cks & gtop & F & C & T & NE & ND & SV & D) FR K.
  rewrite FR in *. unfold write_reg.
  set (f1 := mkframe (f_gen f) (upd (f_body f) (Z.to_nat (k + 3)) x) (f_info f)).
  assert (NR : nregs f1 = nregs f) by (unfold nregs, f1; cbn [f_body]; rewrite len_upd; reflexivity).
  assert (FO1 : frame_ok f -> frame_ok f1) by (intro; unfold frame_ok; rewrite NR; assumption).
  assert (GI : forall l, gen_ids (f1 :: l) = gen_ids (f :: l)) by reflexivity.
  assert (TT : total (f1 :: r) = total (f :: r)).
  { rewrite !total_cons. unfold cost. rewrite NR. reflexivity. }
  assert (LB : len (f_body f) = nregs f + 3) by (unfold nregs; lia).
  destruct gtop as [| f0 [| f' gt]], cks as [| [id fs] cr]; cbn [top_ok] in T; try contradiction; [discriminate | |].
  - destruct fs as [| f0 fs]; [contradiction |]. destruct T as (T1 & T2 & T3).
    unfold all_frames in F. cbn [app flat_map snd] in F. injection F as E1 E2. subst f0.
    rewrite T2. pose proof C as C'. cbn [chunks_ok] in C'. destruct C' as (C1 & C2 & C3 & C4 & C5). rewrite C1.
    assert (FO : frame_ok f) by (inversion C2; assumption).
    pose proof (len_frame_slots f FO T1) as LF. pose proof (slots_nonneg fs) as LN.
    pose proof (len_frame_slots f1 (FO1 FO) T1) as LF1.
    cbn [slots_of] in T3. rewrite len_app, LF in T3.
    unfold size. cbn [s_slots slots_of s_re s_cap]. rewrite len_cons, len_app, LF.
    destruct ((0 <=? regs_idx c + k) && (regs_idx c + k <? 1 + (len (slots_of fs) + (nregs f + 4)))) eqn:Q; [| lia]. clear Q.
    eexists. split; [reflexivity |].
    assert (AF : f :: r = all_frames ((id, f :: fs) :: cr)) by (rewrite E2; reflexivity).
    pose proof ND as ND'. rewrite AF in ND'. destruct (nodup_id [] id (f :: fs) cr ND') as [N1 N2].
    assert (UP : upd (link cr :: slots_of fs ++ frame_slots f) (Z.to_nat (regs_idx c + k)) x = link cr :: slots_of (f1 :: fs)).
    { cbn [slots_of]. unfold frame_slots. cbn [f1 f_gen f_body f_info]. unfold f1. cbn [f_gen f_body f_info]. rewrite T1.
      rewrite T3. change (link cr :: slots_of fs ++ f_body f ++ [SInt (f_info f)])
        with ((link cr :: slots_of fs) ++ f_body f ++ [SInt (f_info f)]).
      replace (len (slots_of fs) + (nregs f + 4) - nregs f + k) with (len (link cr :: slots_of fs) + (k + 3))
        by (rewrite len_cons; lia).
      rewrite upd_mid by lia. reflexivity. }
    rewrite UP.
    exists ((id, f1 :: fs) :: cr), []. unfold rep_with. cbn [frames saved hp cur regs_idx depth].
    split; [rewrite E2; reflexivity |]. split; [| split; [| split; [| split; [| split]]]].
    + apply (set_chunk (hp c) id (f :: fs) cr (f1 :: fs) C N1).
      * intros f' g' [<- | I] G'; [cbn in G'; congruence |].
        split; [apply (N2 f' g'); [right; exact I | exact G'] | apply C4; [right; exact I | exact G']].
      * inversion C2; subst. constructor; [apply FO1; assumption | assumption].
      * cbn [slots_of] in *. rewrite len_app in *. lia.
    + cbn [top_ok regs_idx cur]. split; [exact T1 |]. split; [reflexivity |].
      cbn [slots_of]. rewrite len_app, LF1, NR, T3. lia.
    + exact NE.
    + exact ND.
    + apply (saved_frame _ _ (ids_of ((id, f :: fs) :: cr) (f :: r))); [exact SV |].
      eapply saved_in; [exact SV | left; reflexivity].
    + rewrite TT. exact D.
  - destruct T as (g & G & TC & TR & FO & HG). cbn [app] in F. injection F as E1 E2. subst f0.
    rewrite TC, HG, size_gen_obj, TR.
    destruct ((0 <=? 4 + k) && (4 + k <? nregs f + 5)) eqn:Q; [| lia]. clear Q.
    eexists. split; [reflexivity |]. cbn [gen_obj s_cap s_re s_slots].
    assert (UP : upd (SPtr id :: f_body f ++ [SInt (f_info f)]) (Z.to_nat (4 + k)) x =
                 SPtr id :: f_body f1 ++ [SInt (f_info f1)]).
    { change (SPtr id :: f_body f ++ [SInt (f_info f)]) with ([SPtr id] ++ f_body f ++ [SInt (f_info f)]).
      replace (4 + k) with (len [SPtr id] + (k + 3)) by (rewrite len_cons, len_nil; lia).
      rewrite upd_mid by lia. reflexivity. }
    rewrite UP.
    assert (IN : In g (ids_of ((id, fs) :: cr) (f :: r))).
    { apply in_or_app. right. eapply gen_ids_in; [left; reflexivity | exact G]. }
    assert (GN : ~ In g (ids_of ((id, fs) :: cr) (all_frames ((id, fs) :: cr)))).
    { unfold ids_of in *. cbn [gen_ids flat_map] in ND. rewrite G in ND. rewrite E2 in ND. apply NoDup_remove_2 in ND. exact ND. }
    exists ((id, fs) :: cr), [f1]. unfold rep_with. cbn [frames saved hp cur regs_idx depth].
    split; [rewrite E2; reflexivity |]. split; [| split; [| split; [| split; [| split]]]].
    + apply chunks_frame; assumption.
    + cbn [top_ok]. exists g. split; [exact G |]. split; [reflexivity |]. split; [reflexivity |].
      split; [apply FO1, FO |]. cbn [hp]. rewrite hset_same. unfold gen_obj. rewrite NR. reflexivity.
    + exact NE.
    + exact ND.
    + apply (saved_frame _ _ (ids_of ((id, fs) :: cr) (f :: r))); [exact SV |]. eapply saved_in; [exact SV | exact IN].
    + rewrite TT. exact D.
Qed.

(* leaving a closure or a generator *)
Lemma return_ok : forall fuel c a f r g m, (2 <= fuel)%nat -> rep c a -> frames a = f :: r -> f_gen f = Some g ->
  0 <= m <= nregs f ->
  exists c', bind (set_closure_stack_size c m) (kos_stack_pop fuel) = Done c' /\
    rep c' (mka r (sset (saved a) g (Some (mkframe None (firstn (Z.to_nat (m + 3)) (f_body f)) (f_info f / 256 * 256 + m))))).
Proof.
  intros fuel c a f r g m FU (cks & gtop & F & C & T & NE & ND & SV & D) FR G M.
  rewrite FR in *. unfold set_closure_stack_size.
  destruct gtop as [| f0 [| f' gt]], cks as [| [id fs] cr]; cbn [top_ok] in T; try contradiction; [discriminate | |].
  - destruct fs as [| f0 fs]; [contradiction |]. destruct T as (T1 & _).
    unfold all_frames in F. cbn [app flat_map snd] in F. injection F as E1 E2. subst f0. congruence.
  - destruct T as (g' & G' & TC & TR & FO & HG). cbn [app] in F. injection F as E1 E2. subst f0.
    assert (g' = g) by congruence. subst g'. clear G'.
    rewrite TC, HG, size_gen_obj. cbn [s_re gen_obj s_slots s_cap]. unfold KOS_STACK_EXTRA.
    destruct (nregs f + 5 <? m + 1 + 4) eqn:Q; [lia |]. clear Q.
    rewrite app_comm_cons, last_last.
    assert (LB : len (f_body f) = nregs f + 3) by (unfold nregs; lia).
    assert (FN : firstn (Z.to_nat (m + 1 + 4 - 1)) ((SPtr id :: f_body f) ++ [SInt (f_info f)]) =
                 SPtr id :: firstn (Z.to_nat (m + 3)) (f_body f)).
    { replace (Z.to_nat (m + 1 + 4 - 1)) with (Datatypes.S (Z.to_nat (m + 3))) by lia.
      cbn [app firstn]. rewrite firstn_app.
      replace (Z.to_nat (m + 3) - length (f_body f))%nat with 0%nat by (unfold len in LB; lia).
      rewrite firstn_O, app_nil_r. reflexivity. }
    rewrite FN. cbn [bind]. unfold kos_stack_pop. cbn [cur hp]. rewrite hset_same.
    set (f1 := mkframe None (firstn (Z.to_nat (m + 3)) (f_body f)) (f_info f / 256 * 256 + m)).
    set (l := firstn (Z.to_nat (m + 3)) (f_body f)) in *.
    assert (LL : len l = m + 3) by (unfold l; rewrite len_firstn by lia; lia).
    unfold size. cbn [s_slots s_re depth regs_idx app]. rewrite len_cons, len_app, LL, len_cons, len_nil.
    destruct (1 <? 1 + (m + 3 + (1 + 0))) eqn:Q; [| lia]. clear Q.
    eapply pop_chunks_ok with (cks := (id, fs) :: cr); [exact FU | | reflexivity].
    assert (IDS : ids_of ((id, fs) :: cr) (f :: r) = map fst ((id, fs) :: cr) ++ g :: gen_ids r).
    { unfold ids_of. cbn [gen_ids flat_map]. rewrite G. reflexivity. }
    rewrite IDS in *.
    assert (GN : ~ In g (ids_of ((id, fs) :: cr) r)) by (apply NoDup_remove_2 in ND; exact ND).
    unfold mid. cbn [hp cur depth frames saved]. split; [exact E2 |].
    split; [apply chunks_frame; [exact C | rewrite E2 in GN; exact GN] |].
    split; [exists id, fs, cr; split; reflexivity |]. split; [exact NE |].
    split; [eapply NoDup_remove_1; exact ND |]. split.
    + intros g1 h1 S1. unfold sset in S1. destruct (g1 =? g) eqn:Q.
      * assert (g1 = g) by lia. subst g1. assert (h1 = f1) by congruence. subst h1.
        split; [| exact GN]. unfold sobj. unfold f1. cbn [f_gen]. split.
        -- unfold nregs. cbn [f_body]. lia.
        -- eexists _, _. rewrite hset_same. reflexivity.
      * destruct (SV _ _ S1) as (A1 & A4). split.
        -- eapply sobj_eq; [| exact A1]. apply hset_other. lia.
        -- intro I. apply A4. unfold ids_of in I. rewrite in_app_iff in *. cbn [In]. tauto.
    + rewrite D, total_cons. unfold cost. rewrite G, !len_cons. pose proof (len_nonneg _ cr). lia.
Qed.

(* variables of outer functions *)
Lemma var_pos_ok : forall f k, var_ok f k = true -> 0 <= nregs f -> 3 <= var_pos f k < nregs f + 3.
Proof. intros f k H N. unfold var_ok in H. unfold var_pos. destruct (k <? 0) eqn:Q; lia. Qed.

Lemma slot_index : forall s0 f k, var_ok f k = true -> 0 <= nregs f ->
  (if k <? 0 then k + len (s0 :: f_body f ++ [SInt (f_info f)]) - 1 else k + KOS_STACK_EXTRA) = 1 + var_pos f k.
Proof.
  intros s0 f k H N. rewrite len_cons, len_app, len_cons, len_nil. unfold var_pos, KOS_STACK_EXTRA, nregs.
  destruct (k <? 0); lia.
Qed.

Lemma upd_obj : forall (s0 : slot) f k x, var_ok f k = true -> 0 <= nregs f ->
  upd (s0 :: f_body f ++ [SInt (f_info f)]) (Z.to_nat (1 + var_pos f k)) x =
  s0 :: f_body (set_var f k x) ++ [SInt (f_info (set_var f k x))].
Proof.
  intros s0 f k x H N. pose proof (var_pos_ok f k H N).
  change (s0 :: f_body f ++ [SInt (f_info f)]) with ([s0] ++ f_body f ++ [SInt (f_info f)]).
  replace (1 + var_pos f k) with (len [s0] + var_pos f k) by (rewrite len_cons, len_nil; lia).
  rewrite upd_mid by (unfold nregs in *; lia). reflexivity.
Qed.

Lemma write_stack_obj : forall c g cap s0 f k x, hp c g = Some (mkstk cap true (s0 :: f_body f ++ [SInt (f_info f)])) ->
  var_ok f k = true -> 0 <= nregs f ->
  write_stack c g k x =
  Done (mkctx (hset (hp c) g (mkstk cap true (s0 :: f_body (set_var f k x) ++ [SInt (f_info (set_var f k x))])))
              (cur c) (regs_idx c) (depth c)).
Proof.
  intros c g cap s0 f k x H V N. unfold write_stack. rewrite H. unfold size. cbn [s_slots s_cap s_re].
  rewrite slot_index by assumption. pose proof (var_pos_ok f k V N).
  rewrite len_cons, len_app, len_cons, len_nil.
  destruct ((0 <=? 1 + var_pos f k) && (1 + var_pos f k <? 1 + (len (f_body f) + (1 + 0)))) eqn:Q.
  - rewrite upd_obj by assumption. reflexivity.
  - unfold nregs in *. lia.
Qed.

Lemma nregs_set_var : forall f k x, nregs (set_var f k x) = nregs f.
Proof. intros. unfold nregs, set_var. cbn [f_body]. rewrite len_upd. reflexivity. Qed.

Section WriteVar.
Variables (g k : Z) (x : slot).

Definition wv (f : frame) : frame := if has_id g f then set_var f k x else f.

Lemma wv_gen : forall f, f_gen (wv f) = f_gen f.
Proof. intros. unfold wv. destruct (has_id g f); reflexivity. Qed.

Lemma wv_nregs : forall f, nregs (wv f) = nregs f.
Proof. intros. unfold wv. destruct (has_id g f); [apply nregs_set_var | reflexivity]. Qed.

Lemma wv_info : forall f, f_info (wv f) = f_info f.
Proof. intros. unfold wv. destruct (has_id g f); reflexivity. Qed.

Lemma wv_ok : forall f, frame_ok f -> frame_ok (wv f).
Proof. intros f H. unfold frame_ok. rewrite wv_nregs, wv_info. exact H. Qed.

Lemma wv_slots : forall f, frame_slots (wv f) = frame_slots f.
Proof.
  intros f. unfold frame_slots. rewrite wv_gen, wv_info. destruct (f_gen f) eqn:G; [reflexivity |].
  unfold wv, has_id. rewrite G. reflexivity.
Qed.

Lemma wv_slots_of : forall fs, slots_of (map wv fs) = slots_of fs.
Proof. induction fs; [reflexivity |]. cbn [map slots_of]. rewrite IHfs, wv_slots. reflexivity. Qed.

Lemma wv_gen_ids : forall fs, gen_ids (map wv fs) = gen_ids fs.
Proof. induction fs; [reflexivity |]. cbn [map gen_ids flat_map]. rewrite wv_gen. unfold gen_ids in IHfs. rewrite IHfs. reflexivity. Qed.

Lemma wv_total : forall fs, total (map wv fs) = total fs.
Proof. induction fs; [reflexivity |]. cbn [map]. rewrite !total_cons, IHfs. unfold cost. rewrite wv_nregs, wv_gen. reflexivity. Qed.

Definition wvc (p : Z * list frame) : Z * list frame := (fst p, map wv (snd p)).

Lemma wv_link : forall r, link (map wvc r) = link r.
Proof. destruct r as [| [id fs] r]; reflexivity. Qed.

Lemma wv_all : forall cks, all_frames (map wvc cks) = map wv (all_frames cks).
Proof.
  induction cks as [| [id fs] r IH]; [reflexivity |]. unfold all_frames in *. cbn [map flat_map snd wvc fst].
  rewrite IH, map_app. reflexivity.
Qed.

Lemma wv_ids : forall cks fs, ids_of (map wvc cks) (map wv fs) = ids_of cks fs.
Proof.
  intros. unfold ids_of. rewrite wv_gen_ids, map_map. f_equal.
Qed.

(* the object of [g] changed as described *)
Lemma wv_chunks : forall h s cks, chunks_ok h cks -> ~ In g (map fst cks) ->
  (forall id f, h g = Some (gen_obj (SPtr id) f) -> f_gen f = Some g -> In f (all_frames cks) -> s = gen_obj (SPtr id) (wv f)) ->
  chunks_ok (hset h g s) (map wvc cks).
Proof.
  intros h s cks. induction cks as [| [id fs] r IH]; intros C N U; [exact Logic.I |].
  cbn [chunks_ok map wvc fst snd] in *. destruct C as (C1 & C2 & C3 & C4 & C5).
  cbn [map fst In] in N.
  rewrite hset_other by (intro; subst; tauto). rewrite wv_link, wv_slots_of.
  split; [exact C1 |]. split; [| split; [exact C3 |]; split].
  - apply Forall_map. eapply Forall_impl; [| exact C2]. intros f. apply wv_ok.
  - intros f' g' I G'. apply in_map_iff in I. destruct I as (f & <- & I). rewrite wv_gen in G'.
    pose proof (C4 f g' I G') as HG. unfold hset. destruct (g' =? g) eqn:Q.
    + assert (g' = g) by lia. subst g'. rewrite (U id f HG G').
      * reflexivity.
      * unfold all_frames. cbn [flat_map snd]. apply in_or_app. left. exact I.
    + rewrite HG. unfold wv, has_id. rewrite G', Q. reflexivity.
  - apply IH; [exact C5 | tauto |]. intros id' f A B I. apply (U id' f A B).
    unfold all_frames. cbn [flat_map snd]. apply in_or_app. right. exact I.
Qed.
End WriteVar.

Lemma find_has_id : forall g fs f, find (has_id g) fs = Some f -> In f fs /\ f_gen f = Some g.
Proof.
  intros g fs f H. apply find_some in H. destruct H as [I E]. split; [exact I |].
  unfold has_id in E. destruct (f_gen f); [| discriminate]. f_equal. lia.
Qed.

Lemma chunk_of : forall h cks f g, chunks_ok h cks -> In f (all_frames cks) -> f_gen f = Some g ->
  exists id, h g = Some (gen_obj (SPtr id) f) /\ frame_ok f.
Proof.
  induction cks as [| [id fs] r IH]; intros f g C I G; [destruct I |].
  unfold all_frames in I. cbn [flat_map snd] in I. cbn [chunks_ok] in C. destruct C as (C1 & C2 & C3 & C4 & C5).
  apply in_app_or in I. destruct I as [I | I].
  - exists id. split; [apply C4; assumption |]. rewrite Forall_forall in C2. apply C2, I.
  - apply (IH f g C5 I G).
Qed.

Lemma rep_obj : forall c a cks gtop f g, rep_with c a cks gtop -> In f (frames a) -> f_gen f = Some g ->
  exists id, hp c g = Some (gen_obj (SPtr id) f) /\ frame_ok f.
Proof.
  intros c a cks gtop f g (F & C & T & _) I G. rewrite F in I. apply in_app_or in I. destruct I as [I | I].
  - destruct gtop as [| f0 [| f' gt]], cks as [| [id fs] cr]; cbn [top_ok] in T; try contradiction.
    destruct T as (g' & G' & TC & TR & FO & HG). destruct I as [-> | []].
    assert (g' = g) by congruence. subst g'. exists id. split; assumption.
  - eapply chunk_of; eassumption.
Qed.

Lemma gen_obj_inj : forall s1 s2 f1 f2, gen_obj s1 f1 = gen_obj s2 f2 -> s1 = s2 /\ f_body f1 = f_body f2 /\ f_info f1 = f_info f2.
Proof.
  intros s1 s2 f1 f2 E. unfold gen_obj in E. injection E as E1 E2 E3.
  apply app_inj_tail in E3. destruct E3 as [E3 E4]. split; [exact E2 |]. split; [exact E3 |]. congruence.
Qed.

Lemma write_var_ok : forall c a o g k x n a', rep c a -> o = OWriteVar g k x -> astep a o n = Some a' ->
  exists c', write_stack c g k x = Done c' /\ rep c' a'.
Proof.
  intros c a o g k x n a' R -> ST. cbn [astep] in ST.
  destruct R as (cks & gtop & R).
  destruct (find (has_id g) (frames a)) as [f |] eqn:FD.
  - destruct (var_ok f k) eqn:V; [| discriminate].
    apply (f_equal (fun o => match o with Some x => x | None => a' end)) in ST. subst a'.
    apply find_has_id in FD. destruct FD as [I G].
    destruct (rep_obj c a cks gtop f g R I G) as (id & HG & FO).
    destruct R as (F & C & T & NE & ND & SV & D).
    rewrite (write_stack_obj c g _ _ f k x HG V) by apply FO. eexists. split; [reflexivity |].
    change (fun f : frame => if has_id g f then set_var f k x else f) with (wv g k x).
    set (s := mkstk _ _ _).
    assert (SE : s = gen_obj (SPtr id) (wv g k x f)).
    { unfold s, gen_obj. rewrite wv_nregs. unfold wv. unfold has_id. rewrite G, Z.eqb_refl. reflexivity. }
    assert (GI : In g (gen_ids (frames a))) by (eapply gen_ids_in; eassumption).
    assert (GN : ~ In g (map fst cks)).
    { intro I'. unfold ids_of in ND. apply in_split in I'. destruct I' as (l1 & l2 & E). rewrite E in ND.
      rewrite <- app_assoc in ND. cbn [app] in ND. apply NoDup_remove_2 in ND. apply ND. rewrite !in_app_iff. tauto. }
    assert (U : forall id' f', hp c g = Some (gen_obj (SPtr id') f') -> f_gen f' = Some g -> s = gen_obj (SPtr id') (wv g k x f')).
    { intros id' f' HG' G'. rewrite HG in HG'. assert (EQ : gen_obj (SPtr id) f = gen_obj (SPtr id') f') by congruence.
      apply gen_obj_inj in EQ. destruct EQ as (E1 & E2 & E3). rewrite SE.
      assert (f' = f) by (destruct f, f'; cbn in *; congruence). subst f'. congruence. }
    exists (map (wvc g k x) cks), (map (wv g k x) gtop). unfold rep_with. cbn [frames saved hp cur depth].
    split; [rewrite F, map_app, wv_all; reflexivity |]. split; [| split; [| split; [| split; [| split]]]].
    + apply wv_chunks; [exact C | exact GN |]. intros id' f' A B _. apply U; assumption.
    + destruct gtop as [| f0 [| f' gt]], cks as [| [id' fs] cr]; cbn [top_ok map wvc fst snd] in *; try contradiction; try exact T.
      * destruct fs as [| f0 fs]; [contradiction |]. cbn [map]. destruct T as (T1 & T2 & T3).
        rewrite wv_gen, wv_nregs. cbn [cur regs_idx]. split; [exact T1 |]. split; [exact T2 |].
        change (wv g k x f0 :: map (wv g k x) fs) with (map (wv g k x) (f0 :: fs)). rewrite wv_slots_of. exact T3.
      * destruct T as (g' & G' & TC & TR & FO' & HG'). exists g'. rewrite wv_gen. split; [exact G' |].
        split; [exact TC |]. split; [exact TR |]. split; [apply wv_ok, FO' |]. cbn [hp].
        unfold hset. destruct (g' =? g) eqn:Q.
        -- assert (g' = g) by lia. subst g'. f_equal. apply U; assumption.
        -- rewrite HG'. unfold wv, has_id. rewrite G', Q. reflexivity.
    + rewrite <- (map_id (tl cks)) in NE.
      destruct cks as [| p r]; [constructor |]. cbn [map tl] in *. rewrite map_id in NE. apply Forall_map.
      eapply Forall_impl; [| exact NE]. intros [i l] NN. unfold nonempty in *. cbn in *. intro E. apply NN.
      destruct l; [reflexivity | discriminate].
    + rewrite wv_ids. exact ND.
    + rewrite wv_ids. apply saved_frame; [exact SV |]. eapply saved_in; [exact SV |]. apply in_or_app. right. exact GI.
    + rewrite wv_total. rewrite D. unfold len. rewrite map_length. reflexivity.
  - destruct (saved a g) as [f |] eqn:SG; [| discriminate].
    destruct (var_ok f k) eqn:V; [| discriminate].
    apply (f_equal (fun o => match o with Some x => x | None => a' end)) in ST. subst a'.
    destruct R as (F & C & T & NE & ND & SV & D).
    destruct (SV _ _ SG) as (SO & NI).
    assert (K : exists cap s0, hp c g = Some (mkstk cap true (s0 :: f_body f ++ [SInt (f_info f)])) /\ 0 <= nregs f /\
      (f_gen f <> None -> cap = nregs f + 5 /\ frame_ok f)).
    { unfold sobj in SO. destruct (f_gen f).
      - destruct SO as (_ & FO & s0 & E). exists (nregs f + 5), s0. split; [exact E |]. split; [apply FO |]. auto.
      - destruct SO as (N & cap & s0 & E). exists cap, s0. split; [exact E |]. split; [exact N |]. congruence. }
    destruct K as (cap & s0 & HG & N & KF).
    rewrite (write_stack_obj c g _ _ f k x HG V N). eexists. split; [reflexivity |].
    exists cks, gtop. unfold rep_with. cbn [frames saved hp cur depth].
    split; [exact F |]. split; [| split; [| split; [exact NE |]; split; [exact ND |]; split; [| exact D]]].
    + apply chunks_frame; [exact C |]. intro I. apply NI. unfold ids_of in *. rewrite F.
      rewrite gen_ids_app, !in_app_iff in *. tauto.
    + destruct gtop as [| f0 [| f' gt]], cks as [| [id' fs] cr]; cbn [top_ok] in *; try contradiction; try exact T.
      destruct T as (g' & G' & TC & TR & FO' & HG'). exists g'. split; [exact G' |].
      split; [exact TC |]. split; [exact TR |]. split; [exact FO' |]. cbn [hp]. rewrite hset_other; [exact HG' |].
      intros ->. apply NI. unfold ids_of. apply in_or_app. right. rewrite F.
      eapply gen_ids_in; [left; reflexivity | exact G'].
    + intros g1 f1 S1. unfold sset in S1. destruct (g1 =? g) eqn:Q.
      * assert (g1 = g) by lia. subst g1. assert (f1 = set_var f k x) by congruence. subst f1.
        split; [| exact NI]. unfold sobj in *. cbn [f_gen set_var]. rewrite hset_same.
        change (f_gen (set_var f k x)) with (f_gen f).
        destruct (f_gen f) eqn:G.
        -- destruct SO as (E & FO & s1 & E1). destruct KF as [-> _]; [discriminate |].
           split; [exact E |]. split; [unfold frame_ok; rewrite nregs_set_var; exact FO |].
           exists s0. unfold gen_obj. rewrite nregs_set_var. reflexivity.
        -- split; [rewrite nregs_set_var; exact N |]. exists cap, s0. reflexivity.
      * destruct (SV _ _ S1) as (A1 & A4). split; [| exact A4].
        eapply sobj_eq; [| exact A1]. apply hset_other. lia.
Qed.

(* all operations *)
Lemma step_ok : forall c a o n1 n2 fuel a', rep c a -> fresh2 c n1 n2 -> (2 <= fuel)%nat ->
  astep a o n2 = Some a' ->
  (exists c', run_op fuel c o (Some n1) (Some n2) = Done c' /\ rep c' a') \/
  (run_op fuel c o (Some n1) (Some n2) = Fail c /\
   exists room, op_room o = Some room /\ KOS_MAX_STACK_DEPTH < depth c + room).
Proof.
  intros c a o n1 n2 fuel a' R FR FU ST.
  destruct o as [func n info | func n info | g info | | m | g k x | k x]; cbn [astep run_op op_room] in *.
  - destruct (info_ok n info) eqn:OK; [| discriminate]. apply (f_equal (fun o => match o with Some x => x | None => a' end)) in ST. subst a'.
    destruct (KOS_MAX_STACK_DEPTH <? depth c + (n + 4)) eqn:Q.
    + right. split; [| exists (n + 4); split; [reflexivity | lia]].
      unfold kos_stack_push. change (n + KOS_STACK_EXTRA) with (n + 4). rewrite Q. reflexivity.
    + left. apply push_plain_ok; try assumption. lia.
  - destruct (info_ok n info) eqn:OK; [| discriminate]. apply (f_equal (fun o => match o with Some x => x | None => a' end)) in ST. subst a'.
    destruct (KOS_MAX_STACK_DEPTH <? depth c + (n + 4)) eqn:Q.
    + right. split; [| exists (n + 4); split; [reflexivity | lia]].
      unfold kos_stack_push. change (n + KOS_STACK_EXTRA) with (n + 4). rewrite Q. reflexivity.
    + left. apply push_new_ok; try assumption. lia.
  - destruct (saved a g) as [f |] eqn:SG; [| discriminate].
    destruct (is_gen f && info_ok (nregs f) info) eqn:OK; [| discriminate].
    apply andb_prop in OK. destruct OK as [IG OK]. apply (f_equal (fun o => match o with Some x => x | None => a' end)) in ST. subst a'.
    assert (IM : info mod 256 = nregs f) by (unfold info_ok in OK; lia). rewrite IM.
    destruct (KOS_MAX_STACK_DEPTH <? depth c + (nregs f + 4)) eqn:Q.
    + right. split; [| exists (nregs f + 4); split; [reflexivity | lia]].
      unfold kos_stack_push. change (nregs f + KOS_STACK_EXTRA) with (nregs f + 4). rewrite Q. reflexivity.
    + left. apply push_gen_ok; try assumption. lia.
  - left. destruct (frames a) as [| f r] eqn:F; [discriminate |]. apply (f_equal (fun o => match o with Some x => x | None => a' end)) in ST. subst a'.
    eapply pop_ok; eassumption.
  - left. destruct (frames a) as [| f r] eqn:F; [discriminate |].
    destruct (f_gen f) as [g |] eqn:G; [| discriminate].
    destruct ((0 <=? m) && (m <=? nregs f)) eqn:Q; [| discriminate].
    apply (f_equal (fun o => match o with Some x => x | None => a' end)) in ST. subst a'. eapply return_ok; try eassumption. lia.
  - left. eapply write_var_ok with (n := n2); [exact R | reflexivity | exact ST].
  - left. destruct (frames a) as [| f r] eqn:F; [discriminate |].
    destruct ((-3 <=? k) && (k <? nregs f)) eqn:Q; [| discriminate].
    apply (f_equal (fun o => match o with Some x => x | None => a' end)) in ST. subst a'. eapply write_ok; try eassumption. lia.
Qed.

Lemma rep_init : rep (mkctx (fun _ => None) None 0 0) (mka [] (fun _ => None)).
Proof.
  exists [], []. unfold rep_with. cbn [frames saved hp cur depth all_frames flat_map app chunks_ok top_ok tl].
  split; [reflexivity |]. split; [exact Logic.I |]. split; [split; reflexivity |]. split; [constructor |].
  split; [constructor |]. split; [| reflexivity]. intros g f E. discriminate.
Qed.

(* rejected calls *)
Lemma top_plain : forall c a id s, rep c a -> (forall f r, frames a = f :: r -> f_gen f = None) ->
  cur c = Some id -> hp c id = Some s -> s_re s = false.
Proof.
  intros c a id s (cks & gtop & F & C & T & _) P CUR HS.
  destruct gtop as [| f [| f' gt]], cks as [| [id1 fs] r]; cbn [top_ok] in T; try contradiction.
  - destruct T; congruence.
  - destruct fs as [| f fs]; [contradiction |]. destruct T as (T1 & T2 & T3).
    assert (id1 = id) by congruence. subst id1. cbn [chunks_ok] in C. destruct C as (C1 & _).
    rewrite HS in C1. apply f_equal with (f := fun o => match o with Some x => s_re x | None => true end) in C1. exact C1.
  - destruct T as (g & G & _). cbn [app] in F. specialize (P _ _ F). congruence.
Qed.

Lemma same_refl : forall c, same_place c c = true.
Proof. intros c. unfold same_place. rewrite Z.eqb_refl. destruct (cur c); [rewrite Z.eqb_refl |]; reflexivity. Qed.

Lemma unchain_fail : forall c a c1, unchain_reentrant_frame c a = Fail c1 -> c1 = c.
Proof.
  intros c a c1 H. unfold unchain_reentrant_frame in H.
  destruct (cur c); [| discriminate]. destruct (hp c z); [| discriminate]. destruct (s_re s); [| discriminate].
  destruct (s_slots s) as [| [| old | |] ?]; try discriminate. destruct (hp c old) as [os |]; [| discriminate].
  destruct (s_re os); [discriminate |]. destruct (size os =? s_cap os); [| discriminate].
  destruct a as [n |]; [| congruence].
  destruct (hset _ _ _ n); discriminate.
Qed.

Lemma write_frame_nofail : forall c f n i c1, write_frame c f n i <> Fail c1.
Proof.
  intros c f n i c1. unfold write_frame. destruct (cur c); [| discriminate]. destruct (hp c z); [| discriminate].
  destruct (_ <? _); discriminate.
Qed.

Lemma pop_chunks_depth : forall fuel c id c', pop_chunks fuel c id = Done c' -> depth c' <= depth c.
Proof.
  induction fuel as [| fuel IH]; intros c id c' H; [discriminate |]. cbn [pop_chunks] in H.
  destruct (hp c id) as [s |]; [| discriminate].
  destruct (size s =? 1).
  - destruct (s_slots s) as [| [| prev | |] ?]; try discriminate.
    + assert (c' = mkctx (hp c) None 0 (depth c)) by congruence. subst c'. cbn [depth]. lia.
    + apply IH in H. cbn [depth] in H. lia.
  - destruct (last (s_slots s) SBad) as [| g | info |]; try discriminate.
    + destruct (hset _ _ _ g) in H; [| discriminate].
      apply (f_equal (fun r => match r with Done x => depth x | _ => 0 end)) in H. cbn [depth] in H. lia.
    + apply (f_equal (fun r => match r with Done x => depth x | _ => 0 end)) in H. cbn [depth] in H. lia.
Qed.

Lemma bottom_cleanup : forall fuel c a n, (2 <= fuel)%nat -> rep c a -> cur c = None -> hp c n = None ->
  exists c', call_cleanup fuel c (chain_new c n STACK_CAPACITY false) = Done c' /\ rep c' a /\ depth c' <= depth c.
Proof.
  intros fuel c a n FU R CUR H. destruct (bottom_mid c a n R CUR H) as [F M].
  unfold call_cleanup. unfold same_place at 1. rewrite CUR.
  assert (CC : cur (chain_new c n STACK_CAPACITY false) = Some n) by (unfold chain_new; rewrite CUR; reflexivity).
  rewrite CC. cbn [andb]. unfold kos_stack_pop. rewrite CC.
  assert (CH : hp (chain_new c n STACK_CAPACITY false) n = Some (mkstk STACK_CAPACITY false [SBad])).
  { unfold chain_new. rewrite CUR. cbn [hp]. apply hset_same. }
  rewrite CH. change (1 <? size (mkstk STACK_CAPACITY false [SBad])) with false. cbn iota.
  destruct (pop_chunks_ok fuel _ a _ n FU M CC) as (c' & E & R').
  exists c'. split; [exact E |]. split; [exact R' |]. apply pop_chunks_depth in E.
  unfold chain_new in E. rewrite CUR in E. exact E.
Qed.

Lemma chain_new_unchain : forall c n a, cur c = None ->
  unchain_reentrant_frame (chain_new c n STACK_CAPACITY false) a = Done (chain_new c n STACK_CAPACITY false).
Proof.
  intros c n a CUR. unfold unchain_reentrant_frame, chain_new. rewrite CUR. cbn [cur hp]. rewrite hset_same. reflexivity.
Qed.

Lemma fail_ok : forall c a o a1 a2 fuel c1 n a', rep c a -> new_ids c a1 a2 -> (2 <= fuel)%nat ->
  astep a o n = Some a' -> oom_safe a o a1 a2 -> run_op fuel c o a1 a2 = Fail c1 ->
  exists c', call_cleanup fuel c c1 = Done c' /\ rep c' a /\ depth c' <= depth c.
Proof.
  intros c a o a1 a2 fuel c1 n0 a' R (N1 & N2 & N3) FU ST SAFE RN.
  assert (UNCH : c1 = c -> exists c', call_cleanup fuel c c1 = Done c' /\ rep c' a /\ depth c' <= depth c).
  { intros ->. exists c. unfold call_cleanup. rewrite same_refl. split; [reflexivity | split; [exact R | lia]]. }
  destruct o as [func n info | func n info | g info | | m | g k x | k x]; cbn [run_op] in RN.
  - unfold kos_stack_push in RN. destruct (_ <? _) in RN; [apply UNCH; congruence |].
    destruct (cur c) as [id |] eqn:CUR.
    2:{ destruct a1 as [n1 |]; cbn [push_new_stack bind] in RN; [| apply UNCH; congruence].
        exfalso. exact (write_frame_nofail _ _ _ _ _ RN). }
    destruct (hp c id) as [s |] eqn:HS; [| discriminate].
    destruct (_ <? _) in RN; [| exfalso; exact (write_frame_nofail _ _ _ _ _ RN)].
    destruct SAFE as [[S1 S2] | P].
    + destruct a1 as [n1 |]; [| congruence]. destruct a2 as [n2 |]; [| congruence].
      destruct (unchain_reentrant_frame c (Some n1)) as [c2 | c2 |] eqn:U; cbn [bind] in RN; [| | discriminate].
      * destruct (cur c2); [| discriminate]. destruct (hp c2 z); [| discriminate].
        destruct (_ <? _) in RN; cbn [push_new_stack bind] in RN; exfalso; exact (write_frame_nofail _ _ _ _ _ RN).
      * apply UNCH. apply unchain_fail in U. congruence.
    + pose proof (top_plain c a id s R P CUR HS) as RE.
      assert (U : unchain_reentrant_frame c a1 = Done c) by (unfold unchain_reentrant_frame; rewrite CUR, HS, RE; reflexivity).
      rewrite U in RN. cbn [bind] in RN. rewrite CUR, HS in RN.
      destruct (_ <? _) in RN.
      * destruct a2 as [n2 |]; cbn [push_new_stack bind] in RN; [| apply UNCH; congruence].
        exfalso. exact (write_frame_nofail _ _ _ _ _ RN).
      * cbn [bind] in RN. exfalso. exact (write_frame_nofail _ _ _ _ _ RN).
  - unfold kos_stack_push in RN. destruct (_ <? _) in RN; [apply UNCH; congruence |].
    destruct (cur c) as [id |] eqn:CUR; cbn [bind] in RN.
    + unfold push_new_reentrant_stack in RN. destruct a2 as [n2 |]; cbn [bind] in RN; [| apply UNCH; congruence].
      destruct (unchain_reentrant_frame c a1) as [c2 | c2 |] eqn:U; cbn [bind] in RN; [| | discriminate].
      * exfalso. exact (write_frame_nofail _ _ _ _ _ RN).
      * apply UNCH. apply unchain_fail in U. congruence.
    + destruct a1 as [n1 |]; cbn [push_new_stack bind] in RN; [| apply UNCH; congruence].
      unfold push_new_reentrant_stack in RN. rewrite chain_new_unchain in RN by exact CUR.
      destruct a2 as [n2 |]; cbn [bind] in RN; [exfalso; exact (write_frame_nofail _ _ _ _ _ RN) |].
      assert (c1 = chain_new c n1 STACK_CAPACITY false) by congruence. subst c1.
      apply bottom_cleanup; auto.
  - unfold kos_stack_push in RN. destruct (_ <? _) in RN; [apply UNCH; congruence |].
    destruct (cur c) as [id |] eqn:CUR; cbn [bind] in RN.
    + unfold chain_stack_frame in RN.
      destruct (unchain_reentrant_frame c a1) as [c2 | c2 |] eqn:U; cbn [bind] in RN; [| | discriminate].
      * destruct (cur c2); [| discriminate]. destruct (hp c2 g); [| discriminate]. cbn [bind hp] in RN.
        destruct (hset _ _ _ g); discriminate.
      * apply UNCH. apply unchain_fail in U. congruence.
    + destruct a1 as [n1 |]; cbn [push_new_stack bind] in RN; [| apply UNCH; congruence].
      unfold chain_stack_frame in RN. rewrite chain_new_unchain in RN by exact CUR.
      destruct (cur _) in RN; [| discriminate]. destruct (hp (chain_new _ _ _ _) g) in RN; [| discriminate].
      cbn [bind hp] in RN. destruct (hset _ _ _ g) in RN; discriminate.
  - cbn [astep] in ST. destruct (frames a) as [| f r] eqn:F; [discriminate |].
    destruct (pop_ok fuel c a f r FU R F) as (c' & E & _). congruence.
  - cbn [astep] in ST. destruct (frames a) as [| f r] eqn:F; [discriminate |].
    destruct (f_gen f) as [g |] eqn:G; [| discriminate].
    destruct ((0 <=? m) && (m <=? nregs f)) eqn:Q; [| discriminate].
    destruct (return_ok fuel c a f r g m FU R F G) as (c' & E & _); [lia | congruence].
  - destruct (write_var_ok c a _ g k x n0 a' R eq_refl ST) as (c' & E & _). congruence.
  - cbn [astep] in ST. destruct (frames a) as [| f r] eqn:F; [discriminate |].
    destruct ((-3 <=? k) && (k <? nregs f)) eqn:Q; [| discriminate].
    destruct (write_ok c a f r k x R F) as (c' & E & _); [lia | congruence].
Qed.

Lemma exec_rep : forall c a, exec c a -> rep c a.
Proof.
  induction 1 as [| c a o n1 n2 fuel c' a' _ IH N FU ST RN | c a o a1 a2 fuel c1 c' n a' _ IH N FU ST SAFE RN CL].
  - exact rep_init.
  - destruct N as (H1 & H2 & H3).
    assert (FR : fresh2 c n1 n2) by (split; [apply H1; reflexivity | split; [apply H2; reflexivity | intros ->; exact (H3 _ eq_refl eq_refl)]]).
    destruct (step_ok c a o n1 n2 fuel a' IH FR FU ST) as [(c1 & E & R) | [E _]]; [| congruence].
    assert (c1 = c') by congruence. subst. exact R.
  - destruct (fail_ok c a o a1 a2 fuel c1 n a' IH N FU ST SAFE RN) as (c2 & E & R & _).
    assert (c2 = c') by congruence. subst. exact R.
Qed.

(* observations *)
Lemma rep_reads : forall c a f r, rep c a -> frames a = f :: r -> reads c f.
Proof.
  intros c a f r (cks & gtop & F & C & T & NE & ND & SV & D) FR. rewrite FR in F. unfold reads, read_frame.
  assert (LB : len (f_body f) = nregs f + 3) by (unfold nregs; lia).
  assert (K : forall a t k, 0 <= k < len (f_body f) -> gz (a ++ f_body f ++ t) (len a + k) = gz (f_body f) k).
  { intros l t k HK. rewrite gz_app by lia. destruct (len l + k <? len l) eqn:Q; [lia |].
    replace (len l + k - len l) with k by lia. rewrite gz_app by lia. destruct (k <? len (f_body f)) eqn:Q1; [reflexivity | lia]. }
  assert (K2 : forall a, gz (a ++ f_body f ++ [SInt (f_info f)]) (len a + len (f_body f)) = Some (SInt (f_info f))).
  { intros l. pose proof (len_nonneg _ l). pose proof (len_nonneg _ (f_body f)). rewrite gz_app by lia.
    destruct (len l + len (f_body f) <? len l) eqn:Q; [lia |].
    replace (len l + len (f_body f) - len l) with (len (f_body f)) by lia. rewrite gz_app by lia.
    destruct (len (f_body f) <? len (f_body f)) eqn:Q1; [lia |].
    rewrite Z.sub_diag. reflexivity. }
  destruct gtop as [| f0 [| f' gt]], cks as [| [id fs] cr]; cbn [top_ok] in T; try contradiction; [discriminate | |].
  - destruct fs as [| f0 fs]; [contradiction |]. destruct T as (T1 & T2 & T3).
    unfold all_frames in F. cbn [app flat_map snd] in F. injection F as E1 E2. subst f0.
    rewrite T2. cbn [chunks_ok] in C. destruct C as (C1 & C2 & _). rewrite C1. cbn [s_slots slots_of] in *.
    assert (FO : frame_ok f) by (inversion C2; assumption).
    rewrite len_app, (len_frame_slots f FO T1) in T3. unfold frame_slots. rewrite T1.
    change (link cr :: slots_of fs ++ f_body f ++ [SInt (f_info f)])
        with ((link cr :: slots_of fs) ++ f_body f ++ [SInt (f_info f)]).
    split.
    + intros k HK. rewrite T3. replace (len (slots_of fs) + (nregs f + 4) - nregs f + k) with (len (link cr :: slots_of fs) + (k + 3))
        by (rewrite len_cons; lia). apply K. lia.
    + rewrite T3. replace (len (slots_of fs) + (nregs f + 4) - nregs f + nregs f) with (len (link cr :: slots_of fs) + len (f_body f))
        by (rewrite len_cons; lia). apply K2.
  - destruct T as (g & G & TC & TR & FO & HG). cbn [app] in F. injection F as E1 E2. subst f0.
    rewrite TC, HG, TR. cbn [gen_obj s_slots].
    change (SPtr id :: f_body f ++ [SInt (f_info f)]) with ([SPtr id] ++ f_body f ++ [SInt (f_info f)]).
    split.
    + intros k HK. replace (4 + k) with (len [SPtr id] + (k + 3)) by (rewrite len_cons, len_nil; lia). apply K. lia.
    + replace (4 + nregs f) with (len [SPtr id] + len (f_body f)) by (rewrite len_cons, len_nil; lia). apply K2.
Qed.

Lemma chunks_frames_ok : forall h cks, chunks_ok h cks -> Forall frame_ok (all_frames cks).
Proof.
  induction cks as [| [id fs] r IH]; intros H; [constructor |].
  cbn [chunks_ok] in H. unfold all_frames. cbn [flat_map snd]. apply Forall_app. split; [tauto | apply IH; tauto].
Qed.

Lemma rep_frames_ok : forall c a, rep c a -> Forall frame_ok (frames a).
Proof.
  intros c a (cks & gtop & F & C & T & _). rewrite F. apply Forall_app. split; [| eapply chunks_frames_ok; exact C].
  destruct gtop as [| f [| f' gt]]; [constructor | | destruct cks; contradiction].
  destruct cks as [| [id fs] r]; [contradiction |]. destruct T as (g & _ & _ & _ & FO & _). repeat constructor; apply FO.
Qed.
