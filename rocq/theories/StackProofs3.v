(* Depth of the stack and walking over the frames. *)
From Coq Require Import ZArith List Lia Bool ZifyBool.
Import ListNotations.
From Verif Require Import Base ListZ StackModel StackSpec StackProofs StackProofs2.
Local Open Scope Z_scope.

Lemma write_frame_depth : forall c f n i c', write_frame c f n i = Done c' -> depth c' = depth c + (n + 4).
Proof.
  intros c f n i c' H. unfold write_frame in H. destruct (cur c); [| discriminate]. destruct (hp c z); [| discriminate].
  destruct (_ <? _); [discriminate |].
  apply (f_equal (fun r => match r with Done x => depth x | _ => 0 end)) in H. cbn [depth] in H. unfold KOS_STACK_EXTRA in H. lia.
Qed.

Lemma chain_new_depth : forall c n cap re, depth c <= depth (chain_new c n cap re) <= depth c + 1.
Proof. intros. unfold chain_new. destruct (cur c); cbn [depth]; lia. Qed.

Lemma unchain_depth : forall c a c', unchain_reentrant_frame c a = Done c' -> depth c <= depth c' <= depth c + 1.
Proof.
  intros c a c' H. unfold unchain_reentrant_frame in H.
  destruct (cur c); [| discriminate]. destruct (hp c z); [| discriminate].
  destruct (s_re s); [| assert (c' = c) by congruence; subst; lia].
  destruct (s_slots s) as [| [| old | |] ?]; try discriminate. destruct (hp c old) as [os |]; [| discriminate].
  destruct (s_re os); [discriminate |]. destruct (size os =? s_cap os).
  - destruct a as [n |]; [| discriminate].
    destruct (hset _ _ _ n) in H; [| discriminate].
    apply (f_equal (fun r => match r with Done x => depth x | _ => 0 end)) in H. cbn [depth] in H.
    pose proof (chain_new_depth (mkctx (hp c) (Some old) (regs_idx c) (depth c)) n STACK_CAPACITY false) as D.
    cbn [depth] in D. lia.
  - apply (f_equal (fun r => match r with Done x => depth x | _ => 0 end)) in H. cbn [depth] in H. lia.
Qed.

Lemma pop_depth : forall fuel c a c', rep c a -> kos_stack_pop fuel c = Done c' -> depth c' <= depth c.
Proof.
  intros fuel c a c' (cks & gtop & F & C & T & _) H. unfold kos_stack_pop in H.
  destruct gtop as [| f [| f' gt]], cks as [| [id fs] cr]; cbn [top_ok] in T; try contradiction.
  - destruct T as [T _]. rewrite T in H. discriminate.
  - destruct fs as [| f fs]; [contradiction |]. destruct T as (T1 & T2 & T3). rewrite T2 in H.
    cbn [chunks_ok] in C. destruct C as (C1 & C2 & _). rewrite C1 in H.
    destruct (1 <? _) in H.
    + cbn [s_re] in H. destruct (_ <? _) in H; [discriminate |]. apply pop_chunks_depth in H. cbn [depth] in H.
      unfold size in H. cbn [s_slots] in H. rewrite len_cons in H. rewrite T3 in H. unfold KOS_STACK_EXTRA in H.
      assert (FO : frame_ok f) by (inversion C2; assumption). destruct FO. lia.
    + apply pop_chunks_depth in H. exact H.
  - destruct T as (g & G & TC & TR & FO & HG). rewrite TC, HG in H.
    destruct (1 <? _) eqn:Q in H.
    + cbn [s_re gen_obj s_slots] in H. apply pop_chunks_depth in H. cbn [depth] in H.
      rewrite size_gen_obj in H. destruct FO. lia.
    + apply pop_chunks_depth in H. exact H.
Qed.

Lemma exec_depth : forall c a, exec c a -> depth c <= KOS_MAX_STACK_DEPTH + 2.
Proof.
  induction 1 as [| c a o n1 n2 fuel c' a' X IH N FU ST RN | c a o a1 a2 fuel c1 c' n a' X IH N FU ST SAFE RN CL].
  - cbn [depth]. unfold KOS_MAX_STACK_DEPTH. lia.
  - pose proof (exec_rep c a X) as R.
    destruct N as (H1 & H2 & H3).
    assert (FR : fresh2 c n1 n2) by (split; [apply H1; reflexivity | split; [apply H2; reflexivity | intros ->; exact (H3 _ eq_refl eq_refl)]]).
    destruct o as [func n info | func n info | g info | | m | g k x | k x]; cbn [run_op] in RN.
    + unfold kos_stack_push in RN. change (n + KOS_STACK_EXTRA) with (n + 4) in RN.
      destruct (KOS_MAX_STACK_DEPTH <? depth c + (n + 4)) eqn:Q; [discriminate |].
      destruct (cur c) as [id |] eqn:CUR.
      2:{ cbn [push_new_stack bind] in RN. apply write_frame_depth in RN.
          pose proof (chain_new_depth c n1 STACK_CAPACITY false). lia. }
      destruct (hp c id) as [s |]; [| discriminate].
      destruct (s_cap s <? _) in RN; [| apply write_frame_depth in RN; lia].
      destruct (unchain_reentrant_frame c (Some n1)) as [c2 | c2 |] eqn:U; cbn [bind] in RN; try discriminate.
      apply unchain_depth in U.
      destruct (cur c2); [| discriminate]. destruct (hp c2 z); [| discriminate].
      destruct (s_cap s0 <? _) in RN; cbn [push_new_stack bind] in RN; apply write_frame_depth in RN.
      * pose proof (chain_new_depth c2 n2 STACK_CAPACITY false). lia.
      * lia.
    + unfold kos_stack_push in RN. change (n + KOS_STACK_EXTRA) with (n + 4) in RN.
      destruct (KOS_MAX_STACK_DEPTH <? depth c + (n + 4)) eqn:Q; [discriminate |].
      destruct (cur c) as [id |] eqn:CUR; cbn [push_new_stack bind] in RN; unfold push_new_reentrant_stack in RN.
      * destruct (unchain_reentrant_frame c (Some n1)) as [c2 | c2 |] eqn:U; cbn [bind] in RN; try discriminate.
        apply unchain_depth in U. apply write_frame_depth in RN.
        pose proof (chain_new_depth c2 n2 (n + 4 + 1) true). lia.
      * rewrite chain_new_unchain in RN by exact CUR. cbn [bind] in RN. apply write_frame_depth in RN.
        pose proof (chain_new_depth c n1 STACK_CAPACITY false).
        pose proof (chain_new_depth (chain_new c n1 STACK_CAPACITY false) n2 (n + 4 + 1) true). lia.
    + cbn [astep] in ST. destruct (saved a g) as [f |] eqn:SG; [| discriminate].
      destruct (is_gen f && info_ok (nregs f) info) eqn:OK; [| discriminate].
      apply andb_prop in OK. destruct OK as [IG OK].
      assert (IM : info mod 256 = nregs f) by (unfold info_ok in OK; lia). rewrite IM in RN.
      unfold kos_stack_push in RN. change (nregs f + KOS_STACK_EXTRA) with (nregs f + 4) in RN.
      destruct (KOS_MAX_STACK_DEPTH <? depth c + (nregs f + 4)) eqn:Q; [discriminate |].
      assert (K : forall c2 cks c0, mid c2 a cks -> unchain_reentrant_frame c0 (Some n1) = Done c2 ->
        bind (chain_stack_frame c0 g (Some n1)) (fun c =>
          match hp c g with
          | None => Bad
          | Some gs => Done (mkctx (hset (hp c) g (mkstk (s_cap gs) (s_re gs) (set_last (s_slots gs) (SInt info)))) (cur c) 4 (depth c))
          end) = Done c' -> depth c' = depth c2 + (nregs f + 5)).
      { intros c2 cks c0 M U B. unfold chain_stack_frame in B. rewrite U in B.
        destruct M as (_ & _ & (id1 & fs1 & r1 & _ & CUR1) & _ & _ & SV & _).
        destruct (SV _ _ SG) as (SO & NI). unfold sobj in SO. unfold is_gen in IG.
        destruct (f_gen f) as [g' |] eqn:FG; [| discriminate]. destruct SO as (-> & FO & s0 & HG).
        rewrite CUR1, HG in B. cbn [bind hp cur depth] in B. rewrite hset_same in B.
        apply (f_equal (fun r => match r with Done x => depth x | _ => 0 end)) in B. cbn [depth] in B.
        rewrite size_gen_obj in B. lia. }
      destruct (cur c) as [id |] eqn:CUR; cbn [push_new_stack bind] in RN.
      * destruct (unchain_ok c a n1 id R CUR) as (c2 & cks2 & U & M & _); [apply FR |].
        rewrite (K c2 cks2 c M U RN). apply unchain_depth in U. lia.
      * destruct (bottom_mid c a n1 R CUR) as [_ M]; [apply FR |].
        rewrite (K _ _ _ M (chain_new_unchain c n1 (Some n1) CUR) RN).
        pose proof (chain_new_depth c n1 STACK_CAPACITY false). lia.
    + apply pop_depth with (a := a) in RN; [lia | exact R].
    + cbn [astep] in ST. destruct (frames a) as [| f r] eqn:F; [discriminate |].
      destruct (f_gen f) as [g |] eqn:G; [| discriminate].
      destruct ((0 <=? m) && (m <=? nregs f)) eqn:Q; [| discriminate].
      unfold set_closure_stack_size in RN. destruct (cur c) as [id |]; [| discriminate].
      destruct (hp c id) as [s |]; [| discriminate].
      destruct (s_re s) eqn:RE; [| cbn [bind] in RN; apply pop_depth with (a := a) in RN; [lia | exact R]].
      destruct (size s <? m + 1 + KOS_STACK_EXTRA) eqn:Q1; [discriminate |].
      destruct (last (s_slots s) SBad) as [| | info |]; try discriminate. cbn [bind] in RN.
      unfold kos_stack_pop in RN. cbn [cur hp] in RN. rewrite hset_same in RN. cbn [s_re] in RN.
      destruct (1 <? _) in RN.
      * match type of RN with match s_slots ?t with _ => _ end = _ => set (s1 := t) in RN end.
        destruct (s_slots s1) as [| [| prev | |] ?] eqn:E1; try discriminate.
        apply pop_chunks_depth in RN. cbn [depth] in RN. unfold size in *. pose proof (len_nonneg _ (s_slots s1)). lia.
      * apply pop_chunks_depth in RN. cbn [depth] in RN. lia.
    + unfold write_stack in RN. destruct (hp c g); [| discriminate]. destruct (_ && _) in RN; [| discriminate].
      apply (f_equal (fun r => match r with Done x => depth x | _ => 0 end)) in RN. cbn [depth] in RN. lia.
    + unfold write_reg in RN. destruct (cur c); [| discriminate]. destruct (hp c z); [| discriminate].
      destruct (_ && _) in RN; [| discriminate].
      apply (f_equal (fun r => match r with Done x => depth x | _ => 0 end)) in RN. cbn [depth] in RN. lia.
  - destruct (fail_ok c a o a1 a2 fuel c1 n a' (exec_rep c a X) N FU ST SAFE RN) as (c2 & E & _ & D).
    assert (c2 = c') by congruence. subst. lia.
Qed.

(* number of chunks *)
Lemma chunk_count : forall cks, Forall nonempty cks -> len cks <= len (all_frames cks).
Proof.
  induction 1 as [| [id fs] r NE _ IH]; [reflexivity |]. unfold all_frames in *. cbn [flat_map snd].
  rewrite len_cons, len_app. unfold nonempty in NE. cbn [snd] in NE. destruct fs; [congruence |].
  rewrite len_cons. pose proof (len_nonneg _ fs). lia.
Qed.

Lemma rep_depth : forall c a, rep c a -> total (frames a) <= depth c <= total (frames a) + len (frames a).
Proof.
  intros c a (cks & gtop & F & C & T & NE & ND & SV & D). rewrite D.
  pose proof (len_nonneg _ (frames a)). split; [lia |].
  destruct cks as [| p r]; [change (len (@nil (Z * list frame))) with 0; lia |].
  cbn [tl] in NE. pose proof (chunk_count r NE). rewrite len_cons.
  rewrite F. unfold all_frames in *. cbn [flat_map]. rewrite !len_app.
  pose proof (len_nonneg _ gtop). pose proof (len_nonneg _ (snd p)). pose proof (len_nonneg _ r). lia.
Qed.

(* walking over frames *)
Fixpoint locs (id : Z) (fs : list frame) : list (Z * Z) :=
  match fs with
  | [] => []
  | f :: r => match f_gen f with Some g => (g, 1) | None => (id, 1 + len (slots_of r)) end :: locs id r
  end.

Lemma walk_step : forall fuel h top id sz ps, sz <> 0 ->
  walk_stack (Datatypes.S fuel) h top id sz ps =
      match h id with
      | None => None
      | Some s =>
          if sz =? 1 then
            match s_slots s with
            | SBad :: _ => Some []
            | SPtr prev :: _ =>
                match h prev with
                | None => None
                | Some psx =>
                    if s_re s && negb (id =? top) then
                      match ps with
                      | None => None
                      | Some p => walk_stack fuel h top prev (p - 1) None
                      end
                    else walk_stack fuel h top prev (size psx) ps
                end
            | _ => None
            end
          else
            match gz (s_slots s) (sz - 1) with
            | Some (SInt info) =>
                let fsize := info mod 256 + KOS_STACK_EXTRA in
                match walk_stack fuel h top id (sz - fsize) ps with
                | None => None
                | Some l => Some ((id, sz - fsize) :: l)
                end
            | Some (SPtr g) =>
                match h g with
                | None => None
                | Some gs => walk_stack fuel h top g (size gs) (Some sz)
                end
            | _ => None
            end
      end.
Proof. intros. cbn [walk_stack]. destruct (sz =? 0) eqn:Q; [lia | reflexivity]. Qed.

Lemma gz_top : forall (l0 : slot) a x ext, gz (l0 :: (a ++ [x]) ++ ext) (1 + len (a ++ [x]) - 1) = Some x.
Proof.
  intros. pose proof (len_nonneg _ a).
  replace (l0 :: (a ++ [x]) ++ ext) with ((l0 :: a) ++ x :: ext) by (cbn [app]; rewrite <- app_assoc; reflexivity).
  rewrite len_app, len_cons, len_nil. replace (1 + (len a + (1 + 0)) - 1) with (len (l0 :: a)) by (rewrite len_cons; lia).
  rewrite gz_app by apply len_nonneg. destruct (len (l0 :: a) <? len (l0 :: a)) eqn:Q; [lia |].
  rewrite Z.sub_diag. reflexivity.
Qed.

Lemma walk_fs : forall h top id cap l0 rest N0,
  (forall fuel, (N0 <= fuel)%nat -> walk_stack fuel h top id 1 None = Some rest) ->
  forall fs ext, h id = Some (mkstk cap false (l0 :: slots_of fs ++ ext)) ->
  Forall frame_ok fs -> (forall f g, In f fs -> f_gen f = Some g -> h g = Some (gen_obj (SPtr id) f) /\ g <> top) ->
  forall fuel, (N0 + 3 * length fs <= fuel)%nat ->
  walk_stack fuel h top id (1 + len (slots_of fs)) None = Some (locs id fs ++ rest).
Proof.
  intros h top id cap l0 rest N0 K. induction fs as [| f r IH]; intros ext HI FO G fuel FU.
  - cbn [slots_of locs app]. change (1 + len (@nil slot)) with 1. apply K. cbn [length] in FU. lia.
  - cbn [length] in FU. destruct fuel as [| fuel]; [lia |].
    pose proof (len_nonneg _ (slots_of r)) as LN.
    assert (FOf : frame_ok f) by (inversion FO; assumption).
    assert (FOr : Forall frame_ok r) by (inversion FO; assumption).
    cbn [slots_of] in *. cbn [locs].
    assert (HI' : h id = Some (mkstk cap false (l0 :: slots_of r ++ frame_slots f ++ ext))) by (rewrite HI, app_assoc; reflexivity).
    assert (Gr : forall f' g, In f' r -> f_gen f' = Some g -> h g = Some (gen_obj (SPtr id) f') /\ g <> top).
    { intros f' g I. apply G. right. exact I. }
    destruct (f_gen f) as [g |] eqn:GF.
    + assert (FS : frame_slots f = [SPtr g]) by (unfold frame_slots; rewrite GF; reflexivity). rewrite FS in *.
      destruct (G f g (or_introl eq_refl) GF) as [HG NT].
      rewrite walk_step by (rewrite len_app, len_cons, len_nil; lia). rewrite HI. cbn [s_slots].
      destruct (1 + len (slots_of r ++ [SPtr g]) =? 1) eqn:Q; [rewrite len_app, len_cons, len_nil in Q; lia |]. clear Q.
      rewrite gz_top. rewrite HG.
      destruct fuel as [| fuel]; [lia |]. rewrite size_gen_obj. destruct FOf as [F1 F2].
      rewrite walk_step by lia. rewrite HG. cbn [gen_obj s_slots s_re].
      destruct (nregs f + 5 =? 1) eqn:Q; [lia |]. clear Q.
      assert (GT : gz (SPtr id :: f_body f ++ [SInt (f_info f)]) (nregs f + 5 - 1) = Some (SInt (f_info f))).
      { pose proof (gz_top (SPtr id) (f_body f) (SInt (f_info f)) []) as P. rewrite app_nil_r in P. rewrite <- P. f_equal.
        rewrite len_app, len_cons, len_nil. unfold nregs. lia. }
      rewrite GT. cbv zeta. rewrite F2. unfold KOS_STACK_EXTRA.
      replace (nregs f + 5 - (nregs f + 4)) with 1 by lia.
      destruct fuel as [| fuel]; [lia |]. rewrite walk_step by lia. rewrite HG. cbn [gen_obj s_slots s_re].
      change (1 =? 1) with true. cbn iota. rewrite HI.
      destruct (g =? top) eqn:Q; [lia |]. cbn [negb andb]. rewrite len_app, len_cons, len_nil.
      replace (1 + (len (slots_of r) + (1 + 0)) - 1) with (1 + len (slots_of r)) by lia.
      rewrite (IH ([SPtr g] ++ ext) HI' FOr Gr) by lia. reflexivity.
    + assert (FS : frame_slots f = f_body f ++ [SInt (f_info f)]) by (unfold frame_slots; rewrite GF; reflexivity).
      pose proof (len_frame_slots f FOf GF) as LF. destruct FOf as [F1 F2].
      rewrite walk_step by (rewrite len_app, LF; lia). rewrite HI. cbn [s_slots].
      destruct (1 + len (slots_of r ++ frame_slots f) =? 1) eqn:Q; [rewrite len_app, LF in Q; lia |]. clear Q.
      assert (GT : gz (l0 :: (slots_of r ++ frame_slots f) ++ ext) (1 + len (slots_of r ++ frame_slots f) - 1) = Some (SInt (f_info f))).
      { rewrite FS, app_assoc. apply gz_top. }
      rewrite GT. cbv zeta. rewrite F2, len_app, LF. unfold KOS_STACK_EXTRA.
      replace (1 + (len (slots_of r) + (nregs f + 4)) - (nregs f + 4)) with (1 + len (slots_of r)) by lia.
      rewrite (IH (frame_slots f ++ ext) HI' FOr Gr) by lia. reflexivity.
Qed.

Fixpoint all_locs (cks : list (Z * list frame)) : list (Z * Z) :=
  match cks with [] => [] | (id, fs) :: r => locs id fs ++ all_locs r end.

Lemma walk_chunks : forall h top cks, chunks_ok h cks -> (forall f g, In f (all_frames cks) -> f_gen f = Some g -> g <> top) ->
  match cks with
  | [] => True
  | (id, fs) :: _ =>
      exists N, forall fuel, (N <= fuel)%nat -> walk_stack fuel h top id (1 + len (slots_of fs)) None = Some (all_locs cks)
  end.
Proof.
  intros h top. induction cks as [| [id fs] r IH]; intros C G; [exact Logic.I |].
  cbn [chunks_ok] in C. destruct C as (C1 & C2 & C3 & C4 & C5).
  unfold all_frames in G. cbn [flat_map snd] in G.
  assert (K : exists N0, forall fuel, (N0 <= fuel)%nat -> walk_stack fuel h top id 1 None = Some (all_locs r)).
  { destruct r as [| [id1 fs1] r].
    - exists 1%nat. intros [| fuel] FU; [lia |]. rewrite walk_step by lia. rewrite C1. reflexivity.
    - destruct IH as [N HN]; [exact C5 | intros f g I; apply G; apply in_or_app; right; exact I |].
      exists (Datatypes.S N). intros [| fuel] FU; [lia |]. rewrite walk_step by lia. rewrite C1.
      cbn [s_slots link s_re andb]. change (1 =? 1) with true. cbn iota.
      cbn [chunks_ok] in C5. destruct C5 as (D1 & _). rewrite D1. unfold size. cbn [s_slots]. rewrite len_cons.
      apply HN. lia. }
  destruct K as [N0 HN0].
  exists (N0 + 3 * length fs)%nat. intros fuel FU. cbn [all_locs].
  eapply walk_fs with (ext := []); [exact HN0 | rewrite app_nil_r; exact C1 | exact C2 | | exact FU].
  intros f g I GF. split; [apply C4; assumption |]. apply (G f g); [apply in_or_app; left; exact I | exact GF].
Qed.

Lemma gz_in : forall (pre : list slot) body t k, 0 <= k < len body -> gz (pre ++ body ++ t) (len pre + k) = gz body k.
Proof.
  intros pre body t k HK. pose proof (len_nonneg _ pre). rewrite gz_app by lia. destruct (len pre + k <? len pre) eqn:Q; [lia |].
  replace (len pre + k - len pre) with k by lia. rewrite gz_app by lia. destruct (k <? len body) eqn:Q1; [reflexivity | lia].
Qed.

Lemma gz_end : forall (pre : list slot) body x t, gz (pre ++ body ++ x :: t) (len pre + len body) = Some x.
Proof.
  intros pre body x t. pose proof (len_nonneg _ pre). pose proof (len_nonneg _ body).
  rewrite gz_app by lia. destruct (len pre + len body <? len pre) eqn:Q; [lia |].
  replace (len pre + len body - len pre) with (len body) by lia. rewrite gz_app by lia.
  destruct (len body <? len body) eqn:Q1; [lia |]. rewrite Z.sub_diag. reflexivity.
Qed.

Lemma at_obj : forall h g cap s0 f, h g = Some (mkstk cap true (s0 :: f_body f ++ [SInt (f_info f)])) -> frame_at h (g, 1) f.
Proof.
  intros h g cap s0 f HG. eexists. split; [exact HG |]. cbn [snd s_slots].
  change (s0 :: f_body f ++ [SInt (f_info f)]) with ([s0] ++ f_body f ++ [SInt (f_info f)]). split.
  - intros k HK. change 1 with (len [s0]). apply gz_in. unfold nregs in HK. lia.
  - replace (1 + nregs f + 3) with (len [s0] + len (f_body f)) by (rewrite len_cons, len_nil; unfold nregs; lia). apply gz_end.
Qed.

Lemma locs_at : forall h id cap l0 fs ext, h id = Some (mkstk cap false (l0 :: slots_of fs ++ ext)) ->
  Forall frame_ok fs ->
  (forall f g, In f fs -> f_gen f = Some g -> h g = Some (gen_obj (SPtr id) f)) -> Forall2 (frame_at h) (locs id fs) fs.
Proof.
  intros h id cap l0. induction fs as [| f r IH]; intros ext HI FO G; [constructor |].
  cbn [slots_of locs] in *. constructor.
  - destruct (f_gen f) as [g |] eqn:GF.
    + eapply at_obj. exact (G f g (or_introl eq_refl) GF).
    + eexists. split; [exact HI |]. cbn [snd s_slots].
      assert (FS : frame_slots f = f_body f ++ [SInt (f_info f)]) by (unfold frame_slots; rewrite GF; reflexivity).
      rewrite FS.
      replace (l0 :: (slots_of r ++ f_body f ++ [SInt (f_info f)]) ++ ext)
        with ((l0 :: slots_of r) ++ f_body f ++ SInt (f_info f) :: ext)
        by (cbn [app]; rewrite <- !app_assoc; reflexivity).
      split.
      * intros k HK. rewrite <- (len_cons _ l0). apply gz_in. unfold nregs in HK. lia.
      * replace (1 + len (slots_of r) + nregs f + 3) with (len (l0 :: slots_of r) + len (f_body f))
          by (rewrite len_cons; unfold nregs; lia). apply gz_end.
  - apply IH with (ext := frame_slots f ++ ext).
    + rewrite HI, app_assoc. reflexivity.
    + inversion FO; assumption.
    + intros f' g I. apply G. right. exact I.
Qed.

Lemma all_locs_at : forall h cks, chunks_ok h cks -> Forall2 (frame_at h) (all_locs cks) (all_frames cks).
Proof.
  induction cks as [| [id fs] r IH]; intros C; [constructor |].
  cbn [chunks_ok] in C. destruct C as (C1 & C2 & C3 & C4 & C5). unfold all_frames. cbn [all_locs flat_map snd].
  apply Forall2_app; [| apply IH, C5].
  eapply locs_at with (ext := []); [rewrite app_nil_r; exact C1 | exact C2 | exact C4].
Qed.

Lemma walk_rep : forall c a id s, rep c a -> cur c = Some id -> hp c id = Some s ->
  exists l N, Forall2 (frame_at (hp c)) l (frames a) /\
    forall fuel, (N <= fuel)%nat -> walk_stack fuel (hp c) id id (size s) None = Some l.
Proof.
  intros c a id0 s (cks & gtop & F & C & T & NE & ND & SV & D) CUR HS.
  pose proof (all_locs_at _ _ C) as AT.
  destruct gtop as [| f [| f' gt]], cks as [| [id fs] cr]; cbn [top_ok] in T; try contradiction.
  - destruct T; congruence.
  - destruct fs as [| f fs]; [contradiction |]. destruct T as (T1 & T2 & T3).
    assert (id0 = id) by congruence. subst id0.
    rewrite F in ND. destruct (nodup_id [] id (f :: fs) cr ND) as [N1 N2].
    pose proof (walk_chunks (hp c) id ((id, f :: fs) :: cr) C) as W. destruct W as [N HN].
    { intros f' g I G' ->. unfold ids_of in ND. cbn [map fst app] in ND. apply NoDup_cons_iff in ND. destruct ND as [ND _].
      apply ND. apply in_or_app. right. eapply gen_ids_in; eassumption. }
    exists (all_locs ((id, f :: fs) :: cr)), N. split; [rewrite F; exact AT |].
    intros fuel FU. cbn [chunks_ok] in C. destruct C as (C1 & _). rewrite HS in C1.
    assert (s = mkstk STACK_CAPACITY false (link cr :: slots_of (f :: fs))) by congruence. subst s.
    unfold size. cbn [s_slots]. rewrite len_cons. apply HN, FU.
  - destruct T as (g & G & TC & TR & FO & HG). assert (id0 = g) by congruence. subst id0.
    assert (s = gen_obj (SPtr id) f) by congruence. subst s. rewrite size_gen_obj.
    pose proof (walk_chunks (hp c) g ((id, fs) :: cr) C) as W. destruct W as [N HN].
    { intros f' g' I G' ->. unfold ids_of in ND. rewrite F in ND. cbn [app gen_ids flat_map] in ND. rewrite G in ND.
      apply NoDup_remove_2 in ND. apply ND. apply in_or_app. right. eapply gen_ids_in; eassumption. }
    exists ((g, 1) :: all_locs ((id, fs) :: cr)), (2 + N)%nat. split.
    + rewrite F. constructor; [| exact AT]. eapply at_obj. exact HG.
    + intros fuel FU. destruct fuel as [| fuel]; [lia |]. destruct FO as [F1 F2].
      rewrite walk_step by lia. rewrite HG. cbn [gen_obj s_slots s_re].
      destruct (nregs f + 5 =? 1) eqn:Q; [lia |]. clear Q.
      assert (GT : gz (SPtr id :: f_body f ++ [SInt (f_info f)]) (nregs f + 5 - 1) = Some (SInt (f_info f))).
      { pose proof (gz_top (SPtr id) (f_body f) (SInt (f_info f)) []) as P. rewrite app_nil_r in P. rewrite <- P. f_equal.
        rewrite len_app, len_cons, len_nil. unfold nregs. lia. }
      rewrite GT. cbv zeta. rewrite F2. unfold KOS_STACK_EXTRA.
      replace (nregs f + 5 - (nregs f + 4)) with 1 by lia.
      destruct fuel as [| fuel]; [lia |]. rewrite walk_step by lia. rewrite HG. cbn [gen_obj s_slots s_re].
      change (1 =? 1) with true. cbn iota. rewrite Z.eqb_refl. cbn [negb andb].
      cbn [chunks_ok] in C. destruct C as (C1 & _). rewrite C1. unfold size. cbn [s_slots]. rewrite len_cons.
      rewrite HN by lia. reflexivity.
Qed.

(* variables of outer functions *)
Lemma read_stack_obj : forall c g cap s0 f k, hp c g = Some (mkstk cap true (s0 :: f_body f ++ [SInt (f_info f)])) ->
  var_ok f k = true -> 0 <= nregs f -> read_stack c g k = gz (f_body f) (var_pos f k).
Proof.
  intros c g cap s0 f k HG V N. unfold read_stack. rewrite HG. unfold size. cbn [s_slots].
  rewrite slot_index by assumption. pose proof (var_pos_ok f k V N).
  change (s0 :: f_body f ++ [SInt (f_info f)]) with ([s0] ++ f_body f ++ [SInt (f_info f)]).
  change 1 with (len [s0]). apply gz_in. unfold nregs in *. lia.
Qed.

Lemma read_var_frame : forall c a f g k, rep c a -> In f (frames a) -> f_gen f = Some g -> var_ok f k = true ->
  read_stack c g k = gz (f_body f) (var_pos f k).
Proof.
  intros c a f g k (cks & gtop & R) I G V. destruct (rep_obj c a cks gtop f g R I G) as (id & HG & FO).
  eapply read_stack_obj; [exact HG | exact V | apply FO].
Qed.

Lemma read_var_saved : forall c a f g k, rep c a -> saved a g = Some f -> var_ok f k = true ->
  read_stack c g k = gz (f_body f) (var_pos f k).
Proof.
  intros c a f g k (cks & gtop & R) S V. destruct R as (_ & _ & _ & _ & _ & SV & _).
  destruct (SV _ _ S) as (SO & _). unfold sobj in SO. destruct (f_gen f).
  - destruct SO as (_ & FO & s0 & HG). eapply read_stack_obj; [exact HG | exact V | apply FO].
  - destruct SO as (N & cap & s0 & HG). eapply read_stack_obj; [exact HG | exact V | exact N].
Qed.
