(** Resolution of names: simulation. *)
From Coq Require Import ZArith List Lia Bool ZifyBool.
Import ListNotations.
From Verif Require Import Base ListZ VarsSpec VarsModel VarsProofs.
Local Open Scope Z_scope.
Ltac Zify.zify_post_hook ::= idtac.

Lemma shared_app : forall us u d, shared (us ++ [u]) d <->
  shared us d \/ (d_kind d <> KGlobal /\ u_decl u = d /\ u_crossed u <> []).
Proof.
  intros us u d. unfold shared. split.
  - intros (K & w & I1 & Dw & Cw). apply in_app_or in I1. destruct I1 as [I1|[<-|[]]].
    + left. split; [exact K|]. exists w; auto.
    + right. auto.
  - intros [(K & w & I1 & Dw & Cw)|(K & Dw & Cw)]; (split; [exact K|]).
    + exists w. split; [apply in_or_app; left; exact I1|auto].
    + exists u. split; [apply in_or_app; right; left; reflexivity|auto].
Qed.

Lemma reaches_app : forall us u f o, reaches (us ++ [u]) f o <->
  reaches us f o \/ (d_kind (u_decl u) <> KGlobal /\ In f (u_crossed u) /\ u_owner u = o).
Proof.
  intros us u f o. unfold reaches. split.
  - intros (w & I1 & R). apply in_app_or in I1. destruct I1 as [I1|[<-|[]]].
    + left. exists w; auto.
    + right. exact R.
  - intros [(w & I1 & R)|R].
    + exists w. split; [apply in_or_app; left; exact I1|exact R].
    + exists u. split; [apply in_or_app; right; left; reflexivity|exact R].
Qed.

(** A use which needs no closure. *)
Lemma trel_direct : forall t p i v cr o, trel t p -> nth_error (p_heap p) i = Some v ->
  direct (U (decl_of i v) cr o) = true ->
  trel (T (t_decls t) (t_funs t) (t_uses t ++ [U (decl_of i v) cr o]))
       (P (p_stack p) (p_heap p) (p_refs p) (p_log p ++ [(i, true)]) (p_funs p)).
Proof.
  intros t p i v cr o (T1 & T2 & T3 & T4 & T5 & T6) N Dr. unfold trel.
  cbn [p_heap p_funs p_log p_refs t_decls t_funs t_uses].
  assert (NG : d_kind (decl_of i v) = KGlobal \/ cr = []).
  { unfold direct in Dr. cbn [u_decl u_crossed] in Dr.
    destruct (d_kind (decl_of i v)), cr; auto; discriminate Dr. }
  split; [exact T1|split; [exact T2|split; [|split; [|split]]]].
  - rewrite map_app, T3. cbn [map u_decl]. rewrite Dr. reflexivity.
  - intros f q. rewrite reaches_app, T4. cbn [u_decl u_crossed u_owner].
    split; [auto|]. intros [H|(K & I1 & _)]; [exact H|]. exfalso.
    destruct NG as [NG| ->]; [congruence|exact I1].
  - intros j w Nj. rewrite shared_app, (T5 j w Nj). cbn [u_decl u_crossed].
    split; [auto|]. intros [H|(K & Dj & C)]; [exact H|]. exfalso.
    destruct NG as [NG|NG]; [congruence|contradiction].
  - intros u I1. apply in_app_or in I1. destruct I1 as [I1|[<-|[]]]; [apply T6; exact I1|].
    exists v. auto.
Qed.

Lemma rel_stack_env : forall env t p, rel env t p -> env <> [] -> p_stack p <> [].
Proof. intros env t p (F & _) N E1. rewrite E1 in F. inversion F; subst; contradiction. Qed.

Lemma vtype_cases : forall t, vtype t ->
  (kind_t t = KGlobal /\ (Z.land t VAR_LOCALS_AND_ARGS =? 0) = true /\
   (Z.land t (Z.lor VAR_GLOBAL (Z.lor VAR_MODULE VAR_IMPORTED)) =? 0) = false) \/
  (kind_t t <> KGlobal /\ (Z.land t VAR_LOCALS_AND_ARGS =? 0) = false /\
   (Z.land t (Z.lor VAR_GLOBAL (Z.lor VAR_MODULE VAR_IMPORTED)) =? 0) = true).
Proof.
  intros t [->|[->|[->|[->| ->]]]]; cbv; (left; repeat split; congruence) ||
    (right; repeat split; congruence).
Qed.

Definition mark_type (t : Z) : Z :=
  if negb (Z.land t VAR_LOCAL =? 0) then VAR_INDEPENDENT_LOCAL else VAR_INDEPENDENT_ARGUMENT.

Lemma mark_kind : forall t, vtype t -> kind_t t <> KGlobal ->
  kind_t (mark_type t) = kind_t t /\ indep (mark_type t) = true /\ vtype (mark_type t).
Proof.
  intros t [->|[->|[->|[->| ->]]]] K; cbv; repeat split; auto; exfalso; apply K; reflexivity.
Qed.

Lemma lookup_sim : forall env t p x, rel env t p -> env <> [] ->
  match refer env x t with
  | Ok (d, t') => exists i p', lookup p x = MOk (i, p') /\ rel env t' p' /\
      hle (p_heap p) (p_heap p') /\ p_stack p' = p_stack p /\
      exists v, nth_error (p_heap p') i = Some v /\ v_const v = d_const d
  | Err e => lookup p x = MErr e
  end.
Proof.
  intros env t p x R NE. pose proof R as (F & W & TR). pose proof W as (ND & LT & VT).
  pose proof (rel_stack_env _ _ _ R NE) as NS.
  unfold refer, lookup. rewrite (look_outer _ x _ _ F []). cbn [app].
  assert (LL : match lookup_local (p_heap p) x (p_stack p) with
    | Some i => exists sc, outer_loop (p_heap p) x (p_stack p) = Some (i, sc) /\
                 between (p_stack p) (length sc) = []
    | None => outer_loop (p_heap p) x (frame_of (p_stack p)) = outer_loop (p_heap p) x (p_stack p)
    end).
  { unfold lookup_local. destruct (p_stack p) as [|s [|s' r]] eqn:St; [reflexivity|reflexivity|].
    destruct (local_loop (p_heap p) x (s :: s' :: r)) as [i|] eqn:L.
    - apply local_some; exact L.
    - apply local_none; exact L. }
  destruct (lookup_local (p_heap p) x (p_stack p)) as [i|].
  - destruct LL as (sc & O & Bt). rewrite O.
    destruct (outer_suffix _ _ _ _ _ O) as (pre & s & r & E1 & E2 & As & Ac).
    destruct (nth_error (p_heap p) i) as [v|] eqn:N;
      [|unfold active in Ac; rewrite N in Ac; discriminate Ac].
    exists i, (P (p_stack p) (p_heap p) (p_refs p) (p_log p ++ [(i, true)]) (p_funs p)).
    split; [reflexivity|]. rewrite Bt.
    split; [|split; [apply hle_refl|split; [reflexivity|exists v; split; [exact N|reflexivity]]]].
    split; [exact F|split; [exact W|]].
    apply trel_direct; [exact TR|exact N|]. unfold direct. cbn [u_decl u_crossed].
    destruct (d_kind (decl_of i v)); reflexivity.
  - unfold lookup_and_mark. rewrite LL.
    destruct (outer_loop (p_heap p) x (p_stack p)) as [[i sc]|] eqn:O; [|reflexivity].
    destruct (outer_suffix _ _ _ _ _ O) as (pre & s & r & E1 & E2 & As & Ac).
    destruct (outer_suffix _ _ _ _ _ LL) as (pre2 & s2 & r2 & E3 & E4 & _).
    destruct (nth_error (p_heap p) i) as [v|] eqn:N;
      [|unfold active in Ac; rewrite N in Ac; discriminate Ac].
    assert (NSC : sc <> []) by (rewrite E2; discriminate).
    pose proof (own_between _ _ _ E3 NSC) as OB. rewrite OB.
    destruct (vtype_cases _ (VT _ _ N)) as [(K & L1 & L2)|(K & L1 & L2)]; rewrite L1, L2.
    + cbn [negb andb]. rewrite orb_true_r. eexists _, _. split; [reflexivity|].
      cbn [p_heap p_stack].
      split; [|split; [apply hle_refl|split; [reflexivity|exists v; split; [exact N|reflexivity]]]].
      split; [exact F|split; [exact W|]].
      apply trel_direct; [exact TR|exact N|]. unfold direct. cbn [u_decl decl_of d_kind].
      rewrite K. reflexivity.
    + cbn [negb andb orb]. rewrite orb_false_r.
      destruct (between (p_stack p) (length sc)) as [|f cr] eqn:Bt.
      * cbn [negb]. eexists _, _. split; [reflexivity|]. cbn [p_heap p_stack].
        split; [|split; [apply hle_refl|split; [reflexivity|exists v; split; [exact N|reflexivity]]]].
        split; [exact F|split; [exact W|]].
        apply trel_direct; [exact TR|exact N|]. unfold direct. cbn [u_decl u_crossed].
        destruct (d_kind (decl_of i v)); reflexivity.
      * cbn [negb]. fold (mark_type (v_type v)). fold (own_id sc).
        destruct (mark_kind _ (VT _ _ N) K) as (MK & MI & MV).
        set (h' := set_var (p_heap p) i (set_type (mark_type (v_type v)))).
        assert (HL : hle (p_heap p) h').
        { split; [unfold h'; rewrite set_var_len; lia|]. intros j w Nj. unfold h'.
          rewrite set_var_nth. destruct (Nat.eqb_spec i j) as [<-|Ne].
          - rewrite Nj. assert (w = v) as -> by congruence. cbn [option_map].
            exists (set_type (mark_type (v_type v)) v). auto.
          - exists w; auto. }
        assert (Ni : nth_error h' i = Some (set_type (mark_type (v_type v)) v))
          by (apply set_var_same; exact N).
        assert (DI : decl_of i (set_type (mark_type (v_type v)) v) = decl_of i v)
          by (unfold decl_of; cbn [set_type v_type v_const]; rewrite MK; reflexivity).
        eexists _, _. split; [reflexivity|]. cbn [p_heap p_stack].
        split; [|split; [exact HL|split; [reflexivity|]]].
        2:{ eexists. split; [exact Ni|reflexivity]. }
        assert (VT' : forall j w, nth_error h' j = Some w -> vtype (v_type w)).
        { intros j w Nj. unfold h' in Nj. rewrite set_var_nth in Nj.
          destruct (Nat.eqb_spec i j) as [<-|Ne]; [|apply (VT _ _ Nj)].
          rewrite N in Nj. cbn [option_map] in Nj. injection Nj as <-. exact MV. }
        split; [|split].
        -- cbn [p_heap p_stack]. eapply brels_hle; [exact HL|exact LT|exact F].
        -- split; [exact ND|split; [|exact VT']]. cbn [p_stack]. intros j I1.
           destruct HL as [HL _]. cbn [p_heap]. pose proof (LT j I1). lia.
        -- destruct TR as (T1 & T2 & T3 & T4 & T5 & T6). unfold trel.
           cbn [p_heap p_funs p_log p_refs t_decls t_funs t_uses].
           split; [unfold h'; rewrite set_var_len; exact T1|split; [exact T2|]].
           split; [|split; [|split]].
           ++ rewrite map_app, T3. cbn [map u_decl decl_of d_id]. unfold direct.
              cbn [u_decl u_crossed decl_of d_kind].
              destruct (kind_t (v_type v)); [reflexivity|reflexivity|contradiction].
           ++ intros g q. rewrite mark_in, reaches_app, T4. cbn [u_decl u_crossed u_owner].
              rewrite E1 at 1. rewrite between_frame, <- E1, Bt.
              unfold decl_of at 1. cbn [d_kind]. intuition congruence.
           ++ intros j w Nj. rewrite shared_app. cbn [u_decl u_crossed].
              destruct (Nat.eq_dec i j) as [<-|Ne].
              ** assert (w = set_type (mark_type (v_type v)) v) as -> by congruence.
                 rewrite DI. cbn [set_type v_type]. split.
                 --- intros _. right. split; [exact K|split; [reflexivity|discriminate]].
                 --- intros _. exact MI.
              ** unfold h' in Nj. rewrite set_var_diff in Nj by exact Ne.
                 rewrite (T5 j w Nj). split; [auto|]. intros [H|(_ & Dj & _)]; [exact H|].
                 exfalso. apply Ne. unfold decl_of in Dj. congruence.
           ++ intros u I1. apply in_app_or in I1. destruct I1 as [I1|[<-|[]]].
              ** destruct (T6 u I1) as (w & Nw & Dw).
                 destruct (hle_decl _ _ _ _ HL Nw) as (w' & Nw' & Dw' & _).
                 exists w'. split; [exact Nw'|]. rewrite Dw'. exact Dw.
              ** cbn [u_decl decl_of d_id]. exists (set_type (mark_type (v_type v)) v).
                 split; [exact Ni|]. symmetry. exact DI.
Qed.

(** * Defining *)

Definition alloc (p : prog) (s : scope) (r : list scope) (x : Z) (v : var) : prog :=
  P (Sc (s_fun s) (s_defer s) ((x, length (p_heap p)) :: s_vars s) :: r)
    (p_heap p ++ [v]) (p_refs p) (p_log p) (p_funs p).

Lemma trel_alloc : forall t p s r x v, trel t p -> indep (v_type v) = false ->
  trel (T (S (t_decls t)) (t_funs t) (t_uses t)) (alloc p s r x v).
Proof.
  intros t p s r x v (T1 & T2 & T3 & T4 & T5 & T6) NI. unfold trel, alloc.
  cbn [p_heap p_funs p_log p_refs t_decls t_funs t_uses].
  split; [rewrite app_length, T1; cbn [length]; lia|].
  split; [exact T2|split; [exact T3|split; [exact T4|split]]].
  - intros j w Nj. destruct (nth_end_inv _ _ _ _ _ Nj) as [Nj'|[-> ->]]; [exact (T5 _ _ Nj')|].
    rewrite NI. split; [discriminate|]. intros (_ & u & I1 & Du & _). exfalso.
    destruct (T6 u I1) as (w & Nw & _). rewrite Du in Nw. cbn [decl_of d_id] in Nw.
    assert (length (p_heap p) < length (p_heap p))%nat by (apply nth_error_Some; congruence). lia.
  - intros u I1. destruct (T6 u I1) as (w & Nw & Dw). exists w. split; [|exact Dw].
    rewrite nth_error_app1; [exact Nw|]. apply nth_error_Some; congruence.
Qed.

Definition added (x : Z) (n : nat) (v : var) (b : blk) : blk :=
  if v_act v =? 0 then name1 x b else show x (decl_of n v) (name1 x b).

Lemma rel_alloc : forall cur outer t p s r x v, rel (cur :: outer) t p -> p_stack p = s :: r ->
  (v_act v <> 0 \/ assoc x (s_vars s) = None) -> vtype (v_type v) -> indep (v_type v) = false ->
  rel (added x (t_decls t) v cur :: outer) (T (S (t_decls t)) (t_funs t) (t_uses t))
      (alloc p s r x v).
Proof.
  intros cur outer t p s r x v (F & W & TR) St NA VTv NI. rewrite St in F, W.
  pose proof TR as (T1 & _). pose proof W as (ND & LT & VT).
  split; [|split; [|apply trel_alloc; assumption]].
  - unfold alloc. cbn [p_stack p_heap]. inversion F as [|? ? ? ? Hb Hf]; subst. constructor.
    + destruct Hb as (F1 & Df & Nm & A). unfold added. rewrite T1.
      assert (VO : forall y, y <> x ->
        vis (p_heap p ++ [v]) (Sc (s_fun s) (s_defer s) ((x, length (p_heap p)) :: s_vars s)) y
        = vis (p_heap p) s y).
      { intros y Ny. rewrite <- (hle_vis _ _ s y (hle_app (p_heap p) v)).
        - unfold vis. cbn [s_vars assoc]. destruct (Z.eqb_spec y x); [contradiction|reflexivity].
        - intros i I1. apply LT. cbn [ids flat_map]. apply in_or_app; left; exact I1. }
      assert (VX : vis (p_heap p ++ [v])
                     (Sc (s_fun s) (s_defer s) ((x, length (p_heap p)) :: s_vars s)) x
        = if v_act v =? 0 then None else Some (decl_of (length (p_heap p)) v)).
      { unfold vis. cbn [s_vars assoc]. rewrite Z.eqb_refl, nth_end. reflexivity. }
      destruct (Z.eqb_spec (v_act v) 0) as [Z0|Z0].
      * split; [exact F1|split; [exact Df|split]].
        -- cbn [name1 b_names s_vars map fst]. rewrite Nm. reflexivity.
        -- intros y. cbn [name1 b_vis]. rewrite A. destruct (Z.eq_dec y x) as [->|Ny].
           ++ rewrite VX. destruct NA as [NA|NA]; [contradiction|]. unfold vis. rewrite NA. reflexivity.
           ++ rewrite VO by exact Ny. reflexivity.
      * split; [exact F1|split; [exact Df|split]].
        -- cbn [show name1 b_names s_vars map fst]. rewrite Nm. reflexivity.
        -- intros y. cbn [show name1 b_vis assoc]. destruct (Z.eqb_spec y x) as [->|Ny].
           ++ rewrite VX. reflexivity.
           ++ rewrite A. rewrite VO by exact Ny. reflexivity.
    + eapply brels_hle; [apply hle_app| |exact Hf]. intros i I1. apply LT.
      cbn [ids flat_map]. apply in_or_app; right; exact I1.
  - unfold alloc. cbn [p_stack p_heap].
    assert (NDx : NoDup (length (p_heap p) :: ids (s :: r))).
    { constructor; [|exact ND]. intros I1. pose proof (LT _ I1). lia. }
    split; [exact NDx|split].
    + intros i I1. rewrite app_length. cbn [length].
      cbn [ids flat_map ids1 s_vars map snd app In] in I1. destruct I1 as [<-|I1]; [lia|].
      assert (i < length (p_heap p))%nat by (apply LT; exact I1). lia.
    + intros i w Nw. destruct (nth_end_inv _ _ _ _ _ Nw) as [Nw'|[-> ->]];
        [exact (VT _ _ Nw')|exact VTv].
Qed.

Lemma ext_alloc : forall p s r x v, p_stack p = s :: r -> assoc x (s_vars s) = None ->
  ext p (alloc p s r x v).
Proof.
  intros p s r x v St NA. split; [apply hle_app|]. eexists s, _, r.
  split; [exact St|split; [reflexivity|]]. intros y i A. cbn [s_vars assoc].
  destruct (Z.eqb_spec y x); [congruence|exact A].
Qed.

Lemma ext_trans : forall a b c, ext a b -> ext b c -> ext a c.
Proof.
  intros a b c (H1 & s1 & s1' & r1 & A1 & B1 & C1) (H2 & s2 & s2' & r2 & A2 & B2 & C2).
  split; [eapply hle_trans; eassumption|].
  assert (s2 = s1' /\ r2 = r1) as [-> ->] by (split; congruence).
  exists s1, s2', r1. repeat split; auto.
Qed.

Lemma ext_refl : forall p s r, p_stack p = s :: r -> ext p p.
Proof. intros p s r H. split; [apply hle_refl|]. exists s, s, r. auto. Qed.

Lemma taken_none : forall h b s outer r x, Forall2 (brel h) (b :: outer) (s :: r) ->
  taken x (b :: outer) = false -> assoc x (s_vars s) = None.
Proof.
  intros h b s outer r x F Tk. inversion F as [|? ? ? ? Hb Hf]; subst.
  destruct Hb as (_ & _ & N & _). cbn [taken] in Tk. rewrite N, assoc_names in Tk.
  destruct (assoc x (s_vars s)); [discriminate Tk|reflexivity].
Qed.

Lemma rel_stack : forall cur outer t p, rel (cur :: outer) t p -> exists s r, p_stack p = s :: r.
Proof.
  intros cur outer t p (F & _). destruct (p_stack p) as [|s r]; [inversion F|eauto].
Qed.

Lemma rel_fresh : forall cur outer t p x s r, rel (cur :: outer) t p -> p_stack p = s :: r ->
  taken x (cur :: outer) = false -> assoc x (s_vars s) = None.
Proof.
  intros cur outer t p x s r (F & _) St Tk. rewrite St in F. eapply taken_none; eassumption.
Qed.

Lemma define_ok : forall inter cur outer t p c pub x s r, rel (cur :: outer) t p ->
  p_stack p = s :: r -> taken x (cur :: outer) = false ->
  define_var inter p c pub x = MOk (length (p_heap p),
    alloc p s r x (V (match kind_of inter outer pub with KGlobal => VAR_GLOBAL | _ => VAR_LOCAL end)
                     c VAR_ALWAYS_ACTIVE)).
Proof.
  intros inter cur outer t p c pub x s r (F & W & TR) St Tk. unfold define_var.
  rewrite (find_taken _ _ _ x F), Tk. unfold alloc_var. rewrite St.
  assert (E1 : (pub || inter && match s :: r with [_] => true | _ => false end)
    = match kind_of inter outer pub with KGlobal => true | _ => false end).
  { rewrite St in F. inversion F as [|? ? ? ? Hb Hf]; subst. unfold kind_of.
    destruct pub; [reflexivity|]. destruct Hf; destruct inter; reflexivity. }
  rewrite E1. unfold alloc. destruct (kind_of inter outer pub); reflexivity.
Qed.

Lemma define_err : forall inter cur outer t p c pub x, rel (cur :: outer) t p ->
  taken x (cur :: outer) = true -> define_var inter p c pub x = MErr (E_REDEFINED x).
Proof.
  intros inter cur outer t p c pub x (F & W & TR) Tk. unfold define_var.
  rewrite (find_taken _ _ _ x F), Tk. reflexivity.
Qed.

Definition pend (p : prog) (xd : Z * decl) (xi : Z * nat) : Prop :=
  fst xd = fst xi /\ exists s r v, p_stack p = s :: r /\ assoc (fst xi) (s_vars s) = Some (snd xi) /\
    nth_error (p_heap p) (snd xi) = Some v /\ v_act v = 0 /\ snd xd = decl_of (snd xi) v.

Lemma pend_ext : forall p p' xd xi, ext p p' -> pend p xd xi -> pend p' xd xi.
Proof.
  intros p p' xd xi (H & s & s' & r & A1 & B1 & C1) (E1 & s0 & r0 & v & St & As & N & Av & Dv).
  assert (s0 = s /\ r0 = r) as [-> ->] by (split; congruence).
  destruct (hle_decl _ _ _ _ H N) as (v' & N' & D' & A').
  split; [exact E1|]. exists s', r, v'. repeat split; auto; congruence.
Qed.

Lemma Forall2_pend_ext : forall p p' ds is, ext p p' ->
  Forall2 (pend p) ds is -> Forall2 (pend p') ds is.
Proof. intros p p' ds is X F. induction F; constructor; auto. eapply pend_ext; eassumption. Qed.

Lemma kind_type : forall k, k <> KArg ->
  kind_t (match k with KGlobal => VAR_GLOBAL | _ => VAR_LOCAL end) = k /\
  vtype (match k with KGlobal => VAR_GLOBAL | _ => VAR_LOCAL end) /\
  indep (match k with KGlobal => VAR_GLOBAL | _ => VAR_LOCAL end) = false.
Proof. intros [] N; cbv; repeat split; auto; contradiction. Qed.

Lemma kind_of_arg : forall inter outer pub, kind_of inter outer pub <> KArg.
Proof.
  intros inter outer pub. unfold kind_of. destruct pub; [discriminate|].
  destruct outer; [destruct inter|]; discriminate.
Qed.

Lemma var_node_sim : forall inter outer c pub xs cur t p, rel (cur :: outer) t p ->
  match declare outer cur (kind_of inter outer pub) c (t_decls t) xs with
  | Ok (cur', ds, n) => exists is p', var_node inter p c pub xs = MOk (is, p') /\
      rel (cur' :: outer) (T n (t_funs t) (t_uses t)) p' /\ ext p p' /\
      Forall2 (pend p') ds is /\ NoDup (map snd is) /\
      (forall i, In i (map snd is) -> (length (p_heap p) <= i < length (p_heap p'))%nat)
  | Err e => var_node inter p c pub xs = MErr e
  end.
Proof.
  intros inter outer c pub. set (k := kind_of inter outer pub).
  pose proof (kind_of_arg inter outer pub) as NK. fold k in NK.
  destruct (kind_type k NK) as (KT & VTk & IDk).
  induction xs as [|x xs IH]; intros cur t p R; cbn [declare var_node].
  - destruct (rel_stack _ _ _ _ R) as (s & r & St).
    exists [], p. split; [reflexivity|]. split; [destruct t; exact R|].
    split; [eapply ext_refl; exact St|]. split; [constructor|]. split; [constructor|].
    intros i [].
  - destruct (taken x (cur :: outer)) eqn:Tk.
    + rewrite (define_err inter _ _ _ _ c pub x R Tk). reflexivity.
    + destruct (rel_stack _ _ _ _ R) as (s & r & St).
      rewrite (define_ok inter _ _ _ _ c pub x s r R St Tk). cbn [mbind]. fold k.
      set (ty := match k with KGlobal => VAR_GLOBAL | _ => VAR_LOCAL end) in *.
      assert (UA : upd (alloc p s r x (V ty c VAR_ALWAYS_ACTIVE)) (length (p_heap p))
                     (set_act VAR_INACTIVE) = alloc p s r x (V ty c 0)).
      { unfold upd, alloc. cbn [p_heap p_stack p_refs p_log p_funs]. rewrite set_var_end. reflexivity. }
      rewrite UA.
      pose proof (rel_fresh _ _ _ _ _ _ _ R St Tk) as NA.
      assert (R1 : rel (name1 x cur :: outer) (T (S (t_decls t)) (t_funs t) (t_uses t))
                     (alloc p s r x (V ty c 0))).
      { apply (rel_alloc cur outer t p s r x (V ty c 0) R St); auto. }
      specialize (IH _ _ _ R1). cbn [t_decls t_funs t_uses] in IH.
      destruct (declare outer (name1 x cur) k c (S (t_decls t)) xs) as [[[cur' ds] n]|e];
        cbn [vbind].
      * destruct IH as (is & p' & Ev & R' & X & Pd & Nd & Bd). rewrite Ev. cbn [mbind].
        exists ((x, length (p_heap p)) :: is), p'. split; [reflexivity|]. split; [exact R'|].
        assert (X1 : ext p (alloc p s r x (V ty c 0))) by (apply ext_alloc; assumption).
        assert (Lb : length (p_heap (alloc p s r x (V ty c 0))) = S (length (p_heap p)))
          by (unfold alloc; cbn [p_heap]; rewrite app_length; cbn [length]; lia).
        rewrite Lb in Bd. pose proof X as ((Lx & _) & _). rewrite Lb in Lx.
        split; [eapply ext_trans; eassumption|]. split; [|split].
        -- constructor; [|exact Pd]. eapply pend_ext; [exact X|].
           split; [reflexivity|]. unfold alloc. cbn [p_stack p_heap fst snd].
           eexists _, _, _. split; [reflexivity|]. cbn [s_vars assoc].
           rewrite Z.eqb_refl. split; [reflexivity|]. split; [apply nth_end|].
           split; [reflexivity|]. pose proof R as (_ & _ & (T1 & _)). rewrite T1.
           unfold decl_of. cbn [v_type v_const]. rewrite KT. reflexivity.
        -- cbn [map snd]. constructor; [|exact Nd]. intros I1. pose proof (Bd _ I1). lia.
        -- intros i [<-|I1]; [cbn [snd]; lia|]. pose proof (Bd _ I1). lia.
      * rewrite IH. reflexivity.
Qed.

Lemma active_spec : forall h i v, nth_error h i = Some v -> active h i = negb (v_act v =? 0).
Proof. intros h i v N. unfold active. rewrite N. reflexivity. Qed.

Lemma rel_show : forall cur outer t p x d i, rel (cur :: outer) t p -> pend p (x, d) (x, i) ->
  rel (show x d cur :: outer) t (upd p i (set_act VAR_ACTIVE)).
Proof.
  intros cur outer t p x d i (F & W & TR) (_ & s & r & v & St & As & N & Av & Dv).
  cbn [fst snd] in *. pose proof W as (ND & LT & VT). rewrite St in ND.
  destruct (NoDup_top _ _ ND) as (N1 & N2 & N3). subst d.
  split; [|split; [|apply trel_act; exact TR]]; unfold upd; cbn [p_stack p_heap].
  - rewrite St in *. inversion F as [|? ? ? ? Hb Hf]; subst. constructor.
    + apply brel_show; auto. discriminate.
    + apply brels_other; [|exact Hf]. apply N3. eapply assoc_id; exact As.
  - apply wf_set; [exact W|]. auto.
Qed.

Lemma rel_hide : forall cur outer t p x i v s r, rel (cur :: outer) t p -> p_stack p = s :: r ->
  assoc x (s_vars s) = Some i -> nth_error (p_heap p) i = Some v ->
  rel (hide x cur :: outer) t (upd p i (set_act VAR_INACTIVE)).
Proof.
  intros cur outer t p x i v s r (F & W & TR) St As N.
  pose proof W as (ND & LT & VT). rewrite St in ND.
  destruct (NoDup_top _ _ ND) as (N1 & N2 & N3).
  split; [|split; [|apply trel_act; exact TR]]; unfold upd; cbn [p_stack p_heap].
  - rewrite St in *. inversion F as [|? ? ? ? Hb Hf]; subst. constructor.
    + eapply brel_hide; eauto.
    + apply brels_other; [|exact Hf]. apply N3. eapply assoc_id; exact As.
  - apply wf_set; [exact W|]. auto.
Qed.

Lemma activate_sim : forall outer t ds is cur p, rel (cur :: outer) t p ->
  Forall2 (pend p) ds is -> NoDup (map snd is) ->
  exists p', activate_new p is = MOk p' /\ rel (show_all ds cur :: outer) t p' /\
    p_stack p' = p_stack p /\
    forall h, hle h (p_heap p) -> (forall i, In i (map snd is) -> (length h <= i)%nat) ->
      hle h (p_heap p').
Proof.
  intros outer t ds.
  induction ds as [|[x d] ds IH]; intros is cur p R Pd Nd; inversion Pd as [|? [y i] ? is' P1 P2]; subst.
  - exists p. split; [reflexivity|]. split; [exact R|]. split; [reflexivity|]. intros h H _; exact H.
  - pose proof P1 as (E1 & s & r & v & St & As & N & Av & Dv). cbn [fst snd] in E1, As, N, Dv. subst y.
    cbn [activate_new]. rewrite St, As, Nat.eqb_refl.
    rewrite (active_spec _ _ _ N), Av, Z.eqb_refl. cbn [negb].
    pose proof (rel_show _ _ _ _ _ _ _ R P1) as R1.
    cbn [map snd] in Nd. inversion Nd as [|? ? Nd1 Nd2]; subst.
    assert (P2' : Forall2 (pend (upd p i (set_act VAR_ACTIVE))) ds is').
    { clear IH R R1 P1 Nd Pd. induction P2 as [|[x1 d1] [y1 i1] ds is' Pa Pb IHp]; constructor.
      - destruct Pa as (E1 & s1 & r1 & v1 & St1 & As1 & N1 & Av1 & Dv1). split; [exact E1|].
        exists s1, r1, v1. unfold upd. cbn [p_stack p_heap fst snd] in *.
        rewrite set_var_diff; [auto|]. intros ->. apply Nd1. left; reflexivity.
      - apply IHp; [intros I1; apply Nd1; right; exact I1|]. inversion Nd2; assumption. }
    destruct (IH _ _ _ R1 P2' Nd2) as (p' & Ea & R' & St' & H').
    exists p'. split; [exact Ea|]. split; [exact R'|]. split; [rewrite St'; exact St|].
    intros h Hh Lh. apply H'.
    + unfold upd. cbn [p_heap]. apply hle_fresh; [exact Hh|]. apply Lh. left; reflexivity.
    + intros j I1. apply Lh. right; exact I1.
Qed.

Lemma params_sim : forall inter outer (ell : bool) xs cur t p, rel (cur :: outer) t p -> outer <> [] ->
  match declare_params outer cur (if ell then KLocal else KArg) (t_decls t) xs with
  | Ok (cur', n) => exists p', params inter p ell xs = MOk p' /\
      rel (cur' :: outer) (T n (t_funs t) (t_uses t)) p' /\ ext p p'
  | Err e => params inter p ell xs = MErr e
  end.
Proof.
  intros inter outer ell.
  induction xs as [|x xs IH]; intros cur t p R NE; cbn [declare_params params].
  - destruct (rel_stack _ _ _ _ R) as (s & r & St).
    exists p. split; [reflexivity|]. split; [destruct t; exact R|]. eapply ext_refl; exact St.
  - destruct (taken x (cur :: outer)) eqn:Tk.
    + rewrite (define_err inter _ _ _ _ false false x R Tk). reflexivity.
    + destruct (rel_stack _ _ _ _ R) as (s & r & St).
      rewrite (define_ok inter _ _ _ _ false false x s r R St Tk). cbn [mbind].
      assert (KL : kind_of inter outer false = KLocal)
        by (unfold kind_of; destruct outer; [contradiction|reflexivity]).
      rewrite KL. pose proof (rel_fresh _ _ _ _ _ _ _ R St Tk) as NA.
      set (v := V (if ell then VAR_LOCAL else VAR_ARGUMENT) false VAR_ALWAYS_ACTIVE).
      assert (UA : (if ell then alloc p s r x (V VAR_LOCAL false VAR_ALWAYS_ACTIVE)
                    else upd (alloc p s r x (V VAR_LOCAL false VAR_ALWAYS_ACTIVE)) (length (p_heap p))
                     (set_type VAR_ARGUMENT)) = alloc p s r x v).
      { unfold v. destruct ell; [reflexivity|]. unfold upd, alloc.
        cbn [p_heap p_stack p_refs p_log p_funs]. rewrite set_var_end. reflexivity. }
      rewrite UA.
      assert (R1 : rel (show x (D (t_decls t) (if ell then KLocal else KArg) false) (name1 x cur) :: outer)
                     (T (S (t_decls t)) (t_funs t) (t_uses t)) (alloc p s r x v)).
      { pose proof (rel_alloc cur outer t p s r x v R St) as RA. unfold v in RA |- *.
        destruct ell; apply RA; auto; unfold vtype; cbn; auto. }
      specialize (IH _ _ _ R1 NE). cbn [t_decls t_funs t_uses] in IH.
      destruct (declare_params outer _ _ (S (t_decls t)) xs) as [[cur' n]|e]; [|exact IH].
      destruct IH as (p' & Ev & R' & X). exists p'. split; [exact Ev|]. split; [exact R'|].
      eapply ext_trans; [|exact X]. apply ext_alloc; assumption.
Qed.

(** * Visiting *)

Definition fvrel (p : prog) (fv : option (Z * decl)) (mfv : option nat) : Prop :=
  match fv, mfv with
  | None, None => True
  | Some (x, d), Some i => pend p (x, d) (x, i)
  | _, _ => False
  end.

Lemma fvrel_ext : forall p p' fv mfv, ext p p' -> fvrel p fv mfv -> fvrel p' fv mfv.
Proof.
  intros p p' [[x d]|] [i|] X H; cbn [fvrel] in *; auto. eapply pend_ext; eassumption.
Qed.

Definition goal (inter : bool) (outer : list blk) (cur : blk) (fv : option (Z * decl)) (t : trace)
    (p : prog) (mfv : option nat) (nd : node) : Prop :=
  match sem inter outer cur fv t nd with
  | Ok (cur', t') => exists p', visit inter mfv p nd = MOk p' /\ rel (cur' :: outer) t' p' /\ ext p p'
  | Err e => visit inter mfv p nd = MErr e
  end.

(** Entering and leaving a scope. *)
Lemma rel_push : forall env t p s b n, rel env t p -> s_vars s = [] -> b_vis b = [] ->
  b_names b = [] -> b_fun b = s_fun s -> b_defer b = s_defer s -> n = t_funs t \/ True ->
  forall f, rel (b :: env) (T (t_decls t) f (t_uses t))
      (P (s :: p_stack p) (p_heap p) (p_refs p) (p_log p) f).
Proof.
  intros env t p s b n (F & W & TR) Sv Bv Bn Bf Bd _ f. split; [|split].
  - cbn [p_stack p_heap]. constructor; [|exact F]. split; [exact Bf|split; [exact Bd|split]].
    + rewrite Sv, Bn. reflexivity.
    + intros x. unfold vis. rewrite Sv, Bv. reflexivity.
  - destruct W as (ND & LT & VT). cbn [p_stack p_heap]. unfold wf, ids, ids1 in *.
    cbn [flat_map]. rewrite Sv. cbn [map app]. auto.
  - destruct TR as (T1 & T2 & T3 & T4 & T5 & T6).
    unfold trel. cbn [p_heap p_funs p_log p_refs t_decls t_funs t_uses]. auto 8.
Qed.

Lemma rel_pop : forall b env t p s r q, rel (b :: env) t p -> p_stack p = s :: r ->
  Forall2 (brel (p_heap p)) q r -> rel q t (pop_scope p).
Proof.
  intros b env t p s r q (F & W & TR) St Q. unfold pop_scope. rewrite St. cbn [tl].
  split; [exact Q|]. split; [|exact TR]. cbn [p_stack p_heap]. rewrite St in W.
  eapply wf_tl; exact W.
Qed.

Lemma ext_stack : forall p p' s r, ext p p' -> p_stack p = s :: r ->
  exists s', p_stack p' = s' :: r.
Proof.
  intros p p' s r (_ & s0 & s' & r0 & A1 & B1 & _) St. exists s'. congruence.
Qed.

Lemma sim : forall inter nd outer cur fv t p mfv, rel (cur :: outer) t p -> fvrel p fv mfv ->
  goal inter outer cur fv t p mfv nd.
Proof.
  intros inter. induction nd as [|a IHa b IHb|dfr a IHa|x|x|c pub xs rhs IHr|pub x parts IHp
    |self ps ell body IHb defs IHd|c x body IHb| |a IHa]; intros outer cur fv t p mfv R FV;
    destruct (rel_stack _ _ _ _ R) as (s & r & St); unfold goal; cbn [sem visit].
  - exists p. split; [reflexivity|]. split; [exact R|]. eapply ext_refl; exact St.
  - specialize (IHa outer cur fv t p mfv R FV). unfold goal in IHa.
    destruct (sem inter outer cur fv t a) as [[cur1 t1]|e]; cbn [vbind].
    + destruct IHa as (p1 & E1 & R1 & X1). rewrite E1. cbn [mbind].
      specialize (IHb outer cur1 fv t1 p1 mfv R1 (fvrel_ext _ _ _ _ X1 FV)). unfold goal in IHb.
      destruct (sem inter outer cur1 fv t1 b) as [[cur2 t2]|e]; [|exact IHb].
      destruct IHb as (p2 & E2 & R2 & X2). exists p2. split; [exact E2|]. split; [exact R2|].
      eapply ext_trans; eassumption.
    + rewrite IHa. reflexivity.
  - assert (R0 : rel (B None dfr [] [] :: cur :: outer) t (push_scope p dfr)).
    { pose proof R as (_ & _ & (_ & T2 & _)).
      pose proof (rel_push _ _ _ (Sc None dfr []) (B None dfr [] []) 0 R eq_refl eq_refl eq_refl
                    eq_refl eq_refl (or_intror Logic.I) (p_funs p)) as G.
      unfold push_scope. rewrite <- T2 in G at 1. destruct t; exact G. }
    specialize (IHa _ _ None t _ None R0 Logic.I). unfold goal in IHa.
    destruct (sem inter (cur :: outer) (B None dfr [] []) None t a) as [[cur1 t1]|e]; cbn [vbind].
    + destruct IHa as (p1 & E1 & R1 & X1). rewrite E1. cbn [mbind].
      exists (pop_scope p1). split; [reflexivity|].
      destruct (ext_stack _ _ _ _ X1 eq_refl) as (s1 & St1).
      pose proof R1 as (F1 & _). rewrite St1 in F1. inversion F1 as [|? ? ? ? _ Hf]; subst.
      split; [eapply rel_pop; eassumption|]. destruct X1 as (H1 & _). split; [exact H1|].
      exists s, s, r. unfold pop_scope. cbn [p_stack]. rewrite St1. auto.
    + rewrite IHa. reflexivity.
  - pose proof (lookup_sim _ _ _ x R ltac:(discriminate)) as L.
    destruct (refer (cur :: outer) x t) as [[d t1]|e]; cbn [vbind].
    + destruct L as (i & p1 & E1 & R1 & H1 & S1 & _). rewrite E1. cbn [mbind].
      exists p1. split; [reflexivity|]. split; [exact R1|]. split; [exact H1|].
      exists s, s, r. rewrite S1. auto.
    + rewrite L. reflexivity.
  - pose proof (lookup_sim _ _ _ x R ltac:(discriminate)) as L.
    destruct (refer (cur :: outer) x t) as [[d t1]|e]; cbn [vbind].
    + destruct L as (i & p1 & E1 & R1 & H1 & S1 & v & N & C). rewrite E1. cbn [mbind].
      rewrite N, C. destruct (d_const d); [reflexivity|].
      exists p1. split; [reflexivity|]. split; [exact R1|]. split; [exact H1|].
      exists s, s, r. rewrite S1. auto.
    + rewrite L. reflexivity.
  - pose proof (var_node_sim inter outer c pub xs cur t p R) as G.
    destruct (declare outer cur (kind_of inter outer pub) c (t_decls t) xs) as [[[cur1 ds] n]|e];
      cbn [vbind]; [|rewrite G; reflexivity].
    destruct G as (is & p1 & E1 & R1 & X1 & Pd & Nd & Bd). rewrite E1. cbn [mbind].
    specialize (IHr _ _ None _ _ None R1 Logic.I). unfold goal in IHr.
    destruct (sem inter outer cur1 None (T n (t_funs t) (t_uses t)) rhs) as [[cur2 t2]|e];
      cbn [vbind]; [|rewrite IHr; reflexivity].
    destruct IHr as (p2 & E2 & R2 & X2). rewrite E2. cbn [mbind].
    destruct (activate_sim _ _ _ _ _ _ R2 (Forall2_pend_ext _ _ _ _ X2 Pd) Nd)
      as (p3 & E3 & R3 & S3 & H3).
    exists p3. split; [exact E3|]. split; [exact R3|].
    destruct (ext_trans _ _ _ X1 X2) as (H & s0 & s' & r' & A1 & B1 & C1).
    split; [|exists s0, s', r'; rewrite S3; auto]. apply H3; [exact H|].
    intros i I1. pose proof (Bd i I1). lia.
  - pose proof (var_node_sim inter outer true pub [x] cur t p R) as G.
    destruct (declare outer cur (kind_of inter outer pub) true (t_decls t) [x]) as [[[cur1 ds] n]|e];
      cbn [vbind]; [|rewrite G; reflexivity].
    destruct G as (is & p1 & E1 & R1 & X1 & Pd & Nd & Bd). rewrite E1. cbn [mbind].
    assert (Is : exists d i, ds = [(x, d)] /\ is = [(x, i)]).
    { clear - E1 Pd. cbn [var_node] in E1.
      destruct (define_var inter p true pub x) as [[i p0]|e0|]; cbn [mbind] in E1;
        [|discriminate E1|discriminate E1].
      injection E1 as <- _. inversion Pd as [|[y d] ? ? ? P1 P2]; subst. inversion P2; subst.
      destruct P1 as (Ey & _). cbn [fst] in Ey. subst y. eauto. }
    destruct Is as (d & i & -> & ->). cbn [hd_error].
    inversion Pd as [|? ? ? ? P1 _]; subst.
    pose proof P1 as (_ & s1 & r1 & v1 & St1 & As1 & N1 & Av1 & Dv1). cbn [fst snd] in *.
    rewrite (active_spec _ _ _ N1), Av1. cbn [Z.eqb negb].
    specialize (IHp _ _ (Some (x, d)) _ _ (Some i) R1 P1). unfold goal in IHp.
    destruct (sem inter outer cur1 (Some (x, d)) (T n (t_funs t) (t_uses t)) parts) as [[cur2 t2]|e];
      cbn [vbind]; [|rewrite IHp; reflexivity].
    destruct IHp as (p2 & E2 & R2 & X2). rewrite E2. cbn [mbind].
    destruct (activate_sim _ _ _ _ _ _ R2 (Forall2_pend_ext _ _ _ _ X2 Pd) Nd)
      as (p3 & E3 & R3 & S3 & H3).
    exists p3. split; [exact E3|]. split; [exact R3|].
    destruct (ext_trans _ _ _ X1 X2) as (H & s0 & s' & r' & A1 & B1 & C1).
    split; [|exists s0, s', r'; rewrite S3; auto]. apply H3; [exact H|].
    intros j I1. pose proof (Bd j I1). lia.
  - set (f := t_funs t).
    assert (R0 : rel (B (Some f) false [] [] :: cur :: outer) (T (t_decls t) (f + 1) (t_uses t))
                   (push_function p)).
    { pose proof R as (_ & _ & (_ & T2 & _)). unfold push_function. rewrite <- T2. fold f.
      apply (rel_push _ _ _ (Sc (Some f) false []) (B (Some f) false [] []) 0 R); auto. }
    pose proof (params_sim inter _ false ps _ _ _ R0 ltac:(discriminate)) as G1.
    cbn [t_decls t_funs t_uses] in G1.
    destruct (declare_params (cur :: outer) (B (Some f) false [] []) KArg (t_decls t) ps)
      as [[b1 n1]|e]; cbn [vbind]; [|rewrite G1; reflexivity].
    destruct G1 as (p1 & E1 & R1 & X1). rewrite E1. cbn [mbind].
    pose proof (params_sim inter _ true (match ell with Some x => [x] | None => [] end) _ _ _ R1
                  ltac:(discriminate)) as G2.
    cbn [t_decls t_funs t_uses] in G2.
    destruct (declare_params (cur :: outer) b1 KLocal n1 (match ell with Some x => [x] | None => [] end))
      as [[b2 n2]|e]; cbn [vbind]; [|rewrite G2; reflexivity].
    destruct G2 as (p2 & E2 & R2 & X2). rewrite E2. cbn [mbind].
    pose proof (ext_trans _ _ _ X1 X2) as X12.
    destruct (ext_stack _ _ (Sc (Some (p_funs p)) false []) (p_stack p) X12 eq_refl) as (fs & St2).
    rewrite St in St2.
    assert (H12 : hle (p_heap p) (p_heap p2)) by (destruct X12 as (H & _); exact H).
    (* the rest, once the body is done *)
    assert (LAST : forall t1 p5 b5, rel (b5 :: cur :: outer) t1 p5 -> hle (p_heap p) (p_heap p5) ->
      (exists s5, p_stack p5 = s5 :: s :: r) ->
      goal inter outer cur None t1 (pop_scope p5) None defs /\ ext p (pop_scope p5)).
    { intros t1 p5 b5 R5 H5 (s5 & St5). pose proof R5 as (F5 & _). rewrite St5 in F5.
      inversion F5 as [|? ? ? ? _ Hf]; subst.
      split; [apply IHd; [|exact Logic.I]; eapply rel_pop; eassumption|].
      split; [exact H5|]. exists s, s, r. unfold pop_scope. cbn [p_stack]. rewrite St5. auto. }
    assert (FIN : forall t1 p5 b5, rel (b5 :: cur :: outer) t1 p5 -> hle (p_heap p) (p_heap p5) ->
      (exists s5, p_stack p5 = s5 :: s :: r) ->
      match sem inter outer cur None t1 defs with
      | Ok (cur', t') => exists p', visit inter None (pop_scope p5) defs = MOk p' /\
          rel (cur' :: outer) t' p' /\ ext p p'
      | Err e => visit inter None (pop_scope p5) defs = MErr e
      end).
    { intros t1 p5 b5 R5 H5 S5. destruct (LAST t1 p5 b5 R5 H5 S5) as (G & X). unfold goal in G.
      destruct (sem inter outer cur None t1 defs) as [[cur' t']|e]; [|exact G].
      destruct G as (p' & E' & R' & X'). exists p'. split; [exact E'|]. split; [exact R'|].
      eapply ext_trans; eassumption. }
    assert (NOSELF :
      match vbind (sem inter (cur :: outer) b2 None (T n2 (f + 1) (t_uses t)) body)
              (fun '(_, t1) => sem inter outer cur None t1 defs) with
      | Ok (cur', t') => exists p',
          mbind (visit inter None p2 body) (fun p4 => visit inter None (pop_scope p4) defs) = MOk p' /\
          rel (cur' :: outer) t' p' /\ ext p p'
      | Err e =>
          mbind (visit inter None p2 body) (fun p4 => visit inter None (pop_scope p4) defs) = MErr e
      end).
    { specialize (IHb _ _ None _ _ None R2 Logic.I). unfold goal in IHb.
      destruct (sem inter (cur :: outer) b2 None (T n2 (f + 1) (t_uses t)) body) as [[b3 t3]|e];
        cbn [vbind]; [|rewrite IHb; reflexivity].
      destruct IHb as (p4 & E4 & R4 & X4). rewrite E4. cbn [mbind].
      apply (FIN t3 p4 b3 R4).
      - destruct X4 as (H4 & _). eapply hle_trans; eassumption.
      - eapply ext_stack; eassumption. }
    destruct self; [|destruct fv as [[x d]|]; exact NOSELF].
    destruct fv as [[x d]|], mfv as [i|]; cbn [fvrel] in FV; try contradiction; [|exact NOSELF].
    clear NOSELF. cbn [activate_self].
    destruct FV as (_ & s0 & r0 & v & St0 & As & Nv & Av & Dv). cbn [fst snd] in *.
    assert (s0 = s /\ r0 = r) as [-> ->] by (split; congruence).
    destruct (hle_decl _ _ _ _ H12 Nv) as (v2 & Nv2 & Dv2 & Av2).
    rewrite (active_spec _ _ _ Nv2), Av2, Av. cbn [Z.eqb negb mbind].
    assert (R3 : rel (b2 :: show x d cur :: outer) (T n2 (f + 1) (t_uses t))
                   (upd p2 i (set_act VAR_ACTIVE))).
    { pose proof R2 as (F2 & W2 & TR2). pose proof W2 as (ND2 & _). rewrite St2 in ND2, F2.
      destruct (NoDup_top _ _ ND2) as (Na & Nb & Nc).
      destruct (NoDup_top _ _ Nb) as (Nd & Ne & Nf).
      pose proof (assoc_id _ _ _ As) as Ii. fold (ids1 s) in Ii.
      inversion F2 as [|? ? ? ? Hb2 Hf2]; subst. inversion Hf2 as [|? ? ? ? Hc Ho]; subst.
      split; [|split; [|apply trel_act; exact TR2]]; unfold upd; cbn [p_stack p_heap].
      - rewrite St2. constructor; [|constructor].
        + assert (G : Forall2 (brel (set_var (p_heap p2) i (set_act VAR_ACTIVE))) [b2] [fs]).
          { apply brels_other; [|constructor; [exact Hb2|constructor]].
            cbn [ids flat_map]. rewrite app_nil_r. intros I1. apply (Nc i I1).
            cbn [ids flat_map]. apply in_or_app; left; exact Ii. }
          inversion G; assumption.
        + rewrite <- Dv2. apply brel_show; auto. discriminate.
        + apply brels_other; [|exact Ho]. apply Nf; exact Ii.
      - apply wf_set; [exact W2|]. auto. }
    specialize (IHb _ _ None _ _ None R3 Logic.I). unfold goal in IHb.
    destruct (sem inter (show x d cur :: outer) b2 None (T n2 (f + 1) (t_uses t)) body) as [[b3 t3]|e];
      cbn [vbind]; [|rewrite IHb; reflexivity].
    destruct IHb as (p4 & E4 & R4 & X4). rewrite E4. cbn [mbind deactivate_self].
    destruct (ext_stack _ _ fs (s :: r) X4 St2) as (s4 & St4).
    pose proof X4 as (H4 & _). unfold upd in H4. cbn [p_heap] in H4.
    destruct (hle_decl _ _ i _ H4 (set_var_same _ _ _ _ Nv2)) as (v4 & Nv4 & _ & Av4).
    cbn [set_act v_act] in Av4. rewrite Nv4, Av4. cbn [VAR_ACTIVE Z.eqb Pos.eqb mbind].
    assert (Av2' : v_act v2 = 0) by congruence.
    pose proof (hle_undo _ _ _ _ Nv2 Av2' H4) as H5.
    pose proof (hle_trans _ _ _ H12 H5) as H05.
    (* state after the function, before the scope is popped *)
    assert (R5 : exists b5, rel (b5 :: cur :: outer) t3 (upd p4 i (set_act VAR_INACTIVE))).
    { pose proof R4 as (F4 & W4 & TR4). rewrite St4 in F4. inversion F4 as [|? ? ? ? Hb4 Hf4]; subst.
      exists b3. split; [|split; [|apply trel_act; exact TR4]]; unfold upd; cbn [p_stack p_heap].
      - rewrite St4. pose proof W4 as (ND4 & _). rewrite St4 in ND4.
        destruct (NoDup_top _ _ ND4) as (Na & Nb & Nc).
        pose proof (assoc_id _ _ _ As) as Ii. fold (ids1 s) in Ii.
        constructor.
        + assert (G : Forall2 (brel (set_var (p_heap p4) i (set_act VAR_INACTIVE))) [b3] [s4]).
          { apply brels_other; [|constructor; [exact Hb4|constructor]].
            cbn [ids flat_map]. rewrite app_nil_r. intros I1. apply (Nc i I1).
            cbn [ids flat_map]. apply in_or_app; left; exact Ii. }
          inversion G; assumption.
        + pose proof R as (F0 & (_ & LT0 & _) & _). rewrite St in F0, LT0.
          eapply brels_hle; [exact H05|exact LT0|exact F0].
      - apply wf_set; [exact W4|]. auto. }
    destruct R5 as (b5 & R5). apply (FIN t3 _ b5 R5).
    + exact H05.
    + exists s4. exact St4.
  - pose proof (var_node_sim inter outer c false [x] cur t p R) as G.
    destruct (declare outer cur (kind_of inter outer false) c (t_decls t) [x]) as [[[cur1 ds] n]|e];
      cbn [vbind]; [|rewrite G; reflexivity].
    destruct G as (is & p1 & E1 & R1 & X1 & Pd & Nd & Bd). rewrite E1. cbn [mbind].
    assert (Is : exists d i, ds = [(x, d)] /\ is = [(x, i)]).
    { clear - E1 Pd. cbn [var_node] in E1.
      destruct (define_var inter p c false x) as [[i p0]|e0|]; cbn [mbind] in E1;
        [|discriminate E1|discriminate E1].
      injection E1 as <- _. inversion Pd as [|[y d] ? ? ? P1 P2]; subst. inversion P2; subst.
      destruct P1 as (Ey & _). cbn [fst] in Ey. subst y. eauto. }
    destruct Is as (d & i & -> & ->).
    inversion Pd as [|? ? ? ? P1 _]; subst.
    pose proof P1 as (_ & s1 & r1 & v1 & St1 & As1 & N1 & Av1 & Dv1). cbn [fst snd] in *.
    rewrite St1, As1, Nat.eqb_refl, (active_spec _ _ _ N1), Av1. cbn [Z.eqb negb andb].
    pose proof (rel_show _ _ _ _ _ _ _ R1 P1) as R1'.
    unfold show_all. cbn [fold_left fst snd].
    specialize (IHb _ _ None _ _ None R1' Logic.I). unfold goal in IHb.
    destruct (sem inter outer (show x d cur1) None (T n (t_funs t) (t_uses t)) body) as [[cur2 t2]|e];
      cbn [vbind]; [|rewrite IHb; reflexivity].
    destruct IHb as (p2 & E2 & R2 & X2). rewrite E2. cbn [mbind].
    eexists. split; [reflexivity|].
    pose proof X2 as (H2 & s0 & s' & r' & A1 & B1 & C1). unfold upd in A1, H2. cbn [p_stack p_heap] in A1, H2.
    assert (s0 = s1 /\ r' = r1) as [-> ->] by (split; congruence).
    destruct (hle_decl _ _ i _ H2 (set_var_same _ _ _ _ N1)) as (v2 & Nv2 & _).
    split; [eapply rel_hide; [exact R2|exact B1|apply C1; exact As1|exact Nv2]|].
    destruct X1 as (H1 & s0 & s1' & r0 & A0 & B0 & C0).
    assert (s1' = s1 /\ r0 = r1) as [-> ->] by (split; congruence).
    split.
    + unfold upd. cbn [p_heap]. eapply hle_trans; [exact H1|]. eapply hle_undo; eassumption.
    + exists s0, s', r1. unfold upd. cbn [p_stack]. auto.
  - pose proof R as (F & _). rewrite (in_fun_own _ _ _ F). rewrite St.
    destruct (frame_of (s :: r)) as [|s0 r0] eqn:Fr; [exfalso; eapply frame_nonnil; exact Fr|].
    destruct (is_fun s0); [|reflexivity].
    exists p. split; [reflexivity|]. split; [exact R|]. eapply ext_refl; exact St.
  - pose proof R as (F & _). rewrite (in_fun_own _ _ _ F). rewrite St.
    destruct (frame_of (s :: r)) as [|s0 r0] eqn:Fr; [exfalso; eapply frame_nonnil; exact Fr|].
    destruct (is_fun s0); [|reflexivity].
    apply IHa; [exact R|exact Logic.I].
Qed.

Lemma globals_sim : forall pre cur t p, rel [cur] t p ->
  exists p', init_globals p pre = MOk p' /\
    let '(n, b) := globals (t_decls t) cur pre in rel [b] (T n (t_funs t) (t_uses t)) p'.
Proof.
  induction pre as [|[x c] pre IH]; intros cur t p R; cbn [init_globals globals].
  - exists p. split; [reflexivity|]. destruct t; exact R.
  - destruct (rel_stack _ _ _ _ R) as (s & r & St). unfold alloc_var. rewrite St. cbn [mbind].
    assert (R1 : rel [show x (D (t_decls t) KGlobal c) (name1 x cur)]
                   (T (S (t_decls t)) (t_funs t) (t_uses t))
                   (alloc p s r x (V VAR_GLOBAL c VAR_ALWAYS_ACTIVE))).
    { apply (rel_alloc cur [] t p s r x (V VAR_GLOBAL c VAR_ALWAYS_ACTIVE) R St).
      - left; discriminate.
      - unfold vtype; cbn; auto.
      - reflexivity. }
    apply (IH _ _ _ R1).
Qed.

Lemma program_sim : forall inter pre nd,
  match sem_program inter pre nd with
  | Ok t => exists p, process_vars inter pre nd = MOk p /\ trel t p
  | Err e => process_vars inter pre nd = MErr e
  end.
Proof.
  intros inter pre nd. unfold sem_program, process_vars.
  assert (R0 : rel [B None false [] []] (T 0 1 []) (P [Sc None false []] [] [] [] 1)).
  { split; [|split].
    - cbn [p_stack p_heap]. constructor; [|constructor]. repeat split.
    - cbn [p_stack p_heap]. split; [constructor|]. split; [intros i []|].
      intros [|i] v H; discriminate H.
    - unfold trel. cbn [p_heap p_funs p_log p_refs t_decls t_funs t_uses length map In].
      split; [reflexivity|split; [reflexivity|split; [reflexivity|]]]. split; [|split].
      + intros f o. split; [intros []|]. intros (u & [] & _).
      + intros [|i] v H; discriminate H.
      + intros u []. }
  destruct (globals_sim pre _ _ _ R0) as (p1 & E1 & G). cbn [t_decls t_funs t_uses] in G.
  rewrite E1. cbn [mbind]. destruct (globals 0 (B None false [] []) pre) as [n b].
  pose proof (sim inter nd [] b None _ _ None G Logic.I) as H. unfold goal in H.
  destruct (sem inter [] b None (T n 1 []) nd) as [[cur t]|e]; cbn [vbind]; [|exact H].
  destruct H as (p & E2 & (_ & _ & TR) & _). exists p. auto.
Qed.
