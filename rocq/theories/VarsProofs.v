(** Resolution of names in core/kos_compiler_vars.c is lexical scoping. *)
From Coq Require Import ZArith List Lia Bool ZifyBool.
Import ListNotations.
From Verif Require Import Base ListZ VarsSpec VarsModel.
Local Open Scope Z_scope.
Ltac Zify.zify_post_hook ::= idtac.

(** * Relation of states *)

Definition kind_t (t : Z) : kind :=
  if t =? VAR_GLOBAL then KGlobal
  else if (t =? VAR_LOCAL) || (t =? VAR_INDEPENDENT_LOCAL) then KLocal else KArg.
Definition indep (t : Z) : bool := (t =? VAR_INDEPENDENT_LOCAL) || (t =? VAR_INDEPENDENT_ARGUMENT).
Definition vtype (t : Z) : Prop := t = 1 \/ t = 2 \/ t = 5 \/ t = 6 \/ t = 16.

Definition decl_of (i : nat) (v : var) : decl := D i (kind_t (v_type v)) (v_const v).

Definition vis (h : list var) (s : scope) (x : Z) : option decl :=
  match assoc x (s_vars s) with
  | Some i => match nth_error h i with
              | Some v => if v_act v =? 0 then None else Some (decl_of i v)
              | None => None
              end
  | None => None
  end.

Definition brel (h : list var) (b : blk) (s : scope) : Prop :=
  b_fun b = s_fun s /\ b_defer b = s_defer s /\ b_names b = map fst (s_vars s) /\
  forall x, assoc x (b_vis b) = vis h s x.

Definition ids1 (s : scope) : list nat := map snd (s_vars s).
Definition ids (stk : list scope) : list nat := flat_map ids1 stk.

Definition wf (stk : list scope) (h : list var) : Prop :=
  NoDup (ids stk) /\ (forall i, In i (ids stk) -> (i < length h)%nat) /\
  (forall i v, nth_error h i = Some v -> vtype (v_type v)).

Definition trel (t : trace) (p : prog) : Prop :=
  t_decls t = length (p_heap p) /\ t_funs t = p_funs p /\
  p_log p = map (fun u => (d_id (u_decl u), direct u)) (t_uses t) /\
  (forall f o, In (f, o) (p_refs p) <-> reaches (t_uses t) f o) /\
  (forall i v, nth_error (p_heap p) i = Some v ->
     (indep (v_type v) = true <-> shared (t_uses t) (decl_of i v))) /\
  (forall u, In u (t_uses t) -> exists v, nth_error (p_heap p) (d_id (u_decl u)) = Some v /\
     u_decl u = decl_of (d_id (u_decl u)) v).

Definition rel (env : list blk) (t : trace) (p : prog) : Prop :=
  Forall2 (brel (p_heap p)) env (p_stack p) /\ wf (p_stack p) (p_heap p) /\ trel t p.

Definition hle (h h' : list var) : Prop :=
  (length h <= length h')%nat /\
  forall i v, nth_error h i = Some v -> exists v', nth_error h' i = Some v' /\
    v_act v' = v_act v /\ v_const v' = v_const v /\ kind_t (v_type v') = kind_t (v_type v).

Definition ext (p p' : prog) : Prop :=
  hle (p_heap p) (p_heap p') /\
  exists s s' r, p_stack p = s :: r /\ p_stack p' = s' :: r /\
    forall y i, assoc y (s_vars s) = Some i -> assoc y (s_vars s') = Some i.

(** * Lists *)

Lemma set_var_len : forall h i f, length (set_var h i f) = length h.
Proof.
  induction h as [|v h IH]; intros [|i] f; cbn [set_var length]; try reflexivity.
  rewrite IH; reflexivity.
Qed.

Lemma set_var_nth : forall h i f j,
  nth_error (set_var h i f) j
  = if Nat.eqb i j then option_map f (nth_error h j) else nth_error h j.
Proof.
  induction h as [|v h IH]; intros [|i] f [|j]; cbn [set_var nth_error Nat.eqb option_map];
    try reflexivity.
  - destruct (Nat.eqb i j); reflexivity.
  - rewrite IH; reflexivity.
Qed.

Lemma set_var_same : forall h i f v, nth_error h i = Some v ->
  nth_error (set_var h i f) i = Some (f v).
Proof. intros h i f v H. rewrite set_var_nth, Nat.eqb_refl, H. reflexivity. Qed.

Lemma set_var_diff : forall h i f j, i <> j -> nth_error (set_var h i f) j = nth_error h j.
Proof. intros h i f j N. rewrite set_var_nth. destruct (Nat.eqb_spec i j); congruence. Qed.

Lemma set_var_end : forall h v f, set_var (h ++ [v]) (length h) f = h ++ [f v].
Proof. induction h as [|a h IH]; intros v f; cbn; [reflexivity|rewrite IH; reflexivity]. Qed.

Lemma nth_end : forall (A : Type) (h : list A) v, nth_error (h ++ [v]) (length h) = Some v.
Proof. intros A h v. rewrite nth_error_app2 by lia. rewrite Nat.sub_diag. reflexivity. Qed.

Lemma nth_end_inv : forall (A : Type) (h : list A) v i w, nth_error (h ++ [v]) i = Some w ->
  nth_error h i = Some w \/ (i = length h /\ w = v).
Proof.
  intros A h v i w H. destruct (Nat.lt_ge_cases i (length h)) as [L|L].
  - rewrite nth_error_app1 in H by lia. left; exact H.
  - rewrite nth_error_app2 in H by lia. right. destruct (i - length h)%nat as [|k] eqn:K.
    + cbn in H. split; [lia|congruence].
    + cbn in H. destruct k; discriminate.
Qed.

Lemma assoc_in : forall (A : Type) x (l : list (Z * A)) a, assoc x l = Some a -> In (x, a) l.
Proof.
  induction l as [|[y b] l IH]; intros a H; cbn [assoc] in H; [discriminate H|].
  destruct (Z.eqb_spec x y); [left; congruence|right; apply IH; exact H].
Qed.

Lemma assoc_id : forall x l i, assoc x l = Some i -> In i (map (@snd Z nat) l).
Proof. intros x l i H. apply assoc_in in H. apply (in_map snd) in H. exact H. Qed.

Lemma assoc_inj : forall x y l i, NoDup (map (@snd Z nat) l) ->
  assoc x l = Some i -> assoc y l = Some i -> x = y.
Proof.
  induction l as [|[z j] l IH]; intros i N A C; cbn [assoc map snd] in *; [discriminate A|].
  inversion N as [|? ? N1 N2]; subst.
  destruct (Z.eqb_spec x z), (Z.eqb_spec y z); try congruence.
  - exfalso; apply N1. injection A as ->. eapply assoc_id; eassumption.
  - exfalso; apply N1. injection C as ->. eapply assoc_id; eassumption.
  - eapply IH; eassumption.
Qed.

Lemma assoc_names : forall x (l : list (Z * nat)),
  existsb (Z.eqb x) (map fst l) = match assoc x l with Some _ => true | None => false end.
Proof.
  induction l as [|[y i] l IH]; cbn [map fst existsb assoc]; [reflexivity|].
  rewrite IH. destruct (x =? y); reflexivity.
Qed.

Lemma assoc_filter : forall (A : Type) x y (l : list (Z * A)),
  assoc y (filter (fun p => negb (x =? fst p)) l) = if y =? x then None else assoc y l.
Proof.
  induction l as [|[z a] l IH]; cbn [filter assoc fst]; [destruct (y =? x); reflexivity|].
  destruct (Z.eqb_spec x z) as [->|N]; cbn [negb].
  - rewrite IH. destruct (Z.eqb_spec y z); reflexivity.
  - cbn [assoc]. rewrite IH. destruct (Z.eqb_spec y z), (Z.eqb_spec y x); congruence.
Qed.

(** * Heaps *)

Lemma hle_refl : forall h, hle h h.
Proof. intros h; split; [lia|]. intros i v H; exists v; auto. Qed.

Lemma hle_trans : forall a b c, hle a b -> hle b c -> hle a c.
Proof.
  intros a b c [L1 H1] [L2 H2]; split; [lia|]. intros i v N.
  destruct (H1 i v N) as (v1 & N1 & A1 & C1 & K1).
  destruct (H2 i v1 N1) as (v2 & N2 & A2 & C2 & K2).
  exists v2; repeat split; congruence.
Qed.

Lemma hle_app : forall h v, hle h (h ++ [v]).
Proof.
  intros h v; split; [rewrite app_length; lia|]. intros i w N. exists w; repeat split.
  rewrite nth_error_app1; [exact N|]. apply nth_error_Some; congruence.
Qed.

Lemma hle_decl : forall h h' i v, hle h h' -> nth_error h i = Some v ->
  exists v', nth_error h' i = Some v' /\ decl_of i v' = decl_of i v /\ v_act v' = v_act v.
Proof.
  intros h h' i v [_ H] N. destruct (H i v N) as (v' & N' & A & C & K).
  exists v'; repeat split; auto. unfold decl_of; rewrite C, K; reflexivity.
Qed.

Lemma hle_vis : forall h h' s x, hle h h' -> (forall i, In i (ids1 s) -> (i < length h)%nat) ->
  vis h' s x = vis h s x.
Proof.
  intros h h' s x L V. unfold vis. destruct (assoc x (s_vars s)) as [i|] eqn:A; [|reflexivity].
  destruct (nth_error h i) as [v|] eqn:N.
  - destruct (hle_decl _ _ _ _ L N) as (v' & N' & Dv & Av). rewrite N', Dv, Av. reflexivity.
  - apply nth_error_None in N. pose proof (V i (assoc_id _ _ _ A)). lia.
Qed.

Lemma brel_hle : forall h h' b s, hle h h' -> (forall i, In i (ids1 s) -> (i < length h)%nat) ->
  brel h b s -> brel h' b s.
Proof.
  intros h h' b s L V (F & Df & N & A). repeat split; auto.
  intros x. rewrite A. symmetry. apply hle_vis; assumption.
Qed.

Lemma brels_hle : forall h h' env stk, hle h h' ->
  (forall i, In i (ids stk) -> (i < length h)%nat) ->
  Forall2 (brel h) env stk -> Forall2 (brel h') env stk.
Proof.
  intros h h' env stk L V F. induction F as [|b s env stk Hb Hf IH]; constructor.
  - eapply brel_hle; eauto. intros i I1. apply V. cbn [ids flat_map]. apply in_or_app; auto.
  - apply IH. intros i I1. apply V. cbn [ids flat_map]. apply in_or_app; auto.
Qed.

(** The activity of a variable changes for a while. *)
Lemma hle_undo : forall h h' i v, nth_error h i = Some v -> v_act v = 0 ->
  hle (set_var h i (set_act 1)) h' -> hle h (set_var h' i (set_act 0)).
Proof.
  intros h h' i v N A [L H]. rewrite set_var_len in L. split; [rewrite set_var_len; exact L|].
  intros j w Nj. destruct (Nat.eq_dec i j) as [->|Ne].
  - assert (w = v) as -> by congruence.
    destruct (H j (set_act 1 v) (set_var_same _ _ _ _ Nj)) as (w & Nw & Aw & Cw & Kw).
    exists (set_act 0 w). rewrite (set_var_same _ _ _ _ Nw).
    cbn [set_act v_act v_const v_type] in *. repeat split; congruence.
  - rewrite <- (set_var_diff h i (set_act 1) j Ne) in Nj.
    destruct (H j w Nj) as (w' & Nw & R). exists w'. rewrite set_var_diff by exact Ne. auto.
Qed.

Lemma hle_fresh : forall h h' i f, hle h h' -> (length h <= i)%nat -> hle h (set_var h' i f).
Proof.
  intros h h' i f [L H] G. split; [rewrite set_var_len; exact L|]. intros j v N.
  destruct (H j v N) as (v' & N' & R). exists v'. rewrite set_var_diff; [auto|].
  assert (j < length h)%nat by (apply nth_error_Some; congruence). lia.
Qed.

Lemma vis_other : forall h i f s x, ~ In i (ids1 s) -> vis (set_var h i f) s x = vis h s x.
Proof.
  intros h i f s x N. unfold vis. destruct (assoc x (s_vars s)) as [j|] eqn:A; [|reflexivity].
  rewrite set_var_diff; [reflexivity|]. intros ->. apply N. eapply assoc_id; eassumption.
Qed.

Lemma brels_other : forall h i f env stk, ~ In i (ids stk) ->
  Forall2 (brel h) env stk -> Forall2 (brel (set_var h i f)) env stk.
Proof.
  intros h i f env stk N F. induction F as [|b s env stk Hb Hf IH]; constructor.
  - destruct Hb as (F1 & Df & Nm & A). repeat split; auto. intros x. rewrite A.
    symmetry. apply vis_other. intros I1; apply N. cbn [ids flat_map]. apply in_or_app; auto.
  - apply IH. intros I1; apply N. cbn [ids flat_map]. apply in_or_app; auto.
Qed.

Lemma brel_show : forall h b s x i v a, brel h b s -> NoDup (ids1 s) ->
  assoc x (s_vars s) = Some i -> nth_error h i = Some v -> a <> 0 ->
  brel (set_var h i (set_act a)) (show x (decl_of i v) b) s.
Proof.
  intros h b s x i v a (F & Df & N & A) ND As Nh Na. repeat split; auto.
  intros y. cbn [show b_vis assoc]. destruct (Z.eqb_spec y x) as [->|Ne].
  - unfold vis. rewrite As, (set_var_same _ _ _ _ Nh). cbn [set_act v_act].
    destruct (Z.eqb_spec a 0); [contradiction|]. reflexivity.
  - rewrite A. unfold vis. destruct (assoc y (s_vars s)) as [j|] eqn:Aj; [|reflexivity].
    rewrite set_var_diff; [reflexivity|]. intros ->. apply Ne.
    eapply assoc_inj; eassumption.
Qed.

Lemma brel_hide : forall h b s x i v, brel h b s -> NoDup (ids1 s) ->
  assoc x (s_vars s) = Some i -> nth_error h i = Some v ->
  brel (set_var h i (set_act 0)) (hide x b) s.
Proof.
  intros h b s x i v (F & Df & N & A) ND As Nh. repeat split; auto.
  intros y. cbn [hide b_vis]. rewrite assoc_filter. destruct (Z.eqb_spec y x) as [->|Ne].
  - unfold vis. rewrite As, (set_var_same _ _ _ _ Nh). reflexivity.
  - rewrite A. unfold vis. destruct (assoc y (s_vars s)) as [j|] eqn:Aj; [|reflexivity].
    rewrite set_var_diff; [reflexivity|]. intros ->. apply Ne.
    eapply assoc_inj; eassumption.
Qed.

Lemma NoDup_top : forall s r, NoDup (ids (s :: r)) ->
  NoDup (ids1 s) /\ NoDup (ids r) /\ forall i, In i (ids1 s) -> ~ In i (ids r).
Proof.
  intros s r N. cbn [ids flat_map] in N. fold (ids r) in N.
  induction (ids1 s) as [|j l IH]; cbn [app] in N.
  - split; [constructor|]. split; [exact N|]. intros i [].
  - inversion N as [|? ? N1 N2]; subst. destruct (IH N2) as (A & C & Dj).
    split; [|split; [exact C|]].
    + constructor; [|exact A]. intros I1; apply N1; apply in_or_app; auto.
    + intros i [->|I1]; [|apply Dj; exact I1]. intros I1; apply N1; apply in_or_app; auto.
Qed.

Lemma trel_act : forall t p i a, trel t p -> trel t (upd p i (set_act a)).
Proof.
  intros t p i a (T1 & T2 & T3 & T4 & T5 & T6). unfold upd, trel.
  cbn [p_heap p_funs p_log p_refs]. rewrite set_var_len.
  split; [exact T1|split; [exact T2|split; [exact T3|split; [exact T4|split]]]].
  - intros j v H. rewrite set_var_nth in H. destruct (Nat.eqb i j).
    + destruct (nth_error (p_heap p) j) as [w|] eqn:N; [|discriminate H].
      injection H as <-. exact (T5 _ _ N).
    + exact (T5 _ _ H).
  - intros u I1. destruct (T6 u I1) as (v & N & Dv). rewrite set_var_nth.
    destruct (Nat.eqb i (d_id (u_decl u))).
    + rewrite N. exists (set_act a v). auto.
    + exists v; auto.
Qed.

Lemma wf_set : forall stk h i f, wf stk h -> (forall v, vtype (v_type v) -> vtype (v_type (f v))) ->
  wf stk (set_var h i f).
Proof.
  intros stk h i f (N & L & Vt) F. repeat split; [exact N| |].
  - intros j I1. rewrite set_var_len. apply L; exact I1.
  - intros j v H. rewrite set_var_nth in H. destruct (Nat.eqb i j); [|apply (Vt _ _ H)].
    destruct (nth_error h j) as [w|] eqn:Nw; [|discriminate H]. injection H as <-.
    apply F. apply (Vt _ _ Nw).
Qed.

Lemma wf_tl : forall s r h, wf (s :: r) h -> wf r h.
Proof.
  intros s r h (N & L & Vt). destruct (NoDup_top _ _ N) as (_ & N2 & _).
  repeat split; auto. intros i I1. apply L. cbn [ids flat_map]. apply in_or_app; auto.
Qed.

(** * Looking up *)

Definition fun1 (s : scope) : list Z := match s_fun s with Some f => [f] | None => [] end.
Fixpoint between (stk : list scope) (n : nat) : list Z :=
  match stk with
  | [] => []
  | s :: r => if Nat.eqb (length stk) n then [] else fun1 s ++ between r n
  end.

Definition own_id (stk : list scope) : Z :=
  match frame_of stk with s :: _ => scope_id s | [] => 0 end.

Lemma frame_cons : forall s r, frame_of (s :: r) =
  match r with [] => [s] | _ => if is_fun s then s :: r else frame_of r end.
Proof. intros s [|s' r]; reflexivity. Qed.

Lemma owner_own : forall h env stk, Forall2 (brel h) env stk -> owner env = own_id stk.
Proof.
  intros h env stk F. induction F as [|b s env stk Hb Hf IH]; [reflexivity|].
  destruct Hb as (F1 & _). cbn [owner]. rewrite F1. unfold own_id in *. rewrite frame_cons.
  unfold is_fun, scope_id. destruct stk as [|s' stk'].
  - inversion Hf; subst. destruct (s_fun s) as [f|] eqn:Sf; rewrite ?Sf; reflexivity.
  - destruct (s_fun s) as [f|] eqn:Sf; [rewrite Sf; reflexivity|exact IH].
Qed.

Lemma in_fun_own : forall h env stk, Forall2 (brel h) env stk ->
  in_fun env = match frame_of stk with s :: _ => is_fun s | [] => false end.
Proof.
  intros h env stk F. induction F as [|b s env stk Hb Hf IH]; [reflexivity|].
  destruct Hb as (F1 & _). cbn [in_fun existsb]. rewrite F1. rewrite frame_cons.
  destruct stk as [|s' stk'].
  - inversion Hf; subst. unfold is_fun. destruct (s_fun s); reflexivity.
  - destruct (is_fun s) eqn:Fs; unfold is_fun in Fs.
    + unfold is_fun. destruct (s_fun s); [reflexivity|discriminate Fs].
    + destruct (s_fun s); [discriminate Fs|]. exact IH.
Qed.

Lemma frame_nonnil : forall s r, frame_of (s :: r) <> [].
Proof.
  intros s r; revert s. induction r as [|s' r IH]; intros s; [discriminate|].
  rewrite frame_cons. destruct (is_fun s); [discriminate|apply IH].
Qed.

Lemma outer_suffix : forall h x stk i sc, outer_loop h x stk = Some (i, sc) ->
  exists pre s r, stk = pre ++ sc /\ sc = s :: r /\ assoc x (s_vars s) = Some i /\ active h i = true.
Proof.
  induction stk as [|s r IH]; intros i sc H; cbn [outer_loop] in H; [discriminate H|].
  assert (G : outer_loop h x r = Some (i, sc) ->
    exists pre s0 r0, s :: r = pre ++ sc /\ sc = s0 :: r0 /\ assoc x (s_vars s0) = Some i /\
      active h i = true).
  { intros H'. destruct (IH _ _ H') as (pre & s1 & r1 & -> & R). exists (s :: pre), s1, r1. auto. }
  destruct (assoc x (s_vars s)) as [j|] eqn:As; [|apply G; exact H].
  destruct (active h j) eqn:Ac; [|apply G; exact H].
  injection H as <- <-. exists [], s, r. auto.
Qed.

Lemma vis_active : forall h s x d, vis h s x = Some d ->
  exists i v, assoc x (s_vars s) = Some i /\ nth_error h i = Some v /\ active h i = true /\
    d = decl_of i v.
Proof.
  intros h s x d H. unfold vis in H. destruct (assoc x (s_vars s)) as [i|] eqn:A; [|discriminate H].
  destruct (nth_error h i) as [v|] eqn:N; [|discriminate H].
  destruct (v_act v =? 0) eqn:Z0; [discriminate H|]. exists i, v. unfold active.
  rewrite N. unfold VAR_INACTIVE. rewrite Z0. repeat split; congruence.
Qed.

Lemma vis_inactive : forall h s x, vis h s x = None ->
  match assoc x (s_vars s) with Some i => active h i = false | None => True end.
Proof.
  intros h s x H. unfold vis in H. destruct (assoc x (s_vars s)) as [i|]; [|exact Logic.I].
  unfold active, VAR_INACTIVE. destruct (nth_error h i) as [v|]; [|reflexivity].
  destruct (v_act v =? 0); [reflexivity|discriminate H].
Qed.

Lemma between_app : forall pre sc n, (n <= length sc)%nat ->
  between (pre ++ sc) n = flat_map fun1 pre ++ between sc n.
Proof.
  induction pre as [|s pre IH]; intros sc n L; [reflexivity|].
  cbn [app between flat_map length]. rewrite app_length.
  destruct (Nat.eqb_spec (S (length pre + length sc)) n); [lia|].
  rewrite IH by exact L. rewrite app_assoc. reflexivity.
Qed.

Lemma between_self : forall sc, between sc (length sc) = [].
Proof. intros [|s r]; cbn [between]; [reflexivity|]. rewrite Nat.eqb_refl. reflexivity. Qed.

Lemma look_outer : forall h x env stk, Forall2 (brel h) env stk -> forall cr,
  look x env cr =
  match outer_loop h x stk with
  | None => None
  | Some (i, sc) =>
      match nth_error h i with
      | Some v => Some (decl_of i v, cr ++ between stk (length sc), own_id sc)
      | None => None
      end
  end.
Proof.
  intros h x env stk F. induction F as [|b s env stk Hb Hf IH]; intros cr; [reflexivity|].
  cbn [look outer_loop]. pose proof Hb as (F1 & _ & _ & A). rewrite A.
  destruct (vis h s x) as [d|] eqn:V.
  - destruct (vis_active _ _ _ _ V) as (i & v & As & N & Ac & ->). rewrite As, Ac, N.
    rewrite (owner_own h (b :: env) (s :: stk)) by (constructor; assumption).
    rewrite between_self, app_nil_r. reflexivity.
  - pose proof (vis_inactive _ _ _ V) as Vi. rewrite IH. unfold fun_of. rewrite F1.
    assert (E1 : (match assoc x (s_vars s) with
      | Some i => if active h i then Some (i, s :: stk) else outer_loop h x stk
      | None => outer_loop h x stk end) = outer_loop h x stk).
    { destruct (assoc x (s_vars s)); [rewrite Vi|]; reflexivity. }
    rewrite E1. destruct (outer_loop h x stk) as [[i sc]|] eqn:O; [|reflexivity].
    destruct (nth_error h i) as [v|]; [|reflexivity].
    destruct (outer_suffix _ _ _ _ _ O) as (pre & s0 & r0 & -> & _ & _).
    cbn [between length]. rewrite app_length.
    destruct (Nat.eqb_spec (S (length pre + length sc)) (length sc)); [lia|].
    unfold fun1. rewrite <- app_assoc. reflexivity.
Qed.

Lemma local_none : forall h x stk, local_loop h x stk = None ->
  outer_loop h x (frame_of stk) = outer_loop h x stk.
Proof.
  induction stk as [|s r IH]; intros H; [reflexivity|].
  rewrite frame_cons. destruct r as [|s' r']; [reflexivity|].
  cbn [local_loop] in H. destruct (is_fun s); [reflexivity|].
  destruct (assoc x (s_vars s)) as [i|] eqn:A.
  - destruct (active h i) eqn:Ac; [discriminate H|].
    rewrite (IH H). cbn [outer_loop]. rewrite A, Ac. reflexivity.
  - rewrite (IH H). cbn [outer_loop]. rewrite A. reflexivity.
Qed.

Lemma local_some : forall h x stk i, local_loop h x stk = Some i ->
  exists sc, outer_loop h x stk = Some (i, sc) /\ between stk (length sc) = [].
Proof.
  induction stk as [|s r IH]; intros i H; cbn [local_loop] in H; [discriminate H|].
  destruct (is_fun s) eqn:Fs; [discriminate H|]. cbn [outer_loop].
  assert (G : local_loop h x r = Some i -> exists sc,
            outer_loop h x r = Some (i, sc) /\ between (s :: r) (length sc) = []).
  { intros H'. destruct (IH i H') as (sc & O & Bt). exists sc. split; [exact O|].
    cbn [between length]. destruct (Nat.eqb (S (length r)) (length sc)); [reflexivity|].
    rewrite Bt. unfold is_fun in Fs. unfold fun1. destruct (s_fun s); [discriminate Fs|reflexivity]. }
  destruct (assoc x (s_vars s)) as [j|]; [|apply G; exact H].
  destruct (active h j); [|apply G; exact H].
  injection H as ->. exists (s :: r). split; [reflexivity|apply between_self].
Qed.

Lemma frame_pre : forall stk, exists pre, stk = pre ++ frame_of stk /\ flat_map fun1 pre = [].
Proof.
  induction stk as [|s r (pre & E1 & F)]; [exists []; auto|].
  rewrite frame_cons. destruct r as [|s' r']; [exists []; auto|].
  destruct (is_fun s) eqn:Fs; [exists []; auto|].
  exists (s :: pre). cbn [app flat_map]. rewrite <- E1. split; [reflexivity|].
  rewrite F. unfold is_fun in Fs. unfold fun1. destruct (s_fun s); [discriminate Fs|reflexivity].
Qed.

Lemma frame_head : forall stk s r, frame_of stk = s :: r -> is_fun s = true \/ r = [].
Proof.
  induction stk as [|s0 r0 IH]; intros s r H; [discriminate H|].
  rewrite frame_cons in H. destruct r0 as [|s' r'].
  - injection H as <- <-. auto.
  - destruct (is_fun s0) eqn:Fs; [injection H as <- <-; auto|]. apply IH; exact H.
Qed.

Lemma own_between : forall stk pre sc, frame_of stk = pre ++ sc -> sc <> [] ->
  Nat.eqb (length sc) (length (frame_of stk))
  = match between stk (length sc) with [] => true | _ => false end.
Proof.
  intros stk pre sc H N. destruct (frame_pre stk) as (pre0 & E1 & F). rewrite E1 at 2.
  rewrite H. rewrite between_app by (rewrite app_length; lia). rewrite F. cbn [app].
  destruct pre as [|s pre].
  - cbn [app]. rewrite between_self, Nat.eqb_refl. reflexivity.
  - cbn [app length between]. rewrite app_length.
    destruct (Nat.eqb_spec (S (length pre + length sc)) (length sc)); [lia|].
    destruct (Nat.eqb_spec (length sc) (S (length pre + length sc))); [lia|].
    cbn [app] in H. destruct (frame_head _ _ _ H) as [Fs|Fs].
    + unfold is_fun in Fs. unfold fun1. destruct (s_fun s); [reflexivity|discriminate Fs].
    + destruct pre; [|discriminate Fs]. cbn [app] in Fs. contradiction.
Qed.

Lemma between_frame : forall pre sc, between (pre ++ sc) (length (frame_of sc))
  = between (pre ++ sc) (length sc).
Proof.
  intros pre sc. destruct (frame_pre sc) as (q & E1 & F).
  assert (L : (length (frame_of sc) <= length sc)%nat)
    by (rewrite E1 at 2; rewrite app_length; lia).
  rewrite !between_app by lia. f_equal. rewrite between_self.
  rewrite E1 at 1. rewrite between_app by lia. rewrite F, between_self. reflexivity.
Qed.

Lemma add_ref_in : forall refs f o g q,
  In (g, q) (add_ref refs f o) <-> In (g, q) refs \/ (g = f /\ q = o).
Proof.
  intros refs f o g q. unfold add_ref.
  destruct (existsb (fun p => (fst p =? f) && (snd p =? o)) refs) eqn:X.
  - split; [auto|]. intros [H|[-> ->]]; [exact H|].
    apply existsb_exists in X. destruct X as ([a c] & I1 & X). cbn [fst snd] in X.
    assert (a = f /\ c = o) as [-> ->] by lia. exact I1.
  - cbn [In]. split.
    + intros [H|H]; [right; split; congruence|auto].
    + intros [H|[-> ->]]; auto.
Qed.

Lemma mark_in : forall stk stop o refs g q,
  In (g, q) (mark_loop stk stop o refs) <-> In (g, q) refs \/ (In g (between stk stop) /\ q = o).
Proof.
  induction stk as [|s r IH]; intros stop o refs g q; cbn [mark_loop between].
  - cbn [In]. tauto.
  - destruct (Nat.eqb (length (s :: r)) stop); [cbn [In]; tauto|].
    rewrite IH, in_app_iff. unfold fun1, is_fun, scope_id. destruct (s_fun s) as [f|].
    + rewrite add_ref_in. cbn [In]. intuition congruence.
    + cbn [In]. tauto.
Qed.

Lemma find_taken : forall h env stk x, Forall2 (brel h) env stk -> find_local x stk = taken x env.
Proof.
  intros h env stk x F. induction F as [|b s env stk Hb Hf IH]; [reflexivity|].
  destruct Hb as (_ & Df & N & _). cbn [find_local taken]. rewrite N, assoc_names, Df, IH.
  destruct (assoc x (s_vars s)); reflexivity.
Qed.
