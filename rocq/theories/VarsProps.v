(** Properties of name resolution. *)
From Coq Require Import ZArith List Lia Bool ZifyBool.
Import ListNotations.
From Verif Require Import Base ListZ VarsSpec VarsModel VarsProofs VarsProofs2.
Local Open Scope Z_scope.
Ltac Zify.zify_post_hook ::= idtac.

(** * C122: names mean what lexical scoping says *)

(** The compiler accepts the same programs, reports the same error otherwise, and
    binds every use of a name to the same declaration. *)
Theorem names_are_lexical : forall interactive pre nd,
  match sem_program interactive pre nd with
  | Ok t => exists p, process_vars interactive pre nd = MOk p /\
      map fst (p_log p) = map (fun u => d_id (u_decl u)) (t_uses t) /\
      length (p_heap p) = t_decls t /\
      forall u, In u (t_uses t) -> exists v, nth_error (p_heap p) (d_id (u_decl u)) = Some v /\
        v_const v = d_const (u_decl u)
  | Err e => process_vars interactive pre nd = MErr e
  end.
Proof.
  intros i pre nd. pose proof (program_sim i pre nd) as H.
  destruct (sem_program i pre nd) as [t|e]; [|exact H].
  destruct H as (p & E1 & (T1 & T2 & T3 & T4 & T5 & T6)). exists p.
  split; [exact E1|]. split; [|split].
  - rewrite T3, map_map. apply map_ext. reflexivity.
  - symmetry; exact T1.
  - intros u I1. destruct (T6 u I1) as (v & N & Dv). exists v. split; [exact N|].
    rewrite Dv. reflexivity.
Qed.

(** No assertion of the resolution fails. *)
Theorem names_no_assertion : forall interactive pre nd,
  process_vars interactive pre nd <> MAssert.
Proof.
  intros i pre nd H. pose proof (program_sim i pre nd) as G. rewrite H in G.
  destruct (sem_program i pre nd) as [t|e]; [|discriminate G].
  destruct G as (p & G & _). discriminate G.
Qed.

(** [var a; const f = fun(p, r...) { a = p; const g = fun { f; p; a; g; r } }; f] *)
Definition sample : node :=
  Seq (Decl false false [1] Skip)
 (Seq (Self false 2 (Fun true [3] (Some 4)
         (Block false (Seq (Seq (Use 3) (Store 1))
           (Self false 5 (Fun true [] None
              (Block false (Seq (Use 2) (Seq (Use 3) (Seq (Use 1) (Seq (Use 5) (Use 4))))))
              Skip))))
         Skip))
      (Use 2)).

Example sample_names : match process_vars false [(9, true)] sample with
  | MOk p => p_log p = [(3%nat, true); (1%nat, false); (2%nat, false); (3%nat, false);
                        (1%nat, false); (5%nat, false); (4%nat, false); (2%nat, true)]
  | _ => False end.
Proof. vm_compute. reflexivity. Qed.

(** [const x = fun(a = x) { }] : not visible in default values. *)
Example self_in_default :
  process_vars false [] (Self false 1 (Fun true [2] None (Block false Skip) (Use 1)))
  = MErr (E_UNDEFINED 1).
Proof. reflexivity. Qed.

(** [var x = fun { x }] : only constants refer to themselves. *)
Example var_self :
  process_vars false [] (Decl false false [1] (Fun true [] None (Block false (Use 1)) Skip))
  = MErr (E_UNDEFINED 1).
Proof. reflexivity. Qed.

(** [var x; defer { } var x] : the rest of a block after [defer] is the same block. *)
Example defer_redefines :
  process_vars false [] (Seq (Decl false false [1] Skip)
                          (Block true (Decl false false [1] Skip)))
  = MErr (E_REDEFINED 1).
Proof. reflexivity. Qed.

(** [try { } catch const e { e } e] *)
Example catch_ends :
  process_vars false [] (Block false (Seq (Catch true 1 (Block false (Use 1))) (Use 1)))
  = MErr (E_UNDEFINED 1).
Proof. reflexivity. Qed.

(** * General consequences of scoping *)

Lemma globals_none : forall pre n b x, ~ In x (map fst pre) -> assoc x (b_vis b) = None ->
  ~ In x (b_names b) ->
  let '(_, b') := globals n b pre in assoc x (b_vis b') = None /\ ~ In x (b_names b').
Proof.
  induction pre as [|[y c] pre IH]; intros n b x N A Nb; cbn [globals]; [auto|].
  cbn [map fst In] in N. apply IH.
  - tauto.
  - cbn [show name1 b_vis assoc]. destruct (Z.eqb_spec x y); [subst; tauto|exact A].
  - cbn [show name1 b_names In]. intros [->|H]; tauto.
Qed.

Lemma existsb_not_in : forall x l, ~ In x l -> existsb (Z.eqb x) l = false.
Proof.
  intros x l N. destruct (existsb (Z.eqb x) l) eqn:X; [|reflexivity].
  apply existsb_exists in X. destruct X as (y & I1 & E1). assert (x = y) by lia. subst. contradiction.
Qed.

(** A variable is not visible in its own initial value. *)
Theorem not_in_own_value : forall interactive pre c pub x, ~ In x (map fst pre) ->
  process_vars interactive pre (Decl c pub [x] (Use x)) = MErr (E_UNDEFINED x).
Proof.
  intros i pre c pub x N. pose proof (program_sim i pre (Decl c pub [x] (Use x))) as H.
  assert (G : sem_program i pre (Decl c pub [x] (Use x)) = Err (E_UNDEFINED x)).
  { unfold sem_program.
    pose proof (globals_none pre 0 (B None false [] []) x N eq_refl (fun f => f)) as A.
    destruct (globals 0 (B None false [] []) pre) as [n b]. destruct A as [A Nb].
    cbn [sem declare taken]. rewrite (existsb_not_in _ _ Nb).
    assert (Tk : (if b_defer b then false else false) = false) by (destruct (b_defer b); reflexivity).
    rewrite Tk. cbn [vbind sem]. unfold refer. cbn [look name1 b_vis]. rewrite A. reflexivity. }
  rewrite G in H. exact H.
Qed.

(** Names of an inner block do not leave it. *)
Theorem not_after_block : forall interactive pre defer c pub x, ~ In x (map fst pre) ->
  process_vars interactive pre (Seq (Block defer (Decl c pub [x] Skip)) (Use x))
  = MErr (E_UNDEFINED x).
Proof.
  intros i pre dfr c pub x N.
  pose proof (program_sim i pre (Seq (Block dfr (Decl c pub [x] Skip)) (Use x))) as H.
  assert (G : sem_program i pre (Seq (Block dfr (Decl c pub [x] Skip)) (Use x))
            = Err (E_UNDEFINED x)).
  { unfold sem_program.
    pose proof (globals_none pre 0 (B None false [] []) x N eq_refl (fun f => f)) as A.
    destruct (globals 0 (B None false [] []) pre) as [n b]. destruct A as [A Nb].
    cbn [sem declare taken b_names b_defer existsb]. rewrite (existsb_not_in _ _ Nb).
    assert (Tk : (if dfr then (if b_defer b then false else false) else false) = false)
      by (destruct dfr, (b_defer b); reflexivity).
    rewrite Tk. cbn [vbind sem]. unfold refer. cbn [look]. rewrite A. reflexivity. }
  rewrite G in H. exact H.
Qed.

(** * C123: captured variables *)

(** A variable is moved out of the registers of its function ([VAR_INDEPENDENT])
    exactly when another function inside uses it.  Globals never are. *)
Theorem captured_iff_shared : forall interactive pre nd t p,
  sem_program interactive pre nd = Ok t -> process_vars interactive pre nd = MOk p ->
  forall i v, nth_error (p_heap p) i = Some v ->
    (v_type v = VAR_INDEPENDENT_LOCAL \/ v_type v = VAR_INDEPENDENT_ARGUMENT <->
     exists d, d_id d = i /\ shared (t_uses t) d).
Proof.
  intros inter pre nd t p E1 E2 i v N. pose proof (program_sim inter pre nd) as H.
  rewrite E1 in H. destruct H as (p' & E3 & (T1 & T2 & T3 & T4 & T5 & T6)).
  assert (p' = p) as -> by congruence.
  assert (ID : indep (v_type v) = true <->
               v_type v = VAR_INDEPENDENT_LOCAL \/ v_type v = VAR_INDEPENDENT_ARGUMENT)
    by (unfold indep; lia).
  rewrite <- ID, (T5 i v N). split.
  - intros S1. exists (decl_of i v). auto.
  - intros (d & <- & S1). destruct S1 as (K & u & I1 & Du & Cu).
    destruct (T6 u I1) as (w & Nw & Dw). rewrite Du in Nw, Dw.
    assert (w = v) as -> by congruence. rewrite <- Dw. split; [exact K|]. exists u. auto.
Qed.

(** A function gets access to the variables of exactly those functions around it
    whose variables it, or a function inside of it, uses. *)
Theorem closures_iff_reached : forall interactive pre nd t p,
  sem_program interactive pre nd = Ok t -> process_vars interactive pre nd = MOk p ->
  forall f o, In (f, o) (p_refs p) <-> reaches (t_uses t) f o.
Proof.
  intros inter pre nd t p E1 E2. pose proof (program_sim inter pre nd) as H.
  rewrite E1 in H. destruct H as (p' & E3 & (T1 & T2 & T3 & T4 & T5 & T6)).
  assert (p' = p) as -> by congruence. exact T4.
Qed.

(** Code for a use goes through a closure exactly when a function lies between. *)
Theorem local_iff_direct : forall interactive pre nd t p,
  sem_program interactive pre nd = Ok t -> process_vars interactive pre nd = MOk p ->
  map snd (p_log p) = map direct (t_uses t).
Proof.
  intros inter pre nd t p E1 E2. pose proof (program_sim inter pre nd) as H.
  rewrite E1 in H. destruct H as (p' & E3 & (T1 & T2 & T3 & T4 & T5 & T6)).
  assert (p' = p) as -> by congruence. rewrite T3, map_map. reflexivity.
Qed.

(** All uses which cross a function find a captured variable and a closure for
    each of the functions crossed. *)
Theorem crossing_is_served : forall interactive pre nd t p,
  sem_program interactive pre nd = Ok t -> process_vars interactive pre nd = MOk p ->
  forall u, In u (t_uses t) -> direct u = false ->
    (exists v, nth_error (p_heap p) (d_id (u_decl u)) = Some v /\
       (v_type v = VAR_INDEPENDENT_LOCAL \/ v_type v = VAR_INDEPENDENT_ARGUMENT)) /\
    forall f, In f (u_crossed u) -> In (f, u_owner u) (p_refs p).
Proof.
  intros inter pre nd t p E1 E2 u I1 Dr.
  assert (K : d_kind (u_decl u) <> KGlobal /\ u_crossed u <> []).
  { unfold direct in Dr. destruct (d_kind (u_decl u)), (u_crossed u);
      try discriminate Dr; split; discriminate. }
  split.
  - pose proof (names_are_lexical inter pre nd) as H. rewrite E1 in H.
    destruct H as (p' & E3 & _ & _ & Hv). assert (p' = p) as -> by congruence.
    destruct (Hv u I1) as (v & N & _). exists v. split; [exact N|].
    apply (captured_iff_shared inter pre nd t p E1 E2 _ _ N). exists (u_decl u).
    split; [reflexivity|]. split; [apply K|]. exists u. repeat split; auto. apply K.
  - intros f If. apply (closures_iff_reached inter pre nd t p E1 E2). exists u.
    repeat split; auto. apply K.
Qed.

Example sample_captured : match process_vars false [(9, true)] sample with
  | MOk p => map v_type (p_heap p) = [16; 5; 5; 6; 5; 5] /\ p_refs p = [(2, 1); (2, 0); (1, 0)]
  | _ => False end.
Proof. vm_compute. split; reflexivity. Qed.

Print Assumptions names_are_lexical.
Print Assumptions names_no_assertion.
Print Assumptions not_in_own_value.
Print Assumptions not_after_block.
Print Assumptions captured_iff_shared.
Print Assumptions closures_iff_reached.
Print Assumptions local_iff_direct.
Print Assumptions crossing_is_served.
