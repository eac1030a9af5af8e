(* Theorems about the life cycle of generators. *)
From Coq Require Import ZArith List Lia Bool.
Import ListNotations.
From Verif Require Import GenModel GenSpec.
Local Open Scope Z_scope.

Definition tracks (p : phase) (g : gen) : Prop :=
  in_phase p (g_state g) /\ match p with Executing i => g_instr g = i /\ g_can_yield g = true | _ => True end.

Lemma step_tracks : forall p g e p' o, tracks p g ->
  match e with EvCall _ _ push _ => push = true | _ => True end ->
  spec_step p e (g_handler g) = Some (p', o) ->
  snd (gstep g e) = o /\ tracks p' (fst (gstep g e)) /\ g_handler (fst (gstep g e)) = g_handler g.
Proof.
  intros p g e p' o [T1 T2] PO ST. destruct g as [st cy gi h]. cbn [g_state g_can_yield g_instr g_handler] in *.
  destruct e as [i a push mk | b].
  - subst push. cbn [gstep]. unfold prepare_call. cbn [g_state g_handler].
    destruct a; cbn [negb].
    + destruct p as [| j |]; cbn [spec_step in_phase] in *.
      * destruct T1 as [-> | ->]; cbn [negb]; destruct (h && negb mk);
          apply (f_equal (fun x => match x with Some y => y | None => (p', o) end)) in ST;
          apply pair_equal_spec in ST; destruct ST as [<- <-]; cbn [fst snd set_state g_state]; unfold tracks; cbn; auto.
      * subst st. apply (f_equal (fun x => match x with Some y => y | None => (p', o) end)) in ST.
        apply pair_equal_spec in ST; destruct ST as [<- <-]. unfold tracks; cbn; auto.
      * subst st. apply (f_equal (fun x => match x with Some y => y | None => (p', o) end)) in ST.
        apply pair_equal_spec in ST; destruct ST as [<- <-]. unfold tracks; cbn; auto.
    + cbn [spec_step] in ST.
      assert (p' = p /\ o = Raised EArgs) as [-> ->] by (destruct p; split; congruence).
      unfold tracks; cbn; auto.
  - cbn [gstep]. unfold finish_call. cbn [g_state g_can_yield g_instr g_handler].
    destruct p as [| j |]; [destruct b; discriminate | | destruct b; discriminate].
    cbn [in_phase] in T1. destruct T2 as [-> ->]. subst st.
    destruct b; cbn [spec_step] in ST;
      apply (f_equal (fun x => match x with Some y => y | None => (p', o) end)) in ST;
      apply pair_equal_spec in ST; destruct ST as [<- <-]; unfold tracks; cbn; auto.
    destruct h; cbn; auto.
Qed.

(* C17: as long as no call is rejected for lack of stack, every outcome and the recorded state are those of
   the three phases: calls while executing raise an exception, a finished generator stays finished. *)
Theorem generator_life_cycle : forall evs p g p' l, tracks p g -> pushes_ok evs ->
  spec_run p evs (g_handler g) = Some (p', l) ->
  outcomes evs g = l /\ tracks p' (run_gen evs g).
Proof.
  induction evs as [| e r IH]; intros p g p' l T PO SR; cbn [spec_run] in SR.
  - assert (p' = p /\ l = []) as [-> ->] by (split; congruence). split; [reflexivity | exact T].
  - inversion PO as [| ? ? P1 P2]; subst.
    destruct (spec_step p e (g_handler g)) as [[p1 o] |] eqn:ST; [| discriminate].
    destruct (spec_run p1 r (g_handler g)) as [[p2 l2] |] eqn:SR2; [| discriminate].
    assert (p2 = p' /\ l = o :: l2) as [-> ->] by (split; congruence).
    destruct (step_tracks p g e p1 o T P1 ST) as (E1 & T1 & H1).
    rewrite <- H1 in SR2. destruct (IH _ _ _ _ T1 P2 SR2) as [E2 T2].
    cbn [outcomes run_gen fold_left]. rewrite E1, E2. split; [reflexivity | exact T2].
Qed.

Example demo_life :
  outcomes [EvCall INext true true true; EvCall ICall true true true; EvFinish BYield; EvCall INextJump true true true;
            EvFinish BReturn; EvCall ICall true true true] (instantiate false)
  = [Entered; Raised ERunning; Yielded; Entered; Finished; Raised EEnd] /\
  g_state (run_gen [EvCall INext true true true; EvFinish BYield] (instantiate false)) = GActive.
Proof. split; reflexivity. Qed.

Lemma init_tracks : forall h, tracks Idle (instantiate h).
Proof. intros h. split; cbn; auto. Qed.

(* C17: a finished generator never runs again, whatever happens. *)
Theorem done_is_final : forall evs g, g_state g = GDone -> Forall (fun e => is_call e = true) evs ->
  g_state (run_gen evs g) = GDone /\ Forall (fun o => o = Raised EEnd \/ o = Raised EArgs) (outcomes evs g).
Proof.
  induction evs as [| e r IH]; intros g D F; [split; [exact D | constructor] |].
  inversion F as [| ? ? F1 F2]; subst. destruct e as [i a p m | b]; [| discriminate].
  assert (E : fst (gstep g (EvCall i a p m)) = g /\
    (snd (gstep g (EvCall i a p m)) = Raised EEnd \/ snd (gstep g (EvCall i a p m)) = Raised EArgs)).
  { cbn [gstep]. unfold prepare_call. rewrite D. destruct a; cbn; auto. }
  destruct E as [E1 E2]. cbn [outcomes run_gen fold_left]. rewrite E1.
  destruct (IH g D F2) as [I1 I2]. split; [exact I1 |]. constructor; assumption.
Qed.

Example demo_done : outcomes [EvCall INextJump true false true; EvCall ICall false true true] (mkgen GDone true ICall false)
  = [Raised EEnd; Raised EArgs].
Proof. reflexivity. Qed.

(* C85: refuted: after a call rejected by stack overflow the generator is recorded as running although it is not:
   no later call can ever enter it again. *)
Theorem overflow_refuted : forall g, g_state g = GReady \/ g_state g = GActive -> forall i m evs,
  Forall (fun e => is_call e = true) evs ->
  let g' := fst (gstep g (EvCall i true false m)) in
  snd (gstep g (EvCall i true false m)) = Raised EOverflow /\
  g_state (run_gen evs g') = GRunning /\
  Forall (fun o => o = Raised ERunning \/ o = Raised EArgs) (outcomes evs g').
Proof.
  intros g H i m evs F. cbv zeta.
  assert (E : gstep g (EvCall i true false m) = (set_state g GRunning, Raised EOverflow)).
  { cbn [gstep]. unfold prepare_call. destruct H as [-> | ->]; reflexivity. }
  rewrite E. cbn [fst snd]. split; [reflexivity |].
  assert (R : g_state (set_state g GRunning) = GRunning) by reflexivity.
  revert R. generalize (set_state g GRunning). clear E H. revert F.
  induction evs as [| e r IH]; intros F g1 R; [split; [exact R | constructor] |].
  inversion F as [| ? ? F1 F2]; subst. destruct e as [i1 a p m1 | b]; [| discriminate].
  assert (E : fst (gstep g1 (EvCall i1 a p m1)) = g1 /\
    (snd (gstep g1 (EvCall i1 a p m1)) = Raised ERunning \/ snd (gstep g1 (EvCall i1 a p m1)) = Raised EArgs)).
  { cbn [gstep]. unfold prepare_call. rewrite R. destruct a; cbn; auto. }
  destruct E as [E1 E2]. cbn [outcomes run_gen fold_left]. rewrite E1.
  destruct (IH F2 g1 R) as [I1 I2]. split; [exact I1 |]. constructor; assumption.
Qed.

Example demo_overflow :
  outcomes [EvCall ICall true true true; EvFinish BYield; EvCall ICall true false true; EvCall ICall true true true;
            EvCall INextJump true true true] (instantiate false)
  = [Entered; Yielded; Raised EOverflow; Raised ERunning; Raised ERunning].
Proof. reflexivity. Qed.

(* Other rejected calls keep the state. *)
Theorem rejected_keeps_state : forall g i a m e, snd (prepare_call g i a true m) = Raised e ->
  fst (prepare_call g i a true m) = g.
Proof.
  intros [st cy gi h] i a m e. unfold prepare_call. cbn [g_state g_handler].
  destruct a; cbn [negb]; [| reflexivity].
  destruct st; cbn [negb]; try reflexivity.
  - destruct (is_next i); [reflexivity |]. destruct m; reflexivity.
  - destruct h, m; cbn; try reflexivity; discriminate.
  - destruct h, m; cbn; try reflexivity; discriminate.
Qed.

Example demo_rejected_state : prepare_call (mkgen GActive false ICall true) ICall true true false
  = (mkgen GActive false ICall true, Raised EMemory).
Proof. reflexivity. Qed.

(* C17: a loop over a generator which is not finished gets the values it yields, in order, then ends, or gets the
   exception it throws; the generator is then finished. *)
Theorem loop_over_generator : forall g fuel, l_state g = GReady \/ l_state g = GActive ->
  (length (l_values g) < fuel)%nat ->
  loop next_jump fuel g = Some (mkl GDone [] (l_fin g), l_values g, fin_exn (l_fin g)) /\
  loop iterator_next fuel g = Some (mkl GDone [] (l_fin g), l_values g, fin_exn (l_fin g)).
Proof.
  assert (K : forall next, (forall g, l_state g = GReady \/ l_state g = GActive -> next g = complete_call g) ->
    forall fuel g, l_state g = GReady \/ l_state g = GActive -> (length (l_values g) < fuel)%nat ->
    loop next fuel g = Some (mkl GDone [] (l_fin g), l_values g, fin_exn (l_fin g))).
  { intros next N. induction fuel as [| fuel IH]; intros [s vs f] H F; [lia |].
    cbn [l_values l_fin l_state] in *. cbn [loop]. rewrite N by exact H. unfold complete_call. cbn [l_values l_fin].
    destruct vs as [| v vs].
    - destruct f as [| e]; [reflexivity |]. destruct e; reflexivity.
    - rewrite IH; [reflexivity | right; reflexivity | cbn [l_values length] in *; lia]. }
  intros g fuel H F. split; apply K; try assumption.
  - intros [s vs f] [E | E]; cbn in E; subst; reflexivity.
  - intros [s vs f] [E | E]; cbn in E; subst; reflexivity.
Qed.

Example demo_loop : loop next_jump 9 (mkl GReady [3; 1; 4] FReturn) = Some (mkl GDone [] FReturn, [3; 1; 4], None) /\
  loop next_jump 9 (mkl GReady [3] (FThrow (EUser 8))) = Some (mkl GDone [] (FThrow (EUser 8)), [3], Some (EUser 8)).
Proof. split; reflexivity. Qed.

(* C86: refuted: iterating over a finished generator gives no values, but a loop raises generator_end;
   the library functions (spread, array constructor) see no values. *)
Theorem finished_loop_refuted : forall g fuel, l_state g = GDone ->
  loop next_jump (Datatypes.S fuel) g = Some (g, [], Some EEnd) /\
  loop iterator_next (Datatypes.S fuel) g = Some (g, [], None).
Proof. intros g fuel H. cbn [loop]. unfold next_jump, iterator_next. rewrite H. split; reflexivity. Qed.

Example demo_second_loop :
  match loop next_jump 5 (mkl GReady [1; 2] FReturn) with
  | Some (g, l, None) => l = [1; 2] /\ loop next_jump 5 g = Some (g, [], Some EEnd)
  | _ => False
  end.
Proof. split; reflexivity. Qed.

(* C87: an exception thrown by the body is seen by the loop, unless it is generator_end, which a body gets by
   calling a finished generator: then the loop ends silently. *)
Theorem body_exception : forall g fuel e, l_state g = GReady \/ l_state g = GActive ->
  (length (l_values g) < fuel)%nat -> l_fin g = FThrow e -> e <> EEnd ->
  loop next_jump fuel g = Some (mkl GDone [] (l_fin g), l_values g, Some e).
Proof.
  intros g fuel e H F E N. destruct (loop_over_generator g fuel H F) as [-> _]. rewrite E.
  destruct e; try reflexivity. exfalso; apply N; reflexivity.
Qed.

Theorem body_exception_refuted : ~ (forall g fuel e, l_state g = GReady \/ l_state g = GActive ->
  (length (l_values g) < fuel)%nat -> l_fin g = FThrow e ->
  loop next_jump fuel g = Some (mkl GDone [] (l_fin g), l_values g, Some e)).
Proof.
  intros H. specialize (H (mkl GActive [7] (FThrow EEnd)) 5%nat EEnd (or_intror eq_refl)).
  cbn [l_values length] in H. specialize (H ltac:(lia) eq_refl). cbn in H. discriminate H.
Qed.

Example demo_body_exception :
  loop next_jump 5 (mkl GReady [7] (FThrow EOverflow)) = Some (mkl GDone [] (FThrow EOverflow), [7], Some EOverflow) /\
  loop next_jump 5 (mkl GReady [7] (FThrow EEnd)) = Some (mkl GDone [] (FThrow EEnd), [7], None).
Proof. split; reflexivity. Qed.

Print Assumptions generator_life_cycle.
Print Assumptions done_is_final.
Print Assumptions overflow_refuted.
Print Assumptions rejected_keeps_state.
Print Assumptions loop_over_generator.
Print Assumptions finished_loop_refuted.
Print Assumptions body_exception.
Print Assumptions body_exception_refuted.
