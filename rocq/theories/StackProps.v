(* Theorems about the call stack. *)
From Coq Require Import ZArith List Lia Bool ZifyBool.
Import ListNotations.
From Verif Require Import Base ListZ StackModel StackSpec StackProofs StackProofs2 StackProofs3.
Local Open Scope Z_scope.

(* Running a list of operations with fresh objects, for the examples. *)
Fixpoint runs (ops : list op) (n : Z) (c : ctx) (a : astate) : option (ctx * astate) :=
  match ops with
  | [] => Some (c, a)
  | o :: r =>
      match hp c n, hp c (n + 1), astep a o (n + 1), run_op 2 c o (Some n) (Some (n + 1)) with
      | None, None, Some a', Done c' => runs r (n + 2) c' a'
      | _, _, _, _ => None
      end
  end.

Definition c_init : ctx := mkctx (fun _ => None) None 0 0.
Definition a_init : astate := mka [] (fun _ => None).

Lemma runs_exec : forall ops n c a c' a', exec c a -> runs ops n c a = Some (c', a') -> exec c' a'.
Proof.
  induction ops as [| o r IH]; intros n c a c' a' X H; cbn [runs] in H.
  - assert (c' = c /\ a' = a) as [-> ->] by (split; congruence). exact X.
  - destruct (hp c n) eqn:H1; [discriminate |]. destruct (hp c (n + 1)) eqn:H2; [discriminate |].
    destruct (astep a o (n + 1)) as [a1 |] eqn:A; [| discriminate].
    destruct (run_op 2 c o (Some n) (Some (n + 1))) as [c1 | c1 |] eqn:R; try discriminate.
    eapply IH; [| exact H]. eapply exec_step; [exact X | | | exact A | exact R]; [| lia].
    split; [| split].
    + intros x E. assert (x = n) by congruence. subst. exact H1.
    + intros x E. assert (x = n + 1) by congruence. subst. exact H2.
    + intros x E E2. assert (x = n) by congruence. assert (x = n + 1) by congruence. lia.
Qed.

(* C16: the current frame is always the one on top of the list: function, catch information,
   instruction offset, every register and the return information. *)
Theorem stack_is_list : forall c a, exec c a ->
  match frames a with
  | [] => cur c = None /\ regs_idx c = 0 /\ depth c = 0
  | f :: _ => reads c f
  end.
Proof.
  intros c a X. pose proof (exec_rep c a X) as R. destruct (frames a) as [| f r] eqn:F.
  - pose proof (rep_depth c a R) as D. rewrite F in D. cbn in D.
    destruct R as (cks & gtop & F' & C & T & _). rewrite F in F'.
    destruct gtop as [| f [| f' gt]], cks as [| [id fs] cr]; cbn [top_ok] in T; try contradiction; try discriminate.
    + destruct T. repeat split; try assumption. change (len (@nil frame)) with 0 in D. lia.
    + destruct fs; [contradiction | discriminate].
  - eapply rep_reads; eassumption.
Qed.

Definition demo_ops : list op :=
  [OPush 100 3 (reg_init 7 1 3); OWrite 0 (SInt 11); OWrite 2 (SObj 12);
   OPushNew 101 2 (reg_init 7 2 2); OWrite 1 (SInt 21);
   OPush 102 1 (reg_init 7 3 1); OWrite 0 (SInt 31)].

(* a function called from a closure called from a function; then everything returns *)
Example demo_stack :
  match runs demo_ops 0 c_init a_init with
  | Some (c, a) =>
      map (read_frame c) [-3; 0] = [Some (SObj 102); Some (SInt 31)] /\ depth c = 7 + 7 + 5 /\
      match runs [OPop] 100 c a with
      | Some (c, a) =>
          map (read_frame c) [-3; 0; 1] = [Some (SObj 101); Some SBad; Some (SInt 21)] /\ depth c = 7 + 7 /\
          match runs [OReturn 2] 200 c a with
          | Some (c, a) =>
              map (read_frame c) [-3; 0; 1; 2] = [Some (SObj 100); Some (SInt 11); Some SBad; Some (SObj 12)] /\
              depth c = 7 /\ read_stack c 7 1 = Some (SInt 21) /\ length (frames a) = 1%nat
          | None => False
          end
      | None => False
      end
  | None => False
  end.
Proof. vm_compute. repeat split. Qed.

(* C16: every operation succeeds, except that a call may be rejected because of the depth, which changes nothing. *)
Theorem stack_progress : forall c a o n1 n2 fuel a', exec c a ->
  new_ids c (Some n1) (Some n2) -> (2 <= fuel)%nat -> astep a o n2 = Some a' ->
  (exists c', run_op fuel c o (Some n1) (Some n2) = Done c' /\ exec c' a') \/
  (run_op fuel c o (Some n1) (Some n2) = Fail c /\
   exists room, op_room o = Some room /\ KOS_MAX_STACK_DEPTH < depth c + room).
Proof.
  intros c a o n1 n2 fuel a' X N FU ST.
  assert (FR : fresh2 c n1 n2).
  { destruct N as (H1 & H2 & H3).
    split; [apply H1; reflexivity | split; [apply H2; reflexivity | intros ->; exact (H3 _ eq_refl eq_refl)]]. }
  destruct (step_ok c a o n1 n2 fuel a' (exec_rep c a X) FR FU ST) as [(c' & E & _) | H]; [left | right; exact H].
  exists c'. split; [exact E |]. eapply exec_step; eassumption.
Qed.

Example progress_limit : (* four frames of 255 registers do not fit *)
  match runs (repeat (OPush 1 255 255) 3) 0 c_init a_init with
  | Some (c, a) =>
      depth c = 259 * 3 + 2 /\ run_op 2 c (OPush 1 255 255) (Some 50) (Some 51) = Fail c /\
      (exists c', run_op 2 c (OPush 1 240 240) (Some 50) (Some 51) = Done c')
  | None => False
  end.
Proof. vm_compute. split; [reflexivity |]. split; [reflexivity |]. eexists. reflexivity. Qed.

(* C16: the frames found by the backtrace are the frames of the list, in order. *)
Theorem stack_walk : forall c a id s, exec c a -> cur c = Some id -> hp c id = Some s ->
  exists l N, Forall2 (frame_at (hp c)) l (frames a) /\
    forall fuel, (N <= fuel)%nat -> walk_stack fuel (hp c) id id (size s) None = Some l.
Proof. intros c a id s X. apply walk_rep, exec_rep, X. Qed.

Example demo_walk :
  match runs demo_ops 0 c_init a_init with
  | Some (c, a) =>
      match cur c with
      | Some id => match hp c id with
                   | Some s => walk_stack 20 (hp c) id id (size s) None = Some [(id, 9); (7, 1); (0, 1)]
                   | None => False
                   end
      | None => False
      end
  | None => False
  end.
Proof. vm_compute. reflexivity. Qed.

(* C16: the depth counts the entries of all frames, plus at most one per frame; it exceeds the limit by at most two. *)
Theorem stack_depth_bound : forall c a, exec c a ->
  total (frames a) <= depth c <= total (frames a) + len (frames a) /\
  0 <= depth c <= KOS_MAX_STACK_DEPTH + 2.
Proof.
  intros c a X. pose proof (exec_rep c a X) as R. pose proof (rep_depth c a R). pose proof (exec_depth c a X).
  pose proof (total_nonneg _ (rep_frames_ok c a R)). lia.
Qed.

Example demo_depth :
  match runs (demo_ops ++ [OPop; OPushNew 5 200 200; OPush 6 255 255; OPush 6 200 200; OPush 1 100 100]) 0 c_init a_init with
  | Some (c, a) => total (frames a) = 7 + 7 + 205 + 259 + 204 + 104 /\ depth c = total (frames a) + 1
  | None => False
  end.
Proof. vm_compute. split; reflexivity. Qed.

(* C16: variables of outer functions, while these run and after they returned. *)
Theorem closure_variables : forall c a f g k, exec c a -> var_ok f k = true ->
  (In f (frames a) /\ f_gen f = Some g) \/ saved a g = Some f ->
  read_stack c g k = gz (f_body f) (var_pos f k).
Proof.
  intros c a f g k X V [[I G] | S].
  - eapply read_var_frame; [apply exec_rep; exact X | exact I | exact G | exact V].
  - eapply read_var_saved; [apply exec_rep; exact X | exact S | exact V].
Qed.

Example demo_closure : (* a closure changes a variable of a running function, then of a finished one *)
  match runs (demo_ops ++ [OWriteVar 7 0 (SInt 77); OPop; OReturn 2; OWriteVar 7 1 (SInt 78)]) 0 c_init a_init with
  | Some (c, a) => map (read_stack c 7) [0; 1; -1; -2] = [Some (SInt 77); Some (SInt 78); Some (SInt 78); Some (SInt 77)]
  | None => False
  end.
Proof. vm_compute. reflexivity. Qed.

(* C16: after a rejected call (also out of memory) the clean-up of the caller leaves the same frames,
   except in the situation excluded by [oom_safe]. *)
Theorem rejected_call : forall c a o a1 a2 fuel c1 n a', exec c a -> new_ids c a1 a2 -> (2 <= fuel)%nat ->
  astep a o n = Some a' -> oom_safe a o a1 a2 -> run_op fuel c o a1 a2 = Fail c1 ->
  exists c', call_cleanup fuel c c1 = Done c' /\ exec c' a.
Proof.
  intros c a o a1 a2 fuel c1 n a' X N FU ST SAFE RN.
  destruct (fail_ok c a o a1 a2 fuel c1 n a' (exec_rep c a X) N FU ST SAFE RN) as (c' & E & _).
  exists c'. split; [exact E |]. eapply exec_fail; eassumption.
Qed.

Example demo_rejected : (* no memory for the first generator frame of a thread *)
  match run_op 2 c_init (OPushNew 1 5 5) (Some 0) None with
  | Fail c1 => cur c1 = Some 0 /\ match call_cleanup 2 c_init c1 with Done c2 => cur c2 = None /\ depth c2 = 0 | _ => False end
  | _ => False
  end.
Proof. vm_compute. repeat split. Qed.

(* A frame pushed and popped again: the list is unchanged, so is the current frame. *)
Theorem push_then_pop : forall c a func n info n1 n2 fuel c1 m1 m2 c2, exec c a ->
  new_ids c (Some n1) (Some n2) -> info_ok n info = true -> (2 <= fuel)%nat ->
  run_op fuel c (OPush func n info) (Some n1) (Some n2) = Done c1 ->
  new_ids c1 (Some m1) (Some m2) ->
  run_op fuel c1 OPop (Some m1) (Some m2) = Done c2 ->
  exec c2 a.
Proof.
  intros c a func n info n1 n2 fuel c1 m1 m2 c2 X N OK FU R1 M R2.
  assert (X1 : exec c1 (mka (mkframe None (empty_body func n) info :: frames a) (saved a))).
  { eapply exec_step; [exact X | exact N | exact FU | | exact R1]. cbn [astep]. rewrite OK. reflexivity. }
  assert (X2 : exec c2 (mka (frames a) (saved a))).
  { eapply exec_step; [exact X1 | exact M | exact FU | | exact R2]. reflexivity. }
  destruct a. exact X2.
Qed.

Example demo_push_pop :
  match runs demo_ops 0 c_init a_init with
  | Some (c, a) =>
      match runs [OPush 9 255 255; OPop] 100 c a with
      | Some (c', a') => cur c' = cur c /\ regs_idx c' = regs_idx c /\ map (read_frame c') [-3; -1; 0] = map (read_frame c) [-3; -1; 0]
      | None => False
      end
  | None => False
  end.
Proof. vm_compute. repeat split. Qed.

(* C83: refuted: out of memory while a closure or a generator calls a regular function: the clean-up
   of the call removes every frame of the chunk.  Here a function calls a closure which calls a function:
   afterwards no frame is left, although two functions are still being executed. *)
Definition oom_ops : list op := [OPush 100 255 255; OPushNew 101 1 1].

Theorem out_of_memory_refuted : exists c a c1 c2,
  exec c a /\ length (frames a) = 2%nat /\
  run_op 2 c (OPush 102 255 255) (Some 10) None = Fail c1 /\ new_ids c (Some 10) None /\
  call_cleanup 2 c c1 = Done c2 /\ cur c2 = None /\ depth c2 <> 0.
Proof.
  destruct (runs oom_ops 0 c_init a_init) as [[c a] |] eqn:E; [| vm_compute in E; discriminate].
  exists c, a.
  pose proof (runs_exec _ _ _ _ _ _ exec_init E) as X.
  destruct (run_op 2 c (OPush 102 255 255) (Some 10) None) as [c1 | c1 |] eqn:E1;
    [exfalso | | exfalso];
    try (vm_compute in E; assert (Q : c = match runs oom_ops 0 c_init a_init with Some (c, _) => c | None => c end) by
           (vm_compute; congruence); rewrite Q in E1; vm_compute in E1; discriminate).
  exists c1.
  assert (Q : c = match runs oom_ops 0 c_init a_init with Some (c, _) => c | None => c end) by (rewrite E; reflexivity).
  assert (QA : a = match runs oom_ops 0 c_init a_init with Some (_, a) => a | None => a end) by (rewrite E; reflexivity).
  destruct (call_cleanup 2 c c1) as [c2 | c2 |] eqn:E2.
  - exists c2. split; [exact X |]. split; [rewrite QA; vm_compute; reflexivity |]. split; [reflexivity |]. split.
    + split; [| split].
      * intros n EN. assert (n = 10) by congruence. subst n. rewrite Q. vm_compute. reflexivity.
      * intros n EN. discriminate.
      * intros n EN. discriminate.
    + split; [reflexivity |].
      rewrite Q in E1. vm_compute in E1. apply (f_equal (fun r => match r with Fail x => x | _ => c1 end)) in E1. subst c1.
      rewrite Q in E2. vm_compute in E2.
      apply (f_equal (fun r => match r with Done x => (cur x, depth x) | _ => (Some 0, 0) end)) in E2.
      cbn [cur depth] in E2. apply pair_equal_spec in E2. destruct E2 as [E3 E4]. rewrite <- E3, <- E4. split; [reflexivity | discriminate].
  - exfalso. rewrite Q in E1. vm_compute in E1. apply (f_equal (fun r => match r with Fail x => x | _ => c1 end)) in E1. subst c1.
    rewrite Q in E2. vm_compute in E2. discriminate.
  - exfalso. rewrite Q in E1. vm_compute in E1. apply (f_equal (fun r => match r with Fail x => x | _ => c1 end)) in E1. subst c1.
    rewrite Q in E2. vm_compute in E2. discriminate.
Qed.

(* C84: refuted: the depth does not stay within the limit, and pushing and popping may change it. *)
Theorem depth_limit_refuted : exists c a, exec c a /\ KOS_MAX_STACK_DEPTH < depth c.
Proof.
  destruct (runs (repeat (OPush 1 255 255) 3 ++ [OPushNew 2 241 241]) 0 c_init a_init) as [[c a] |] eqn:E; [| vm_compute in E; discriminate].
  exists c, a. split; [exact (runs_exec _ _ _ _ _ _ exec_init E) |].
  assert (Q : depth c = match runs (repeat (OPush 1 255 255) 3 ++ [OPushNew 2 241 241]) 0 c_init a_init with Some (c, _) => depth c | None => 0 end)
    by (rewrite E; reflexivity).
  rewrite Q. vm_compute. reflexivity.
Qed.

(* Two frames fill the first chunk exactly, then comes a closure. *)
Definition full_ops : list op := [OPush 1 250 250; OPush 1 250 250; OPushNew 2 1 1].

Theorem push_pop_depth_refuted : exists c a c2, exec c a /\ exec c2 a /\
  runs [OPush 3 1 1; OPop] 100 c a = Some (c2, a) /\ depth c2 = depth c + 1.
Proof.
  destruct (runs full_ops 0 c_init a_init) as [[c a] |] eqn:E; [| vm_compute in E; discriminate].
  pose proof (runs_exec _ _ _ _ _ _ exec_init E) as X.
  destruct (runs [OPush 3 1 1; OPop] 100 c a) as [[c2 a2] |] eqn:E2.
  - assert (Q : depth c2 = depth c + 1 /\ frames a2 = frames a /\ saved a2 = saved a).
    { vm_compute in E. apply (f_equal (fun r => match r with Some x => x | None => (c, a) end)) in E.
      apply pair_equal_spec in E. destruct E as [<- <-]. vm_compute in E2.
      apply (f_equal (fun r => match r with Some (x, y) => (depth x, y) | None => (0, a2) end)) in E2.
      cbn [depth] in E2. apply pair_equal_spec in E2. destruct E2 as [<- <-].
      cbn [depth frames saved]. repeat split. }
    destruct Q as (Q1 & Q2 & Q3). assert (a2 = a) by (destruct a, a2; cbn in *; congruence). subst a2.
    exists c, a, c2. split; [exact X |]. split; [exact (runs_exec _ _ _ _ _ _ X E2) |]. split; [exact E2 | exact Q1].
  - exfalso. vm_compute in E. apply (f_equal (fun r => match r with Some x => x | None => (c, a) end)) in E.
    apply pair_equal_spec in E. destruct E as [<- <-]. vm_compute in E2. discriminate.
Qed.

Print Assumptions stack_is_list.
Print Assumptions stack_progress.
Print Assumptions stack_walk.
Print Assumptions stack_depth_bound.
Print Assumptions closure_variables.
Print Assumptions rejected_call.
Print Assumptions push_then_pop.
Print Assumptions out_of_memory_refuted.
Print Assumptions depth_limit_refuted.
Print Assumptions push_pop_depth_refuted.
