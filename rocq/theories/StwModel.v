(** Model of the way in which threads stop for a collection of garbage,
    core/kos_heap.c: begin_walk and end_walk (575-602), stop_the_world (1228-1263),
    engage_in_gc (2707-2720), help_gc (2722-2783), kos_help_gc (2784-2801),
    KOS_suspend_context (2823-2836), KOS_resume_context (2838-2868) and
    KOS_collect_garbage (2870-3062).

    All these functions read and write the fields modelled here with heap->mutex
    locked, so a step is what a thread does from the moment when it gets the mutex
    to the moment when it unlocks it or waits.  The only read without the mutex is
    the first one of kos_help_gc (2792), after which help_gc reads again.
    Contexts which are not registered are SUSPENDED ones: stop_the_world skips
    these, and init_context (kos_instance.c:120) and unregister_thread (152) put
    them into this state.  Objects, pages, errors and statistics are left out;
    where they decide what happens next, the step takes a boolean. *)
From Coq Require Import ZArith List Lia Bool ZifyBool.
Import ListNotations.
From Verif Require Import Base StwSpec.
Local Open Scope Z_scope.

(** enum GC_STATE_E, kos_heap.h:17-30: values of heap->gc_state, *)
Inductive gcs := INACTIVE | INIT | MARK | EVACUATE | UPDATE.
(** and of ctx->gc_state. *)
Inductive cst := CINACTIVE | SUSPENDED | ENGAGED.

(** Where a thread is.  [g] is the phase to which the walk belongs. *)
Inductive pc :=
| Run                 (* outside of these functions, context active *)
| Susp                (* between KOS_suspend_context and KOS_resume_context *)
| HSleep              (* help_gc, waits on helper_cond, line 2775 *)
| HWoken              (* there, to lock the mutex *)
| HWalk (g : gcs)     (* a helper between begin_walk and end_walk *)
| CSleep              (* stop_the_world, waits on engagement_cond, line 1261 *)
| CWoken              (* there, to lock the mutex *)
| CWalk (g : gcs)     (* the collector between begin_walk and end_walk *)
| CWSleep (g : gcs)   (* end_walk, waits on walk_cond, line 598 *)
| CWWoken (g : gcs)   (* there, to lock the mutex *)
| CEvac.              (* evacuate, line 2966, without the mutex *)

Record thread := mkth { tpc : pc; tst : cst }.

(** heap->gc_state, heap->threads_to_stop, heap->walk_threads, KOS_EVENT_GC in
    event_flags of contexts (kos_set_global_event and kos_clear_global_event change
    it in all of them with ctx_mutex locked, kos_instance.c:1209-1248, and new contexts
    copy it from another, kos_instance.c:191), and the threads. *)
Record heap := mkheap { gc : gcs; tts : Z; walk : Z; ev : bool; ths : list thread }.

Fixpoint put (l : list thread) (t : nat) (x : thread) : list thread :=
  match l, t with
  | [], _ => []
  | _ :: r, O => x :: r
  | y :: r, S k => y :: put r k x
  end.

(** Signalled condition variables; at most one thread waits on engagement_cond and
    walk_cond (theorem one_collector), so waking one up is waking all up. *)
Definition wake_helpers (x : thread) : thread :=
  match tpc x with HSleep => mkth HWoken (tst x) | _ => x end.
Definition wake_stopper (x : thread) : thread :=
  match tpc x with CSleep => mkth CWoken (tst x) | _ => x end.
Definition wake_walker (x : thread) : thread :=
  match tpc x with CWSleep g => mkth (CWWoken g) (tst x) | _ => x end.

Definition is_init (g : gcs) : bool := match g with INIT => true | _ => false end.
Definition is_inactive (g : gcs) : bool := match g with INACTIVE => true | _ => false end.
Definition running (x : thread) : Z := match tst x with CINACTIVE => 1 | _ => 0 end.
Definition sum (f : thread -> Z) (l : list thread) : Z := fold_right (fun x n => f x + n) 0 l.

(** engage_in_gc, 2707-2720. *)
Definition engage (c : cst) (p : pc) (t : nat) (h : heap) : heap :=
  if is_init (gc h) then
    let n := u32 (tts h - 1) in
    if n =? 0 then mkheap (gc h) n (walk h) (ev h) (put (map wake_stopper (ths h)) t (mkth p c))
    else mkheap (gc h) n (walk h) (ev h) (put (map (fun x => x) (ths h)) t (mkth p c))
  else mkheap (gc h) (tts h) (walk h) (ev h) (put (map (fun x => x) (ths h)) t (mkth p c)).

(** The loop of help_gc, 2744-2782, from the test of gc_state to the next wait or
    walk.  [more]: heap->walk_pages is not null (2382). *)
Definition helper_loop (more : bool) (t : nat) (h : heap) : heap :=
  let stay p := mkheap (gc h) (tts h) (walk h) (ev h) (put (map (fun x => x) (ths h)) t p) in
  let enter g := mkheap (gc h) (tts h) (walk h + 1) (ev h) (put (map (fun x => x) (ths h)) t (mkth (HWalk g) ENGAGED)) in
  match gc h with
  | INACTIVE => stay (mkth Run CINACTIVE)
  | MARK => enter MARK
  | UPDATE => if more then enter UPDATE else stay (mkth HSleep ENGAGED)
  | INIT | EVACUATE => stay (mkth HSleep ENGAGED)
  end.

(** help_gc, 2722-2783, when heap->gc_state is not GC_INACTIVE. *)
Definition help (more : bool) (t : nat) (h : heap) : heap :=
  helper_loop more t (engage ENGAGED HWoken t h).

(** end_walk of a helper, 586-595, then the wait at 2775. *)
Definition helper_end (t : nat) (h : heap) : heap :=
  let w := walk h - 1 in
  if w =? 0 then mkheap (gc h) (tts h) w (ev h) (put (map wake_walker (ths h)) t (mkth HSleep ENGAGED))
  else mkheap (gc h) (tts h) w (ev h) (put (map (fun x => x) (ths h)) t (mkth HSleep ENGAGED)).

(** The end of KOS_collect_garbage, 3011-3033. *)
Definition finish (t : nat) (h : heap) : heap :=
  mkheap INACTIVE (tts h) (walk h) false (put (map wake_helpers (ths h)) t (mkth Run CINACTIVE)).

(** begin_walk of the collector, 575-584, after heap->gc_state := [g]. *)
Definition start_walk (g : gcs) (t : nat) (h : heap) : heap :=
  mkheap g (tts h) (walk h + 1) (ev h) (put (map wake_helpers (ths h)) t (mkth (CWalk g) ENGAGED)).

(** Beginning of an evacuation, 2961-2966. *)
Definition start_evac (t : nat) (h : heap) : heap :=
  mkheap EVACUATE (tts h) (walk h) (ev h) (put (map (fun x => x) (ths h)) t (mkth CEvac ENGAGED)).

(** After marking (2944-2961): [again] if there is no error.  After an update
    (2976-2998): [again] if evacuation has failed and pages have been reclaimed. *)
Definition after_walk (again : bool) (t : nat) (h : heap) : heap :=
  if again then start_evac t h else finish t h.

(** end_walk of the collector, 586-601. *)
Definition collector_end (again : bool) (g : gcs) (t : nat) (h : heap) : heap :=
  let w := walk h - 1 in
  let h1 := mkheap (gc h) (tts h) w (ev h) (ths h) in
  if w =? 0 then after_walk again t h1
  else mkheap (gc h) (tts h) w (ev h) (put (map (fun x => x) (ths h)) t (mkth (CWSleep g) ENGAGED)).

Definition collector_woken (again : bool) (g : gcs) (t : nat) (h : heap) : heap :=
  if walk h =? 0 then after_walk again t h
  else mkheap (gc h) (tts h) (walk h) (ev h) (put (map (fun x => x) (ths h)) t (mkth (CWSleep g) ENGAGED)).

(** stop_the_world, one turn of the loop, 1234-1262; if all threads have stopped,
    roots are marked (2936) and, unless this fails ([ok]), marking begins. *)
Definition stop_world (ok : bool) (t : nat) (h : heap) : heap :=
  let n := u32 (sum running (ths h)) in
  let h1 := mkheap (gc h) n (walk h) (ev h) (ths h) in
  if n =? 0 then if ok then start_walk MARK t h1 else finish t h1
  else mkheap (gc h) n (walk h) (ev h) (put (map (fun x => x) (ths h)) t (mkth CSleep ENGAGED)).

(** KOS_collect_garbage, 2902-2918. *)
Definition begin_collect (t : nat) (h : heap) : heap :=
  mkheap INIT (tts h) (walk h) true (put (map (fun x => x) (ths h)) t (mkth CWoken ENGAGED)).

(** After evacuate returns, 2968-2990; [more]: there are pages to update. *)
Definition evac_end (more again : bool) (t : nat) (h : heap) : heap :=
  let h1 := mkheap UPDATE (tts h) (walk h) (ev h) (ths h) in
  if more then start_walk UPDATE t h1 else after_walk again t h1.

Inductive act :=
| Suspend                   (* KOS_suspend_context *)
| Resume (more : bool)      (* KOS_resume_context *)
| Help (more : bool)        (* kos_help_gc, or a slow allocation, kos_heap.c:917-926 *)
| Collect (more : bool)     (* KOS_collect_garbage *)
| Continue (more again : bool)
| Spurious.

Definition step (t : nat) (a : act) (h : heap) : option heap :=
  match nth_error (ths h) t with
  | None => None
  | Some x =>
      match tpc x, a with
      | Run, Suspend => Some (engage SUSPENDED Susp t h)
      | Run, Help more => Some (if is_inactive (gc h) then h else help more t h)
      | Run, Collect more =>
          Some (if is_inactive (gc h) then stop_world more t (begin_collect t h) else help more t h)
      | Susp, Resume more =>
          Some (if is_inactive (gc h)
                then mkheap (gc h) (tts h) (walk h) (ev h) (put (map (fun x => x) (ths h)) t (mkth Run CINACTIVE))
                else help more t h)
      | HWoken, Continue more _ => Some (helper_loop more t h)
      | HWalk _, Continue _ _ => Some (helper_end t h)
      | CWoken, Continue more _ => Some (stop_world more t h)
      | CWalk g, Continue _ again => Some (collector_end again g t h)
      | CWWoken g, Continue _ again => Some (collector_woken again g t h)
      | CEvac, Continue more again => Some (evac_end more again t h)
      | HSleep, Spurious => Some (mkheap (gc h) (tts h) (walk h) (ev h) (put (map (fun x => x) (ths h)) t (mkth HWoken (tst x))))
      | CSleep, Spurious => Some (mkheap (gc h) (tts h) (walk h) (ev h) (put (map (fun x => x) (ths h)) t (mkth CWoken (tst x))))
      | CWSleep g, Spurious => Some (mkheap (gc h) (tts h) (walk h) (ev h) (put (map (fun x => x) (ths h)) t (mkth (CWWoken g) (tst x))))
      | _, _ => None
      end
  end.

(** kos_heap_init (242-243) and init_context: all contexts are suspended. *)
Definition init (n : nat) : heap := mkheap INACTIVE 0 0 false (repeat (mkth Susp SUSPENDED) n).

Inductive reachable (n : nat) : heap -> Prop :=
| R_init : reachable n (init n)
| R_step : forall h t a h', reachable n h -> step t a h = Some h' -> reachable n h'.

Fixpoint exec (l : list (nat * act)) (h : heap) : option heap :=
  match l with
  | [] => Some h
  | (t, a) :: r => match step t a h with Some h' => exec r h' | None => None end
  end.

Definition does (x : thread) : activity :=
  match tpc x with
  | Run => Mutates
  | Susp => Parked
  | HSleep | CSleep | CWSleep _ => Sleeps
  | HWoken | CWoken | CWWoken _ => Wakes
  | HWalk MARK | CWalk MARK => Marks
  | HWalk _ | CWalk _ => Updates
  | CEvac => Evacuates
  end.
Definition activities (h : heap) : list activity := map does (ths h).
