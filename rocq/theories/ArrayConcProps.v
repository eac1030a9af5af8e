(* Arrays shared by threads. *)
From Coq Require Import ZArith List Lia Bool ZifyBool.
Import ListNotations.
From Verif Require Import Base ListZ ArrayModel ArrayConcSpec ArrayConcModel ArrayConcProofs ArrayConcProofs2 ArrayConcProofs3 ArrayConcProofs4 ArrayConcProofs5 ArrayConcProofs6.
Local Open Scope Z_scope.
Ltac Zify.zify_post_hook ::= idtac.

(* Any number of threads read, write, compare-and-swap and grow an array.  The operations they complete, in the order of completion,
   are a legal sequence of operations on the list of elements, whatever the interleaving is (and also if a thread fails later by
   an access outside of a storage). *)
Theorem array_concurrent : forall l capacity threads sched,
  len l <= capacity <= 1000000000 ->
  (forall t o, In (t, Invoke o) sched -> access o \/ growing o) ->
  exists l', len l' = len l /\ history l (completed (run (init l capacity threads) [] sched)) l'.
Proof.
  intros l capacity threads sched F B. destruct (init_ok l capacity threads F) as (ch & G & _).
  destruct (run_history sched _ [] l l ch 0 B G (history_nil l)) as (l' & H & Hl). exists l'. auto.
Qed.

(* the elements after a sequence of operations *)
Lemma history_last : forall l h l', history l h l' -> (forall t o r, In (t, o, r) h -> access o \/ growing o) -> len l' = len l /\ forall i v, gz l i = Some v -> gz l' i = Some (last_value (len l) i v h).
Proof.
  assert (App : forall h1 n i v t o r, last_value n i v (h1 ++ [(t, o, r)]) = last_value n i (last_value n i v h1) [(t, o, r)]).
  { induction h1 as [|((t1, o1), r1) h1 IH]; intros n i v t o r; [reflexivity |]. cbn [app last_value]. rewrite IH. reflexivity. }
  intros l h l' H. induction H as [| h t o r l1 l2 H IH Lg]; intros Ho.
  - split; [reflexivity |]. intros i v Hi. exact Hi.
  - destruct IH as (Ll & IH). { intros t1 o1 r1 Hin. apply (Ho t1 o1 r1). apply in_or_app. left. exact Hin. }
    assert (Hn : access o \/ growing o) by (apply (Ho t o r); apply in_or_app; right; left; reflexivity).
    assert (Ps : forall idx, position l1 idx = if idx <? 0 then idx + len l else idx) by (intros idx; unfold position; rewrite Ll; reflexivity).
    destruct o as [idx | idx x | idx old new | n | n]; cbn [legal] in Lg.
    + destruct Lg as (-> & _). split; [exact Ll |]. intros i v Hi. rewrite App. exact (IH i v Hi).
    + rewrite Ps in Lg. destruct (gz l1 _) as [w|].
      * destruct Lg as (-> & Lc & Ch). split; [lia |]. intros i v Hi. rewrite App. cbn [last_value]. pose proof (gz_some_inv _ _ _ _ Hi) as Bi. rewrite Ch by lia. rewrite (Z.eqb_sym i). destruct (_ =? i); [reflexivity | exact (IH i v Hi)].
      * destruct Lg as (-> & ->). split; [exact Ll |]. intros i v Hi. rewrite App. exact (IH i v Hi).
    + rewrite Ps in Lg. destruct (gz l1 _) as [w|].
      * destruct Lg as (-> & Lc). destruct (w =? old) eqn:Ew.
        { destruct Lc as (Lc & Ch). split; [lia |]. intros i v Hi. rewrite App. cbn [last_value]. rewrite Ew, andb_true_r. pose proof (gz_some_inv _ _ _ _ Hi) as Bi. rewrite Ch by lia. rewrite (Z.eqb_sym i). destruct (_ =? i); [reflexivity | exact (IH i v Hi)]. }
        { subst l2. split; [exact Ll |]. intros i v Hi. rewrite App. cbn [last_value]. rewrite Ew, andb_false_r. exact (IH i v Hi). }
      * destruct Lg as (-> & ->). split; [exact Ll |]. intros i v Hi. rewrite App. exact (IH i v Hi).
    + destruct Lg as (-> & _). split; [exact Ll |]. intros i v Hi. rewrite App. exact (IH i v Hi).
    + destruct Hn as [Hn | Hn]; contradiction.
Qed.

Lemma history_split : forall l h2 h1 e l', history l (h1 ++ e :: h2) l' -> exists l1 l2, history l h1 l1 /\ legal l1 (snd (fst e)) (snd e) l2.
Proof.
  intros l h2. induction h2 as [|e2 h2 IH] using rev_ind; intros h1 e l' H.
  - inversion H as [E | h t o r l1 l2 H1 H2 E]; [destruct h1; discriminate |]. apply app_inj_tail in E. destruct E as (-> & <-). exists l1, l'. auto.
  - replace (h1 ++ e :: h2 ++ [e2]) with ((h1 ++ e :: h2) ++ [e2]) in H by (rewrite <- app_assoc; reflexivity).
    inversion H as [E | h t o r l1 l2 H1 H2 E]; [destruct h1; discriminate |]. apply app_inj_tail in E. destruct E as (-> & _). exact (IH h1 e l1 H1).
Qed.

Lemma completed_ops : forall sched s h t o r, (forall u, match gz (y_threads s) u with Some (Some (o, _)) => access o \/ growing o | _ => True end) ->
  (forall t o r, In (t, o, r) h -> access o \/ growing o) -> (forall t o, In (t, Invoke o) sched -> access o \/ growing o) ->
  In (t, o, r) (completed (run s h sched)) -> access o \/ growing o.
Proof.
  induction sched as [|(u, a) sched IH]; intros s h t o r Hs Hh Hb Hin; cbn [run] in Hin.
  - exact (Hh t o r Hin).
  - assert (Hb' : forall t o, In (t, Invoke o) sched -> access o \/ growing o) by (intros t1 o1 H1; apply (Hb t1 o1); right; exact H1).
    pose proof (Hs u) as Hu. destruct (gz (y_threads s) u) as [[(o1, p)|]|] eqn:Eu; [| | eapply IH; eassumption]; pose proof (gz_some_inv _ _ _ _ Eu) as Bu.
    + destruct a as [o' | yes]; [eapply IH; eassumption |]. destruct (thread_step (y_mem s) p yes) as [m' p' | m' r' |]; [| | exact (Hh t o r Hin)].
      * eapply IH; [| exact Hh | exact Hb' | exact Hin]. intros w. cbn [y_threads]. rewrite gz_put by exact Bu. destruct (w =? u); [exact Hu | apply Hs].
      * eapply IH; [| | exact Hb' | exact Hin].
        { intros w. cbn [y_threads]. rewrite gz_put by exact Bu. destruct (w =? u); [exact Logic.I | apply Hs]. }
        { intros t1 o2 r1 H1. apply in_app_or in H1. destruct H1 as [H1 | [H1 | []]]; [exact (Hh _ _ _ H1) |]. assert (o2 = o1) by congruence. subst o2. exact Hu. }
    + destruct a as [o' | yes]; [| eapply IH; eassumption]. eapply IH; [| exact Hh | exact Hb' | exact Hin]. intros w. cbn [y_threads]. rewrite gz_put by exact Bu. destruct (w =? u); [apply (Hb u o'); left; reflexivity | apply Hs].
Qed.

(* A read returns the value of the last completed write or successful compare-and-swap of this element: no completed write is lost. *)
Theorem array_read_last_write : forall l capacity threads sched h1 h2 t idx r,
  len l <= capacity <= 1000000000 ->
  (forall t o, In (t, Invoke o) sched -> access o \/ growing o) ->
  completed (run (init l capacity threads) [] sched) = h1 ++ (t, ORead idx, r) :: h2 ->
  let i := if idx <? 0 then idx + len l else idx in
  r = match gz l i with Some v => RVal (last_value (len l) i v h1) | None => RExn end.
Proof.
  intros l capacity threads sched h1 h2 t idx r F B E i. destruct (array_concurrent l capacity threads sched F B) as (l' & Ll & H). rewrite E in H.
  destruct (history_split _ _ _ _ _ H) as (l1 & l2 & H1 & Lg). cbn [fst snd legal] in Lg. destruct Lg as (_ & ->).
  destruct (history_last l h1 l1 H1) as (Ll1 & V).
  { intros t1 o1 r1 Hin. eapply (completed_ops sched (init l capacity threads) [] t1 o1 r1); [| | exact B |].
    - intros u. destruct (gz _ u) as [[(o2, p2)|]|] eqn:Eu; try exact Logic.I. apply idle in Eu. discriminate Eu.
    - intros t2 o2 r2 [].
    - refine (eq_ind_r (fun x => In (t1, o1, r1) x) _ E). apply in_or_app. left. exact Hin. }
  assert (Ei : position l1 idx = i) by (unfold position, i; rewrite Ll1; reflexivity). rewrite Ei. destruct (gz l i) as [v|] eqn:Ev.
  - rewrite (V i v Ev). reflexivity.
  - destruct (gz l1 i) as [w|] eqn:Ew; [| reflexivity]. exfalso. apply gz_some_inv in Ew. destruct (gz_some _ l i ltac:(lia)) as (z & Hz). congruence.
Qed.

(* If only one thread grows the array, no access is outside of a storage and every operation can go on. *)
Theorem array_single_grower : forall l capacity threads sched g,
  len l <= capacity <= 1000000000 ->
  (forall t o, In (t, Invoke o) sched -> access o \/ (growing o /\ t = g)) ->
  exists s h, run (init l capacity threads) [] sched = Fin s h.
Proof.
  intros l capacity threads sched g F B. destruct (init_ok l capacity threads F) as (ch & G & Lc). apply (run_safe sched g _ [] l ch 0 B G). constructor.
  - intros k b b' H1 H2. pose proof (gz_some_inv _ _ _ _ H1). pose proof (gz_some_inv _ _ _ _ H2). lia.
  - intros t o p H. apply idle in H. discriminate H.
  - intros _. lia.
  - intros p (o & H). apply idle in H. discriminate H.
Qed.

(* thread t makes n steps *)
Definition steps (n : nat) (t : Z) : list (Z * action) := repeat (t, Go true) n.

(* Two threads grow an array of two elements: thread 0 to 3 elements, thread 1 to 100.  The first has found that the storage is too
   small; the second replaces the storage; then the first makes a storage for 3 elements the successor of it and copies all slots. *)
Definition two_growers : list (Z * action) :=
  [(0, Invoke (OReserve 3))] ++ steps 1 0 ++ [(1, Invoke (OReserve 100))] ++ steps 20 1 ++ steps 40 0.
Theorem array_two_growers_refuted :
  exists l capacity threads sched h,
    len l <= capacity <= 1000000000 /\ (forall t o, In (t, Invoke o) sched -> growing o) /\
    run (init l capacity threads) [] sched = UbAfter h.
Proof.
  exists [7; 8], 2, 2%nat, two_growers. eexists. split; [change (len [7; 8]) with 2; lia |]. split.
  - intros t o H. unfold two_growers in H. repeat (apply in_app_or in H; destruct H as [H | H]); try (apply repeat_spec in H; discriminate H); destruct H as [H | []]; assert (E : o = OReserve 3 \/ o = OReserve 100) by (first [left; congruence | right; congruence]); destruct E as [-> | ->]; exact Logic.I.
  - vm_compute. reflexivity.
Qed.

(* Thread 0 makes an array of two elements longer by one and reads the new element, while thread 1 grows the storage. *)
Definition of_thread (t : Z) (h : list event) : list event := filter (fun e => fst (fst e) =? t) h.
Definition resize_race : list (Z * action) :=
  [(0, Invoke (OResize 3))] ++ steps 1 0 ++ [(1, Invoke (OReserve 8))] ++ steps 30 1 ++ steps 4 0 ++ [(0, Invoke (ORead 2))] ++ steps 4 0.

Lemma no_order : forall h l', history [7; 8] h l' -> (forall t o r, In (t, o, r) h -> t <> 0 -> growing o) ->
  match of_thread 0 h with
  | [] => len l' = 2
  | [(_, OResize 3, RDone)] => len l' = 3
  | [(_, OResize 3, RDone); (_, ORead 2, RExn)] => False
  | _ => True
  end.
Proof.
  intros h l' H. induction H as [| h t o r l1 l2 H IH Lg]; intros Ho; [reflexivity |].
  assert (Ho' : forall t o r, In (t, o, r) h -> t <> 0 -> growing o) by (intros t1 o1 r1 H1; apply (Ho t1 o1 r1); apply in_or_app; left; exact H1). specialize (IH Ho').
  assert (Hn : t <> 0 -> growing o) by (apply (Ho t o r); apply in_or_app; right; left; reflexivity).
  assert (Ef : of_thread 0 (h ++ [(t, o, r)]) = of_thread 0 h ++ if t =? 0 then [(t, o, r)] else []) by (unfold of_thread; rewrite filter_app; reflexivity).
  rewrite Ef. destruct (Z.eqb_spec t 0) as [-> | N].
  - revert IH. destruct (of_thread 0 h) as [| e1 es]; cbn [app]; intros IH.
    + destruct o as [idx | idx x | idx old new | n | n]; try exact Logic.I. destruct (Z.eq_dec n 3) as [-> | N3]; [| destruct n as [|[[]|[]|]|]; try exact Logic.I; congruence]. destruct r; try exact Logic.I.
      cbn [legal] in Lg. destruct Lg as [(X & _) | (_ & X & _)]; [discriminate X | exact X].
    + revert IH. destruct es as [| e2 es]; cbn [app]; intros IH.
      * destruct e1 as ((t1, o1), r1). destruct o1 as [|?|?|?|n]; try exact Logic.I. destruct (Z.eq_dec n 3) as [-> | N3]; [| destruct n as [|[[]|[]|]|]; try exact Logic.I; congruence]. destruct r1; try exact Logic.I.
        destruct o as [idx | ? | ? | ? | ?]; try exact Logic.I. destruct (Z.eq_dec idx 2) as [-> | N2]; [| destruct idx as [|[|[]|]|]; try exact Logic.I; congruence]. destruct r; try exact Logic.I.
        cbn [legal] in Lg. destruct Lg as (_ & Lg). unfold position in Lg. destruct (2 <? 0) eqn:E2; [discriminate E2 |]. change (len l1 = 3) in IH. destruct (gz_some _ l1 2 ltac:(lia)) as (z & Hz). rewrite Hz in Lg. discriminate Lg.
      * destruct e1 as ((t1, o1), r1). destruct o1 as [|?|?|?|n]; try exact Logic.I. destruct (Z.eq_dec n 3) as [-> | N3]; [| destruct n as [|[[]|[]|]|]; try exact Logic.I; congruence]. destruct r1; try exact Logic.I.
        destruct e2 as ((t2, o2), r2). destruct o2 as [idx | ? | ? | ? | ?]; try exact Logic.I. destruct (Z.eq_dec idx 2) as [-> | N2]; [| destruct idx as [|[|[]|]|]; try exact Logic.I; congruence]. destruct r2; try exact Logic.I. destruct es; exact Logic.I.
  - rewrite app_nil_r. specialize (Hn N). destruct o; try contradiction. cbn [legal] in Lg. destruct Lg as (-> & _). exact IH.
Qed.

(* The read fails although the same thread has completed the resize before; no order of the completed operations which keeps the order
   of the operations of each thread is a legal sequence. *)
Theorem array_resize_race_refuted :
  exists l capacity threads sched s h,
    len l <= capacity <= 1000000000 /\ run (init l capacity threads) [] sched = Fin s h /\
    of_thread 0 h = [(0, OResize 3, RDone); (0, ORead 2, RExn)] /\ of_thread 1 h = [(1, OReserve 8, RDone)] /\
    forall h' l', (forall t, of_thread t h' = of_thread t h) -> ~ history l h' l'.
Proof.
  exists [7; 8], 4, 2%nat, resize_race.
  assert (E : exists s h, run (init [7; 8] 4 2) [] resize_race = Fin s h /\ h = [(1, OReserve 8, RDone); (0, OResize 3, RDone); (0, ORead 2, RExn)]) by (eexists; eexists; split; [vm_compute; reflexivity | reflexivity]).
  destruct E as (s & h & E & ->). exists s. eexists. split; [change (len [7; 8]) with 2; lia |]. split; [exact E |]. split; [reflexivity |]. split; [reflexivity |].
  intros h' l' Hf H. apply no_order in H.
  - rewrite (Hf 0) in H. exact H.
  - intros t o r Hin Nt. assert (Hin' : In (t, o, r) (of_thread t h')) by (apply filter_In; split; [exact Hin | cbn [fst]; apply Z.eqb_refl]).
    rewrite Hf in Hin'. apply filter_In in Hin'. destruct Hin' as ([X | [X | [X | []]]] & _); [assert (o = OReserve 8) by congruence; subst o; exact Logic.I | congruence | congruence].
Qed.

(* three threads: 0 writes, 1 increments with compare-and-swap, 2 grows the array from two to sixteen slots meanwhile *)
Definition busy : list (Z * action) :=
  [(0, Invoke (OWrite (-1) 30)); (1, Invoke (OCas 0 7 9)); (2, Invoke (OReserve 16))] ++ steps 3 0 ++ steps 2 1 ++ steps 13 2 ++ steps 20 0 ++ steps 30 1 ++ steps 9 2
  ++ [(0, Invoke (ORead 1)); (1, Invoke (ORead 0)); (2, Invoke (ORead 5))] ++ steps 4 0 ++ steps 4 1 ++ steps 4 2.
Example busy_history : completed (run (init [7; 8] 2 3) [] busy) =
  [(0, OWrite (-1) 30, RDone); (1, OCas 0 7 9, RVal 7); (2, OReserve 16, RDone); (0, ORead 1, RVal 30); (1, ORead 0, RVal 9); (2, ORead 5, RExn)].
Proof. vm_compute. reflexivity. Qed.

Print Assumptions array_concurrent.
Print Assumptions array_read_last_write.
Print Assumptions array_single_grower.
Print Assumptions array_two_growers_refuted.
Print Assumptions array_resize_race_refuted.
