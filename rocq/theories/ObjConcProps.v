(* C09 and C117: objects shared by threads. *)
From Coq Require Import ZArith List Lia Bool ZifyBool.
Import ListNotations.
From Verif Require Import Base ListZ ObjConcSpec ObjConcModel ObjConcProofs ObjConcProofs2 ObjConcProofs3 ObjConcProofs6.
Local Open Scope Z_scope.
Ltac Zify.zify_post_hook ::= idtac.

Definition all_ops (sched : list (Z * action)) (k : list Z) (v : Z) : Prop := exists t, In (t, Invoke (OSet k (Some v))) sched.
Lemma run_all : forall hash_of threads sched, Z.of_nat threads <= 1000000000 ->
  exists s h, run hash_of (init threads) [] sched = Fin s h /\ Forall (event_ok (all_ops sched)) h.
Proof.
  intros hash_of threads sched B. destruct (run_ok (all_ops sched) hash_of sched _ _ _ _ [] (init_ok (all_ops sched) threads)) as (s & h & E & H & _).
  - cbn [init y_threads]. rewrite len_repeat. exact B.
  - intros t [k [v|]|k] Hin; cbn [opok]; [exists t; exact Hin | exact I | exact I].
  - constructor.
  - exists s, h. split; [exact E | exact H].
Qed.

(* Threads set, delete and get properties of an object which has no prototype.  No access is outside of a table, no assertion fails, no
   get meets a value which is reserved or closed, in any interleaving. *)
Theorem object_concurrent_safe : forall hash_of threads sched, Z.of_nat threads <= 1000000000 ->
  exists s h, run hash_of (init threads) [] sched = Fin s h.
Proof. intros hash_of threads sched B. destruct (run_all hash_of threads sched B) as (s & h & E & _). exists s, h. exact E. Qed.

(* A get which returns a value returns a value which was set under the same name before. *)
Theorem object_get_written : forall hash_of threads sched t k v, Z.of_nat threads <= 1000000000 ->
  In (t, OGet k, RVal v) (completed (run hash_of (init threads) [] sched)) -> exists u, In (u, Invoke (OSet k (Some v))) sched.
Proof.
  intros hash_of threads sched t k v B H. destruct (run_all hash_of threads sched B) as (s & h & E & F). rewrite E in H. cbn [completed] in H.
  rewrite Forall_forall in F. exact (F _ H v eq_refl).
Qed.

(* Thread 1 sets a property, thread 0 is between publishing the key of the same property and its hash.  Thread 1 sets one more property,
   which makes it grow the table, and then it cannot find the property which it has set. *)
Definition sum_hash (k : list Z) : Z := 1 + nth 0 k 0 mod 65536.
Definition steps (n : nat) (t : Z) : list (Z * action) := repeat (t, Go true) n.
Definition grow_race : list (Z * action) :=
  [(1, Invoke (OSet [4] (Some 50)))] ++ steps 12 1 ++ [(1, Invoke (OSet [6] (Some 70)))] ++ steps 12 1 ++
  [(0, Invoke (OSet [5] (Some 60)))] ++ steps 4 0 ++
  [(1, Invoke (OSet [5] (Some 61)))] ++ steps 12 1 ++ [(1, Invoke (OSet [7] (Some 80)))] ++ steps 130 1 ++ [(1, Invoke (OGet [5]))] ++ steps 10 1.
Theorem object_set_grow_refuted :
  exists hash_of threads sched s h1 h2 t k v,
    (forall x, 0 < hash_of x < 4294967296) /\ (forall u x, ~ In (u, Invoke (OSet x None)) sched) /\
    run hash_of (init threads) [] sched = Fin s (h1 ++ [(t, OSet k (Some v), RDone)] ++ h2 ++ [(t, OGet k, RNone)]).
Proof.
  exists sum_hash, 2%nat, grow_race.
  assert (E : exists s, run sum_hash (init 2) [] grow_race = Fin s [(1, OSet [4] (Some 50), RDone); (1, OSet [6] (Some 70), RDone); (1, OSet [5] (Some 61), RDone); (1, OSet [7] (Some 80), RDone); (1, OGet [5], RNone)]) by (eexists; vm_compute; reflexivity).
  destruct E as (s & E). exists s, [(1, OSet [4] (Some 50), RDone); (1, OSet [6] (Some 70), RDone)], [(1, OSet [7] (Some 80), RDone)], 1, [5], 61. split; [| split; [| exact E]].
  - intros x. unfold sum_hash. pose proof (Z.mod_pos_bound (nth 0 x 0) 65536 ltac:(lia)). lia.
  - intros u x H. assert (F : forallb (fun a => match a with (_, Invoke (OSet _ None)) => false | _ => true end) grow_race = true) by reflexivity. rewrite forallb_forall in F. specialize (F _ H). discriminate F.
Qed.

(* three threads; the table grows while thread 2 deletes and reads *)
Definition busy : list (Z * action) :=
  [(0, Invoke (OSet [1] (Some 10))); (1, Invoke (OSet [2] (Some 20)))] ++ flat_map (fun _ => [(0, Go true); (1, Go true)]) (seq 0 20) ++
  [(0, Invoke (OSet [3] (Some 30))); (1, Invoke (OSet [4] (Some 40))); (2, Invoke (OSet [1] None))] ++ flat_map (fun _ => [(0, Go true); (1, Go true); (2, Go true)]) (seq 0 200) ++
  [(0, Invoke (OSet [5] (Some 50))); (1, Invoke (OGet [1])); (2, Invoke (OGet [2]))] ++ flat_map (fun _ => [(0, Go true); (1, Go true); (2, Go true)]) (seq 0 200) ++
  [(0, Invoke (OGet [5])); (2, Invoke (OGet [4]))] ++ flat_map (fun _ => [(0, Go true); (2, Go true)]) (seq 0 20).
Example busy_history : completed (run sum_hash (init 3) [] busy) =
  [(0, OSet [1] (Some 10), RDone); (1, OSet [2] (Some 20), RDone); (2, OSet [1] None, RDone); (0, OSet [3] (Some 30), RDone); (1, OSet [4] (Some 40), RDone);
   (1, OGet [1], RNone); (2, OGet [2], RVal 20); (0, OSet [5] (Some 50), RDone); (0, OGet [5], RVal 50); (2, OGet [4], RVal 40)].
Proof. vm_compute. reflexivity. Qed.
Example busy_read_written : exists u, In (u, Invoke (OSet [5] (Some 50))) busy.
Proof. apply (object_get_written sum_hash 3 busy 0 [5] 50); [lia |]. rewrite busy_history. right. right. right. right. right. right. right. right. left. reflexivity. Qed.

Print Assumptions object_concurrent_safe.
Print Assumptions object_get_written.
Print Assumptions object_set_grow_refuted.
