(* Objects: properties C08, C57 - C61.
   [alloc_ok c]: whether the allocation of a property table with c slots succeeds; more than 2^31
   slots (a 32-bit size) are never available.  [hash] is any function: the theorems do not depend
   on which keys collide.  The states considered are those reached by any sequence of operations
   from a state without objects. *)
From Coq Require Import ZArith List Lia Bool ZifyBool.
Import ListNotations.
From Verif Require Import Base ListZ StringSpec ObjModel ObjSpec ObjCalls ObjProofs ObjProofs2 ObjProofs3 ObjProofs4 ObjProofs5 ObjProofs6.
Local Open Scope Z_scope.

Definition alloc_limit (alloc_ok : Z -> bool) : Prop := forall c, alloc_ok c = true -> 0 < c <= 2147483648.

(* C08: every sequence of operations has outcomes and a final state which a sequence of steps on
   finite maps can have. *)
Theorem object_ops_refine_maps : forall hash alloc_ok xs, alloc_limit alloc_ok -> valid_ops 0 xs ->
  exists outs w, run alloc_ok hash empty_world xs = Some (outs, w) /\ steps [] xs outs (abs w).
Proof.
  intros hash alloc_ok xs A V. destruct (run_ok hash alloc_ok A xs empty_world (empty_wf hash) V) as [outs [w [R [_ [S _]]]]].
  exists outs, w. auto.
Qed.

Definition outs_of (r : option (list outcome * world)) : option (list outcome) := option_map fst r.
Definition big (c : Z) : bool := (0 <? c) && (c <=? 1024).
Definition ops_ex : list op :=
  [ Create None; Create (Some 0%nat); Put 0 [97] (Plain 1); Read 1 [97] false; Read 1 [97] true; Put 1 [97] (Plain 2);
    Read 1 [97] false; Read 0 [97] false; Delete 1 [97]; Read 1 [97] false; Delete 0 [97]; Read 1 [97] false;
    Put 0 [98] (Dynamic 7); Put 0 [98] (Plain 3); Put 1 [98] (Plain 4); Read 1 [98] false; Delete 0 [98]; Read 0 [98] false ].
(* also when all hashes are equal *)
Example object_ops_ex :
  outs_of (run big text_hash empty_world ops_ex) = outs_of (run big (fun _ => 12345) empty_world ops_ex) /\
  outs_of (run big text_hash empty_world ops_ex) =
  Some [Created 0; Created 1; Done; Found (Plain 1); Absent; Done; Found (Plain 2); Found (Plain 1); Done; Found (Plain 1);
        Done; Absent; Done; Setter 7; Done; Found (Plain 4); Done; Absent].
Proof. split; vm_compute; reflexivity. Qed.

(* a hundred keys in one object, with table growth *)
Example object_many_ex :
  let keys := map (fun n => [Z.of_nat n mod 10 + 48; Z.of_nat n / 10 + 48]) (seq 0 100) in
  match run big text_hash empty_world (Create None :: map (fun k => Put 0 k (Plain (nth 0 k 0))) keys) with
  | Some (outs, w) => (outs, map (own (abs w) 0) keys, map t_cap (w_tables w))
  | None => ([], [], [])
  end = (Created 0 :: repeat Done 100, map (fun k => Some (Plain (nth 0 k 0))) keys, [4; 8; 16; 32; 64; 128; 256; 512]).
Proof. vm_compute. reflexivity. Qed.

(* C57: setting a property succeeds (or calls the setter) if the object has at most nine other
   properties and tables of up to four times the current size can be allocated. *)
Theorem object_set_succeeds_partial : forall hash alloc_ok xs outs w o k v names, alloc_limit alloc_ok -> valid_ops 0 xs ->
  run alloc_ok hash empty_world xs = Some (outs, w) -> has_own (abs w) o -> (length names <= 9)%nat ->
  (forall k', k' <> k -> own (abs w) o k' <> None -> In k' names) ->
  (forall c, 0 < c <= Z.max 16 (4 * cap_of w o) -> alloc_ok c = true) ->
  exists out w', run_op alloc_ok hash w (Put o k v) = Some (out, w') /\ out <> Raised.
Proof.
  intros hash alloc_ok xs outs w o k v names A V R Ho L Hn Al.
  destruct (run_ok hash alloc_ok A xs empty_world (empty_wf hash) V) as [outs' [w' [R' [W _]]]]. rewrite R in R'. inversion R'. subst outs' w'.
  assert (P : props_of w o <> None) by (apply (has_own_abs hash); assumption).
  assert (S : succeeded (set_property alloc_ok hash w o k (pval_of v))).
  { apply (set_property_few hash alloc_ok A w o k (pval_of v) names); auto.
    - destruct v; right; exact I.
    - intros k' N Ho'. apply Hn; [ exact N | ]. rewrite (own_abs hash) by exact W. destruct (omap w o k') as [x|] eqn:E; [ | congruence ].
      destruct (live_sval x (omap_live hash w o k' x W E)) as [s Hs]. congruence. }
  cbn [run_op]. destruct (set_property alloc_ok hash w o k (pval_of v)) as [w'|w'|d w'|]; cbn [succeeded ores_outcome] in *; try contradiction.
  - exists Done, w'. split; [ reflexivity | discriminate ].
  - exists (Setter d), w'. split; [ reflexivity | discriminate ].
Qed.

(* Refuted in general: if an object has ten properties whose names have equal hashes then setting
   another name with this hash always raises an exception, whatever memory is available. *)
Theorem object_set_eleven_equal_hashes : forall hash alloc_ok xs outs w o k v names, alloc_limit alloc_ok -> valid_ops 0 xs ->
  run alloc_ok hash empty_world xs = Some (outs, w) -> ~ In (Delete o k) xs -> own (abs w) o k = None ->
  NoDup names -> length names = 10%nat -> (forall x, In x names -> hash x = hash k /\ own (abs w) o x <> None) ->
  exists w', run_op alloc_ok hash w (Put o k v) = Some (Raised, w') /\ forall k', own (abs w') o k' = own (abs w) o k'.
Proof.
  intros hash alloc_ok xs outs w o k v names A V R Nd Ho ND L H.
  destruct (run_ok hash alloc_ok A xs empty_world (empty_wf hash) V) as [outs' [w' [R' [W [_ Tb]]]]]. rewrite R in R'. inversion R'. subst outs' w'.
  destruct (crowded_set hash alloc_ok A w o k (pval_of v) names) as [w' [S [W' M]]]; auto.
  - destruct v; right; exact I.
  - destruct v; discriminate.
  - intros x Ix. destruct (H x Ix) as [H1 H2]. split; [ exact H1 | ]. rewrite (own_abs hash) in H2 by exact W. intros E. rewrite E in H2. apply H2. reflexivity.
  - rewrite (own_abs hash) in Ho by exact W. destruct (omap w o k) as [x|] eqn:E; [ | reflexivity ].
    destruct (live_sval x (omap_live hash w o k x W E)) as [s Hs]. congruence.
  - intros Tk. destruct (Tb o k Tk) as [[n [t [P _]]]|X]; [ | contradiction ]. unfold props_of, empty_world in P. cbn in P. destruct o; discriminate.
  - exists w'. cbn [run_op]. rewrite S. split; [ reflexivity | ]. intros k'. rewrite !(own_abs hash) by assumption. rewrite M. reflexivity.
Qed.

(* eleven names of two characters with equal hashes *)
Definition eleven : list name :=
  [[97; 1000]; [98; 779]; [99; 810]; [100; 77]; [101; 108]; [102; 911]; [103; 942]; [104; 705]; [105; 736]; [106; 515]; [107; 546]].
Theorem object_set_succeeds_refuted :
  NoDup eleven /\ (forall x, In x eleven -> text_hash x = text_hash [97; 1000]) /\
  outs_of (run big text_hash empty_world (Create None :: map (fun k => Put 0 k (Plain 1)) eleven)) =
  Some (Created 0 :: repeat Done 10 ++ [Raised]).
Proof.
  split; [ | split; [ | vm_compute; reflexivity ] ].
  - unfold eleven. repeat (constructor; [ cbn; intuition discriminate | ]). constructor.
  - intros x I. unfold eleven in I. cbn [In] in I. repeat (destruct I as [<-|I]; [ vm_compute; reflexivity | ]). contradiction.
Qed.

(* C58: refuted: an exception from set does not mean that the object is unchanged *)
Theorem object_failed_set_refuted :
  let small (c : Z) := c =? 4 in
  alloc_limit small /\
  outs_of (run small text_hash empty_world [Create None; Put 0 [97] (Plain 1); Put 0 [98] (Plain 2); Put 0 [99] (Plain 3); Read 0 [99] false]) =
  Some [Created 0; Done; Done; Raised; Found (Plain 3)].
Proof. split; [ intros c H; lia | vm_compute; reflexivity ]. Qed.

(* what holds: an exception leaves the object unchanged or with the operation done *)
Theorem object_failed_set_partial : forall hash alloc_ok xs outs w o k v w', alloc_limit alloc_ok -> valid_ops 0 xs ->
  run alloc_ok hash empty_world xs = Some (outs, w) -> (o < length (abs w))%nat ->
  run_op alloc_ok hash w (Put o k v) = Some (Raised, w') -> unchanged (abs w) (abs w') \/ changes (abs w) (abs w') o k (Some v).
Proof.
  intros hash alloc_ok xs outs w o k v w' A V R L Ro.
  destruct (run_ok hash alloc_ok A xs empty_world (empty_wf hash) V) as [outs' [w1 [R' [W _]]]]. rewrite R in R'. inversion R'. subst outs' w1.
  destruct (run_op_ok hash alloc_ok A w (Put o k v) W L) as [out [w1 [R1 [_ [_ S]]]]]. rewrite Ro in R1. inversion R1. subst out w1.
  inversion S; auto.
Qed.

(* C59: reading a property finds the value in the nearest object of the prototype chain *)
Theorem object_read_follows_prototypes : forall hash alloc_ok xs outs w o k, alloc_limit alloc_ok -> valid_ops 0 xs ->
  run alloc_ok hash empty_world xs = Some (outs, w) -> (o < length (abs w))%nat ->
  exists out, run_op alloc_ok hash w (Read o k false) = Some (out, w) /\
    ((exists v, out = Found v /\ sees (abs w) o k v /\ forall v', sees (abs w) o k v' -> v' = v) \/ (out = Absent /\ forall v, ~ sees (abs w) o k v)).
Proof.
  intros hash alloc_ok xs outs w o k A V R L.
  destruct (run_ok hash alloc_ok A xs empty_world (empty_wf hash) V) as [outs' [w1 [R' [W _]]]]. rewrite R in R'. inversion R'. subst outs' w1.
  rewrite (abs_length w) in L. pose proof (get_ok hash w o k false W L) as G. unfold get_post in G. cbn [run_op].
  destruct (get_property hash w o k false) as [[| |v|] w']; cbn [fst snd] in G; destruct G as [-> G]; try contradiction.
  - exists Absent. split; [ reflexivity | ]. right. auto.
  - destruct G as [_ [s [Hs S]]]. rewrite Hs. exists (Found s). split; [ reflexivity | ]. left. exists s. split; [ reflexivity | ]. split; [ exact S | ].
    intros v' S'. apply (sees_fun _ _ _ _ S' _ S).
Qed.
Example object_read_ex :
  let xs := [Create None; Create (Some 0%nat); Create (Some 1%nat); Put 0 [97] (Plain 1); Put 0 [98] (Plain 2); Put 1 [98] (Plain 3)] in
  match run big text_hash empty_world xs with
  | Some (_, w) => map (fun k => option_map fst (run_op big text_hash w (Read 2 k false))) [[97]; [98]; [99]]
  | None => []
  end = [Some (Found (Plain 1)); Some (Found (Plain 3)); Some Absent].
Proof. vm_compute. reflexivity. Qed.

(* C60: a shallow walk interleaved with any operations, fewer than 2^31: every property returned is
   a current property of the object, no name is returned twice, and if the end was reached every
   name which was there all the time has been returned. *)
Theorem object_walk_interleaved : forall hash alloc_ok xs outs w o es, alloc_limit alloc_ok -> valid_ops 0 xs ->
  run alloc_ok hash empty_world xs = Some (outs, w) -> (o < length (abs w))%nat -> valid_events (length (abs w)) es -> len es <= 2147483640 ->
  exists k states ys, new_object_walk w o false = (w, k) /\ session alloc_ok hash w k es = Some (states, ys) /\
    (forall s x v, In (s, Some (x, v)) ys -> own s o x = Some v) /\
    NoDup (yielded ys) /\
    (forall s x, In (s, None) ys -> (forall s', In s' states -> own s' o x <> None) -> In x (yielded ys)).
Proof.
  intros hash alloc_ok xs outs w o es A V R L Ve Le.
  destruct (run_ok hash alloc_ok A xs empty_world (empty_wf hash) V) as [outs' [w1 [R' [W _]]]]. rewrite R in R'. inversion R'. subst outs' w1.
  rewrite (abs_length w) in L. destruct (walk_start hash w o W L) as [k [K [Vk Hk]]].
  destruct (session_ok hash alloc_ok A es w k o 0 W Vk Ve ltac:(lia) Le) as [states [ys [S [S1 [_ [S3 [S4 S5]]]]]]].
  exists k, states, ys. split; [ exact K | ]. split; [ exact S | ]. split; [ exact S1 | ]. split; [ exact S3 | ].
  intros s x I Hs. assert (Om : omap w o x <> None).
  { specialize (Hs (abs w) S5). rewrite (own_abs hash) in Hs by exact W. intros E. rewrite E in Hs. apply Hs. reflexivity. }
  destruct (Hk x Om) as [j [Hj Kj]]. apply (S4 s x j I Hs Kj Hj).
Qed.

(* the table grows during the walk, a key is deleted before and another one added *)
Example object_walk_ex :
  let xs := [Create None; Put 0 [97] (Plain 1); Put 0 [98] (Plain 2); Put 0 [99] (Plain 3); Put 0 [100] (Plain 4)] in
  let es := [Next; Do (Put 0 [101] (Plain 5)); Do (Put 0 [102] (Plain 6)); Do (Put 0 [103] (Plain 7)); Do (Put 0 [100] (Plain 8));
             Do (Delete 0 [98]); Next; Next; Next; Next] in
  match run big text_hash empty_world xs with
  | Some (_, w) =>
    match session big text_hash w (snd (new_object_walk w 0 false)) es with
    | Some (_, ys) => map snd ys
    | None => []
    end
  | None => []
  end = [Some ([100], Plain 4); Some ([102], Plain 6); Some ([97], Plain 1); Some ([99], Plain 3); None].
Proof. vm_compute. reflexivity. Qed.

(* C61: a deep walk returns only visible properties, each name once, and all visible properties
   whose names were never deleted from any object. *)
Theorem object_deep_walk_partial : forall hash alloc_ok xs outs w o, alloc_limit alloc_ok -> valid_ops 0 xs ->
  run alloc_ok hash empty_world xs = Some (outs, w) -> (o < length (abs w))%nat ->
  let '(w0, k) := new_object_walk w o true in
  match walk_list alloc_ok hash (walk_fuel w0) w0 k with
  | OOk l => NoDup (map fst l) /\
      (forall x v, In (x, v) l -> exists s, sval_of (Some v) = Some s /\ sees (abs w) o x s) /\
      (forall x s, sees (abs w) o x s -> (forall q, ~ In (Delete q x) xs) -> exists v, sval_of (Some v) = Some s /\ In (x, v) l)
  | OExn _ => True
  | _ => False
  end.
Proof.
  intros hash alloc_ok xs outs w o A V R L.
  destruct (run_ok hash alloc_ok A xs empty_world (empty_wf hash) V) as [outs' [w1 [R' [W [_ Tb]]]]]. rewrite R in R'. inversion R'. subst outs' w1.
  rewrite (abs_length w) in L. pose proof (deep_walk_ok hash alloc_ok A w o W L) as D. destruct (new_object_walk w o true) as [w0 k].
  destruct (walk_list alloc_ok hash (walk_fuel w0) w0 k) as [l| | |]; auto. destruct D as [D1 [D2 D3]].
  split; [ exact D1 | ]. split; [ exact D2 | ]. intros x s S N. apply D3; [ exact S | ]. intros q Tk.
  destruct (Tb q x Tk) as [[n [t [P _]]]|X]; [ | apply (N q X) ]. unfold props_of, empty_world in P. cbn in P. destruct q; discriminate.
Qed.

Definition deep_names (xs : list op) (o : nat) : option (list (name * pval)) :=
  match run big text_hash empty_world xs with
  | Some (_, w) =>
    let '(w0, k) := new_object_walk w o true in
    match walk_list big text_hash (walk_fuel w0) w0 k with OOk l => Some l | _ => None end
  | None => None
  end.
Example object_deep_walk_ex :
  deep_names [Create None; Create (Some 0%nat); Create (Some 1%nat); Put 0 [97] (Plain 1); Put 0 [98] (Plain 2); Put 2 [98] (Plain 3); Put 2 [99] (Plain 4)] 2 =
  Some [([99], Val 4); ([98], Val 3); ([97], Val 1)].
Proof. vm_compute. reflexivity. Qed.

(* Refuted in general: a deleted own property hides the property of the prototype from the walk,
   but not from a read. *)
Theorem object_deep_walk_refuted :
  let xs := [Create None; Create (Some 0%nat); Put 0 [97] (Plain 1); Put 1 [97] (Plain 2); Delete 1 [97]] in
  deep_names xs 1 = Some [] /\
  outs_of (run big text_hash empty_world (xs ++ [Read 1 [97] false])) = Some [Created 0; Created 1; Done; Done; Done; Found (Plain 1)].
Proof. split; vm_compute; reflexivity. Qed.

(* C62: refuted: the size of the table depends on the names ever used, not on the number of
   properties: with at most one property at any time the table grows. *)
Theorem object_table_bounded_refuted :
  let xs := flat_map (fun n => [Put 0 [Z.of_nat n] (Plain 1); Delete 0 [Z.of_nat n]]) (seq 0 200) in
  match run big text_hash empty_world (Create None :: xs) with
  | Some (_, w) => (cap_of w 0, filter (fun n => match own (abs w) 0 [Z.of_nat n] with Some _ => true | None => false end) (seq 0 200))
  | None => (0, [])
  end = (128, []).
Proof. vm_compute. reflexivity. Qed.

Print Assumptions object_ops_refine_maps.
Print Assumptions object_set_succeeds_partial.
Print Assumptions object_set_eleven_equal_hashes.
Print Assumptions object_set_succeeds_refuted.
Print Assumptions object_failed_set_refuted.
Print Assumptions object_failed_set_partial.
Print Assumptions object_read_follows_prototypes.
Print Assumptions object_walk_interleaved.
Print Assumptions object_deep_walk_partial.
Print Assumptions object_deep_walk_refuted.
Print Assumptions object_table_bounded_refuted.
