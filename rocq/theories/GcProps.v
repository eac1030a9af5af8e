(* Properties of the garbage collector. *)
From Coq Require Import ZArith List Lia Bool ZifyBool Permutation.
Import ListNotations.
From Verif Require Import Base ListZ GcModel GcSpec GcProofs GcProofs2 GcProofs3 GcProofs8 GcProofs9 GcProofs10.
Local Open Scope Z_scope.
Ltac Zify.zify_post_hook ::= idtac.

(* ------------------------------------------------------------- C40 *)

(* For every heap, every set of roots and every interleaving of the marking
   threads: the collection ends (it is never cut off by the fuel), keeps every
   reachable object with its contents, makes all references follow, leaves
   nothing else but filler objects, finalizes exactly what is unreachable, and
   leaves a well-formed heap - also when memory runs out on the way. *)
Theorem gc_preserves_reachable : forall sched h i r, heap_ok h i -> collect sched h i = Some r ->
  exists h' i', (r = GDone h' i' \/ r = GOom h' i') /\ collected h i h' i' /\ heap_ok h' i'.
Proof.
  intros sched h i r H E. destruct (collect_ok sched h i r H E) as [h' [i' [A [B [C _]]]]]. exists h', i'. auto.
Qed.
Print Assumptions gc_preserves_reachable.

(* The objects reachable afterwards are the same ones, no more and no less. *)
Theorem gc_same_graph : forall sched h i h' i', heap_ok h i ->
  (collect sched h i = Some (GDone h' i') \/ collect sched h i = Some (GOom h' i')) ->
  exists f, (forall v, reach h i v -> reach h' i' (f v)) /\
            (forall w, reach h' i' w -> exists v, reach h i v /\ w = f v) /\
            (forall v w, reach h i v -> reach h i w -> f v = f w -> v = w) /\
            (forall v, reach h i v -> same_object f h v h' (f v)) /\
            roots i' = map f (roots i).
Proof.
  intros sched h i h' i' H E.
  assert (G : collected h i h' i' /\ heap_ok h' i').
  { destruct E as [E | E]; destruct (gc_preserves_reachable _ _ _ _ H E) as [h2 [i2 [[A | A] [B C]]]]; try discriminate;
      assert (h' = h2 /\ i' = i2) as [-> ->] by (split; congruence); auto. }
  destruct G as [G HO]. destruct (collected_moved _ _ _ _ G) as [f [MV [J [L _]]]]. exists f.
  split; [ apply (reach_fwd f h i h' i' (proj1 HO) MV) | ].
  split; [ apply (reach_back f h i h' i' (proj1 (proj2 H)) (proj1 HO) MV) | ].
  split; [ exact J | ]. split; [ apply (mv_same _ _ _ _ _ MV) | apply (mv_roots _ _ _ _ _ MV) ].
Qed.
Print Assumptions gc_same_graph.

(* After a collection nothing unreachable is left but filler. *)
Theorem gc_reclaims_garbage : forall sched h i h' i' w, heap_ok h i ->
  (collect sched h i = Some (GDone h' i') \/ collect sched h i = Some (GOom h' i')) ->
  is_obj h' w -> reach h' i' w \/ is_opaque (body h' w).
Proof.
  intros sched h i h' i' w H E Hw.
  assert (G : collected h i h' i' /\ heap_ok h' i').
  { destruct E as [E | E]; destruct (gc_preserves_reachable _ _ _ _ H E) as [h2 [i2 [[A | A] [B C]]]]; try discriminate;
      assert (h' = h2 /\ i' = i2) as [-> ->] by (split; congruence); auto. }
  destruct G as [G HO]. destruct (collected_moved _ _ _ _ G) as [f [MV [J [L _]]]].
  destruct (L w Hw) as [Q | [v [R ->]]]; [ right; assumption | left ]. apply (reach_fwd f h i h' i' (proj1 HO) MV). assumption.
Qed.
Print Assumptions gc_reclaims_garbage.

(* Marking alone: when all threads have left, the objects with a mark are the
   reachable ones, for any number of threads and any interleaving. *)
Theorem gc_marks_reachable : forall sched h i, objs_ok h i ->
  (forall v, reach h i v -> color h (mark_loc h v) = 0) ->
  let s := mark_run h sched (mark_init h i) in
  (forall t, t_run (m_thr s t) = false) ->
  (forall v, reach h i v -> 2 <= m_color s (mark_loc h v) <= 3) /\
  (forall n, m_color s n <> color h n -> heap_id n /\ reach h i n).
Proof.
  intros sched h i OB C0 s Idle. apply (mark_final h i OB (color h) s); [ | exact Idle ].
  apply mark_run_ok; [ assumption | ]. apply mark_init_ok; [ exact C0 | reflexivity ].
Qed.
Print Assumptions gc_marks_reachable.

(* ------------------------------------------------------------- examples *)

Definition lookup {A : Type} (dflt : A) (l : list (Z * A)) (k : Z) : A :=
  match find (fun e => fst e =? k) l with Some (_, a) => a | None => dflt end.

Definition ex_cells (l : list (Z * Z * obj)) : list (Z * cell) :=
  map (fun e => (fst (fst e), mkcell (HSize (snd (fst e))) (snd e))) l.

Definition ex_heap (objs : list (Z * Z * obj)) (trackers : list (Z * Z)) (pages : list (Z * Z)) (fr : list Z) : heap :=
  mkheap (lookup (mkcell (HSize 0) (OOpaque [])) (ex_cells objs)) (lookup 1 trackers) (lookup 0 pages)
         (fun _ => 0) (fun _ => 2) (map fst pages) fr [] None
         (fold_right Z.add 0 (map (fun e => 64 + 32 * snd e) pages)) [] 0 0.

(* An array whose storage refers to a huge array storage and back to the array;
   an object and a huge buffer storage with finalizers which are garbage. *)
Definition H1 : Z := 409609.
Definition H2 : Z := 819209.
Definition ex_objs : list (Z * Z * obj) :=
  [ (slot_id 1 0, 32, OArray [3] (slot_id 1 3));
    (slot_id 1 1, 64, OOpaque [7]);
    (slot_id 1 3, 64, OArrStorage [] [H1; 84; slot_id 1 0] 1);
    (slot_id 1 5, 32, OTracker 1000 409600 H1);
    (slot_id 1 6, 32, OObject 1 1 (Some 77));
    (slot_id 1 7, 32, OTracker 2000 819200 H2);
    (slot_id 1 8, 704, OString [1; 2; 3]);
    (H1, 992, OArrStorage [] [slot_id 1 3; slot_id 1 0] 1);
    (H2, 1992, OBufStorage [] true 12345 (Some 88)) ].
Definition ex1 : heap := ex_heap ex_objs [(H1, slot_id 1 5); (H2, slot_id 1 7)] [(1, 30)] [2].
Definition ex1_inst : inst := mkinst [] [] [] (slot_id 1 0) [mkctxt 1 1 [slot_id 1 3; H1] []].

(* Two marking threads. *)
Definition ex1_sched : list (Z * nat * bool) :=
  concat (repeat [(0, O, false); (1, O, true)] 6) ++ repeat (0, O, false) 37.

Definition show (r : option gcres) (l : list Z) :=
  match r with
  | Some (GDone h i) => Some (true, map (fun p => (p, nalloc h p)) (used h), free h, usz h, fins h,
                              roots i, map (fun v => (v, mem h v, bref h v)) l)
  | Some (GOom h i) => Some (false, map (fun p => (p, nalloc h p)) (used h), free h, usz h, fins h,
                             roots i, map (fun v => (v, mem h v, bref h v)) l)
  | _ => None
  end.

(* Everything reachable moves to page 2, page 1 becomes free. *)
Example gc_example :
  show (collect ex1_sched ex1 ex1_inst) [slot_id 2 0; slot_id 2 1; slot_id 2 3; H1] =
  Some (true, [(2, 4)], [1], 192, [88; 77], [slot_id 2 0; 1; 1; slot_id 2 1; H1],
        [ (slot_id 2 0, mkcell (HSize 32) (OArray [3] (slot_id 2 1)), 1);
          (slot_id 2 1, mkcell (HSize 64) (OArrStorage [] [H1; 84; slot_id 2 0] 1), 1);
          (slot_id 2 3, mkcell (HSize 32) (OTracker 1000 409600 H1), 1);
          (H1, mkcell (HSize 992) (OArrStorage [] [slot_id 2 1; slot_id 2 0] 1), slot_id 2 3) ]).
Proof. vm_compute. reflexivity. Qed.

(* The objects reachable in a concrete heap: a set which has the roots and is
   closed. *)
Definition managed_b (v : Z) : bool := negb (is_bad v) && is_tracked v.
Definition succs (h : heap) (v : Z) : list Z :=
  refs (body h v) ++ (if v mod 32 =? 9 then [bref h v] else []).
Definition closed (h : heap) (i : inst) (R : list Z) : bool :=
  let mem_b v := existsb (Z.eqb v) R in
  forallb (fun v => negb (managed_b v) || mem_b v) (roots i) &&
  forallb (fun v => forallb (fun w => negb (managed_b w) || mem_b w) (succs h v)) R.

Lemma closed_reach : forall h i R, closed h i R = true -> forall v, reach h i v -> In v R.
Proof.
  intros h i R H. unfold closed in H. cbv zeta in H. apply andb_true_iff in H. destruct H as [A B].
  rewrite forallb_forall in A, B.
  assert (In_R : forall w, negb (managed_b w) || existsb (Z.eqb w) R = true -> managed w -> In w R).
  { intros w Q M. apply managed_iff in M. unfold managed_b in Q. rewrite M in Q. cbn [negb orb] in Q.
    apply existsb_exists in Q. destruct Q as [x [Hx E]]. apply Z.eqb_eq in E. subst. assumption. }
  intros v Rv. induction Rv as [v Hr M | v w Rv IH Hs M].
  - apply In_R; [ apply A; assumption | assumption ].
  - apply In_R; [ | assumption ]. specialize (B v IH). rewrite forallb_forall in B. apply B. unfold succs. apply in_or_app.
    destruct Hs as [Hs | [Hh ->]]; [ left; assumption | right ]. unfold huge_id in Hh. rewrite Hh. left. reflexivity.
Qed.

Fixpoint chain_b (m : Z -> cell) (a e : Z) (l : list Z) : bool :=
  match l with
  | [] => a =? e
  | x :: l' => (x =? a) && match c_hdr (m x) with
                           | HSize s => (0 <? s) && (s mod 32 =? 0) && chain_b m (a + s) e l'
                           | HFwd _ => false
                           end
  end.

Lemma chain_b_ok : forall m l a e, chain_b m a e l = true -> chain m a e l.
Proof.
  intros m l. induction l as [|x l IH]; intros a e H; cbn [chain_b chain] in *; [ lia | ].
  destruct (c_hdr (m x)) as [s|w] eqn:E; [ | rewrite andb_false_r in H; discriminate ].
  assert (x = a /\ 0 < s /\ s mod 32 = 0 /\ chain_b m (a + s) e l = true) as [-> [S1 [S2 S3]]]
    by (rewrite !andb_true_iff in H; destruct H as [Q1 [[Q2 Q3] Q4]]; repeat split; try assumption; lia).
  split; [ reflexivity | ]. exists s. split; [ reflexivity | ]. split; [ assumption | ]. split; [ assumption | ]. apply IH. assumption.
Qed.

(* A checker for [heap_ok] on a heap with the pages [pl], given as the objects
   on each, and the reachable objects [R]. *)
Definition hdr_b (h : heap) (v : Z) : bool := match c_hdr (mem h v) with HSize _ => true | _ => false end.
Definition ok_b (h : heap) (i : inst) (pl : list (Z * list Z)) (R : list Z) : bool :=
  forallb (fun e => (0 <=? fst e) && (0 <=? nalloc h (fst e)) && (nalloc h (fst e) <=? 126) &&
                    chain_b (mem h) (slot_id (fst e) 0) (slot_id (fst e) (nalloc h (fst e))) (snd e)) pl &&
  forallb (fun p => (0 <=? p) && (nalloc h p =? 0)) (free h) &&
  forallb (fun t => match body h t with
                    | OTracker _ _ o => (o =? 1) || ((o mod 32 =? 9) && (bref h o =? t))
                    | _ => true
                    end) (concat (map snd pl)) &&
  closed h i R &&
  forallb (fun v => if v mod 32 =? 1 then existsb (Z.eqb v) (concat (map snd pl))
                    else hdr_b h v && (bref h v mod 32 =? 1) && negb (bref h v =? 1) &&
                         match body h (bref h v) with OTracker _ _ o => o =? v | _ => false end &&
                         match body h v with OTracker _ _ _ => false | _ => true end) R &&
  forallb (fun v => match body h v with
                    | OBuffer _ x => negb (managed_b x) || match body h x with OBufStorage _ _ _ _ => true | _ => false end
                    | _ => true
                    end) R.

Lemma ok_b_objs : forall h i pl R, ok_b h i pl R = true -> used h = map fst pl -> cur h = None ->
  (forall p, In p (map fst pl) -> exists l, In (p, l) pl /\ 0 <= p /\ 0 <= nalloc h p <= 126 /\ pobjs h p l) /\
  (forall x, is_obj h x <-> In x (concat (map snd pl))).
Proof.
  intros h i pl R H Eu Ec. unfold ok_b in H. rewrite !andb_true_iff in H.
  destruct H as [[[[[H1 _] _] _] _] _]. rewrite forallb_forall in H1.
  assert (IU : in_use h = map fst pl) by (unfold in_use; rewrite Eu, Ec; apply app_nil_r).
  assert (PL : forall p, In p (map fst pl) -> exists l, In (p, l) pl /\ 0 <= p /\ 0 <= nalloc h p <= 126 /\ pobjs h p l).
  { intros p Hp. apply in_map_iff in Hp. destruct Hp as [[q l] [<- Hp]]. cbn [fst]. specialize (H1 (q, l) Hp). cbn [fst snd] in H1.
    exists l. split; [ assumption | ]. rewrite !andb_true_iff in H1. destruct H1 as [[[A1 A2] A3] A4].
    split; [ lia | ]. split; [ lia | ]. apply chain_b_ok. assumption. }
  split; [ exact PL | ].
  intros x. unfold is_obj. rewrite IU, in_concat. split.
  - intros [p [l [Hp [Hl Hx]]]]. destruct (PL p Hp) as [l2 [A [_ [_ B]]]]. exists l2. split; [ apply in_map_iff; exists (p, l2); auto | ].
    rewrite <- (chain_fun _ _ _ _ _ Hl B). assumption.
  - intros [l [Hl Hx]]. apply in_map_iff in Hl. destruct Hl as [[p l'] [E Hp]]. cbn [snd] in E. subst l'. exists p, l.
    assert (Hp' : In p (map fst pl)) by (apply in_map_iff; exists (p, l); auto). split; [ assumption | ]. split; [ | assumption ].
    specialize (H1 (p, l) Hp). cbn [fst snd] in H1. rewrite !andb_true_iff in H1. apply chain_b_ok. apply H1.
Qed.

Lemma ok_b_ok : forall h i pl R, ok_b h i pl R = true ->
  used h = map fst pl -> cur h = None -> resv h = [] -> NoDup (map fst pl ++ free h) ->
  usz h = fold_right Z.add 0 (map (fun p => 64 + 32 * nalloc h p) (used h)) -> heap_ok h i.
Proof.
  intros h i pl R H Eu Ec Er ND US. destruct (ok_b_objs h i pl R H Eu Ec) as [PL OBJ]. unfold ok_b in H. rewrite !andb_true_iff in H.
  destruct H as [[[[[H1 H2] H3] H4] H5] H6]. rewrite forallb_forall in H2, H3, H5, H6.
  assert (IU : in_use h = map fst pl) by (unfold in_use; rewrite Eu, Ec; apply app_nil_r).
  pose proof (closed_reach h i R H4) as CR.
  split; [ | split; [ | exact US ] ].
  - split; [ rewrite IU, Er, app_nil_r; assumption | ]. split.
    + intros p Hp. rewrite IU, Er, app_nil_r in Hp. apply in_app_or in Hp. destruct Hp as [Hp | Hp].
      * destruct (PL p Hp) as [l [_ [A _]]]. assumption.
      * specialize (H2 p Hp). lia.
    + split; [ intros p Hp; rewrite IU in Hp; destruct (PL p Hp) as [l [_ [_ [A B]]]]; split; [ assumption | exists l; assumption ] | ].
      intros p Hp. specialize (H2 p Hp). lia.
  - split; [ | split; [ | split ] ].
    + intros t s d o Ot Et Ho. apply OBJ in Ot. specialize (H3 t Ot). rewrite Et in H3. unfold huge_id. lia.
    + intros v Rv [Hv _]. apply CR in Rv. specialize (H5 v Rv). rewrite Hv in H5. cbn [Z.eqb Pos.eqb] in H5. apply OBJ.
      apply existsb_exists in H5. destruct H5 as [x [Hx E]]. apply Z.eqb_eq in E. subst. assumption.
    + intros v Rv Hv. apply CR in Rv. specialize (H5 v Rv). unfold huge_id in Hv. rewrite Hv in H5. cbn [Z.eqb Pos.eqb] in H5.
      rewrite !andb_true_iff in H5. destruct H5 as [[[[A B] C] D] E]. unfold hdr_b in A.
      split; [ destruct (c_hdr (mem h v)) as [s|w]; [ exists s; reflexivity | discriminate ] | ].
      split; [ unfold heap_id; split; lia | ].
      split.
      * destruct (body h (bref h v)); try discriminate. exists size, data. assert (object = v) by lia. congruence.
      * intros s d o Q. rewrite Q in E. discriminate.
    + intros v d x Rv E M. apply CR in Rv. specialize (H6 v Rv). rewrite E in H6. apply managed_iff in M. unfold managed_b in H6.
      rewrite M in H6. cbn [negb orb] in H6. destruct (body h x); try discriminate. eexists _, _, _, _. reflexivity.
Qed.

Example ex1_ok : heap_ok ex1 ex1_inst.
Proof.
  apply (ok_b_ok ex1 ex1_inst [(1, [slot_id 1 0; slot_id 1 1; slot_id 1 3; slot_id 1 5; slot_id 1 6; slot_id 1 7; slot_id 1 8])]
           [slot_id 1 0; slot_id 1 3; slot_id 1 5; H1]); try reflexivity.
  change (NoDup [1; 2]). repeat constructor; cbn [In]; lia.
Qed.

(* Too little memory: A, B fit into the free page, C does not.  What is left of
   the page of B and C is put back with a filler in front, then the page of A is
   free and the second pass succeeds. *)
Definition ex2_objs : list (Z * Z * obj) :=
  [ (slot_id 1 0, 1920, OArrStorage [1] [slot_id 3 61; slot_id 3 0] 1);
    (slot_id 1 60, 960, OString [1]);
    (slot_id 3 0, 1920, OArrStorage [2] [slot_id 1 0] (slot_id 3 61));
    (slot_id 3 60, 32, OModule [] 1 1 1 1 1 1 1 (Some 99));
    (slot_id 3 61, 960, OArrStorage [3] [slot_id 3 0] 1);
    (slot_id 3 91, 640, OObject 1 1 (Some 55)) ].
Definition ex2 : heap := ex_heap ex2_objs [] [(1, 90); (3, 111)] [2].
Definition ex2_inst : inst := mkinst [] [slot_id 1 0] [] 1 [].
Definition ex2_sched : list (Z * nat * bool) := repeat (0, O, false) 21.

Example gc_example_oom :
  show (collect ex2_sched ex2 ex2_inst) [slot_id 2 0; slot_id 2 60; slot_id 1 0] =
  Some (true, [(1, 30); (2, 120)], [3], 4928, [55; 99; 99], [1; slot_id 2 0],
        [ (slot_id 2 0, mkcell (HSize 1920) (OArrStorage [1] [slot_id 1 0; slot_id 2 60] 1), 1);
          (slot_id 2 60, mkcell (HSize 1920) (OArrStorage [2] [slot_id 2 0] (slot_id 1 0)), 1);
          (slot_id 1 0, mkcell (HSize 960) (OArrStorage [3] [slot_id 2 60] 1), 1) ]).
Proof. vm_compute. reflexivity. Qed.

Definition ex2_pages : list (Z * list Z) :=
  [(1, [slot_id 1 0; slot_id 1 60]); (3, [slot_id 3 0; slot_id 3 60; slot_id 3 61; slot_id 3 91])].
Definition ex2_reach : list Z := [slot_id 1 0; slot_id 3 0; slot_id 3 61].

Example ex2_ok : heap_ok ex2 ex2_inst.
Proof.
  apply (ok_b_ok ex2 ex2_inst ex2_pages ex2_reach); try reflexivity.
  change (NoDup [1; 3; 2]). repeat constructor; cbn [In]; lia.
Qed.

(* No memory at all: everything stays where it is. *)
Example gc_example_stuck :
  show (collect ex1_sched (set_free ex1 []) ex1_inst) [slot_id 1 0; slot_id 1 1; slot_id 1 6] =
  Some (false, [(1, 30)], [], 1024, [88; 77], [slot_id 1 0; 1; 1; slot_id 1 3; H1],
        [ (slot_id 1 0, mkcell (HSize 32) (OArray [3] (slot_id 1 3)), 1);
          (slot_id 1 1, mkcell (HSize 64) (OOpaque []), 1);
          (slot_id 1 6, mkcell (HSize 32) (OOpaque []), 1) ]).
Proof. vm_compute. reflexivity. Qed.

(* ------------------------------------------------------------- C109 *)

(* A finalizer is called at most once for an object: false for the finalizer of
   a module on a page which could not be evacuated completely.  The evacuation
   calls it (2652-2656) and mark_unused_objects_opaque calls it again
   (2129-2143), as finalize_object does not clear it (395-399). *)
Theorem finalize_once_refuted : exists sched h i h' i' v d,
  heap_ok h i /\ fins h = [] /\ is_obj h v /\ final_data (body h v) = Some d /\
  (forall w, is_obj h w -> final_data (body h w) = Some d -> w = v) /\
  collect sched h i = Some (GDone h' i') /\ count_occ Z.eq_dec (fins h') d = 2%nat.
Proof.
  assert (E : exists h' i', collect ex2_sched ex2 ex2_inst = Some (GDone h' i') /\ fins h' = [55; 99; 99]).
  { pose proof gc_example_oom as G. revert G. generalize (collect ex2_sched ex2 ex2_inst). intros r G.
    destruct r as [[h' i'|h' i'|]|]; cbn [show] in G; try discriminate. exists h', i'. split; [ reflexivity | congruence ]. }
  destruct E as [h' [i' [E1 E2]]].
  destruct (ok_b_objs ex2 ex2_inst ex2_pages ex2_reach eq_refl eq_refl eq_refl) as [_ OBJ].
  exists ex2_sched, ex2, ex2_inst, h', i', (slot_id 3 60), 99.
  split; [ apply ex2_ok | ]. split; [ reflexivity | ]. split; [ apply OBJ; cbn; tauto | ]. split; [ reflexivity | ].
  split; [ | split; [ assumption | rewrite E2; reflexivity ] ].
  intros w Hw E. apply OBJ in Hw. cbn [ex2_pages map snd concat app In] in Hw.
  repeat (destruct Hw as [<- | Hw]; [ vm_compute in E; solve [ discriminate E | reflexivity ] | ]). destruct Hw.
Qed.
Print Assumptions finalize_once_refuted.

(* ------------------------------------------------------------- C110 *)

(* The number of pages kept which a collection reports: a page with one used
   slot is kept but not counted, as 2589 compares the number of used slots to
   the flag PAGE_ALREADY_EVACED, which is 1. *)
Definition ex3 : heap := ex_heap [(slot_id 1 0, 32, OInteger 5)] [] [(1, 1)] [].
Definition ex3_inst : inst := mkinst [] [slot_id 1 0] [] 1 [].

Theorem kept_pages_counted_refuted :
  exists sched h' i', heap_ok ex3 ex3_inst /\ collect sched ex3 ex3_inst = Some (GDone h' i') /\
    used h' = [1] /\ nalloc h' 1 = 1 /\ nfreed h' = 0 /\ nkept h' = 0.
Proof.
  assert (G : match collect (repeat (0, O, false) 3) ex3 ex3_inst with
              | Some (GDone h i) => (used h, nalloc h 1, nfreed h, nkept h) = ([1], 1, 0, 0)
              | _ => False end) by (vm_compute; reflexivity).
  assert (E : exists h' i', collect (repeat (0, O, false) 3) ex3 ex3_inst = Some (GDone h' i') /\
                            (used h', nalloc h' 1, nfreed h', nkept h') = ([1], 1, 0, 0)).
  { revert G. generalize (collect (repeat (0, O, false) 3) ex3 ex3_inst). intros r G.
    destruct r as [[h' i'|h' i'|]|]; try contradiction. exists h', i'. split; [ reflexivity | assumption ]. }
  clear G. destruct E as [h' [i' [E1 E2]]]. exists (repeat (0, O, false) 3), h', i'.
  split; [ | split; [ exact E1 | clear E1; repeat split; congruence ] ].
  apply (ok_b_ok ex3 ex3_inst [(1, [slot_id 1 0])] [slot_id 1 0]); try reflexivity.
  change (NoDup [1]). repeat constructor. cbn [In]. tauto.
Qed.
Print Assumptions kept_pages_counted_refuted.
