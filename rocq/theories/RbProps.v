(* Ordered trees: property C10. *)
From Coq Require Import ZArith List Lia Bool ZifyBool.
Import ListNotations.
From Verif Require Import RbModel RbSpec RbProofs RbProofs2 RbProofs3 RbProofs4 RbProofs5 RbProofs6.
Local Open Scope Z_scope.

(* C10: whatever the memory contains before, any allowed sequence of insertions and deletions
   succeeds, without a null dereference or a failed assertion, and each loop ends.  The tree then holds the
   nodes of the list l, which is sorted: walking visits the nodes in this order and searching finds
   a node iff there is an equal one, in at most 2 log2 (n + 1) comparisons. *)
Theorem tree_ops_refine_lists : forall cmp os l h fuel, order cmp -> steps cmp [] os = Some l -> (length os + 4 <= fuel)%nat ->
  exists h' root, run fuel cmp h 0 (map flag os) = Some (h', root) /\
    sorted cmp l /\
    (forall T (f : Z -> T -> T * Z) s, walk fuel h' root f s = Some (visit f l s)) /\
    (forall what, consistent cmp what -> exists r, find (2 * Nat.log2 (length l + 1)) h' root what = Some r /\ found what l r).
Proof.
  intros cmp os l h fuel Oc St Hf.
  destruct (run_ok cmp fuel Oc os h 0 E [] l (empty_holds cmp h) St Hf) as [h' [root [t [E1 [[S [OK [Ho [So Hx]]]] Hl]]]]].
  cbn [length] in Hl. assert (Lf : cnt LEAF t = 0) by (apply Hx; unfold LEAF; lia). pose proof (ord_size t Lf) as Hsz.
  exists h', root. split; [ exact E1 | ]. split; [ exact So | ]. rewrite <- Ho in *. split.
  - intros T f s. apply walk_ok; [ exact S | exact Lf | lia ].
  - intros what Co. pose proof (s_root _ _ _ _ S) as C. cbn [plug] in C. subst root.
    apply (find_ok cmp what Co t _ h' (ptr t) [] S Lf So). rewrite Hsz. apply ok_height; assumption.
Qed.

(* the spec: what a list holds after an operation *)
Lemma step_in : forall cmp l o l' x, step cmp l o = Some l' ->
  In x l' <-> match o with Insert a => x = a \/ In x l | Delete a => In x l /\ x <> a end.
Proof.
  intros cmp l o l' x S. destruct o as [a|a]; cbn [step] in S.
  - destruct ((0 <? a) && negb (existsb (Z.eqb a) l)); [ | discriminate ]. inversion S. apply place_in.
  - destruct (existsb (Z.eqb a) l); [ | discriminate ]. inversion S. apply remove_in.
Qed.

(* nodes are compared by their tens: 17 and 12 are equal *)
Definition tens (a b : Z) : Z := a / 10 - b / 10.
Lemma tens_order : order tens.
Proof. unfold order, tens. split; intros; lia. Qed.

Definition seq_ex : list op :=
  map Insert [50; 20; 70; 10; 30; 60; 80; 17; 12; 33; 95; 41; 42] ++ map Delete [50; 10; 80] ++ map Insert [11; 88; 5] ++ map Delete [20; 41; 30; 70; 95].
Definition visits (f : Z -> Z) (a : Z) (s : list Z) : list Z * Z := (s ++ [a], f a).
Definition after (os : list op) : mem * Z :=
  match run 40 tens (fun x => Node (x * 3) x (x + 1) 7) 0 (map flag os) with Some r => r | None => (fun _ => Node 0 0 0 0, -1) end.

Example tree_ex :
  steps tens [] seq_ex = Some [5; 17; 12; 11; 33; 42; 60; 88] /\
  walk 40 (fst (after seq_ex)) (snd (after seq_ex)) (visits (fun _ => 0)) [] = Some ([5; 17; 12; 11; 33; 42; 60; 88], 0) /\
  walk 40 (fst (after seq_ex)) (snd (after seq_ex)) (visits (fun a => if a =? 33 then 4 else 0)) [] = Some ([5; 17; 12; 11; 33], 4) /\
  map (fun w => find 6 (fst (after seq_ex)) (snd (after seq_ex)) (fun a => w - a / 10)) [0; 1; 2; 3; 4; 5; 6; 7; 8; 9] =
    [Some 5; Some 12; Some 0; Some 33; Some 42; Some 0; Some 60; Some 0; Some 88; Some 0].
Proof. vm_compute. auto. Qed.

(* 60 insertions in increasing order: each of the nodes is found within 10 comparisons *)
Example tree_height_ex :
  match run 64 Z.sub (fun _ => Node 0 0 0 0) 0 (map (fun n => (true, Z.of_nat n)) (seq 1 60)) with
  | Some (h, root) =>
      forallb (fun n => match find 10 h root (fun a => Z.of_nat n - a) with Some r => r =? Z.of_nat n | None => false end) (seq 1 60) = true /\
      find 10 h root (fun a => 61 - a) = Some 0 /\
      find 3 h root (fun a => 60 - a) = None
  | None => False
  end.
Proof. vm_compute. auto. Qed.

Print Assumptions tree_ops_refine_lists.
