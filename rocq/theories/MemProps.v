(* Memory pools and vectors: properties C38, C65. *)
From Coq Require Import ZArith List Lia Bool ZifyBool.
Import ListNotations.
From Verif Require Import Base MemModel MemSpec MemCalls MemProofs.
Local Open Scope Z_scope.
Ltac Zify.zify_post_hook ::= idtac.

(* C38: in every state, after any calls on the pool, any other use of malloc and free, and any
   writes by the owners of blocks: the blocks handed out are aligned, pairwise disjoint, and lie
   in live blocks of the pool, apart from its links. *)
Theorem pool_blocks_disjoint : forall h p g, reachable h p g ->
  pairwise disjoint g /\
  Forall (fun x => fst x mod 8 = 0 /\
    exists b s, In (Block b s true) (blocks h) /\ inside x (b, s) /\
    (forall b' s', In (Block b' s' true) (blocks h) -> disjoint x (b', 8))) g.
Proof.
  intros h p g R. destruct (reach_inv h p g R) as [L I]. split; [ exact (i_given_disj _ _ _ _ I) | ]. rewrite Forall_forall. intros [o n] Hx. cbn [fst].
  destruct (i_given _ _ _ _ I o n Hx) as [H1 [H2 [x [s [H3 H4]]]]]. split; [ exact H2 | ]. exists x, s. split; [ exact H3 | ]. split; [ unfold inside; cbn; lia | ]. intros b' s' Hb.
  destruct (i_in _ _ _ _ I b' (i_all _ _ _ _ I b' s' Hb)) as [t [T1 [T2 _]]]. destruct (blocks_apart h (i_disj _ _ _ _ I) _ _ H3 T1) as [E|D]; unfold disjoint, range in *; cbn [fst snd b_addr b_size] in *; lia.
Qed.

(* C38: a request never touches memory outside of the pool and, as long as malloc succeeds,
   returns a block *)
Theorem pool_alloc_succeeds : forall h p g m n, reachable h p g -> fair h m -> 0 <= n < 2 ^ 32 - 7 ->
  exists h' p' obj, mempool_alloc m h p n = Some (h', p', obj) /\ ((forall k, m k <> 0) -> 0 < n -> obj <> 0).
Proof.
  intros h p g m n R F H. destruct (reach_inv h p g R) as [L I]. destruct (alloc_inv h p g L m n I F H) as [h' [p' [obj [L' [E1 [_ E2]]]]]]. eauto.
Qed.

(* C38: destroying the pool frees its blocks, each once, and nothing else *)
Theorem pool_destroy_frees_all : forall h p g, reachable h p g ->
  exists fuel h', mempool_destroy fuel h (buffers p) = Some h' /\ blocks h' = filter (fun b => negb (b_pool b)) (blocks h).
Proof. intros h p g R. destruct (reach_inv h p g R) as [L I]. destruct (destroy_ok h p g L I) as [h' E]. eauto. Qed.

(* two small requests, a large one, and destruction *)
Definition ex_heap0 : heap := Heap [Block 64 32 false] (fun _ => 0).
Definition ex_malloc (n : Z) : Z := if n =? 65536 then 0x10000 else if n =? 70016 then 0x100000 else 0.
Example pool_ex :
  match mempool_alloc ex_malloc ex_heap0 mempool_init 5 with
  | Some (h1, p1, o1) =>
      o1 = 0x10008 /\
      match mempool_alloc ex_malloc h1 p1 17 with
      | Some (h2, p2, o2) =>
          o2 = 0x10010 /\ free_size p2 = 65496 /\
          match mempool_alloc ex_malloc h2 p2 70000 with
          | Some (h3, p3, o3) => o3 = 0x100010 /\ p3 = p2 /\ option_map blocks (mempool_destroy 2 h3 (buffers p3)) = Some [Block 64 32 false]
          | None => False
          end
      | None => False
      end
  | None => False
  end.
Proof. vm_compute. auto 10. Qed.

(* C65 does not hold: the mask has 32 bits, so a request of 2^32 + 8 bytes returns 8 bytes *)
Theorem pool_block_size_refuted : exists h p m h' p' obj,
  reachable h p [] /\ mempool_alloc m h p (2 ^ 32 + 8) = Some (h', p', obj) /\ obj <> 0 /\
  ~ exists b, In b (blocks h') /\ inside (obj, 2 ^ 32 + 8) (b_addr b, b_size b).
Proof.
  exists (Heap [] (fun _ => 0)), mempool_init, (fun _ => 0x10000). eexists _, _, _. split; [ apply r_init; constructor | ]. split; [ vm_compute; reflexivity | ]. split; [ lia | ].
  intros [b [[<-|[]] [H1 H2]]]. cbn in *. lia.
Qed.

(* C65: below 2^32 - 7 bytes the whole block belongs to one live block: see pool_blocks_disjoint.
   A request for no bytes may return null without a failure of malloc. *)
Example pool_empty_request : mempool_alloc (fun _ => 64) (Heap [] (fun _ => 0)) mempool_init 0 = Some (Heap [] (fun _ => 0), mempool_init, 0).
Proof. reflexivity. Qed.

(* Vectors.  The allocator returns blocks of the requested size, of less than 2^63 bytes *)
Definition alloc_ok (m : Z -> option (list Z)) : Prop := forall n l, m n = Some l -> zlength l = n /\ n < 2 ^ 63.
Definition good (v : vec) : Prop := 0 <= v_size v <= capacity v /\ zlength (data v) = capacity v /\ LOCAL <= capacity v < 2 ^ 63.
Definition contents (v : vec) : list Z := firstn (Z.to_nat (v_size v)) (data v).

Lemma init_good local : zlength local = 16 -> good (vector_init local) /\ contents (vector_init local) = [].
Proof. intro H. unfold good, contents, vector_init, LOCAL. cbn [v_size data capacity Z.to_nat firstn]. change (2 ^ 63) with 9223372036854775808. repeat split; try exact H; lia. Qed.

Lemma zl_app a b : zlength (a ++ b) = zlength a + zlength b.
Proof. unfold zlength. rewrite app_length. lia. Qed.
Lemma zl_firstn n l : 0 <= n <= zlength l -> zlength (zfirstn n l) = n.
Proof. unfold zlength, zfirstn. intros. rewrite firstn_length. lia. Qed.
Lemma zl_skipn n l : 0 <= n <= zlength l -> zlength (zskipn n l) = zlength l - n.
Proof. unfold zlength, zskipn. intros. rewrite skipn_length. lia. Qed.

Lemma copy_ok dst pos src n : 0 <= pos -> 0 <= n <= zlength src -> pos + n <= zlength dst ->
  exists d, copy dst pos src n = Some d /\ zlength d = zlength dst /\ zfirstn (pos + n) d = zfirstn pos dst ++ zfirstn n src.
Proof.
  intros P N Q. unfold copy. replace ((n <=? zlength src) && (pos + n <=? zlength dst)) with true by lia. eexists. split; [ reflexivity | ]. split.
  - rewrite !zl_app, !zl_firstn, zl_skipn by lia. lia.
  - rewrite app_assoc. unfold zfirstn at 1. rewrite firstn_app. pose proof (zl_firstn pos dst). pose proof (zl_firstn n src). unfold zlength in *.
    assert (E : Z.to_nat (pos + n) = length (zfirstn pos dst ++ zfirstn n src)) by (rewrite app_length; lia). rewrite E, firstn_all, Nat.sub_diag. cbn [firstn]. apply app_nil_r.
Qed.

Lemma reserve_ok m v cap : alloc_ok m -> good v -> exists v' ok, vector_reserve m v cap = Some (v', ok) /\ good v' /\
  contents v' = contents v /\ v_size v' = v_size v /\ (if ok then cap <= capacity v' else v' = v).
Proof.
  intros A [G1 [G2 G3]]. unfold vector_reserve. destruct (capacity v <? cap) eqn:C; [ | exists v, true; unfold good; repeat split; auto; lia ].
  destruct (m cap) as [fresh|] eqn:M; [ | exists v, false; unfold good; repeat split; auto; lia ]. destruct (A _ _ M) as [A1 A2].
  destruct (capacity v <=? LOCAL) eqn:P.
  - destruct (v_size v =? 0) eqn:S0; cbn [negb].
    + exists (Vec fresh (v_size v) cap), true. unfold good, contents. cbn [v_size capacity data]. replace (v_size v) with 0 by lia. repeat split; auto; lia.
    + destruct (copy_ok fresh 0 (data v) (v_size v)) as [d [D1 [D2 D3]]]; try lia. rewrite D1. exists (Vec d (v_size v) cap), true. unfold good, contents. cbn [v_size capacity data]. repeat split; auto; try lia.
  - exists (Vec (data v ++ zskipn (capacity v) fresh) (v_size v) cap), true. unfold good, contents. cbn [v_size capacity data]. rewrite zl_app, zl_skipn by lia. repeat split; auto; try lia.
    rewrite firstn_app. replace (Z.to_nat (v_size v) - length (data v))%nat with O by (unfold zlength in *; lia). cbn [firstn]. apply app_nil_r.
Qed.

Lemma contents_len v : good v -> zlength (contents v) = v_size v.
Proof. intros [G1 [G2 G3]]. unfold contents. apply zl_firstn. lia. Qed.

(* C38: growing keeps the contents, shrinking keeps a prefix, and failing keeps the vector; no
   access leaves the buffers *)
Theorem vector_resize_contents : forall m v n, alloc_ok m -> good v -> 0 <= n < 2 ^ 64 ->
  exists v' ok, vector_resize m v n = Some (v', ok) /\ good v' /\
  if ok then resized (contents v) (contents v') n else v' = v.
Proof.
  intros m v n A G Hn. unfold vector_resize.
  assert (X : forall v1, good v1 -> contents v1 = contents v -> v_size v1 = v_size v -> n <= capacity v1 -> good (Vec (data v1) n (capacity v1)) /\ resized (contents v) (contents (Vec (data v1) n (capacity v1))) n).
  { intros v1 [G1 [G2 G3]] Ec Es Hc. assert (G' : good (Vec (data v1) n (capacity v1))) by (unfold good; cbn [v_size capacity data]; repeat split; auto; lia). split; [ exact G' | ].
    pose proof (contents_len _ G') as Ln. cbn [v_size] in Ln. split; [ exact Ln | ]. rewrite <- Ec. unfold contents. cbn [v_size data]. rewrite !firstn_firstn. f_equal. rewrite !firstn_length. unfold zlength in *. lia. }
  destruct (capacity v <? n) eqn:C.
  - set (nc := if _ <? _ then _ else _). assert (n <= nc) by (unfold nc; destruct (Z.ltb_spec n (u64 (capacity v + Z.max (Z.min (capacity v) VEC_MAX_INC_SIZE) 64))); lia).
    destruct (reserve_ok m v nc A G) as [v1 [ok [E [G1 [Ec [Es H1]]]]]]. rewrite E. destruct ok.
    + eexists _, true. split; [ reflexivity | ]. apply X; auto. lia.
    + subst v1. exists v, false. auto.
  - eexists _, true. split; [ reflexivity | ]. apply X; auto. lia.
Qed.

Theorem vector_concat_contents : forall m d s, alloc_ok m -> good d -> good s ->
  exists d' ok, vector_concat m d s = Some (d', ok) /\ good d' /\ contents d' = if ok then contents d ++ contents s else contents d.
Proof.
  intros m d s A Gd Gs. unfold vector_concat. destruct Gs as [S1 [S2 S3]]. destruct (v_size s =? 0) eqn:Z0; cbn [negb].
  - exists d, true. split; [ reflexivity | ]. split; [ exact Gd | ]. unfold contents at 3. replace (v_size s) with 0 by lia. cbn. rewrite app_nil_r. reflexivity.
  - pose proof Gd as [D1 [D2 D3]]. assert (U : u64 (v_size d + v_size s) = v_size d + v_size s) by (unfold u64, uwrap; apply Z.mod_small; change (2 ^ 63) with 9223372036854775808 in *; change (2 ^ 64) with 18446744073709551616; lia).
    rewrite U. destruct (vector_resize_contents m d (v_size d + v_size s) A Gd) as [d1 [ok [E [G1 H1]]]]; [ change (2 ^ 63) with 9223372036854775808 in *; change (2 ^ 64) with 18446744073709551616; lia | ].
    rewrite E. destruct ok; [ | subst d1; exists d, false; auto ]. destruct H1 as [R1 R2]. pose proof (contents_len d1 G1) as Ln. fold (zlength (contents d1)) in R1. pose proof G1 as [K1 [K2 K3]].
    destruct (copy_ok (data d1) (v_size d) (data s) (v_size s)) as [x [X1 [X2 X3]]]; try lia. rewrite X1. eexists _, true. split; [ reflexivity | ]. split; [ unfold good; cbn [v_size capacity data]; lia | ].
    unfold contents at 1. cbn [v_size data]. replace (v_size d1) with (v_size d + v_size s) by lia. unfold zfirstn in X3. rewrite X3. f_equal.
    pose proof (contents_len d Gd) as Ld. rewrite (firstn_all2 (n := length (contents d1)) (contents d)) in R2 by (unfold zlength in *; lia). rewrite <- R2. unfold contents at 2. rewrite firstn_firstn. f_equal. unfold zlength in *. lia.
Qed.

Example vector_ex :
  let m n := Some (repeat 7 (Z.to_nat n)) in
  let v := Vec [1; 2; 3; 4; 5; 6; 7; 8; 9; 10; 11; 12; 13; 14; 15; 16] 15 16 in
  match vector_concat m v (Vec [21; 22; 23; 0; 0; 0; 0; 0; 0; 0; 0; 0; 0; 0; 0; 0] 3 16) with
  | Some (v', ok) => ok = true /\ capacity v' = 80 /\ contents v' = [1; 2; 3; 4; 5; 6; 7; 8; 9; 10; 11; 12; 13; 14; 15; 21; 22; 23]
  | None => False
  end.
Proof. vm_compute. auto. Qed.

(* appending a vector to itself would leave the buffer, because the size of the source is read
   after the resize: 96 bytes are written from position 48 of 112 *)
Example vector_concat_self_ex : vector_concat_self (fun n => Some (repeat 0 (Z.to_nat n))) (Vec (repeat 1 48) 48 48) = None.
Proof. vm_compute. reflexivity. Qed.

Print Assumptions pool_blocks_disjoint.
Print Assumptions pool_alloc_succeeds.
Print Assumptions pool_destroy_frees_all.
Print Assumptions pool_block_size_refuted.
Print Assumptions vector_resize_contents.
Print Assumptions vector_concat_contents.
