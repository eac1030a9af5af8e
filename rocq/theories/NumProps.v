(* Comparison and conversion of values: properties C28, C39, C76 to C79. *)
From Coq Require Import ZArith List Lia Bool ZifyBool.
Import ListNotations.
From Verif Require Import Base NumModel NumSpec NumProofs NumProofs2 NumProofs3 NumProofs4.
Local Open Scope Z_scope.
Ltac Zify.zify_post_hook ::= idtac.

(* ---- C28 ---- *)

(* Comparing two numbers gives the order of their mathematical values, if both are integers, or
   integers are at most 2^53 in absolute value. *)
Theorem number_order_exact : forall strcmp heap obj fuel v w, is_num v -> is_num w -> vwf v -> vwf w ->
  located obj v -> located obj w -> (exact_int v /\ exact_int w) \/ (is_int v /\ is_int w) ->
  exists c, kos_compare strcmp heap (S fuel) v w = Some c /\
    match c with
    | CLt => mlt (value v) (value w)
    | CGt => mlt (value w) (value v)
    | CEq => meq (value v) (value w)
    | CInd => is_nan v \/ is_nan w
    end.
Proof.
  intros sc h obj fuel v w N1 N2 W1 W2 L1 L2 X. exists (ncmp v w).
  split; [ apply compare_num; auto; apply (same_id_eq obj); assumption | ].
  apply ncmp_exact; assumption.
Qed.

Example number_order_ex :
  let cmp := kos_compare (fun _ _ => 0) (fun _ => []) 1 in
  cmp (VSmall 3) (VFlt 1 (DFin 7 (-1))) = Some CLt /\ cmp (VFlt 1 (DFin 12 (-2))) (VSmall 3) = Some CEq /\
  cmp (VInt 1 INT64_MIN) (VFlt 3 (DInf true)) = Some CGt /\ cmp (VFlt 1 DNan) (VSmall 0) = Some CInd /\
  cmp (VInt 1 (2 ^ 62)) (VSmall (-1)) = Some CGt.
Proof. vm_compute. auto. Qed.

(* For all numbers: a result "less" or "greater" is never wrong, and < is transitive. *)
Theorem number_order_sound : forall strcmp heap obj fuel v w, is_num v -> is_num w -> vwf v -> vwf w ->
  located obj v -> located obj w ->
  (kos_compare strcmp heap (S fuel) v w = Some CLt -> mlt (value v) (value w)) /\
  (kos_compare strcmp heap (S fuel) v w = Some CGt -> mlt (value w) (value v)).
Proof.
  intros sc h obj fuel v w N1 N2 W1 W2 L1 L2. unfold kos_compare.
  rewrite compare_num by (auto; apply (same_id_eq obj); assumption).
  destruct (ncmp_sound v w N1 N2 W1 W2) as [A C]. split; intros H; apply some_inj in H; auto.
Qed.
Theorem number_lt_transitive : forall strcmp heap obj fuel u v w, is_num u -> is_num v -> is_num w ->
  vwf u -> vwf v -> vwf w -> located obj u -> located obj v -> located obj w ->
  kos_compare strcmp heap (S fuel) u v = Some CLt -> kos_compare strcmp heap (S fuel) v w = Some CLt ->
  kos_compare strcmp heap (S fuel) u w = Some CLt.
Proof.
  intros sc h obj fuel u v w N1 N2 N3 W1 W2 W3 L1 L2 L3. unfold kos_compare.
  rewrite !compare_num by (auto; apply (same_id_eq obj); assumption).
  intros H1 H2. apply some_inj in H1, H2. f_equal. apply (ncmp_trans u v w); assumption.
Qed.

(* the operators: x <= y is x < y or x == y; x != y is the negation of x == y *)
Theorem operators_consistent : forall c, cmp_le c = cmp_lt c || cmp_eq c /\ cmp_ne c = negb (cmp_eq c).
Proof. intros []; split; reflexivity. Qed.
Example operators_ex : map cmp_le [CEq; CLt; CGt; CInd] = [true; true; false; false] /\
  map cmp_ne [CEq; CLt; CGt; CInd] = [false; true; true; true].
Proof. split; reflexivity. Qed.

(* C76: == is not transitive and not exact for integers above 2^53 compared with floats. *)
Theorem number_equality_refuted : exists i j f, is_num i /\ is_num j /\ is_num f /\ vwf i /\ vwf j /\ vwf f /\
  forall strcmp heap fuel, let cmp := kos_compare strcmp heap (S fuel) in
  cmp i f = Some CEq /\ cmp f j = Some CEq /\ cmp i j = Some CLt /\ ~ meq (value f) (value j).
Proof.
  exists (VSmall (2 ^ 53)), (VSmall (2 ^ 53 + 1)), (VFlt 33 (DFin 1 53)).
  split; [ exact I | ]. split; [ exact I | ]. split; [ exact I | ].
  split; [ vm_compute; split; discriminate || reflexivity | ].
  split; [ vm_compute; split; discriminate || reflexivity | ].
  split; [ vm_compute; split; [ reflexivity | split; discriminate ] | ].
  intros sc h fuel. split; [ reflexivity | ]. split; [ reflexivity | ]. split; [ reflexivity | ].
  intros [H _]. vm_compute in H. discriminate H.
Qed.
(* and the order of arrays of such numbers is cyclic *)
Theorem array_order_cycle_refuted : exists heap, forall strcmp fuel,
  let cmp := kos_compare strcmp heap (S (S fuel)) in
  cmp (VArr 101) (VArr 103) = Some CLt /\ cmp (VArr 103) (VArr 105) = Some CLt /\ cmp (VArr 105) (VArr 101) = Some CLt.
Proof.
  exists (fun a => if a =? 101 then [VSmall (2 ^ 53 + 1); VSmall 0]
             else if a =? 103 then [VFlt 33 (DFin 1 53); VSmall 1]
             else if a =? 105 then [VSmall (2 ^ 53); VSmall 2] else []).
  intros sc fuel. split; [ reflexivity | ]. split; reflexivity.
Qed.

(* ---- C77: comparison of any values ---- *)

(* Comparison terminates for any arrays, also cyclic ones; half the number of arrays bounds the depth. *)
Theorem compare_terminates : forall strcmp heap arrays v w, closed heap arrays ->
  (forall a, v = VArr a -> In a arrays) -> (forall a, w = VArr a -> In a arrays) ->
  exists c, kos_compare strcmp heap (S (Nat.div2 (length arrays + 1))) v w = Some c.
Proof.
  intros sc heap arrays v w CL A1 A2.
  assert (N : kos_compare sc heap (S (Nat.div2 (length arrays + 1))) v w <> None).
  { apply (compare_total sc heap arrays CL); [ constructor | intros ? [] | destruct v; cbn; auto | destruct w; cbn; auto | ].
    cbn [length]. pose proof (Nat.div2_odd (length arrays + 1)) as O. destruct (Nat.odd (length arrays + 1)); cbn [Nat.b2n] in O; lia. }
  destruct (kos_compare _ _ _ v w) as [c | ]; [ eauto | contradiction ].
Qed.
Example compare_terminates_ex :
  (* x = [1, y], y = [1, x] *)
  let heap := fun a => if a =? 101 then [VSmall 1; VArr 103] else [VSmall 1; VArr 101] in
  closed heap [101; 103] /\ kos_compare (fun _ _ => 0) heap 2 (VArr 101) (VArr 103) = Some CGt /\
  kos_compare (fun _ _ => 0) heap 2 (VArr 103) (VArr 101) = Some CLt.
Proof.
  split; [ | vm_compute; auto ]. intros a [<- | [<- | []]] b; cbn; intros [X | [X | []]]; inversion X; auto.
Qed.

(* exchanging the operands exchanges less and greater, for any arrays *)
Theorem compare_antisymmetric : forall strcmp heap obj fuel v w, antisymmetric strcmp -> coherent obj heap ->
  located obj v -> located obj w ->
  kos_compare strcmp heap fuel w v = option_map flip (kos_compare strcmp heap fuel v w).
Proof. intros sc heap obj fuel v w A C L1 L2. exact (compare_flip sc heap obj A C fuel [] v w L1 L2). Qed.

(* values are compared as equal exactly if they are structurally equal, if no array contains itself *)
Theorem compare_equality : forall strcmp heap obj hgt fuel v w c, separating strcmp -> coherent obj heap ->
  heights heap hgt -> located obj v -> located obj w -> kos_compare strcmp heap fuel v w = Some c ->
  (cmp_eq c = true <-> equal heap v w).
Proof.
  intros sc heap obj hgt fuel v w c SE CO HH L1 L2 E.
  rewrite <- (compare_equal_aux sc heap obj hgt SE CO HH fuel [] v w c L1 L2); [ | intros ? ? ? ? _ _ [] | exact E ].
  destruct c; split; intros; congruence || discriminate || reflexivity.
Qed.

(* values found equal are equal in all their parts, also if arrays contain themselves *)
Theorem compare_equal_bisimilar : forall strcmp heap obj fuel v w, separating strcmp -> coherent obj heap ->
  located obj v -> located obj w -> kos_compare strcmp heap fuel v w = Some CEq ->
  exists P, bisimulation heap P /\ P v w.
Proof.
  intros sc heap obj fuel v w SE CO L1 L2 E.
  destruct (compare_eq_supported sc heap obj SE CO fuel [] v w L1 L2 E) as (P & SP & PV).
  exists P. split; [ | exact PV ]. intros x y Pxy. destruct (SP x y Pxy) as [ | (a & b & -> & -> & [[] | F])]; eauto 6.
Qed.
Example compare_cyclic_ex :
  (* x = [1, x], y = [1, y]; z = [2, z] *)
  let heap := fun a => if a =? 101 then [VSmall 1; VArr 101] else if a =? 103 then [VSmall 1; VArr 103] else [VSmall 2; VArr 105] in
  kos_compare (fun _ _ => 0) heap 2 (VArr 101) (VArr 103) = Some CEq /\
  kos_compare (fun _ _ => 0) heap 2 (VArr 101) (VArr 105) = Some CLt.
Proof. split; reflexivity. Qed.

(* different kinds of values have a fixed order; false is less than true; buffers are ordered as byte
   sequences *)
Theorem compare_kinds : forall strcmp heap fuel v w, kind v <> kind w ->
  kos_compare strcmp heap (S fuel) v w = Some (if (kind v <? kind w)%nat then CLt else CGt).
Proof. intros sc heap fuel [] [] H; cbn [kind] in H; try contradiction; try reflexivity. Qed.
Theorem compare_simple : forall strcmp heap fuel a b s t,
  (kos_compare strcmp heap (S fuel) (VBool false) (VBool true) = Some CLt) /\
  (a <> b -> kos_compare strcmp heap (S fuel) (VBuf a s) (VBuf b t) = Some CLt <-> bytes_lt s t).
Proof.
  intros sc heap fuel a b s t. split; [ reflexivity | ]. intros N. unfold kos_compare. cbn [compare same_id].
  apply Z.eqb_neq in N. rewrite N. change (type_of (VBuf a s) =? type_of (VBuf b t)) with true. cbn [orb].
  rewrite <- compare_buf_lt. split; [ apply some_inj | congruence ].
Qed.
Example compare_simple_ex : kos_compare (fun _ _ => 0) (fun _ => []) 1 (VBuf 1 [1; 2]) (VBuf 3 [1; 2; 0]) = Some CLt /\
  kos_compare (fun _ _ => 0) (fun _ => []) 1 (VBuf 1 [1; 255]) (VBuf 3 [1; 2; 0]) = Some CGt /\
  kos_compare (fun _ _ => 0) (fun _ => []) 1 (VStr 1 []) (VSmall 5) = Some CGt.
Proof. vm_compute. auto. Qed.

(* arrays without common parts are in lexicographic order *)
Theorem compare_lexicographic : forall strcmp heap hgt fuel v w c, heights heap hgt ->
  (forall x, inside heap v x -> inside heap w x -> False) ->
  kos_compare strcmp heap fuel v w = Some c -> c = lex_compare heap (leaf_cmp strcmp) (hval hgt v) v w.
Proof.
  intros sc heap hgt fuel v w c HH DJ E.
  apply (compare_lex_aux sc heap hgt v w HH DJ fuel (hval hgt v) [] v w c); auto. intros ? ? [].
Qed.

Example compare_arrays_ex :
  (* [[1], 2] and [[1.0], 3] *)
  let heap := fun a => if a =? 101 then [VArr 103; VSmall 2] else if a =? 103 then [VSmall 1]
    else if a =? 105 then [VArr 107; VSmall 3] else if a =? 107 then [VFlt 33 (DFin 2 (-1))] else [] in
  let hgt := fun a => if (a =? 101) || (a =? 105) then 2%nat else 1%nat in
  heights heap hgt /\ kos_compare (fun _ _ => 0) heap 3 (VArr 101) (VArr 105) = Some CLt /\
  lex_compare heap (leaf_cmp (fun _ _ => 0)) 2 (VArr 101) (VArr 105) = CLt /\
  equal heap (VArr 103) (VArr 107).
Proof.
  split; [ | split; [ reflexivity | split; [ reflexivity | ] ] ].
  - intros a. cbn [map hval fold_right].
    destruct (a =? 101) eqn:E1; [ reflexivity | ]. destruct (a =? 103) eqn:E2; [ apply Z.eqb_eq in E2; subst; reflexivity | ].
    destruct (a =? 105) eqn:E3; [ reflexivity | ]. destruct (a =? 107) eqn:E4; reflexivity.
  - apply eq_arr. cbn. apply Forall2_cons; [ apply eq_num; cbn; auto | apply Forall2_nil ].
Qed.

(* C78: if an array is nested in the other operand, the result depends on the addresses of the
   arrays: [[[]]] against [[]] *)
Theorem compare_nested_refuted : exists h1 h2 a1 b1 a2 b2 hgt1 hgt2,
  heights h1 hgt1 /\ heights h2 hgt2 /\
  (exists c1, h1 a1 = [VArr b1] /\ h1 b1 = [VArr c1] /\ h1 c1 = []) /\
  (exists c2, h2 a2 = [VArr b2] /\ h2 b2 = [VArr c2] /\ h2 c2 = []) /\
  (forall strcmp fuel, kos_compare strcmp h1 (S (S fuel)) (VArr a1) (VArr b1) = Some CLt) /\
  (forall strcmp fuel, kos_compare strcmp h2 (S (S fuel)) (VArr a2) (VArr b2) = Some CGt) /\
  (forall strcmp, lex_compare h1 (leaf_cmp strcmp) 3 (VArr a1) (VArr b1) = CGt).
Proof.
  exists (fun a => if a =? 101 then [VArr 103] else if a =? 103 then [VArr 105] else []),
         (fun a => if a =? 101 then [VArr 105] else if a =? 105 then [VArr 103] else []),
         101, 103, 101, 105,
         (fun a => if a =? 101 then 3%nat else if a =? 103 then 2%nat else 1%nat),
         (fun a => if a =? 101 then 3%nat else if a =? 105 then 2%nat else 1%nat).
  split; [ intros a; destruct (a =? 101); [ reflexivity | ]; destruct (a =? 103); reflexivity | ].
  split; [ intros a; destruct (a =? 101); [ reflexivity | ]; destruct (a =? 105); reflexivity | ].
  split; [ exists 105; auto | ]. split; [ exists 103; auto | ].
  split; [ reflexivity | ]. split; reflexivity.
Qed.

(* ---- C39: conversions to native integers ---- *)

(* Conversion of a number to an integer: integers are unchanged; a float strictly between -2^63 and
   2^63 is rounded down; any other float except NaN is an error. *)
Theorem get_integer_floor : forall v, is_num v -> vwf v -> ~ is_nan v ->
  (is_int v -> exists n, value v = ival n /\ get_integer v = ROk n) /\
  (~ is_int v ->
     (mlt (ival (- 2 ^ 63)) (value v) /\ mlt (value v) (ival (2 ^ 63)) /\
      exists n u, value v = MVal u /\ get_integer v = ROk n /\ n * 2 ^ 1074 <= u < (n + 1) * 2 ^ 1074) \/
     (~ (mlt (ival (- 2 ^ 63)) (value v) /\ mlt (value v) (ival (2 ^ 63))) /\ get_integer v = RErr)).
Proof.
  intros v N W NN. split.
  { intros I. exists (int_of v). split; [ apply int_of_value; exact I | apply get_integer_int; exact I ]. }
  intros NI. destruct v as [ | | a d | | | | | | | | | ]; try contradiction; try (exfalso; apply NI; exact I).
  cbn [value vwf get_integer] in *.
  destruct limit_values as [LV1 LV2].
  assert (WL : dwf (DFin (-1) 63) /\ dwf (DFin 1 63)) by (split; vm_compute; split; [ reflexivity | split; discriminate | reflexivity | split; discriminate ]).
  rewrite (dcompare_value d (DFin (-1) 63)) by (apply W || apply WL).
  rewrite (dcompare_value (DFin 1 63) d) by (apply W || apply WL). rewrite LV1, LV2.
  unfold ival. change (2 ^ 1074) with B. pose proof B_pos as BP.
  destruct d as [ | [] | m e]; [ exfalso; apply NN; eexists; reflexivity | | | ]; cbn [dval mcompare mlt].
  - right. split; [ tauto | reflexivity ].
  - right. split; [ tauto | reflexivity ].
  - cbn [dwf] in W. set (u := m * 2 ^ (e + 1074)).
    destruct (u ?= - 2 ^ 63 * B) eqn:C1; [ apply Z.compare_eq in C1 | apply Z.compare_lt_iff in C1 | apply Z.compare_gt_iff in C1 ]; cbn [orb].
    + right. split; [ intros [X _]; rewrite C1 in X; exact (Z.lt_irrefl _ X) | reflexivity ].
    + right. split; [ intros [X _]; exact (Z.lt_irrefl _ (Z.lt_trans _ _ _ X C1)) | reflexivity ].
    + destruct (2 ^ 63 * B ?= u) eqn:C2; [ apply Z.compare_eq in C2 | apply Z.compare_lt_iff in C2 | apply Z.compare_gt_iff in C2 ]; cbn [orb].
      * right. split; [ intros [_ X]; rewrite C2 in X; exact (Z.lt_irrefl _ X) | reflexivity ].
      * right. split; [ intros [_ X]; exact (Z.lt_irrefl _ (Z.lt_trans _ _ _ X C2)) | reflexivity ].
      * left. split; [ exact C1 | ]. split; [ exact C2 | ].
        destruct (dfloor_spec m e (dfloor m e) (proj1 (proj2 W)) eq_refl) as [F1 F2]. fold u in F1, F2.
        change (2 ^ 1074) with B in F1, F2. set (f := dfloor m e) in *.
        assert (G1 : f * B < 2 ^ 63 * B) by exact (Z.le_lt_trans _ _ _ F1 C2).
        assert (G2 : - 2 ^ 63 * B < (f + 1) * B) by exact (Z.lt_trans _ _ _ C1 F2).
        apply Z.mul_lt_mono_pos_r in G1; [ | exact BP ]. apply Z.mul_lt_mono_pos_r in G2; [ | exact BP ].
        exists f, u. split; [ reflexivity | ]. split; [ | split; assumption ].
        clear - G1 G2. unfold INT64_MIN, INT64_MAX. change (2 ^ 63) with 9223372036854775808 in *.
        destruct ((- (9223372036854775808) <=? f) && (f <=? 9223372036854775808 - 1)) eqn:X; [ reflexivity | lia ].
Qed.

Example get_integer_ex : get_integer (VFlt 1 (DFin (-5) (-1))) = ROk (-3) /\ get_integer (VFlt 1 (DFin 1 63)) = RErr /\
  get_integer (VFlt 1 (DFin 4503599627370497 10)) = ROk 4611686018427388928 /\ get_integer VVoid = RErr.
Proof. vm_compute. auto. Qed.

(* An integer is stored exactly if it is in the range of the native type, and reading it back gives the
   same number; all integer types except uint64_t and size_t. *)
Theorem native_round_trip : forall t v, t <> NU64 -> t <> NSize -> is_int v ->
  (nmin t <= int_of v <= nmax t -> exists mem, extract_int t v = ROk mem /\ length mem = Z.to_nat (nsize t) /\
     forall more, from_native_int t (mem ++ more) = int_of v) /\
  (~ nmin t <= int_of v <= nmax t -> extract_int t v = RErr).
Proof.
  intros t v T1 T2 I. unfold extract_int. rewrite get_integer_int by exact I.
  assert (TY : type_of v >? 4 = false) by (destruct v; try contradiction; reflexivity). rewrite TY.
  set (n := int_of v). clearbody n. clear TY I v.
  assert (LIM : int_limits t = (nmin t, nmax t)) by (destruct t; try contradiction; vm_compute; reflexivity).
  rewrite LIM. split.
  - intros H. destruct (n <? nmin t) eqn:A; [ lia | ]. destruct (n >? nmax t) eqn:A2; [ lia | ].
    eexists. split; [ reflexivity | ]. rewrite le_bytes_length. split; [ reflexivity | ].
    intros more. unfold from_native_int.
    assert (F : forall l : list Z, length l = Z.to_nat (nsize t) -> firstn (Z.to_nat (nsize t)) (l ++ more) = l).
    { intros l <-. rewrite firstn_app, firstn_all, Nat.sub_diag. cbn [firstn]. apply app_nil_r. }
    rewrite F by apply le_bytes_length. rewrite le_value_bytes.
    assert (NS : 0 < nsize t) by (destruct t; vm_compute; reflexivity).
    rewrite Z2Nat.id by lia. unfold uwrap. rewrite Z.mod_mod by (pose proof (pow_pos (8 * nsize t) ltac:(lia)); lia).
    clear A A2 LIM F more. unfold s64, swrap, uwrap.
    destruct t; try contradiction; cbn [nsize nmin nmax Z.mul Pos.mul] in *;
      change (2 ^ 8) with 256 in *; change (2 ^ 16) with 65536 in *; change (2 ^ 32) with 4294967296 in *;
      change (2 ^ 64) with 18446744073709551616 in *; change (2 ^ 7) with 128 in *; change (2 ^ 15) with 32768 in *;
      change (2 ^ 31) with 2147483648 in *; change (2 ^ 63) with 9223372036854775808 in *;
      change (2 ^ (8 - 1)) with 128; change (2 ^ (16 - 1)) with 32768; change (2 ^ (32 - 1)) with 2147483648;
      change (2 ^ (64 - 1)) with 9223372036854775808;
      rewrite ?Z.mod_mod by lia; Z.div_mod_to_equations; try lia;
      destruct (_ <? _) eqn:?; lia.
  - intros H. destruct (n <? nmin t) eqn:A; [ reflexivity | ]. destruct (n >? nmax t) eqn:A2; [ reflexivity | lia ].
Qed.
Example native_ex : extract_int NI16 (VSmall (-2)) = ROk [254; 255] /\ from_native_int NI16 [254; 255; 7] = -2 /\
  extract_int NU8 (VSmall 256) = RErr /\ extract_int NU32 (VFlt 1 (DFin 5 (-1))) = ROk [2; 0; 0; 0].
Proof. vm_compute. auto. Qed.

(* C79: size_t accepts no number at all; uint64_t accepts negative numbers; the float -2^63 is
   rejected although it is representable; a NaN leads to undefined behaviour. *)
Theorem native_size_refuted : forall v, is_num v -> vwf v -> ~ is_nan v -> extract_int NSize v = RErr.
Proof.
  intros v N W NN. unfold extract_int. destruct (type_of v >? 4); [ reflexivity | ].
  assert (G : get_integer v = RErr \/ exists n, get_integer v = ROk n).
  { destruct (get_integer_floor v N W NN) as [G1 G2]. destruct (num_cases v N) as [I | (a & d & ->)].
    - destruct (G1 I) as (n & _ & E). eauto.
    - destruct (G2 ltac:(cbn; tauto)) as [(_ & _ & n & u & _ & E & _) | [_ E]]; eauto. }
  destruct G as [-> | [n ->]]; [ reflexivity | ]. change (int_limits NSize) with (0, -1). cbv beta iota.
  destruct (n <? 0) eqn:?; [ reflexivity | ]. destruct (n >? -1) eqn:?; [ reflexivity | lia ].
Qed.
Theorem native_limits_refuted : 
  extract_int NU64 (VSmall (-1)) = ROk (repeat 255 8) /\
  (vwf (VFlt 1 (DFin (-1) 63)) /\ value (VFlt 1 (DFin (-1) 63)) = ival INT64_MIN /\ get_integer (VFlt 1 (DFin (-1) 63)) = RErr) /\
  get_integer (VFlt 1 DNan) = RUb.
Proof.
  split; [ vm_compute; reflexivity | ]. split; [ | reflexivity ].
  split; [ vm_compute; split; [ reflexivity | split; discriminate ] | ]. split; vm_compute; reflexivity.
Qed.

(* a field of several elements takes as many elements of the array, each with the size of the type *)
Theorem native_array : forall heap t size a mem, 2 * nsize t <= size ->
  extract_native heap t size (VArr a) = ROk mem ->
  Z.of_nat (length mem) <= size /\ size / nsize t <= Z.of_nat (length (heap a)) /\
  exists parts, mem = concat parts /\ Z.of_nat (length parts) = size / nsize t /\
    Forall2 (fun v b => extract_int t v = ROk b) (firstn (length parts) (heap a)) parts.
Proof.
  intros heap t size a mem S2 E. unfold extract_native, num_elems in E.
  assert (NS : 0 < nsize t) by (destruct t; vm_compute; reflexivity).
  destruct (size =? 0) eqn:S0; [ lia | ].
  assert (Q : 2 <= size / nsize t) by (apply Z.div_le_lower_bound; lia).
  destruct (size / nsize t >? 1) eqn:G; [ | lia ].
  destruct (Z.of_nat (length (heap a)) <? size / nsize t) eqn:L; [ discriminate | ].
  set (k := Z.to_nat (size / nsize t)) in *.
  assert (X : forall l mem, extract_list t l = ROk mem -> exists parts, mem = concat parts /\ length parts = length l /\
    length mem = (length l * Z.to_nat (nsize t))%nat /\ Forall2 (fun v b => extract_int t v = ROk b) l parts).
  { induction l as [ | v l IH]; intros mm EE; cbn [extract_list] in EE.
    - injection EE as <-. exists []. repeat split; constructor.
    - destruct (extract_int t v) as [b | | ] eqn:Ev; try discriminate EE.
      destruct (extract_list t l) as [b' | | ] eqn:El; try discriminate EE. injection EE as <-.
      destruct (IH b' eq_refl) as (parts & -> & P1 & P2 & P3). exists (b :: parts). cbn [concat length].
      split; [ reflexivity | ]. split; [ lia | ]. split; [ | constructor; assumption ].
      rewrite app_length, P2. assert (length b = Z.to_nat (nsize t)).
      { revert Ev. unfold extract_int. destruct (type_of v >? 4); [ discriminate | ].
        destruct (get_integer v) as [n | | ]; try discriminate. destruct (int_limits t) as [lo hi].
        destruct (n <? lo); [ discriminate | ]. destruct (n >? hi); [ discriminate | ].
        intros Ev. injection Ev as <-. apply le_bytes_length. }
      lia. }
  destruct (X _ _ E) as (parts & P0 & P1 & P2 & P3).
  assert (LF : length (firstn k (heap a)) = k) by (rewrite firstn_length; lia).
  rewrite LF in *. split; [ | split; [ lia | ] ].
  - rewrite P2. unfold k. rewrite Nat2Z.inj_mul, !Z2Nat.id by lia. pose proof (Z.mul_div_le size (nsize t) NS). lia.
  - exists parts. split; [ exact P0 | ]. split; [ unfold k in P1; lia | ]. rewrite P1. exact P3.
Qed.
Example native_array_ex : extract_native (fun _ => [VSmall 1; VSmall 2; VSmall 3]) NU16 5 (VArr 1) = ROk [1; 0; 2; 0] /\
  extract_native (fun _ => [VSmall 1; VSmall 2; VSmall 3]) NU16 8 (VArr 1) = RErr.
Proof. vm_compute. auto. Qed.

Print Assumptions number_order_exact.
Print Assumptions number_order_sound.
Print Assumptions number_lt_transitive.
Print Assumptions operators_consistent.
Print Assumptions number_equality_refuted.
Print Assumptions array_order_cycle_refuted.
Print Assumptions compare_terminates.
Print Assumptions compare_antisymmetric.
Print Assumptions compare_equality.
Print Assumptions compare_equal_bisimilar.
Print Assumptions compare_kinds.
Print Assumptions compare_simple.
Print Assumptions compare_lexicographic.
Print Assumptions compare_nested_refuted.
Print Assumptions get_integer_floor.
Print Assumptions native_round_trip.
Print Assumptions native_size_refuted.
Print Assumptions native_limits_refuted.
Print Assumptions native_array.
