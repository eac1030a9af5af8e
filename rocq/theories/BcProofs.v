(* Proofs about the bytecode encoding: operands and instructions. *)
From Coq Require Import ZArith List Lia Bool ZifyBool.
Import ListNotations.
From Verif Require Import Base BcModel BcSpec.
Local Open Scope Z_scope.
Ltac Zify.zify_post_hook ::= Z.div_mod_to_equations.

Lemma u32_id x : 0 <= x < 4294967296 -> u32 x = x.
Proof. intro. unfold u32, uwrap. change (2 ^ 32) with 4294967296. apply Z.mod_small. exact H. Qed.
Lemma s32_id x : -2147483648 <= x < 2147483648 -> s32 x = x.
Proof. intro. unfold s32, swrap. change (2 ^ 32) with 4294967296. change (2 ^ (32 - 1)) with 2147483648. destruct (x mod 4294967296 <? 2147483648) eqn:?; lia. Qed.
Lemma shr7 v : Z.shiftr v 7 = v / 128.
Proof. rewrite Z.shiftr_div_pow2 by lia. reflexivity. Qed.

Lemma lor_128 b : 0 <= b < 256 -> Z.lor b 128 = b mod 128 + 128.
Proof.
  intro H. assert (X : (Z.lor b 128 =? b mod 128 + 128) = true).
  { apply (zall_spec 256 0 (fun b => Z.lor b 128 =? b mod 128 + 128)); [ vm_compute; reflexivity | change (Z.of_nat 256) with 256; lia ]. }
  lia.
Qed.
Lemma land_127 b : Z.land b 127 = b mod 128.
Proof. change 127 with (Z.ones 7). rewrite Z.land_ones by lia. reflexivity. Qed.

(* one step of write_uimm *)
Lemma write_step fuel v : 0 <= v -> write_uimm (S fuel) v = if v <? 128 then [v] else (v mod 128 + 128) :: write_uimm fuel (v / 128).
Proof.
  intro H. cbn [write_uimm]. rewrite shr7. destruct (v <? 128) eqn:E.
  - replace (v / 128) with 0 by lia. change (0 =? 0) with true. cbv iota. rewrite Z.lor_0_r. replace (v mod 256) with v by lia. reflexivity.
  - replace (v / 128 =? 0) with false by lia. rewrite lor_128 by lia. replace ((v mod 256) mod 128) with (v mod 128) by lia. reflexivity.
Qed.

Definition size_of (v : Z) : Z :=
  if v <? 128 then 1 else if v <? 16384 then 2 else if v <? 2097152 then 3 else if v <? 268435456 then 4 else 5.

Ltac lt_case x k := destruct (x <? k) eqn:?.

Lemma write_length v : 0 <= v < 34359738368 -> Z.of_nat (length (write_uimm 5 v)) = size_of v.
Proof.
  intro H. unfold size_of. rewrite write_step by lia. destruct (v <? 128) eqn:?; [ reflexivity | ]. cbn [length].
  rewrite write_step by lia. replace (v / 128 <? 128) with (v <? 16384) by lia. destruct (v <? 16384) eqn:?; [ reflexivity | ]. cbn [length].
  rewrite write_step by lia. replace (v / 128 / 128 <? 128) with (v <? 2097152) by lia. destruct (v <? 2097152) eqn:?; [ reflexivity | ]. cbn [length].
  rewrite write_step by lia. replace (v / 128 / 128 / 128 <? 128) with (v <? 268435456) by lia. destruct (v <? 268435456) eqn:?; [ reflexivity | ]. cbn [length].
  rewrite write_step by lia. replace (v / 128 / 128 / 128 / 128 <? 128) with true by lia. reflexivity.
Qed.

(* load_uimm reads what write_uimm wrote; without assertions for any uint32_t *)
Lemma load_step fuel asserts b cur uv bits size v :
  0 <= v -> 0 <= uv -> 0 <= bits -> uv + (v mod 128) * 2 ^ bits < 4294967296 ->
  (b = v /\ v < 128 \/ b = v mod 128 + 128) ->
  load_uimm_loop (S fuel) asserts (b :: cur) uv bits size =
    if 127 <? b then load_uimm_loop fuel asserts cur (uv + (v mod 128) * 2 ^ bits) (bits + 7) (size + 1)
    else if asserts && negb (size + 1 <? 5) then None else Some (uv + (v mod 128) * 2 ^ bits, size + 1).
Proof.
  intros Hv Hu Hb Hlt Hbv. cbn [load_uimm_loop]. rewrite land_127, Z.shiftl_mul_pow2 by lia.
  replace (b mod 128) with (v mod 128) by (destruct Hbv as [ [-> ?] | -> ]; lia).
  assert (P : 0 < 2 ^ bits) by (apply Z.pow_pos_nonneg; lia).
  assert (N : 0 <= v mod 128 * 2 ^ bits) by (apply Z.mul_nonneg_nonneg; lia).
  set (w := v mod 128 * 2 ^ bits) in *. clearbody w. clear P.
  replace (4294967295 <? uv + w) with false by lia. rewrite andb_false_r.
  rewrite (u32_id w) by lia. rewrite u32_id by lia. reflexivity.
Qed.

Lemma load_write asserts v rest : 0 <= v < 4294967296 -> (asserts = true -> v < 268435456) ->
  load_uimm asserts (write_uimm 5 v ++ rest) = Some (v, size_of v).
Proof.
  intros H Ha. unfold load_uimm, size_of.
  rewrite write_step by lia. destruct (v <? 128) eqn:E1.
  { cbn [app]. rewrite (load_step 4 asserts v rest 0 0 0 v); [ | lia | lia | lia | change (2 ^ 0) with 1; lia | lia ].
    replace (127 <? v) with false by lia. change (0 + 1 <? 5) with true. rewrite andb_false_r. change (2 ^ 0) with 1. do 2 f_equal. lia. }
  rewrite <- app_comm_cons, (load_step 4 asserts _ _ 0 0 0 v); [ | lia | lia | lia | change (2 ^ 0) with 1; lia | lia ].
  replace (127 <? v mod 128 + 128) with true by lia. change (2 ^ 0) with 1. change (0 + 7) with 7. change (0 + 1) with 1.
  rewrite write_step by lia. replace (v / 128 <? 128) with (v <? 16384) by lia. destruct (v <? 16384) eqn:E2.
  { cbn [app]. rewrite (load_step 3 asserts _ rest _ 7 1 (v / 128)); [ | lia | lia | lia | change (2 ^ 7) with 128; lia | lia ].
    replace (127 <? v / 128) with false by lia. change (1 + 1 <? 5) with true. rewrite andb_false_r. change (2 ^ 7) with 128. do 2 f_equal. lia. }
  rewrite <- app_comm_cons, (load_step 3 asserts _ _ _ 7 1 (v / 128)); [ | lia | lia | lia | change (2 ^ 7) with 128; lia | lia ].
  replace (127 <? v / 128 mod 128 + 128) with true by lia. change (2 ^ 7) with 128. change (7 + 7) with 14. change (1 + 1) with 2.
  rewrite write_step by lia. replace (v / 128 / 128 <? 128) with (v <? 2097152) by lia. destruct (v <? 2097152) eqn:E3.
  { cbn [app]. rewrite (load_step 2 asserts _ rest _ 14 2 (v / 128 / 128)); [ | lia | lia | lia | change (2 ^ 14) with 16384; lia | lia ].
    replace (127 <? v / 128 / 128) with false by lia. change (2 + 1 <? 5) with true. rewrite andb_false_r. change (2 ^ 14) with 16384. do 2 f_equal. lia. }
  rewrite <- app_comm_cons, (load_step 2 asserts _ _ _ 14 2 (v / 128 / 128)); [ | lia | lia | lia | change (2 ^ 14) with 16384; lia | lia ].
  replace (127 <? v / 128 / 128 mod 128 + 128) with true by lia. change (2 ^ 14) with 16384. change (14 + 7) with 21. change (2 + 1) with 3.
  rewrite write_step by lia. replace (v / 128 / 128 / 128 <? 128) with (v <? 268435456) by lia. destruct (v <? 268435456) eqn:E4.
  { cbn [app]. rewrite (load_step 1 asserts _ rest _ 21 3 (v / 128 / 128 / 128)); [ | lia | lia | lia | change (2 ^ 21) with 2097152; lia | lia ].
    replace (127 <? v / 128 / 128 / 128) with false by lia. change (3 + 1 <? 5) with true. rewrite andb_false_r. change (2 ^ 21) with 2097152. do 2 f_equal. lia. }
  destruct asserts; [ specialize (Ha eq_refl); lia | ].
  rewrite <- app_comm_cons, (load_step 1 false _ _ _ 21 3 (v / 128 / 128 / 128)); [ | lia | lia | lia | change (2 ^ 21) with 2097152; lia | lia ].
  replace (127 <? v / 128 / 128 / 128 mod 128 + 128) with true by lia. change (2 ^ 21) with 2097152. change (21 + 7) with 28. change (3 + 1) with 4.
  rewrite write_step by lia. replace (v / 128 / 128 / 128 / 128 <? 128) with true by lia.
  cbn [app]. rewrite (load_step 0 false _ rest _ 28 4 (v / 128 / 128 / 128 / 128)); [ | lia | lia | lia | change (2 ^ 28) with 268435456; lia | lia ].
  replace (127 <? v / 128 / 128 / 128 / 128) with false by lia. cbn [andb]. change (2 ^ 28) with 268435456. do 2 f_equal. lia.
Qed.

(* signed operands *)
Lemma land_1 b : Z.land b 1 = b mod 2.
Proof. change 1 with (Z.ones 1). rewrite Z.land_ones by lia. reflexivity. Qed.
Lemma lxor_m1 x : Z.lxor x (-1) = - x - 1.
Proof. rewrite Z.lxor_m1_r. unfold Z.lnot. lia. Qed.

Lemma encode_val v : -2147483648 <= v < 2147483648 -> encode_signed v = if v <? 0 then - 2 * v - 1 else 2 * v.
Proof.
  intro H. unfold encode_signed. rewrite Z.shiftl_mul_pow2, Z.shiftr_div_pow2 by lia. change (2 ^ 1) with 2. change (2 ^ 31) with 2147483648.
  unfold s32, swrap. change (2 ^ 32) with 4294967296. change (2 ^ (32 - 1)) with 2147483648. cbv zeta. destruct (v <? 0) eqn:E.
  - replace (v / 2147483648) with (-1) by lia. rewrite lxor_m1. unfold u32, uwrap. change (2 ^ 32) with 4294967296.
    destruct ((v * 2) mod 4294967296 <? 2147483648) eqn:?; lia.
  - replace (v / 2147483648) with 0 by lia. rewrite Z.lxor_0_r. unfold u32, uwrap. change (2 ^ 32) with 4294967296.
    destruct ((v * 2) mod 4294967296 <? 2147483648) eqn:?; lia.
Qed.

Lemma simm_size v : -2147483648 <= v < 2147483648 -> get_simm_size v = size_of (encode_signed v).
Proof.
  intro H. unfold get_simm_size, size_of. cbv zeta. set (u := encode_signed v). clearbody u. clear H.
  destruct (u <=? 127) eqn:?; destruct (u <? 128) eqn:?; try reflexivity; try lia.
  destruct (u <=? 16383) eqn:?; destruct (u <? 16384) eqn:?; try reflexivity; try lia.
  destruct (u <=? 2097151) eqn:?; destruct (u <? 2097152) eqn:?; try reflexivity; try lia.
  destruct (u <=? 268435455) eqn:?; destruct (u <? 268435456) eqn:?; try reflexivity; lia.
Qed.

Lemma encode_range v : -2147483648 <= v < 2147483648 -> 0 <= encode_signed v < 4294967296.
Proof. intro H. rewrite encode_val by exact H. destruct (v <? 0) eqn:?; lia. Qed.

Lemma write_simm_length v : -2147483648 <= v < 2147483648 -> Z.of_nat (length (write_simm v)) = get_simm_size v.
Proof. intro H. rewrite simm_size by exact H. apply write_length. pose proof (encode_range v H). lia. Qed.

Lemma load_write_s asserts v rest : -1073741824 <= v < 1073741824 -> (asserts = true -> -134217728 <= v < 134217728) ->
  load_simm asserts (write_simm v ++ rest) = Some (v, get_simm_size v).
Proof.
  intros H Ha. unfold load_simm, write_simm. rewrite simm_size by lia. pose proof (encode_val v) as E. assert (R := encode_range v).
  rewrite load_write; [ | apply R; lia | ].
  2:{ intro A. specialize (Ha A). rewrite E by lia. destruct (v <? 0) eqn:?; lia. }
  rewrite E by lia. f_equal. f_equal. clear Ha R E.
  rewrite s32_id by (destruct (v <? 0) eqn:?; lia). rewrite land_1.
  rewrite Z.shiftr_div_pow2 by lia. change (2 ^ 1) with 2.
  destruct (v <? 0) eqn:Ev.
  - replace ((-2 * v - 1) mod 2 =? 1) with true by lia. unfold Z.lnot. lia.
  - replace (2 * v mod 2 =? 1) with false by lia. lia.
Qed.

Lemma size_of_range v : 1 <= size_of v <= 5.
Proof. unfold size_of. repeat match goal with |- context [if ?b then _ else _] => destruct b end; lia. Qed.
Lemma size_of_mono a b : a <= b -> size_of a <= size_of b.
Proof. intro. unfold size_of. repeat match goal with |- context [?x <? ?y] => destruct (x <? y) eqn:? end; lia. Qed.

(* instructions *)
Lemma skipn_app_len {A} (l r : list A) n : n = length l -> skipn n (l ++ r) = r.
Proof. intros ->. rewrite skipn_app, skipn_all, Nat.sub_diag. reflexivity. Qed.

Lemma some_inj {A} (a b : A) : Some a = Some b -> a = b.
Proof. intro H. injection H. auto. Qed.

(* the operands which the compiler generates *)
Definition op_fits (instr op v : Z) : Prop :=
  if is_register instr op then 0 <= v < 256 else -134217728 <= v < 134217728.

Lemma operand_round instr op v bytes rest asserts : op_fits instr op v -> gen_operand instr op v = Some bytes ->
  read_operand asserts instr op (bytes ++ rest) = Some (v, Z.of_nat (length bytes)).
Proof.
  unfold op_fits, gen_operand, read_operand. intros F G. destruct (get_operand_size instr op =? -1).
  - destruct (is_register instr op); [ discriminate | ]. destruct (is_signed_op instr op).
    + apply some_inj in G; subst bytes. rewrite load_write_s by lia. rewrite write_simm_length by lia. reflexivity.
    + destruct (v <? 0) eqn:E; [ discriminate | ]. apply some_inj in G; subst bytes. rewrite u32_id by lia. rewrite load_write by lia. rewrite write_length by lia. reflexivity.
  - destruct (negb (is_register instr op) && _) eqn:E; [ discriminate | ]. apply some_inj in G; subst bytes. cbn [app length]. f_equal. f_equal.
    destruct (is_register instr op).
    + cbn [negb andb]. lia.
    + cbn [negb andb] in *. destruct (is_signed_op instr op).
      * unfold swrap. change (2 ^ 8) with 256. change (2 ^ (8 - 1)) with 128. unfold u32, uwrap in E. change (2 ^ 32) with 4294967296 in E.
        cbv zeta. destruct ((v mod 256) mod 256 <? 128) eqn:?; lia.
      * unfold u32, uwrap in E. change (2 ^ 32) with 4294967296 in E. lia.
Qed.

Fixpoint ops_fit (instr op : Z) (vs : list Z) : Prop :=
  match vs with [] => True | v :: vs => op_fits instr op v /\ ops_fit instr (op + 1) vs end.

Lemma operands_round instr asserts vs : forall op bytes rest, ops_fit instr op vs -> gen_operands instr op vs = Some bytes ->
  read_operands asserts instr op (length vs) (bytes ++ rest) = Some (vs, rest).
Proof.
  induction vs as [|v vs IH]; intros op bytes rest F G; cbn [gen_operands read_operands length ops_fit] in *.
  - apply some_inj in G; subst bytes. reflexivity.
  - destruct (gen_operand instr op v) as [a|] eqn:Ea; [ | discriminate ]. destruct (gen_operands instr (op + 1) vs) as [b|] eqn:Eb; [ | discriminate ].
    apply some_inj in G; subst bytes. destruct F as [F1 F2]. rewrite <- app_assoc. rewrite (operand_round instr op v a _ asserts F1 Ea).
    rewrite Nat2Z.id, skipn_app_len by reflexivity. rewrite (IH (op + 1) b rest F2 Eb). reflexivity.
Qed.

Lemma instr_round instr asserts vs bytes rest : ops_fit instr 0 vs -> length vs = get_num_operands instr -> gen_instr instr vs = Some bytes ->
  read_instr asserts (bytes ++ rest) = Some (instr, vs, rest).
Proof.
  unfold gen_instr, read_instr. intros F L G. destruct ((BREAKPOINT <=? instr) && (instr <=? CANCEL)); [ | discriminate ].
  destruct (gen_operands instr 0 vs) as [l|] eqn:E; [ | discriminate ]. apply some_inj in G; subst bytes. cbn [app]. rewrite <- L, (operands_round instr asserts vs 0 l rest F E). reflexivity.
Qed.
