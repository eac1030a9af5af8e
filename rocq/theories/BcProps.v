(* Bytecode encoding: properties C37, C63, C64. *)
From Coq Require Import ZArith List Lia Bool ZifyBool.
Import ListNotations.
From Verif Require Import Base BcModel BcSpec BcCalls BcProofs BcProofs2 BcProofs3.
Local Open Scope Z_scope.
Ltac Zify.zify_post_hook ::= idtac.

(* C37: operands of variable length are read back whatever follows; the size is the number of
   bytes written.  With assertions up to 2^28, without them for any uint32_t. *)
Theorem uimm_round_trip : forall asserts v rest, 0 <= v < 2 ^ 32 -> (asserts = true -> v < 2 ^ 28) ->
  load_uimm asserts (write_uimm 5 v ++ rest) = Some (v, Z.of_nat (length (write_uimm 5 v))).
Proof.
  intros asserts v rest H Ha. change (2 ^ 32) with 4294967296 in H. change (2 ^ 28) with 268435456 in Ha. rewrite load_write by assumption. rewrite write_length by lia. reflexivity.
Qed.

Theorem simm_round_trip : forall asserts v rest, - 2 ^ 30 <= v < 2 ^ 30 -> (asserts = true -> - 2 ^ 27 <= v < 2 ^ 27) ->
  load_simm asserts (write_simm v ++ rest) = Some (v, Z.of_nat (length (write_simm v))) /\
  get_simm_size v = Z.of_nat (length (write_simm v)).
Proof.
  intros asserts v rest H Ha. change (2 ^ 30) with 1073741824 in H. change (2 ^ 27) with 134217728 in Ha.
  rewrite load_write_s by assumption. rewrite write_simm_length by lia. split; reflexivity.
Qed.

(* C37: an instruction which the compiler emits is read back, with its operands, whatever follows *)
Theorem instr_round_trip : forall asserts instr vs bytes rest, gen_instr instr vs = Some bytes -> length vs = get_num_operands instr -> ops_fit instr 0 vs ->
  read_instr asserts (bytes ++ rest) = Some (instr, vs, rest).
Proof. intros. eapply instr_round; eassumption. Qed.

Example operands_ex :
  write_uimm 5 300 = [172; 2] /\ load_uimm true [172; 2; 99] = Some (300, 2) /\
  write_simm (-65) = [129; 1] /\ write_simm 64 = [128; 1] /\ load_simm true [129; 1; 99] = Some (-65, 2) /\
  gen_instr 0x94 [7; 1000; 8] = Some [0x94; 7; 232; 7; 8] /\ read_instr true [0x94; 7; 232; 7; 8; 0x80] = Some (0x94, [7; 1000; 8], [0x80]) /\
  gen_instr 0x8D [1; 2; -128] = Some [0x8D; 1; 2; 128] /\ gen_instr 0x8D [1; 2; 128] = None.
Proof. vm_compute. auto 20. Qed.

(* the limits: an assertion fails from 2^28; signed operands are decoded wrongly from 2^30 *)
Example operand_limits_ex :
  load_uimm true (write_uimm 5 (2 ^ 28 - 1)) = Some (2 ^ 28 - 1, 4) /\ load_uimm true (write_uimm 5 (2 ^ 28)) = None /\
  load_uimm false (write_uimm 5 (2 ^ 32 - 1)) = Some (2 ^ 32 - 1, 5) /\
  load_simm false (write_simm (2 ^ 30 - 1)) = Some (2 ^ 30 - 1, 5) /\ load_simm false (write_simm (2 ^ 30)) = Some (- 2 ^ 30, 5).
Proof. vm_compute. auto. Qed.

(* emitting *)
Lemma emit_code p : Forall valid p -> emit p = Some (code_of p).
Proof.
  induction 1 as [|i p V _ IH]; [ reflexivity | ]. cbn [emit code_of]. rewrite (gen_bytes 0 i V), IH. reflexivity.
Qed.
Lemma firstn_valid k p : Forall valid p -> Forall valid (firstn k p).
Proof. intro V. rewrite <- (firstn_skipn k p) in V. apply Forall_app in V. tauto. Qed.
Lemma offset_start p k : Forall valid p -> offset p k = start p k.
Proof. intro V. unfold offset, start. rewrite emit_code by (apply firstn_valid; exact V). reflexivity. Qed.
Lemma record_entries p : Forall valid p -> record p 0 p = entries p 0 p.
Proof.
  intro V. assert (X : forall q k o, (forall j i, nth_error q j = Some i -> nth_error p (k + j) = Some i) -> o = start p k -> record p k q = entries p o q).
  { induction q as [|i q IH]; intros k o Hq Ho; cbn [record entries]; [ reflexivity | ].
    assert (Ni : nth_error p k = Some i). { specialize (Hq O i eq_refl). rewrite Nat.add_0_r in Hq. exact Hq. }
    rewrite (IH (S k) (o + zlen (bytes 0 i))); [ | intros j i' N; specialize (Hq (S j) i' N); rewrite <- Hq; f_equal; lia | rewrite (start_S p k i Ni); lia ].
    rewrite !offset_start by exact V. subst o. destruct (target i) as [t|]; [ rewrite offset_start by exact V | ]; reflexivity. }
  apply (X p O 0); [ auto | reflexivity ].
Qed.

Fixpoint lines_ordered (n : nat) (lo : nat) (l : list (nat * Z)) : Prop :=
  match l with [] => True | (k, _) :: l => (lo <= k <= n)%nat /\ lines_ordered n k l end.

(* C63: update_jumps succeeds for every program, and its result is the same program, where the
   distance of each jump leads from the next instruction to the target.  The table of lines
   refers to the same instructions as before. *)
Theorem jumps_reach_targets : forall p code lines fuel asserts,
  Forall valid p -> (forall i t, In i p -> target i = Some t -> (t <= length p)%nat) -> lines_ordered (length p) 0 lines ->
  emit p = Some code -> Z.of_nat (length code) < 2 ^ 25 -> Z.of_nat (length p) < 2 ^ 23 -> (5 * length p < fuel)%nat ->
  exists code' lines' l,
    update_jumps fuel code (record p 0 p) (map (fun x => (offset p (fst x), snd x)) lines) = Some (code', lines') /\
    disasm (length p) asserts 0 code' = Some l /\ length l = length p /\
    (forall k i, nth_error p k = Some i -> exists o d, nth_error l k = Some (o, lower d i) /\
      forall t, target i = Some t -> address l code' t = address l code' (S k) + d) /\
    lines' = map (fun x => (address l code' (fst x), snd x)) lines.
Proof.
  intros p code lines fuel asserts V Ht Hl He L1 L2 Hf. rewrite emit_code in He by exact V. apply some_inj in He. subst code.
  change (2 ^ 25) with 33554432 in L1. change (2 ^ 23) with 8388608 in L2.
  assert (Hl2 : lines_from 0 (map (fun x : nat * Z => (offset p (fst x), snd x)) lines)).
  { change 0 with (start p 0). clear Hf Ht. revert Hl. generalize O. induction lines as [|[k ln] lines IH]; intros lo Hl; cbn [map lines_from lines_ordered fst snd] in *; [ exact I | ].
    rewrite !offset_start by exact V. destruct Hl as [H1 H2]. split; [ pose proof (start_mono p lo k); pose proof (start_le p k); lia | ]. apply (IH k H2). }
  destruct (update_ok p (map (fun x => (offset p (fst x), snd x)) lines) fuel V) as [T [J [I [Ex E]]]]; [ unfold max_code; lia | unfold max_code; lia | exact Hl2 | exact Hf | ].
  set (ds := dists T p T) in *. assert (Ld : length ds = length p) by (eapply dists_len; exact J).
  pose proof (dists_range T p p I 0 T J ltac:(auto)) as Rd. fold ds in Rd.
  pose proof (disasm_ok asserts p ds 0 (length p) V Ld Rd ltac:(lia)) as D.
  set (l := combine (starts 0 ds p) (lowered ds p)) in *.
  assert (Ll : length l = length p). { unfold l. rewrite combine_length, starts_len, lowered_len by exact Ld. lia. }
  assert (P0 : pos T 0 = 0). { unfold pos. rewrite grow_high; [ reflexivity | ]. intros f Hx. pose proof (jumps_above p p V 0 T J f Hx). lia. }
  assert (FS : forall k, fstart ds p k = pos T (start p k)).
  { intro k. pose proof (fstart_pos p p 0 [] T J V I Ex ltac:(intros f []) k) as Q. cbn [app] in Q. fold ds in Q. rewrite P0 in Q. rewrite !Z.add_0_l in Q. exact Q. }
  assert (AD : forall k, (k <= length p)%nat -> address l (final ds p) k = fstart ds p k).
  { intros k Hk. unfold address. destruct (Nat.eq_dec k (length p)) as [->|N].
    - replace (nth_error l (length p)) with (@None (Z * (Z * list Z))) by (symmetry; apply nth_error_None; lia). rewrite fstart_all by exact Ld. reflexivity.
    - destruct (nth_error l k) as [[o x]|] eqn:N2; [ | apply nth_error_None in N2; lia ].
      apply (nth_error_nth _ _ (0, (0, []))) in N2. unfold l in N2. rewrite combine_nth in N2 by (rewrite starts_len, lowered_len by exact Ld; reflexivity).
      pose proof (f_equal fst N2) as N3. cbn [fst] in N3. rewrite starts_nth in N3 by (auto; lia). rewrite <- N3. reflexivity. }
  rewrite record_entries by exact V.
  exists (final ds p), (map (move_line T) (map (fun x => (offset p (fst x), snd x)) lines)), l.
  split; [ exact E | ]. split; [ exact D | ]. split; [ exact Ll | ]. split.
  - intros k i N. assert (Hk : (k < length p)%nat) by (apply nth_error_Some; congruence).
    destruct (nth_error ds k) as [d|] eqn:Nd; [ | apply nth_error_None in Nd; lia ].
    assert (Nl : nth_error (lowered ds p) k = Some (lower d i)).
    { clearbody ds. clear - N Nd. revert ds k N Nd. induction p as [|j p IH]; intros ds k N Nd; [ destruct k; discriminate | ]. destruct ds as [|d0 ds]; [ destruct k; discriminate | ].
      destruct k as [|k]; cbn [nth_error lowered] in *; [ congruence | apply IH; assumption ]. }
    exists (address l (final ds p) k), d. split.
    + unfold address. destruct (nth_error l k) as [[o x]|] eqn:N2; [ | apply nth_error_None in N2; lia ]. f_equal. f_equal.
      apply (nth_error_nth _ _ (0, (0, []))) in N2. unfold l in N2. rewrite combine_nth in N2 by (rewrite starts_len, lowered_len by exact Ld; reflexivity).
      apply (f_equal snd) in N2. cbn [snd] in N2. apply (nth_error_nth _ _ (0, [])) in Nl. congruence.
    + intros t Tg. destruct (dists_nth T p p 0 T k i t J N Tg) as [e [Q1 [Q2 [Q3 [Q4 Q5]]]]]. fold ds in Q5. assert (d = off T e) by congruence. subst d.
      rewrite !AD by (try (apply (Ht i t); [ eapply nth_error_In; exact N | exact Tg ]); lia).
      rewrite !FS, (start_S p k i N). unfold off. rewrite Q3, Q2, Q4, Z.add_0_l.
      pose proof (is_jump_target i t Tg) as Ji. rewrite bytes_len0 by exact Ji.
      assert (G1 : pos T (start p k + (base i + 1)) = pos T (start p k) + base i + g_imm e); [ | lia ].
      rewrite <- (bytes_len0 i Ji), <- (start_S p k i N), <- !FS.
      unfold fstart. assert (X : forall (q : list ins) (es : list Z) n j d, nth_error q n = Some j -> nth_error es n = Some d -> zlen (final (firstn (S n) es) (firstn (S n) q)) = zlen (final (firstn n es) (firstn n q)) + zlen (bytes d j)).
      { induction q as [|j0 q IH]; intros es n j d0 N1 N2; [ destruct n; discriminate | ]. destruct es as [|d1 es]; [ destruct n; discriminate | ]. destruct n as [|n].
        - cbn in N1, N2. injection N1 as ->. injection N2 as ->. cbn [firstn final]. rewrite zlen_app. destruct (firstn 0 es); destruct (firstn 0 q); cbn; lia.
        - cbn [nth_error] in N1, N2. specialize (IH es n j d0 N1 N2). change (firstn (S (S n)) (d1 :: es)) with (d1 :: firstn (S n) es). change (firstn (S (S n)) (j0 :: q)) with (j0 :: firstn (S n) q).
          change (firstn (S n) (d1 :: es)) with (d1 :: firstn n es). change (firstn (S n) (j0 :: q)) with (j0 :: firstn n q). cbn [final]. rewrite !zlen_app. lia. }
      rewrite (X p ds k i (off T e) N Q5). rewrite bytes_len by exact Ji.
      assert (We : gwf e) by (pose proof (i_wf _ I) as W; rewrite Forall_forall in W; auto). pose proof (off_range T e (i_wf _ I) We (i_len _ I)) as R.
      rewrite write_simm_length by lia. assert (Xe : exact T e) by (rewrite Forall_forall in Ex; auto). rewrite <- Xe. lia.
  - rewrite map_map. apply map_ext_in. intros [k ln] Hx. unfold move_line. cbn [fst snd]. rewrite offset_start by exact V. rewrite <- FS. f_equal. symmetry. apply AD.
    clear - Hl Hx. revert Hl. generalize O. induction lines as [|[k' ln'] lines IH]; intros lo Hl; [ destruct Hx | ]. cbn [lines_ordered] in Hl. destruct Hl as [H1 H2]. destruct Hx as [Q|Q]; [ inversion Q; subst; lia | eapply IH; eassumption ].
Qed.

(* a loop with jumps over more than 63 bytes *)
Definition loop_ex : list ins :=
  [JmpIf true 3 62; Op 0xA7 [1; 2]] ++ repeat (Op 0x86 [7]) 60 ++ [NextJmp 4 5 1; Jmp 0; Catch 6 65].

Example jumps_ex :
  match emit loop_ex with
  | None => False
  | Some code =>
      record loop_ex 0 loop_ex = [add_jump 0 126; add_jump 126 3; add_jump 130 0; add_jump 132 135] /\
      match update_jumps 400 code (record loop_ex 0 loop_ex) [(0, 1); (3, 2); (126, 3); (132, 4)] with
      | None => False
      | Some (code', lines) =>
          firstn 6 code' = [0xB6; 246; 1; 3; 0xA7; 1] /\ skipn 127 code' = [0xB8; 4; 5; 255; 1; 0xB5; 141; 2; 0xC6; 6; 0] /\
          lines = [(0, 1); (4, 2); (127, 3); (135, 4)] /\
          match disasm 65 true 0 code' with
          | Some l => nth_error l 0 = Some (0, (0xB6, [123; 3])) /\ address l code' 62 = 4 + 123 /\ nth_error l 62 = Some (127, (0xB8, [4; 5; -128]))
          | None => False
          end
      end
  end.
Proof. vm_compute. auto 20. Qed.

(* C64: a line is found for each offset from the first entry on; the entries have different
   offsets *)
Theorem line_lookup : forall l offs, increasing (map fst l) -> l <> [] -> fst (hd (0, 0) l) <= offs ->
  function_addr_to_line l offs = line_at l offs.
Proof.
  intros l offs Inc Ne H0. unfold function_addr_to_line. destruct l as [|[o ln] l]; [ congruence | ]. clear Ne.
  assert (X : forall l o ln, increasing (o :: map fst l) -> o <= offs -> o <> offs \/ l = [] \/ True ->
    find_line (Some (o, ln)) l offs = match line_at l offs with Some x => Some x | None => Some ln end).
  { clear. induction l as [|[o' ln'] l IH]; intros o ln I H _; [ reflexivity | ]. cbn [find_line line_at]. cbn [map increasing fst] in I. destruct I as [I1 I2].
    destruct (o' <? offs) eqn:E.
    - replace (o' <=? offs) with true by lia. rewrite (IH o' ln') by (auto; lia). destruct (line_at l offs); reflexivity.
    - destruct (offs <? o') eqn:E2; [ replace (o' <=? offs) with false by lia; reflexivity | ]. replace (o' <=? offs) with true by lia.
      destruct l as [|[o2 ln2] l]; [ reflexivity | ]. cbn [line_at]. cbn [map increasing fst] in I2. replace (o2 <=? offs) with false by lia. reflexivity. }
  cbn [hd fst] in H0. cbn [find_line line_at map fst] in *. replace (o <=? offs) with true by lia. destruct (o <? offs) eqn:E.
  - rewrite X by (auto; lia). destruct (line_at l offs); reflexivity.
  - replace (offs <? o) with false by lia. destruct l as [|[o2 ln2] l]; [ reflexivity | ]. cbn [line_at]. cbn [map increasing fst] in Inc. replace (o2 <=? offs) with false by lia. reflexivity.
Qed.

Example lines_ex :
  map (function_addr_to_line [(0, 10); (4, 11); (9, 12)]) [0; 3; 4; 8; 9; 100] = [Some 10; Some 10; Some 11; Some 11; Some 12; Some 12] /\
  function_addr_to_line [(4, 11); (9, 12)] 3 = None.
Proof. vm_compute. auto. Qed.

Print Assumptions uimm_round_trip.
Print Assumptions simm_round_trip.
Print Assumptions instr_round_trip.
Print Assumptions jumps_reach_targets.
Print Assumptions line_lookup.
