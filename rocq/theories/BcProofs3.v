(* Proofs about the bytecode encoding: jumps of a program. *)
From Coq Require Import ZArith List Lia Bool ZifyBool.
Import ListNotations.
From Verif Require Import Base BcModel BcSpec BcProofs BcProofs2.
Local Open Scope Z_scope.
Ltac Zify.zify_post_hook ::= idtac.

Notation zlen l := (Z.of_nat (length l)).

(* the bytes around the distance *)
Definition pre (i : ins) : list Z :=
  match i with
  | Op o l => match gen_instr o l with Some b => b | None => [] end
  | Jmp _ => [0xB5]
  | JmpIf c r _ => [if c then 0xB6 else 0xB7]
  | NextJmp r f _ => [0xB8; r mod 256; f mod 256]
  | Catch r _ => [0xC6; r mod 256]
  end.
Definition post (i : ins) : list Z := match i with JmpIf _ r _ => [r mod 256] | _ => [] end.
Definition bytes (d : Z) (i : ins) : list Z := if is_jump i then pre i ++ write_simm d ++ post i else pre i.
Definition base (i : ins) : Z := zlen (pre i) + zlen (post i).

Definition valid (i : ins) : Prop :=
  match i with
  | Op o l => length l = get_num_operands o /\ ops_fit o 0 l /\ (exists b, gen_instr o l = Some b) /\ ~ In o [0xB5; 0xB6; 0xB7; 0xB8; 0xC6]
  | Jmp _ => True
  | JmpIf _ r _ => 0 <= r < 256
  | NextJmp r f _ => 0 <= r < 256 /\ 0 <= f < 256
  | Catch r _ => 0 <= r < 256
  end.

Lemma gen_bytes d i : valid i -> gen_instr (fst (lower d i)) (snd (lower d i)) = Some (bytes d i).
Proof.
  intro V. destruct i as [o l|t|c r t|r f t|r t]; unfold bytes; cbn [is_jump target lower fst snd pre post valid] in *.
  - destruct V as [_ [_ [[b E] _]]]. rewrite E. reflexivity.
  - change (gen_instr 181 [d]) with (Some (181 :: write_simm d ++ [])). reflexivity.
  - destruct c.
    + change (gen_instr 182 [d; r]) with (Some (182 :: write_simm d ++ [r mod 256])). reflexivity.
    + change (gen_instr 183 [d; r]) with (Some (183 :: write_simm d ++ [r mod 256])). reflexivity.
  - change (gen_instr 184 [r; f; d]) with (Some (184 :: [r mod 256] ++ [f mod 256] ++ write_simm d ++ [])). reflexivity.
  - change (gen_instr 198 [r; d]) with (Some (198 :: [r mod 256] ++ write_simm d ++ [])). reflexivity.
Qed.

Lemma read_bytes asserts d i rest : valid i -> -134217728 <= d < 134217728 ->
  read_instr asserts (bytes d i ++ rest) = Some (fst (lower d i), snd (lower d i), rest).
Proof.
  intros V D. apply instr_round; [ | | apply gen_bytes; exact V ].
  - destruct i as [o l|t|[] r t|r f t|r t]; cbn [lower fst snd valid ops_fit] in *; unfold op_fits; cbn; try tauto; lia.
  - destruct i as [o l|t|[] r t|r f t|r t]; cbn [lower fst snd valid] in *; [ tauto | reflexivity .. ].
Qed.

Lemma zlen_app {A} (l r : list A) : zlen (l ++ r) = zlen l + zlen r.
Proof. rewrite app_length. lia. Qed.

Lemma simm0 : write_simm 0 = [0].
Proof. reflexivity. Qed.

Lemma bytes_len0 i : is_jump i = true -> zlen (bytes 0 i) = base i + 1.
Proof. intro J. unfold bytes, base. rewrite J, simm0, !zlen_app. cbn [length]. lia. Qed.
Lemma bytes_len d i : is_jump i = true -> zlen (bytes d i) = base i + zlen (write_simm d).
Proof. intro J. unfold bytes, base. rewrite J, !zlen_app. lia. Qed.
Lemma bytes_op d i : is_jump i = false -> bytes d i = bytes 0 i.
Proof. intro J. unfold bytes. rewrite J. reflexivity. Qed.
Lemma bytes_pos i : valid i -> 0 < zlen (bytes 0 i).
Proof.
  intro V. destruct i as [o l|t|[] r t|r f t|r t]; try (cbn; lia). unfold bytes. cbn [is_jump target pre]. destruct V as [_ [_ [[b E] _]]]. rewrite E.
  unfold gen_instr in E. destruct (_ && _); [ | discriminate ]. destruct (gen_operands o 0 l); [ | discriminate ]. apply some_inj in E. subst b. cbn [length]. lia.
Qed.

Fixpoint code_of (p : list ins) : list Z := match p with [] => [] | i :: p => bytes 0 i ++ code_of p end.
Definition start (p : list ins) (k : nat) : Z := zlen (code_of (firstn k p)).

(* the recorded jumps of a program *)
Fixpoint entries (all : list ins) (o : Z) (p : list ins) : list jump :=
  match p with
  | [] => []
  | i :: p =>
      match target i with
      | Some t => add_jump o (start all t) :: entries all (o + zlen (bytes 0 i)) p
      | None => entries all (o + zlen (bytes 0 i)) p
      end
  end.

(* final sizes of the jumps of a part of the program *)
Inductive jumps (all : list ins) : Z -> list ins -> list gj -> Prop :=
| jumps_nil o : jumps all o [] []
| jumps_op o i p U : target i = None -> jumps all (o + zlen (bytes 0 i)) p U -> jumps all o (i :: p) U
| jumps_jmp o i p e U t : target i = Some t -> g_orig e = o -> g_tgt e = start all t -> g_base e = base i ->
    jumps all (o + zlen (bytes 0 i)) p U -> jumps all o (i :: p) (e :: U).

Fixpoint initial (all : list ins) (o : Z) (p : list ins) : list gj :=
  match p with
  | [] => []
  | i :: p =>
      match target i with
      | Some t => G o (start all t) (base i) 1 :: initial all (o + zlen (bytes 0 i)) p
      | None => initial all (o + zlen (bytes 0 i)) p
      end
  end.
Lemma initial_jumps all : forall p o, jumps all o p (initial all o p).
Proof. induction p as [|i p IH]; intro o; cbn [initial]; [ constructor | ]. destruct (target i) as [t|] eqn:E; [ apply jumps_jmp with t; auto | apply jumps_op; auto ]. Qed.
Lemma jumps_same all p : forall o U U', jumps all o p U -> Forall2 same U U' -> jumps all o p U'.
Proof.
  induction p as [|i p IH]; intros o U U' H F; inversion H; subst.
  - inversion F. constructor.
  - apply jumps_op; [ assumption | ]. eapply IH; eassumption.
  - inversion F as [|x y u v I1 I2]. subst. unfold same in I1. apply jumps_jmp with t; try congruence; try lia. eapply IH; [ eassumption | assumption ].
Qed.

(* distances of all instructions, zero for other instructions *)
Fixpoint dists (U : list gj) (p : list ins) (Sp : list gj) : list Z :=
  match p with
  | [] => []
  | i :: p => if is_jump i then match Sp with e :: Sp => off U e :: dists U p Sp | [] => [] end else 0 :: dists U p Sp
  end.
Fixpoint final (ds : list Z) (p : list ins) : list Z :=
  match p, ds with i :: p, d :: ds => bytes d i ++ final ds p | _, _ => [] end.

Fixpoint gsum (U : list gj) : Z := match U with [] => 0 | e :: U => (g_imm e - 1) + gsum U end.
Lemma gsum_app A B : gsum (A ++ B) = gsum A + gsum B.
Proof. induction A; cbn [app gsum]; lia. Qed.
Lemma grow_low A p : (forall e, In e A -> g_orig e < p) -> grow A p = gsum A.
Proof.
  intro H. induction A as [|e A IH]; cbn [grow gsum]; [ reflexivity | ]. rewrite IH by (intros; apply H; right; assumption).
  assert (g_orig e < p) by (apply H; left; reflexivity). replace (g_orig e <? p) with true by lia. reflexivity.
Qed.
Lemma grow_high A p : (forall e, In e A -> p <= g_orig e) -> grow A p = 0.
Proof.
  intro H. induction A as [|e A IH]; cbn [grow]; [ reflexivity | ]. rewrite IH by (intros; apply H; right; assumption).
  assert (p <= g_orig e) by (apply H; left; reflexivity). replace (g_orig e <? p) with false by lia. reflexivity.
Qed.

Lemma jumps_above all p : Forall valid p -> forall o U, jumps all o p U -> forall e, In e U -> o <= g_orig e.
Proof.
  induction p as [|i p IH]; intros V o U H e He; inversion H; subst; [ destruct He | | ].
  - inversion V as [|x y V1 V2]; subst. assert (X : o + zlen (bytes 0 i) <= g_orig e) by (eapply IH; eassumption). lia.
  - inversion V as [|x y V1 V2]; subst. destruct He as [->|He]; [ lia | ]. assert (X : g_orig e0 + zlen (bytes 0 i) <= g_orig e) by (eapply IH; eassumption). lia.
Qed.

Lemma gsum_nonneg U : Forall gwf U -> 0 <= gsum U <= 4 * zlen U.
Proof. induction 1 as [|e U [We _] _ IH]; cbn [gsum length]; lia. Qed.

(* lines *)
Fixpoint lines_from (lo : Z) (l : list (Z * Z)) : Prop :=
  match l with [] => True | (x, _) :: l => lo <= x < 2147483648 /\ lines_from x l end.
Definition move_line (U : list gj) (x : Z * Z) : Z * Z := (pos U (fst x), snd x).

Lemma lines_le lo lo' l : lo' <= lo -> lines_from lo l -> lines_from lo' l.
Proof. destruct l as [|[x y] l]; cbn; [ auto | ]. intuition lia. Qed.

Lemma move_lines_ok A e B : let U := A ++ e :: B in
  (forall f, In f A -> g_orig f < g_orig e) -> (forall f, In f B -> g_orig e < g_orig f) -> Forall gwf U -> 4 * zlen U < max_code ->
  forall l lo, (forall f, In f A -> g_orig f < lo) -> 0 <= lo -> lines_from lo l ->
  exists a b, l = a ++ b /\ move_lines (g_orig e) (u32 (gsum A)) l = (map (move_line U) a, b) /\
    (exists lo', lines_from lo' b /\ 0 <= lo' /\ forall f, In f (A ++ [e]) -> g_orig f < lo').
Proof.
  intros U HA HB W L. assert (WA : Forall gwf A) by (apply Forall_app in W; tauto).
  assert (LA : 0 <= gsum A < 33554432).
  { pose proof (gsum_nonneg A WA). unfold U in L. rewrite zlen_app in L. cbn [length] in L. unfold max_code in L. lia. }
  induction l as [|[x ln] l IH]; intros lo Hlo Hz Hl; cbn [move_lines lines_from] in *.
  - exists [], []. split; [ reflexivity | ]. split; [ reflexivity | ]. exists (Z.max lo (g_orig e + 1)). split; [ exact I | ]. split; [ lia | ].
    intros f Hf. apply in_app_or in Hf. destruct Hf as [Hf|[<-|[]]]; [ specialize (Hlo f Hf); lia | lia ].
  - destruct Hl as [H1 H2]. destruct (x <=? g_orig e) eqn:E.
    + destruct (IH x) as [a [b [E1 [E2 E3]]]]; [ intros f Hf; specialize (Hlo f Hf); lia | lia | exact H2 | ].
      rewrite E2. exists ((x, ln) :: a), b. split; [ cbn [app]; congruence | ]. split; [ | exact E3 ]. cbn [map]. f_equal. f_equal. unfold move_line, pos. cbn [fst snd]. f_equal.
      unfold U. rewrite grow_app, (grow_low A) by (intros f Hf; specialize (Hlo f Hf); lia).
      rewrite (grow_high (e :: B)). 2:{ intros f [->|Hf]; [ lia | specialize (HB f Hf); lia ]. }
      rewrite (u32_id (gsum A)) by lia. rewrite u32_id by lia. lia.
    + exists [], ((x, ln) :: l). split; [ reflexivity | ]. split; [ reflexivity | ]. exists x. split; [ cbn; split; [ lia | exact H2 ] | ]. split; [ lia | ].
      intros f Hf. apply in_app_or in Hf. destruct Hf as [Hf|[<-|[]]]; [ specialize (Hlo f Hf); lia | lia ].
Qed.

Lemma firstn_app_len {A} (l r : list A) n : n = length l -> firstn n (l ++ r) = l.
Proof. intros ->. rewrite firstn_app, firstn_all, Nat.sub_diag. cbn. apply app_nil_r. Qed.

Lemma pre_head i : is_jump i = true -> exists op l, pre i = op :: l /\
  one_of [CATCH; NEXT_JUMP; JUMP; JUMP_COND; JUMP_NOT_COND] op = true /\
  zlen (pre i) = (if op =? CATCH then 2 else if op =? NEXT_JUMP then 3 else 1) /\
  base i = (if op =? JUMP then 1 else if op =? NEXT_JUMP then 3 else 2).
Proof. destruct i as [o l|t|[] r t|r f t|r t]; cbn [is_jump target]; intro J; [ discriminate | .. ]; do 2 eexists; repeat split. Qed.

Lemma is_jump_target i t : target i = Some t -> is_jump i = true.
Proof. unfold is_jump. intros ->. reflexivity. Qed.
Lemma is_jump_none i : target i = None -> is_jump i = false.
Proof. unfold is_jump. intros ->. reflexivity. Qed.

Lemma write_jump_ok U P i d0 rest e : valid i -> is_jump i = true -> zlen P = pos U (g_orig e) -> g_base e = base i -> exact U e ->
  -2147483648 <= off U e < 2147483648 -> d0 = 0 ->
  write_jump_offs (P ++ bytes d0 i ++ rest) (real U e) = Some (P ++ bytes (off U e) i ++ rest).
Proof.
  intros V J HP Hb Ex R ->. destruct (pre_head i J) as [op [l [E1 [E2 [E3 E4]]]]].
  unfold write_jump_offs. cbn [real j_offs j_target j_base j_imm]. rewrite <- HP, Nat2Z.id.
  rewrite nth_error_app2, Nat.sub_diag by lia. unfold bytes at 1. rewrite J, E1. cbn [app nth_error].
  rewrite E2. cbn [negb]. rewrite HP. fold (off U e). rewrite write_simm_length by exact R. rewrite <- Ex, Z.eqb_refl. cbn [negb].
  rewrite <- HP, <- E3. rewrite <- Nat2Z.inj_add, Nat2Z.id. f_equal. unfold bytes. rewrite J, simm0.
  replace (P ++ (pre i ++ [0] ++ post i) ++ rest) with ((P ++ pre i) ++ [0] ++ post i ++ rest) by (rewrite <- !app_assoc; reflexivity).
  rewrite firstn_app_len by (rewrite app_length; reflexivity).
  replace ((P ++ pre i) ++ [0] ++ post i ++ rest) with (((P ++ pre i) ++ [0]) ++ post i ++ rest) by (rewrite <- !app_assoc; reflexivity).
  rewrite skipn_app_len by (rewrite !app_length; reflexivity). rewrite <- !app_assoc. reflexivity.
Qed.

Lemma write_ok all : forall p o A Sp P l lo, jumps all o p Sp -> Forall valid p ->
  let U := A ++ Sp in inv U -> Forall (exact U) U -> (forall f, In f A -> g_orig f < o) -> zlen P = pos U o ->
  lines_from lo l -> 0 <= lo -> (forall f, In f A -> g_orig f < lo) ->
  write_jumps (P ++ code_of p) (map (real U) Sp) l (u32 (gsum A)) = Some (P ++ final (dists U p Sp) p, map (move_line U) l).
Proof.
  induction p as [|i p IH]; intros o A Sp P l lo HJ V U I Ex HA HP Hl Hlo HAl.
  - inversion HJ. subst. cbn [map write_jumps code_of final dists]. f_equal. f_equal.
    assert (GA : forall x, In x l -> pos U (fst x) = fst x + gsum A).
    { intros [x ln] Hx. unfold pos, U. rewrite app_nil_r. cbn [fst]. rewrite grow_low; [ reflexivity | ]. intros f Hf. specialize (HAl f Hf).
      assert (X : lo <= x). { clear - Hl Hx. revert lo Hl. induction l as [|[y z] l IH]; cbn in *; [ tauto | ]. intros lo [H1 H2]. destruct Hx as [Q|Q]; [ inversion Q; lia | specialize (IH Q y H2); lia ]. } lia. }
    assert (Hx : forall x, In x l -> 0 <= fst x < 2147483648).
    { clear - Hl Hlo. revert lo Hl Hlo. induction l as [|[y z] l IH]; cbn in *; [ tauto | ]. intros lo [H1 H2] H3 x [<-|Q]; [ cbn; lia | apply (IH y H2); [ lia | exact Q ] ]. }
    pose proof (i_wf _ I) as W. pose proof (i_len _ I) as L. unfold U in W, L. rewrite app_nil_r in W, L. pose proof (gsum_nonneg A W) as GN. unfold max_code in L.
    rewrite (u32_id (gsum A)) by lia. destruct (gsum A =? 0) eqn:E.
    + rewrite <- (map_id l) at 1. apply map_ext_in. intros x Q. unfold move_line. rewrite GA by exact Q. destruct x; cbn [fst snd]. f_equal. lia.
    + apply map_ext_in. intros x Q. unfold move_line. rewrite GA by exact Q. rewrite u32_id; [ reflexivity | ]. specialize (Hx x Q). lia.
  - inversion V as [|x y V1 V2]; subst. pose proof (bytes_pos i V1) as Bp. inversion HJ as [| o' i' p' U' T J' | o' i' p' e U' t T O1 O2 O3 J']; subst.
    + pose proof (is_jump_none i T) as NJ. cbn [code_of final dists]. rewrite NJ. cbn [final]. rewrite !app_assoc. fold U.
      apply (IH (o + zlen (bytes 0 i)) A Sp (P ++ bytes 0 i) l lo); auto.
      * intros f Hf. specialize (HA f Hf). lia.
      * rewrite zlen_app, HP. unfold pos. unfold U. rewrite !grow_app.
        rewrite !(grow_low A) by (intros f Hf; specialize (HA f Hf); lia).
        rewrite (grow_high Sp (o + zlen (bytes 0 i))), (grow_high Sp o); [ lia | | ]; intros f Hf; pose proof (jumps_above all p V2 _ _ J' f Hf); lia.
    + pose proof (is_jump_target i t T) as Ji. cbn [map write_jumps code_of final dists]. rewrite Ji. cbn [final]. fold U.
      assert (Ie : In e U) by (apply in_or_app; right; left; reflexivity).
      assert (We : gwf e) by (pose proof (i_wf _ I) as W; rewrite Forall_forall in W; auto).
      pose proof (off_range U e (i_wf _ I) We (i_len _ I)) as R.
      assert (Xe : exact U e) by (rewrite Forall_forall in Ex; auto).
      rewrite (write_jump_ok U P i 0 (code_of p) e V1 Ji HP O3 Xe); [ | lia | reflexivity ].
      cbn [real j_orig j_imm].
      assert (HB : forall f, In f U' -> g_orig e < g_orig f). { intros f Hf. pose proof (jumps_above all p V2 _ _ J' f Hf). lia. }
      destruct (move_lines_ok A e U' HA HB (i_wf _ I) (i_len _ I) l lo HAl Hlo Hl) as [a [b [E1 [E2 [lo' [E3 [E4 E5]]]]]]].
      rewrite E2. rewrite u32_u32.
      replace (gsum A + (g_imm e - 1)) with (gsum (A ++ [e])) by (rewrite gsum_app; cbn [gsum]; lia).
      rewrite (app_assoc P). assert (ES : (A ++ [e]) ++ U' = U) by (unfold U; rewrite <- app_assoc; reflexivity).
      specialize (IH (g_orig e + zlen (bytes 0 i)) (A ++ [e]) U' (P ++ bytes (off U e) i) b lo' J' V2). cbv zeta in IH. rewrite ES in IH.
      rewrite IH; auto.
      * rewrite E1, map_app, app_assoc. reflexivity.
      * intros f Hf. apply in_app_or in Hf. destruct Hf as [Hf|[<-|[]]]; [ specialize (HA f Hf); lia | lia ].
      * assert (0 <= base i) by (unfold base; lia). rewrite zlen_app, HP, bytes_len, write_simm_length by (auto; lia). rewrite <- Xe. rewrite bytes_len0 by exact Ji. unfold pos, U. rewrite !grow_app.
        rewrite !(grow_low A) by (intros f Hf; specialize (HA f Hf); lia). cbn [grow]. rewrite Z.ltb_irrefl.
        replace (g_orig e <? g_orig e + (base i + 1)) with true by lia.
        rewrite (grow_high U' (g_orig e)), (grow_high U' (g_orig e + (base i + 1))); [ lia | | ]; intros f Hf; [ pose proof (jumps_above all p V2 _ _ J' f Hf) as X; rewrite bytes_len0 in X by exact Ji; lia | specialize (HB f Hf); lia ].
Qed.

(* offsets of the instructions in the final code *)
Definition fstart (ds : list Z) (p : list ins) (k : nat) : Z := zlen (final (firstn k ds) (firstn k p)).

Lemma dists_len U all p : forall o Sp, jumps all o p Sp -> length (dists U p Sp) = length p.
Proof.
  induction p as [|i p IH]; intros o Sp H; inversion H; subst; cbn [dists length]; [ reflexivity | | ].
  - rewrite (is_jump_none i) by assumption. cbn [length]. f_equal. eapply IH; eassumption.
  - rewrite (is_jump_target i t) by assumption. cbn [length]. f_equal. eapply IH; eassumption.
Qed.

Lemma fstart_pos all : forall p o A Sp, jumps all o p Sp -> Forall valid p ->
  let U := A ++ Sp in inv U -> Forall (exact U) U -> (forall f, In f A -> g_orig f < o) ->
  forall k, pos U o + fstart (dists U p Sp) p k = pos U (o + start p k).
Proof.
  induction p as [|i p IH]; intros o A Sp HJ V U I Ex HA k.
  - unfold fstart, start. rewrite !firstn_nil. cbn. rewrite !Z.add_0_r. destruct (firstn k (dists U [] Sp)); cbn; lia.
  - destruct k as [|k]; [ unfold fstart, start; cbn; rewrite !Z.add_0_r; reflexivity | ].
    inversion V as [|x y V1 V2]; subst. pose proof (bytes_pos i V1) as Bp. inversion HJ as [| o' i' p' U' T J' | o' i' p' e U' t T O1 O2 O3 J']; subst.
    + pose proof (is_jump_none i T) as NJ. unfold fstart, start in *. cbn [dists]. rewrite NJ. cbn [firstn code_of final]. rewrite !zlen_app.
      specialize (IH (o + zlen (bytes 0 i)) A Sp J' V2 I Ex). cbv zeta in IH. fold U in IH. specialize (IH ltac:(intros f Hf; specialize (HA f Hf); lia) k).
      rewrite (Z.add_assoc o). rewrite <- IH. rewrite Z.add_assoc. f_equal.
      unfold pos, U. rewrite !grow_app. rewrite !(grow_low A) by (intros f Hf; specialize (HA f Hf); lia).
      rewrite (grow_high Sp (o + zlen (bytes 0 i))), (grow_high Sp o); [ lia | | ]; intros f Hf; pose proof (jumps_above all p V2 _ _ J' f Hf); lia.
    + pose proof (is_jump_target i t T) as Ji. unfold fstart, start in *. cbn [dists]. rewrite Ji. cbn [firstn code_of final]. rewrite !zlen_app.
      assert (ES : (A ++ [e]) ++ U' = U) by (unfold U; rewrite <- app_assoc; reflexivity).
      specialize (IH (g_orig e + zlen (bytes 0 i)) (A ++ [e]) U' J' V2). cbv zeta in IH. rewrite ES in IH.
      specialize (IH I Ex ltac:(intros f Hf; apply in_app_or in Hf; destruct Hf as [Hf|[<-|[]]]; [ specialize (HA f Hf); lia | lia ]) k).
      rewrite (Z.add_assoc (g_orig e)). rewrite <- IH. rewrite Z.add_assoc. f_equal.
      assert (Ie : In e U) by (apply in_or_app; right; left; reflexivity).
      assert (We : gwf e) by (pose proof (i_wf _ I) as W; rewrite Forall_forall in W; auto).
      pose proof (off_range U e (i_wf _ I) We (i_len _ I)) as R.
      assert (Xe : exact U e) by (rewrite Forall_forall in Ex; auto).
      assert (HB : forall f, In f U' -> g_orig e < g_orig f). { intros f Hf. pose proof (jumps_above all p V2 _ _ J' f Hf). lia. }
      assert (0 <= base i) by (unfold base; lia). rewrite bytes_len, write_simm_length by (auto; lia). rewrite <- Xe. rewrite bytes_len0 by exact Ji. unfold pos, U. rewrite !grow_app.
      rewrite !(grow_low A) by (intros f Hf; specialize (HA f Hf); lia). cbn [grow]. rewrite Z.ltb_irrefl.
      replace (g_orig e <? g_orig e + (base i + 1)) with true by lia.
      rewrite (grow_high U' (g_orig e)), (grow_high U' (g_orig e + (base i + 1))); [ lia | | ]; intros f Hf; [ pose proof (jumps_above all p V2 _ _ J' f Hf) as X; rewrite bytes_len0 in X by exact Ji; lia | specialize (HB f Hf); lia ].
Qed.

Lemma dists_nth U all : forall p o Sp k i t, jumps all o p Sp -> nth_error p k = Some i -> target i = Some t ->
  exists e, In e Sp /\ g_orig e = o + start p k /\ g_tgt e = start all t /\ g_base e = base i /\ nth_error (dists U p Sp) k = Some (off U e).
Proof.
  induction p as [|i0 p IH]; intros o Sp k i t H N T; [ destruct k; discriminate | ]. inversion H; subst.
  - destruct k as [|k]; cbn [nth_error] in N; [ congruence | ].
    destruct (IH _ Sp k i t ltac:(eassumption) N T) as [e [Q1 [Q2 [Q3 [Q4 Q5]]]]]. exists e. split; [ exact Q1 | ]. split.
    { unfold start in *. cbn [firstn code_of]. rewrite zlen_app. lia. }
    split; [ exact Q3 | ]. split; [ exact Q4 | ]. cbn [dists]. rewrite (is_jump_none i0) by assumption. exact Q5.
  - destruct k as [|k]; cbn [nth_error] in N.
    + injection N as ->. exists e. split; [ left; reflexivity | ]. split; [ unfold start; cbn; lia | ]. split; [ congruence | ]. split; [ assumption | ].
      cbn [dists]. rewrite (is_jump_target i t) by assumption. reflexivity.
    + destruct (IH _ _ k i t ltac:(eassumption) N T) as [e' [Q1 [Q2 [Q3 [Q4 Q5]]]]]. exists e'. split; [ right; exact Q1 | ]. split.
      { unfold start in *. cbn [firstn code_of]. rewrite zlen_app. lia. }
      split; [ exact Q3 | ]. split; [ exact Q4 | ]. cbn [dists]. rewrite (is_jump_target i0 t0) by assumption. exact Q5.
Qed.

(* the state before the first pass *)
Lemma grow_one U p : Forall (fun e => g_imm e = 1) U -> grow U p = 0.
Proof. induction 1 as [|e U E _ IH]; cbn [grow]; [ reflexivity | ]. rewrite IH, E. destruct (_ <? _); lia. Qed.

Lemma initial_one all p : forall o, Forall (fun e => g_imm e = 1) (initial all o p).
Proof. induction p as [|i p IH]; intro o; cbn [initial]; [ constructor | ]. destruct (target i); [ constructor; [ reflexivity | apply IH ] | apply IH ]. Qed.
Lemma initial_len all p : forall o, (length (initial all o p) <= length p)%nat.
Proof. induction p as [|i p IH]; intro o; cbn [initial length]; [ lia | ]. destruct (target i); cbn [length]; [ specialize (IH (o + zlen (bytes 0 i))) | specialize (IH (o + zlen (bytes 0 i))) ]; lia. Qed.

Lemma base_range i : is_jump i = true -> 1 <= base i <= 3.
Proof. destruct i as [o l|t|[] r t|r f t|r t]; cbn; intro; [ discriminate | lia .. ]. Qed.

Lemma start_le p k : start p k <= zlen (code_of p).
Proof.
  unfold start. revert k. induction p as [|i p IH]; intro k; [ rewrite firstn_nil; cbn; lia | ]. destruct k as [|k]; cbn [firstn code_of]; [ cbn [length]; lia | ].
  rewrite !zlen_app. specialize (IH k). lia.
Qed.
Lemma start_S p k i : nth_error p k = Some i -> start p (Datatypes.S k) = start p k + zlen (bytes 0 i).
Proof.
  unfold start. revert k. induction p as [|j p IH]; intros k N; [ destruct k; discriminate | ]. destruct k as [|k]; cbn [nth_error] in N.
  - injection N as ->. cbn [firstn code_of]. rewrite app_nil_r. cbn. lia.
  - specialize (IH k N). cbn [firstn code_of] in *. rewrite !zlen_app in *. lia.
Qed.
Lemma start_mono p k j : (k <= j)%nat -> start p k <= start p j.
Proof.
  unfold start. revert k j. induction p as [|i p IH]; intros k j L; [ rewrite !firstn_nil; lia | ]. destruct k as [|k]; [ cbn; lia | ]. destruct j as [|j]; [ lia | ].
  cbn [firstn code_of]. rewrite !zlen_app. specialize (IH k j). lia.
Qed.

Lemma initial_in all : forall p o e, In e (initial all o p) -> exists k i t, nth_error p k = Some i /\ target i = Some t /\ e = G (o + start p k) (start all t) (base i) 1.
Proof.
  induction p as [|i p IH]; intros o e H; cbn [initial] in H; [ destruct H | ].
  assert (X : In e (initial all (o + zlen (bytes 0 i)) p) -> exists k i0 t, nth_error (i :: p) k = Some i0 /\ target i0 = Some t /\ e = G (o + start (i :: p) k) (start all t) (base i0) 1).
  { intro H1. destruct (IH _ _ H1) as [k [j [t [N [T E]]]]]. exists (Datatypes.S k), j, t. split; [ exact N | ]. split; [ exact T | ]. rewrite E. unfold start. cbn [firstn code_of]. rewrite zlen_app. f_equal. lia. }
  destruct (target i) as [t|] eqn:T; [ | auto ]. destruct H as [<-|H]; [ | auto ]. exists O, i, t. split; [ reflexivity | ]. split; [ exact T | ]. unfold start at 2. cbn. rewrite Z.add_0_r. reflexivity.
Qed.

Lemma initial_sorted all : forall p o lo, Forall valid p -> lo < o -> sorted_above lo (initial all o p).
Proof.
  induction p as [|i p IH]; intros o lo V L; cbn [initial]; [ exact I | ]. inversion V as [|x y V1 V2]; subst. pose proof (bytes_pos i V1).
  destruct (target i); [ cbn [sorted_above g_orig]; split; [ exact L | apply IH; [ exact V2 | lia ] ] | apply IH; [ exact V2 | lia ] ].
Qed.

Lemma start_ge p k j i : nth_error p k = Some i -> start p k < start p j -> Forall valid p -> start p k + zlen (bytes 0 i) <= start p j.
Proof.
  intros N L V. destruct (Nat.le_gt_cases j k) as [A|A]; [ pose proof (start_mono p j k A); lia | ].
  pose proof (start_mono p (Datatypes.S k) j A). rewrite (start_S p k i N) in H. exact H.
Qed.

Lemma initial_inv p : Forall valid p -> zlen (code_of p) < max_code -> 4 * zlen p < max_code -> inv (initial p 0 p).
Proof.
  intros V L1 L2. assert (One := initial_one p p 0). pose proof (initial_len p p 0) as Ln.
  assert (P : forall x, pos (initial p 0 p) x = x) by (intro x; unfold pos; rewrite grow_one by exact One; lia).
  assert (X : forall e, In e (initial p 0 p) -> gwf e /\ dir (initial p 0 p) e /\ fits (initial p 0 p) e).
  { intros e He. destruct (initial_in p p 0 e He) as [k [i [t [N [T E]]]]]. rewrite Z.add_0_l in E. pose proof (is_jump_target i t T) as J. pose proof (base_range i J) as B. pose proof (bytes_len0 i J) as BL.
    pose proof (start_le p k) as S1. pose proof (start_le p t) as S2. assert (S3 : 0 <= start p k) by (unfold start; lia). assert (S4 : 0 <= start p t) by (unfold start; lia).
    pose proof (fun H => start_ge p k t i N H V) as S5.
    assert (W : gwf e). { rewrite E. unfold gwf. cbn [g_imm g_base g_orig g_tgt]. repeat split; try lia. }
    assert (O : off (initial p 0 p) e = start p t - (start p k + base i + 1)). { unfold off. rewrite !P, E. reflexivity. }
    split; [ exact W | ]. split.
    - unfold dir. rewrite O, E. cbn [g_orig g_tgt]. destruct (start p k <? start p t) eqn:C; lia.
    - unfold fits. rewrite O. rewrite E. cbn [g_imm]. unfold max_code in *. apply simm_range. lia. }
  constructor.
  - apply Forall_forall. intros e He. apply X. exact He.
  - apply initial_sorted; [ exact V | lia ].
  - apply Forall_forall. intros e He. apply X. exact He.
  - apply Forall_forall. intros e He. apply X. exact He.
  - lia.
Qed.

(* the first pass finds the sizes of the instructions *)
Lemma code_nth p k i : nth_error p k = Some i -> Forall valid p -> nth_error (code_of p) (Z.to_nat (start p k)) = nth_error (bytes 0 i) 0.
Proof.
  intros N V. unfold start. rewrite Nat2Z.id. revert k N. induction p as [|j p IH]; intros k N; [ destruct k; discriminate | ].
  inversion V as [|x y V1 V2]; subst. destruct k as [|k]; cbn [nth_error] in N.
  - injection N as ->. cbn [firstn code_of length]. pose proof (bytes_pos i V1). destruct (bytes 0 i) as [|b l] eqn:E; [ cbn in *; lia | ]. reflexivity.
  - cbn [firstn code_of]. rewrite app_length. rewrite nth_error_app2 by lia. replace (length (bytes 0 j) + length (code_of (firstn k p)) - length (bytes 0 j))%nat with (length (code_of (firstn k p))) by lia. apply (IH V2 k N).
Qed.

Lemma rebase_initial p : Forall valid p ->
  Forall2 (rebase (code_of p)) (entries p 0 p) (map (real (initial p 0 p)) (initial p 0 p)).
Proof.
  intro V. assert (One := initial_one p p 0). set (U := initial p 0 p) in *.
  assert (P : forall x, pos U x = x) by (intro x; unfold pos; rewrite grow_one by exact One; lia).
  assert (X : forall q o k, (forall j i, nth_error q j = Some i -> nth_error p (k + j) = Some i) -> o = start p k ->
    Forall2 (rebase (code_of p)) (entries p o q) (map (real U) (initial p o q))).
  { induction q as [|i q IH]; intros o k Hq Ho; cbn [entries initial]; [ constructor | ].
    assert (Ni : nth_error p k = Some i). { specialize (Hq O i eq_refl). rewrite Nat.add_0_r in Hq. exact Hq. }
    assert (R : Forall2 (rebase (code_of p)) (entries p (o + zlen (bytes 0 i)) q) (map (real U) (initial p (o + zlen (bytes 0 i)) q))).
    { apply (IH _ (Datatypes.S k)); [ | rewrite (start_S p k i Ni); lia ]. intros j i' N. specialize (Hq (Datatypes.S j) i' N). rewrite <- Hq. f_equal. lia. }
    destruct (target i) as [t|] eqn:T; [ | exact R ]. cbn [map]. constructor; [ | exact R ].
    split; [ cbn [add_jump j_target]; unfold start; lia | ]. unfold set_base. cbn [add_jump j_target j_orig j_offs j_imm].
    assert (0 <= start p t) by (unfold start; lia). replace (start p t <? 0) with false by lia.
    rewrite Ho, (code_nth p k i Ni V). pose proof (is_jump_target i t T) as J. destruct (pre_head i J) as [op [l [E1 [E2 [E3 E4]]]]]. unfold bytes. rewrite J, E1. cbn [app nth_error].
    unfold real. cbn [g_orig g_tgt g_base g_imm]. rewrite !P, E4. reflexivity. }
  apply (X p 0 O); [ auto | reflexivity ].
Qed.

Lemma update_ok p l fuel : Forall valid p -> zlen (code_of p) < max_code -> 4 * zlen p < max_code -> lines_from 0 l -> (5 * length p < fuel)%nat ->
  exists T, jumps p 0 p T /\ inv T /\ Forall (exact T) T /\
    update_jumps fuel (code_of p) (entries p 0 p) l = Some (final (dists T p T) p, map (move_line T) l).
Proof.
  intros V L1 L2 Hl Hf. set (U := initial p 0 p). pose proof (initial_inv p V L1 L2) as I. fold U in I.
  pose proof (initial_len p p 0) as Ln. fold U in Ln.
  destruct (pass_ok (length U) [] U 0 I) as [U' [t' [P1 [P2 [P3 [P4 [P5 P6]]]]]]]; [ lia | ]. cbn [app map] in *.
  assert (Le : length (entries p 0 p) = length U). { pose proof (rebase_initial p V) as F. fold U in F. clear - F. rewrite <- (map_length (real U) U). induction F; cbn [length]; congruence. }
  pose proof (first_pass (code_of p) (length U) [] _ _ 0 _ (rebase_initial p V) P1) as F1.
  destruct (same_total _ _ P4) as [T1 T2]. pose proof (same_length _ _ P4) as SL.
  pose proof (total_bound U (i_wf _ I)) as B1. pose proof (total_bound U' (i_wf _ P5)) as B2.
  assert (Ht : t' = total U' - total U). { rewrite <- P3 by reflexivity. rewrite P2. apply u32_id. pose proof (i_len _ I). unfold max_code in *. lia. }
  destruct (passes_ok fuel U' t' P5) as [T [Q1 [Q2 [Q3 Q4]]]].
  { intro Z0. assert (Eq : U' = U) by (apply T2; lia). rewrite Eq in *. exact (P6 eq_refl). }
  { lia. }
  exists T. assert (J : jumps p 0 p T). { eapply jumps_same; [ | exact Q2 ]. eapply jumps_same; [ | exact P4 ]. apply initial_jumps. }
  split; [ exact J | ]. split; [ exact Q3 | ]. split; [ exact Q4 | ].
  unfold update_jumps. rewrite Le, F1, Q1.
  apply (write_ok p p 0 [] T [] l 0 J V Q3 Q4); [ intros f [] | | exact Hl | lia | intros f [] ].
  unfold pos. cbn [length app]. rewrite grow_high; [ reflexivity | ]. intros f Hx. pose proof (jumps_above p p V 0 T J f Hx). lia.
Qed.

(* the result is a program again *)
Lemma dists_range T all p : inv T -> forall o Sp, jumps all o p Sp -> (forall e, In e Sp -> In e T) -> Forall (fun d => -134217728 <= d < 134217728) (dists T p Sp).
Proof.
  intro I. induction p as [|i p IH]; intros o Sp H HT; inversion H; subst; cbn [dists]; [ constructor | | ].
  - rewrite (is_jump_none i) by assumption. constructor; [ lia | ]. eapply IH; eassumption.
  - rewrite (is_jump_target i t) by assumption. constructor.
    + assert (In e T) by (apply HT; left; reflexivity). assert (We : gwf e) by (pose proof (i_wf _ I) as W; rewrite Forall_forall in W; auto).
      pose proof (off_range T e (i_wf _ I) We (i_len _ I)). lia.
    + eapply IH; [ eassumption | ]. intros f Hf. apply HT. right. exact Hf.
Qed.

Fixpoint lowered (ds : list Z) (p : list ins) : list (Z * list Z) :=
  match p, ds with i :: p, d :: ds => lower d i :: lowered ds p | _, _ => [] end.
Fixpoint starts (o : Z) (ds : list Z) (p : list ins) : list Z :=
  match p, ds with i :: p, d :: ds => o :: starts (o + zlen (bytes d i)) ds p | _, _ => [] end.

Lemma disasm_ok asserts : forall p ds o fuel, Forall valid p -> length ds = length p -> Forall (fun d => -134217728 <= d < 134217728) ds -> (length p <= fuel)%nat ->
  disasm fuel asserts o (final ds p) = Some (combine (starts o ds p) (lowered ds p)).
Proof.
  induction p as [|i p IH]; intros ds o fuel V L D F; [ destruct ds; [ destruct fuel; reflexivity | discriminate ] | ].
  destruct ds as [|d ds]; [ discriminate | ]. destruct fuel as [|fuel]; [ cbn in F; lia | ]. inversion V as [|x y V1 V2]; subst. inversion D as [|x y D1 D2]; subst.
  cbn [final starts lowered combine]. assert (NE : bytes d i ++ final ds p <> []).
  { intro E. apply app_eq_nil in E. destruct E as [E _]. pose proof (bytes_pos i V1). destruct (is_jump i) eqn:J; [ unfold bytes in E; rewrite J in E; destruct (pre_head i J) as [op [l [E1 _]]]; rewrite E1 in E; discriminate | rewrite (bytes_op d i J) in E; rewrite E in *; cbn in *; lia ]. }
  destruct (bytes d i ++ final ds p) as [|b rest] eqn:Eb; [ congruence | ]. cbn [disasm]. rewrite <- Eb.
  rewrite (read_bytes asserts d i (final ds p) V1 D1). rewrite zlen_app.
  replace (o + (zlen (bytes d i) + zlen (final ds p) - zlen (final ds p))) with (o + zlen (bytes d i)) by lia.
  rewrite (IH ds) by (auto; cbn in *; lia). destruct (lower d i). reflexivity.
Qed.

Lemma starts_nth : forall p ds o k, length ds = length p -> (k < length p)%nat -> nth k (starts o ds p) 0 = o + fstart ds p k.
Proof.
  unfold fstart. induction p as [|i p IH]; intros ds o k L K; [ cbn in K; lia | ]. destruct ds as [|d ds]; [ discriminate | ]. destruct k as [|k]; cbn [starts nth firstn final].
  - cbn. lia.
  - rewrite IH by (cbn in *; lia). rewrite zlen_app. lia.
Qed.
Lemma starts_len : forall p ds o, length ds = length p -> length (starts o ds p) = length p.
Proof. induction p as [|i p IH]; intros ds o L; destruct ds as [|d ds]; try discriminate; [ reflexivity | ]. cbn [starts length]. f_equal. apply IH. cbn in L. lia. Qed.
Lemma lowered_len : forall p ds, length ds = length p -> length (lowered ds p) = length p.
Proof. induction p as [|i p IH]; intros ds L; destruct ds as [|d ds]; try discriminate; [ reflexivity | ]. cbn [lowered length]. f_equal. apply IH. cbn in L. lia. Qed.
Lemma fstart_all ds p : length ds = length p -> fstart ds p (length p) = zlen (final ds p).
Proof. intro L. unfold fstart. rewrite <- L at 1. rewrite !firstn_all. reflexivity. Qed.
