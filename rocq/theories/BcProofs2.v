(* Proofs about the bytecode encoding: sizes of jumps. *)
From Coq Require Import ZArith List Lia Bool ZifyBool.
Import ListNotations.
From Verif Require Import Base BcModel BcSpec BcProofs.
Local Open Scope Z_scope.
Ltac Zify.zify_post_hook ::= idtac.

(* jumps with their original offset and target *)
Record gj := G { g_orig : Z; g_tgt : Z; g_base : Z; g_imm : Z }.

Fixpoint grow (T : list gj) (p : Z) : Z :=
  match T with [] => 0 | e :: T => (if g_orig e <? p then g_imm e - 1 else 0) + grow T p end.
Definition pos (T : list gj) (p : Z) : Z := p + grow T p.
Definition real (T : list gj) (e : gj) : jump := Jump (pos T (g_orig e)) (pos T (g_tgt e)) (g_orig e) (g_base e) (g_imm e).
Definition off (T : list gj) (e : gj) : Z := pos T (g_tgt e) - (pos T (g_orig e) + g_base e + g_imm e).
Fixpoint total (T : list gj) : Z := match T with [] => 0 | e :: T => g_imm e + total T end.

Definition max_code : Z := 33554432. (* 2^25 *)

Definition gwf (e : gj) : Prop :=
  1 <= g_imm e <= 5 /\ 0 <= g_base e <= 3 /\ 0 <= g_orig e < max_code /\ 0 <= g_tgt e < max_code /\
  (g_orig e < g_tgt e -> g_orig e + g_base e + 1 <= g_tgt e).
Definition dir (T : list gj) (e : gj) : Prop := if g_orig e <? g_tgt e then 0 <= off T e else off T e < 0.
Definition fits (T : list gj) (e : gj) : Prop := g_imm e <= get_simm_size (off T e).
Definition exact (T : list gj) (e : gj) : Prop := g_imm e = get_simm_size (off T e).

Fixpoint sorted_above (lo : Z) (T : list gj) : Prop :=
  match T with [] => True | e :: T => lo < g_orig e /\ sorted_above (g_orig e) T end.

Record inv (T : list gj) : Prop := {
  i_wf : Forall gwf T;
  i_sorted : sorted_above (-1) T;
  i_dir : Forall (dir T) T;
  i_fits : Forall (fits T) T;
  i_len : 4 * Z.of_nat (length T) < max_code
}.

Lemma grow_app A B p : grow (A ++ B) p = grow A p + grow B p.
Proof. induction A; cbn [app grow]; lia. Qed.
Lemma total_app A B : total (A ++ B) = total A + total B.
Proof. induction A; cbn [app total]; lia. Qed.

Lemma grow_mono T p q : Forall gwf T -> p <= q -> grow T p <= grow T q.
Proof.
  intros W L. induction W as [|e T [We _] _ IH]; cbn [grow]; [ lia | ].
  destruct (g_orig e <? p) eqn:?; destruct (g_orig e <? q) eqn:?; lia.
Qed.
Lemma grow_bound T p : Forall gwf T -> 0 <= grow T p <= 4 * Z.of_nat (length T).
Proof.
  intro W. induction W as [|e T [We _] _ IH]; cbn [grow length]; [ lia | ]. destruct (g_orig e <? p); lia.
Qed.
Lemma pos_lt T p q : Forall gwf T -> (pos T p <? pos T q) = (p <? q).
Proof.
  intro W. unfold pos. destruct (p <? q) eqn:E.
  - pose proof (grow_mono T p q W). lia.
  - pose proof (grow_mono T q p W). lia.
Qed.

Lemma off_range T e : Forall gwf T -> gwf e -> 4 * Z.of_nat (length T) < max_code -> -67108880 <= off T e < 67108864.
Proof.
  intros W [We1 [We2 [We3 [We4 _]]]] L. unfold off, pos. pose proof (grow_bound T (g_tgt e) W). pose proof (grow_bound T (g_orig e) W). unfold max_code in *. lia.
Qed.

Lemma simm_mono a b : -2147483648 <= b < 2147483648 -> (0 <= a <= b \/ b <= a < 0) -> get_simm_size a <= get_simm_size b.
Proof.
  intros Hb H. rewrite !simm_size by lia. apply size_of_mono. rewrite !encode_val by lia. destruct (a <? 0) eqn:?; destruct (b <? 0) eqn:?; lia.
Qed.
Lemma simm_range a : -2147483648 <= a < 2147483648 -> 1 <= get_simm_size a <= 5.
Proof. intro. rewrite simm_size by lia. apply size_of_range. Qed.

(* an entry with another size *)
Definition with_imm (e : gj) (n : Z) : gj := G (g_orig e) (g_tgt e) (g_base e) n.

Lemma grow_with A e B n p : grow (A ++ with_imm e n :: B) p = grow (A ++ e :: B) p + if g_orig e <? p then n - g_imm e else 0.
Proof. rewrite !grow_app. cbn [grow with_imm g_orig g_imm]. destruct (g_orig e <? p); lia. Qed.

(* distance of the entry itself when its size is n *)
Definition off_n (T : list gj) (e : gj) (n : Z) : Z := if g_orig e <? g_tgt e then off T e else off T e - (n - g_imm e).

Lemma off_with A e B n : off (A ++ with_imm e n :: B) (with_imm e n) = off_n (A ++ e :: B) e n.
Proof.
  unfold off_n, off, pos. cbn [with_imm g_orig g_tgt g_base g_imm]. rewrite !grow_with. rewrite Z.ltb_irrefl. destruct (g_orig e <? g_tgt e); lia.
Qed.

Lemma loop_ok T e : Forall gwf T -> gwf e -> 4 * Z.of_nat (length T) < max_code -> dir T e ->
  forall fuel m, g_imm e <= m <= 5 -> m <= get_simm_size (off_n T e m) -> (6 - m) <= Z.of_nat fuel ->
  exists n, imm_size_loop fuel (real T e) m = Some n /\ m <= n <= 5 /\ n = get_simm_size (off_n T e n).
Proof.
  intros W We L D. pose proof (off_range T e W We L) as R.
  assert (R2 : forall n, g_imm e <= n <= 5 -> -134217760 <= off_n T e n < 134217728).
  { intros n Hn. unfold off_n. destruct We as [We _]. destruct (g_orig e <? g_tgt e); lia. }
  induction fuel as [|fuel IH]; intros m Hm Hs Hf; [ lia | ].
  cbn [imm_size_loop]. cbv zeta. cbn [real j_offs j_target j_imm j_base]. rewrite pos_lt by exact W.
  replace ((if g_orig e <? g_tgt e then pos T (g_tgt e) + (m - g_imm e) else pos T (g_tgt e)) - (pos T (g_orig e) + g_base e + m)) with (off_n T e m).
  2:{ unfold off_n, off. destruct (g_orig e <? g_tgt e); lia. }
  pose proof (R2 m Hm) as Rm. pose proof (simm_range (off_n T e m)) as Rs.
  set (k := get_simm_size (off_n T e m)) in *. replace (k <? m) with false by lia.
  destruct (m <? k) eqn:E.
  - destruct (IH k) as [n [E1 [E2 E3]]].
    + lia.
    + unfold k at 1. apply simm_mono; [ assert (-134217760 <= off_n T e k < 134217728) by (apply R2; lia); lia | ].
      assert (Rk : g_imm e <= k <= 5) by lia. pose proof (R2 k Rk). unfold off_n, dir in *. destruct (g_orig e <? g_tgt e); lia.
    + lia.
    + exists n. split; [ exact E1 | ]. split; [ lia | exact E3 ].
  - exists k. split; [ reflexivity | ]. split; [ lia | ]. replace k with m by lia. unfold k in *. lia.
Qed.

Lemma sorted_in lo T e : sorted_above lo T -> In e T -> lo < g_orig e.
Proof. revert lo. induction T as [|a T IH]; cbn; [ tauto | ]. intros lo [A B] [->|H]; [ exact A | ]. specialize (IH _ B H). lia. Qed.

Lemma sorted_split lo A e B : sorted_above lo (A ++ e :: B) ->
  (forall f, In f A -> g_orig f < g_orig e) /\ (forall f, In f B -> g_orig e < g_orig f).
Proof.
  revert lo. induction A as [|a A IH]; cbn [app sorted_above]; intros lo [X Y].
  - split; [ intros f [] | intros f Hf; exact (sorted_in _ _ _ Y Hf) ].
  - destruct (IH _ Y) as [P Q]. split; [ | exact Q ]. intros f [->|Hf]; [ | auto ]. apply (sorted_in _ _ _ Y). apply in_or_app. right. left. reflexivity.
Qed.

Lemma sorted_with A e B n : forall lo, sorted_above lo (A ++ e :: B) -> sorted_above lo (A ++ with_imm e n :: B).
Proof. induction A as [|a A IH]; cbn [app sorted_above]; intros lo [X Y]; split; auto. Qed.

(* another entry *)
Lemma off_other A e B n f : gwf f -> g_orig f <> g_orig e -> g_imm e <= n ->
  dir (A ++ e :: B) f -> off (A ++ with_imm e n :: B) f = off (A ++ e :: B) f \/
  (if g_orig f <? g_tgt f then off (A ++ e :: B) f <= off (A ++ with_imm e n :: B) f else off (A ++ with_imm e n :: B) f <= off (A ++ e :: B) f).
Proof.
  intros _ N Hn _. unfold off, pos. rewrite !grow_with. destruct (g_orig f <? g_tgt f) eqn:?; destruct (g_orig e <? g_tgt f) eqn:?; destruct (g_orig e <? g_orig f) eqn:?; lia.
Qed.

Lemma step_ok A e B : inv (A ++ e :: B) ->
  exists n, update_jump_offsets (map (real (A ++ e :: B)) A) (real (A ++ e :: B) e) (map (real (A ++ e :: B)) B) =
    Some (map (real (A ++ with_imm e n :: B)) (A ++ [with_imm e n]), map (real (A ++ with_imm e n :: B)) B, n - g_imm e) /\
    g_imm e <= n <= 5 /\ inv (A ++ with_imm e n :: B) /\ exact (A ++ with_imm e n :: B) (with_imm e n).
Proof.
  intros [W So D F L]. set (T := A ++ e :: B) in *.
  assert (Ie : In e T) by (apply in_or_app; right; left; reflexivity).
  assert (We : gwf e) by (rewrite Forall_forall in W; auto).
  assert (De : dir T e) by (rewrite Forall_forall in D; auto).
  assert (Fe : fits T e) by (rewrite Forall_forall in F; auto).
  destruct (loop_ok T e W We L De 6 (g_imm e)) as [n [E1 [E2 E3]]].
  { destruct We as [We _]. lia. }
  { unfold off_n. replace (off T e - (g_imm e - g_imm e)) with (off T e) by lia. unfold fits in Fe. destruct (g_orig e <? g_tgt e); exact Fe. }
  { destruct We as [We _]. lia. }
  exists n. set (T' := A ++ with_imm e n :: B).
  assert (W' : Forall gwf T').
  { apply Forall_app in W. destruct W as [W1 W2]. inversion W2 as [|x y W3 W4]. subst x y. apply Forall_app. split; [ exact W1 | ]. constructor; [ | exact W4 ].
    destruct We as [We1 We2]. split; [ cbn; lia | exact We2 ]. }
  destruct (sorted_split _ _ _ _ So) as [P Q].
  assert (Ne : forall f, In f (A ++ B) -> g_orig f <> g_orig e). { intros f Hf. apply in_app_or in Hf. destruct Hf as [Hf|Hf]; [ specialize (P f Hf) | specialize (Q f Hf) ]; lia. }
  assert (L' : 4 * Z.of_nat (length T') < max_code). { unfold T', T in *. rewrite !app_length in *. cbn [length] in *. exact L. }
  assert (Oe : off T' (with_imm e n) = off_n T e n) by apply off_with.
  assert (Ex : exact T' (with_imm e n)). { unfold exact. rewrite Oe. cbn [with_imm g_imm]. exact E3. }
  assert (Rem : forall f, In f T' -> f = with_imm e n \/ In f (A ++ B)).
  { intros f Hf. apply in_app_or in Hf. destruct Hf as [Hf|[<-|Hf]]; [ right; apply in_or_app; auto | auto | right; apply in_or_app; auto ]. }
  assert (InS : forall f, In f (A ++ B) -> In f T). { intros f Hf. apply in_app_or in Hf. apply in_or_app. destruct Hf; [ left | right; right ]; assumption. }
  assert (De' : dir T' (with_imm e n)).
  { unfold dir. rewrite Oe. cbn [with_imm g_orig g_tgt]. unfold off_n, dir in *. destruct (g_orig e <? g_tgt e); lia. }
  assert (I' : inv T').
  { constructor; [ exact W' | apply (sorted_with A e B n (-1) So) | | | exact L' ].
    - apply Forall_forall. intros f Hf. destruct (Rem f Hf) as [->|Hf2]; [ exact De' | ].
      assert (Df : dir T f) by (rewrite Forall_forall in D; auto). assert (Wf : gwf f) by (rewrite Forall_forall in W; auto).
      pose proof (off_other A e B n f Wf (Ne f Hf2) (proj1 E2) Df) as O. fold T T' in O. unfold dir in *. destruct (g_orig f <? g_tgt f); lia.
    - apply Forall_forall. intros f Hf. destruct (Rem f Hf) as [->|Hf2]; [ unfold fits; unfold exact in Ex; lia | ].
      assert (Df : dir T f) by (rewrite Forall_forall in D; auto). assert (Wf : gwf f) by (rewrite Forall_forall in W; auto).
      assert (Ff : fits T f) by (rewrite Forall_forall in F; auto).
      pose proof (off_other A e B n f Wf (Ne f Hf2) (proj1 E2) Df) as O. fold T T' in O. unfold fits in *.
      apply Z.le_trans with (get_simm_size (off T f)); [ exact Ff | ].
      destruct O as [O|O]; [ rewrite O; lia | ]. pose proof (off_range T' f W' Wf L') as R1. pose proof (off_range T f W Wf L) as R2.
      apply simm_mono; [ lia | ]. unfold dir in Df. destruct (g_orig f <? g_tgt f); lia. }
  split; [ | split; [ exact E2 | split; [ exact I' | exact Ex ] ] ].
  unfold update_jump_offsets, update_imm_size. cbn [real j_imm]. fold (real T e). rewrite E1. cbn [real j_offs j_target j_orig j_base].
  assert (MT : forall f, In f (A ++ [with_imm e n]) -> (if g_orig e <? g_orig f then n - g_imm e else 0) = 0).
  { intros f Hf. apply in_app_or in Hf. destruct Hf as [Hf|[<-|[]]]; [ specialize (P f Hf) | cbn [with_imm g_orig] ]; destruct (g_orig e <? _) eqn:?; lia. }
  assert (GW : forall p, pos T' p = pos T p + if g_orig e <? p then n - g_imm e else 0). { intro p. unfold pos, T', T. rewrite grow_with. lia. }
  assert (MT2 : forall f, In f A \/ f = with_imm e n -> move_target (pos T (g_orig e)) (n - g_imm e) (Jump (pos T (g_orig f)) (pos T (g_tgt f)) (g_orig f) (g_base f) (g_imm f)) = real T' f).
  { intros f Hf. unfold move_target. cbn [j_target j_offs j_orig j_base j_imm]. rewrite pos_lt by exact W. unfold real. rewrite !GW.
    rewrite (MT f) by (apply in_or_app; destruct Hf as [Hf|Hf]; [ left; exact Hf | right; left; auto ]). rewrite Z.add_0_r.
    destruct (g_orig e <? g_tgt f); [ reflexivity | rewrite Z.add_0_r; reflexivity ]. }
  destruct (n - g_imm e =? 0) eqn:E4.
  - assert (Hn : n = g_imm e) by lia. assert (SS : T' = T). { unfold T', T. f_equal. f_equal. destruct e. unfold with_imm. cbn in *. congruence. }
    rewrite SS. rewrite map_app. cbn [map]. unfold real at 3. cbn [with_imm g_orig g_tgt g_base g_imm]. reflexivity.
  - do 3 f_equal.
    + rewrite !map_app. rewrite map_map. f_equal.
      * apply map_ext_in. intros f Hf. unfold real at 1. apply MT2. left. exact Hf.
      * cbn [map]. f_equal. rewrite <- (MT2 (with_imm e n)) by (right; reflexivity). reflexivity.
    + rewrite map_map. apply map_ext_in. intros f Hf. unfold move_both. cbn [real j_offs j_target j_orig j_base j_imm]. unfold move_target. cbn [j_target j_offs j_orig j_base j_imm].
      rewrite pos_lt by exact W. unfold real. rewrite !GW. specialize (Q f Hf). replace (g_orig e <? g_orig f) with true by lia.
      destruct (g_orig e <? g_tgt f); [ reflexivity | rewrite Z.add_0_r; reflexivity ].
Qed.

Lemma u32_u32 a b : u32 (u32 a + b) = u32 (a + b).
Proof. unfold u32, uwrap. apply Z.add_mod_idemp_l. discriminate. Qed.

(* entries keep everything but their size, which does not decrease *)
Definition same (e f : gj) : Prop := g_orig e = g_orig f /\ g_tgt e = g_tgt f /\ g_base e = g_base f /\ g_imm e <= g_imm f.
Lemma same_refl e : same e e.
Proof. unfold same. lia. Qed.
Lemma Forall2_same l : Forall2 same l l.
Proof. induction l; constructor; auto using same_refl. Qed.
Lemma same_total T T' : Forall2 same T T' -> total T <= total T' /\ (total T' = total T -> T' = T).
Proof.
  induction 1 as [|e f T T' [H1 [H2 [H3 H4]]] F [IH1 IH2]]; cbn [total]; [ auto with zarith | ]. split; [ lia | ].
  intro Tq. assert (total T' = total T) by lia. rewrite IH2 by assumption. f_equal. destruct e, f. cbn in *. f_equal; auto; lia.
Qed.
Lemma same_trans S1 S2 S3 : Forall2 same S1 S2 -> Forall2 same S2 S3 -> Forall2 same S1 S3.
Proof.
  intro F. revert S3. induction F as [|e f S1 S2 H F IH]; intros S3 G; inversion G as [|x y u v I1 I2]; subst; constructor; auto.
  unfold same in *. lia.
Qed.

Lemma pass_ok : forall n A B t, inv (A ++ B) -> (length B <= n)%nat ->
  exists T' t', pass n None (map (real (A ++ B)) A) (map (real (A ++ B)) B) t = Some (map (real T') T', t') /\
    u32 t' = u32 (t + (total T' - total (A ++ B))) /\ (u32 t = t -> u32 t' = t') /\
    Forall2 same (A ++ B) T' /\ inv T' /\ (T' = A ++ B -> Forall (exact T') B).
Proof.
  induction n as [|n IH]; intros A B t I L.
  - destruct B as [|b B]; [ | cbn in L; lia ]. exists (A ++ []), t. cbn [map pass]. rewrite app_nil_r in *. split; [ reflexivity | ].
    split; [ f_equal; lia | ]. split; [ auto | ]. split; [ apply Forall2_same | ]. split; [ exact I | constructor ].
  - destruct B as [|e B].
    + exists (A ++ []), t. cbn [map pass]. rewrite app_nil_r in *. split; [ reflexivity | ].
      split; [ f_equal; lia | ]. split; [ auto | ]. split; [ apply Forall2_same | ]. split; [ exact I | constructor ].
    + cbn [map pass]. destruct (step_ok A e B I) as [k [E1 [E2 [I1 X1]]]]. rewrite E1. clear E1.
      assert (Eq : A ++ with_imm e k :: B = (A ++ [with_imm e k]) ++ B) by (rewrite <- app_assoc; reflexivity).
      rewrite Eq in I1, X1 |- *. cbn [length] in L.
      destruct (IH (A ++ [with_imm e k]) B (u32 (t + (k - g_imm e))) I1) as [T' [t' [P1 [P2 [P3 [P4 [P5 P6]]]]]]]; [ lia | ].
      exists T', t'. split; [ exact P1 | ]. split.
      { rewrite P2, u32_u32. f_equal. rewrite !total_app. cbn [total with_imm g_imm]. lia. }
      split. { intros _. apply P3. unfold u32, uwrap. apply Z.mod_mod. discriminate. }
      assert (Sm : Forall2 same (A ++ e :: B) ((A ++ [with_imm e k]) ++ B)).
      { rewrite <- Eq. apply Forall2_app; [ apply Forall2_same | ]. constructor; [ | apply Forall2_same ]. unfold same. cbn [with_imm g_orig g_tgt g_base g_imm]. lia. }
      split; [ exact (same_trans _ _ _ Sm P4) | ]. split; [ exact P5 | ].
      intro Eq2. destruct (same_total _ _ Sm) as [T1 T2]. destruct (same_total _ _ P4) as [T3 T4].
      assert (T5 : total T' = total (A ++ e :: B)) by (rewrite Eq2; reflexivity).
      assert (Eq3 : (A ++ [with_imm e k]) ++ B = A ++ e :: B) by (apply T2; lia).
      assert (Eq4 : with_imm e k = e). { rewrite <- Eq in Eq3. apply app_inv_head in Eq3. injection Eq3. auto. }
      constructor; [ | apply P6; congruence ]. rewrite Eq3, Eq4 in X1. rewrite Eq2. exact X1.
Qed.

Lemma same_length A B : Forall2 same A B -> length A = length B.
Proof. induction 1; cbn [length]; congruence. Qed.

Lemma total_bound T : Forall gwf T -> Z.of_nat (length T) <= total T <= 5 * Z.of_nat (length T).
Proof. induction 1 as [|e T [We _] _ IH]; cbn [total length]; lia. Qed.

Lemma passes_ok : forall fuel T t, inv T -> (t = 0 -> Forall (exact T) T) -> (5 * Z.of_nat (length T) - total T < Z.of_nat fuel) ->
  exists T', passes fuel (map (real T) T) t = Some (map (real T') T') /\ Forall2 same T T' /\ inv T' /\ Forall (exact T') T'.
Proof.
  induction fuel as [|fuel IH]; intros T t I H0 Hf.
  - pose proof (total_bound T (i_wf _ I)). lia.
  - cbn [passes]. destruct (t =? 0) eqn:E.
    + exists T. split; [ reflexivity | ]. split; [ apply Forall2_same | ]. split; [ exact I | apply H0; lia ].
    + destruct (pass_ok (length T) [] T 0 I) as [T' [t' [P1 [P2 [P3 [P4 [P5 P6]]]]]]]; [ lia | ]. cbn [app map] in *. rewrite map_length. rewrite P1.
      destruct (same_total _ _ P4) as [T1 T2]. pose proof (same_length _ _ P4) as L.
      pose proof (total_bound T (i_wf _ I)) as B1. pose proof (total_bound T' (i_wf _ P5)) as B2.
      assert (Ht : t' = total T' - total T).
      { rewrite <- P3 by reflexivity. rewrite P2. apply u32_id. pose proof (i_len _ I). unfold max_code in *. lia. }
      destruct (Z.eq_dec t' 0) as [Z0|N0].
      * rewrite Z0. assert (T' = T) by (apply T2; lia). exists T'. replace (passes fuel (map (real T') T') 0) with (Some (map (real T') T')) by (destruct fuel; reflexivity).
        split; [ reflexivity | ]. split; [ exact P4 | ]. split; [ exact P5 | ]. subst T'. exact (P6 eq_refl).
      * destruct (IH T' t' P5) as [T'' [Q1 [Q2 [Q3 Q4]]]]; [ lia | rewrite <- L; lia | ].
        exists T''. split; [ exact Q1 | ]. split; [ exact (same_trans _ _ _ P4 Q2) | ]. split; assumption.
Qed.

(* the first pass *)
Definition base_of (code : list Z) (e : jump) (b : Z) : Prop :=
  exists opcode, nth_error code (Z.to_nat (j_orig e)) = Some opcode /\ b = (if opcode =? JUMP then 1 else if opcode =? NEXT_JUMP then 3 else 2).

Definition with_base (b : Z) (e : jump) : jump := Jump (j_offs e) (j_target e) (j_orig e) b (j_imm e).

Definition rebase (code : list Z) (e : jump) (f : jump) : Prop := 0 <= j_target e /\ set_base code e = Some f.

Lemma rebase_move code o d e f : 0 <= d -> rebase code e f -> rebase code (move_both o d e) (move_both o d f).
Proof.
  intros Hd [H1 H2]. unfold rebase, set_base in *. destruct (j_target e <? 0) eqn:E; [ discriminate | ].
  destruct (nth_error code (Z.to_nat (j_orig e))) as [op|] eqn:E2; [ | discriminate ]. injection H2 as <-.
  unfold move_both, move_target. cbn [j_target j_offs j_orig j_base j_imm]. destruct (o <? j_target e); cbn [j_target j_offs j_orig j_base j_imm].
  - split; [ lia | ]. replace (j_target e + d <? 0) with false by lia. rewrite E2. reflexivity.
  - split; [ lia | ]. rewrite E, E2. reflexivity.
Qed.

Lemma imm_size_ge fuel e : forall m n, imm_size_loop fuel e m = Some n -> m <= n.
Proof.
  induction fuel as [|fuel IH]; intros m n; cbn [imm_size_loop]; [ discriminate | ]. cbv zeta.
  set (k := get_simm_size _). destruct (k <? m) eqn:?; [ discriminate | ]. destruct (m <? k) eqn:?.
  - intro H. apply IH in H. lia.
  - intro H. injection H as <-. lia.
Qed.

Lemma update_imm_ge e f d : update_imm_size e = Some (f, d) -> 0 <= d.
Proof.
  unfold update_imm_size. generalize 6%nat. intros k E. destruct (imm_size_loop k e (j_imm e)) as [s|] eqn:E2; [ | discriminate ].
  apply some_inj in E. pose proof (f_equal snd E) as Q. cbn [snd] in Q. apply imm_size_ge in E2. lia.
Qed.

Lemma first_pass code : forall n before after after' t r, Forall2 (rebase code) after after' ->
  pass n None before after' t = Some r -> pass n (Some code) before after t = Some r.
Proof.
  induction n as [|n IH]; intros before after after' t r F H.
  - destruct F as [|e f after after' He F]; cbn [pass] in *; [ exact H | discriminate ].
  - destruct F as [|e f after after' He F]; cbn [pass] in *; [ exact H | ]. destruct He as [He1 He2]. rewrite He2.
    unfold update_jump_offsets in *. destruct (update_imm_size f) as [[f' d]|] eqn:E; [ | discriminate ].
    assert (Hd : 0 <= d) by exact (update_imm_ge _ _ _ E). clear E.
    destruct (d =? 0).
    + exact (IH _ _ _ _ _ F H).
    + refine (IH _ _ _ _ _ _ H). clear - F Hd. induction F; cbn [map]; constructor; auto using rebase_move.
Qed.
