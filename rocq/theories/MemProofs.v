(* Proofs about memory pools. *)
From Coq Require Import ZArith List Lia Bool ZifyBool.
Import ListNotations.
From Verif Require Import Base MemModel MemSpec MemCalls.
Local Open Scope Z_scope.
Ltac Zify.zify_post_hook ::= idtac.

Lemma mask_down k x : 0 <= k < 32 -> 0 <= x < 2 ^ 32 -> Z.land x (u32 (Z.lnot (Z.ones k))) = x / 2 ^ k * 2 ^ k.
Proof.
  intros K H. unfold u32, uwrap. rewrite <- Z.land_ones by lia. rewrite Z.land_assoc. change (Z.land x (Z.lnot (Z.ones k))) with (Z.land x (Z.lnot (Z.ones k))).
  rewrite <- Z.ldiff_land. rewrite Z.ldiff_ones_r by lia. rewrite Z.land_ones by lia. rewrite Z.shiftl_mul_pow2, Z.shiftr_div_pow2 by lia.
  apply Z.mod_small. pose proof (Z.mul_div_le x (2 ^ k)). pose proof (Z.div_pos x (2 ^ k)). pose proof (Z.pow_pos_nonneg 2 k). nia.
Qed.
Lemma round8 n : 0 <= n < 2 ^ 32 - 7 -> let s := Z.land (u64 (n + 7)) (u32 (Z.lnot 7)) in n <= s < n + 8 /\ s mod 8 = 0 /\ 0 <= s < 2 ^ 32.
Proof.
  intros H s. subst s. assert (U : u64 (n + 7) = n + 7) by (unfold u64, uwrap; apply Z.mod_small; change (2 ^ 32) with 4294967296 in *; change (2 ^ 64) with 18446744073709551616; lia).
  rewrite U. pose proof (mask_down 3 (n + 7) ltac:(lia) ltac:(lia)) as Q. change (Z.ones 3) with 7 in Q. change (2 ^ 3) with 8 in Q. rewrite Q.
  rewrite Z.mod_mul by lia. pose proof (Z.div_mod (n + 7) 8). pose proof (Z.mod_pos_bound (n + 7) 8). lia.
Qed.
Lemma round1024 n : 0 < n < 2 ^ 32 - 1023 -> let s := Z.land (u64 (n + 1023)) (u32 (Z.lnot 1023)) in n <= s /\ s mod 8 = 0 /\ 1024 <= s < 2 ^ 32.
Proof.
  intros H s. subst s. assert (U : u64 (n + 1023) = n + 1023) by (unfold u64, uwrap; apply Z.mod_small; change (2 ^ 32) with 4294967296 in *; change (2 ^ 64) with 18446744073709551616; lia).
  rewrite U. pose proof (mask_down 10 (n + 1023) ltac:(lia) ltac:(lia)) as Q. change (Z.ones 10) with 1023 in Q. change (2 ^ 10) with 1024 in Q. rewrite Q.
  replace ((n + 1023) / 1024 * 1024) with ((n + 1023) / 1024 * 128 * 8) by lia.
  rewrite Z.mod_mul by lia. pose proof (Z.div_mod (n + 1023) 1024). pose proof (Z.mod_pos_bound (n + 1023) 1024). lia.
Qed.

Fixpoint chain (next : Z -> Z) (buf : Z) (L : list Z) : Prop :=
  match L with [] => buf = 0 | x :: L => buf = x /\ x <> 0 /\ chain next (next x) L end.

Definition pb (h : heap) (x s : Z) : Prop := In (Block x s true) (blocks h).

Record Inv (h : heap) (p : pool) (g : list (Z * Z)) (L : list Z) : Prop := {
  i_disj : pairwise disjoint (used h);
  i_pos : Forall (fun b => 0 < b_addr b /\ 0 <= b_size b) (blocks h);
  i_chain : chain (next_of h) (buffers p) L;
  i_nodup : NoDup L;
  i_in : forall x, In x L -> exists s, pb h x s /\ 16 <= s /\ x mod 16 = 0;
  i_all : forall x s, pb h x s -> In x L;
  i_free8 : 0 <= free_size p /\ free_size p mod 8 = 0 /\ next_free p mod 8 = 0;
  i_free : (next_free p = 0 /\ free_size p = 0) \/
           (exists s, pb h (buffers p) s /\ buffers p + 8 <= next_free p /\ next_free p + free_size p <= buffers p + s);
  i_given : forall o n, In (o, n) g -> 0 <= n /\ o mod 8 = 0 /\ exists x s, pb h x s /\ x + 8 <= o /\ o + n <= x + s;
  i_given_free : forall y, In y g -> next_free p <> 0 -> disjoint y (next_free p, free_size p);
  i_given_disj : pairwise disjoint g }.

Lemma disjoint_sym x y : disjoint x y -> disjoint y x.
Proof. unfold disjoint. tauto. Qed.
Lemma pairwise_in {A} (R : A -> A -> Prop) (l : list A) : (forall x y, R x y -> R y x) -> pairwise R l -> forall x y, In x l -> In y l -> x = y \/ R x y.
Proof.
  intros Sy. induction l as [|a l IH]; [ intros _ x y [] | ]. intros [F P] x y Hx Hy. rewrite Forall_forall in F.
  destruct Hx as [<-|Hx], Hy as [<-|Hy]; auto.
Qed.
Lemma pairwise_map_filter {A B} (R : B -> B -> Prop) (f : A -> B) q l : pairwise R (map f l) -> pairwise R (map f (filter q l)).
Proof.
  induction l as [|a l IH]; cbn [map filter pairwise]; [ auto | ]. intros [F P]. destruct (q a); [ | auto ]. cbn [map pairwise]. split; [ | auto ].
  rewrite Forall_forall in *. intros x Hx. apply F. apply in_map_iff in Hx as [y [<- Hy]]. apply filter_In in Hy as [Hy _]. apply in_map. exact Hy.
Qed.

(* two live blocks are equal or apart *)
Lemma blocks_apart h : pairwise disjoint (used h) -> forall b c, In b (blocks h) -> In c (blocks h) -> b_addr b = b_addr c \/ disjoint (range b) (range c).
Proof.
  intros P b c Hb Hc. destruct (pairwise_in disjoint (used h) disjoint_sym P (range b) (range c) ltac:(apply in_map; auto) ltac:(apply in_map; auto)) as [E|D]; [ left | auto ].
  unfold range in E. congruence.
Qed.
Lemma same_addr h : pairwise disjoint (used h) -> forall b c, In b (blocks h) -> In c (blocks h) -> b_addr b = b_addr c -> b = c.
Proof.
  unfold used. induction (blocks h) as [|a l IH]; [ intros _ b c [] | ]. cbn [map pairwise]. intros [F P] b c Hb Hc E. rewrite Forall_forall in F.
  assert (X : forall d, In d l -> b_addr a = b_addr d -> False).
  { intros d Hd Ed. specialize (F (range d) ltac:(apply in_map; auto)). unfold disjoint, range in F. cbn [fst snd] in F. lia. }
  destruct Hb as [<-|Hb], Hc as [<-|Hc]; auto; exfalso; eapply X; eauto.
Qed.

Lemma acc_in h b n : In b (blocks h) -> n <= b_size b -> accessible h (b_addr b) n = true.
Proof. intros Hb Hn. unfold accessible. apply existsb_exists. exists b. split; [ exact Hb | lia ]. Qed.

Lemma chain_ext next next' buf L : (forall x, In x L -> next' x = next x) -> chain next buf L -> chain next' buf L.
Proof.
  revert buf. induction L as [|x L IH]; cbn [chain]; intros buf H C; [ exact C | ]. destruct C as [-> [N C]]. split; [ auto | split; [ auto | ] ].
  rewrite (H x (or_introl eq_refl)). apply IH; [ | exact C ]. intros y Hy. apply H. right. exact Hy.
Qed.

(* a new block is apart from all live blocks *)
Lemma fresh h n a : malloc_ok (used h) n a -> a <> 0 -> 0 < a /\ a mod 16 = 0 /\ forall b, In b (blocks h) -> disjoint (a, Z.max n 1) (range b).
Proof.
  intros [->|[P [A [_ F]]]] N; [ contradiction | ]. split; [ exact P | ]. split; [ exact A | ]. intros b Hb. rewrite Forall_forall in F. apply F. apply in_map. exact Hb.
Qed.

Lemma mod16_8 a : a mod 16 = 0 -> a mod 8 = 0 /\ (a + 8) mod 8 = 0 /\ (a + 16) mod 8 = 0.
Proof. intro H. apply Z.mod_divide in H; [ | lia ]. destruct H as [k ->]. repeat split; apply Z.mod_divide; try lia; [ exists (2 * k) | exists (2 * k + 1) | exists (2 * k + 2) ]; lia. Qed.
Lemma add_mod8 a b : a mod 8 = 0 -> b mod 8 = 0 -> (a + b) mod 8 = 0 /\ (a - b) mod 8 = 0.
Proof. intros H1 H2. apply Z.mod_divide in H1; [ | lia ]. apply Z.mod_divide in H2; [ | lia ]. destruct H1 as [k ->], H2 as [j ->]. split; apply Z.mod_divide; try lia; [ exists (k + j) | exists (k - j) ]; lia. Qed.

(* taking from the free part *)
Lemma take_inv h p g L size n : Inv h p g L -> buffers p <> 0 -> 0 <= n <= size -> size <= free_size p -> size mod 8 = 0 ->
  exists p', take h p size = Some (h, p', next_free p) /\ Inv h p' (if next_free p =? 0 then g else (next_free p, n) :: g) L /\
  (size <> 0 -> next_free p <> 0).
Proof.
  intros I B N S8 M. unfold take. replace (size <=? free_size p) with true by lia. eexists. split; [ reflexivity | ].
  destruct I as [I1 I2 I3 I4 I5 I6 [I7 [I7b I7c]] I8 I9 I10 I11].
  assert (P : forall x s, pb h x s -> 0 < x). { intros x s Hx. rewrite Forall_forall in I2. specialize (I2 _ Hx). cbn in I2. lia. }
  destruct I8 as [[Z1 Z2]|[s [B1 [B2 B3]]]].
  - assert (size = 0) by lia. subst size. split; [ | lia ]. rewrite Z1. cbn [Z.eqb]. rewrite Z2, Z.sub_0_r, Z.add_0_r. rewrite Z1, Z2 in *. constructor; auto; cbn; auto.
  - pose proof (P _ _ B1) as Px. replace (next_free p =? 0) with false by lia. split; [ | lia ].
    destruct (add_mod8 (next_free p) size I7c M) as [M1 _]. destruct (add_mod8 (free_size p) size I7b M) as [_ M2].
    constructor; cbn [free_size next_free buffers]; auto.
    + split; [ lia | auto ].
    + right. exists s. split; [ exact B1 | lia ].
    + intros o k [E|Hk]; [ inversion E; subst; split; [ lia | split; [ exact I7c | exists (buffers p), s; split; [ exact B1 | lia ] ] ] | auto ].
    + intros y [<-|Hy] _; [ left; cbn; lia | ]. specialize (I10 y Hy ltac:(lia)). unfold disjoint in *. cbn [fst snd] in *. lia.
    + cbn [pairwise]. split; [ | exact I11 ]. rewrite Forall_forall. intros y Hy. specialize (I10 y Hy ltac:(lia)). destruct y as [o k]. specialize (I9 o k Hy) as [K _]. unfold disjoint in *. cbn [fst snd] in *. lia.
Qed.

(* a new small buffer in front of the chain *)
Lemma new_buf_inv h p g L a n m : Inv h p g L -> malloc_ok (used h) n a -> a <> 0 -> 16 <= n -> m = n - 8 -> m mod 8 = 0 ->
  exists h', set_next (Heap (Block a n true :: blocks h) (next_of h)) a (buffers p) = Some h' /\
  blocks h' = Block a n true :: blocks h /\ Inv h' (Pool m (a + 8) a) g (a :: L).
Proof.
  intros I A N Hn -> M. destruct (fresh h n a A N) as [A1 [A2 A3]].
  destruct I as [I1 I2 I3 I4 I5 I6 I7 I8 I9 I10 I11].
  unfold set_next. pose proof (acc_in (Heap (Block a n true :: blocks h) (next_of h)) (Block a n true) 8 (or_introl eq_refl) ltac:(cbn; lia)) as Q. cbn [b_addr] in Q. rewrite Q.
  cbn [blocks next_of]. eexists. split; [ reflexivity | ]. split; [ reflexivity | ].
  assert (NL : ~ In a L). { intro H. apply I5 in H as [s [H1 [H2 _]]]. specialize (A3 _ H1). unfold disjoint, range in A3. cbn [fst snd b_addr b_size] in A3. lia. }
  constructor; cbn [free_size next_free buffers blocks next_of]; auto.
  - unfold used. cbn [blocks map pairwise]. split; [ | exact I1 ]. rewrite Forall_forall. intros x Hx. apply in_map_iff in Hx as [b [<- Hb]]. unfold range at 1. cbn [b_addr b_size]. apply A3. exact Hb.
  - constructor; [ cbn; lia | exact I2 ].
  - cbn [chain]. split; [ reflexivity | ]. split; [ lia | ]. rewrite Z.eqb_refl. eapply chain_ext; [ | exact I3 ]. intros x Hx. cbn. destruct (Z.eqb_spec x a) as [->|]; [ contradiction | reflexivity ].
  - constructor; assumption.
  - intros x [<-|Hx]; [ exists n; split; [ left; reflexivity | auto ] | ]. destruct (I5 x Hx) as [s [H1 H2]]. exists s. split; [ right; exact H1 | exact H2 ].
  - intros x s [E|H]; [ inversion E; subst; left; reflexivity | right; eapply I6; exact H ].
  - split; [ lia | ]. split; [ exact M | apply mod16_8; exact A2 ].
  - right. exists n. split; [ left; reflexivity | ]. lia.
  - intros o k Hk. destruct (I9 o k Hk) as [K [K2 [x [s [K3 K4]]]]]. split; [ exact K | ]. split; [ exact K2 | ]. exists x, s. split; [ right; exact K3 | exact K4 ].
  - intros [o k] Hk _. destruct (I9 o k Hk) as [K [K2 [x [s [K3 K4]]]]]. specialize (A3 _ K3). unfold disjoint, range in *. cbn [fst snd b_addr b_size] in *. lia.
Qed.

Lemma destroy_ok h p g L : Inv h p g L -> exists h', mempool_destroy (length L) h (buffers p) = Some h' /\ blocks h' = filter (fun b => negb (b_pool b)) (blocks h).
Proof.
  intros [I1 I2 I3 I4 I5 I6 _ _ _ _ _]. clear g. revert I3. generalize (buffers p). clear p.
  assert (P0 : forall x s, pb h x s -> 0 < x). { intros x s Hx. rewrite Forall_forall in I2. specialize (I2 _ Hx). cbn in I2. lia. }
  assert (SA : forall b c, In b (blocks h) -> In c (blocks h) -> b_addr b = b_addr c -> b = c) by (apply same_addr; exact I1).
  assert (I5' : forall x, In x L -> exists s, pb h x s /\ 16 <= s) by (intros x Hx; destruct (I5 x Hx) as [s Hs]; exists s; tauto).
  clear I1 I2 I5. revert h I6 P0 SA I5'. induction L as [|x L IH]; intros h I6 P0 SA I5 buf C; cbn [mempool_destroy length chain] in *.
  - subst buf. cbn. exists h. split; [ reflexivity | ]. assert (X : forall b, In b (blocks h) -> b_pool b = false).
    { intros [a n []] Hb; [ destruct (I6 a n Hb) | reflexivity ]. }
    clear - X. induction (blocks h) as [|b l IHl]; [ reflexivity | ]. cbn [filter]. rewrite (X b) by (left; reflexivity). cbn [negb]. rewrite <- IHl by (intros; apply X; right; assumption). reflexivity.
  - destruct C as [-> [N C]]. replace (x =? 0) with false by lia. destruct (I5 x (or_introl eq_refl)) as [s [H1 H2]].
    pose proof (acc_in h (Block x s true) 8 H1 ltac:(cbn; lia)) as Q. cbn [b_addr] in Q. unfold get_next. rewrite Q. unfold free.
    replace (existsb (fun b => b_addr b =? x) (blocks h)) with true by (symmetry; apply existsb_exists; exists (Block x s true); split; [ exact H1 | cbn; apply Z.eqb_refl ]).
    set (h' := Heap (filter (fun b => negb (b_addr b =? x)) (blocks h)) (next_of h)). apply NoDup_cons_iff in I4 as [N1 N2].
    assert (F : forall b, In b (blocks h') <-> In b (blocks h) /\ b_addr b <> x). { intro b. unfold h'. cbn [blocks]. rewrite filter_In. destruct (Z.eqb_spec (b_addr b) x); cbn [negb]; intuition congruence. }
    destruct (IH N2 h') with (z := next_of h x) as [h2 [E1 E2]].
    + intros y t Hy. unfold pb in Hy. apply F in Hy as [Hy1 Hy2]. cbn in Hy2. destruct (I6 y t Hy1) as [QQ|QQ]; [ congruence | exact QQ ].
    + intros y t Hy. apply F in Hy as [Hy _]. eapply P0; exact Hy.
    + intros b c Hb Hc. apply F in Hb as [Hb _]. apply F in Hc as [Hc _]. apply SA; assumption.
    + intros y Hy. destruct (I5 y (or_intror Hy)) as [t [T1 T2]]. exists t. split; [ apply F; split; [ exact T1 | cbn; intros ->; contradiction ] | exact T2 ].
    + exact C.
    + exists h2. split; [ exact E1 | ]. rewrite E2. unfold h'. cbn [blocks].
      assert (X : forall b, In b (blocks h) -> b_addr b = x -> b_pool b = true). { intros b Hb E. rewrite (SA b (Block x s true) Hb H1 E). reflexivity. }
      clear - X. induction (blocks h) as [|b l IHl]; [ reflexivity | ]. cbn [filter]. destruct (b_addr b =? x) eqn:E; cbn [negb].
      * rewrite (X b) by (try (left; reflexivity); lia). cbn [negb]. apply IHl. intros; apply X; [ right | ]; assumption.
      * cbn [filter]. rewrite IHl by (intros; apply X; [ right | ]; assumption). reflexivity.
Qed.

Lemma large_inv h p g L m size n : Inv h p g L -> fair h m -> 0 <= n <= size -> 0 < size < 2 ^ 32 -> free_size p < size ->
  exists h' p' obj L', alloc_large m h p size = Some (h', p', obj) /\ Inv h' p' (if obj =? 0 then g else (obj, n) :: g) L' /\
  (m (size + 16) <> 0 -> obj <> 0).
Proof.
  intros I Fm Hn Hs Hf. unfold alloc_large. assert (U : u64 (size + 16) = size + 16) by (unfold u64, uwrap; apply Z.mod_small; change (2 ^ 32) with 4294967296 in *; change (2 ^ 64) with 18446744073709551616; lia).
  rewrite U. unfold malloc. specialize (Fm (size + 16)). set (a := m (size + 16)) in *. clearbody a.
  destruct (Z.eqb_spec a 0) as [E|N]. { exists h, p, 0, L. cbn. split; [ reflexivity | ]. split; [ exact I | lia ]. }
  replace (a =? 0) with false by lia. cbv beta iota. destruct (fresh h (size + 16) a Fm N) as [A1 [A2 A3]]. destruct I as [I1 I2 I3 I4 I5 I6 I7 I8 I9 I10 I11].
  assert (NL : ~ In a L). { intro H. apply I5 in H as [s [H1 [H2 _]]]. specialize (A3 _ H1). unfold disjoint, range in A3. cbn [fst snd b_addr b_size] in A3. lia. }
  set (hb := Block a (size + 16) true).
  assert (D1 : pairwise disjoint (map range (hb :: blocks h))).
  { cbn [map pairwise]. split; [ | exact I1 ]. rewrite Forall_forall. intros x Hx. apply in_map_iff in Hx as [b [<- Hb]]. unfold hb, range at 1. cbn [b_addr b_size]. apply A3. exact Hb. }
  assert (D2 : Forall (fun b => 0 < b_addr b /\ 0 <= b_size b) (hb :: blocks h)). { constructor; [ cbn; lia | exact I2 ]. }
  assert (Aa : forall nx, accessible (Heap (hb :: blocks h) nx) a 8 = true). { intro nx. apply (acc_in (Heap (hb :: blocks h) nx) hb 8); [ left; reflexivity | cbn; lia ]. }
  assert (GV : forall o k, In (o, k) ((a + 16, n) :: g) -> 0 <= k /\ o mod 8 = 0 /\ exists x s, In (Block x s true) (hb :: blocks h) /\ x + 8 <= o /\ o + k <= x + s).
  { intros o k [E|Hk]. - inversion E; subst. split; [ lia | ]. split; [ apply mod16_8; exact A2 | ]. exists a, (size + 16). split; [ left; reflexivity | lia ].
    - destruct (I9 o k Hk) as [K [K2 [x [s [K3 K4]]]]]. split; [ exact K | ]. split; [ exact K2 | ]. exists x, s. split; [ right; exact K3 | exact K4 ]. }
  assert (GD : pairwise disjoint ((a + 16, n) :: g)).
  { cbn [pairwise]. split; [ | exact I11 ]. rewrite Forall_forall. intros [o k] Hk. destruct (I9 o k Hk) as [K [K2 [x [s [K3 K4]]]]]. specialize (A3 _ K3). unfold disjoint, range in *. cbn [fst snd b_addr b_size] in *. lia. }
  replace (a + 16 =? 0) with false by lia.
  destruct L as [|x L]; cbn [chain] in I3.
  - rewrite I3. cbn [Z.eqb negb]. unfold set_next. rewrite Aa. exists (Heap (hb :: blocks h) (fun a0 => if a0 =? a then 0 else next_of h a0)), (Pool 0 (next_free p) a), (a + 16), [a]. split; [ reflexivity | ]. split; [ | lia ].
    replace (a + 16 =? 0) with false by lia.
    assert (Z0 : next_free p = 0 /\ free_size p = 0). { destruct I8 as [?|[s [B1 _]]]; [ auto | ]. rewrite I3 in B1. destruct (I6 _ _ B1). }
    constructor; cbn [free_size next_free buffers blocks next_of]; auto.
    + cbn [chain]. rewrite Z.eqb_refl. auto.
    + constructor; [ intros [] | constructor ].
    + intros y [<-|[]]. exists (size + 16). split; [ left; reflexivity | ]. split; [ lia | exact A2 ].
    + intros y s [E|H]; [ inversion E; subst; left; reflexivity | destruct (I6 y s H) ].
    + split; [ lia | ]. split; [ reflexivity | tauto ].
    + left. tauto.
    + intros y Hy F0. tauto.
  - destruct I3 as [E [N0 C]]. rewrite E in *. replace (x =? 0) with false by lia. cbn [negb]. destruct (I5 x (or_introl eq_refl)) as [s [X1 [X2 X3]]].
    assert (Ax : forall nx, accessible (Heap (hb :: blocks h) nx) x 8 = true). { intro nx. apply (acc_in (Heap (hb :: blocks h) nx) (Block x s true) 8); [ right; exact X1 | cbn; lia ]. }
    assert (Nax : a <> x) by (intros ->; apply NL; left; reflexivity).
    unfold get_next, set_next. rewrite Ax, Aa. cbn [blocks next_of]. rewrite Ax. eexists _, p, (a + 16), (x :: a :: L). split; [ reflexivity | ]. split; [ | lia ]. replace (a + 16 =? 0) with false by lia.
    apply NoDup_cons_iff in I4 as [N1 N2].
    constructor; cbn [blocks next_of]; auto.
    + rewrite E. cbn [chain]. split; [ reflexivity | ]. split; [ exact N0 | ]. rewrite Z.eqb_refl. split; [ reflexivity | ]. split; [ exact N | ]. replace (a =? x) with false by lia. rewrite Z.eqb_refl.
      eapply chain_ext; [ | exact C ]. intros y Hy. cbn. destruct (Z.eqb_spec y x) as [->|]; [ contradiction | ]. destruct (Z.eqb_spec y a) as [->|]; [ exfalso; apply NL; right; exact Hy | reflexivity ].
    + constructor; [ | constructor; [ intro Q; apply NL; right; exact Q | exact N2 ] ]. intros [Q|Q]; [ congruence | contradiction ].
    + intros y [<-|[<-|Hy]]; [ exists s; split; [ right; exact X1 | auto ] | exists (size + 16); split; [ left; reflexivity | split; [ lia | exact A2 ] ] | ].
      destruct (I5 y (or_intror Hy)) as [t [T1 T2]]. exists t. split; [ right; exact T1 | exact T2 ].
    + intros y t [Q|Q]; [ inversion Q; subst; right; left; reflexivity | ]. destruct (I6 y t Q) as [<-|Q2]; [ left; reflexivity | right; right; exact Q2 ].
    + rewrite E. destruct I8 as [?|[t [B1 B2]]]; [ left; auto | right; exists t; split; [ right; exact B1 | exact B2 ] ].
    + intros y [<-|Hy] NF; [ | auto ]. destruct I8 as [?|[t [B1 B2]]]; [ tauto | ]. specialize (A3 _ B1). unfold disjoint, range in *. cbn [fst snd b_addr b_size] in *. lia.
Qed.

Lemma alloc_inv h p g L m n : Inv h p g L -> fair h m -> 0 <= n < 2 ^ 32 - 7 ->
  exists h' p' obj L', mempool_alloc m h p n = Some (h', p', obj) /\ Inv h' p' (if obj =? 0 then g else (obj, n) :: g) L' /\
  ((forall k, m k <> 0) -> 0 < n -> obj <> 0).
Proof.
  intros I Fm Hn. destruct (round8 n Hn) as [R1 [R2 R3]]. unfold mempool_alloc. set (size := Z.land (u64 (n + 7)) (u32 (Z.lnot 7))) in *. clearbody size.
  destruct (free_size p <? size) eqn:F.
  - pose proof (i_free8 _ _ _ _ I) as [F0 _]. destruct (BUF_ALLOC_SIZE / 16 <? size) eqn:Lg.
    + destruct (large_inv h p g L m size n I Fm ltac:(lia) ltac:(lia) ltac:(lia)) as [h' [p' [obj [L' [E1 [E2 E3]]]]]]. exists h', p', obj, L'. split; [ exact E1 | ]. split; [ exact E2 | ]. intros M _. apply E3. apply M.
    + change (BUF_ALLOC_SIZE / 16) with 4096 in Lg. unfold malloc. destruct (Z.eqb_spec (m BUF_ALLOC_SIZE) 0) as [E|N].
      * exists h, p, 0, L. cbn. split; [ reflexivity | ]. split; [ exact I | ]. intros M. contradiction (M BUF_ALLOC_SIZE).
      * destruct (new_buf_inv h p g L (m BUF_ALLOC_SIZE) BUF_ALLOC_SIZE (BUF_ALLOC_SIZE - 16 + 8) I (Fm _) N) as [h' [E1 [E2 E3]]]; [ unfold BUF_ALLOC_SIZE; lia | reflexivity | reflexivity | ].
        rewrite E1. destruct (take_inv h' _ g _ size n E3) as [p' [T1 [T2 T3]]]; cbn [buffers free_size next_free] in *; auto; try lia; try (unfold BUF_ALLOC_SIZE; lia).
        rewrite T1. eexists _, _, _, _. split; [ reflexivity | ]. split; [ exact T2 | ]. intros _ Q. apply T3. lia.
  - destruct (Z.eqb_spec (buffers p) 0) as [E|N].
    + exists h, p, 0, L. cbn. split; [ reflexivity | ]. split; [ exact I | ]. intros _ Q. exfalso.
      destruct (i_free _ _ _ _ I) as [[? ?]|[s [B1 _]]]; [ lia | ]. pose proof (i_pos _ _ _ _ I) as P. rewrite Forall_forall in P. specialize (P _ B1). cbn in P. lia.
    + destruct (take_inv h p g L size n I N ltac:(lia) ltac:(lia) R2) as [p' [T1 [T2 T3]]]. eexists _, _, _, _. split; [ exact T1 | ]. split; [ exact T2 | ]. intros _ Q. apply T3. lia.
Qed.

Lemma init_inv h : pairwise disjoint (used h) -> Forall (fun b => 0 < b_addr b /\ 0 <= b_size b /\ b_pool b = false) (blocks h) -> Inv h mempool_init [] [].
Proof.
  intros P F. constructor; try exact P; try (intros x [] ; fail) ; try (intros x y []; fail).
  - eapply Forall_impl; [ | exact F ]. cbv beta. intros b Hb; tauto.
  - reflexivity.
  - constructor.
  - intros y s H. rewrite Forall_forall in F. specialize (F _ H). cbn in F. intuition discriminate.
  - cbn. auto with zarith.
  - left. split; reflexivity.
  - constructor.
Qed.

Lemma small_inv h m n : Inv h mempool_init [] [] -> fair h m -> 0 < n < 2 ^ 32 - 1023 -> exists h' p' L, mempool_init_small m h n = Some (h', p') /\ Inv h' p' [] L.
Proof.
  intros I Fm Hn. destruct (round1024 n Hn) as [R1 [R2 R3]]. unfold mempool_init_small. set (size := Z.land (u64 (n + 1023)) (u32 (Z.lnot 1023))) in *. clearbody size. unfold malloc.
  destruct (Z.eqb_spec (m size) 0) as [E|N].
  - exists h, mempool_init, []. split; [ reflexivity | exact I ].
  - assert (M8 : (size - 8) mod 8 = 0) by (apply (add_mod8 size 8 R2 eq_refl)).
    destruct (new_buf_inv h mempool_init [] [] (m size) size (size - 8) I (Fm _) N ltac:(lia) eq_refl M8) as [h' [E1 [E2 E3]]]. cbn [buffers mempool_init] in E1. rewrite E1.
    assert (U : u64 (size - 16 + 8) = size - 8) by (unfold u64, uwrap; rewrite Z.mod_small; [ lia | change (2 ^ 32) with 4294967296 in *; change (2 ^ 64) with 18446744073709551616; lia ]). rewrite U. eauto.
Qed.

Lemma reach_inv h p g : reachable h p g -> exists L, Inv h p g L.
Proof.
  induction 1 as [h P F|h g n m h' p' R IH Eg NP Fm Hn E|h p g n m h' p' obj R IH Fm Hn E|h p g n a R IH Hn A N|h p g a n R IH Hb|h p g x k next R IH Hk Own Same].
  - exists []. apply init_inv; assumption.
  - destruct IH as [L I]. subst g. assert (L = []). { destruct L as [|x L]; [ reflexivity | ]. destruct (i_in _ _ _ _ I x (or_introl eq_refl)) as [s [X _]]. specialize (NP _ X). discriminate. } subst L.
    destruct (small_inv h m n I Fm Hn) as [h2 [p2 [L [E2 I2]]]]. rewrite E in E2. injection E2 as <- <-. eauto.
  - destruct IH as [L I]. destruct (alloc_inv h p g L m n I Fm Hn) as [h2 [p2 [o2 [L2 [E2 [I2 _]]]]]]. rewrite E in E2. injection E2 as <- <- <-. eauto.
  - destruct IH as [L [I1 I2 I3 I4 I5 I6 I7 I8 I9 I10 I11]]. destruct (fresh h n a A N) as [A1 [A2 A3]]. exists L.
    constructor; cbn [blocks next_of]; auto.
    + unfold used. cbn [blocks map pairwise]. split; [ | exact I1 ]. rewrite Forall_forall. intros x Hx. apply in_map_iff in Hx as [b [<- Hb]]. apply A3. exact Hb.
    + intros x Hx. destruct (I5 x Hx) as [s [X1 X2]]. exists s. split; [ right; exact X1 | exact X2 ].
    + intros x s [Q|Q]; [ discriminate | eapply I6; exact Q ].
    + destruct I8 as [?|[s [B1 B2]]]; [ auto | right; exists s; split; [ right; exact B1 | exact B2 ] ].
    + intros o k Hk. destruct (I9 o k Hk) as [K [K2 [x [s [K3 K4]]]]]. split; [ exact K | ]. split; [ exact K2 | ]. exists x, s. split; [ right; exact K3 | exact K4 ].
  - destruct IH as [L [I1 I2 I3 I4 I5 I6 I7 I8 I9 I10 I11]]. exists L.
    assert (K : forall x s, pb (Heap (filter (fun b => negb (b_addr b =? a)) (blocks h)) (next_of h)) x s <-> pb h x s).
    { intros x s. unfold pb. cbn [blocks]. rewrite filter_In. cbn [b_addr]. split; [ tauto | ]. intro Q. split; [ exact Q | ]. destruct (Z.eqb_spec x a) as [->|]; [ | reflexivity ].
      pose proof (same_addr h I1 _ _ Q Hb eq_refl). discriminate. }
    constructor; cbn [blocks next_of]; auto.
    + unfold used. cbn [blocks]. apply pairwise_map_filter. exact I1.
    + rewrite Forall_forall in *. intros b B. apply filter_In in B as [B _]. auto.
    + intros x Hx. destruct (I5 x Hx) as [s [X1 X2]]. exists s. split; [ apply K; exact X1 | exact X2 ].
    + intros x s Q. apply K in Q. eapply I6; exact Q.
    + destruct I8 as [?|[s [B1 B2]]]; [ auto | right; exists s; split; [ apply K; exact B1 | exact B2 ] ].
    + intros o k Hk. destruct (I9 o k Hk) as [K1 [K2 [x [s [K3 K4]]]]]. split; [ exact K1 | ]. split; [ exact K2 | ]. exists x, s. split; [ apply K; exact K3 | exact K4 ].
  - destruct IH as [L [I1 I2 I3 I4 I5 I6 I7 I8 I9 I10 I11]]. exists L. constructor; cbn [blocks next_of]; auto.
    eapply chain_ext; [ | exact I3 ]. intros y Hy. apply Same. destruct (I5 y Hy) as [s [Y1 [Y2 _]]].
    destruct Own as [[[o q] [G1 G2]]|[a [q [G1 G2]]]]; unfold inside in G2; cbn [fst snd] in G2.
    + destruct (I9 o q G1) as [K1 [K2 [x0 [s0 [K3 K4]]]]]. destruct (blocks_apart h I1 _ _ Y1 K3) as [E|D].
      * cbn in E. subst x0. unfold disjoint. cbn. lia.
      * unfold disjoint, range in *. cbn [fst snd b_addr b_size] in *. lia.
    + destruct (blocks_apart h I1 _ _ Y1 G1) as [E|D].
      * cbn in E. subst a. pose proof (same_addr h I1 _ _ Y1 G1 eq_refl). discriminate.
      * unfold disjoint, range in *. cbn [fst snd b_addr b_size] in *. lia.
Qed.
