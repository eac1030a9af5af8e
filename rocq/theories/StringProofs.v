(* Strings: lemmas. *)
From Coq Require Import ZArith List Lia Bool ZifyBool.
Import ListNotations.
From Verif Require Import Base ListZ IndexModel ArraySpec ArrayProofs BufferProofs StringModel StringSpec.
Local Open Scope Z_scope.
Ltac Zify.zify_post_hook ::= Z.div_mod_to_equations.

(* invariant of string objects; the data is aligned to the size of an element *)
Definition width_ok (w : Z) : Prop := w = 0 \/ w = 1 \/ w = 2.
Definition kwf (s : kstr) : Prop :=
  width_ok (k_w s) /\ Forall (fun c => 0 <= c < emax (k_w s)) (k_codes s) /\
  (k_ascii s = true -> k_w s = 0 /\ Forall (fun c => c < 128) (k_codes s)) /\
  len (k_codes s) <= 65535 /\ k_addr s mod 2 ^ k_w s = 0 /\
  (k_hash s = 0 \/ k_hash s = text_hash (k_codes s)).

Lemma emax_vals : emax 0 = 256 /\ emax 1 = 65536 /\ emax 2 = 4294967296.
Proof. repeat split. Qed.

(* ---- bytes ---- *)

Definition bytes (l : list Z) : Prop := Forall (fun b => 0 <= b < 256) l.

Lemma le_bytes_bytes : forall n c, bytes (le_bytes n c).
Proof.
  induction n; intros c; cbn [le_bytes]; constructor; [ lia | apply IHn ].
Qed.
Lemma le_bytes_length : forall n c, length (le_bytes n c) = n.
Proof. induction n; intros; cbn [le_bytes length]; congruence. Qed.
Lemma le_value_bytes : forall n c, 0 <= c < 256 ^ Z.of_nat n -> le_value (le_bytes n c) = c.
Proof.
  induction n; intros c H; cbn [le_bytes le_value].
  - change (256 ^ Z.of_nat 0) with 1 in H. lia.
  - replace (Z.of_nat (S n)) with (1 + Z.of_nat n) in H by lia. rewrite Z.pow_add_r in H by lia.
    rewrite IHn; [ lia | ]. change (256 ^ 1) with 256 in H.
    split; [ apply Z.div_pos; lia | apply Z.div_lt_upper_bound; lia ].
Qed.
Lemma le_value_inj : forall l m, bytes l -> bytes m -> length l = length m -> le_value l = le_value m -> l = m.
Proof.
  induction l; intros m Hl Hm L E; destruct m; try discriminate; [ reflexivity | ].
  inversion Hl; inversion Hm; subst. cbn [le_value length] in *.
  assert (a = z /\ le_value l = le_value m) as [-> E2] by lia.
  f_equal. apply IHl; try assumption; lia.
Qed.

Lemma flat_len : forall n l, len (flat_map (le_bytes n) l) = Z.of_nat n * len l.
Proof.
  induction l; cbn [flat_map]; [ rewrite !len_nil; lia | ].
  rewrite len_app, len_cons, IHl. unfold len at 1. rewrite le_bytes_length. lia.
Qed.
Lemma flat_bytes : forall n l, bytes (flat_map (le_bytes n) l).
Proof.
  induction l; cbn [flat_map]; [ constructor | ]. apply Forall_app. split; [ apply le_bytes_bytes | apply IHl ].
Qed.
Lemma skipn_flat : forall n k l, skipn (n * k) (flat_map (le_bytes n) l) = flat_map (le_bytes n) (skipn k l).
Proof.
  induction k; intros l; [ rewrite Nat.mul_0_r; reflexivity | ].
  destruct l; cbn [skipn flat_map]; [ destruct (n * S k)%nat; reflexivity | ].
  rewrite skipn_app, le_bytes_length. replace (n * S k - n)%nat with (n * k)%nat by lia.
  rewrite skipn_all2 by (rewrite le_bytes_length; lia). apply IHk.
Qed.

Lemma rd_some : forall m i n v, rd m i n = Some v -> 0 <= i /\ i + n <= len m.
Proof.
  intros m i n v. unfold rd. change @slen with @len. brk; [ intros _; lia | discriminate ].
Qed.
Lemma rd_in : forall m i n, 0 <= i -> i + n <= len m ->
  rd m i n = Some (le_value (firstn (Z.to_nat n) (skipn (Z.to_nat i) m))).
Proof. intros. unfold rd. change @slen with @len. brk. reflexivity. Qed.

Lemma rd_elem : forall n l k c, 0 < n -> Forall (fun x => 0 <= x < 256 ^ n) l ->
  gz l k = Some c -> rd (flat_map (le_bytes (Z.to_nat n)) l) (n * k) n = Some c.
Proof.
  intros n l k c Hn Hl Hk. pose proof (gz_some_inv _ _ _ _ Hk) as B.
  rewrite rd_in; [ | nia | rewrite flat_len; nia ].
  f_equal. rewrite Z2Nat.inj_mul by lia. rewrite skipn_flat.
  pose proof (gz_split _ _ _ _ Hk) as S.
  assert (E : skipn (Z.to_nat k) l = c :: skipn (Z.to_nat k + 1) l).
  { rewrite S at 1. apply skipn_app_len. lenz. lia. }
  rewrite E. cbn [flat_map].
  rewrite firstn_app, le_bytes_length, Nat.sub_diag, firstn_O, app_nil_r.
  rewrite firstn_all2 by (rewrite le_bytes_length; lia).
  apply le_value_bytes. rewrite Z2Nat.id by lia.
  rewrite Forall_forall in Hl. apply Hl. eapply gz_in. eassumption.
Qed.

Lemma sub_ext : forall (ma mb : list Z) i j n, 0 <= i -> 0 <= j -> 0 <= n ->
  i + n <= len ma -> j + n <= len mb ->
  (firstn (Z.to_nat n) (skipn (Z.to_nat i) ma) = firstn (Z.to_nat n) (skipn (Z.to_nat j) mb) <->
   forall k, 0 <= k < n -> gz ma (i + k) = gz mb (j + k)).
Proof.
  intros ma mb i j n Hi Hj Hn Ha Hb. split.
  - intros E k Hk.
    assert (E2 : gz (firstn (Z.to_nat n) (skipn (Z.to_nat i) ma)) k = gz (firstn (Z.to_nat n) (skipn (Z.to_nat j) mb)) k)
      by (rewrite E; reflexivity).
    rewrite !gz_firstn, !gz_skipn in E2.
    destruct (Z.ltb_spec k (Z.of_nat (Z.to_nat n))); [ | lia ].
    destruct (Z.ltb_spec k 0); [ lia | ].
    replace (k + Z.of_nat (Z.to_nat i)) with (i + k) in E2 by lia.
    replace (k + Z.of_nat (Z.to_nat j)) with (j + k) in E2 by lia. exact E2.
  - intros H. apply gz_ext; [ lenz; lia | ].
    intros k Hk. lenz_in Hk. rewrite !gz_firstn, !gz_skipn.
    destruct (Z.ltb_spec k (Z.of_nat (Z.to_nat n))); [ | lia ].
    destruct (Z.ltb_spec k 0); [ lia | ].
    replace (k + Z.of_nat (Z.to_nat i)) with (i + k) by lia.
    replace (k + Z.of_nat (Z.to_nat j)) with (j + k) by lia. apply H. lia.
Qed.

Lemma bytes_sub : forall m a b, bytes m -> bytes (firstn a (skipn b m)).
Proof.
  intros m a b H. unfold bytes in *. rewrite Forall_forall in *. intros x Hx. apply H.
  rewrite <- (firstn_skipn b m). apply in_or_app. right.
  rewrite <- (firstn_skipn a (skipn b m)). apply in_or_app. left. exact Hx.
Qed.

Lemma rd_eq : forall ma mb i j n x y, bytes ma -> bytes mb -> 0 <= n ->
  rd ma i n = Some x -> rd mb j n = Some y ->
  (x = y <-> forall k, 0 <= k < n -> gz ma (i + k) = gz mb (j + k)).
Proof.
  intros ma mb i j n x y Ba Bb Hn Hx Hy.
  pose proof (rd_some _ _ _ _ Hx) as [X1 X2]. pose proof (rd_some _ _ _ _ Hy) as [Y1 Y2].
  rewrite rd_in in Hx, Hy by assumption.
  rewrite <- (sub_ext ma mb i j n) by lia.
  split.
  - intros ->. apply le_value_inj; try (apply bytes_sub; assumption); [ | congruence ].
    rewrite !firstn_length, !skipn_length. unfold len in *. lia.
  - intros E. congruence.
Qed.

(* ---- the loops of compare_slice ---- *)

Lemma skip_equal_ok : forall fuel ma mb n pa pb limit,
  bytes ma -> bytes mb -> 0 < n -> 0 <= pa -> 0 <= pb ->
  (limit - pa) mod n = 0 -> limit <= len ma -> pb + (limit - pa) <= len mb ->
  limit - pa < Z.of_nat fuel -> (0 < fuel)%nat ->
  exists d, 0 <= d /\ d mod n = 0 /\ skip_equal fuel ma mb n pa pb limit = SOk (pa + d, pb + d) /\
    (forall i, 0 <= i < d -> gz ma (pa + i) = gz mb (pb + i)) /\
    (pa + d = Z.max pa limit \/
     (pa + d + n <= limit /\ exists i, 0 <= i < n /\ gz ma (pa + d + i) <> gz mb (pb + d + i))).
Proof.
  induction fuel; intros ma mb n pa pb limit Ba Bb Hn Hpa Hpb Hm La Lb Hf Hf2; [ lia | ].
  cbn [skip_equal]. destruct (Z.ltb_spec pa limit) as [L|L].
  2:{ exists 0. split; [ lia | ]. split; [ apply Z.mod_0_l; lia | ]. split; [ f_equal; f_equal; lia | ].
      split; [ intros; lia | ]. left. lia. }
  assert (Hstep : n <= limit - pa).
  { apply Z.divide_pos_le; [ lia | ]. apply Z.mod_divide; [ lia | exact Hm ]. }
  rewrite (rd_in ma pa n) by lia. rewrite (rd_in mb pb n) by lia.
  set (x := le_value (firstn (Z.to_nat n) (skipn (Z.to_nat pa) ma))).
  set (y := le_value (firstn (Z.to_nat n) (skipn (Z.to_nat pb) mb))).
  pose proof (rd_eq ma mb pa pb n x y Ba Bb ltac:(lia) (rd_in ma pa n ltac:(lia) ltac:(lia))
                (rd_in mb pb n ltac:(lia) ltac:(lia))) as RE.
  destruct (Z.eqb_spec x y) as [E|E].
  - destruct (IHfuel ma mb n (pa + n) (pb + n) limit) as [d [D1 [D2 [D3 [D4 D5]]]]]; try assumption; try lia.
    { replace (limit - (pa + n)) with (limit - pa + (-1) * n) by lia. rewrite Z.mod_add by lia. exact Hm. }
    exists (n + d). split; [ lia | ]. split.
    { replace (n + d) with (d + 1 * n) by lia. rewrite Z.mod_add by lia. exact D2. }
    rewrite D3. split; [ f_equal; f_equal; lia | ].
    split.
    + intros i Hi. destruct (Z.lt_ge_cases i n).
      * apply RE; [ exact E | lia ].
      * specialize (D4 (i - n) ltac:(lia)).
        replace (pa + n + (i - n)) with (pa + i) in D4 by lia.
        replace (pb + n + (i - n)) with (pb + i) in D4 by lia. exact D4.
    + destruct D5 as [D5|[D5 [i [I1 I2]]]]; [ left; lia | ].
      right. split; [ lia | ]. exists i. split; [ exact I1 | ].
      replace (pa + (n + d) + i) with (pa + n + d + i) by lia.
      replace (pb + (n + d) + i) with (pb + n + d + i) by lia. exact I2.
  - exists 0. split; [ lia | ]. split; [ apply Z.mod_0_l; lia | ]. split; [ f_equal; f_equal; lia | ].
    split; [ intros; lia | ]. right. split; [ lia | ].
    assert (N : ~ forall k, 0 <= k < n -> gz ma (pa + k) = gz mb (pb + k)) by tauto.
    assert (K : forall m : nat, (forall k, 0 <= k < Z.of_nat m -> gz ma (pa + k) = gz mb (pb + k)) \/
                 exists i, 0 <= i < Z.of_nat m /\ gz ma (pa + i) <> gz mb (pb + i)).
    { induction m as [|m IH]; [ left; intros; lia | ].
      destruct IH as [IH|[i [I1 I2]]]; [ | right; exists i; split; [ lia | exact I2 ] ].
      assert (D : gz ma (pa + Z.of_nat m) = gz mb (pb + Z.of_nat m) \/ gz ma (pa + Z.of_nat m) <> gz mb (pb + Z.of_nat m)).
      { destruct (gz ma (pa + Z.of_nat m)) as [u|], (gz mb (pb + Z.of_nat m)) as [v|]; try (right; congruence); [ | left; reflexivity ].
        destruct (Z.eq_dec u v); [ left | right ]; congruence. }
      destruct D as [D|D].
      - left. intros k Hk. destruct (Z.eq_dec k (Z.of_nat m)) as [->|]; [ exact D | apply IH; lia ].
      - right. exists (Z.of_nat m). split; [ lia | exact D ]. }
    destruct (K (Z.to_nat n)) as [K1|[i [I1 I2]]]; [ exfalso; apply N; intros; apply K1; lia | ].
    exists i. split; [ lia | ]. rewrite !Z.add_0_r. exact I2.
Qed.

Lemma skip_to_aligned_ok : forall fuel addr ma mb pa pb,
  bytes ma -> bytes mb -> 0 <= pa -> 0 <= pb ->
  (8 - (addr + pa) mod 8) mod 8 < Z.of_nat fuel ->
  pa + (8 - (addr + pa) mod 8) mod 8 <= len ma -> pb + (8 - (addr + pa) mod 8) mod 8 <= len mb ->
  exists d, 0 <= d <= (8 - (addr + pa) mod 8) mod 8 /\
    skip_to_aligned fuel addr ma mb pa pb = SOk (pa + d, pb + d) /\
    (forall i, 0 <= i < d -> gz ma (pa + i) = gz mb (pb + i)) /\
    ((addr + (pa + d)) mod 8 = 0 \/ gz ma (pa + d) <> gz mb (pb + d)).
Proof.
  induction fuel; intros addr ma mb pa pb Ba Bb Hpa Hpb Hf La Lb; [ lia | ].
  cbn [skip_to_aligned]. destruct (Z.eqb_spec ((addr + pa) mod 8) 0) as [A|A].
  { exists 0. split; [ lia | ]. split; [ f_equal; f_equal; lia | ]. split; [ intros; lia | ].
    left. rewrite Z.add_0_r. exact A. }
  rewrite (rd_in ma pa 1) by lia. rewrite (rd_in mb pb 1) by lia.
  set (x := le_value (firstn (Z.to_nat 1) (skipn (Z.to_nat pa) ma))).
  set (y := le_value (firstn (Z.to_nat 1) (skipn (Z.to_nat pb) mb))).
  pose proof (rd_eq ma mb pa pb 1 x y Ba Bb ltac:(lia) (rd_in ma pa 1 ltac:(lia) ltac:(lia))
                (rd_in mb pb 1 ltac:(lia) ltac:(lia))) as RE.
  destruct (Z.eqb_spec x y) as [E|E].
  - destruct (IHfuel addr ma mb (pa + 1) (pb + 1)) as [d [D1 [D2 [D3 D4]]]]; try assumption; try lia.
    exists (1 + d). split; [ lia | ]. rewrite D2. split; [ f_equal; f_equal; lia | ].
    split.
    + intros i Hi. destruct (Z.eq_dec i 0) as [->|].
      * apply RE; [ exact E | lia ].
      * specialize (D3 (i - 1) ltac:(lia)).
        replace (pa + 1 + (i - 1)) with (pa + i) in D3 by lia.
        replace (pb + 1 + (i - 1)) with (pb + i) in D3 by lia. exact D3.
    + replace (pa + (1 + d)) with (pa + 1 + d) by lia. replace (pb + (1 + d)) with (pb + 1 + d) by lia. exact D4.
  - exists 0. split; [ lia | ]. split; [ f_equal; f_equal; lia | ]. split; [ intros; lia | ].
    right. rewrite !Z.add_0_r. intros G. apply E. apply RE. intros k Hk.
    replace k with 0 by lia. rewrite !Z.add_0_r. exact G.
Qed.

(* result of a comparison of two texts *)
Definition cmp_spec (coll : Z -> Z -> Z) (A B : list Z) (r : Z) : Prop :=
  (exists k x y, (forall i, 0 <= i < k -> gz A i = gz B i) /\ gz A k = Some x /\ gz B k = Some y /\
     x <> y /\ r = coll x y) \/
  ((forall i, 0 <= i < Z.min (len A) (len B) -> gz A i = gz B i) /\ r = len A - len B).

Definition range_ok (s : kstr) : Prop :=
  width_ok (k_w s) /\ Forall (fun c => 0 <= c < emax (k_w s)) (k_codes s) /\ k_addr s mod 2 ^ k_w s = 0.

Lemma kwf_range : forall s, kwf s -> range_ok s.
Proof. intros s [H1 [H2 [_ [_ [H3 _]]]]]. split; [ | split ]; assumption. Qed.

Lemma emax_256 : forall w, width_ok w -> emax w = 256 ^ (2 ^ w).
Proof. intros w [->|[->| ->]]; reflexivity. Qed.
Lemma width_n : forall w, width_ok w -> (w = 0 /\ 2 ^ w = 1) \/ (w = 1 /\ 2 ^ w = 2) \/ (w = 2 /\ 2 ^ w = 4).
Proof. intros w [->|[->| ->]]; [ left | right; left | right; right ]; split; reflexivity. Qed.

Lemma rd_str : forall s k c, range_ok s -> gz (k_codes s) k = Some c ->
  rd (str_bytes s) (2 ^ k_w s * k) (2 ^ k_w s) = Some c.
Proof.
  intros s k c [W [R _]] H. unfold str_bytes, elem_bytes. apply rd_elem; [ | | exact H ].
  - destruct (width_n _ W) as [[_ ->]|[[_ ->]|[_ ->]]]; lia.
  - rewrite <- emax_256 by exact W. exact R.
Qed.
Lemma str_bytes_len : forall s, range_ok s -> len (str_bytes s) = 2 ^ k_w s * len (k_codes s).
Proof.
  intros s [W [R _]]. unfold str_bytes, elem_bytes. rewrite flat_len.
  rewrite Z2Nat.id; [ reflexivity | ].
  destruct (width_n _ W) as [[_ ->]|[[_ ->]|[_ ->]]]; lia.
Qed.

(* equal bytes of one element are equal elements *)
Lemma elem_eq : forall sa sb i j x y, range_ok sa -> range_ok sb -> k_w sa = k_w sb ->
  gz (k_codes sa) i = Some x -> gz (k_codes sb) j = Some y ->
  (x = y <-> forall k, 0 <= k < 2 ^ k_w sa -> gz (str_bytes sa) (2 ^ k_w sa * i + k) = gz (str_bytes sb) (2 ^ k_w sa * j + k)).
Proof.
  intros sa sb i j x y Ra Rb W Hx Hy.
  apply rd_eq with (n := 2 ^ k_w sa); try (apply flat_bytes).
  - apply Z.pow_nonneg. lia.
  - apply rd_str; assumption.
  - rewrite W. apply rd_str; assumption.
Qed.

(* equal bytes before d, a multiple of the element size, are equal elements *)
Lemma prefix_elems : forall sa sb ab bb n d, range_ok sa -> range_ok sb -> k_w sa = k_w sb -> n = 2 ^ k_w sa ->
  0 <= ab -> 0 <= bb ->
  (forall i, 0 <= i < n * d -> gz (str_bytes sa) (n * ab + i) = gz (str_bytes sb) (n * bb + i)) ->
  ab + d <= len (k_codes sa) -> bb + d <= len (k_codes sb) ->
  forall i, 0 <= i < d -> gz (k_codes sa) (ab + i) = gz (k_codes sb) (bb + i).
Proof.
  intros sa sb ab bb n d Ra Rb W En Ha Hb H La Lb i Hi.
  destruct (gz_some _ (k_codes sa) (ab + i)) as [x Hx]; [ lia | ].
  destruct (gz_some _ (k_codes sb) (bb + i)) as [y Hy]; [ lia | ].
  rewrite Hx, Hy. f_equal.
  apply (elem_eq sa sb (ab + i) (bb + i) x y Ra Rb W Hx Hy).
  intros k Hk. rewrite <- En in *.
  replace (n * (ab + i) + k) with (n * ab + (n * i + k)) by lia.
  replace (n * (bb + i) + k) with (n * bb + (n * i + k)) by lia.
  apply H. nia.
Qed.

(* start of both slices equally misaligned for 8-byte steps, elements wider than a byte *)
Definition misaligned (sa : kstr) (ab : Z) (sb : kstr) (bb : Z) : Prop :=
  k_w sa = k_w sb /\ k_w sa <> 0 /\
  (k_addr sa + 2 ^ k_w sa * ab) mod 8 = (k_addr sb + 2 ^ k_w sb * bb) mod 8 /\
  (k_addr sa + 2 ^ k_w sa * ab) mod 8 <> 0.

Lemma gz_sub_in : forall (l : list Z) b e i, 0 <= b <= e -> e <= len l -> 0 <= i < e - b ->
  gz (sub l b e) i = gz l (b + i).
Proof.
  intros l b e i H1 H2 H3. unfold sub. rewrite gz_firstn, gz_skipn.
  destruct (Z.ltb_spec i (Z.of_nat (Z.to_nat (e - b)))); [ | lia ].
  destruct (Z.ltb_spec i 0); [ lia | ]. f_equal. lia.
Qed.
Lemma len_sub_in : forall (l : list Z) b e, 0 <= b <= e -> e <= len l -> len (sub l b e) = e - b.
Proof. intros l b e H1 H2. unfold sub. lenz. lia. Qed.

(* lia with div and mod only where they are needed *)
Ltac Zify.zify_post_hook ::= idtac.
Ltac mlia := Z.div_mod_to_equations; lia.

Definition n124 (n : Z) : Prop := n = 1 \/ n = 2 \/ n = 4.
Lemma mod_aligned : forall n a p d d2, n124 n -> (a + p) mod n = 0 -> (a + (p + d)) mod 8 = 0 -> d2 mod 8 = 0 ->
  (d + d2) mod n = 0.
Proof. intros n a p d d2 [->|[->| ->]] H1 H2 H3; mlia. Qed.
Lemma mod_diff8 : forall a p q, (a + p) mod 8 = 0 -> (a + q) mod 8 = 0 -> (q - p) mod 8 = 0.
Proof. intros. mlia. Qed.
Lemma mod_sub : forall n c p d, n124 n -> c mod n = 0 -> d mod n = 0 -> (p + c - (p + d)) mod n = 0.
Proof. intros n c p d [->|[->| ->]] H1 H2; mlia. Qed.
Lemma mod_quot : forall n d d2, n124 n -> 0 <= d -> 0 <= d2 -> d mod n = 0 -> d2 mod n = 0 ->
  exists q, d + d2 = n * q /\ 0 <= q.
Proof.
  intros n d d2 Hn H1 H2 H3 H4. exists ((d + d2) / n).
  destruct Hn as [->|[->| ->]]; split; try (apply Z.div_pos; lia); mlia.
Qed.
Lemma mod_room : forall a p e d, (a + e) mod 8 = 0 -> p + 8 < e -> d <= (8 - (a + p) mod 8) mod 8 -> p + d + 8 <= e.
Proof. intros. mlia. Qed.
Lemma mod_split : forall n d, n124 n -> 0 <= d -> exists q k, d = n * q + k /\ 0 <= k < n /\ 0 <= q.
Proof. intros n d Hn H. exists (d / n), (d mod n). destruct Hn as [->|[->| ->]]; mlia. Qed.

Section Cmp.
Variable coll : Z -> Z -> Z.

Lemma compare_same_width : forall sa ab ae sb bb be, range_ok sa -> range_ok sb -> k_w sa = k_w sb ->
  0 <= ab <= ae -> ae <= len (k_codes sa) -> 0 <= bb <= be -> be <= len (k_codes sb) ->
  exists r, compare_slice coll sa ab ae sb bb be = SOk r /\
    (cmp_spec coll (sub (k_codes sa) ab ae) (sub (k_codes sb) bb be) r \/
     (misaligned sa ab sb bb /\ sub (k_codes sa) ab ae <> sub (k_codes sb) bb be /\
      exists x y, x <> y /\ r = coll x y)).
Proof.
  intros sa ab ae sb bb be Ra Rb W Ha Ha2 Hb Hb2.
  assert (Hw : width_ok (k_w sa)) by apply Ra.
  remember (2 ^ k_w sa) as n eqn:En.
  assert (Hn : n124 n) by (unfold n124; destruct (width_n _ Hw) as [[_ ?]|[[_ ?]|[_ ?]]]; lia).
  assert (Hn0 : 0 < n <= 4) by (destruct Hn as [->|[->| ->]]; lia).
  unfold compare_slice. rewrite <- W, Z.eqb_refl.
  assert (Hw0 : 0 <= k_w sa) by (destruct Hw as [->|[->| ->]]; lia).
  rewrite !Z.shiftl_mul_pow2 by exact Hw0. rewrite <- En.
  set (ma := str_bytes sa). set (mb := str_bytes sb).
  assert (Ba : bytes ma) by apply flat_bytes. assert (Bb : bytes mb) by apply flat_bytes.
  assert (Lma : len ma = n * len (k_codes sa)) by (rewrite En; apply str_bytes_len; exact Ra).
  assert (Lmb : len mb = n * len (k_codes sb)) by (rewrite En, W; apply str_bytes_len; exact Rb).
  set (cmp := Z.min (ae - ab) (be - bb)).
  set (pa := ab * n). set (pb := bb * n).
  remember (cmp * n) as cn eqn:Ecn.
  set (pend := pa + cn).
  set (pend8 := (k_addr sa + pend) / 8 * 8 - k_addr sa).
  assert (Hpend : pend = pa + cn) by reflexivity.
  assert (Hpend8 : pend8 <= pend /\ (k_addr sa + pend8) mod 8 = 0).
  { unfold pend8. split; [ clear; mlia | ]. replace (k_addr sa + ((k_addr sa + pend) / 8 * 8 - k_addr sa)) with ((k_addr sa + pend) / 8 * 8) by lia.
    apply Z.mod_mul. lia. }
  destruct Hpend8 as [Hp8 Hp8m].
  assert (HA : pa + cn <= len ma) by (rewrite Lma, Ecn; unfold pa, cmp; nia).
  assert (HB : pb + cn <= len mb) by (rewrite Lmb, Ecn; unfold pb, cmp; nia).
  assert (Hpa : 0 <= pa) by (unfold pa; nia). assert (Hpb : 0 <= pb) by (unfold pb; nia).
  assert (Hcn : 0 <= cn) by (rewrite Ecn; unfold cmp; nia).
  assert (Hcn2 : cn mod n = 0) by (rewrite Ecn; apply Z.mod_mul; lia).
  assert (Hal : (k_addr sa + pa) mod n = 0).
  { unfold pa. rewrite Z.mod_add by lia. rewrite En. apply Ra. }
  clearbody pend8 pend.
  (* after the 8-byte steps *)
  match goal with |- context [ match (if ?c then ?t else ?e) with SOk _ => _ | SExn => _ | SBad => _ end ] =>
    set (first := if c then t else e) end.
  assert (F : exists d, first = SOk (pa + d, pb + d) /\ 0 <= d <= cn /\
     (forall i, 0 <= i < d -> gz ma (pa + i) = gz mb (pb + i)) /\
     (d mod n = 0 \/ (misaligned sa ab sb bb /\ d + 4 <= cn /\ gz ma (pa + d) <> gz mb (pb + d)))).
  { unfold first. clear first.
    destruct (Z.eqb_spec ((k_addr sa + pa) mod 8) ((k_addr sb + pb) mod 8)) as [A|A]; cbn [andb].
    2:{ exists 0. rewrite !Z.add_0_r. split; [ reflexivity | ]. split; [ lia | ].
        split; [ intros; lia | ]. left. apply Z.mod_0_l. lia. }
    destruct (Z.ltb_spec (pa + 8) pend8) as [L8|L8].
    2:{ exists 0. rewrite !Z.add_0_r. split; [ reflexivity | ]. split; [ lia | ].
        split; [ intros; lia | ]. left. apply Z.mod_0_l. lia. }
    assert (M8 := Z.mod_pos_bound (8 - (k_addr sa + pa) mod 8) 8 ltac:(lia)).
    destruct (skip_to_aligned_ok 8 (k_addr sa) ma mb pa pb Ba Bb Hpa Hpb) as [d [D1 [D2 [D3 D4]]]];
      [ lia | lia | lia | ].
    rewrite D2.
    destruct (Z.eqb_spec ((k_addr sa + (pa + d)) mod 8) 0) as [E|E].
    - destruct (skip_equal_ok (S (length ma)) ma mb 8 (pa + d) (pb + d) pend8 Ba Bb) as [d2 [E1 [E2 [E3 [E4 E5]]]]];
        [ lia | lia | lia | apply (mod_diff8 (k_addr sa)); assumption | lia | lia | unfold len in *; lia | lia | ].
      rewrite E3. exists (d + d2). split; [ f_equal; f_equal; lia | ]. split; [ lia | ].
      split.
      + intros i Hi. destruct (Z.lt_ge_cases i d); [ apply D3; lia | ].
        specialize (E4 (i - d) ltac:(lia)).
        replace (pa + d + (i - d)) with (pa + i) in E4 by lia.
        replace (pb + d + (i - d)) with (pb + i) in E4 by lia. exact E4.
      + left. apply (mod_aligned n (k_addr sa) pa); assumption.
    - assert (G : gz ma (pa + d) <> gz mb (pb + d)) by (destruct D4; [ contradiction | assumption ]).
      exists d. split; [ reflexivity | ]. split; [ lia | ]. split; [ exact D3 | ].
      destruct (Z.eq_dec (d mod n) 0) as [M|M]; [ left; exact M | right ].
      assert (RM := mod_room (k_addr sa) pa pend8 d Hp8m L8 ltac:(lia)).
      split; [ | split; [ lia | exact G ] ].
      unfold misaligned. rewrite <- W, <- En. split; [ reflexivity | ].
      replace (n * ab) with pa by (unfold pa; lia). replace (n * bb) with pb by (unfold pb; lia).
      split; [ intros K; rewrite K in En; change (2 ^ 0) with 1 in En; subst n; rewrite Z.mod_1_r in M; lia | ].
      split; [ exact A | ]. intros K. destruct D1 as [D1 D1']. rewrite K in D1'. change ((8 - 0) mod 8) with 0 in D1'.
      replace d with 0 in M by lia. rewrite Z.mod_0_l in M by lia. lia. }
  clearbody first. destruct F as [d [-> [F1 [F2 F3]]]].
  set (A := sub (k_codes sa) ab ae). set (B := sub (k_codes sb) bb be).
  assert (LA : len A = ae - ab) by (apply len_sub_in; assumption).
  assert (LB : len B = be - bb) by (apply len_sub_in; assumption).
  assert (LC : cmp = Z.min (len A) (len B)) by (rewrite LA, LB; reflexivity).
  destruct F3 as [F3|[M1 [M2 M3]]].
  - (* element boundary *)
    destruct (skip_equal_ok (S (length ma)) ma mb n (pa + d) (pb + d) pend Ba Bb ltac:(lia)) as [d2 [E1 [E2 [E3 [E4 E5]]]]];
      [ lia | lia | | lia | lia | unfold len in *; lia | lia | ].
    { rewrite Hpend. apply mod_sub; assumption. }
    rewrite E3.
    destruct (mod_quot n d d2 Hn ltac:(lia) E1 F3 E2) as [q [Q1 Q2]].
    assert (Hq : q <= cmp) by nia.
    assert (P : forall i, 0 <= i < q -> gz (k_codes sa) (ab + i) = gz (k_codes sb) (bb + i)).
    { apply (prefix_elems sa sb ab bb n q Ra Rb W En); try lia.
      intros i Hi. fold ma mb. replace (n * ab + i) with (pa + i) by (unfold pa; lia).
      replace (n * bb + i) with (pb + i) by (unfold pb; lia).
      destruct (Z.lt_ge_cases i d); [ apply F2; lia | ].
      specialize (E4 (i - d) ltac:(lia)).
      replace (pa + d + (i - d)) with (pa + i) in E4 by lia.
      replace (pb + d + (i - d)) with (pb + i) in E4 by lia. exact E4. }
    assert (P2 : forall i, 0 <= i < q -> gz A i = gz B i).
    { intros i Hi. unfold A, B. rewrite !gz_sub_in by lia. apply P. lia. }
    destruct (Z.ltb_spec (pa + d + d2) pend) as [L|L].
    + destruct E5 as [E5|[E5 [i [I1 I2]]]]; [ lia | ].
      assert (Hq2 : q < cmp) by nia.
      destruct (gz_some _ (k_codes sa) (ab + q)) as [x Hx]; [ lia | ].
      destruct (gz_some _ (k_codes sb) (bb + q)) as [y Hy]; [ lia | ].
      pose proof (rd_str sa _ _ Ra Hx) as Rx. pose proof (rd_str sb _ _ Rb Hy) as Ry.
      rewrite <- W in Ry. rewrite <- En in Rx, Ry. fold ma in Rx. fold mb in Ry.
      replace (n * (ab + q)) with (pa + d + d2) in Rx by (unfold pa; lia).
      replace (n * (bb + q)) with (pb + d + d2) in Ry by (unfold pb; lia).
      rewrite Rx, Ry. exists (coll x y). split; [ reflexivity | ]. left. left.
      exists q, x, y. split; [ exact P2 | ].
      unfold A, B. rewrite !gz_sub_in by lia. split; [ exact Hx | ]. split; [ exact Hy | ]. split; [ | reflexivity ].
      intros Exy. apply I2.
      assert (K := proj1 (elem_eq sa sb (ab + q) (bb + q) x y Ra Rb W Hx Hy) Exy i).
      rewrite <- En in K. fold ma mb in K.
      replace (n * (ab + q) + i) with (pa + d + d2 + i) in K by (unfold pa; lia).
      replace (n * (bb + q) + i) with (pb + d + d2 + i) in K by (unfold pb; lia).
      apply K. exact I1.
    + exists (ae - ab - (be - bb)). split; [ reflexivity | ]. left. right. split; [ | lia ].
      intros i Hi. apply P2. rewrite <- LC in Hi. nia.
  - (* inside of an element: the next bytes differ *)
    cbn [skip_equal]. destruct (Z.ltb_spec (pa + d) pend) as [L|L]; [ | lia ].
    rewrite (rd_in ma (pa + d) n) by lia. rewrite (rd_in mb (pb + d) n) by lia.
    pose proof (rd_eq ma mb (pa + d) (pb + d) n _ _ Ba Bb ltac:(lia) (rd_in ma (pa + d) n ltac:(lia) ltac:(lia))
                (rd_in mb (pb + d) n ltac:(lia) ltac:(lia))) as RE.
    set (x := le_value (firstn (Z.to_nat n) (skipn (Z.to_nat (pa + d)) ma))) in *.
    set (y := le_value (firstn (Z.to_nat n) (skipn (Z.to_nat (pb + d)) mb))) in *.
    assert (N : x <> y).
    { intros E. apply M3. replace (pa + d) with (pa + d + 0) by lia. replace (pb + d) with (pb + d + 0) by lia.
      apply RE; [ exact E | lia ]. }
    destruct (Z.eqb_spec x y) as [E|_]; [ contradiction | ].
    destruct (Z.ltb_spec (pa + d) pend) as [_|?]; [ | lia ].
    rewrite (rd_in ma (pa + d) n) by lia. rewrite (rd_in mb (pb + d) n) by lia. fold x y.
    exists (coll x y). split; [ reflexivity | ]. right. split; [ exact M1 | ]. split; [ | exists x, y; tauto ].
    intros EQ. apply M3.
    destruct (mod_split n d Hn ltac:(lia)) as [q [k [Q1 [Q2 Q3]]]].
    assert (Hq : q < cmp) by nia.
    destruct (gz_some _ (k_codes sa) (ab + q)) as [u Hu]; [ lia | ].
    destruct (gz_some _ (k_codes sb) (bb + q)) as [v Hv]; [ lia | ].
    assert (Euv : u = v).
    { assert (gz A q = gz B q) as G by (rewrite EQ; reflexivity).
      unfold A, B in G. rewrite !gz_sub_in in G by lia. congruence. }
    assert (K := proj1 (elem_eq sa sb (ab + q) (bb + q) u v Ra Rb W Hu Hv) Euv k).
    rewrite <- En in K. fold ma mb in K.
    replace (n * (ab + q) + k) with (pa + d) in K by (unfold pa; lia).
    replace (n * (bb + q) + k) with (pb + d) in K by (unfold pb; lia).
    apply K. exact Q2.
Qed.

Lemma strcmp_mixed_ok : forall n a b L1 L2, Z.of_nat n <= len a -> Z.of_nat n <= len b ->
  exists r, strcmp_mixed coll n a b L1 L2 = SOk r /\
   ((exists k x y, 0 <= k < Z.of_nat n /\ (forall i, 0 <= i < k -> gz a i = gz b i) /\
       gz a k = Some x /\ gz b k = Some y /\ x <> y /\ r = coll x y) \/
    ((forall i, 0 <= i < Z.of_nat n -> gz a i = gz b i) /\ r = L1 - L2)).
Proof.
  induction n; intros a b L1 L2 Ha Hb; cbn [strcmp_mixed].
  - eexists. split; [ reflexivity | ]. right. split; [ intros; lia | reflexivity ].
  - destruct a as [|ca ta]; [ rewrite len_nil in Ha; lia | ].
    destruct b as [|cb tb]; [ rewrite len_nil in Hb; lia | ].
    rewrite len_cons in Ha, Hb. destruct (Z.eqb_spec ca cb) as [E|E].
    + destruct (IHn ta tb L1 L2) as [r [R1 R2]]; try lia. exists r. split; [ exact R1 | ].
      destruct R2 as [[k [x [y [K1 [K2 [K3 [K4 K5]]]]]]]|[K1 K2]].
      * left. exists (k + 1), x, y. split; [ lia | ].
        split. { intros i Hi. rewrite !gz_cons. destruct (Z.eqb_spec i 0); [ congruence | ]. apply K2. lia. }
        rewrite !gz_cons. destruct (Z.eqb_spec (k + 1) 0); [ lia | ].
        replace (k + 1 - 1) with k by lia. tauto.
      * right. split; [ | exact K2 ]. intros i Hi. rewrite !gz_cons. destruct (Z.eqb_spec i 0); [ congruence | ].
        apply K1. lia.
    + eexists. split; [ reflexivity | ]. left. exists 0, ca, cb. split; [ lia | ].
      split; [ intros; lia | ]. rewrite !gz_cons. cbn. tauto.
Qed.

(* sub of skipn *)
Lemma gz_skip_sub : forall (l : list Z) b e i, 0 <= b <= e -> e <= len l -> 0 <= i < e - b ->
  gz (skipn (Z.to_nat b) l) i = gz (sub l b e) i.
Proof.
  intros. rewrite gz_sub_in by lia. rewrite gz_skipn. destruct (Z.ltb_spec i 0); [ lia | ]. f_equal. lia.
Qed.

Lemma strcmp_slices : forall la ab ae lb bb be, 0 <= ab <= ae -> ae <= len la -> 0 <= bb <= be -> be <= len lb ->
  exists r, strcmp_mixed coll (Z.to_nat (Z.min (ae - ab) (be - bb))) (skipn (Z.to_nat ab) la) (skipn (Z.to_nat bb) lb)
              (ae - ab) (be - bb) = SOk r /\
    cmp_spec coll (sub la ab ae) (sub lb bb be) r.
Proof.
  intros la ab ae lb bb be Ha Ha2 Hb Hb2.
  destruct (strcmp_mixed_ok (Z.to_nat (Z.min (ae - ab) (be - bb))) (skipn (Z.to_nat ab) la) (skipn (Z.to_nat bb) lb)
              (ae - ab) (be - bb)) as [r [R1 R2]]; [ lenz; lia | lenz; lia | ].
  exists r. split; [ exact R1 | ].
  destruct R2 as [[k [x [y [K1 [K2 [K3 [K4 [K5 K6]]]]]]]]|[K1 K2]].
  - left. exists k, x, y. rewrite (gz_skip_sub la ab ae) in K3 by lia. rewrite (gz_skip_sub lb bb be) in K4 by lia.
    split; [ | tauto ]. intros i Hi. rewrite <- (gz_skip_sub la ab ae), <- (gz_skip_sub lb bb be) by lia.
    apply K2. exact Hi.
  - right. rewrite !len_sub_in by lia. split; [ | exact K2 ].
    intros i Hi. rewrite <- (gz_skip_sub la ab ae), <- (gz_skip_sub lb bb be) by lia. apply K1. lia.
Qed.

Lemma cmp_spec_eq : forall A B r, (forall x y, x <> y -> coll x y <> 0) -> cmp_spec coll A B r -> (r = 0 <-> A = B).
Proof.
  intros A B r S [[k [x [y [K1 [K2 [K3 [K4 K5]]]]]]]|[K1 K2]].
  - split; [ intros ->; exfalso; apply (S x y K4); lia | intros ->; congruence ].
  - split.
    + intros ->. apply gz_ext; [ lia | ]. intros i Hi. apply K1. lia.
    + intros ->. lia.
Qed.

Lemma cmp_spec_lex : forall A B r, cmp_spec coll A B r -> Z.sgn r = Z.sgn (lex coll A B).
Proof.
  induction A as [|a A IH]; intros B r H; destruct B as [|b B].
  - destruct H as [[k [x [y [_ [K _]]]]]|[_ ->]]; [ | reflexivity ].
    apply gz_some_inv in K. rewrite len_nil in K. lia.
  - destruct H as [[k [x [y [_ [K _]]]]]|[_ ->]].
    + apply gz_some_inv in K. rewrite len_nil in K. lia.
    + cbn [lex]. rewrite len_nil, len_cons. pose proof (len_nonneg _ B). lia.
  - destruct H as [[k [x [y [_ [_ [K _]]]]]]|[_ ->]].
    + apply gz_some_inv in K. rewrite len_nil in K. lia.
    + cbn [lex]. rewrite len_nil, len_cons. pose proof (len_nonneg _ A). lia.
  - cbn [lex]. destruct (Z.eqb_spec a b) as [E|E].
    + apply IH. destruct H as [[k [x [y [K1 [K2 [K3 [K4 K5]]]]]]]|[K1 K2]].
      * rewrite gz_cons in K2, K3. destruct (Z.eqb_spec k 0); [ congruence | ].
        left. exists (k - 1), x, y. split; [ | tauto ]. intros i Hi. specialize (K1 (i + 1) ltac:(lia)).
        rewrite !gz_cons in K1. destruct (Z.eqb_spec (i + 1) 0); [ lia | ].
        replace (i + 1 - 1) with i in K1 by lia. exact K1.
      * rewrite !len_cons in K1, K2. right. split; [ | lia ]. intros i Hi. specialize (K1 (i + 1) ltac:(lia)).
        rewrite !gz_cons in K1. destruct (Z.eqb_spec (i + 1) 0); [ lia | ].
        replace (i + 1 - 1) with i in K1 by lia. exact K1.
    + destruct H as [[k [x [y [K1 [K2 [K3 [K4 K5]]]]]]]|[K1 K2]].
      * assert (k = 0) as ->.
        { destruct (Z.eq_dec k 0); [ assumption | ].
          assert (0 <= k) by (apply gz_some_inv in K2; lia).
          specialize (K1 0 ltac:(lia)). rewrite !gz_cons in K1. cbn in K1. congruence. }
        rewrite gz_cons in K2, K3. cbn in K2, K3. congruence.
      * pose proof (len_nonneg _ A). pose proof (len_nonneg _ B). rewrite !len_cons in K1.
        specialize (K1 0 ltac:(lia)). rewrite !gz_cons in K1. cbn in K1. congruence.
Qed.

Lemma lex_antisym : forall A B, (forall x y, Z.sgn (coll x y) = - Z.sgn (coll y x)) ->
  Z.sgn (lex coll A B) = - Z.sgn (lex coll B A).
Proof.
  induction A as [|a A IH]; intros B H; destruct B as [|b B]; try reflexivity.
  cbn [lex]. rewrite (Z.eqb_sym b a). destruct (a =? b); [ apply IH; exact H | apply H ].
Qed.

Lemma compare_slice_main : forall sa ab ae sb bb be, range_ok sa -> range_ok sb ->
  0 <= ab <= ae -> ae <= len (k_codes sa) -> 0 <= bb <= be -> be <= len (k_codes sb) ->
  let A := sub (k_codes sa) ab ae in let B := sub (k_codes sb) bb be in
  exists r, compare_slice coll sa ab ae sb bb be = SOk r /\
    ((forall x y, x <> y -> coll x y <> 0) -> (r = 0 <-> A = B)) /\
    ((forall x y, Z.sgn (coll x y) = - Z.sgn (coll y x)) -> ~ misaligned sa ab sb bb ->
       Z.sgn r = Z.sgn (lex coll A B)).
Proof.
  intros sa ab ae sb bb be Ra Rb Ha Ha2 Hb Hb2 A B.
  destruct (Z.eq_dec (k_w sa) (k_w sb)) as [W|W].
  - destruct (compare_same_width sa ab ae sb bb be Ra Rb W Ha Ha2 Hb Hb2) as [r [R1 R2]].
    exists r. split; [ exact R1 | ]. destruct R2 as [R2|[R2 [R3 [x [y [R4 R5]]]]]].
    + split; [ intros S; apply cmp_spec_eq; assumption | intros _ _; apply cmp_spec_lex; exact R2 ].
    + split.
      * intros S. specialize (S x y R4). rewrite R5. split; [ intros; contradiction | intros E; contradiction ].
      * intros _ M. contradiction.
  - unfold compare_slice. destruct (Z.eqb_spec (k_w sa) (k_w sb)) as [?|_]; [ contradiction | ].
    destruct (k_w sa <? k_w sb).
    + destruct (strcmp_slices (k_codes sa) ab ae (k_codes sb) bb be Ha Ha2 Hb Hb2) as [r [R1 R2]].
      rewrite R1. exists r. split; [ reflexivity | ].
      split; [ intros S; apply cmp_spec_eq; assumption | intros _ _; apply cmp_spec_lex; exact R2 ].
    + destruct (strcmp_slices (k_codes sb) bb be (k_codes sa) ab ae Hb Hb2 Ha Ha2) as [r [R1 R2]].
      rewrite Z.min_comm, R1. exists (r * -1). split; [ reflexivity | ].
      split.
      * intros S. pose proof (cmp_spec_eq _ _ _ S R2) as E. fold A B in E.
        split; [ intros; symmetry; apply E; lia | intros EQ; symmetry in EQ; apply E in EQ; lia ].
      * intros AS _. rewrite (lex_antisym A B AS). unfold A, B. rewrite <- (cmp_spec_lex _ _ _ R2). lia.
Qed.

(* ---- find ---- *)
Hypothesis strict : forall x y, x <> y -> coll x y <> 0.

Lemma occurs_sub : forall text pat p, 0 <= p -> p + len pat <= len text ->
  (sub text p (p + len pat) = pat <-> occurs text pat p).
Proof.
  intros text pat p H1 H2. pose proof (len_nonneg _ pat). split.
  - intros E. exists (firstn (Z.to_nat p) text), (skipn (Z.to_nat (p + len pat)) text).
    split; [ | change @llen with @len; lenz; lia ].
    rewrite <- E at 1. unfold sub. replace (Z.to_nat (p + len pat - p)) with (length pat) by (unfold len; lia).
    replace (Z.to_nat (p + len pat)) with (Z.to_nat p + length pat)%nat by (unfold len; lia).
    rewrite <- skipn_skipn'. rewrite firstn_skipn, firstn_skipn. reflexivity.
  - intros [before [after [E1 E2]]]. change @llen with @len in E2. subst text.
    unfold sub. rewrite skipn_app_len by lia. apply firstn_app_len. lia.
Qed.
Lemma occurs_range : forall text pat p, occurs text pat p -> 0 <= p /\ p + len pat <= len text.
Proof.
  intros text pat p [before [after [E1 E2]]]. change @llen with @len in E2. subst text. lenz.
  pose proof (len_nonneg _ before). pose proof (len_nonneg _ after). lia.
Qed.

Lemma find_fwd : forall fuel text pat p, range_ok text -> range_ok pat -> 0 <= p ->
  p <= klen text - klen pat + 1 -> klen text - klen pat + 1 - p < Z.of_nat fuel ->
  exists r, find_loop coll fuel text pat (klen pat) p (klen text - klen pat + 1) 1 = SOk r /\
    is_first (occurs (k_codes text) (k_codes pat)) p r.
Proof.
  unfold klen. change @slen with @len.
  induction fuel; intros text pat p Rt Rp Hp Hp2 Hf; [ lia | ].
  cbn [find_loop]. destruct (Z.eqb_spec p (len (k_codes text) - len (k_codes pat) + 1)) as [E|E].
  - exists (-1). split; [ reflexivity | ]. left. split; [ reflexivity | ]. intros q Hq Oq.
    apply occurs_range in Oq. lia.
  - pose proof (len_nonneg _ (k_codes pat)).
    destruct (compare_slice_main text p (p + len (k_codes pat)) pat 0 (len (k_codes pat)) Rt Rp) as [c [C1 [C2 _]]]; try lia.
    rewrite C1. specialize (C2 strict).
    assert (F : sub (k_codes pat) 0 (len (k_codes pat)) = k_codes pat).
    { unfold sub. rewrite Z.sub_0_r, to_nat_len, skipn_O. apply firstn_all. }
    rewrite F in C2. rewrite (occurs_sub (k_codes text) (k_codes pat) p) in C2 by lia.
    destruct (Z.eqb_spec c 0) as [Ec|Ec].
    + exists p. split; [ reflexivity | ]. right. split; [ lia | ]. split; [ apply C2; exact Ec | intros; lia ].
    + destruct (IHfuel text pat (p + 1) Rt Rp) as [r [R1 R2]]; try lia.
      exists r. split; [ exact R1 | ].
      assert (Np : ~ occurs (k_codes text) (k_codes pat) p) by (rewrite <- C2; exact Ec).
      destruct R2 as [[R2 R3]|[R2 [R3 R4]]].
      * left. split; [ exact R2 | ]. intros q Hq. destruct (Z.eq_dec q p) as [->|]; [ exact Np | apply R3; lia ].
      * right. split; [ lia | ]. split; [ exact R3 | ].
        intros q Hq. destruct (Z.eq_dec q p) as [->|]; [ exact Np | apply R4; lia ].
Qed.

Lemma find_bwd : forall fuel text pat p, range_ok text -> range_ok pat -> -1 <= p ->
  p + klen pat <= klen text -> p + 1 < Z.of_nat fuel ->
  exists r, find_loop coll fuel text pat (klen pat) p (-1) (-1) = SOk r /\
    is_last (occurs (k_codes text) (k_codes pat)) p r.
Proof.
  unfold klen. change @slen with @len.
  induction fuel; intros text pat p Rt Rp Hp Hp2 Hf; [ lia | ].
  cbn [find_loop]. destruct (Z.eqb_spec p (-1)) as [E|E].
  - exists (-1). split; [ reflexivity | ]. left. split; [ reflexivity | ]. intros q Hq Oq.
    apply occurs_range in Oq. lia.
  - pose proof (len_nonneg _ (k_codes pat)).
    destruct (compare_slice_main text p (p + len (k_codes pat)) pat 0 (len (k_codes pat)) Rt Rp) as [c [C1 [C2 _]]]; try lia.
    rewrite C1. specialize (C2 strict).
    assert (F : sub (k_codes pat) 0 (len (k_codes pat)) = k_codes pat).
    { unfold sub. rewrite Z.sub_0_r, to_nat_len, skipn_O. apply firstn_all. }
    rewrite F in C2. rewrite (occurs_sub (k_codes text) (k_codes pat) p) in C2 by lia.
    destruct (Z.eqb_spec c 0) as [Ec|Ec].
    + exists p. split; [ reflexivity | ]. right. split; [ lia | ]. split; [ apply C2; exact Ec | intros; lia ].
    + destruct (IHfuel text pat (p + -1) Rt Rp) as [r [R1 R2]]; try lia.
      exists r. split; [ exact R1 | ].
      assert (Np : ~ occurs (k_codes text) (k_codes pat) p) by (rewrite <- C2; exact Ec).
      destruct R2 as [[R2 R3]|[R2 [R3 R4]]].
      * left. split; [ exact R2 | ]. intros q Hq. destruct (Z.eq_dec q p) as [->|]; [ exact Np | apply R3; lia ].
      * right. split; [ lia | ]. split; [ exact R3 | ].
        intros q Hq. destruct (Z.eq_dec q p) as [->|]; [ exact Np | apply R4; lia ].
Qed.
End Cmp.
