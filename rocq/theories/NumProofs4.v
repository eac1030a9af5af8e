(* Lexicographic order of arrays without common parts; native integers. *)
From Coq Require Import ZArith List Lia Bool ZifyBool.
Import ListNotations.
From Verif Require Import Base NumModel NumSpec NumProofs NumProofs2 NumProofs3.
Local Open Scope Z_scope.
Ltac Zify.zify_post_hook ::= idtac.

Fixpoint lex_list (cmp : val -> val -> cres) (l m : list val) : cres :=
  match l, m with
  | [], [] => CEq
  | [], _ => CLt
  | _, [] => CGt
  | x :: l', y :: m' => match cmp x y with CEq => lex_list cmp l' m' | c => c end
  end.
Lemma lex_compare_arr : forall heap leaf k a b,
  lex_compare heap leaf (S k) (VArr a) (VArr b) = lex_list (lex_compare heap leaf k) (heap a) (heap b).
Proof.
  intros. cbn [lex_compare]. generalize (heap b). induction (heap a) as [ | x l IH]; intros [ | y m]; try reflexivity.
  cbn [lex_list]. destruct (lex_compare heap leaf k x y); try reflexivity. apply IH.
Qed.
Lemma elems_lex : forall f g l m c, (forall x y c', In x l -> In y m -> f x y = Some c' -> c' = g x y) ->
  compare_elems f l m = Some c ->
  (match c with CEq => if (length l <? length m)%nat then CLt else if (length m <? length l)%nat then CGt else CEq | _ => c end) =
  lex_list g l m.
Proof.
  intros f g l. induction l as [ | x l IH]; intros [ | y m] c H E; cbn [compare_elems lex_list] in *;
    try (injection E as <-; reflexivity).
  destruct (f x y) as [c' | ] eqn:Ef; [ | discriminate E ].
  rewrite <- (H x y c' (or_introl eq_refl) (or_introl eq_refl) Ef).
  destruct c'; try (injection E as <-; reflexivity).
  rewrite <- (IH m c (fun u v c'' Hu Hv => H u v c'' (or_intror Hu) (or_intror Hv)) E). reflexivity.
Qed.
Lemma inside_sub : forall heap v a b, inside heap v a -> inside heap (VArr a) b -> inside heap v b.
Proof.
  intros heap v a b H. induction H as [a | a v c I H IH]; intros K; [ exact K | ].
  eapply in_elem; [ exact I | ]. apply IH. exact K.
Qed.
Lemma check_refs_disjoint : forall hgt refs a b,
  (forall ra rb, In (ra, rb) refs -> (hgt a < hgt ra)%nat /\ (hgt b < hgt rb)%nat /\ a <> rb /\ b <> ra) ->
  check_refs a b refs = None.
Proof.
  intros hgt refs a b. induction refs as [ | [ra rb] refs IH]; intros R; [ reflexivity | ]. cbn [check_refs].
  destruct (R ra rb (or_introl eq_refl)) as (Ra & Rb & N1 & N2).
  destruct (a =? ra) eqn:E1; [ assert (a = ra) by lia; subst; lia | ].
  destruct (b =? rb) eqn:E2; [ assert (b = rb) by lia; subst; lia | ].
  destruct (a =? rb) eqn:E3; [ lia | ]. destruct (b =? ra) eqn:E4; [ lia | ]. cbn [andb orb].
  apply IH. intros. apply R. right. assumption.
Qed.
Definition leaf_cmp (strcmp : list Z -> list Z -> Z) (v w : val) : cres :=
  match compare strcmp (fun _ => []) 1 [] v w with Some c => c | None => CInd end.
Lemma compare_leaf : forall strcmp heap fuel refs v w, (forall a, v <> VArr a) \/ (forall a, w <> VArr a) ->
  compare strcmp heap (S fuel) refs v w = Some (leaf_cmp strcmp v w).
Proof.
  intros sc heap fuel refs v w H. unfold leaf_cmp. cbn [compare]. destruct (same_id v w).
  { destruct v; reflexivity. }
  destruct ((type_of v =? type_of w) || (type_of v <=? 4) && (type_of w <=? 4)); [ | reflexivity ].
  destruct v, w; try reflexivity. destruct H as [H | H]; exfalso; eapply H; reflexivity.
Qed.
Lemma compare_lex_aux : forall strcmp heap hgt v0 w0, heights heap hgt ->
  (forall x, inside heap v0 x -> inside heap w0 x -> False) ->
  forall fuel depth refs v w c,
  (forall x, inside heap v x -> inside heap v0 x) -> (forall x, inside heap w x -> inside heap w0 x) ->
  (forall ra rb, In (ra, rb) refs -> inside heap v0 ra /\ inside heap w0 rb /\
     (forall a, v = VArr a -> (hgt a < hgt ra)%nat) /\ (forall b, w = VArr b -> (hgt b < hgt rb)%nat)) ->
  (hval hgt v <= depth)%nat ->
  compare strcmp heap fuel refs v w = Some c -> c = lex_compare heap (leaf_cmp strcmp) depth v w.
Proof.
  intros sc heap hgt v0 w0 HH DJ. induction fuel as [ | fuel IH]; intros depth refs v w c I1 I2 R D E; [ discriminate | ].
  assert (LEAF : (forall a, v <> VArr a) \/ (forall a, w <> VArr a) -> c = lex_compare heap (leaf_cmp sc) depth v w).
  { intros L. rewrite compare_leaf in E by exact L. injection E as <-.
    destruct depth; [ reflexivity | ]. destruct v; try reflexivity. destruct w; try reflexivity.
    destruct L as [L | L]; exfalso; eapply L; reflexivity. }
  destruct v as [ | | | | | | | a | | | | ]; try (apply LEAF; left; intros; discriminate).
  destruct w as [ | | | | | | | b | | | | ]; try (apply LEAF; right; intros; discriminate).
  clear LEAF. cbn [compare] in E. cbn [hval] in D.
  assert (N : same_id (VArr a) (VArr b) = false).
  { cbn [same_id]. destruct (a =? b) eqn:X; [ exfalso | reflexivity ]. apply Z.eqb_eq in X. subst b.
    apply (DJ a); [ apply I1 | apply I2 ]; constructor. }
  rewrite N in E. cbn [type_of Z.eqb] in E. change (14 =? 14) with true in E. cbn [orb] in E.
  unfold compare_array in E.
  rewrite (check_refs_disjoint hgt refs a b) in E.
  2: { intros ra rb Hr. destruct (R ra rb Hr) as (Q1 & Q2 & Q3 & Q4).
       split; [ exact (Q3 a eq_refl) | ]. split; [ exact (Q4 b eq_refl) | ].
       split; intros ->; [ apply (DJ rb); [ apply I1; constructor | exact Q2 ] | apply (DJ ra); [ exact Q1 | apply I2; constructor ] ]. }
  destruct depth as [ | depth]; [ rewrite (HH a) in D; lia | ].
  rewrite lex_compare_arr.
  destruct (compare_elems (compare sc heap fuel ((a, b) :: refs)) (heap a) (heap b)) as [c' | ] eqn:EE; [ | discriminate E ].
  rewrite <- (elems_lex (compare sc heap fuel ((a, b) :: refs)) (lex_compare heap (leaf_cmp sc) depth) (heap a) (heap b) c').
  - destruct c'; injection E as <-; reflexivity.
  - intros x y c'' Hx Hy Hc. apply (IH depth ((a, b) :: refs) x y c''); [ | | | | exact Hc ].
    + intros z Hz. apply I1. eapply in_elem; eassumption.
    + intros z Hz. apply I2. eapply in_elem; eassumption.
    + intros ra rb [X | Hr].
      * injection X as <- <-. split; [ apply I1; constructor | ]. split; [ apply I2; constructor | ].
        split; intros z ->; [ exact (height_elem heap hgt a _ HH Hx) | exact (height_elem heap hgt b _ HH Hy) ].
      * destruct (R ra rb Hr) as (Q1 & Q2 & Q3 & Q4). split; [ exact Q1 | ]. split; [ exact Q2 | ].
        split; intros z ->; [ pose proof (height_elem heap hgt a _ HH Hx); specialize (Q3 a eq_refl)
                            | pose proof (height_elem heap hgt b _ HH Hy); specialize (Q4 b eq_refl) ]; cbn [hval] in *; lia.
    + pose proof (height_elem heap hgt a _ HH Hx). lia.
  - exact EE.
Qed.

(* ---- other values ---- *)
Lemma memcmp_lt : forall n a b, n = Nat.min (length a) (length b) ->
  (memcmp a b n < 0 \/ memcmp a b n = 0 /\ (length a < length b)%nat <-> bytes_lt a b).
Proof.
  induction n; intros [ | x a] [ | y b] N; cbn [length Nat.min] in N; try discriminate; cbn [memcmp length].
  - split; [ lia | intros H; inversion H ].
  - split; [ intros _; constructor | lia ].
  - split; [ lia | intros H; inversion H ].
  - injection N as N. specialize (IHn a b N).
    destruct (x <? y) eqn:E1; [ split; [ intros _; apply bl_head; lia | lia ] | ].
    destruct (x >? y) eqn:E2; [ split; [ lia | intros H; inversion H; subst; lia ] | ].
    assert (x = y) by lia. subst y. split.
    + intros H. apply bl_tail. apply IHn. lia.
    + intros H. inversion H; subst; [ lia | ]. assert (Q : bytes_lt a b) by assumption. apply IHn in Q. lia.
Qed.
Lemma compare_buf_lt : forall a b, compare_buf a b = CLt <-> bytes_lt a b.
Proof.
  intros a b. rewrite <- (memcmp_lt _ a b eq_refl). unfold compare_buf.
  set (n := Nat.min (length a) (length b)).
  assert (X : (match n with O => 0 | _ => memcmp a b n end) = memcmp a b n) by (destruct n; [ destruct a, b; reflexivity | reflexivity ]).
  rewrite X. destruct (memcmp a b n =? 0) eqn:Z0; cbn [negb].
  - destruct (Nat.ltb_spec (length a) (length b)); [ split; [ lia | reflexivity ] | ].
    destruct (Nat.ltb_spec (length b) (length a)); (split; [ discriminate | lia ]).
  - destruct (memcmp a b n >? 0) eqn:G; split; try discriminate; try lia. reflexivity.
Qed.
(* pairs compared by a comparison which finds its operands equal *)
Definition supported (heap : Z -> list val) (refs : list (Z * Z)) (P : val -> val -> Prop) : Prop :=
  forall v w, P v w -> equal heap v w \/
    exists a b, v = VArr a /\ w = VArr b /\ (In (a, b) refs \/ Forall2 P (heap a) (heap b)).
Lemma forall2_mono : forall (P Q : val -> val -> Prop) l m, (forall x y, P x y -> Q x y) -> Forall2 P l m -> Forall2 Q l m.
Proof. intros P Q l m H F. induction F; constructor; auto. Qed.
Lemma elems_supported : forall heap refs f l m,
  (forall x y, In x l -> In y m -> f x y = Some CEq -> exists P, supported heap refs P /\ P x y) ->
  length l = length m -> compare_elems f l m = Some CEq -> exists P, supported heap refs P /\ Forall2 P l m.
Proof.
  intros heap refs f l. induction l as [ | x l IH]; intros [ | y m] H L E; try discriminate L.
  - exists (fun _ _ => False). split; [ intros ? ? [] | constructor ].
  - cbn [compare_elems] in E. destruct (f x y) as [[ | | | ] | ] eqn:Ef; try discriminate E.
    destruct (H x y (or_introl eq_refl) (or_introl eq_refl) Ef) as (P & SP & Pxy).
    destruct (IH m (fun u v Hu Hv => H u v (or_intror Hu) (or_intror Hv)) ltac:(injection L as L; exact L) E) as (Q & SQ & FQ).
    exists (fun v w => P v w \/ Q v w). split.
    + intros v w [Hv | Hv].
      * destruct (SP v w Hv) as [ | (a & b & -> & -> & [I | F])]; [ left; assumption | right; exists a, b; auto | right ].
        exists a, b. split; [ reflexivity | ]. split; [ reflexivity | ]. right. eapply forall2_mono; [ | exact F ]. cbv beta. tauto.
      * destruct (SQ v w Hv) as [ | (a & b & -> & -> & [I | F])]; [ left; assumption | right; exists a, b; auto | right ].
        exists a, b. split; [ reflexivity | ]. split; [ reflexivity | ]. right. eapply forall2_mono; [ | exact F ]. cbv beta. tauto.
    + constructor; [ left; exact Pxy | ]. eapply forall2_mono; [ | exact FQ ]. cbv beta. tauto.
Qed.
Lemma check_refs_eq : forall refs a b, a <> b -> check_refs a b refs = Some CEq -> In (a, b) refs.
Proof.
  induction refs as [ | [ra rb] refs IH]; intros a b N E; [ discriminate | ]. cbn [check_refs] in E.
  destruct (a =? ra) eqn:E1, (b =? rb) eqn:E2, (a =? rb) eqn:E3, (b =? ra) eqn:E4; cbn [andb orb] in E;
    try (left; f_equal; lia); try (right; apply IH; assumption);
    apply some_inj in E; apply compare_int_eq in E; contradiction.
Qed.
Lemma compare_eq_supported : forall strcmp heap obj, separating strcmp -> coherent obj heap ->
  forall fuel refs v w, located obj v -> located obj w -> compare strcmp heap fuel refs v w = Some CEq ->
  exists P, supported heap refs P /\ P v w.
Proof.
  intros sc heap obj SE CO. induction fuel as [ | fuel IH]; intros refs v w L1 L2 E; [ discriminate | ].
  assert (ONE : equal heap v w -> exists P, supported heap refs P /\ P v w).
  { intros Q. exists (fun x y => x = v /\ y = w). split; [ | auto ]. intros x y [-> ->]. left. exact Q. }
  destruct (same_id v w) eqn:I.
  { apply ONE. pose proof (same_id_eq obj v w L1 L2 I). subst w. apply eq_same; [ exact I | ].
    intros [a ->]. cbn [compare same_id] in E. rewrite Z.eqb_refl in E. discriminate E. }
  assert (LEAF : (forall a, v <> VArr a) \/ (forall a, w <> VArr a) -> exists P, supported heap refs P /\ P v w).
  { intros L. apply ONE. rewrite compare_leaf in E by exact L. apply some_inj in E.
    assert (E1 : compare sc (fun _ => []) 1 [] v w = Some CEq) by (rewrite compare_leaf by exact L; f_equal; exact E).
    assert (Q : equal (fun _ => []) v w).
    { apply (compare_equal_aux sc (fun _ => []) obj (fun _ => 1%nat) SE (fun _ => Forall_nil _) (fun _ => eq_refl) 1 [] v w CEq L1 L2);
        [ intros ? ? ? ? _ _ [] | exact E1 | reflexivity ]. }
    inversion Q; subst; try (constructor; assumption); try congruence.
    destruct L as [L | L]; exfalso; eapply L; reflexivity. }
  destruct v as [ | | | | | | | a | | | | ]; try (apply LEAF; left; intros; discriminate).
  destruct w as [ | | | | | | | b | | | | ]; try (apply LEAF; right; intros; discriminate).
  clear LEAF ONE. cbn [compare] in E. rewrite I in E. change (type_of (VArr a) =? type_of (VArr b)) with true in E.
  cbn [orb] in E. unfold compare_array in E. assert (N : a <> b) by (cbn in I; lia).
  destruct (check_refs a b refs) as [c | ] eqn:C.
  { apply some_inj in E. subst c. apply check_refs_eq in C; [ | exact N ].
    exists (fun x y => x = VArr a /\ y = VArr b). split; [ | auto ]. intros x y [-> ->]. right. eauto 8. }
  destruct (compare_elems (compare sc heap fuel ((a, b) :: refs)) (heap a) (heap b)) as [[ | | | ] | ] eqn:EE; try discriminate E.
  assert (L : length (heap a) = length (heap b)).
  { apply some_inj in E. destruct (Nat.ltb_spec (length (heap a)) (length (heap b))); [ discriminate | ].
    destruct (Nat.ltb_spec (length (heap b)) (length (heap a))); [ discriminate | lia ]. }
  destruct (elems_supported heap ((a, b) :: refs) _ _ _
    (fun x y Hx Hy => IH ((a, b) :: refs) x y (proj1 (Forall_forall _ _) (CO a) x Hx) (proj1 (Forall_forall _ _) (CO b) y Hy)) L EE)
    as (P & SP & FP).
  exists (fun x y => P x y \/ (x = VArr a /\ y = VArr b)). split; [ | auto ].
  assert (FQ : Forall2 (fun x y => P x y \/ (x = VArr a /\ y = VArr b)) (heap a) (heap b)).
  { eapply forall2_mono; [ | exact FP ]. cbv beta. tauto. }
  intros x y [Hx | [-> ->]].
  - destruct (SP x y Hx) as [ | (a1 & b1 & -> & -> & [[Q | Q] | F])]; [ left; assumption | | | ]; right; exists a1, b1.
    + injection Q as <- <-. auto.
    + auto.
    + split; [ reflexivity | ]. split; [ reflexivity | ]. right. eapply forall2_mono; [ | exact F ]. cbv beta. tauto.
  - right. exists a, b. auto.
Qed.

(* ---- native integers ---- *)
Lemma le_bytes_length : forall n x, length (le_bytes n x) = n.
Proof. induction n; intros; cbn [le_bytes length]; [ reflexivity | rewrite IHn; reflexivity ]. Qed.
Lemma le_value_bytes : forall n x, le_value (le_bytes n x) = x mod 2 ^ (8 * Z.of_nat n).
Proof.
  induction n; intros x; cbn [le_bytes le_value]; [ change (2 ^ _) with 1; rewrite Z.mod_1_r; reflexivity | ].
  rewrite IHn. replace (8 * Z.of_nat (S n)) with (8 + 8 * Z.of_nat n) by lia.
  rewrite pow_split by lia. change (2 ^ 8) with 256. pose proof (pow_pos (8 * Z.of_nat n) ltac:(lia)).
  rewrite Z.rem_mul_r by lia. reflexivity.
Qed.
Lemma get_integer_int : forall v, is_int v -> get_integer v = ROk (int_of v).
Proof. intros [] H; try contradiction; reflexivity. Qed.

(* floor of a double *)
Lemma dfloor_spec : forall m e f, -1074 <= e -> f = dfloor m e ->
  f * 2 ^ 1074 <= m * 2 ^ (e + 1074) < (f + 1) * 2 ^ 1074.
Proof.
  intros m e f He ->. unfold dfloor. destruct (0 <=? e) eqn:E.
  - rewrite pow_split by lia. change (2 ^ 1074) with B. pose proof B_pos. rewrite Z.mul_assoc. nia.
  - assert (X : 2 ^ 1074 = 2 ^ (- e) * 2 ^ (e + 1074)) by (rewrite <- pow_split by lia; f_equal; lia).
    rewrite X. pose proof (pow_pos (- e) ltac:(lia)) as P1. pose proof (pow_pos (e + 1074) ltac:(lia)) as P2.
    destruct (div_parts m (2 ^ (- e)) P1) as [Q R]. clear X. revert Q R P1 P2.
    generalize (m / 2 ^ (- e)). generalize (m mod 2 ^ (- e)). generalize (2 ^ (- e)). generalize (2 ^ (e + 1074)).
    intros s p r q Q R P1 P2. rewrite Q.
    assert (0 <= r * s) by (apply Z.mul_nonneg_nonneg; lia). assert (0 < (p - r) * s) by (apply Z.mul_pos_pos; lia).
    clear - H H0. split; [ ring_simplify; ring_simplify in H; lia | ring_simplify; ring_simplify in H0; lia ].
Qed.
Lemma limit_values : dval (DFin (-1) 63) = MVal (- 2 ^ 63 * B) /\ dval (DFin 1 63) = MVal (2 ^ 63 * B).
Proof. Transparent B. split; vm_compute; reflexivity. Qed.
Opaque B.
