(* Lemmas on the comparison of arrays and on native conversions. *)
From Coq Require Import ZArith List Lia Bool ZifyBool.
Import ListNotations.
From Verif Require Import Base NumModel NumSpec NumProofs NumProofs2.
Local Open Scope Z_scope.
Ltac Zify.zify_post_hook ::= idtac.

Lemma some_inj {A} (a b : A) : Some a = Some b -> a = b.
Proof. congruence. Qed.

(* ---- termination ---- *)
Definition flat (refs : list (Z * Z)) : list Z := flat_map (fun p => [fst p; snd p]) refs.
Lemma flat_length : forall refs, length (flat refs) = (2 * length refs)%nat.
Proof. induction refs as [ | [a b] refs IH]; [ reflexivity | ]. cbn [flat flat_map app length fst snd] in *. unfold flat in IH. lia. Qed.
Lemma check_refs_none : forall refs a b, check_refs a b refs = None -> ~ In a (flat refs) /\ ~ In b (flat refs).
Proof.
  induction refs as [ | [ra rb] refs IH]; intros a b H; [ cbn; tauto | ].
  cbn [check_refs] in H. destruct (a =? ra) eqn:E1, (b =? rb) eqn:E2, (a =? rb) eqn:E3, (b =? ra) eqn:E4; try discriminate H.
  cbn [andb orb] in H. destruct (IH a b H) as [X Y]. cbn [flat flat_map app In fst snd]. unfold flat in *.
  split; intros [Q | [Q | Q]]; try contradiction; lia.
Qed.
Lemma compare_elems_total : forall f l m, (forall x y, In x l -> In y m -> f x y <> None) -> compare_elems f l m <> None.
Proof.
  intros f l. induction l as [ | x l IH]; intros [ | y m] H; cbn [compare_elems]; try discriminate.
  pose proof (H x y (or_introl eq_refl) (or_introl eq_refl)) as N.
  destruct (f x y) as [[ | | | ] | ] eqn:E; try discriminate; [ | contradiction ].
  apply IH. intros. apply H; right; assumption.
Qed.
Definition arr_in (arrays : list Z) (v : val) : Prop := match v with VArr a => In a arrays | _ => True end.
Lemma compare_total : forall strcmp heap arrays, closed heap arrays -> forall fuel refs v w,
  NoDup (flat refs) -> incl (flat refs) arrays -> arr_in arrays v -> arr_in arrays w ->
  (length arrays + 2 <= 2 * fuel + 2 * length refs)%nat -> compare strcmp heap fuel refs v w <> None.
Proof.
  intros sc heap arrays CL. induction fuel as [ | fuel IH]; intros refs v w ND IN A1 A2 F.
  { pose proof (NoDup_incl_length ND IN). rewrite flat_length in *. lia. }
  cbn [compare]. destruct (same_id v w) eqn:I; [ destruct v; discriminate | ].
  destruct ((type_of v =? type_of w) || (type_of v <=? 4) && (type_of w <=? 4)); [ | discriminate ].
  destruct v, w; try discriminate. unfold compare_array.
  destruct (check_refs a a0 refs) eqn:C; [ discriminate | ].
  destruct (check_refs_none refs a a0 C) as [N1 N2].
  cbn [same_id] in I. apply Z.eqb_neq in I.
  assert (E : compare_elems (compare sc heap fuel ((a, a0) :: refs)) (heap a) (heap a0) <> None).
  { apply compare_elems_total. intros x y Hx Hy. apply IH.
    - cbn [flat flat_map app fst snd]. constructor; [ cbn [In]; intros [ | ]; [ congruence | contradiction ] | ].
      constructor; assumption.
    - cbn [flat flat_map app fst snd]. intros z [<- | [<- | Hz]]; [ exact A1 | exact A2 | apply IN; exact Hz ].
    - destruct x; cbn [arr_in]; trivial. exact (CL _ A1 _ Hx).
    - destruct y; cbn [arr_in]; trivial. exact (CL _ A2 _ Hy).
    - cbn [length]. lia. }
  destruct (compare_elems _ _ _) as [[ | | | ] | ]; try discriminate. contradiction.
Qed.

(* ---- equality ---- *)
Lemma fold_max_in : forall l n, In n l -> (n <= fold_right Nat.max O l)%nat.
Proof. induction l; intros n H; [ contradiction | ]. cbn [fold_right]. destruct H as [-> | H]; [ lia | specialize (IHl n H); lia ]. Qed.
Lemma height_elem : forall heap hgt a v, heights heap hgt -> In v (heap a) -> (hval hgt v < hgt a)%nat.
Proof.
  intros heap hgt a v H I. rewrite (H a). pose proof (fold_max_in _ _ (in_map (hval hgt) _ _ I)). lia.
Qed.
Lemma equal_arr_inv : forall heap a b, equal heap (VArr a) (VArr b) -> a = b \/ Forall2 (equal heap) (heap a) (heap b).
Proof.
  intros heap a b H. inversion H as [v w S _ | v w N _ _ _ | v w N _ _ | | | a' b' F ]; subst; try contradiction.
  - left. cbn in S. lia.
  - right. exact F.
Qed.
Lemma equal_types : forall heap v w, equal heap v w ->
  (exists a b, v = VArr a /\ w = VArr b) \/ (forall hgt, hval hgt v = O /\ hval hgt w = O).
Proof.
  intros heap v w H. inversion H as [v' w' S _ | v' w' N1 N2 _ _ | v' w' N1 N2 _ | | | a' b' F ]; subst.
  - destruct v, w; try discriminate S; try (right; split; reflexivity). left. eauto.
  - right. intros. destruct v, w; try contradiction; split; reflexivity.
  - right. intros. destruct v, w; try contradiction; split; reflexivity.
  - right. split; reflexivity.
  - right. split; reflexivity.
  - left. eauto.
Qed.
Lemma equal_height : forall heap hgt, heights heap hgt -> forall n v w, (hval hgt v <= n)%nat -> equal heap v w -> hval hgt v = hval hgt w.
Proof.
  intros heap hgt HH. induction n as [ | n IH]; intros v w Hn E;
    (destruct (equal_types heap v w E) as [(a & b & -> & ->) | Z0]; [ | destruct (Z0 hgt) as [-> ->]; reflexivity ]).
  - cbn [hval] in Hn. rewrite (HH a) in Hn. lia.
  - destruct (equal_arr_inv heap a b E) as [-> | F]; [ reflexivity | ]. cbn [hval] in *.
    rewrite (HH a), (HH b). f_equal. f_equal.
    assert (Le : forall x, In x (heap a) -> (hval hgt x <= n)%nat).
    { intros x Hx. pose proof (height_elem heap hgt a x HH Hx). lia. }
    clear E Hn. revert Le. induction F as [ | x y l m Hxy F IHF]; intros Le; [ reflexivity | ].
    cbn [map]. f_equal; [ apply IH; [ apply Le; left; reflexivity | exact Hxy ] | apply IHF; intros; apply Le; right; assumption ].
Qed.
Lemma compare_elems_eq : forall f (P : val -> val -> Prop) l m c,
  (forall x y c', In x l -> In y m -> f x y = Some c' -> (c' = CEq <-> P x y)) ->
  compare_elems f l m = Some c -> (c = CEq /\ length l = length m <-> Forall2 P l m).
Proof.
  intros f P l. induction l as [ | x l IH]; intros [ | y m] c H E; cbn [compare_elems] in E.
  - injection E as <-. split; [ constructor | split; reflexivity ].
  - split; [ intros [_ L]; discriminate | intros F; inversion F ].
  - split; [ intros [_ L]; discriminate | intros F; inversion F ].
  - pose proof (H x y) as Hxy. destruct (f x y) as [c' | ] eqn:Ef; [ | discriminate E ].
    specialize (Hxy c' (or_introl eq_refl) (or_introl eq_refl) eq_refl).
    destruct c'.
    + specialize (IH m c (fun u v c'' Hu Hv => H u v c'' (or_intror Hu) (or_intror Hv)) E).
      split.
      * intros [-> L]. constructor; [ apply Hxy; reflexivity | apply IH; split; [ reflexivity | injection L as L; exact L ] ].
      * intros F. inversion F; subst. destruct (proj2 IH) as [-> L]; [ assumption | ]. cbn [length]. auto.
    + injection E as <-. split; [ intros [X _]; discriminate | intros F; inversion F; subst; exfalso; assert (Q : P x y) by assumption; apply Hxy in Q; discriminate ].
    + injection E as <-. split; [ intros [X _]; discriminate | intros F; inversion F; subst; exfalso; assert (Q : P x y) by assumption; apply Hxy in Q; discriminate ].
    + injection E as <-. split; [ intros [X _]; discriminate | intros F; inversion F; subst; exfalso; assert (Q : P x y) by assumption; apply Hxy in Q; discriminate ].
Qed.
Lemma compare_int_eq : forall a b, compare_int a b = CEq <-> a = b.
Proof. intros. unfold compare_int. destruct (a <? b) eqn:?, (a >? b) eqn:?; split; intros; try discriminate; lia || reflexivity. Qed.
Lemma memcmp_eq : forall n a b, length a = n -> length b = n -> (memcmp a b n = 0 <-> a = b).
Proof.
  induction n; intros [ | x a] [ | y b] H1 H2; try discriminate; cbn [memcmp]; [ tauto | ].
  injection H1 as H1. injection H2 as H2. specialize (IHn a b H1 H2).
  destruct (x <? y) eqn:?, (x >? y) eqn:?; try (split; intros; [ discriminate | ]; assert (x = y) by congruence; lia).
  assert (x = y) by lia. subst. rewrite IHn. split; congruence.
Qed.
Lemma compare_buf_eq : forall a b, compare_buf a b = CEq <-> a = b.
Proof.
  intros a b. unfold compare_buf. set (n := Nat.min (length a) (length b)).
  destruct (Nat.ltb_spec (length a) (length b)) as [L | L].
  { split; [ | intros ->; lia ]. destruct (negb _); [ destruct (_ >? _); discriminate | discriminate ]. }
  destruct (Nat.ltb_spec (length b) (length a)) as [L2 | L2].
  { split; [ | intros ->; lia ]. destruct (negb _); [ destruct (_ >? _); discriminate | discriminate ]. }
  assert (E : length a = length b) by lia. assert (N : n = length a) by (unfold n; lia).
  rewrite <- (memcmp_eq n a b) by lia.
  destruct n.
  - cbn. split; intros; [ destruct a; reflexivity | reflexivity ].
  - destruct (memcmp a b (S n) =? 0) eqn:Z0; cbn [negb].
    + split; [ lia | reflexivity ].
    + split; [ destruct (_ >? _); discriminate | lia ].
Qed.
Lemma check_refs_some : forall heap hgt refs a b c, heights heap hgt ->
  (forall ra rb, In (ra, rb) refs -> (hgt a < hgt ra /\ hgt b < hgt rb)%nat) ->
  check_refs a b refs = Some c -> c = compare_int a b /\ hgt a <> hgt b.
Proof.
  intros heap hgt refs a b c HH. induction refs as [ | [ra rb] refs IH]; intros R E; [ discriminate | ].
  cbn [check_refs] in E. destruct (R ra rb (or_introl eq_refl)) as [Ra Rb].
  destruct (a =? ra) eqn:E1; [ assert (a = ra) by lia; subst; lia | ].
  destruct (b =? rb) eqn:E2; [ assert (b = rb) by lia; subst; lia | ].
  destruct (a =? rb) eqn:E3; cbn [andb orb] in E.
  { apply some_inj in E. split; [ symmetry; exact E | ]. assert (a = rb) by lia. subst. lia. }
  destruct (b =? ra) eqn:E4.
  { apply some_inj in E. split; [ symmetry; exact E | ]. assert (b = ra) by lia. subst. lia. }
  apply IH; [ | exact E ]. intros. apply R. right. assumption.
Qed.
Lemma compare_equal_aux : forall strcmp heap obj hgt, separating strcmp -> coherent obj heap -> heights heap hgt ->
  forall fuel refs v w c, located obj v -> located obj w ->
  (forall a b ra rb, v = VArr a -> w = VArr b -> In (ra, rb) refs -> (hgt a < hgt ra /\ hgt b < hgt rb)%nat) ->
  compare strcmp heap fuel refs v w = Some c -> (c = CEq <-> equal heap v w).
Proof.
  intros sc heap obj hgt SE CO HH. induction fuel as [ | fuel IH]; intros refs v w c L1 L2 R E; [ discriminate | ].
  cbn [compare] in E. destruct (same_id v w) eqn:I.
  { pose proof (same_id_eq obj v w L1 L2 I). subst w.
    destruct v; try (injection E as <-; split; [ intros _; apply eq_same; [ exact I | intros [? X]; discriminate ] | reflexivity ]).
    destruct d.
    - injection E as <-. split; [ discriminate | ]. intros X. exfalso. inversion X; subst.
      + match goal with H : ~ is_nan _ |- _ => apply H; eexists; reflexivity end.
      + match goal with H : cmp_eq _ = true |- _ => discriminate H end.
      + contradiction.
    - injection E as <-. split; [ intros _; apply eq_same; [ exact I | intros [? X]; discriminate ] | reflexivity ].
    - injection E as <-. split; [ intros _; apply eq_same; [ exact I | intros [? X]; discriminate ] | reflexivity ]. }
  assert (NS : forall P : Prop, (same_id v w = true -> P)) by (intros P H; congruence).
  destruct ((type_of v =? type_of w) || (type_of v <=? 4) && (type_of w <=? 4)) eqn:T.
  2: { injection E as <-. split; [ destruct (type_of v <? type_of w); discriminate | ]. intros X. exfalso.
       inversion X; subst; try congruence; try (cbn in T; discriminate T).
       - destruct v, w; try contradiction; discriminate T.
       - destruct v, w; try contradiction; discriminate T. }
  assert (FL : forall x y, is_num x -> is_num y -> ~ is_int x \/ ~ is_int y -> same_id x y = false ->
    Some (compare_float x y) = Some c -> (c = CEq <-> equal heap x y)).
  { intros x y N1 N2 NI S E'. injection E' as <-. split.
    - intros X. apply eq_num; auto. rewrite X. reflexivity.
    - intros X. inversion X; subst; try congruence; try contradiction; try tauto.
      destruct (compare_float x y); [ reflexivity | discriminate .. ]. }
  assert (IN : forall x y, is_int x -> is_int y -> same_id x y = false ->
    Some (compare_int (int_of x) (int_of y)) = Some c -> (c = CEq <-> equal heap x y)).
  { intros x y N1 N2 S E'. injection E' as <-. rewrite compare_int_eq.
    assert (IV : value x = value y <-> int_of x = int_of y).
    { rewrite (proj1 (int_of_value x N1)), (proj1 (int_of_value y N2)). unfold ival. change (2 ^ 1074) with B.
      split; [ | congruence ]. intros X. injection X as X. apply Z.mul_reg_r in X; [ exact X | pose proof B_pos; lia ]. }
    rewrite <- IV. split; [ apply eq_int; assumption | ]. intros X. inversion X; subst; try congruence; try contradiction; try tauto. }
  destruct v, w; try discriminate T;
    try (apply FL; [ exact Logic.I | exact Logic.I | cbn; tauto | exact I | exact E ]);
    try (apply IN; [ exact Logic.I | exact Logic.I | exact I | exact E ]);
    try discriminate I.
  - rewrite compare_int_double in E. apply IN; [ exact Logic.I | exact Logic.I | exact I | exact E ].
  - injection E as <-. split; [ | intros X; inversion X; subst; congruence || contradiction ].
    intros X. exfalso. rewrite compare_int_eq in X. destruct b, b0; try discriminate X; discriminate I.
  - injection E as <-. split.
    + intros X. assert (Z0 : sc codes codes0 = 0) by (destruct (sc codes codes0 <? 0) eqn:?, (sc codes codes0 =? 0) eqn:?; cbn in X; try discriminate; lia).
      apply SE in Z0. subst. apply eq_str.
    + intros X. inversion X; subst; try congruence; try contradiction.
      rewrite (proj2 (SE codes0 codes0) eq_refl). reflexivity.
  - injection E as <-. split; [ rewrite compare_int_eq; intros ->; cbn in I; lia | intros X; inversion X; subst; congruence || contradiction ].
  - unfold compare_array in E. rename a0 into b.
    assert (Nab : a <> b) by (cbn in I; lia).
    destruct (check_refs a b refs) as [c' | ] eqn:C.
    { injection E as <-.
      destruct (check_refs_some heap hgt refs a b c' HH (fun ra rb => R a b ra rb eq_refl eq_refl) C) as [-> NH].
      rewrite compare_int_eq. split; [ intros; contradiction | ]. intros X. exfalso. apply NH.
      exact (equal_height heap hgt HH (hgt a) (VArr a) (VArr b) (le_n _) X). }
    destruct (compare_elems (compare sc heap fuel ((a, b) :: refs)) (heap a) (heap b)) as [c' | ] eqn:EE; [ | discriminate E ].
    assert (X : c' = CEq /\ length (heap a) = length (heap b) <-> Forall2 (equal heap) (heap a) (heap b)).
    { apply (compare_elems_eq (compare sc heap fuel ((a, b) :: refs))); [ | exact EE ].
      intros x y c'' Hx Hy Hc. apply (IH ((a, b) :: refs) x y c''); [ | | | exact Hc ].
      - exact (proj1 (Forall_forall _ _) (CO a) x Hx).
      - exact (proj1 (Forall_forall _ _) (CO b) y Hy).
      - intros a1 b1 ra rb -> -> Hr.
        pose proof (height_elem heap hgt a _ HH Hx) as Ha. pose proof (height_elem heap hgt b _ HH Hy) as Hb. cbn [hval] in *.
        destruct Hr as [X | Hr]; [ injection X as <- <-; lia | ].
        destruct (R a b ra rb eq_refl eq_refl Hr). lia. }
    assert (Y : equal heap (VArr a) (VArr b) <-> Forall2 (equal heap) (heap a) (heap b)).
    { split; [ intros Q; destruct (equal_arr_inv heap a b Q); [ contradiction | assumption ] | apply eq_arr ]. }
    rewrite Y, <- X. destruct c'; injection E as <-; try (split; [ discriminate | intros [Q _]; discriminate ]).
    destruct (Nat.ltb_spec (length (heap a)) (length (heap b))); [ split; [ discriminate | intros [_ Q]; lia ] | ].
    destruct (Nat.ltb_spec (length (heap b)) (length (heap a))); [ split; [ discriminate | intros [_ Q]; lia ] | ].
    split; [ intros _; split; [ reflexivity | lia ] | reflexivity ].
  - injection E as <-. rewrite compare_buf_eq. split; [ intros ->; apply eq_buf | intros X; inversion X; subst; congruence || contradiction ].
  - injection E as <-. split; [ rewrite compare_int_eq; intros ->; cbn in I; lia | intros X; inversion X; subst; congruence || contradiction ].
  - injection E as <-. split; [ rewrite compare_int_eq; intros ->; cbn in I; lia | intros X; inversion X; subst; congruence || contradiction ].
  - injection E as <-. split; [ rewrite compare_int_eq; intros ->; cbn in I; lia | intros X; inversion X; subst; congruence || contradiction ].
Qed.
