(* Lemmas on the comparison of values. *)
From Coq Require Import ZArith List Lia Bool ZifyBool.
Import ListNotations.
From Verif Require Import Base NumModel NumSpec NumProofs.
Local Open Scope Z_scope.
Ltac Zify.zify_post_hook ::= idtac.

Definition B : Z := 2 ^ 1074.
Lemma B_pos : 0 < B. Proof. apply pow_pos. lia. Qed.
Opaque B.

(* value used by a comparison with a float *)
Definition fvalue (v : val) : mval :=
  match v with VSmall n => MVal (rnd n * B) | VInt _ n => MVal (rnd n * B) | VFlt _ d => dval d | _ => MNan end.
Definition of_cmp (c : option comparison) : cres :=
  match c with None => CInd | Some Lt => CLt | Some Gt => CGt | Some Eq => CEq end.

Lemma small_int64 : forall n, - 2 ^ 62 <= n < 2 ^ 62 -> is_int64 n.
Proof. intros. unfold is_int64, INT64_MIN, INT64_MAX. change (2 ^ 62) with 4611686018427387904 in *. lia. Qed.
Lemma get_float_value : forall v, is_num v -> vwf v -> dwf (get_float v) /\ dval (get_float v) = fvalue v.
Proof.
  intros v N W. destruct v; try contradiction; cbn [get_float fvalue vwf] in *.
  - apply of_int_value. apply small_int64. exact W.
  - apply of_int_value. exact W.
  - split; [ exact W | reflexivity ].
Qed.
Lemma compare_float_value : forall v w, is_num v -> is_num w -> vwf v -> vwf w ->
  compare_float v w = of_cmp (mcompare (fvalue v) (fvalue w)).
Proof.
  intros v w N1 N2 W1 W2. unfold compare_float.
  destruct (get_float_value v N1 W1) as [D1 E1]. destruct (get_float_value w N2 W2) as [D2 E2].
  rewrite dcompare_value by assumption. rewrite E1, E2. destruct (mcompare _ _) as [[ | | ] | ]; reflexivity.
Qed.

Definition int_of (v : val) : Z := match v with VSmall n => n | VInt _ n => n | _ => 0 end.
Definition ncmp (v w : val) : cres :=
  match v, w with
  | VFlt _ _, _ | _, VFlt _ _ => of_cmp (mcompare (fvalue v) (fvalue w))
  | _, _ => compare_int (int_of v) (int_of w)
  end.
Lemma compare_int_refl : forall n, compare_int n n = CEq.
Proof. intros. unfold compare_int. rewrite Z.ltb_irrefl, Z.gtb_ltb, Z.ltb_irrefl. reflexivity. Qed.
Lemma compare_int_double : forall n m, compare_int (2 * n) (2 * m) = compare_int n m.
Proof.
  intros. unfold compare_int. destruct (2 * n <? 2 * m) eqn:?, (n <? m) eqn:?, (2 * n >? 2 * m) eqn:?, (n >? m) eqn:?; lia || reflexivity.
Qed.
Lemma mcompare_refl : forall x, x <> MNan -> mcompare x x = Some Eq.
Proof. intros [ | | | u] H; try reflexivity; [ contradiction | cbn [mcompare]; rewrite Z.compare_refl; reflexivity ]. Qed.
Lemma dval_nan : forall d, dval d = MNan <-> d = DNan.
Proof. intros [ | [] | m e]; cbn [dval]; split; congruence. Qed.

Lemma compare_num : forall strcmp heap k refs v w, is_num v -> is_num w -> vwf v -> vwf w -> (same_id v w = true -> v = w) ->
  compare strcmp heap (S k) refs v w = Some (ncmp v w).
Proof.
  intros sc h k refs v w N1 N2 W1 W2 C. cbn [compare].
  destruct (same_id v w) eqn:I.
  - specialize (C eq_refl). subst w. destruct v; try contradiction; cbn [ncmp fvalue].
    + rewrite compare_int_refl. reflexivity.
    + rewrite compare_int_refl. reflexivity.
    + destruct d as [ | s | m e].
      * reflexivity.
      * rewrite mcompare_refl; [ reflexivity | destruct s; discriminate ].
      * rewrite mcompare_refl; [ reflexivity | discriminate ].
  - clear C I. assert (T : forall u, is_num u -> type_of u <=? 4 = true) by (intros []; try contradiction; reflexivity).
    rewrite (T v N1), (T w N2). cbn [andb]. rewrite orb_true_r.
    destruct v; try contradiction; destruct w; try contradiction; cbn [ncmp int_of];
      try (rewrite compare_float_value by assumption; reflexivity); try reflexivity.
    rewrite compare_int_double. reflexivity.
Qed.

(* comparison of integers with the value of a float *)
Lemma of_cmp_val : forall x y c, of_cmp (mcompare x y) = c ->
  match c with
  | CLt => mlt x y | CGt => mlt y x | CEq => meq x y | CInd => x = MNan \/ y = MNan
  end.
Proof.
  intros x y c <-. destruct x as [ | | | a], y as [ | | | b]; cbn [mcompare of_cmp mlt]; unfold meq; auto;
    try (split; [ reflexivity | discriminate ]).
  destruct (a ?= b) eqn:E; [ apply Z.compare_eq in E; subst; split; [ reflexivity | discriminate ] | | ].
  - apply Z.compare_lt_iff in E. exact E.
  - apply Z.compare_gt_iff in E. exact E.
Qed.
Lemma mlt_irrefl : forall x, ~ mlt x x. Proof. intros [ | | | u]; cbn [mlt]; lia. Qed.
Lemma mlt_trans : forall x y z, mlt x y -> mlt y z -> mlt x z.
Proof. intros [ | | | u] [ | | | v] [ | | | w]; cbn [mlt]; tauto || lia. Qed.
Lemma mlt_asym : forall x y, mlt x y -> ~ mlt y x.
Proof. intros x y H1 H2. exact (mlt_irrefl x (mlt_trans _ _ _ H1 H2)). Qed.
Lemma mlt_not_eq : forall x y, mlt x y -> ~ meq x y.
Proof. intros x y H [-> _]. exact (mlt_irrefl _ H). Qed.
Lemma mlt_not_nan : forall x y, mlt x y -> x <> MNan /\ y <> MNan.
Proof. intros [ | | | u] [ | | | v]; cbn [mlt]; split; congruence || tauto. Qed.

Lemma compare_int_value : forall n m c, compare_int n m = c ->
  match c with
  | CLt => mlt (ival n) (ival m) | CGt => mlt (ival m) (ival n) | CEq => meq (ival n) (ival m) | CInd => False
  end.
Proof.
  intros n m c <-. unfold compare_int, ival. change (2 ^ 1074) with B. pose proof B_pos.
  destruct (n <? m) eqn:L; [ cbn [mlt]; apply Z.mul_lt_mono_pos_r; lia | ].
  destruct (n >? m) eqn:G; [ cbn [mlt]; apply Z.mul_lt_mono_pos_r; lia | ].
  assert (n = m) by lia. subst. split; [ reflexivity | discriminate ].
Qed.
Lemma int_of_value : forall v, is_int v -> value v = ival (int_of v) /\ fvalue v = MVal (rnd (int_of v) * B).
Proof. intros [] H; try contradiction; split; reflexivity. Qed.
Lemma num_cases : forall v, is_num v -> is_int v \/ exists a d, v = VFlt a d.
Proof. intros [] H; try contradiction; cbn; eauto. Qed.
Lemma ncmp_int : forall v w, is_int v -> is_int w -> ncmp v w = compare_int (int_of v) (int_of w).
Proof. intros [] [] H1 H2; try contradiction; reflexivity. Qed.
Lemma ncmp_flt : forall v w, ~ is_int v \/ ~ is_int w -> is_num v -> is_num w -> ncmp v w = of_cmp (mcompare (fvalue v) (fvalue w)).
Proof. intros [] [] H H1 H2; try contradiction; try reflexivity; cbn in H; tauto. Qed.

(* results for the rounded values carry over to the exact ones *)
Lemma flt_lt : forall n d, dwf d -> mlt (MVal (rnd n * B)) (dval d) -> mlt (ival n) (dval d).
Proof.
  intros n d W H. destruct d as [ | [] | m e]; cbn [dval mlt ival] in *; auto. cbn [dwf] in W.
  destruct (Z.lt_ge_cases (n * 2 ^ 1074) (m * 2 ^ (e + 1074))) as [ | G]; [ assumption | exfalso ].
  apply rnd_ge in G; [ | apply W | apply W ]. change (2 ^ 1074) with B in G.
  exact (Z.lt_irrefl _ (Z.lt_le_trans _ _ _ H G)).
Qed.
Lemma flt_gt : forall n d, dwf d -> mlt (dval d) (MVal (rnd n * B)) -> mlt (dval d) (ival n).
Proof.
  intros n d W H. destruct d as [ | [] | m e]; cbn [dval mlt ival] in *; auto. cbn [dwf] in W.
  destruct (Z.lt_ge_cases (m * 2 ^ (e + 1074)) (n * 2 ^ 1074)) as [ | G]; [ assumption | exfalso ].
  apply rnd_le in G; [ | apply W | apply W ]. change (2 ^ 1074) with B in G.
  exact (Z.lt_irrefl _ (Z.lt_le_trans _ _ _ H G)).
Qed.
Lemma ncmp_sound : forall v w, is_num v -> is_num w -> vwf v -> vwf w ->
  (ncmp v w = CLt -> mlt (value v) (value w)) /\ (ncmp v w = CGt -> mlt (value w) (value v)).
Proof.
  intros v w N1 N2 W1 W2.
  destruct (num_cases v N1) as [I1 | (a & d & ->)], (num_cases w N2) as [I2 | (a2 & d2 & ->)].
  - rewrite ncmp_int by assumption. rewrite (proj1 (int_of_value v I1)), (proj1 (int_of_value w I2)).
    split; intros H; exact (compare_int_value _ _ _ H).
  - rewrite ncmp_flt by (auto; right; cbn; tauto). rewrite (proj1 (int_of_value v I1)), (proj2 (int_of_value v I1)).
    cbn [fvalue value vwf] in *. split; intros H; apply of_cmp_val in H; [ apply flt_lt | apply flt_gt ]; assumption.
  - rewrite ncmp_flt by (auto; left; cbn; tauto). rewrite (proj1 (int_of_value w I2)), (proj2 (int_of_value w I2)).
    cbn [fvalue value vwf] in *. split; intros H; apply of_cmp_val in H; [ apply flt_gt | apply flt_lt ]; assumption.
  - rewrite ncmp_flt by (auto; left; cbn; tauto). cbn [fvalue value]. split; intros H; exact (of_cmp_val _ _ _ H).
Qed.

(* exact results *)
Lemma fvalue_exact : forall v, is_num v -> exact_int v -> fvalue v = value v.
Proof.
  intros [] N E; try contradiction; cbn [fvalue value exact_int ival] in *; try reflexivity; rewrite rnd_exact by assumption; reflexivity.
Qed.
Lemma value_nan : forall v, is_num v -> (value v = MNan <-> is_nan v).
Proof.
  intros [] N; try contradiction; cbn [value]; unfold ival, is_nan.
  - split; [ discriminate | intros [? H]; discriminate ].
  - split; [ discriminate | intros [? H]; discriminate ].
  - rewrite dval_nan. split; [ intros ->; eauto | intros [? H]; congruence ].
Qed.
Lemma ncmp_exact : forall v w, is_num v -> is_num w -> vwf v -> vwf w ->
  (exact_int v /\ exact_int w) \/ (is_int v /\ is_int w) ->
  match ncmp v w with
  | CLt => mlt (value v) (value w) | CGt => mlt (value w) (value v) | CEq => meq (value v) (value w)
  | CInd => is_nan v \/ is_nan w
  end.
Proof.
  intros v w N1 N2 W1 W2 [[X1 X2] | [I1 I2]].
  - destruct (num_cases v N1) as [I1 | (a & d & ->)].
    + destruct (num_cases w N2) as [I2 | (a2 & d2 & ->)].
      * rewrite ncmp_int by assumption. rewrite (proj1 (int_of_value v I1)), (proj1 (int_of_value w I2)).
        pose proof (compare_int_value (int_of v) (int_of w) _ eq_refl) as H. destruct (compare_int _ _); tauto.
      * rewrite ncmp_flt by (auto; right; cbn; tauto). rewrite !fvalue_exact by assumption.
        pose proof (of_cmp_val _ _ _ (eq_refl (of_cmp (mcompare (value v) (value (VFlt a2 d2)))))) as H.
        destruct (of_cmp _); auto. rewrite !value_nan in H by assumption. exact H.
    + rewrite ncmp_flt by (auto; left; cbn; tauto). rewrite !fvalue_exact by assumption.
      pose proof (of_cmp_val _ _ _ (eq_refl (of_cmp (mcompare (value (VFlt a d)) (value w))))) as H.
      destruct (of_cmp _); auto. rewrite !value_nan in H by assumption. exact H.
  - rewrite ncmp_int by assumption. rewrite (proj1 (int_of_value v I1)), (proj1 (int_of_value w I2)).
    pose proof (compare_int_value (int_of v) (int_of w) _ eq_refl) as H. destruct (compare_int _ _); tauto.
Qed.

(* transitivity of < *)
Lemma fvalue_int_mono : forall v w, is_int v -> is_int w -> ncmp v w = CLt ->
  mlt (fvalue v) (fvalue w) \/ fvalue v = fvalue w.
Proof.
  intros v w I1 I2 H. rewrite ncmp_int in H by assumption.
  rewrite (proj2 (int_of_value v I1)), (proj2 (int_of_value w I2)).
  unfold compare_int in H. destruct (int_of v <? int_of w) eqn:L; [ | destruct (_ >? _); discriminate ].
  pose proof (rnd_mono (int_of v) (int_of w) ltac:(lia)) as M. pose proof B_pos as P. cbn [mlt].
  destruct (Z.eq_dec (rnd (int_of v)) (rnd (int_of w))) as [-> | N]; [ right; reflexivity | left ].
  apply Z.mul_lt_mono_pos_r; lia.
Qed.
Lemma mlt_of_cmp : forall x y, mlt x y -> of_cmp (mcompare x y) = CLt.
Proof.
  intros [ | | | u] [ | | | v]; cbn [mlt mcompare of_cmp]; try tauto. intros H.
  apply Z.compare_lt_iff in H. rewrite H. reflexivity.
Qed.
Lemma fvalue_flt : forall v w, ~ is_int v \/ ~ is_int w -> is_num v -> is_num w ->
  (ncmp v w = CLt <-> mlt (fvalue v) (fvalue w)).
Proof.
  intros v w H N1 N2. rewrite ncmp_flt by assumption. split; [ apply of_cmp_val | apply mlt_of_cmp ].
Qed.
Lemma ncmp_trans : forall u v w, is_num u -> is_num v -> is_num w -> vwf u -> vwf v -> vwf w ->
  ncmp u v = CLt -> ncmp v w = CLt -> ncmp u w = CLt.
Proof.
  intros u v w N1 N2 N3 W1 W2 W3 H1 H2.
  destruct (num_cases u N1) as [I1 | F1].
  - destruct (num_cases w N3) as [I3 | F3].
    + destruct (ncmp_sound u v N1 N2 W1 W2) as [S1 _]. destruct (ncmp_sound v w N2 N3 W2 W3) as [S2 _].
      pose proof (mlt_trans _ _ _ (S1 H1) (S2 H2)) as M.
      rewrite (proj1 (int_of_value u I1)), (proj1 (int_of_value w I3)) in M. unfold ival in M. cbn [mlt] in M.
      change (2 ^ 1074) with B in M. pose proof B_pos. apply Z.mul_lt_mono_pos_r in M; [ | assumption ].
      rewrite ncmp_int by assumption. unfold compare_int. apply Z.ltb_lt in M. rewrite M. reflexivity.
    + assert (NF : ~ is_int w) by (destruct F3 as (? & ? & ->); cbn; tauto).
      apply fvalue_flt; auto. apply fvalue_flt in H2; auto.
      destruct (num_cases v N2) as [I2 | F2].
      * destruct (fvalue_int_mono u v I1 I2 H1) as [M | ->]; [ exact (mlt_trans _ _ _ M H2) | exact H2 ].
      * assert (~ is_int v) by (destruct F2 as (? & ? & ->); cbn; tauto).
        apply fvalue_flt in H1; auto. exact (mlt_trans _ _ _ H1 H2).
  - assert (NF : ~ is_int u) by (destruct F1 as (? & ? & ->); cbn; tauto).
    apply fvalue_flt; auto. apply fvalue_flt in H1; auto.
    destruct (num_cases v N2) as [I2 | F2].
    + destruct (num_cases w N3) as [I3 | F3].
      * destruct (fvalue_int_mono v w I2 I3 H2) as [M | <-]; [ exact (mlt_trans _ _ _ H1 M) | exact H1 ].
      * assert (~ is_int w) by (destruct F3 as (? & ? & ->); cbn; tauto).
        apply fvalue_flt in H2; auto. exact (mlt_trans _ _ _ H1 H2).
    + assert (~ is_int v) by (destruct F2 as (? & ? & ->); cbn; tauto).
      apply fvalue_flt in H2; auto. exact (mlt_trans _ _ _ H1 H2).
Qed.

(* ---- exchange of the operands ---- *)
Lemma compare_int_flip : forall n m, compare_int m n = flip (compare_int n m).
Proof.
  intros. unfold compare_int. destruct (n <? m) eqn:?, (n >? m) eqn:?, (m <? n) eqn:?, (m >? n) eqn:?; cbn [flip]; lia || reflexivity.
Qed.
Lemma dcompare_flip : forall x y, dcompare y x = match dcompare x y with Some c => Some (CompOpp c) | None => None end.
Proof.
  intros [ | [] | m1 e1] [ | [] | m2 e2]; try reflexivity. cbn [dcompare]. rewrite (Z.min_comm e2 e1).
  f_equal. apply Z.compare_antisym.
Qed.
Lemma compare_float_flip : forall v w, compare_float w v = flip (compare_float v w).
Proof.
  intros. unfold compare_float. rewrite (dcompare_flip (get_float v) (get_float w)).
  destruct (dcompare (get_float v) (get_float w)) as [[ | | ] | ]; reflexivity.
Qed.
Lemma memcmp_flip : forall n a b, memcmp b a n = - memcmp a b n.
Proof.
  induction n; intros [ | x a] [ | y b]; cbn [memcmp]; try lia.
  destruct (x <? y) eqn:?, (x >? y) eqn:?, (y <? x) eqn:?, (y >? x) eqn:?; try lia. apply IHn.
Qed.
Lemma compare_buf_flip : forall a b, compare_buf b a = flip (compare_buf a b).
Proof.
  intros a b. unfold compare_buf. rewrite (Nat.min_comm (length b) (length a)).
  rewrite (memcmp_flip _ a b). set (n := Nat.min _ _). set (c := memcmp a b n). clearbody n c.
  assert (L : forall c, negb (- c =? 0) = negb (c =? 0)) by (intros; lia).
  assert (X : (match n with O => 0 | _ => - c end) = - (match n with O => 0 | _ => c end)) by (destruct n; lia).
  rewrite X. set (c2 := match n with O => 0 | _ => c end). clearbody c2. rewrite L.
  destruct (c2 =? 0) eqn:Z0; cbn [negb].
  - destruct (Nat.ltb_spec (length a) (length b)), (Nat.ltb_spec (length b) (length a)); cbn [flip]; lia || reflexivity.
  - destruct (c2 >? 0) eqn:?, (- c2 >? 0) eqn:?; cbn [flip]; lia || reflexivity.
Qed.
Lemma same_id_sym : forall v w, same_id w v = same_id v w.
Proof. intros [] []; cbn [same_id]; try reflexivity; try apply Z.eqb_sym. destruct b, b0; reflexivity. Qed.

Definition oflip (c : option cres) : option cres := option_map flip c.
Definition swap (p : Z * Z) : Z * Z := (snd p, fst p).
Lemma check_refs_flip : forall refs a b, check_refs b a (map swap refs) = oflip (check_refs a b refs).
Proof.
  induction refs as [ | [ra rb] refs IH]; intros a b; [ reflexivity | ]. cbn [map check_refs swap fst snd].
  rewrite IH. destruct (a =? ra), (b =? rb), (a =? rb), (b =? ra); cbn [andb orb]; try reflexivity;
    cbn [oflip option_map]; f_equal; apply compare_int_flip.
Qed.
Lemma compare_elems_flip : forall (f g : val -> val -> option cres) l m,
  (forall x y, g y x = oflip (f x y)) -> compare_elems g m l = oflip (compare_elems f l m).
Proof.
  intros f g l m H. revert m. induction l as [ | x l IH]; intros [ | y m]; try reflexivity.
  cbn [compare_elems]. rewrite H. destruct (f x y) as [[ | | | ] | ]; cbn [oflip option_map flip]; try reflexivity. apply IH.
Qed.
Lemma same_id_eq : forall obj v w, located obj v -> located obj w -> same_id v w = true -> v = w.
Proof.
  intros obj v w L1 L2 H. destruct v, w; cbn [same_id located] in *; try discriminate;
    try (apply Z.eqb_eq in H; subst; congruence); [ reflexivity | apply eqb_prop in H; congruence ].
Qed.
Lemma compare_elems_flip_in : forall (f g : val -> val -> option cres) l m,
  (forall x y, In x l -> In y m -> g y x = oflip (f x y)) -> compare_elems g m l = oflip (compare_elems f l m).
Proof.
  intros f g l. induction l as [ | x l IH]; intros [ | y m] H; try reflexivity.
  cbn [compare_elems]. rewrite H by (left; reflexivity).
  destruct (f x y) as [[ | | | ] | ]; cbn [oflip option_map flip]; try reflexivity.
  apply IH. intros. apply H; right; assumption.
Qed.
Lemma sgn_flip : forall sc a b, antisymmetric sc ->
  (if sc b a <? 0 then CLt else if negb (sc b a =? 0) then CGt else CEq) =
  flip (if sc a b <? 0 then CLt else if negb (sc a b =? 0) then CGt else CEq).
Proof.
  intros sc a b H. specialize (H a b).
  destruct (sc b a <? 0) eqn:?, (sc b a =? 0) eqn:?, (sc a b <? 0) eqn:?, (sc a b =? 0) eqn:?; cbn [negb flip]; lia || reflexivity.
Qed.
Lemma compare_flip : forall strcmp heap obj, antisymmetric strcmp -> coherent obj heap -> forall fuel refs v w,
  located obj v -> located obj w ->
  compare strcmp heap fuel (map swap refs) w v = oflip (compare strcmp heap fuel refs v w).
Proof.
  intros sc heap obj AS CO. induction fuel as [ | fuel IH]; intros refs v w L1 L2; [ reflexivity | ].
  cbn [compare]. rewrite (same_id_sym v w). destruct (same_id v w) eqn:I.
  { pose proof (same_id_eq obj v w L1 L2 I). subst w. destruct v; try reflexivity. destruct d; reflexivity. }
  rewrite (Z.eqb_sym (type_of w) (type_of v)), (andb_comm (type_of w <=? 4)).
  destruct ((type_of v =? type_of w) || (type_of v <=? 4) && (type_of w <=? 4)) eqn:T.
  - destruct v, w; try discriminate T; cbn [oflip option_map]; try reflexivity; f_equal;
      try apply compare_float_flip; try apply compare_int_flip; try apply compare_buf_flip; try (apply sgn_flip; exact AS).
    unfold compare_array. rewrite check_refs_flip. destruct (check_refs a a0 refs) as [c | ]; [ reflexivity | ].
    cbn [oflip option_map].
    rewrite (compare_elems_flip_in (compare sc heap fuel ((a, a0) :: refs))).
    + destruct (compare_elems _ _ _) as [[ | | | ] | ]; try reflexivity. cbn [oflip option_map flip]. f_equal.
      destruct (Nat.ltb_spec (length (heap a)) (length (heap a0))), (Nat.ltb_spec (length (heap a0)) (length (heap a)));
        cbn [flip]; lia || reflexivity.
    + intros x y Hx Hy. apply (IH ((a, a0) :: refs)); [ exact (proj1 (Forall_forall _ _) (CO a) x Hx) | exact (proj1 (Forall_forall _ _) (CO a0) y Hy) ].
  - cbn [oflip option_map]. f_equal. destruct (type_of w <? type_of v) eqn:?, (type_of v <? type_of w) eqn:?; cbn [flip]; lia || reflexivity.
Qed.
