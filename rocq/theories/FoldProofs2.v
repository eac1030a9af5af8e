From Coq Require Import ZArith List Lia Bool ZifyBool.
From Coq Require Import Floats.SpecFloat.
Import ListNotations.
From Verif Require Import Base ListZ Utf8Spec Utf8Main FoldModel FoldModel2 FoldSpec FoldProofs.
Local Open Scope Z_scope.
Ltac Zify.zify_post_hook ::= idtac.

(* ---- results which differ only in the signs of zeros ---- *)

Lemma same_value_refl : forall z v, same_value z v v.
Proof. left. reflexivity. Qed.

Lemma same_res_refl : forall z r, same_res z r r.
Proof. intros z [v | e |]; cbn; auto using same_value_refl. Qed.

Definition same_num (z : bool) (a b : num) : Prop :=
  a = b \/ (z = true /\ exists s1 s2, a = NF (S754_zero s1) /\ b = NF (S754_zero s2)).

Definition same_nres (z : bool) (r q : res num) : Prop :=
  match r, q with
  | Ok v, Ok u => same_num z v u
  | Err e, Err f => e = f
  | Ub, Ub => True
  | _, _ => False
  end.

Lemma same_nres_refl : forall z r, same_nres z r r.
Proof. intros z [v | e |]; cbn; auto. left. reflexivity. Qed.

Lemma same_nres_res : forall z r q, same_nres z r q ->
  same_res z (bind r (fun n => Ok (VNum n))) (bind q (fun n => Ok (VNum n))).
Proof.
  intros z [v | e |] [u | f |] H; cbn in *; auto; try contradiction.
  destruct H as [-> | (-> & s1 & s2 & -> & ->)]; [left; reflexivity |].
  right. split; [reflexivity |]. exists s1, s2. auto.
Qed.

Lemma zero_get : forall s, get_integer (NF (S754_zero s)) = Ok 0.
Proof. destruct s; reflexivity. Qed.

Ltac zero_case :=
  first [ left; reflexivity | right; split; [reflexivity |]; eexists; eexists; split; reflexivity ].

Lemma dop_left : forall op s1 s2 b, arithmetic op = true ->
  same_nres true (fold_dbls op (S754_zero s1) b) (fold_dbls op (S754_zero s2) b).
Proof.
  intros op s1 s2 b A. destruct op; try discriminate A; cbn [fold_dbls].
  - destruct b as [s | s | | s m e]; destruct s1, s2; try destruct s; cbn; zero_case.
  - destruct b as [s | s | | s m e]; destruct s1, s2; try destruct s; cbn; zero_case.
  - destruct b as [s | s | | s m e]; destruct s1, s2; try destruct s; cbn; zero_case.
  - destruct b as [s | s | | s m e]; destruct s1, s2; try destruct s; cbn; first [reflexivity | zero_case].
  - destruct b as [s | s | | s m e]; destruct s1, s2; try destruct s; cbn; first [reflexivity | zero_case].
Qed.

Lemma dop_right : forall op s1 s2 a, arithmetic op = true ->
  same_nres true (fold_dbls op a (S754_zero s1)) (fold_dbls op a (S754_zero s2)).
Proof.
  intros op s1 s2 b A. destruct op; try discriminate A; cbn [fold_dbls].
  - destruct b as [s | s | | s m e]; destruct s1, s2; try destruct s; cbn; zero_case.
  - destruct b as [s | s | | s m e]; destruct s1, s2; try destruct s; cbn; zero_case.
  - destruct b as [s | s | | s m e]; destruct s1, s2; try destruct s; cbn; zero_case.
  - reflexivity.
  - reflexivity.
Qed.

Lemma same_nres_trans : forall z r q t, same_nres z r q -> same_nres z q t -> same_nres z r t.
Proof.
  intros z [v | e |] [u | f |] [t | g |] H G; cbn in *; try contradiction; auto; try congruence.
  destruct H as [-> | (E1 & s1 & s2 & -> & ->)]; [assumption |].
  destruct G as [<- | (E2 & s3 & s4 & H3 & ->)].
  - right. split; [assumption |]. eexists; eexists; split; reflexivity.
  - right. split; [assumption |]. eexists; eexists; split; reflexivity.
Qed.

Lemma binop_left : forall op s1 s2 b,
  same_nres true (vm_binop op (NF (S754_zero s1)) b) (vm_binop op (NF (S754_zero s2)) b).
Proof.
  intros op s1 s2 b. rewrite <- !fold_binop_vm. unfold fold_binop.
  destruct (arithmetic op) eqn:A.
  - destruct b as [y | y]; cbn [fold_floats]; apply dop_left; assumption.
  - rewrite !fold_int_get, !zero_get. apply same_nres_refl.
Qed.

Lemma binop_right : forall op s1 s2 a,
  same_nres true (vm_binop op a (NF (S754_zero s1))) (vm_binop op a (NF (S754_zero s2))).
Proof.
  intros op s1 s2 a. rewrite <- !fold_binop_vm. unfold fold_binop.
  destruct (arithmetic op) eqn:A.
  - destruct a as [y | y]; cbn [fold_floats]; apply dop_right; assumption.
  - rewrite !fold_int_get, !zero_get. apply same_nres_refl.
Qed.

Lemma binop_same : forall z op a a' b b', same_num z a a' -> same_num z b b' ->
  same_nres z (vm_binop op a b) (vm_binop op a' b').
Proof.
  intros z op a a' b b' [-> | (-> & s1 & s2 & -> & ->)] [-> | (E & s3 & s4 & -> & ->)].
  - apply same_nres_refl.
  - subst z. apply binop_right.
  - apply binop_left.
  - eapply same_nres_trans; [apply binop_left | apply binop_right].
Qed.

Lemma same_value_num : forall z a v, same_value z (VNum a) v ->
  exists b, v = VNum b /\ same_num z a b.
Proof.
  intros z a v [<- | (-> & s1 & s2 & E1 & ->)].
  - exists a. split; [reflexivity | left; reflexivity].
  - assert (a = NF (S754_zero s1)) as -> by congruence. exists (NF (S754_zero s2)).
    split; [reflexivity |]. right. split; [reflexivity |]. exists s1, s2. auto.
Qed.

Lemma same_value_other : forall z v u, (forall a, v <> VNum a) -> same_value z v u -> u = v.
Proof.
  intros z v u H [<- | (_ & s1 & s2 & E1 & _)]; [reflexivity |]. exfalso. exact (H _ E1).
Qed.

Lemma get_integer_same : forall z a b, same_num z a b -> get_integer a = get_integer b.
Proof. intros z a b [-> | (_ & s1 & s2 & -> & ->)]; [reflexivity | now rewrite !zero_get]. Qed.

Lemma same_sym_other : forall z v u, same_value z v u -> (exists a b, v = VNum a /\ u = VNum b /\ same_num z a b) \/ (v = u /\ forall a, v <> VNum a).
Proof.
  intros z v u H. destruct v; try (right; split; [symmetry; eapply same_value_other; [| exact H]; discriminate | discriminate]).
  left. destruct (same_value_num _ _ _ H) as (b & -> & Hb). exists n, b. auto.
Qed.

Lemma op2_same : forall z op v v' u u', same_value z v v' -> same_value z u u' ->
  same_res z (vm_op2 op v u) (vm_op2 op v' u').
Proof.
  intros z op v v' u u' Hv Hu.
  destruct (same_sym_other _ _ _ Hv) as [(a & a' & -> & -> & Ha) | [<- Nv]].
  - destruct (same_sym_other _ _ _ Hu) as [(b & b' & -> & -> & Hb) | [<- Nu]].
    + apply same_nres_res. apply binop_same; assumption.
    + unfold vm_op2. destruct u; try (exfalso; eapply Nu; reflexivity);
        (destruct (arithmetic op); [apply same_res_refl |];
         rewrite (get_integer_same _ _ _ Ha); apply same_res_refl).
  - destruct (same_sym_other _ _ _ Hu) as [(b & b' & -> & -> & Hb) | [<- Nu]].
    + unfold vm_op2. destruct v; try apply same_res_refl. exfalso; eapply Nv; reflexivity.
    + apply same_res_refl.
Qed.

Lemma op1_same : forall z op v v', same_value z v v' -> same_res z (vm_op1 op v) (vm_op1 op v').
Proof.
  intros z op v v' Hv.
  destruct (same_sym_other _ _ _ Hv) as [(a & a' & -> & -> & Ha) | [<- Nv]]; [| apply same_res_refl].
  apply same_nres_res. destruct op; cbn [vm_unop].
  - exact Ha.
  - apply binop_same; [left; reflexivity | exact Ha].
  - rewrite (get_integer_same _ _ _ Ha). apply same_nres_refl.
Qed.

Lemma truthy_same : forall z v v', same_value z v v' -> is_truthy v = is_truthy v'.
Proof. intros z v v' [-> | (_ & s1 & s2 & -> & ->)]; reflexivity. Qed.

Lemma type_same : forall z v v', same_value z v v' -> type_name v = type_name v'.
Proof. intros z v v' [-> | (_ & s1 & s2 & -> & ->)]; reflexivity. Qed.

Lemma seq_same : forall z p q f g, same_eval z p q ->
  (forall v u, snd p = Ok v -> snd q = Ok u -> same_value z v u -> same_eval z (f v) (g u)) ->
  same_eval z (seq p f) (seq q g).
Proof.
  intros z [tp rp] [tq rq] f g [H1 H2] H. cbn [fst snd] in *. subst tq. unfold seq. cbn [fst snd].
  destruct rp as [v | e |], rq as [u | e' |]; cbn in H2; try contradiction; try (subst; split; [reflexivity | cbn; auto]; fail).
  destruct (H v u eq_refl eq_refl H2) as [G1 G2]. split; cbn [fst snd]; [now rewrite G1 | exact G2].
Qed.

Lemma same_eval_refl : forall z p, same_eval z p p.
Proof. intros. split; [reflexivity | apply same_res_refl]. Qed.

(* ---- unary operators ---- *)

Lemma unop_vm : forall z op a v, (z = true \/ op <> UMinus) ->
  (op = UNot -> forall d, a = NF d -> to_int d <> Some INT64_MIN) ->
  fold_unop op a = Ok v -> same_nres z (Ok v) (vm_unop op a).
Proof.
  intros z op a v Hz N H. destruct op; cbn [fold_unop vm_unop] in *.
  - rewrite <- H. apply same_nres_refl.
  - destruct Hz as [-> | Hz]; [| congruence]. destruct a as [x | d]; cbn [vm_binop sub_integer].
    + rewrite <- H. replace (0 - x) with (- x) by lia. apply same_nres_refl.
    + rewrite <- H. change (of_int 0) with (S754_zero false).
      destruct d as [s | s | | s m e]; try destruct s; cbn; zero_case.
  - destruct a as [x | d].
    + rewrite <- H. apply same_nres_refl.
    + destruct (to_int d) as [x |] eqn:T; [| discriminate H].
      rewrite (to_int_get d x T). 2:{ intros ->. exact (N eq_refl d eq_refl T). }
      rewrite <- H. apply same_nres_refl.
Qed.

(* ---- string literals ---- *)

Lemma text_app : forall esc a s b t, text esc a s -> text esc b t -> text esc (a ++ b) (s ++ t).
Proof.
  intros esc a s b t H Hb. induction H.
  - exact Hb.
  - rewrite <- app_assoc. cbn [app]. apply T_char; assumption.
  - rewrite <- !app_assoc. cbn [app]. apply T_esc; assumption.
  - rewrite <- app_assoc. cbn [app]. apply T_bs; assumption.
Qed.

Lemma layout_nonempty : forall code bs, layout code bs -> 1 <= len bs.
Proof.
  intros code bs H. destruct bs; [| rewrite len_cons; pose proof (len_nonneg _ bs); lia].
  exfalso. inversion H.
Qed.

Lemma text_len : forall esc a s, text esc a s -> len s <= len a.
Proof.
  intros esc a s H. induction H.
  - lia.
  - pose proof (layout_nonempty _ _ H). lenz. lia.
  - pose proof (layout_nonempty _ _ H0). pose proof (len_nonneg _ e). lenz. lia.
  - pose proof (layout_nonempty _ _ H0). lenz_in IHtext. lenz. lia.
Qed.

Lemma slice_mid : forall pre body post, slice (pre ++ body ++ post) (len pre) (len body) = body.
Proof.
  intros. unfold slice, len. rewrite !Nat2Z.id. rewrite skipn_app, Nat.sub_diag, skipn_all.
  cbn [app skipn]. rewrite firstn_app, Nat.sub_diag, firstn_all. cbn [firstn]. apply app_nil_r.
Qed.

Lemma slice_at : forall l pre body post n m, l = pre ++ body ++ post -> n = len pre -> m = len body -> slice l n m = body.
Proof. intros. subst. apply slice_mid. Qed.

Lemma str_token_str : forall t tok esc body, str_token t tok esc body -> token_str t tok = (esc, body).
Proof.
  intros t tok esc body H. destruct H.
  - unfold token_str. cbn [first]. cbn [Z.eqb Pos.eqb orb negb]. f_equal.
    apply (slice_at _ [34] body [34]); [reflexivity | reflexivity | lenz; lia].
  - unfold token_str. cbn [first].
    replace ((c =? 114) || (c =? 82)) with true by lia. cbn [negb]. f_equal.
    apply (slice_at _ [c; 34] body [34]); [reflexivity | reflexivity | lenz; lia].
  - unfold token_str. cbn [first]. cbn [Z.eqb Pos.eqb orb negb]. f_equal.
    apply (slice_at _ [34] body [92; 40]); [reflexivity | reflexivity | lenz; lia].
Qed.

Lemma str_token_raw : forall t tok esc body, str_token t tok esc body -> is_raw t tok = negb esc.
Proof.
  intros t tok esc body H. destruct H; try reflexivity.
  unfold is_raw. cbn [first]. lia.
Qed.

Lemma str_token_slice : forall t tok esc body, str_token t tok esc body ->
  slice tok (if negb esc then 2 else 1)
    (if negb esc then len tok - (match t with TString => 2 | TStringOpen => 3 end) - 1
     else len tok - (match t with TString => 2 | TStringOpen => 3 end)) = body /\
  (if negb esc then len tok - (match t with TString => 2 | TStringOpen => 3 end) - 1
     else len tok - (match t with TString => 2 | TStringOpen => 3 end)) = len body.
Proof.
  intros t tok esc body H. destruct H; cbn [negb].
  - split; [apply (slice_at _ [34] body [34]); [reflexivity | reflexivity | lenz; lia] | lenz; lia].
  - split; [apply (slice_at _ [c; 34] body [34]); [reflexivity | reflexivity | lenz; lia] | lenz; lia].
  - split; [apply (slice_at _ [34] body [92; 40]); [reflexivity | reflexivity | lenz; lia] | lenz; lia].
Qed.

Lemma add_strings_spec : forall ta a tb b esc body1 body2,
  str_token ta a esc body1 -> str_token tb b esc body2 ->
  add_strings ta a tb b =
    (if len body1 + len body2 + (if esc then 2 else 3) >=? 0xFFFF then None
     else Some ((if esc then [] else [114]) ++ [34] ++ (body1 ++ body2) ++ [34])) /\
  str_token TString ((if esc then [] else [114]) ++ [34] ++ (body1 ++ body2) ++ [34]) esc (body1 ++ body2).
Proof.
  intros ta a tb b esc body1 body2 Ha Hb. split.
  - unfold add_strings. rewrite (str_token_raw _ _ _ _ Ha).
    destruct (str_token_slice _ _ _ _ Ha) as [S1 L1]. destruct (str_token_slice _ _ _ _ Hb) as [S2 L2].
    destruct esc; cbn [negb] in *; rewrite S1, S2, L1, L2, <- app_assoc; reflexivity.
  - destruct esc; cbn [app]; constructor. left. reflexivity.
Qed.
