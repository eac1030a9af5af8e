(* C12, C104, C105, C106: constant folding. *)
From Coq Require Import ZArith List Lia Bool ZifyBool.
From Coq Require Import Floats.SpecFloat.
Import ListNotations.
From Verif Require Import Base ListZ Utf8Spec Utf8Main RbModel FoldModel FoldModel2 FoldPoolModel FoldSpec
  FoldProofs FoldProofs2 FoldProofs3 FoldProofs4.
Local Open Scope Z_scope.
Ltac Zify.zify_post_hook ::= idtac.

(* ---- a world for the examples ---- *)

(* Variable 1 is a constant initialised with 6; opaque expressions and literals of containers cause
   the event k; strings are decoded by the modelled decoder. *)
Definition w0 : world := World
  (fun x => if x =? 1 then Some (ENum [54]) else None)
  (fun x => if x =? 1 then VNum (NI 6) else VVoid)
  (fun k => ([k], Ok (VNum (NI k))))
  (fun t k => ([k], Ok (match t with AInterp => VStr [] | _ => VObj t k end)))
  (fun esc body => match Utf8Model.decode 32 esc body with Utf8Model.Ok cs => cs | _ => [] end).

Lemma good_num_int : forall tok z, 48 <= first tok <= 57 -> parse_numeric tok = Some (NI z) -> z <> 0 -> good_num tok.
Proof. intros tok z F P N. split; [exact F |]. exists (NI z). split; [exact P |]. intros _. exact N. Qed.

Lemma w0_ok : world_ok w0.
Proof.
  split; [| split].
  - intros esc body cs T. cbn [w0 w_str].
    assert (E : Utf8Model.decode 32 esc body = Utf8Model.Ok cs).
    { unfold Utf8Model.decode. rewrite (decode_loop_spec 32 esc body cs); [reflexivity | tauto | assumption | | lia].
      intros c Hc. pose proof (text_max _ _ _ T c Hc). change (2 ^ 32) with 4294967296. lia. }
    rewrite E. reflexivity.
  - intros t k tr v E. cbn [w0 w_agg] in E.
    assert (v = match t with AInterp => VStr [] | _ => VObj t k end) as -> by congruence.
    destruct t; cbn [agg_value]; eexists; reflexivity.
  - intros x n C. cbn [w0 w_const w_var] in *. destruct (x =? 1); [| discriminate C].
    assert (n = ENum [54]) as -> by congruence. split.
    + apply (good_num_int _ 6); [cbn; lia | reflexivity | lia].
    + intros u P. assert (E : parse_numeric [54] = Some (NI 6)) by reflexivity. congruence.
Qed.

(* ---- C12: folding gives what the virtual machine computes ---- *)

(* For every operator and all numbers, folding two constants gives the result of the instruction,
   a compilation error where the instruction raises the same error, and is undefined only where the
   instruction is. *)
Theorem fold_binop_agrees : forall op a b, fold_binop op a b = vm_binop op a b.
Proof. exact fold_binop_vm. Qed.

Example fold_binop_ex :
  fold_binop BAdd (NI 1) (NF (of_int 2)) = Ok (NF (of_int 3)) /\
  fold_binop BDiv (NI (-7)) (NI 2) = Ok (NI (-3)) /\
  fold_binop BMod (NF (of_int (-7))) (NI 3) = Ok (NF (of_int (-1))) /\
  fold_binop BDiv (NI INT64_MIN) (NI (-1)) = Err EDivOver /\
  fold_binop BDiv (NF (of_int 1)) (NF (S754_zero true)) = Err EDivZero /\
  fold_binop BShru (NI (-1)) (NI 63) = Ok (NI 1) /\
  fold_binop BOr (NI 0) (NF (of_int (2 ^ 63))) = Err ERange /\
  fold_binop BAdd (NI INT64_MAX) (NI 1) = Ub.
Proof. repeat (apply conj; [vm_compute; reflexivity |]). vm_compute. reflexivity. Qed.

(* A folded expression has the same events and the same result as the original, up to the sign of
   floating-point zeros.  Partial: under the conditions of [good] (well-formed tokens, containers
   which are only tested have no effects, no ~ of floats near -2^63), see the refuted theorems. *)
Theorem fold_expr_agrees_partial : forall w e e', world_ok w -> good w false e ->
  fold (w_const w) e = Ok e' -> same_eval true (eval w e') (eval w e).
Proof.
  intros w e e' W G F. pose proof (fold_main true w W e false (or_introl eq_refl) G) as H.
  unfold fold_post in H. rewrite F in H. exact (proj1 H).
Qed.

(* Without unary minus, the results are equal. *)
Theorem fold_expr_exact_partial : forall w e e', world_ok w -> good w false e -> no_minus e ->
  fold (w_const w) e = Ok e' -> eval w e' = eval w e.
Proof.
  intros w e e' W G N F. pose proof (fold_main false w W e false (or_intror N) G) as H.
  unfold fold_post in H. rewrite F in H. destruct H as [[H1 H2] _].
  destruct (eval w e') as [t1 r1], (eval w e) as [t2 r2]. cbn [fst snd] in *. subst t2. f_equal.
  destruct r1, r2; cbn in H2; try contradiction; try congruence.
  destruct H2 as [-> | (X & _)]; [reflexivity | discriminate X].
Qed.

(* (1 + x * 2) && f(7) || "a" + "b" where x is the constant 6: only the call remains *)
Definition ex_expr : expr :=
  ELogOr (ELogAnd (EOp2 BAdd (ENum [49]) (EOp2 BMul (EVar 1) (ENum [50]))) (EOpaque 7))
         (EOp2 BAdd (EStr TString [34; 97; 34]) (EStr TString [34; 98; 34])).

Example fold_expr_ex :
  fold (w_const w0) ex_expr = Ok (ELogOr (EOpaque 7) (EStr TString [34; 97; 98; 34])) /\
  good w0 false ex_expr /\ no_minus ex_expr /\
  eval w0 ex_expr = ([7], Ok (VNum (NI 7))) /\
  fold (w_const w0) (ETypeof (EOp2 BDiv (ENum [49]) (ENum [50; 46; 48]))) =
    Ok (EStr TString [34; 102; 108; 111; 97; 116; 34]).
Proof.
  assert (G : forall c, 97 <= c <= 122 -> good_str TString [34; c; 34]).
  { intros c Hc. exists true, [c], [c]. split; [exact (ST_plain [c]) |].
    change [c] with ([c] ++ []). apply T_char; [constructor; lia | intros _; lia | constructor]. }
  assert (N : forall c, 49 <= c <= 57 -> good_num [c]).
  { intros c Hc. apply (good_num_int _ (c - 48)); [cbn; lia | | lia].
    assert (c = 49 \/ c = 50 \/ c = 51 \/ c = 52 \/ c = 53 \/ c = 54 \/ c = 55 \/ c = 56 \/ c = 57) as K by lia.
    repeat (destruct K as [-> | K]; [reflexivity |]). subst c. reflexivity. }
  apply conj; [vm_compute; reflexivity |]. apply conj.
  { cbn [ex_expr good]. repeat split; try (apply N; lia); apply G; lia. }
  apply conj; [cbn; auto |].
  apply conj; vm_compute; reflexivity.
Qed.

(* -0.0 is folded to the negative zero, but at run time it is 0 - 0.0, the positive zero. *)
Theorem fold_unary_minus_refuted : exists e e',
  good w0 false e /\ fold (w_const w0) e = Ok e' /\
  eval w0 e' = ([], Ok (VNum (NF (S754_zero true)))) /\
  eval w0 e = ([], Ok (VNum (NF (S754_zero false)))).
Proof.
  exists (EOp1 UMinus (ENum [48; 46; 48])), (EBin (NF (S754_zero true))).
  apply conj.
  { cbn [good]. split; [| discriminate]. split; [cbn; lia |]. exists (NF (S754_zero false)).
    split; [vm_compute; reflexivity |]. cbn [first]. lia. }
  apply conj; [vm_compute; reflexivity |]. apply conj; vm_compute; reflexivity.
Qed.

(* ~ of a float which is too large for an integer is an exception at run time; the compiler converts
   the float without a check, which is undefined.  For -9223372036854775808.0 it yields a number. *)
Theorem fold_not_range_refuted :
  (exists v, vm_unop UNot v = Err ERange /\ fold_unop UNot v = Ub) /\
  (exists v, vm_unop UNot v = Err ERange /\ fold_unop UNot v = Ok (NI INT64_MAX)).
Proof.
  split.
  - exists (NF (of_int (2 ^ 63))). split; vm_compute; reflexivity.
  - exists (NF (of_int (- 2 ^ 63))). split; vm_compute; reflexivity.
Qed.

(* Converting a NaN to an integer is undefined both in the compiler and at run time. *)
Theorem nan_to_integer_refuted : forall op, arithmetic op = false ->
  vm_binop op (NF S754_nan) (NI 0) = Ub /\ fold_binop op (NF S754_nan) (NI 0) = Ub.
Proof. intros op A. rewrite fold_binop_vm. destruct op; try discriminate A; split; reflexivity. Qed.

(* The literal 1e-324 is parsed as 0.0, which is false at run time, but it starts with a digit other
   than 0, so the compiler takes it for true: 1e-324 || f() does not call f. *)
Definition tok_1em324 : list Z := [49; 101; 45; 51; 50; 52].
Theorem fold_truthy_refuted :
  fold (w_const w0) (ELogOr (ENum tok_1em324) (EOpaque 5)) = Ok (ENum tok_1em324) /\
  eval w0 (ENum tok_1em324) = ([], Ok (VNum (NF (S754_zero false)))) /\
  eval w0 (ELogOr (ENum tok_1em324) (EOpaque 5)) = ([5], Ok (VNum (NI 5))).
Proof. repeat (apply conj; [vm_compute; reflexivity |]). vm_compute. reflexivity. Qed.

(* Effects inside of a container literal are lost when only its truth is tested: [f()] && 1, and
   when only its type is: typeof of an interpolated string. *)
Theorem fold_effects_refuted :
  (exists e e', fold (w_const w0) e = Ok e' /\ fst (eval w0 e) = [3] /\ fst (eval w0 e') = [] /\
     e = ELogAnd (EAgg AArray 3) (ENum [49])) /\
  (exists e e', fold (w_const w0) e = Ok e' /\ fst (eval w0 e) = [3] /\ fst (eval w0 e') = [] /\
     e = ETypeof (EAgg AInterp 3)).
Proof.
  split.
  - exists (ELogAnd (EAgg AArray 3) (ENum [49])), (ENum [49]).
    repeat (apply conj; [vm_compute; reflexivity |]). reflexivity.
  - exists (ETypeof (EAgg AInterp 3)), (EStr TString q_string).
    repeat (apply conj; [vm_compute; reflexivity |]). reflexivity.
Qed.

(* ---- C104: folding rejects only what would fail ---- *)

(* If folding ends with an error other than the length of a string, then some part of the expression
   raises this error when it is evaluated; if it is undefined, then some part is undefined or is a ~
   which raises an error. *)
Theorem fold_error_partial : forall w e, world_ok w -> good w false e ->
  match fold (w_const w) e with
  | Ok _ => True
  | Err k => k = ELong \/ exists s, occurs s e /\ snd (eval w s) = Err k
  | Ub => exists s, occurs s e /\
            (snd (eval w s) = Ub \/ exists a, s = EOp1 UNot a /\ snd (eval w s) = Err ERange)
  end.
Proof.
  intros w e W G. pose proof (fold_main true w W e false (or_introl eq_refl) G) as H.
  unfold fold_post in H. destruct (fold (w_const w) e); [exact I | exact H | exact H].
Qed.

Example fold_error_ex :
  fold (w_const w0) (EOp2 BMod (EVar 1) (ENum [48])) = Err EDivZero /\
  fold (w_const w0) (EOp2 BDiv (ENum [48]) (EVar 1)) = Ok (EBin (NI 0)) /\
  fold (w_const w0) (EOp2 BShl (ENum [49]) (EBin (NF (S754_infinity true)))) = Err ERange.
Proof. repeat (apply conj; [vm_compute; reflexivity |]). vm_compute. reflexivity. Qed.

(* The failing part need not be evaluated: true || 1 / 0 is rejected. *)
Theorem fold_error_dead_refuted : exists e v,
  good w0 false e /\ eval w0 e = ([], Ok v) /\ fold (w_const w0) e = Err EDivZero.
Proof.
  exists (ELogOr (EBool true) (EOp2 BDiv (ENum [49]) (ENum [48]))), (VBool true).
  apply conj.
  { cbn [good]. split; [exact I |]. split.
    - apply (good_num_int _ 1); [cbn; lia | reflexivity | lia].
    - split; [cbn; lia |]. exists (NI 0). split; [reflexivity |]. cbn [first]. lia. }
  split; vm_compute; reflexivity.
Qed.

(* The length limit of a folded sum of strings counts bytes of source text, not characters: two
   literals of 32766 bytes each are rejected whatever they denote, e.g. 21844 characters. *)
Lemma len_repeat : forall (x : Z) n, len (repeat x n) = Z.of_nat n.
Proof. intros. unfold len. rewrite repeat_length. reflexivity. Qed.

Definition pair_bytes (n : nat) : list Z := concat (repeat [195; 169] n).
Lemma pair_bytes_text : forall n, text true (pair_bytes n) (repeat 233 n).
Proof.
  induction n as [| n IH]; [constructor |].
  change (pair_bytes (Datatypes.S n)) with ([195; 169] ++ pair_bytes n). cbn [repeat].
  apply T_char; [| intros _; lia | exact IH].
  replace 233 with ((195 - 0xC0) * 64 + (169 - 0x80)) by lia. constructor; unfold cont_byte; lia.
Qed.
Lemma pair_bytes_len : forall n, len (pair_bytes n) = 2 * Z.of_nat n.
Proof.
  induction n as [| n IH]; [reflexivity |].
  change (pair_bytes (Datatypes.S n)) with ([195; 169] ++ pair_bytes n). rewrite len_app, IH.
  change (len [195; 169]) with 2. lia.
Qed.

Theorem fold_string_length_refuted : exists w tok1 tok2 cs, world_ok w /\
  good_str TString tok1 /\ good_str TString tok2 /\
  fold (w_const w) (EOp2 BAdd (EStr TString tok1) (EStr TString tok2)) = Err ELong /\
  eval w (EOp2 BAdd (EStr TString tok1) (EStr TString tok2)) = ([], Ok (VStr cs)) /\
  len cs = 32768.
Proof.
  destruct (Z_of_nat_complete 16384 ltac:(lia)) as [n Hn]. symmetry in Hn.
  exists w0, (34 :: pair_bytes n ++ [34]), (34 :: pair_bytes n ++ [34]), (repeat 233 n ++ repeat 233 n).
  pose proof w0_ok as W. pose proof (pair_bytes_text n) as T.
  assert (G : good_str TString (34 :: pair_bytes n ++ [34])).
  { exists true, (pair_bytes n), (repeat 233 n). split; [constructor | exact T]. }
  split; [exact W |]. split; [exact G |]. split; [exact G |].
  pose proof (ST_plain (pair_bytes n)) as ST.
  destruct (add_strings_spec _ _ _ _ _ _ _ ST ST) as [A _].
  split; [| split].
  - cbn [fold bind]. unfold fold2. cbn [get_const numeric].
    rewrite Bool.eqb_reflx, A, pair_bytes_len, Hn. reflexivity.
  - cbn [eval]. rewrite !seq_ok, (str_token_str _ _ _ _ ST), (proj1 W _ _ _ T). cbn [vm_op2].
    rewrite len_app, !len_repeat, Hn. reflexivity.
  - rewrite len_app, !len_repeat, Hn. reflexivity.
Qed.

(* ---- C105: a loaded constant is the requested one ---- *)

Definition loaded (vals : Z -> const) (l : load) : option num :=
  match l with
  | LInt8 z => Some (NI z)
  | LConst p => match vals p with CInt z => Some (NI z) | CFlt d => Some (NF d) | COther _ => None end
  | LNew c => match c with CInt z => Some (NI z) | CFlt d => Some (NF d) | COther _ => None end
  end.

Lemma find_zero : forall fuel h root cmp p, find fuel h root cmp = Some p -> p <> 0 -> cmp p = 0.
Proof.
  induction fuel as [| fuel IH]; intros h root cmp p H N; cbn [find] in H.
  - destruct (root =? 0); [congruence | discriminate H].
  - destruct (root =? 0); [congruence |]. destruct (cmp root =? 0) eqn:C.
    + assert (p = root) as -> by congruence. lia.
    + destruct (cmp root <? 0).
      * unfold RbModel.bind in H. destruct (get n_left h root) as [l |]; [| discriminate H]. eapply IH; eassumption.
      * unfold RbModel.bind in H. destruct (get n_right h root) as [l |]; [| discriminate H]. eapply IH; eassumption.
Qed.

Lemma compare_zero : forall n c, (forall t, c = COther t -> 2 <= t) ->
  numbers_compare n c = 0 ->
  match c with
  | CInt z => n = NI z
  | CFlt d => n = NF d \/ exists s1 s2, n = NF (S754_zero s1) /\ d = S754_zero s2
  | COther _ => False
  end.
Proof.
  intros n c T H. unfold numbers_compare in H.
  destruct (num_type n =? const_type c) eqn:E; cbn [negb] in H.
  2:{ destruct (num_type n <? const_type c); discriminate H. }
  destruct n as [a | a], c as [b | b | t]; cbn [num_type const_type] in E; try discriminate E;
    try (specialize (T t eq_refl); lia).
  - destruct (a <? b) eqn:E1; [discriminate H |]. destruct (a >? b) eqn:E2; [discriminate H |]. f_equal. lia.
  - destruct a as [s1 | s1 | | s1 m1 e1], b as [s2 | s2 | | s2 m2 e2]; cbn [SFcompare] in H;
      try (right; eauto; fail); try (destruct s1; try destruct s2; discriminate H); try discriminate H.
    + left. destruct s1, s2; try discriminate H; reflexivity.
    + left. destruct s1, s2; try discriminate H.
      * destruct (Z.compare e1 e2) eqn:Ce; try discriminate H. apply Z.compare_eq in Ce. subst e2.
        destruct (Pos.compare_cont Eq m1 m2) eqn:Cm; try discriminate H.
        apply Pos.compare_eq in Cm. subst m2. reflexivity.
      * destruct (Z.compare e1 e2) eqn:Ce; try discriminate H. apply Z.compare_eq in Ce. subst e2.
        destruct (Pos.compare_cont Eq m1 m2) eqn:Cm; try discriminate H.
        apply Pos.compare_eq in Cm. subst m2. reflexivity.
Qed.

(* For every tree of constants, also one which is not ordered because of a NaN, the number which is
   loaded is the requested one, up to the sign of a floating-point zero. *)
Theorem load_number_partial : forall fuel h root vals n l,
  (forall p t, vals p = COther t -> 2 <= t) ->
  load_number fuel h root vals n = Some l ->
  loaded vals l = Some n \/
  exists s1 s2, n = NF (S754_zero s1) /\ loaded vals l = Some (NF (S754_zero s2)).
Proof.
  intros fuel h root vals n l V H.
  assert (F : forall p, find fuel h root (fun p => numbers_compare n (vals p)) = Some p -> p <> 0 ->
     loaded vals (LConst p) = Some n \/
     exists s1 s2, n = NF (S754_zero s1) /\ loaded vals (LConst p) = Some (NF (S754_zero s2))).
  { intros p Fp Np. pose proof (find_zero _ _ _ _ _ Fp Np) as C. cbv beta in C.
    pose proof (compare_zero n (vals p) (V p) C) as Q. cbn [loaded].
    destruct (vals p); [left; now rewrite Q | | contradiction].
    destruct Q as [-> | (s1 & s2 & -> & ->)]; [left; reflexivity | right; exists s1, s2; auto]. }
  destruct n as [z | d]; cbn [load_number] in H.
  - destruct (is_sint8 z).
    + assert (l = LInt8 z) as -> by congruence. left. reflexivity.
    + destruct (find _ _ _ _) as [p |] eqn:Fp; [| discriminate H].
      destruct (p =? 0) eqn:P0.
      * assert (l = LNew (CInt z)) as -> by congruence. left. reflexivity.
      * assert (l = LConst p) as -> by congruence. apply F; [reflexivity | lia].
  - destruct (find _ _ _ _) as [p |] eqn:Fp; [| discriminate H].
    destruct (p =? 0) eqn:P0.
    + assert (l = LNew (CFlt d)) as -> by congruence. left. reflexivity.
    + assert (l = LConst p) as -> by congruence. apply F; [reflexivity | lia].
Qed.

(* A tree with the constants 0.0 (root, address 2) and 1000 (left, address 1) *)
Definition h0 : mem := fun p => if p =? 2 then Node 0 1 0 0 else Node 2 0 0 1.
Definition vals0 : Z -> const := fun p => if p =? 2 then CFlt (S754_zero false) else CInt 1000.

Example load_number_ex :
  load_number 3 h0 2 vals0 (NI (-128)) = Some (LInt8 (-128)) /\
  load_number 3 h0 2 vals0 (NI 1000) = Some (LConst 1) /\
  load_number 3 h0 2 vals0 (NI 128) = Some (LNew (CInt 128)) /\
  load_number 3 h0 2 vals0 (NF (of_int 1)) = Some (LNew (CFlt (of_int 1))) /\
  load_number 3 h0 2 vals0 (NF S754_nan) = Some (LNew (CFlt S754_nan)).
Proof. repeat (apply conj; [vm_compute; reflexivity |]). vm_compute. reflexivity. Qed.

(* After 0.0, the constant -0.0 is loaded as 0.0. *)
Theorem load_number_refuted : exists n l, load_number 3 h0 2 vals0 n = Some l /\ loaded vals0 l <> Some n.
Proof. exists (NF (S754_zero true)), (LConst 2). split; [vm_compute; reflexivity | discriminate]. Qed.

(* ---- C106: operators on integers ---- *)

(* For all integers and shift counts the instructions compute the arithmetic of [int_op]. *)
Theorem vm_int_ops : forall op a b, is_int64 a -> is_int64 b ->
  vm_binop op (NI a) (NI b) = bind (int_op op a b) (fun z => Ok (NI z)).
Proof. exact vm_ints. Qed.

Example vm_int_ops_ex :
  vm_binop BShl (NI (-5)) (NI (-1)) = Ok (NI (-3)) /\ vm_binop BShr (NI (-5)) (NI 64) = Ok (NI (-1)) /\
  vm_binop BShl (NI 1) (NI 63) = Ok (NI INT64_MIN) /\ vm_binop BShru (NI (-1)) (NI (-60)) = Ok (NI (- 2 ^ 60)) /\
  vm_binop BMod (NI (-7)) (NI 3) = Ok (NI (-1)).
Proof. repeat (apply conj; [vm_compute; reflexivity |]). vm_compute. reflexivity. Qed.

(* Bitwise operators on a float use its floor; they raise an error exactly when the float is not
   strictly between -2^63 and 2^63. *)
Theorem vm_float_to_int : forall s m e,
  get_integer (NF (S754_finite s m e)) =
  if dle (S754_finite s m e) (- 2 ^ 63) || dge (S754_finite s m e) (2 ^ 63) then Err ERange
  else Ok (floor_int s m e).
Proof. intros. apply (get_integer_float (S754_finite s m e)). Qed.

Example vm_float_to_int_ex :
  get_integer (NF (ddiv (of_int (-3)) (of_int 2))) = Ok (-2) /\
  get_integer (NF (of_int (- 2 ^ 63))) = Err ERange /\ get_integer (NF (S754_infinity false)) = Err ERange /\
  get_integer (NF (of_int (2 ^ 62))) = Ok (2 ^ 62).
Proof. repeat (apply conj; [vm_compute; reflexivity |]). vm_compute. reflexivity. Qed.

(* Overflow of + - * on integers is undefined. *)
Theorem vm_overflow_refuted : vm_binop BAdd (NI INT64_MAX) (NI 1) = Ub /\
  vm_binop BMul (NI INT64_MIN) (NI (-1)) = Ub /\ vm_unop UMinus (NI INT64_MIN) = Ub.
Proof. repeat (apply conj; [vm_compute; reflexivity |]). vm_compute. reflexivity. Qed.

Print Assumptions fold_binop_agrees.
Print Assumptions fold_expr_agrees_partial.
Print Assumptions fold_expr_exact_partial.
Print Assumptions fold_unary_minus_refuted.
Print Assumptions fold_not_range_refuted.
Print Assumptions nan_to_integer_refuted.
Print Assumptions fold_truthy_refuted.
Print Assumptions fold_effects_refuted.
Print Assumptions fold_error_partial.
Print Assumptions fold_error_dead_refuted.
Print Assumptions fold_string_length_refuted.
Print Assumptions load_number_partial.
Print Assumptions load_number_refuted.
Print Assumptions vm_int_ops.
Print Assumptions vm_float_to_int.
Print Assumptions vm_overflow_refuted.
