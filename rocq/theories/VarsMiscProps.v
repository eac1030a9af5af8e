(** Module paths and comparison of closures. *)
From Coq Require Import ZArith List Lia Bool ZifyBool.
Import ListNotations.
From Verif Require Import Base ListZ VarsMiscSpec VarsMiscModel.
Local Open Scope Z_scope.
Ltac Zify.zify_post_hook ::= idtac.

(** * Paths *)

Fixpoint full (done : list Z) (names : list (list Z)) : list Z :=
  match names with
  | [] => done
  | t :: r => full (match done with [] => done | _ => done ++ [47] end ++ t) r
  end.

Lemma full_len : forall names done, len done <= len (full done names).
Proof.
  induction names as [|t r IH]; intros done; cbn [full]; [lia|].
  specialize (IH (match done with [] => done | _ => done ++ [47] end ++ t)).
  revert IH. destruct done as [|c d]; intros IH; rewrite !len_app in IH.
  - change (len []) with 0. pose proof (len_nonneg _ (full [] (t :: r))). cbn [full] in H. exact H.
  - pose proof (len_nonneg _ t). pose proof (len_nonneg _ [47]). lia.
Qed.

Lemma copy_full : forall size names done, len done <= size ->
  copy_names size done names
  = if size <? len (full done names) then None else Some (full done names).
Proof.
  intros size. induction names as [|t r IH]; intros done L; cbn [copy_names full].
  - destruct (Z.ltb_spec size (len done)); [lia|reflexivity].
  - set (d2 := match done with [] => done | _ => done ++ [47] end ++ t).
    destruct (Z.ltb_spec size (len d2)).
    + pose proof (full_len r d2). destruct (Z.ltb_spec size (len (full d2 r))); [reflexivity|lia].
    + apply IH. lia.
Qed.

Lemma full_join : forall names done, done <> [] -> names <> [] ->
  full done names = done ++ [47] ++ join names.
Proof.
  induction names as [|t r IH]; intros done N1 N2; [contradiction|].
  cbn [full]. destruct done as [|c d]; [contradiction|].
  destruct r as [|t2 r2]; [cbn [full join]; rewrite <- app_assoc; reflexivity|].
  rewrite IH; [|destruct d; discriminate|discriminate].
  change (join (t :: t2 :: r2)) with (t ++ [47] ++ join (t2 :: r2)).
  rewrite <- !app_assoc. reflexivity.
Qed.

Lemma full_nil : forall names, (forall t, In t names -> t <> []) ->
  full [] names = join names.
Proof.
  intros [|t [|t2 r]] N; [reflexivity|reflexivity|].
  change (full [] (t :: t2 :: r)) with (full t (t2 :: r)).
  rewrite full_join; [reflexivity| |discriminate]. apply N. left; reflexivity.
Qed.

Lemma uwrap_id : forall x, 0 <= x < 2 ^ 32 -> uwrap 32 x = x.
Proof. intros x H. unfold uwrap. apply Z.mod_small. exact H. Qed.

Lemma total_full : forall names done, (forall t, In t names -> t <> []) ->
  len (full done names) < 2 ^ 32 -> path_total (len done) names = len (full done names).
Proof.
  induction names as [|t r IH]; intros done N L; cbn [path_total full] in *; [reflexivity|].
  pose proof (full_len r (match done with [] => done | _ => done ++ [47] end ++ t)) as FL.
  assert (N' : forall u, In u r -> u <> []) by (intros u I1; apply N; right; exact I1).
  rewrite <- (IH _ N' L). f_equal. pose proof (len_nonneg _ t) as Lt.
  destruct done as [|c d].
  - change (len []) with 0. cbn [Z.eqb]. cbn [app] in *. rewrite uwrap_id; lia.
  - pose proof (len_nonneg _ d) as Ld. rewrite !len_app in FL |- *.
    change (len [47]) with 1 in *. rewrite len_cons in *.
    destruct (Z.eqb_spec (1 + len d) 0); [lia|].
    rewrite (uwrap_id (1 + len d + 1)) by lia. apply uwrap_id. lia.
Qed.

(** A path of at most 65535 bytes is built from its parts. *)
Theorem module_path_partial : forall names,
  names <> [] -> (forall t, In t names -> t <> []) -> len (join names) <= 65535 ->
  get_module_path_name names = POk (join names) (len (join names)).
Proof.
  intros names NE N L. destruct names as [|t [|t2 r]]; [contradiction|reflexivity|].
  set (names := t :: t2 :: r) in *.
  change (get_module_path_name names) with
    (let name_len := get_module_path_len names in
     match copy_names ((name_len + 1 + 7) / 8 * 8) [] names with
     | Some path => POk path name_len | None => POverflow end).
  cbv zeta. pose proof (full_nil names N) as FJ.
  assert (GL : get_module_path_len names = len (join names)).
  { assert (PT : path_total 0 names = len (join names)).
    { rewrite <- FJ. apply (total_full names [] N). rewrite FJ. lia. }
    unfold get_module_path_len. rewrite PT. cbv zeta.
    destruct (Z.ltb_spec 65535 (len (join names))); [lia|reflexivity]. }
  pose proof (len_nonneg _ (join names)) as Lj.
  rewrite GL, copy_full, FJ.
  - destruct (Z.ltb_spec ((len (join names) + 1 + 7) / 8 * 8) (len (join names))) as [H|H];
      [|reflexivity].
    exfalso. clear - H Lj. Z.div_mod_to_equations. lia.
  - change (len []) with 0. clear - Lj. Z.div_mod_to_equations. lia.
Qed.

Example path_abc : get_module_path_name [[97]; [98; 99]; [100]]
  = POk [97; 47; 98; 99; 47; 100] 6.
Proof. reflexivity. Qed.

(** A longer one is always written behind the end of its buffer. *)
Theorem module_path_overflow : forall t t2 r,
  (forall u, In u (t :: t2 :: r) -> u <> []) ->
  65535 < len (join (t :: t2 :: r)) < 2 ^ 32 ->
  get_module_path_name (t :: t2 :: r) = POverflow.
Proof.
  intros t t2 r N L. set (names := t :: t2 :: r) in *.
  change (get_module_path_name names) with
    (let name_len := get_module_path_len names in
     match copy_names ((name_len + 1 + 7) / 8 * 8) [] names with
     | Some path => POk path name_len | None => POverflow end).
  cbv zeta. pose proof (full_nil names N) as FJ.
  assert (GL : get_module_path_len names = 0).
  { assert (PT : path_total 0 names = len (join names)).
    { rewrite <- FJ. apply (total_full names [] N). rewrite FJ. lia. }
    unfold get_module_path_len. rewrite PT. cbv zeta.
    destruct (Z.ltb_spec 65535 (len (join names))); [reflexivity|lia]. }
  rewrite GL. change ((0 + 1 + 7) / 8 * 8) with 8. rewrite copy_full, FJ.
  - destruct (Z.ltb_spec 8 (len (join names))); [reflexivity|lia].
  - change (len []) with 0. lia.
Qed.

(** So not all paths which the lexer accepts (names of at most 65535 bytes) stay
    in their buffer. *)
Theorem module_path_in_buffer_refuted : ~ (forall names,
  (forall t, In t names -> t <> [] /\ len t <= 65535) -> len (join names) < 2 ^ 32 ->
  get_module_path_name names <> POverflow).
Proof.
  intros H. set (t := repeat 97 (Z.to_nat 40000)).
  assert (Lt : len t = 40000) by (unfold t, len; rewrite repeat_length; lia).
  assert (Nt : t <> []) by (intros E1; rewrite E1 in Lt; discriminate Lt).
  assert (Lj : len (join [t; t]) = 80001).
  { cbn [join]. rewrite !len_app, Lt. reflexivity. }
  apply (H [t; t]).
  - intros u [<-|[<-|[]]]; split; auto; lia.
  - rewrite Lj. reflexivity.
  - apply module_path_overflow; [|rewrite Lj; split; reflexivity].
    intros u [<-|[<-|[]]]; exact Nt.
Qed.

(** * Comparison of closures *)

Lemma swrap32_small : forall x, - 2 ^ 31 <= x < 2 ^ 31 -> swrap 32 x = x.
Proof.
  intros x H. unfold swrap. change (2 ^ 32) with 4294967296. change (2 ^ (32 - 1)) with 2147483648.
  change (2 ^ 31) with 2147483648 in H.
  destruct (Z.ltb_spec (x mod 4294967296) 2147483648);
    Z.div_mod_to_equations; lia.
Qed.

(** Closures in a window of 2 GiB are ordered. *)
Theorem closure_order_partial : forall base,
  total_order_on (fun a => base <= a < base + 2 ^ 31) scope_ref_compare.
Proof.
  intros base. unfold scope_ref_compare. split; [|split].
  - intros a b Ha Hb. rewrite swrap32_small by lia. lia.
  - intros a b Ha Hb. rewrite !swrap32_small by lia. lia.
  - intros a b c Ha Hb Hc. rewrite !swrap32_small by lia. lia.
Qed.

Example closure_order_example : scope_ref_compare 140000000000008 140000000000000 = 8.
Proof. reflexivity. Qed.

(** Not so for all addresses: two closures 4 GiB apart are the same, and three
    closures may be ordered in a circle. *)
Theorem closure_order_refuted : ~ total_order_on address scope_ref_compare.
Proof.
  intros (EQ & _). assert (A : address 4096) by (split; [split|]; reflexivity || discriminate).
  assert (B : address (4096 + 2 ^ 32)) by (split; [split|]; reflexivity || discriminate).
  destruct (EQ _ _ A B) as [H _]. specialize (H eq_refl). discriminate H.
Qed.

Theorem closure_circle_refuted : ~ (forall a b c, address a -> address b -> address c ->
  scope_ref_compare a b < 0 -> scope_ref_compare b c < 0 -> scope_ref_compare a c < 0).
Proof.
  intros H. specialize (H 0 1610612736 3221225472).
  assert (G : scope_ref_compare 0 3221225472 < 0)
    by (apply H; unfold address; repeat split; reflexivity || discriminate).
  discriminate G.
Qed.

Print Assumptions module_path_partial.
Print Assumptions module_path_overflow.
Print Assumptions module_path_in_buffer_refuted.
Print Assumptions closure_order_partial.
Print Assumptions closure_order_refuted.
Print Assumptions closure_circle_refuted.
