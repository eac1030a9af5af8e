(* Theorems about argument binding: C14, C15, C80, C81, C82. *)
From Coq Require Import ZArith List Lia Bool ZifyBool.
Import ListNotations.
From Verif Require Import Base ListZ ArgsModel ArgsSpec ArgsProofs ArgsProofs2 ArgsProofs3.
Local Open Scope Z_scope.
Ltac Zify.zify_post_hook ::= idtac.

(* C14: positional arguments.  A call fails exactly if a required parameter which matters has no
   argument.  Otherwise every used parameter has the value of its argument or of its own default,
   if at most 32 parameters matter, or fewer than 31 or all arguments are given, or there are 31
   required parameters; the first 31 parameters are right in any case (see C80 for the others).
   The ellipsis parameter gets the remaining arguments. *)
Theorem positional_arguments : forall (V : Type) nindep ps ell ell_indep uses_this binds body o places nreq
    (dvals defaults closures : list V) names proto a args this f,
  compiled nindep ps ell ell_indep uses_this binds body o places nreq dvals defaults closures ->
  passes a args ->
  (too_few ps ell nreq (len args) /\ call_function o defaults closures names proto a this f = Exn) \/
  (~ too_few ps ell nreq (len args) /\
   exists f', call_function o defaults closures names proto a this f = Ok f' /\
     ((~ needed ps ell 32) \/ len args < 31 \/ (forall i, needed ps ell i -> i < len args) \/ nreq = 31 ->
      parameters_are ps o places f' (argument_or_default nreq args dvals)) /\
     (forall i p, gz ps i = Some p -> p_used p = true -> i < 31 ->
        exists v pl, argument_or_default nreq args dvals i = Some v /\ gz places i = Some pl /\ read_place o f' pl = Ok v) /\
     others_are o f' ell (skipn (length ps) args) uses_this this closures).
Proof. intros V. exact (@positional_ok V). Qed.

(* fun(a, b = 20, c, rest...) with an unused middle parameter: [mkparam default used] *)
Definition ex_ps : list param := [mkparam false true; mkparam true false; mkparam true true].
Definition ex_call (ell : bool) (a : actual Z) : list (res Z) * res (@content Z) :=
  match compile_args 2 ex_ps ell (if ell then Some 1 else None) true 1 3 with
  | None => ([], Ub)
  | Some (o, places) =>
      match call_function o [20; 30] [77] (Some [1; 2; 3]) (fun _ => None) a 55 (fun _ => One 0) with
      | Ok f => (map (read_place o f) places, Ok (f (ellipsis_reg o)))
      | Exn => ([], Exn) | Ub => ([], Ub) end
  end.
Example positional_arguments_ex :
  ex_call false (AArray []) = ([], Exn) /\
  ex_call true (AArray [1]) = ([Ok 1; Ok 20; Ok 30], Ok (Arr [])) /\
  ex_call true (ARegs [9; 9; 1; 2; 3; 4; 5; 6] 2 5) = ([Ok 1; Ok 2; Ok 3], Ok (Arr [4; 5])).
Proof. vm_compute. auto. Qed.

Example compiled_ex : exists o places, compiled 2 ex_ps false None true 1 3 o places 1 [20; 30] [20; 30] [77].
Proof.
  eexists _, _. constructor; try reflexivity; try lia; try discriminate.
  - split; [ unfold len; cbn; lia | ]. intros i p H. pose proof (gz_some_inv _ _ _ _ H) as Hi. unfold len in Hi; cbn in Hi.
    assert (i = 0 \/ i = 1 \/ i = 2) as [->|[->| ->]] by lia; inversion H; reflexivity.
  - split; [ reflexivity | ]. split.
    + intros k Hk. pose proof (proj2 (count_args_spec ex_ps false) (1 + k)) as N. rewrite N.
      change (count_args ex_ps false) with 3. unfold len; cbn [length]. lia.
    + intros k p Hk H Hu. reflexivity.
Qed.

(* C15: named arguments, also for more than 32 parameters.  A call fails exactly if a name is not
   the name of a parameter or a required parameter which matters is missing. *)
Theorem named_arguments : forall (V : Type) nindep ps ell ell_indep uses_this binds body o places nreq
    (dvals defaults closures : list V) names proto props this f,
  compiled nindep ps ell ell_indep uses_this binds body o places nreq dvals defaults closures ->
  len names = len ps -> NoDup names -> NoDup (map fst props) ->
  (forall k, ~ In k names -> proto k = None) ->
  ((exists k, In k (map fst props) /\ ~ In k names) \/
   (exists i k, needed ps ell i /\ i < nreq /\ gz names i = Some k /\ lookup k props = None)) /\
   call_function o defaults closures (Some names) proto (AObject props) this f = Exn \/
  (forall k, In k (map fst props) -> In k names) /\
  (forall i k, needed ps ell i -> i < nreq -> gz names i = Some k -> lookup k props <> None) /\
  exists f', call_function o defaults closures (Some names) proto (AObject props) this f = Ok f' /\
    parameters_are ps o places f' (named_or_default names nreq props dvals) /\
    others_are o f' ell [] uses_this this closures.
Proof. intros V. exact (@named_ok V). Qed.
Example named_arguments_ex :
  ex_call true (AObject [(3, 33); (1, 11)]) = ([Ok 11; Ok 20; Ok 33], Ok (Arr [])) /\
  ex_call false (AObject [(1, 11)]) = ([Ok 11; Ok 20; Ok 30], Ok (One 0)) /\
  ex_call false (AObject [(3, 33)]) = ([], Exn) /\
  ex_call false (AObject [(1, 11); (4, 44)]) = ([], Exn).
Proof. vm_compute. auto. Qed.

(* C14: a built-in function gets the arguments followed by the default values of the others. *)
Theorem handler_arguments : forall (V : Type) o (defaults : list V) names proto a args,
  0 <= min_args o -> 0 <= num_def_args o < 256 -> len defaults = num_def_args o -> passes a args ->
  call_handler o defaults names proto a =
    if len args <? min_args o then Exn
    else Ok (args ++ skipn (Z.to_nat (len args - min_args o)) defaults).
Proof. intros V. exact (@handler_ok V). Qed.
Definition ex_handler : opts := mkopts 0 1 2 0 255 255 255 255 255.
Example handler_arguments_ex :
  map (fun a => call_handler ex_handler [20; 30] None (fun _ => None) (AArray a)) [[]; [1]; [1; 2]; [1; 2; 3]; [1; 2; 3; 4]]
    = [Exn; Ok [1; 20; 30]; Ok [1; 2; 30]; Ok [1; 2; 3]; Ok [1; 2; 3; 4]].
Proof. vm_compute. reflexivity. Qed.

(* C15: named arguments of a built-in function *)
Theorem handler_named_arguments : forall (V : Type) o (defaults : list V) names proto props,
  0 <= min_args o -> 0 <= num_def_args o -> min_args o + num_def_args o = len names -> len names < 256 ->
  len defaults = num_def_args o -> NoDup names -> NoDup (map fst props) ->
  (forall k, ~ In k names -> proto k = None) ->
  ((exists k, In k (map fst props) /\ ~ In k names) \/
   (exists i k, 0 <= i < min_args o /\ gz names i = Some k /\ lookup k props = None)) /\
   call_handler o defaults (Some names) proto (AObject props) = Exn \/
  exists l, call_handler o defaults (Some names) proto (AObject props) = Ok l /\ len l = len names /\
    forall i, 0 <= i < len names -> gz l i = named_or_default names (min_args o) props defaults i.
Proof.
  intros V o defaults names proto props Hm Hd Hsum Hln Hdl Hnd Hnp Hproto. unfold call_handler. cbn [check_args].
  destruct (Forall_Exists_dec (fun k => In k names) (fun k => in_dec Z.eq_dec k names) (map fst props)) as [Hall|Hex].
  2:{ left. apply Exists_exists in Hex. split; [ left; exact Hex | ]. cbn [get_named_args].
      rewrite fill_named_unknown by (exact Hex || exact Hproto). reflexivity. }
  rewrite Forall_forall in Hall.
  destruct (get_named_args_ok o defaults names proto props) as [[H E]|[Hreq (l & E & Hll & Hal)]];
    try assumption; try lia.
  - left. split; [ right; exact H | rewrite E; reflexivity ].
  - right. rewrite E. cbn [bind]. destruct (all_named_list l _ Hal) as (args & -> & Hla & Hv).
    replace (len args <? min_args o) with false by lia. cbn [bind].
    exists args. unfold set_default_args_for_handler. split; [ | split; [ lia | ] ].
    + destruct (num_def_args o =? 0); [ reflexivity | ].
      replace (len args <? min_args o + num_def_args o) with false by lia. reflexivity.
    + intros i Hi. apply Hv. lia.
Qed.
Example handler_named_arguments_ex :
  map (fun p => call_handler ex_handler [20; 30] (Some [7; 8; 9]) (fun _ => None) (AObject p))
    [[(7, 1)]; [(9, 3); (7, 1)]; [(8, 2)]; [(7, 1); (6, 0)]] = [Ok [1; 20; 30]; Ok [1; 20; 3]; Exn; Exn].
Proof. vm_compute. reflexivity. Qed.

(* C80 refuted: 33 parameters; with 32 required ones, reading the last parameter raises an
   exception instead of giving its default; without required ones, the last parameter gets the
   default value of another parameter. *)
Definition many (nreq : nat) : list param := repeat (mkparam false true) nreq ++ repeat (mkparam true true) (33 - nreq).
Definition count_up (b : Z) (n : nat) : list Z := map (fun i => b + Z.of_nat i) (seq 0 n).
Definition call_many (nreq : nat) (nargs : nat) : option (list (res Z)) :=
  match compile_args 0 (many nreq) false None false 0 1 with
  | None => None
  | Some (o, places) =>
      match call_function o (count_up (1000 + Z.of_nat nreq) (33 - nreq)) [] None (fun _ => None)
              (AArray (count_up 0 nargs)) 0 (fun _ => One (-1)) with
      | Ok f => Some (map (read_place o f) places)
      | _ => None end
  end.
Theorem many_parameters_refuted :
  (exists l, call_many 32 32 = Some l /\ gz l 32 = Some Exn) /\
  (exists l, call_many 0 32 = Some l /\ gz l 32 = Some (Ok 1001)) /\
  argument_or_default 32 (count_up 0 32) (count_up 1032 1) 32 = Some 1032 /\
  argument_or_default 0 (count_up 0 32) (count_up 1000 33) 32 = Some 1032.
Proof.
  split; [ | split; [ | split; reflexivity ] ].
  - eexists. split; [ vm_compute; reflexivity | reflexivity ].
  - eexists. split; [ vm_compute; reflexivity | reflexivity ].
Qed.
Example many_parameters_ex : (exists l, call_many 31 32 = Some l /\ gz l 32 = Some (Ok 1032)) /\
  (exists l, call_many 0 30 = Some l /\ gz l 32 = Some (Ok 1032) /\ gz l 30 = Some (Ok 1030)).
Proof. split; eexists; (split; [ vm_compute; reflexivity | ]); vm_compute; auto. Qed.

(* C81 refuted: object.prototype has a property [4] (such as map), whose value is a function at
   address 4096: the name is not reported, the value is lost.  If the property is the integer 0,
   the value goes to the first parameter. *)
Theorem unknown_name_refuted :
  get_named_args ex_handler [20; 30] (Some [1; 2; 3]) (fun k => if k =? 4 then Some 4097 else None) [(1, 11); (4, 44)]
    = Ok [Some 11; Some 20; Some 30] /\
  get_named_args ex_handler [20; 30] (Some [1; 2; 3]) (fun k => if k =? 4 then Some (to_small_int 0) else None) [(4, 44)]
    = Ok [Some 44; Some 20; Some 30].
Proof. vm_compute. auto. Qed.

(* C82 refuted: the array given by the caller is extended with the default values. *)
Theorem caller_array_refuted : exists o (defaults args l : list Z),
  call_handler o defaults None (fun _ => None) (AArray args) = Ok l /\ l <> args.
Proof. exists ex_handler, [20; 30], [1], [1; 20; 30]. split; [ vm_compute; reflexivity | discriminate ]. Qed.

(* C82: the array is left alone when it has a value for every parameter or there are no defaults *)
Theorem caller_array_unchanged : forall (V : Type) o (defaults : list V) names proto args,
  0 <= min_args o -> 0 <= num_def_args o < 256 -> len defaults = num_def_args o -> min_args o <= len args < 2 ^ 31 ->
  (call_handler o defaults names proto (AArray args) = Ok args <-> min_args o + num_def_args o <= len args).
Proof.
  intros V o defaults names proto args Hm Hd Hdl Hl.
  rewrite (handler_ok o defaults names proto (AArray args) args Hm Hd Hdl) by (split; [ lia | left; reflexivity ]).
  replace (len args <? min_args o) with false by lia. split.
  - intros H. assert (E : args ++ skipn (Z.to_nat (len args - min_args o)) defaults = args) by congruence.
    apply (f_equal len) in E. rewrite len_app, len_skipn in E. lia.
  - intros H. f_equal. rewrite skipn_all2 by (unfold len in *; lia). apply app_nil_r.
Qed.

Print Assumptions positional_arguments.
Print Assumptions named_arguments.
Print Assumptions handler_arguments.
Print Assumptions handler_named_arguments.
Print Assumptions many_parameters_refuted.
Print Assumptions unknown_name_refuted.
Print Assumptions caller_array_refuted.
Print Assumptions caller_array_unchanged.
