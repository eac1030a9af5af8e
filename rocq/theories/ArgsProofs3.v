(* Proofs about argument binding: theorems about calls. *)
From Coq Require Import ZArith List Lia Bool ZifyBool.
Import ListNotations.
From Verif Require Import Base ListZ ArgsModel ArgsSpec ArgsProofs ArgsProofs2.
Local Open Scope Z_scope.
Ltac Zify.zify_post_hook ::= idtac.

Section Thm.
Context {V : Type}.

Lemma default_count : forall ps ell nreq (dvals defaults : list V), 0 <= nreq -> defaults_of ps ell nreq dvals defaults ->
  len defaults = count_args ps ell - Z.min nreq (count_args ps ell).
Proof.
  intros ps ell nreq dvals defaults Hq (_ & H & _). destruct (count_args_spec ps ell) as [Hna Hn].
  pose proof (len_nonneg _ defaults) as Hl.
  destruct (Z.lt_trichotomy (len defaults) (Z.max 0 (count_args ps ell - nreq))) as [L|[L|L]]; [ | lia | ].
  - destruct (H (len defaults) Hl) as [_ H2]. assert (needed ps ell (nreq + len defaults)); [ | specialize (H2 H0); lia ].
    apply Hn. lia.
  - destruct (H (Z.max 0 (count_args ps ell - nreq)) ltac:(lia)) as [H1 _]. specialize (H1 L). apply Hn in H1. lia.
Qed.

Lemma bound_val : forall ps ell nreq (dvals defaults args : list V) i p,
  0 <= nreq -> defaults_of ps ell nreq dvals defaults ->
  Z.min nreq (count_args ps ell) <= len args ->
  gz ps i = Some p -> p_used p = true ->
  bound (Z.min nreq (count_args ps ell)) args defaults i = argument_or_default nreq args dvals i.
Proof.
  intros ps ell nreq dvals defaults args i p Hq (_ & _ & H) Hm Hi Hu. unfold bound, argument_or_default.
  destruct (count_args_spec ps ell) as [Hna Hn].
  assert (Hneed : needed ps ell i).
  { split; [ apply gz_some_inv in Hi; lia | ]. exists i, p. split; [ lia | auto ]. }
  apply Hn in Hneed.
  destruct (gz args i) eqn:E; [ reflexivity | ].
  assert (len args <= i). { destruct (Z.lt_ge_cases i (len args)); [ | assumption ]. destruct (gz_some _ args i); [ lia | congruence ]. }
  rewrite Z.min_l by lia. apply H with (p := p); [ lia | | exact Hu ]. replace (nreq + (i - nreq)) with i by lia. exact Hi.
Qed.

Theorem positional_ok : forall nindep ps ell ell_indep uses_this binds body o places nreq (dvals defaults closures : list V)
    names proto a args this f,
  compiled nindep ps ell ell_indep uses_this binds body o places nreq dvals defaults closures ->
  passes a args ->
  (too_few ps ell nreq (len args) /\ call_function o defaults closures names proto a this f = Exn) \/
  (~ too_few ps ell nreq (len args) /\
   exists f', call_function o defaults closures names proto a this f = Ok f' /\
     ((~ needed ps ell 32) \/ len args < 31 \/ (forall i, needed ps ell i -> i < len args) \/ nreq = 31 ->
      parameters_are ps o places f' (argument_or_default nreq args dvals)) /\
     (forall i p, gz ps i = Some p -> p_used p = true -> i < 31 ->
        exists v pl, argument_or_default nreq args dvals i = Some v /\ gz places i = Some pl /\ read_place o f' pl = Ok v) /\
     others_are o f' ell (skipn (length ps) args) uses_this this closures).
Proof.
  intros nindep ps ell ell_indep uses_this binds body o places nreq dvals defaults closures names proto a args this f
    [C1 C2 C3 C4 C5 C6] Hp.
  destruct (compile_layout _ _ _ _ _ _ _ _ _ _ C1 C2 C3) as (L & P1 & P2 & P3).
  destruct (count_args_spec ps ell) as [Hna Hneed]. set (na := count_args ps ell) in *.
  destruct (passes_check o defaults names proto a args Hp) as [E Hin].
  unfold call_function. rewrite E. rewrite (l_min _ _ _ _ _ _ _ _ L).
  pose proof (proj1 C2) as Hq.
  assert (Hdl : len defaults = na - Z.min nreq na) by (eapply default_count; [ lia | exact C5 ]).
  destruct (Z.ltb_spec (len args) (Z.min nreq na)) as [Hfew|Hen].
  - left. split; [ | reflexivity ]. exists (Z.min nreq na - 1). pose proof (len_nonneg _ args).
    split; [ apply Hneed; lia | lia ].
  - right. split.
    { intros (i & Hi & H1 & H2). apply Hneed in Hi. lia. }
    replace (bind match a with ARegs buf idx num => Ok (FromStack buf idx num) | _ => Ok (FromArray args) end
              (fun i => init_registers o defaults closures i this f))
      with (init_registers o defaults closures (match a with ARegs buf idx num => FromStack buf idx num | _ => FromArray args end) this f)
      by (destruct a; reflexivity).
    destruct (init_registers_ok o na nindep nreq ell uses_this ell_indep (Z.of_nat binds) defaults closures
               (match a with ARegs buf idx num => FromStack buf idx num | _ => FromArray args end) args this f L)
      as (f' & -> & A1 & A2 & A3 & A4); try assumption; try lia.
    { destruct Hp. lia. }
    { unfold len. lia. }
    assert (Hval : forall i p, gz ps i = Some p -> p_used p = true ->
               arg_in_reg na i = true \/ (31 <= len args < na -> nreq = 31) ->
               exists v pl, argument_or_default nreq args dvals i = Some v /\ gz places i = Some pl /\ read_place o f' pl = Ok v).
    { intros i p Hi Hu Hc. pose proof (gz_some_inv _ _ _ _ Hi) as Hi2.
      assert (Hn : needed ps ell i) by (split; [ lia | exists i, p; split; [ lia | auto ] ]). apply Hneed in Hn.
      destruct (A1 i Hn Hc) as (v & V1 & V2). exists v, (place_of na nindep i). split; [ | split ].
      - rewrite <- V1. symmetry. eapply bound_val; eauto. lia.
      - apply P3. lia.
      - exact V2. }
    exists f'. split; [ reflexivity | ]. split; [ | split ].
    + intros Hc i p Hi Hu. apply (Hval i p Hi Hu).
      destruct Hc as [Hc|[Hc|[Hc|Hc]]].
      * left. unfold arg_in_reg, have_rest, KOS_MAX_ARGS_IN_REGS. rewrite Hneed in Hc.
        replace (32 <? na) with false by lia. reflexivity.
      * right. lia.
      * right. intros Hb. specialize (Hc (na - 1)). rewrite Hneed in Hc. lia.
      * right. auto.
    + intros i p Hi Hu Hc. apply (Hval i p Hi Hu). left.
      unfold arg_in_reg, KOS_MAX_ARGS_IN_REGS. replace (i <? 32 - 1) with true by lia. apply orb_true_r.
    + split; [ | split; assumption ].
      intros El. rewrite A2 by exact El. do 2 f_equal. unfold na, count_args. rewrite El. unfold len. apply Nat2Z.id.
Qed.

Theorem named_ok : forall nindep ps ell ell_indep uses_this binds body o places nreq (dvals defaults closures : list V)
    names proto props this f,
  compiled nindep ps ell ell_indep uses_this binds body o places nreq dvals defaults closures ->
  len names = len ps -> NoDup names -> NoDup (map fst props) ->
  (forall k, ~ In k names -> proto k = None) ->
  ((exists k, In k (map fst props) /\ ~ In k names) \/
   (exists i k, needed ps ell i /\ i < nreq /\ gz names i = Some k /\ lookup k props = None)) /\
   call_function o defaults closures (Some names) proto (AObject props) this f = Exn \/
  (forall k, In k (map fst props) -> In k names) /\
  (forall i k, needed ps ell i -> i < nreq -> gz names i = Some k -> lookup k props <> None) /\
  exists f', call_function o defaults closures (Some names) proto (AObject props) this f = Ok f' /\
    parameters_are ps o places f' (named_or_default names nreq props dvals) /\
    others_are o f' ell [] uses_this this closures.
Proof.
  intros nindep ps ell ell_indep uses_this binds body o places nreq dvals defaults closures names proto props this f
    [C1 C2 C3 C4 C5 C6] Hnl Hnd Hnp Hproto.
  destruct (compile_layout _ _ _ _ _ _ _ _ _ _ C1 C2 C3) as (L & P1 & P2 & P3).
  destruct (count_args_spec ps ell) as [Hna Hneed]. set (na := count_args ps ell) in *.
  pose proof (proj1 C2) as Hq.
  assert (Hdl : len defaults = na - Z.min nreq na) by (eapply default_count; [ lia | exact C5 ]).
  pose proof (l_min _ _ _ _ _ _ _ _ L) as Lm. pose proof (l_def _ _ _ _ _ _ _ _ L) as Ld.
  unfold call_function. cbn [check_args].
  destruct (Forall_Exists_dec (fun k => In k names) (fun k => in_dec Z.eq_dec k names) (map fst props)) as [Hall|Hex].
  2:{ left. apply Exists_exists in Hex. split; [ left; exact Hex | ]. cbn [get_named_args].
      rewrite fill_named_unknown by (exact Hex || exact Hproto). reflexivity. }
  rewrite Forall_forall in Hall.
  destruct (get_named_args_ok o defaults names proto props) as [[(i & k & Hi & Hk & Hl) E]|[Hreq (l & E & Hll & Hal)]];
    try assumption; try lia.
  - left. split; [ right | rewrite E; reflexivity ]. exists i, k. split; [ apply Hneed; lia | ]. split; [ lia | auto ].
  - right. split; [ exact Hall | ]. split.
    { intros i k Hi Hlt Hk. apply (Hreq i k); [ apply Hneed in Hi; lia | exact Hk ]. }
    rewrite E. cbn [bind]. destruct (all_named_list l _ Hal) as (args & -> & Hla & Hv).
    rewrite Lm. replace (len args <? Z.min nreq na) with false by lia. cbn [bind].
    destruct (init_registers_ok o na nindep nreq ell uses_this ell_indep (Z.of_nat binds) defaults closures
               (FromArray args) args this f L)
      as (f' & -> & A1 & A2 & A3 & A4); try assumption; try lia.
    { split; [ reflexivity | ]. intros offs n H1 H2 H3. cbn [read_input]. apply read_n_ok; assumption. }
    { unfold len. lia. }
    exists f'. split; [ reflexivity | ]. split; [ | split; [ | split; assumption ] ].
    + intros i p Hi Hu. pose proof (gz_some_inv _ _ _ _ Hi) as Hi2.
      assert (Hn : needed ps ell i) by (split; [ lia | exists i, p; split; [ lia | auto ] ]). apply Hneed in Hn.
      destruct (A1 i Hn) as (v & V1 & V2); [ right; lia | ].
      exists v, (place_of na nindep i). split; [ | split; [ apply P3; lia | exact V2 ] ].
      rewrite <- V1. rewrite bound_lt by lia. rewrite Hv by lia.
      unfold named_or_default. destruct (gz_some _ names i) as [k Hk]; [ lia | ]. rewrite Hk, Lm.
      destruct (lookup k props) eqn:El; [ reflexivity | ].
      destruct (Z.lt_ge_cases i nreq) as [Hlt|Hge].
      * exfalso. apply (Hreq i k); [ lia | exact Hk | exact El ].
      * rewrite Z.min_l by lia. symmetry. apply (proj2 (proj2 C5)) with (p := p); [ lia | | exact Hu ].
        replace (nreq + (i - nreq)) with i by lia. exact Hi.
    + intros El. rewrite A2 by exact El. f_equal. apply skipn_all2. unfold len in *. lia.
Qed.

Theorem handler_ok : forall o (defaults : list V) names proto a args,
  0 <= min_args o -> 0 <= num_def_args o < 256 -> len defaults = num_def_args o -> passes a args ->
  call_handler o defaults names proto a =
    if len args <? min_args o then Exn
    else Ok (args ++ skipn (Z.to_nat (len args - min_args o)) defaults).
Proof.
  intros o defaults names proto a args Hm Hd Hdl Hp. unfold call_handler.
  destruct (passes_check o defaults names proto a args Hp) as [E Hin]. rewrite E.
  destruct (Z.ltb_spec (len args) (min_args o)) as [|Hge]; [ reflexivity | ].
  assert (Hs : set_default_args_for_handler o defaults args = args ++ skipn (Z.to_nat (len args - min_args o)) defaults).
  { unfold set_default_args_for_handler. destruct (Z.eqb_spec (num_def_args o) 0) as [Hz|Hz].
    - rewrite skipn_all2 by (unfold len in *; lia). symmetry. apply app_nil_r.
    - destruct (Z.ltb_spec (len args) (min_args o + num_def_args o)).
      + destruct Hp as [Hp _]. rewrite u32_small by lia.
        replace (array_insert args (len args) INT64_MAX defaults (len args - min_args o) INT64_MAX)
          with (array_insert args INT64_MAX INT64_MAX defaults (len args - min_args o) INT64_MAX).
        * apply array_append; lia.
        * unfold array_insert. pose proof (len_nonneg _ args). rewrite (fix_index_max (len args)) by lia. rewrite (fix_index_in (len args) (len args)) by lia. reflexivity.
      + rewrite skipn_all2 by (unfold len in *; lia). symmetry. apply app_nil_r. }
  destruct Hp as [Hl [->|(buf & idx & -> & H1 & H2 & H3)]]; cbn [bind].
  - rewrite Hs. reflexivity.
  - destruct (Z.eqb_spec (len args) 0) as [Hz|Hz].
    + assert (args = []) as -> by (destruct args; [ reflexivity | rewrite len_cons in Hz; pose proof (len_nonneg _ args); lia ]).
      cbn [bind]. rewrite Hs. reflexivity.
    + destruct (read_n_ok buf idx (len args)) as (l & -> & L1 & L2); [ lia | apply len_nonneg | lia | ].
      assert (l = args) as ->. { apply gz_ext; [ exact L1 | ]. intros i Hi. rewrite L2 by lia. apply H3. lia. }
      cbn [bind]. rewrite Hs. reflexivity.
Qed.
End Thm.
