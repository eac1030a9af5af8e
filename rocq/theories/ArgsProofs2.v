(* Proofs about argument binding: whole calls. *)
From Coq Require Import ZArith List Lia Bool ZifyBool.
Import ListNotations.
From Verif Require Import Base ListZ ArgsModel ArgsSpec ArgsProofs.
Local Open Scope Z_scope.
Ltac Zify.zify_post_hook ::= idtac.

Section VM.
Context {V : Type}.
Implicit Types (f : @frame V) (args defaults : list V).

Lemma init_registers_ok : forall o na nindep nreq ell uses_this ell_indep binds defaults closures i args (this : V) f,
  layout o na nindep nreq ell uses_this ell_indep binds ->
  0 <= nindep -> (forall r, ell_indep = Some r -> 0 <= r < nindep) -> 0 <= na <= 255 -> 0 <= nreq -> 
  input_is i args -> Z.min nreq na <= len args -> len args < 2 ^ 31 -> len defaults = na - Z.min nreq na ->
  len closures = binds ->
  exists f', init_registers o defaults closures i this f = Ok f' /\
    (forall j, 0 <= j < na -> arg_in_reg na j = true \/ (31 <= len args < na -> nreq = 31) ->
       exists v, bound (Z.min nreq na) args defaults j = Some v /\ read_place o f' (place_of na nindep j) = Ok v) /\
    (ell = true -> f' (ellipsis_reg o) = Arr (skipn (Z.to_nat na) args)) /\
    (uses_this = true -> f' (this_reg o) = One this) /\
    (forall k v, gz closures k = Some v -> f' (bind_reg o + k) = One v).
Proof.
  intros o na nindep nreq ell uses_this ell_indep binds defaults closures i args this f L Hi Hei Hna Hq Hin Hmin Hmax Hdl Hcl.
  destruct L as [L1 L2 L3 L4 L5 L6 L7 L8 L9].
  pose proof (len_nonneg _ closures) as Hc0. rewrite Hcl in Hc0.
  set (R := nindep + reg_limit na + (if have_rest na then 1 else 0)) in *.
  assert (Hlim : 0 <= reg_limit na <= na).
  { unfold reg_limit, have_rest, KOS_MAX_ARGS_IN_REGS. destruct (Z.ltb_spec 32 na); lia. }
  assert (HR : nindep + reg_limit na <= R <= num_regs o).
  { unfold R. destruct ell; [ destruct ell_indep | ]; destruct (have_rest na), uses_this; lia. }
  (* this *)
  assert (S1 : exists f1, (if this_reg o =? KOS_NO_REG then Ok f else reg_write (num_regs o) (this_reg o) (One this) f) = Ok f1 /\
            (uses_this = true -> f1 (this_reg o) = One this)).
  { unfold KOS_NO_REG. destruct uses_this.
    - assert (HT : R + 1 <= num_regs o) by (destruct ell; [ destruct ell_indep | ]; lia).
      replace (this_reg o =? 255) with false by lia.
      destruct (reg_write_ok (num_regs o) (this_reg o) (One this) f) as (f1 & A & B & _); [ lia | ]. exists f1. auto.
    - rewrite L6. exists f. split; [ reflexivity | discriminate ]. }
  destruct S1 as (f1 & E1 & T1).
  (* ellipsis *)
  assert (S2 : exists f2, init_ellipsis o i f1 = Ok f2 /\
            (ell = true -> f2 (ellipsis_reg o) = Arr (skipn (Z.to_nat na) args)) /\
            (uses_this = true -> f2 (this_reg o) = One this)).
  { unfold init_ellipsis, KOS_NO_REG. destruct ell.
    - assert (He : 0 <= ellipsis_reg o < num_regs o /\ ellipsis_reg o <> 255 /\
                   (uses_this = true -> this_reg o <> ellipsis_reg o)).
      { destruct ell_indep as [r|].
        - specialize (Hei r eq_refl). destruct uses_this; lia.
        - destruct uses_this; lia. }
      replace (ellipsis_reg o =? 255) with false by lia.
      assert (Hs : exists l, (if min_args o + num_def_args o <? num_input i
                    then slice_args i (min_args o + num_def_args o) (2 ^ 32 - 1) else Ok []) = Ok l /\
                    l = skipn (Z.to_nat na) args).
      { rewrite (proj1 Hin), L2, L3. replace (Z.min nreq na + (na - Z.min nreq na)) with na by lia.
        destruct (Z.ltb_spec na (len args)) as [Hlt|Hge].
        - destruct (slice_args_ok i args na (2 ^ 32 - 1) Hin ltac:(lia)) as (l & A & B & C). exists l. split; [ exact A | ].
          apply gz_ext.
          + rewrite B, len_skipn. lia.
          + intros j Hj. rewrite C by lia. rewrite gz_skipn. destruct (Z.ltb_spec j 0); [ lia | ]. f_equal. lia.
        - exists []. split; [ reflexivity | ]. symmetry. apply skipn_all2. unfold len in Hge. lia. }
      destruct Hs as (l & -> & ->). cbn [bind].
      destruct (reg_write_ok (num_regs o) (ellipsis_reg o) (Arr (skipn (Z.to_nat na) args)) f1) as (f2 & A & B & C); [ lia | ].
      exists f2. split; [ exact A | ]. split; [ auto | ]. intros U. rewrite C; [ auto | ]. apply He. exact U.
    - rewrite L7. exists f1. split; [ reflexivity | ]. split; [ discriminate | auto ]. }
  destruct S2 as (f2 & E2 & P2 & T2).
  (* args *)
  assert (S3 : exists f3, init_args o defaults i f2 = Ok f3 /\
            (forall k, k < nindep \/ R <= k -> f3 k = f2 k) /\
            (forall j, 0 <= j < na -> arg_in_reg na j = true \/ (31 <= len args < na -> nreq = 31) ->
               exists v, bound (Z.min nreq na) args defaults j = Some v /\ read_place o f3 (place_of na nindep j) = Ok v)).
  { destruct (Z.eq_dec na 0) as [Hz|Hz].
    - unfold init_args, KOS_NO_REG. rewrite L4. replace (0 <? na) with false by lia. exists f2.
      split; [ reflexivity | ]. split; [ reflexivity | ]. intros. lia.
    - replace (0 <? na) with true in L4 by lia.
      assert (Hnamed : min_args o + num_def_args o = na) by lia.
      assert (Hnreg : Z.min (rest_reg o) (args_reg o + (min_args o + num_def_args o)) - args_reg o = reg_limit na).
      { rewrite L5, L4, Hnamed. unfold reg_limit, have_rest, KOS_MAX_ARGS_IN_REGS in *. destruct (Z.ltb_spec 32 na); lia. }
      assert (Hrr : have_rest na = true -> rest_reg o = nindep + reg_limit na /\ R = nindep + reg_limit na + 1 /\ reg_limit na = 31).
      { intros E. rewrite E in L5. unfold R. rewrite E. unfold reg_limit. rewrite E. unfold KOS_MAX_ARGS_IN_REGS. lia. }
      assert (Hl1 : 1 <= reg_limit na) by (unfold reg_limit, have_rest, KOS_MAX_ARGS_IN_REGS; destruct (Z.ltb_spec 32 na); lia).
      destruct (init_args_ok o defaults i args f2 Hin Hmax) as (f3 & A & B & C & D); try lia.
      + destruct (have_rest na) eqn:EH; [ right | left; exact L5 ].
        specialize (Hrr eq_refl). lia.
      + rewrite Hnreg, Hnamed in *. exists f3. split; [ exact A | ]. split; [ | ].
        * intros k Hk. apply B; [ rewrite L4; lia | ].
          destruct (have_rest na) eqn:EH; [ left; specialize (Hrr eq_refl); lia | ].
          right. exact L5.
        * intros j Hj Hc. unfold place_of. replace (j <? na) with true by lia.
          destruct (arg_in_reg na j) eqn:EA.
          -- rewrite L2, L4 in C. destruct (C j) as (v & C1 & C2).
             { unfold arg_in_reg, reg_limit in *. destruct (have_rest na); cbn [negb orb] in EA; [ | lia ].
               unfold KOS_MAX_ARGS_IN_REGS in *. lia. }
             exists v. split; [ exact C1 | ]. cbn [read_place]. rewrite C2. reflexivity.
          -- assert (EH : have_rest na = true) by (unfold arg_in_reg in EA; destruct (have_rest na); [ reflexivity | discriminate ]).
             destruct (Hrr EH) as (R1 & R2 & R3).
             destruct Hc as [Hc|Hc]; [ discriminate | ].
             destruct D as (l & D1 & D2 & D3).
             { rewrite L5, EH. lia. }
             { rewrite R3, L2. intros Hb. specialize (Hc Hb). lia. }
             assert (Hj31 : 31 <= j).
             { unfold arg_in_reg, KOS_MAX_ARGS_IN_REGS in EA. rewrite EH in EA. cbn [negb orb] in EA. lia. }
             unfold KOS_MAX_ARGS_IN_REGS. replace (j - (32 - 1)) with (j - 31) by lia.
             rewrite L2, R3 in *. destruct (gz_some _ l (j - 31)) as [v Hv]; [ lia | ].
             exists v. split.
             ++ rewrite <- Hv, D3 by lia. f_equal. lia.
             ++ cbn [read_place]. rewrite D1. unfold gz in Hv. destruct (Z.ltb_spec (j - 31) 0); [ lia | ]. rewrite Hv. reflexivity. }
  destruct S3 as (f3 & E3 & K3 & A3).
  unfold init_registers. rewrite E1. cbn [bind]. rewrite E2. cbn [bind]. rewrite E3. cbn [bind].
  unfold KOS_NO_REG.
  (* parameters are in front of R, everything else behind *)
  assert (Hell : ell = true -> ellipsis_reg o < nindep \/ R <= ellipsis_reg o).
  { intros ->. destruct ell_indep as [r|]; [ specialize (Hei r eq_refl); lia | ]. destruct uses_this; lia. }
  assert (Hth : uses_this = true -> R <= this_reg o) by (intros ->; lia).
  destruct (Z.eqb_spec (bind_reg o) 255) as [Eb|Eb].
  - exists f3. split; [ reflexivity | ]. split; [ exact A3 | ]. split; [ | split ].
    + intros U. rewrite K3 by auto. auto.
    + intros U. rewrite K3 by auto. auto.
    + intros k v Hk. apply gz_some_inv in Hk. rewrite Hcl in Hk. replace (0 <? binds) with true in L8 by lia. lia.
  - destruct (Z.ltb_spec 0 binds) as [Hb|Hb]; [ | lia ].
    destruct (move_to_regs_ok (num_regs o) closures (bind_reg o) f3) as (f4 & A & B & C).
    { destruct ell; [ destruct ell_indep | ]; destruct uses_this; lia. }
    { destruct ell; [ destruct ell_indep | ]; destruct uses_this; lia. }
    exists f4. split; [ exact A | ]. split; [ | split; [ | split ] ].
    + intros j Hj Hc. destruct (A3 j Hj Hc) as (v & A1 & A2). exists v. split; [ exact A1 | ].
      rewrite <- A2. unfold place_of. replace (j <? na) with true by lia.
      destruct (arg_in_reg na j) eqn:EA.
      * cbn [read_place]. rewrite B; [ reflexivity | ].
        assert (j < reg_limit na).
        { unfold arg_in_reg, reg_limit in *. destruct (have_rest na); cbn [negb orb] in EA; [ | lia ].
          unfold KOS_MAX_ARGS_IN_REGS in *. lia. }
        destruct ell; [ destruct ell_indep | ]; destruct uses_this; lia.
      * assert (EH : have_rest na = true) by (unfold arg_in_reg in EA; destruct (have_rest na); [ reflexivity | discriminate ]).
        cbn [read_place]. rewrite B; [ reflexivity | ].
        rewrite L5, EH. unfold R in *. unfold reg_limit, KOS_MAX_ARGS_IN_REGS in *. rewrite EH in *.
        destruct ell; [ destruct ell_indep | ]; destruct uses_this; lia.
    + intros U. rewrite B; [ rewrite K3 by auto; auto | ]. specialize (Hell U). subst ell.
      destruct ell_indep as [r|]; [ specialize (Hei r eq_refl) | ]; destruct uses_this; lia.
    + intros U. rewrite B; [ rewrite K3 by auto; auto | ]. rewrite U in *. destruct ell; [ destruct ell_indep | ]; lia.
    + exact C.
Qed.

Lemma passes_check : forall o defaults names proto (a : actual V) args, passes a args ->
  check_args o defaults names proto a = (if len args <? min_args o then Exn else
    match a with ARegs buf idx num => Ok (FromStack buf idx num) | _ => Ok (FromArray args) end) /\
  input_is (match a with ARegs buf idx num => FromStack buf idx num | _ => FromArray args end) args.
Proof.
  intros o defaults names proto a args [Hl [->|(buf & idx & -> & H1 & H2 & H3)]]; cbn [check_args].
  - split; [ reflexivity | ]. split; [ reflexivity | ]. intros offs n A B C. cbn [read_input].
    apply read_n_ok; assumption.
  - split; [ reflexivity | ]. split; [ reflexivity | ]. intros offs n A B C. cbn [read_input].
    destruct (read_n_ok buf (idx + offs) n) as (l & R1 & R2 & R3); [ lia | lia | lia | ].
    exists l. split; [ exact R1 | ]. split; [ exact R2 | ]. intros j Hj. rewrite R3 by lia.
    replace (idx + offs + j) with (idx + (offs + j)) by lia. apply H3. lia.
Qed.

(* ---- named arguments ---- *)
Lemma index_of_spec : forall names k i, NoDup names -> forall j, index_of names k i = Some j <-> gz names (j - i) = Some k.
Proof.
  induction names as [|h t IH]; intros k i Hnd j; cbn [index_of].
  - split; [ discriminate | ]. intros H. apply gz_some_inv in H. rewrite len_nil in H. lia.
  - inversion Hnd as [|? ? Hnot Hnd']; subst. rewrite gz_cons.
    destruct (Z.eqb_spec h k) as [->|Hne].
    + destruct (Z.eqb_spec (j - i) 0).
      * split; [ reflexivity | ]. intros _. f_equal. lia.
      * split; [ intros H; inversion H; lia | ]. intros H. apply gz_in in H. contradiction.
    + rewrite IH by assumption. replace (j - (i + 1)) with (j - i - 1) by lia.
      destruct (Z.eqb_spec (j - i) 0) as [E|E]; [ | tauto ].
      rewrite E. rewrite gz_neg by lia. split; [ discriminate | ]. intros H. inversion H. contradiction.
Qed.

Lemma index_of_none : forall names k i, index_of names k i = None <-> ~ In k names.
Proof.
  induction names as [|h t IH]; intros k i; cbn [index_of In].
  - tauto.
  - destruct (Z.eqb_spec h k) as [->|Hne]; [ split; [ discriminate | tauto ] | ].
    rewrite IH. tauto.
Qed.

Lemma small_int_idx : forall i, 0 <= i < 256 -> u32 (get_small_int (to_small_int i)) = i.
Proof.
  intros i H. unfold get_small_int, to_small_int. rewrite Z.mul_comm, Z.quot_mul by lia. apply u32_small. lia.
Qed.

Lemma gz_upd : forall A (l : list A) n x i, 0 <= i ->
  gz (upd l n x) i = if (i =? Z.of_nat n) && (i <? len l) then Some x else gz l i.
Proof.
  induction l as [|h t IH]; intros n x i Hi.
  - cbn [upd]. replace (i <? len []) with false by (rewrite len_nil; lia). rewrite andb_false_r. reflexivity.
  - rewrite len_cons. pose proof (len_nonneg _ t). destruct n; cbn [upd]; rewrite !gz_cons.
    + destruct (Z.eqb_spec i 0) as [->|].
      * replace (0 =? Z.of_nat 0) with true by lia. replace (0 <? 1 + len t) with true by lia. reflexivity.
      * replace (i =? Z.of_nat 0) with false by lia. reflexivity.
    + destruct (Z.eqb_spec i 0) as [->|].
      * replace (0 =? Z.of_nat (Datatypes.S n)) with false by lia. reflexivity.
      * rewrite IH by lia. replace (i - 1 =? Z.of_nat n) with (i =? Z.of_nat (Datatypes.S n)) by lia.
        replace (i - 1 <? len t) with (i <? 1 + len t) by lia. reflexivity.
Qed.
Lemma len_upd : forall A (l : list A) n x, len (upd l n x) = len l.
Proof. induction l as [|h t IH]; intros [|n] x; cbn [upd]; rewrite ?len_cons, ?IH; reflexivity. Qed.

Lemma lookup_cons : forall k k0 (v0 : V) t, lookup k ((k0, v0) :: t) = if k0 =? k then Some v0 else lookup k t.
Proof. intros. unfold lookup. cbn [find fst]. destruct (k0 =? k); reflexivity. Qed.
Lemma lookup_none : forall k (props : list (Z * V)), lookup k props = None <-> ~ In k (map fst props).
Proof.
  intros k. induction props as [|[k0 v0] t IH]; [ unfold lookup; cbn; tauto | ].
  rewrite lookup_cons. cbn [map fst In]. destruct (Z.eqb_spec k0 k) as [->|]; [ split; [ discriminate | tauto ] | ].
  rewrite IH. tauto.
Qed.

Lemma fill_named_unknown : forall na names proto (props : list (Z * V)) (args : list (option V)) ef,
  (exists k, In k (map fst props) /\ ~ In k names) -> (forall k, ~ In k names -> proto k = None) ->
  fill_named na names proto props args ef = Exn.
Proof.
  intros na names proto. induction props as [|[k v] t IH]; intros args ef (k0 & Hin & Hnot) Hp; cbn [fill_named]; [ destruct Hin | ].
  cbn [map fst In] in Hin. unfold get_arg_idx. destruct (index_of names k 0) as [i|] eqn:E.
  - assert (Hk : k <> k0).
    { intros ->. apply index_of_none with (i := 0) in Hnot. congruence. }
    destruct Hin as [->|Hin]; [ contradiction | ]. destruct (_ <? na); apply IH; eauto.
  - apply index_of_none in E. rewrite Hp by exact E. reflexivity.
Qed.

Lemma fill_named_ok : forall na names proto (props : list (Z * V)) (args : list (option V)) ef,
  NoDup names -> len names < 256 -> NoDup (map fst props) -> (forall k, In k (map fst props) -> In k names) ->
  len args = na -> 0 <= ef <= na ->
  exists (args' : list (option V)) ef', fill_named na names proto props args ef = Ok (args', ef') /\ len args' = na /\
    ef <= ef' <= na /\
    (forall i k, 0 <= i < na -> gz names i = Some k ->
       gz args' i = match lookup k props with Some v => Some (Some v) | None => gz args i end) /\
    (forall i k, ef' <= i < na -> gz names i = Some k -> lookup k props = None).
Proof.
  intros na names proto. induction props as [|[k v] t IH]; intros args ef Hnd Hln Hnp Hin Hla Hef; cbn [fill_named].
  - exists args, ef. repeat split; auto; try lia.
  - cbn [map fst] in *. inversion Hnp as [|? ? Hk Hnp']; subst.
    unfold get_arg_idx. destruct (index_of names k 0) as [j|] eqn:E;
      [ | apply index_of_none in E; destruct E; apply Hin; left; reflexivity ].
    apply index_of_spec in E; [ | exact Hnd ]. rewrite Z.sub_0_r in E.
    pose proof (gz_some_inv _ _ _ _ E) as Hj. rewrite small_int_idx by lia.
    assert (Hother : forall i k', gz names i = Some k' -> i <> j -> k' <> k).
    { intros i k' Hi Hne ->. apply Hne. rewrite <- (Z.sub_0_r i) in Hi. rewrite <- (Z.sub_0_r j) in E.
      apply index_of_spec in Hi; [ | exact Hnd ]. apply index_of_spec in E; [ | exact Hnd ]. congruence. }
    assert (Hlk : lookup k t = None) by (apply lookup_none; exact Hk).
    destruct (Z.ltb_spec j (len args)) as [Hlt|Hge].
    + destruct (IH (upd args (Z.to_nat j) (Some v)) (Z.max ef (j + 1))) as (args' & ef' & A & B & C & D & F); auto.
      { intros k' Hk'. apply Hin. right. exact Hk'. }
      { rewrite len_upd. reflexivity. }
      { lia. }
      exists args', ef'. split; [ exact A | ]. split; [ exact B | ]. split; [ lia | ]. split.
      * intros i k' Hi Hg. rewrite (D i k' Hi Hg), lookup_cons. rewrite gz_upd by lia.
        destruct (Z.eq_dec i j) as [->|Hne].
        -- assert (k' = k) by congruence. subst k'. rewrite Hlk, Z.eqb_refl.
           replace ((j =? Z.of_nat (Z.to_nat j)) && (j <? len args)) with true by lia. reflexivity.
        -- pose proof (Hother i k' Hg Hne). replace (k =? k') with false by lia.
           replace (i =? Z.of_nat (Z.to_nat j)) with false by lia. reflexivity.
      * intros i k' Hi Hg. rewrite lookup_cons. pose proof (Hother i k' Hg ltac:(lia)).
        replace (k =? k') with false by lia. exact (F i k' Hi Hg).
    + destruct (IH args ef) as (args' & ef' & A & B & C & D & F); auto.
      { intros k' Hk'. apply Hin. right. exact Hk'. }
      exists args', ef'. split; [ exact A | ]. split; [ exact B | ]. split; [ lia | ]. split.
      * intros i k' Hi Hg. rewrite (D i k' Hi Hg), lookup_cons. pose proof (Hother i k' Hg ltac:(lia)).
        replace (k =? k') with false by lia. reflexivity.
      * intros i k' Hi Hg. rewrite lookup_cons. pose proof (Hother i k' Hg ltac:(lia)).
        replace (k =? k') with false by lia. exact (F i k' Hi Hg).
Qed.

Lemma fill_defaults_ok : forall fuel i ef mn defaults (args : list (option V)),
  mn <= i -> 0 <= mn -> ef <= len args -> len args - mn <= len defaults -> ef - i <= Z.of_nat fuel ->
  exists args' : list (option V), fill_defaults fuel i ef mn defaults args = Ok (args', Z.max i ef) /\ len args' = len args /\
    (forall j, 0 <= j < len args -> gz args' j =
       match gz args j with
       | Some None => if (i <=? j) && (j <? ef) then option_map Some (gz defaults (j - mn)) else Some None
       | x => x end).
Proof.
  induction fuel as [|fuel IH]; intros i ef mn defaults args Hi Hm He Hd Hf; cbn [fill_defaults].
  - exists args. split; [ do 2 f_equal; lia | ]. split; [ reflexivity | ]. intros j Hj.
    replace ((i <=? j) && (j <? ef)) with false by lia. destruct (gz args j) as [[|]|]; reflexivity.
  - destruct (Z.ltb_spec i ef) as [Hlt|Hge].
    + assert (Hn : forall A (l : list A) k, 0 <= k -> nth_error l (Z.to_nat k) = gz l k).
      { intros A l k Hk. unfold gz. destruct (Z.ltb_spec k 0); [ lia | reflexivity ]. }
      rewrite !Hn by lia.
      destruct (gz_some _ args i) as [x Hx]; [ lia | ]. rewrite Hx. destruct x as [v|].
      * destruct (IH (i + 1) ef mn defaults args) as (args' & A & B & C); try lia.
        exists args'. split; [ rewrite A; do 2 f_equal; lia | ]. split; [ exact B | ]. intros j Hj. rewrite C by lia.
        destruct (Z.eq_dec j i) as [->|]; [ rewrite Hx; reflexivity | ].
        replace (i <=? j) with (i + 1 <=? j) by lia. reflexivity.
      * destruct (gz_some _ defaults (i - mn)) as [d Hdd]; [ lia | ]. rewrite Hdd.
        destruct (IH (i + 1) ef mn defaults (upd args (Z.to_nat i) (Some d))) as (args' & A & B & C); rewrite ?len_upd; try lia.
        rewrite len_upd in *. exists args'. split; [ rewrite A; do 2 f_equal; lia | ]. split; [ exact B | ].
        intros j Hj. rewrite C by lia. rewrite gz_upd by lia.
        destruct (Z.eq_dec j i) as [->|].
        -- replace ((i =? Z.of_nat (Z.to_nat i)) && (i <? len args)) with true by lia. rewrite Hx.
           replace ((i <=? i) && (i <? ef)) with true by lia. rewrite Hdd. reflexivity.
        -- replace (j =? Z.of_nat (Z.to_nat i)) with false by lia. cbn [andb].
           replace (i <=? j) with (i + 1 <=? j) by lia. reflexivity.
    + exists args. split; [ do 2 f_equal; lia | ]. split; [ reflexivity | ]. intros j Hj.
      replace ((i <=? j) && (j <? ef)) with false by lia. destruct (gz args j) as [[|]|]; reflexivity.
Qed.

Lemma replace_tail : forall A (l src : list A) i k n, 0 <= i <= len l -> 0 <= k <= len src -> n = len l ->
  len src < 2 ^ 32 ->
  array_insert l i n src k INT64_MAX = firstn (Z.to_nat i) l ++ skipn (Z.to_nat k) src.
Proof.
  intros A l src i k n H1 H2 -> H4. unfold array_insert. pose proof (len_nonneg _ src).
  rewrite fix_index_max by lia. rewrite (fix_index_in k), (fix_index_in i), (fix_index_in (len l)) by lia.
  replace (len l <? i) with false by lia. replace (len src <? k) with false by lia.
  f_equal. unfold len at 2. rewrite Nat2Z.id, skipn_all, app_nil_r.
  rewrite firstn_all2; [ reflexivity | ]. rewrite skipn_length. unfold len in *. lia.
Qed.

Definition all_named (l : list (option V)) (val : Z -> option V) : Prop :=
  forall i, 0 <= i < len l -> exists v, gz l i = Some (Some v) /\ val i = Some v.

Lemma existsb_none : forall (l : list (option V)),
  existsb (fun x => match x with None => true | Some _ => false end) l = true <-> exists i, gz l i = Some None.
Proof.
  intros l. rewrite existsb_exists. split.
  - intros ([v|] & A & B); [ discriminate | ]. apply in_gz in A. destruct A as (i & _ & A). eauto.
  - intros (i & H). exists None. split; [ eapply gz_in; eauto | reflexivity ].
Qed.

Lemma get_named_args_ok : forall o defaults names proto (props : list (Z * V)),
  NoDup names -> len names < 256 -> NoDup (map fst props) ->
  0 <= min_args o -> 0 <= num_def_args o -> min_args o + num_def_args o <= len names -> len defaults = num_def_args o ->
  (forall k, In k (map fst props) -> In k names) ->
  ((exists i k, 0 <= i < min_args o /\ gz names i = Some k /\ lookup k props = None) /\
   get_named_args o defaults (Some names) proto props = Exn) \/
  ((forall i k, 0 <= i < min_args o -> gz names i = Some k -> lookup k props <> None) /\
   exists l, get_named_args o defaults (Some names) proto props = Ok l /\ len l = min_args o + num_def_args o /\
     all_named l (named_or_default names (min_args o) props defaults)).
Proof.
  intros o defaults names proto props Hnd Hln Hnp Hm Hd Hnl Hdl Hin. cbn [get_named_args].
  set (na := num_def_args o + min_args o) in *.
  destruct (fill_named_ok na names proto props (repeat None (Z.to_nat na)) 0 Hnd Hln Hnp Hin) as (args & ef & -> & A & B & C & D).
  { rewrite len_repeat. lia. } { lia. }
  cbn [bind].
  assert (C' : forall i k, 0 <= i < na -> gz names i = Some k ->
             gz args i = match lookup k props with Some v => Some (Some v) | None => Some None end).
  { intros i k Hi Hk. rewrite (C i k Hi Hk), gz_repeat. replace ((0 <=? i) && (i <? Z.of_nat (Z.to_nat na))) with true by lia. reflexivity. }
  clear C.
  assert (Hname : forall i, 0 <= i < na -> exists k, gz names i = Some k) by (intros; apply gz_some; lia).
  destruct (existsb _ _) eqn:E.
  - left. split; [ | reflexivity ]. apply existsb_none in E. destruct E as (i & Hi). rewrite gz_firstn in Hi.
    revert Hi. destruct (Z.ltb_spec i (Z.of_nat (Z.to_nat (min_args o)))); [ | discriminate ]. intros Hi.
    pose proof (gz_some_inv _ _ _ _ Hi). destruct (Hname i) as [k Hk]; [ lia | ].
    exists i, k. split; [ lia | ]. split; [ exact Hk | ]. rewrite (C' i k) in Hi by (lia || exact Hk).
    destruct (lookup k props); [ discriminate | reflexivity ].
  - right. split.
    { intros i k Hi Hk Hl. assert (existsb (fun x : option V => match x with None => true | Some _ => false end) (firstn (Z.to_nat (min_args o)) args) = true);
        [ | congruence ]. apply existsb_none. exists i. rewrite gz_firstn.
      replace (i <? Z.of_nat (Z.to_nat (min_args o))) with true by lia. rewrite (C' i k) by (lia || exact Hk). rewrite Hl. reflexivity. }
    assert (Hreq : forall i k, 0 <= i < min_args o -> gz names i = Some k -> exists v, lookup k props = Some v).
    { intros i k Hi Hk. destruct (lookup k props) eqn:El; [ eauto | ]. exfalso.
      assert (existsb (fun x : option V => match x with None => true | Some _ => false end) (firstn (Z.to_nat (min_args o)) args) = true);
        [ | congruence ]. apply existsb_none. exists i. rewrite gz_firstn.
      replace (i <? Z.of_nat (Z.to_nat (min_args o))) with true by lia. rewrite (C' i k) by (lia || exact Hk). rewrite El. reflexivity. }
    destruct (fill_defaults_ok (Z.to_nat na) (min_args o) ef (min_args o) defaults args) as (args2 & -> & A2 & C2); try lia.
    cbn [bind]. set (i := Z.max (min_args o) ef) in *.
    assert (Hval : forall j, 0 <= j < na -> j < i -> exists v, gz args2 j = Some (Some v) /\
               named_or_default names (min_args o) props defaults j = Some v).
    { intros j Hj Hji. destruct (Hname j Hj) as [k Hk]. unfold named_or_default. rewrite Hk.
      rewrite C2 by lia. rewrite (C' j k Hj Hk).
      destruct (lookup k props) as [v|] eqn:El; [ eauto | ].
      destruct (Z.lt_ge_cases j (min_args o)) as [Hjm|Hjm].
      - destruct (Hreq j k) as [v Hv]; [ lia | exact Hk | congruence ].
      - replace ((min_args o <=? j) && (j <? ef)) with true by lia.
        destruct (gz_some _ defaults (j - min_args o)) as [d Hdd]; [ lia | ]. rewrite Hdd. exists d. split; reflexivity. }
    destruct (Z.ltb_spec i na) as [Hlt|Hge].
    + eexists. split; [ reflexivity | ]. rewrite replace_tail by (rewrite ?len_map; lia).
      assert (Hlen : len (firstn (Z.to_nat i) args2 ++ skipn (Z.to_nat (i - min_args o)) (map Some defaults)) = na).
      { rewrite len_app, len_firstn, len_skipn, len_map. lia. }
      split; [ lia | ]. intros j Hj. rewrite Hlen in Hj.
      rewrite gz_app, len_firstn, gz_firstn, gz_skipn, gz_map.
      destruct (Z.ltb_spec j (Z.min (Z.of_nat (Z.to_nat i)) (len args2))) as [Hji|Hji].
      * destruct (Hval j) as (v & V1 & V2); [ lia | lia | ]. exists v.
        replace (j <? Z.of_nat (Z.to_nat i)) with true by lia. auto.
      * replace (j - Z.min (Z.of_nat (Z.to_nat i)) (len args2) <? 0) with false by lia.
        replace (j - Z.min (Z.of_nat (Z.to_nat i)) (len args2) + Z.of_nat (Z.to_nat (i - min_args o))) with (j - min_args o) by lia.
        destruct (gz_some _ defaults (j - min_args o)) as [d Hdd]; [ lia | ]. exists d. rewrite Hdd. split; [ reflexivity | ].
        destruct (Hname j) as [k Hk]; [ lia | ]. unfold named_or_default. rewrite Hk, (D j k) by (lia || exact Hk). exact Hdd.
    + exists args2. split; [ reflexivity | ]. split; [ lia | ]. intros j Hj. apply Hval; lia.
Qed.

Lemma all_named_list : forall (l : list (option V)) val, all_named l val ->
  exists args, all_some l = Some args /\ len args = len l /\ forall i, 0 <= i < len l -> gz args i = val i.
Proof.
  induction l as [|x t IH]; intros val H.
  - exists []. split; [ reflexivity | ]. split; [ reflexivity | ]. intros i. rewrite len_nil. lia.
  - pose proof (len_nonneg _ t). unfold all_named in H. rewrite len_cons in H.
    destruct (H 0 ltac:(lia)) as (v & H1 & H2). rewrite gz_cons in H1. cbn in H1. inversion H1; subst x.
    destruct (IH (fun i => val (i + 1))) as (args & A & B & C).
    { intros i Hi. destruct (H (i + 1) ltac:(lia)) as (w & W1 & W2). exists w. split; [ | exact W2 ].
      rewrite gz_cons in W1. replace (i + 1 =? 0) with false in W1 by lia. replace (i + 1 - 1) with i in W1 by lia. exact W1. }
    exists (v :: args). cbn [all_some]. rewrite A. split; [ reflexivity | ]. rewrite !len_cons. split; [ lia | ].
    intros i Hi. rewrite gz_cons. destruct (Z.eqb_spec i 0) as [->|]; [ auto | ]. rewrite C by lia. f_equal. lia.
Qed.
End VM.
