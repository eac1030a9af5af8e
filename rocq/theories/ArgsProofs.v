(* Proofs about argument binding. *)
From Coq Require Import ZArith List Lia Bool ZifyBool.
Import ListNotations.
From Verif Require Import Base ListZ ArgsModel ArgsSpec.
Local Open Scope Z_scope.
Ltac Zify.zify_post_hook ::= idtac.

Lemma some_inj : forall A (x y : A), Some x = Some y -> x = y.
Proof. intros A x y H. inversion H. reflexivity. Qed.

Lemma u32_small : forall x, 0 <= x < 2 ^ 32 -> u32 x = x.
Proof. intros. unfold u32, uwrap. apply Z.mod_small. lia. Qed.

(* ---- the compiler ---- *)

Lemma max_used_spec : forall ps i m, 0 <= i -> -1 <= m < i ->
  m <= max_used ps i m < i + len ps /\
  (forall k p, gz ps k = Some p -> p_used p = true -> i + k <= max_used ps i m) /\
  (max_used ps i m <> m -> i <= max_used ps i m /\ exists p, gz ps (max_used ps i m - i) = Some p /\ p_used p = true).
Proof.
  induction ps as [|p t IH]; intros i m Hi Hm; cbn [max_used].
  - rewrite len_nil. repeat split; try lia. intros k p H. apply gz_some_inv in H. rewrite len_nil in H. lia.
  - rewrite len_cons. pose proof (len_nonneg _ t) as Hl.
    assert (Hm' : -1 <= (if p_used p then i else m) < i + 1) by (destruct (p_used p); lia).
    destruct (IH (i + 1) (if p_used p then i else m) ltac:(lia) Hm') as (A & B & C).
    set (r := max_used t (i + 1) (if p_used p then i else m)) in *. clearbody r.
    repeat split; try (destruct (p_used p); lia).
    + intros k q Hk Hq. rewrite gz_cons in Hk. destruct (Z.eqb_spec k 0) as [->|].
      * inversion Hk; subst q. rewrite Hq in *. lia.
      * specialize (B _ _ Hk Hq). lia.
    + destruct (Z.eq_dec r (if p_used p then i else m)) as [E|E].
      * exists p. revert E. destruct (p_used p) eqn:U; [ | lia ]. intros E. rewrite E, Z.sub_diag. split; [ reflexivity | reflexivity ].
      * destruct (C E) as (D & q & F & G). exists q. split; [ | exact G ].
        rewrite gz_cons. destruct (Z.eqb_spec (r - i) 0); [ lia | ].
        replace (r - i - 1) with (r - (i + 1)) by lia. exact F.
Qed.

Lemma count_args_spec : forall ps ell, 0 <= count_args ps ell <= len ps /\
  forall i, needed ps ell i <-> 0 <= i < count_args ps ell.
Proof.
  intros ps ell. unfold count_args, needed. pose proof (len_nonneg _ ps) as Hl. destruct ell.
  - split; [ lia | ]. intros i. split.
    + intros (H0 & j & p & H & G & _). apply gz_some_inv in G. lia.
    + intros H. split; [ lia | ]. destruct (gz_some _ ps i) as [p Hp]; [ lia | ]. exists i, p. split; [ lia | tauto ].
  - destruct (max_used_spec ps 0 (-1)) as (A & B & C); [ lia | lia | ].
    set (r := max_used ps 0 (-1)) in *. clearbody r. split; [ lia | ]. intros i. split.
    + intros (H0 & j & p & H & G & [U|U]); [ | discriminate ]. specialize (B _ _ G U). lia.
    + intros H. split; [ lia | ]. destruct (C ltac:(lia)) as (D & p & F & G). rewrite Z.sub_0_r in F.
      exists r, p. split; [ lia | ]. split; [ exact F | auto ].
Qed.

Definition reg_limit (na : Z) : Z := if have_rest na then KOS_MAX_ARGS_IN_REGS - 1 else na.

Definition place_of (na nindep i : Z) : place :=
  if i <? na then if arg_in_reg na i then InReg (nindep + i) else InRest (i - (KOS_MAX_ARGS_IN_REGS - 1)) else Nowhere.

Lemma gen_args_spec : forall na ell nreq nindep ps i regs mn decl used places regs' mn' decl' used' places',
  0 <= na -> 0 <= i -> (forall k p, gz ps k = Some p -> p_default p = (nreq <=? i + k)) -> 0 <= nreq ->
  regs = nindep + Z.min i (reg_limit na) -> regs <= 255 ->
  mn = Z.min i (Z.min nreq na) -> decl = Z.max 0 (i - nreq) -> 0 <= used <= decl ->
  gen_args na ell ps i regs mn decl used places = Some (regs', mn', decl', used', places') ->
  regs' = nindep + Z.min (i + len ps) (reg_limit na) /\ regs' <= 255 /\
  mn' = Z.min (i + len ps) (Z.min nreq na) /\ decl' = Z.max 0 (i + len ps - nreq) /\
  used <= used' /\
  (forall k p, gz ps k = Some p -> p_default p = true -> p_used p || ell = true -> 1 <= used') /\
  ((forall k p, gz ps k = Some p -> p_used p || ell = false) -> used' = used) /\
  (len ps = 0 \/ i + len ps <= 255) /\
  exists ext, places' = places ++ ext /\ len ext = len ps /\
    forall k, 0 <= k < len ps -> gz ext k = Some (place_of na nindep (i + k)).
Proof.
  intros na ell nreq nindep. induction ps as [|p t IH];
    intros i regs mn decl used places regs' mn' decl' used' places' Hna Hi Hd Hq Hr Hr2 Hm Hdc Hu H; cbn [gen_args] in H.
  - inversion H; subst. rewrite len_nil, Z.add_0_r. repeat split; try lia.
    + intros k p Hk. apply gz_some_inv in Hk. rewrite len_nil in Hk. lia.
    + exists []. rewrite app_nil_r. split; [ reflexivity | ]. split; [ reflexivity | ]. intros. lia.
  - revert H. destruct (Z.leb_spec KOS_MAX_REGS i) as [|Hi2]; [ discriminate | ]. intros H.
    assert (Hp : p_default p = (nreq <=? i)).
    { specialize (Hd 0 p). rewrite gz_cons, Z.add_0_r in Hd. apply Hd. reflexivity. }
    assert (Ht : forall k q, gz t k = Some q -> p_default q = (nreq <=? i + 1 + k)).
    { intros k q Hk. pose proof (gz_some_inv _ _ _ _ Hk) as Hk2. specialize (Hd (k + 1) q). rewrite gz_cons in Hd.
      destruct (Z.eqb_spec (k + 1) 0); [ lia | ]. replace (k + 1 - 1) with k in Hd by lia.
      replace (i + 1 + k) with (i + (k + 1)) by lia. auto. }
    set (decl1 := if p_default p then decl + 1 else decl) in *.
    set (used1 := if p_default p && (p_used p || ell) then decl1 else used) in *.
    assert (Hdc1 : decl1 = Z.max 0 (i + 1 - nreq)).
    { unfold decl1. rewrite Hp. destruct (Z.leb_spec nreq i); lia. }
    (* used grows only for used default arguments *)
    assert (Hu1 : 0 <= used1 <= decl1) by (unfold used1; destruct (p_default p && _); lia).
    assert (Hu2 : used <= used1) by (unfold used1; destruct (p_default p && _); lia).
    assert (Hcase : exists regs1 mn1, regs1 = nindep + Z.min (i + 1) (reg_limit na) /\ regs1 <= 255 /\
               mn1 = Z.min (i + 1) (Z.min nreq na) /\
               gen_args na ell t (i + 1) regs1 mn1 decl1 used1 (places ++ [place_of na nindep i]) =
                 Some (regs', mn', decl', used', places')).
    { unfold place_of. revert H. destruct (Z.ltb_spec i na) as [Hin|Hin].
      - unfold arg_in_reg, reg_limit, have_rest, KOS_MAX_ARGS_IN_REGS in *.
        destruct (Z.ltb_spec 32 na) as [Hr32|Hr32]; cbn [negb orb] in *.
        + destruct (Z.ltb_spec i (32 - 1)) as [Hi31|Hi31].
          * unfold gen_reg, KOS_MAX_REGS in *. destruct (Z.eqb_spec regs 255); [ discriminate | ]. intros H.
            exists (regs + 1), (if p_default p then mn else mn + 1). repeat split; try lia.
            -- rewrite Hp. destruct (Z.leb_spec nreq i); lia.
            -- rewrite <- H. f_equal. f_equal. f_equal. f_equal. lia.
          * intros H. exists regs, (if p_default p then mn else mn + 1). repeat split; try lia.
            -- rewrite Hp. destruct (Z.leb_spec nreq i); lia.
            -- exact H.
        + unfold gen_reg, KOS_MAX_REGS in *. destruct (Z.eqb_spec regs 255); [ discriminate | ]. intros H.
          exists (regs + 1), (if p_default p then mn else mn + 1). repeat split; try lia.
          -- rewrite Hp. destruct (Z.leb_spec nreq i); lia.
          -- rewrite <- H. f_equal. f_equal. f_equal. f_equal. lia.
      - intros H. exists regs, mn. repeat split; try lia.
        + unfold reg_limit, have_rest, KOS_MAX_ARGS_IN_REGS in *. destruct (Z.ltb_spec 32 na); lia.
        + exact H. }
    destruct Hcase as (regs1 & mn1 & R1 & R2 & R3 & R4).
    specialize (IH (i + 1) regs1 mn1 decl1 used1 _ _ _ _ _ _ Hna ltac:(lia) Ht Hq R1 R2 R3 Hdc1 Hu1 R4).
    destruct IH as (A & B & C & D & U & U1 & U2 & L & ext & X1 & X2 & X3).
    rewrite len_cons. pose proof (len_nonneg _ t) as Hl.
    replace (i + (1 + len t)) with (i + 1 + len t) by lia.
    repeat split; try assumption; try lia.
    + intros k q Hk Dq Uq. rewrite gz_cons in Hk. destruct (Z.eqb_spec k 0) as [->|].
      * inversion Hk; subst q. assert (used1 = decl1) by (unfold used1; rewrite Dq, Uq; reflexivity).
        rewrite Dq in Hp. symmetry in Hp. apply Z.leb_le in Hp. lia.
      * eapply U1; eauto.
    + intros Hn. rewrite U2.
      * unfold used1. rewrite (Hn 0 p) by (rewrite gz_cons; reflexivity). rewrite andb_false_r. reflexivity.
      * intros k q Hk. pose proof (gz_some_inv _ _ _ _ Hk). apply (Hn (k + 1)). rewrite gz_cons.
        destruct (Z.eqb_spec (k + 1) 0); [ lia | ]. replace (k + 1 - 1) with k by lia. exact Hk.
    + unfold KOS_MAX_REGS in *. destruct L as [L|L]; lia.
    + exists (place_of na nindep i :: ext). split; [ rewrite X1, <- app_assoc; reflexivity | ].
      split; [ rewrite len_cons; lia | ]. intros k Hk. rewrite gz_cons. destruct (Z.eqb_spec k 0) as [->|].
      * rewrite Z.add_0_r. reflexivity.
      * rewrite X3 by lia. f_equal. f_equal. lia.
Qed.

Lemma gen_reg_spec : forall n r n', gen_reg n = Some (r, n') -> r = n /\ n' = n + 1 /\ n <> 255.
Proof.
  intros n r n'. unfold gen_reg, KOS_MAX_REGS. destruct (Z.eqb_spec n 255); [ discriminate | ].
  intros H. inversion H. lia.
Qed.

Lemma gen_reg_n_spec : forall k n n', n <= 255 -> gen_reg_n k n = Some n' -> n' = n + Z.of_nat k /\ n' <= 255.
Proof.
  induction k; intros n n' Hn H; cbn [gen_reg_n] in H.
  - inversion H. lia.
  - destruct (gen_reg n) as [[r m]|] eqn:E; [ | discriminate ]. apply gen_reg_spec in E.
    apply IHk in H; lia.
Qed.

Lemma gen_reg_if_spec : forall c n r n', n <= 255 -> gen_reg_if c n = Some (r, n') ->
  (c = true /\ r = n /\ n' = n + 1 /\ n' <= 255) \/ (c = false /\ r = 255 /\ n' = n).
Proof.
  intros [|] n r n' Hn H; unfold gen_reg_if in H.
  - apply gen_reg_spec in H. left. lia.
  - inversion H. right. auto.
Qed.

(* registers: variables, parameters, rest array, this, ellipsis, closures, in this order *)
Record layout (o : opts) (na nindep nreq : Z) (ell uses_this : bool) (ell_indep : option Z) (binds : Z) : Prop := {
  l_regs : num_regs o <= 255;
  l_min : min_args o = Z.min nreq na;
  l_def : num_def_args o = na - Z.min nreq na;
  l_args : args_reg o = if 0 <? na then nindep else 255;
  l_rest : rest_reg o = if have_rest na then nindep + 31 else 255;
  l_this : if uses_this then this_reg o = nindep + reg_limit na + (if have_rest na then 1 else 0) else this_reg o = 255;
  l_ell : if ell then match ell_indep with
                      | Some r => ellipsis_reg o = r
                      | None => ellipsis_reg o = nindep + reg_limit na + (if have_rest na then 1 else 0) + (if uses_this then 1 else 0)
                      end else ellipsis_reg o = 255;
  l_bind : if 0 <? binds then
             bind_reg o = nindep + reg_limit na + (if have_rest na then 1 else 0) + (if uses_this then 1 else 0) +
               (if ell then match ell_indep with Some _ => 0 | None => 1 end else 0)
           else bind_reg o = 255;
  l_all : nindep + reg_limit na + (if have_rest na then 1 else 0) + (if uses_this then 1 else 0) +
               (if ell then match ell_indep with Some _ => 0 | None => 1 end else 0) + binds <= num_regs o
}.

Lemma compile_layout : forall nindep ps ell ell_indep uses_this binds body o places nreq,
  compile_args nindep ps ell ell_indep uses_this binds body = Some (o, places) ->
  declares ps nreq -> 0 <= nindep <= 255 ->
  layout o (count_args ps ell) nindep nreq ell uses_this ell_indep (Z.of_nat binds) /\
  len places = len ps /\ len ps <= 255 /\
  forall i, 0 <= i < len ps -> gz places i = Some (place_of (count_args ps ell) nindep i).
Proof.
  intros nindep ps ell ell_indep uses_this binds body o places nreq H [Hq Hd] Hi.
  unfold compile_args in H. destruct (count_args_spec ps ell) as [Hna Hneed].
  set (na := count_args ps ell) in *.
  destruct (gen_args na ell ps 0 nindep 0 0 0 []) as [[[[[regs mn] decl] used] pl]|] eqn:G; [ | discriminate ].
  assert (Hlim : 0 <= reg_limit na <= na).
  { unfold reg_limit, have_rest, KOS_MAX_ARGS_IN_REGS. destruct (Z.ltb_spec 32 na); lia. }
  apply (gen_args_spec na ell nreq nindep) in G; try lia;
    [ | intros k p Hk; rewrite Z.add_0_l; apply Hd; exact Hk ].
  destruct G as (A & B & C & D & U & U1 & U2 & L & ext & X1 & X2 & X3).
  cbn [app] in X1. subst ext. rewrite Z.add_0_l in *.
  rewrite Z.min_r in A by lia.
  assert (Hused : 0 <? mn + used = (0 <? na)).
  { destruct (Z.ltb_spec 0 na) as [Hn|Hn].
    - destruct (Z.eq_dec nreq 0) as [->|]; [ | lia ].
      destruct (proj2 (Hneed (na - 1)) ltac:(lia)) as (_ & j & p & _ & Hj & Hu).
      assert (1 <= used); [ | lia ]. apply (U1 j p Hj).
      + rewrite (Hd _ _ Hj). apply gz_some_inv in Hj. lia.
      + destruct Hu as [->| ->]; [ reflexivity | apply orb_true_r ].
    - rewrite U2; [ lia | ]. intros k p Hk. pose proof (gz_some_inv _ _ _ _ Hk) as Hk2.
      destruct (p_used p || ell) eqn:EE; [ | reflexivity ]. apply orb_true_iff in EE.
      assert (needed ps ell k) by (split; [ lia | exists k, p; split; [ lia | tauto ] ]). apply Hneed in H0. lia. }
  rewrite Hused in H. clear Hused U U1 U2.
  destruct (gen_reg_if (have_rest na) regs) as [[rest r1]|] eqn:G1; [ | discriminate ].
  apply gen_reg_if_spec in G1; [ | lia ].
  destruct (gen_reg_if uses_this r1) as [[this r2]|] eqn:G2; [ | discriminate ].
  apply gen_reg_if_spec in G2; [ | lia ].
  destruct (if ell then match ell_indep with Some r => Some (r, r2) | None => gen_reg r2 end else Some (KOS_NO_REG, r2))
    as [[ellr r3]|] eqn:G3; [ | discriminate ].
  assert (E3 : (if ell then match ell_indep with Some r => ellr = r | None => ellr = r2 end else ellr = 255) /\
               r3 = r2 + (if ell then match ell_indep with Some _ => 0 | None => 1 end else 0) /\ r3 <= 255).
  { destruct ell; [ destruct ell_indep | ].
    - inversion G3. lia.
    - apply gen_reg_spec in G3. lia.
    - inversion G3. unfold KOS_NO_REG. lia. }
  destruct E3 as (E3 & E4 & E5). clear G3.
  destruct (gen_reg_n binds r3) as [r4|] eqn:G4; [ | discriminate ]. apply gen_reg_n_spec in G4; [ | lia ].
  destruct (gen_reg_n body r4) as [nr|] eqn:G5; [ | discriminate ]. apply gen_reg_n_spec in G5; [ | lia ].
  apply some_inj in H. apply pair_equal_spec in H. destruct H as [<- <-]. unfold KOS_NO_REG.
  assert (Hrl : have_rest na = true -> reg_limit na = 31).
  { intros E. unfold reg_limit. rewrite E. reflexivity. }
  split; [ | split; [ lia | split; [ lia | exact X3 ] ] ].
  constructor; cbn [num_regs min_args num_def_args num_binds args_reg rest_reg ellipsis_reg this_reg bind_reg]; try lia.
  - destruct (Z.ltb_spec 0 decl); lia.
  - destruct (have_rest na); lia.
  - destruct uses_this, (have_rest na); lia.
  - destruct ell; [ destruct ell_indep | ]; destruct uses_this, (have_rest na); lia.
  - destruct (0 <? Z.of_nat binds); [ | reflexivity ]. destruct uses_this, (have_rest na); lia.
  - destruct uses_this, (have_rest na); lia.
Qed.

(* ---- the interpreter ---- *)
Section VM.
Context {V : Type}.
Implicit Types (f : @frame V) (args defaults : list V).

Lemma reg_write_ok : forall n r (c : @content V) f, 0 <= r < n ->
  exists f', reg_write n r c f = Ok f' /\ f' r = c /\ forall k, k <> r -> f' k = f k.
Proof.
  intros n r c f H. unfold reg_write.
  replace ((0 <=? r) && (r <? n)) with true by lia. eexists. split; [ reflexivity | ]. cbv beta.
  split; [ rewrite Z.eqb_refl; reflexivity | ]. intros k Hk. destruct (Z.eqb_spec k r); [ contradiction | reflexivity ].
Qed.

Lemma move_to_regs_ok : forall n vs r f, 0 <= r -> r + len vs <= n ->
  exists f', move_to_regs n r vs f = Ok f' /\
    (forall k, k < r \/ r + len vs <= k -> f' k = f k) /\
    (forall j v, gz vs j = Some v -> f' (r + j) = One v).
Proof.
  intros n. induction vs as [|v t IH]; intros r f Hr Hn; cbn [move_to_regs].
  - exists f. split; [ reflexivity | ]. split; [ reflexivity | ]. intros j w H. apply gz_some_inv in H. rewrite len_nil in H. lia.
  - rewrite len_cons in *. pose proof (len_nonneg _ t).
    destruct (reg_write_ok n r (One v) f) as (f1 & E1 & E2 & E3); [ lia | ]. rewrite E1. cbn [bind].
    destruct (IH (r + 1) f1) as (f2 & F1 & F2 & F3); [ lia | lia | ]. exists f2. split; [ exact F1 | ]. split.
    + intros k Hk. rewrite F2 by lia. apply E3. lia.
    + intros j w Hj. rewrite gz_cons in Hj. destruct (Z.eqb_spec j 0) as [->|].
      * inversion Hj; subst. rewrite Z.add_0_r, F2 by lia. exact E2.
      * apply F3 in Hj. replace (r + 1 + (j - 1)) with (r + j) in Hj by lia. exact Hj.
Qed.

Lemma read_n_ok : forall (buf : list V) offs n, 0 <= offs -> 0 <= n -> offs + n <= len buf ->
  exists l, read_n buf offs n = Ok l /\ len l = n /\ forall i, 0 <= i < n -> gz l i = gz buf (offs + i).
Proof.
  intros buf offs n H1 H2 H3. unfold read_n.
  replace ((0 <=? offs) && (0 <=? n) && (offs + n <=? len buf)) with true by lia.
  eexists. split; [ reflexivity | ]. split.
  - rewrite len_firstn, len_skipn. lia.
  - intros i Hi. rewrite gz_firstn, gz_skipn. destruct (Z.ltb_spec i (Z.of_nat (Z.to_nat n))); [ | lia ].
    destruct (Z.ltb_spec i 0); [ lia | ]. f_equal. lia.
Qed.

(* positional arguments as seen by init_registers *)
Definition input_is (i : @input V) args : Prop :=
  num_input i = len args /\
  forall offs n, 0 <= offs -> 0 <= n -> offs + n <= len args ->
    exists l, read_input i offs n = Ok l /\ len l = n /\ forall j, 0 <= j < n -> gz l j = gz args (offs + j).

Lemma slice_args_ok : forall i args b e, input_is i args -> 0 <= b ->
  exists l, slice_args i b e = Ok l /\ len l = Z.max 0 (Z.min e (len args) - b) /\
    forall j, 0 <= j < len l -> gz l j = gz args (b + j).
Proof.
  intros i args b e [Hn Hr] Hb. unfold slice_args. rewrite Hn.
  destruct (Z.ltb_spec b (len args)), (Z.ltb_spec b e); cbn [andb].
  - destruct (Hr b ((if len args <? e then len args else e) - b)) as (l & A & B & C);
      [ lia | destruct (Z.ltb_spec (len args) e); lia | destruct (Z.ltb_spec (len args) e); lia | ].
    exists l. split; [ exact A | ]. rewrite B. split; [ destruct (Z.ltb_spec (len args) e); lia | exact C ].
  - exists []. rewrite len_nil. split; [ reflexivity | ]. split; [ lia | intros; lia ].
  - exists []. rewrite len_nil. split; [ reflexivity | ]. split; [ lia | intros; lia ].
  - exists []. rewrite len_nil. split; [ reflexivity | ]. split; [ lia | intros; lia ].
Qed.

Lemma fix_index_max : forall n, 0 <= n < 2 ^ 32 -> fix_index INT64_MAX n = n.
Proof. intros n H. unfold fix_index. change INT64_MAX with 9223372036854775807. replace (9223372036854775807 <? 0) with false by lia. destruct (Z.ltb_spec n 9223372036854775807); lia. Qed.
Lemma fix_index_in : forall i n, 0 <= i <= n -> fix_index i n = i.
Proof. intros i n H. unfold fix_index. destruct (Z.ltb_spec i 0); [ lia | ]. destruct (Z.ltb_spec n i); lia. Qed.

(* append the elements of an array from position k *)
Lemma array_append : forall A (l src : list A) k, 0 <= k <= len src -> len l < 2 ^ 32 -> len src < 2 ^ 32 ->
  array_insert l INT64_MAX INT64_MAX src k INT64_MAX = l ++ skipn (Z.to_nat k) src.
Proof.
  intros A l src k H1 H2 H3. unfold array_insert. pose proof (len_nonneg _ l). pose proof (len_nonneg _ src).
  rewrite !fix_index_max by lia. rewrite (fix_index_in k) by lia.
  rewrite Z.ltb_irrefl. replace (len src <? k) with false by lia.
  unfold len at 1. rewrite Nat2Z.id, firstn_all. f_equal.
  unfold len at 2. rewrite Nat2Z.id, skipn_all, app_nil_r.
  rewrite firstn_all2; [ reflexivity | ]. rewrite skipn_length. unfold len in *. lia.
Qed.

Definition bound (m : Z) args defaults (i : Z) : option V :=
  match gz args i with Some v => Some v | None => gz defaults (i - m) end.

Lemma bound_lt : forall m args defaults i, 0 <= i < len args -> bound m args defaults i = gz args i.
Proof. intros. unfold bound. destruct (gz_some _ args i) as [v Hv]; [ lia | ]. rewrite Hv. reflexivity. Qed.
Lemma bound_ge : forall m args defaults i, len args <= i -> bound m args defaults i = gz defaults (i - m).
Proof. intros. unfold bound. rewrite gz_ge by lia. reflexivity. Qed.

Lemma init_args_ok : forall (o : opts) defaults i args f,
  input_is i args -> len args < 2 ^ 31 -> len defaults = num_def_args o ->
  0 <= min_args o -> min_args o <= len args -> 0 <= num_def_args o < 256 -> 0 <= args_reg o ->
  num_regs o <= 255 -> args_reg o <> 255 ->
  let named := min_args o + num_def_args o in
  let nreg := Z.min (rest_reg o) (args_reg o + named) - args_reg o in
  args_reg o + nreg <= num_regs o -> 0 <= nreg ->
  (rest_reg o = 255 \/ (args_reg o <= rest_reg o < num_regs o /\ rest_reg o - args_reg o = nreg)) ->
  exists f', init_args o defaults i f = Ok f' /\
    (forall k, k < args_reg o \/ args_reg o + nreg <= k -> k <> rest_reg o \/ rest_reg o = 255 -> f' k = f k) /\
    (forall j, 0 <= j < nreg -> exists v, bound (min_args o) args defaults j = Some v /\ f' (args_reg o + j) = One v) /\
    (rest_reg o <> 255 ->
       (nreg <= len args < named -> min_args o = nreg) ->
       exists l, f' (rest_reg o) = Arr l /\ len l = named - nreg /\
         forall j, 0 <= j < named - nreg -> gz l j = bound (min_args o) args defaults (nreg + j)).
Proof.
  intros o defaults i args f Hin Hlen Hdl Hm Hma Hd Ha Hnr Hane named nreg Hfit Hnreg Hrest.
  unfold init_args, KOS_NO_REG. fold named.
  replace (args_reg o =? 255) with false by lia.
  pose proof (proj1 Hin) as Hnum. rewrite Hnum.
  assert (Hend : Z.min (rest_reg o) (args_reg o + named) = args_reg o + nreg) by (unfold nreg; lia).
  rewrite Hend. replace (args_reg o + nreg - args_reg o) with nreg by lia.
  rewrite (u32_small nreg) by lia.
  assert (Hnn : nreg <= named) by (unfold nreg; lia).
  set (n := len args) in *.
  set (mv := Z.min n nreg) in *.
  assert (Hvs : exists vs, (if mv =? 0 then Ok [] else read_input i 0 mv) = Ok vs /\ len vs = mv /\
                  forall j, 0 <= j < mv -> gz vs j = gz args j).
  { pose proof (len_nonneg _ args). destruct (Z.eqb_spec mv 0) as [E|E].
    - exists []. rewrite len_nil. repeat split; auto. intros. lia.
    - destruct (proj2 Hin 0 mv) as (l & A & B & C); [ lia | lia | fold n; lia | ]. exists l. repeat split; auto. }
  destruct Hvs as (vs & -> & Hvl & Hvg). cbn [bind].
  pose proof (len_nonneg _ args) as Hn0.
  destruct (move_to_regs_ok (num_regs o) vs (args_reg o) f) as (f1 & -> & F1 & F2); [ lia | lia | ]. cbn [bind].
  rewrite Hvl in F1.
  assert (H2 : exists f2, (if args_reg o + mv <? args_reg o + nreg then
             do vs <- read_n defaults (u32 (n - min_args o)) (args_reg o + nreg - (args_reg o + mv));
             move_to_regs (num_regs o) (args_reg o + mv) vs f1
           else Ok f1) = Ok f2 /\
           (forall k, k < args_reg o + mv \/ args_reg o + nreg <= k -> f2 k = f1 k) /\
           (forall j, mv <= j < nreg -> exists v, gz defaults (j - min_args o) = Some v /\ f2 (args_reg o + j) = One v)).
  { destruct (Z.ltb_spec (args_reg o + mv) (args_reg o + nreg)) as [Hlt|Hge].
    - rewrite u32_small by lia.
      destruct (read_n_ok defaults (n - min_args o) (args_reg o + nreg - (args_reg o + mv))) as (l & -> & L1 & L2); [ lia | lia | lia | ].
      cbn [bind].
      destruct (move_to_regs_ok (num_regs o) l (args_reg o + mv) f1) as (f2 & -> & A & B); [ lia | lia | ].
      exists f2. split; [ reflexivity | ]. split.
      + intros k Hk. apply A. lia.
      + intros j Hj. destruct (gz_some _ l (j - mv)) as [v Hv]; [ lia | ]. exists v. split.
        * rewrite L2 in Hv by lia. rewrite <- Hv. f_equal. lia.
        * apply B in Hv. rewrite <- Hv. f_equal. lia.
    - exists f1. split; [ reflexivity | ]. split; [ reflexivity | ]. intros. lia. }
  destruct H2 as (f2 & -> & G1 & G2). cbn [bind].
  assert (Hregs : forall j, 0 <= j < nreg -> exists v, bound (min_args o) args defaults j = Some v /\ f2 (args_reg o + j) = One v).
  { intros j Hj. destruct (Z.lt_ge_cases j mv) as [Hjm|Hjm].
    - rewrite bound_lt by lia. rewrite <- Hvg by lia. destruct (gz_some _ vs j) as [v Hv]; [ lia | ].
      exists v. split; [ exact Hv | ]. rewrite G1 by lia. apply F2. exact Hv.
    - rewrite bound_ge by lia. apply G2. lia. }
  destruct (Z.eqb_spec (rest_reg o) 255) as [Er|Er].
  - exists f2. split; [ reflexivity | ]. split; [ | split; [ exact Hregs | intros; contradiction ] ].
    intros k Hk _. rewrite G1 by lia. apply F1. lia.
  - destruct Hrest as [|[Hr1 Hr2]]; [ contradiction | ].
    destruct (slice_args_ok i args nreg named Hin Hnreg) as (rest & -> & R1 & R2). cbn [bind]. fold n in R1.
    set (rest' := if (n <? named) && (nreg <? named) then _ else rest).
    destruct (reg_write_ok (num_regs o) (rest_reg o) (Arr rest') f2) as (f3 & -> & W1 & W2); [ lia | ].
    exists f3. split; [ reflexivity | ]. split; [ | split ].
    + intros k Hk Hk2. rewrite W2 by (destruct Hk2; [ assumption | contradiction ]). rewrite G1 by lia. apply F1. lia.
    + intros j Hj. destruct (Hregs j Hj) as (v & A & B). exists v. split; [ exact A | ]. rewrite W2 by lia. exact B.
    + intros _ Hbug. exists rest'. split; [ exact W1 | ]. unfold rest'.
      destruct (Z.ltb_spec n named) as [Hlt|Hge]; cbn [andb].
      * destruct (Z.ltb_spec nreg named) as [Hlt2|Hge2].
        -- assert (Hoffs : (if n <? nreg then u32 (nreg - min_args o) else u32 (n - nreg)) = Z.max n nreg - min_args o).
           { destruct (Z.ltb_spec n nreg); [ rewrite u32_small by lia; lia | ].
             rewrite u32_small by lia. rewrite Hbug by lia. lia. }
           rewrite Hoffs.
           rewrite array_append by lia. split.
           ++ rewrite len_app, len_skipn. lia.
           ++ intros j Hj. rewrite gz_app. destruct (Z.ltb_spec j (len rest)).
              ** rewrite R2 by lia. rewrite bound_lt by lia. reflexivity.
              ** rewrite gz_skipn. destruct (Z.ltb_spec (j - len rest) 0); [ lia | ].
                 rewrite bound_ge by lia. f_equal. lia.
        -- split; [ lia | ]. intros. lia.
      * split; [ lia | ]. intros j Hj. rewrite R2 by lia. rewrite bound_lt by lia. reflexivity.
Qed.
End VM.
