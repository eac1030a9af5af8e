(* Strings: lemmas about searching and constructing strings. *)
From Coq Require Import ZArith List Lia Bool ZifyBool.
Import ListNotations.
From Verif Require Import Base ListZ IndexModel ArraySpec ArrayProofs BufferProofs StringModel StringSpec StringProofs.
Local Open Scope Z_scope.
Ltac Zify.zify_post_hook ::= idtac.

(* all conditions of the goal, innermost first *)
Ltac ifs := repeat match goal with
  |- context [if ?b then _ else _] => lazymatch b with context [if _ then _ else _] => fail | _ => destruct b eqn:? end end.

(* ---- scan ---- *)

Lemma pat_match_in : forall c pat, pat_match c pat = true <-> In c pat.
Proof.
  induction pat as [|p t IH]; cbn [pat_match In]; [ split; [ discriminate | contradiction ] | ].
  destruct (Z.eqb_spec p c); [ tauto | ]. rewrite IH. tauto.
Qed.

Lemma in_set_match : forall c pat inc, Bool.eqb (pat_match c pat) inc = true <-> in_set pat inc c.
Proof.
  intros c pat inc. rewrite eqb_true_iff. pose proof (pat_match_in c pat) as E. unfold in_set.
  destruct inc, (pat_match c pat); intuition congruence.
Qed.

Lemma mask_test : forall c k, 0 <= k <= 32 -> 0 <= c < 2 ^ 32 ->
  (Z.land c (Z.shiftl (Z.ones (32 - k)) k) =? 0) = (c <? 2 ^ k).
Proof.
  intros c k Hk Hc. pose proof (Z.pow_pos_nonneg 2 k ltac:(lia) ltac:(lia)) as Hp.
  assert (E : Z.shiftr (Z.land c (Z.shiftl (Z.ones (32 - k)) k)) k = c / 2 ^ k).
  { rewrite Z.shiftr_land, Z.shiftr_shiftl_l by lia. rewrite Z.sub_diag, Z.shiftl_0_r, Z.land_ones by lia.
    rewrite Z.shiftr_div_pow2 by lia. apply Z.mod_small. split; [ apply Z.div_pos; lia | ].
    apply Z.div_lt_upper_bound; [ lia | ]. rewrite <- Z.pow_add_r by lia. replace (k + (32 - k)) with 32 by lia. lia. }
  destruct (Z.ltb_spec c (2 ^ k)) as [L|L].
  - apply Z.eqb_eq. apply Z.bits_inj'. intros n Hn. rewrite Z.land_spec, Z.bits_0, Z.shiftl_spec by lia.
    destruct (Z.ltb_spec n k).
    + rewrite (Z.testbit_neg_r _ (n - k)) by lia. apply andb_false_r.
    + replace (Z.testbit c n) with false; [ reflexivity | ]. symmetry. destruct (Z.eq_dec c 0) as [->|]; [ apply Z.bits_0 | ].
      apply Z.bits_above_log2; [ lia | ]. apply Z.log2_lt_pow2; [ lia | ].
      eapply Z.lt_le_trans; [ exact L | ]. apply Z.pow_le_mono_r; lia.
  - apply Z.eqb_neq. intros Z0. rewrite Z0, Z.shiftr_0_l in E.
    assert (1 <= c / 2 ^ k) by (apply Z.div_le_lower_bound; lia). lia.
Qed.

Definition cmask (w : Z) : Z := if w =? 0 then 0xFFFFFF00 else if w =? 1 then 0xFFFF0000 else 0.
Lemma cmask_test : forall w c, width_ok w -> 0 <= c < 2 ^ 32 -> (Z.land c (cmask w) =? 0) = (c <? emax w).
Proof.
  intros w c [->|[->| ->]] H.
  - exact (mask_test c 8 ltac:(lia) H).
  - exact (mask_test c 16 ltac:(lia) H).
  - change (cmask 2) with 0. rewrite Z.land_0_r. change (emax 2) with (2 ^ 32). symmetry. apply Z.ltb_lt. lia.
Qed.

(* no character of the text is skipped wrongly *)
Definition scan_ok (text pat : kstr) (inc : bool) : Prop :=
  inc = true \/ k_w text = 0 \/ Forall (fun c => c < emax (k_w pat)) (k_codes text).

Lemma char_at_gz : forall l P p, char_at l P p <-> exists c, gz l p = Some c /\ P c.
Proof.
  intros l P p. split.
  - intros [b [c [a [E1 [E2 E3]]]]]. change @llen with @len in E2. subst. exists c. split; [ | exact E3 ].
    rewrite gz_app. rewrite Z.ltb_irrefl. rewrite gz_cons. now rewrite Z.sub_diag.
  - intros [c [E1 E2]]. pose proof (gz_split _ _ _ _ E1) as E3. eexists _, c, _. split; [ exact E3 | ].
    split; [ change @llen with @len; apply gz_some_inv in E1; lenz; lia | exact E2 ].
Qed.

Lemma width_emax : forall w, width_ok w -> 256 <= emax w <= 2 ^ 32.
Proof. intros w [->|[->| ->]]; vm_compute; intuition congruence. Qed.

Section Scan.
Variables text pat : kstr.
Variable inc : bool.
Hypothesis Rt : range_ok text.
Hypothesis Rp : range_ok pat.
Hypothesis SO : scan_ok text pat inc.
Let P := char_at (k_codes text) (in_set (k_codes pat) inc).

Lemma scan_step : forall i c, gz (k_codes text) i = Some c ->
  ((negb (k_w text =? 0) && negb (Z.land c (cmask (k_w pat)) =? 0) = true \/
    Bool.eqb (pat_match c (k_codes pat)) inc = false) /\ ~ P i) \/
  (negb (k_w text =? 0) && negb (Z.land c (cmask (k_w pat)) =? 0) = false /\
    Bool.eqb (pat_match c (k_codes pat)) inc = true /\ P i).
Proof.
  intros i c G. destruct Rt as [Wt [Ft _]]. destruct Rp as [Wp [Fp _]].
  pose proof (gz_in _ _ _ _ G) as I. rewrite Forall_forall in Ft, Fp. pose proof (Ft c I) as Bc. cbv beta in Bc.
  pose proof (width_emax _ Wt).
  assert (PE : P i <-> in_set (k_codes pat) inc c).
  { unfold P. rewrite char_at_gz. split; [ intros [c' [E1 E2]]; congruence | intros; exists c; auto ]. }
  rewrite cmask_test by (assumption || lia). rewrite PE, <- in_set_match.
  destruct (negb (k_w text =? 0) && negb (c <? emax (k_w pat))) eqn:M.
  - left. split; [ left; reflexivity | ]. apply andb_true_iff in M. destruct M as [M1 M2].
    destruct SO as [->|[S|S]].
    + rewrite eqb_true_iff, pat_match_in. intros I2. specialize (Fp c I2). cbv beta in Fp. lia.
    + lia.
    + rewrite Forall_forall in S. specialize (S c I). cbv beta in S. lia.
  - destruct (Bool.eqb (pat_match c (k_codes pat)) inc); [ right | left ]; repeat split; auto; try discriminate.
Qed.

Lemma gz_nth : forall (l : list Z) i, 0 <= i -> nth_error l (Z.to_nat i) = gz l i.
Proof. intros. unfold gz. destruct (Z.ltb_spec i 0); [ lia | reflexivity ]. Qed.

Lemma P_range : forall q, P q -> 0 <= q < len (k_codes text).
Proof. intros q H. apply char_at_gz in H. destruct H as [c [H _]]. apply gz_some_inv in H. exact H. Qed.

Lemma scan_fwd : forall fuel i, 0 <= i <= len (k_codes text) -> len (k_codes text) - i < Z.of_nat fuel ->
  exists r, scan_loop fuel (k_codes text) (k_codes pat) (k_w text) (cmask (k_w pat)) i (len (k_codes text)) 1 inc = SOk r /\
    is_first P i r.
Proof.
  induction fuel; intros i Hi Hf; [ lia | ]. cbn [scan_loop].
  destruct (Z.eqb_spec i (len (k_codes text))) as [E|E].
  - exists (-1). split; [ reflexivity | ]. left. split; [ reflexivity | ]. intros q Hq Pq. apply P_range in Pq. lia.
  - destruct (Z.ltb_spec i 0); [ lia | ]. rewrite gz_nth by lia.
    destruct (gz_some _ (k_codes text) i ltac:(lia)) as [c G]. rewrite G.
    destruct (IHfuel (i + 1) ltac:(lia) ltac:(lia)) as [r [R1 R2]].
    destruct (scan_step i c G) as [[S1 S2]|[S1 [S2 S3]]].
    + exists r. split.
      * destruct S1 as [-> | S1]; [ exact R1 | ]. rewrite S1. destruct (_ && _); exact R1.
      * destruct R2 as [[R2 R3]|[R2 [R3 R4]]]; [ left | right ].
        -- split; [ exact R2 | ]. intros q Hq. destruct (Z.eq_dec q i) as [->|]; [ exact S2 | apply R3; lia ].
        -- split; [ lia | ]. split; [ exact R3 | ].
           intros q Hq. destruct (Z.eq_dec q i) as [->|]; [ exact S2 | apply R4; lia ].
    + rewrite S1, S2. exists i. split; [ reflexivity | ]. right. split; [ lia | ]. split; [ exact S3 | intros; lia ].
Qed.

Lemma scan_bwd : forall fuel i, -1 <= i < len (k_codes text) -> i + 1 < Z.of_nat fuel ->
  exists r, scan_loop fuel (k_codes text) (k_codes pat) (k_w text) (cmask (k_w pat)) i (-1) (-1) inc = SOk r /\
    is_last P i r.
Proof.
  induction fuel; intros i Hi Hf; [ lia | ]. cbn [scan_loop].
  destruct (Z.eqb_spec i (-1)) as [E|E].
  - exists (-1). split; [ reflexivity | ]. left. split; [ reflexivity | ]. intros q Hq Pq. apply P_range in Pq. lia.
  - destruct (Z.ltb_spec i 0); [ lia | ]. rewrite gz_nth by lia.
    destruct (gz_some _ (k_codes text) i ltac:(lia)) as [c G]. rewrite G.
    destruct (IHfuel (i + -1) ltac:(lia) ltac:(lia)) as [r [R1 R2]].
    destruct (scan_step i c G) as [[S1 S2]|[S1 [S2 S3]]].
    + exists r. split.
      * destruct S1 as [-> | S1]; [ exact R1 | ]. rewrite S1. destruct (_ && _); exact R1.
      * destruct R2 as [[R2 R3]|[R2 [R3 R4]]]; [ left | right ].
        -- split; [ exact R2 | ]. intros q Hq. destruct (Z.eq_dec q i) as [->|]; [ exact S2 | apply R3; lia ].
        -- split; [ lia | ]. split; [ exact R3 | ].
           intros q Hq. destruct (Z.eq_dec q i) as [->|]; [ exact S2 | apply R4; lia ].
    + rewrite S1, S2. exists i. split; [ reflexivity | ]. right. split; [ lia | ]. split; [ exact S3 | intros; lia ].
Qed.

Lemma memchr_first : forall l c i r, memchr l c i = r ->
  (r = -1 /\ forall j, gz l j <> Some c) \/
  (i <= r /\ gz l (r - i) = Some c /\ forall j, 0 <= j < r - i -> gz l j <> Some c).
Proof.
  induction l as [|x t IH]; intros c i r H; cbn [memchr] in H.
  - left. split; [ congruence | ]. intros j E. apply gz_some_inv in E. rewrite len_nil in E. lia.
  - destruct (Z.eqb_spec x c) as [->|N].
    + right. subst r. split; [ lia | ]. rewrite Z.sub_diag, gz_cons. cbn. split; [ reflexivity | intros; lia ].
    + destruct (IH _ _ _ H) as [[R1 R2]|[R1 [R2 R3]]]; [ left | right ].
      * split; [ exact R1 | ]. intros j. rewrite gz_cons. destruct (j =? 0); [ congruence | apply R2 ].
      * split; [ lia | ]. rewrite gz_cons. destruct (Z.eqb_spec (r - i) 0); [ lia | ].
        split; [ replace (r - i - 1) with (r - (i + 1)) by lia; exact R2 | ].
        intros j Hj. rewrite gz_cons. destruct (Z.eqb_spec j 0); [ congruence | ]. apply R3. lia.
Qed.

Lemma string_scan_fwd : forall pos, k_codes pat <> [] -> 0 <= pos <= klen text ->
  exists r, string_scan text pat false inc pos = SOk r /\ is_first P pos r.
Proof.
  unfold string_scan, klen. change @slen with @len. intros pos NE Hp.
  destruct (Z.eqb_spec (len (k_codes pat)) 0) as [L|L].
  { destruct (k_codes pat); [ contradiction | rewrite len_cons in L; pose proof (len_nonneg _ l); lia ]. }
  destruct ((pos <? 0) || (len (k_codes text) <=? pos)) eqn:B.
  { exists (-1). split; [ reflexivity | ]. left. split; [ reflexivity | ]. intros q Hq Pq. apply P_range in Pq. lia. }
  cbn [negb andb]. destruct (inc && (len (k_codes pat) =? 1) && (k_w text =? 0) && (k_w pat =? 0)) eqn:F.
  - destruct (k_codes pat) as [|c t] eqn:EP; [ contradiction | ].
    assert (t = []) as ->. { destruct t; [ reflexivity | ]. rewrite !len_cons in F. pose proof (len_nonneg _ t). lia. }
    assert (inc = true) as I by (destruct inc; [ reflexivity | discriminate ]).
    eexists. split; [ reflexivity | ].
    assert (PE : forall q, P q <-> gz (k_codes text) q = Some c).
    { intros q. unfold P. try rewrite EP. rewrite char_at_gz, I. cbn [in_set In].
      split; [ intros [x [E1 [E2|[]]]]; congruence | intros E; exists c; auto ]. }
    destruct (memchr_first _ _ _ _ (eq_refl (memchr (skipn (Z.to_nat pos) (k_codes text)) c pos))) as [[R1 R2]|[R1 [R2 R3]]].
    + left. split; [ exact R1 | ]. intros q Hq. rewrite PE. intros E. apply (R2 (q - pos)).
      rewrite gz_skipn. destruct (Z.ltb_spec (q - pos) 0); [ lia | ]. rewrite <- E. f_equal. lia.
    + set (r := memchr _ _ _) in *. clearbody r. right. split; [ exact R1 | ].
      split.
      * apply PE. rewrite <- R2. rewrite gz_skipn. destruct (Z.ltb_spec (r - pos) 0); [ lia | ]. f_equal. lia.
      * intros q Hq. rewrite PE. intros E. apply (R3 (q - pos)); [ lia | ].
        rewrite gz_skipn. destruct (Z.ltb_spec (q - pos) 0); [ lia | ]. rewrite <- E. f_equal. lia.
  - apply scan_fwd; [ lia | ]. unfold len in *. lia.
Qed.

Lemma string_scan_bwd : forall pos, k_codes pat <> [] -> -1 <= pos < klen text ->
  exists r, string_scan text pat true inc pos = SOk r /\ is_last P pos r.
Proof.
  unfold string_scan, klen. change @slen with @len. intros pos NE Hp.
  destruct (Z.eqb_spec (len (k_codes pat)) 0) as [L|L].
  { destruct (k_codes pat); [ contradiction | rewrite len_cons in L; pose proof (len_nonneg _ l); lia ]. }
  destruct ((pos <? 0) || (len (k_codes text) <=? pos)) eqn:B.
  { exists (-1). split; [ reflexivity | ]. left. split; [ reflexivity | ]. intros q Hq Pq. apply P_range in Pq. lia. }
  cbn [negb andb]. apply scan_bwd; [ lia | ]. unfold len in *. lia.
Qed.

End Scan.

Lemma occurs_single : forall text c p, occurs text [c] p <-> char_at text (in_set [c] true) p.
Proof.
  intros. unfold occurs, char_at, in_set. split.
  - intros [b [a [E1 E2]]]. exists b, c, a. split; [ exact E1 | ]. split; [ exact E2 | left; reflexivity ].
  - intros [b [x [a [E1 [E2 [E3|[]]]]]]]. subst x. exists b, a. auto.
Qed.
Lemma is_first_ext : forall P Q from r, (forall p, P p <-> Q p) -> is_first P from r -> is_first Q from r.
Proof.
  intros P Q from r E [[H1 H2]|[H1 [H2 H3]]]; [ left | right ].
  - split; [ exact H1 | ]. intros p Hp Qp. apply (H2 p Hp). apply E. exact Qp.
  - split; [ exact H1 | ]. split; [ apply E; exact H2 | ]. intros p Hp Qp. apply (H3 p Hp). apply E. exact Qp.
Qed.
Lemma is_last_ext : forall P Q from r, (forall p, P p <-> Q p) -> is_last P from r -> is_last Q from r.
Proof.
  intros P Q from r E [[H1 H2]|[H1 [H2 H3]]]; [ left | right ].
  - split; [ exact H1 | ]. intros p Hp Qp. apply (H2 p Hp). apply E. exact Qp.
  - split; [ exact H1 | ]. split; [ apply E; exact H2 | ]. intros p Hp Qp. apply (H3 p Hp). apply E. exact Qp.
Qed.

Lemma occurs_nil : forall (text : list Z) p, 0 <= p <= len text -> occurs text [] p.
Proof.
  intros text p H. exists (firstn (Z.to_nat p) text), (skipn (Z.to_nat p) text).
  cbn [app]. rewrite firstn_skipn. split; [ reflexivity | ]. change @llen with @len. lenz. lia.
Qed.

Section Find.
Variable coll : Z -> Z -> Z.
Hypothesis strict : forall x y, x <> y -> coll x y <> 0.

Lemma string_find_fwd : forall text pat pos, range_ok text -> range_ok pat -> 0 <= pos <= klen text ->
  exists r, string_find coll text pat false pos = SOk r /\ is_first (occurs (k_codes text) (k_codes pat)) pos r.
Proof.
  intros text pat pos Rt Rp Hp. unfold string_find.
  destruct (Z.eqb_spec (klen pat) 0) as [L|L].
  { exists pos. split; [ reflexivity | ]. right. split; [ lia | ]. split; [ | intros; lia ].
    unfold klen in *. change @slen with @len in *.
    destruct (k_codes pat); [ | rewrite len_cons in L; pose proof (len_nonneg _ l); lia ]. apply occurs_nil. lia. }
  assert (0 < klen pat) as Lp.
  { unfold klen in *. change @slen with @len in *. pose proof (len_nonneg _ (k_codes pat)). lia. }
  destruct ((pos <? 0) || (klen text <? pos + klen pat)) eqn:B.
  { exists (-1). split; [ reflexivity | ]. left. split; [ reflexivity | ]. intros q Hq O. apply occurs_range in O.
    unfold klen in *. change @slen with @len in *. lia. }
  destruct (Z.eqb_spec (klen pat) 1) as [L1|L1].
  - destruct (k_codes pat) as [|c t] eqn:EP; [ unfold klen in L1; rewrite EP in L1; discriminate | ].
    destruct (string_scan_fwd text pat true Rt Rp ltac:(left; reflexivity) pos) as [r [R1 R2]]; [ congruence | lia | ].
    exists r. split; [ exact R1 | ]. eapply is_first_ext; [ | exact R2 ].
    intros q. cbv beta. rewrite EP. assert (t = []) as ->.
    { unfold klen in L1. rewrite EP in L1. change @slen with @len in L1. destruct t; [ reflexivity | ].
      rewrite !len_cons in L1. pose proof (len_nonneg _ t). lia. }
    rewrite occurs_single. tauto.
  - unfold string_find_brute_force. apply find_fwd; auto; try lia.
    unfold klen in *. change @slen with @len in *. unfold len in *. lia.
Qed.

Lemma string_find_bwd : forall text pat pos, range_ok text -> range_ok pat -> -1 <= pos ->
  (k_codes pat = [] -> 0 <= pos <= klen text) -> pos <= Z.max 0 (klen text - klen pat) ->
  exists r, string_find coll text pat true pos = SOk r /\ is_last (occurs (k_codes text) (k_codes pat)) pos r.
Proof.
  intros text pat pos Rt Rp Hp Hp0 Hp2. unfold string_find.
  destruct (Z.eqb_spec (klen pat) 0) as [L|L].
  { exists pos. split; [ reflexivity | ]. right. split; [ lia | ]. split; [ | intros; lia ].
    unfold klen in *. change @slen with @len in *.
    destruct (k_codes pat); [ | rewrite len_cons in L; pose proof (len_nonneg _ l); lia ].
    apply occurs_nil. apply Hp0. reflexivity. }
  assert (0 < klen pat) as Lp.
  { unfold klen in *. change @slen with @len in *. pose proof (len_nonneg _ (k_codes pat)). lia. }
  destruct ((pos <? 0) || (klen text <? pos + klen pat)) eqn:B.
  { exists (-1). split; [ reflexivity | ]. left. split; [ reflexivity | ]. intros q Hq O. apply occurs_range in O.
    unfold klen in *. change @slen with @len in *. lia. }
  destruct (Z.eqb_spec (klen pat) 1) as [L1|L1].
  - destruct (k_codes pat) as [|c t] eqn:EP; [ unfold klen in L1; rewrite EP in L1; discriminate | ].
    destruct (string_scan_bwd text pat true Rt Rp ltac:(left; reflexivity) pos) as [r [R1 R2]]; [ congruence | lia | ].
    exists r. split; [ exact R1 | ]. eapply is_last_ext; [ | exact R2 ].
    intros q. cbv beta. rewrite EP. assert (t = []) as ->.
    { unfold klen in L1. rewrite EP in L1. change @slen with @len in L1. destruct t; [ reflexivity | ].
      rewrite !len_cons in L1. pose proof (len_nonneg _ t). lia. }
    rewrite occurs_single. tauto.
  - unfold string_find_brute_force. apply find_bwd; auto; try lia.
    unfold klen in *. change @slen with @len in *. unfold len in *. lia.
Qed.

Lemma find_dir_first : forall text pat pos, kwf text -> kwf pat ->
  exists r, find_dir coll text pat false pos = SOk r /\
    is_first (occurs (k_codes text) (k_codes pat)) (match pos with None => 0 | Some p => pos_of (klen text) p end) r.
Proof.
  intros text pat pos Kt Kp. unfold find_dir.
  assert (0 <= klen text) by (unfold klen, slen; lia).
  assert (E : get_index_arg pos 0 (klen text) VoidIsBegin = match pos with None => 0 | Some p => pos_of (klen text) p end).
  { destruct pos as [p|]; [ | reflexivity ]. unfold get_index_arg, pos_of.
    ifs; lia. }
  rewrite E. apply string_find_fwd; [ apply kwf_range; assumption | apply kwf_range; assumption | ].
  destruct pos; [ apply pos_of_range; lia | lia ].
Qed.

(* the position is not negative: the last occurrence up to it *)
Lemma find_dir_last : forall text pat pos, kwf text -> kwf pat -> (match pos with None => True | Some p => 0 <= p end) ->
  exists r, find_dir coll text pat true pos = SOk r /\
    is_last (occurs (k_codes text) (k_codes pat)) (match pos with None => klen text | Some p => p end) r.
Proof.
  intros text pat pos Kt Kp Hp. unfold find_dir.
  assert (Lt : 0 <= klen text <= 65535). { destruct Kt as [_ [_ [_ [L _]]]]. unfold klen, slen. unfold len in L. lia. }
  assert (Lp : 0 <= klen pat <= 65535). { destruct Kp as [_ [_ [_ [L _]]]]. unfold klen, slen. unfold len in L. lia. }
  assert (E32 : Z.max (s32 (klen text - klen pat)) 0 = Z.max 0 (klen text - klen pat)).
  { unfold s32, swrap. set (d := klen text - klen pat) in *. assert (-65535 <= d <= 65535) by lia. clearbody d.
    destruct (Z.ltb_spec d 0).
    - replace (d mod 2 ^ 32) with (d + 2 ^ 32). 2:{ apply Zmod_unique with (-1); lia. }
      change (2 ^ 32) with 4294967296. change (2 ^ (32 - 1)) with 2147483648.
      destruct (Z.ltb_spec (d + 4294967296) 2147483648); lia.
    - rewrite Z.mod_small by lia. change (2 ^ 32) with 4294967296. change (2 ^ (32 - 1)) with 2147483648.
      destruct (Z.ltb_spec d 2147483648); lia. }
  cbv beta iota zeta. rewrite E32. remember (Z.max 0 (klen text - klen pat)) as m eqn:Em.
  set (p := get_index_arg pos (-1) m VoidIsEnd).
  assert (Ep : p = match pos with None => m | Some p => Z.min p m end).
  { unfold p, get_index_arg. destruct pos as [q|]; [ | reflexivity ].
    ifs; lia. }
  destruct (string_find_bwd text pat p) as [r [R1 R2]].
  - apply kwf_range; assumption.
  - apply kwf_range; assumption.
  - rewrite Ep. destruct pos; lia.
  - intros E0. assert (klen pat = 0) by (unfold klen; rewrite E0; reflexivity). rewrite Ep. destruct pos; lia.
  - rewrite Ep. destruct pos; lia.
  - exists r. split; [ exact R1 | ].
    assert (OR : forall q, occurs (k_codes text) (k_codes pat) q -> 0 <= q <= m /\ klen pat <= klen text).
    { intros q O. apply occurs_range in O. unfold klen in *. change @slen with @len in *. lia. }
    destruct R2 as [[R2 R3]|[R2 [R3 R4]]]; [ left | right ].
    + split; [ exact R2 | ]. intros q Hq O. apply (R3 q); [ | exact O ]. apply OR in O. rewrite Ep. destruct pos; lia.
    + split; [ rewrite Ep in R2; destruct pos; lia | ]. split; [ exact R3 | ].
      intros q Hq O. apply (R4 q); [ | exact O ]. apply OR in O. rewrite Ep. destruct pos; lia.
Qed.

(* starts_with and ends_with *)
Lemma cmp_pos_id : forall b e n, 0 <= b <= e -> e <= n -> cmp_positions b e n = (b, e).
Proof.
  intros. unfold cmp_positions.
  ifs; f_equal; lia.
Qed.

Lemma sub_all : forall (l : list Z), sub l 0 (len l) = l.
Proof. intros. unfold sub. rewrite Z.sub_0_r, to_nat_len, skipn_O. apply firstn_all. Qed.

Lemma cmp_slice_eq : forall this arg b, kwf this -> kwf arg -> 0 <= b -> b + klen arg <= klen this ->
  exists c, string_compare_slice coll this b (b + klen arg) arg 0 (klen arg) = SOk c /\
   (c = 0 <-> occurs (k_codes this) (k_codes arg) b).
Proof.
  intros this arg b Kt Ka Hb Hb2. unfold string_compare_slice.
  assert (Lt : 0 <= klen this <= 65535). { destruct Kt as [_ [_ [_ [L _]]]]. unfold klen, slen. unfold len in L. lia. }
  assert (La : 0 <= klen arg <= 65535). { destruct Ka as [_ [_ [_ [L _]]]]. unfold klen, slen. unfold len in L. lia. }
  rewrite !cmp_pos_id by lia. rewrite !u32_small by lia.
  unfold klen in *. change @slen with @len in *.
  destruct (compare_slice_main coll this b (b + len (k_codes arg)) arg 0 (len (k_codes arg))) as [c [C1 [C2 _]]];
    try (apply kwf_range; assumption); try lia.
  exists c. split; [ exact C1 | ]. specialize (C2 strict). rewrite sub_all in C2. rewrite C2.
  apply occurs_sub; lia.
Qed.

Lemma starts_with_ok : forall this arg, kwf this -> kwf arg ->
  exists r, starts_with coll this arg = SOk r /\ (r = true <-> exists rest, k_codes this = k_codes arg ++ rest).
Proof.
  intros this arg Kt Ka. unfold starts_with.
  assert (EX : occurs (k_codes this) (k_codes arg) 0 <-> exists rest, k_codes this = k_codes arg ++ rest).
  { split.
    - intros [b [a [E1 E2]]]. destruct b; [ | unfold llen in E2; cbn in E2; lia ]. exists a. exact E1.
    - intros [rest E]. exists [], rest. split; [ exact E | reflexivity ]. }
  setoid_rewrite <- EX. destruct (Z.ltb_spec (klen this) (klen arg)).
  - exists false. split; [ reflexivity | ]. split; [ discriminate | ]. intros O. apply occurs_range in O.
    unfold klen in *. change @slen with @len in *. lia.
  - destruct (cmp_slice_eq this arg 0 Kt Ka ltac:(lia) ltac:(lia)) as [c [C1 C2]]. cbn [Z.add] in C1.
    rewrite C1. exists (c =? 0). split; [ reflexivity | ]. rewrite Z.eqb_eq. exact C2.
Qed.

Lemma ends_with_ok : forall this arg, kwf this -> kwf arg ->
  exists r, ends_with coll this arg = SOk r /\ (r = true <-> exists rest, k_codes this = rest ++ k_codes arg).
Proof.
  intros this arg Kt Ka. unfold ends_with.
  assert (EX : occurs (k_codes this) (k_codes arg) (klen this - klen arg) <-> exists rest, k_codes this = rest ++ k_codes arg).
  { unfold klen. change @slen with @len. split.
    - intros [b [a [E1 E2]]]. change @llen with @len in E2. assert (len a = 0).
      { apply (f_equal (@len Z)) in E1. rewrite !len_app in E1. lia. }
      destruct a; [ | rewrite len_cons in *; pose proof (len_nonneg _ a); lia ]. exists b. rewrite app_nil_r in E1. exact E1.
    - intros [rest E]. exists rest, []. rewrite app_nil_r. split; [ exact E | ]. change @llen with @len. rewrite E. lenz. lia. }
  setoid_rewrite <- EX. destruct (Z.ltb_spec (klen this) (klen arg)).
  - exists false. split; [ reflexivity | ]. split; [ discriminate | ]. intros O. apply occurs_range in O.
    unfold klen in *. change @slen with @len in *. lia.
  - destruct (cmp_slice_eq this arg (klen this - klen arg) Kt Ka ltac:(lia) ltac:(lia)) as [c [C1 C2]].
    replace (klen this - klen arg + klen arg) with (klen this) in C1 by lia.
    rewrite C1. exists (c =? 0). split; [ reflexivity | ]. rewrite Z.eqb_eq. exact C2.
Qed.
End Find.

Lemma get_index_fwd : forall n pos, 0 <= n ->
  get_index_arg pos 0 n VoidIsBegin = match pos with None => 0 | Some p => pos_of n p end.
Proof.
  intros n pos H. destruct pos as [p|]; [ | reflexivity ]. unfold get_index_arg, pos_of.
  ifs; lia.
Qed.

Lemma scan_dir_first : forall text pat pos inc, kwf text -> kwf pat -> k_codes pat <> [] -> scan_ok text pat inc ->
  exists r, scan_dir text pat false pos inc = SOk r /\
    is_first (char_at (k_codes text) (in_set (k_codes pat) inc))
      (match pos with None => 0 | Some p => pos_of (klen text) p end) r.
Proof.
  intros text pat pos inc Kt Kp NE SO. unfold scan_dir. cbn [andb].
  assert (0 <= klen text) by (unfold klen, slen; lia).
  rewrite get_index_fwd by assumption.
  apply string_scan_fwd; auto using kwf_range. destruct pos; [ apply pos_of_range; lia | lia ].
Qed.

Lemma scan_dir_last : forall text pat pos inc, kwf text -> kwf pat -> k_codes pat <> [] -> scan_ok text pat inc ->
  exists r, scan_dir text pat true pos inc = SOk r /\
    is_last (char_at (k_codes text) (in_set (k_codes pat) inc))
      (match pos with None => klen text - 1 | Some p => if p <? 0 then klen text + p else p end) r.
Proof.
  intros text pat pos inc Kt Kp NE SO. unfold scan_dir. cbn [andb].
  assert (H0 : 0 <= klen text) by (unfold klen, slen; lia).
  set (p0 := get_index_arg pos (-1) (klen text) VoidIsEnd).
  set (p := if p0 =? klen text then p0 - 1 else p0).
  assert (Rp : -1 <= p < klen text).
  { unfold p, p0, get_index_arg. destruct pos; [ | destruct (Z.eqb_spec (klen text) (klen text)); lia ].
    ifs; lia. }
  assert (Ep : match pos with None => p = klen text - 1 | Some q =>
      let q' := (if q <? 0 then klen text + q else q) in p = Z.max (-1) (Z.min q' (klen text - 1)) end).
  { unfold p, p0, get_index_arg. destruct pos as [q|]; cbv zeta; [ | destruct (Z.eqb_spec (klen text) (klen text)); lia ].
    ifs; lia. }
  destruct (string_scan_bwd text pat inc (kwf_range _ Kt) (kwf_range _ Kp) SO p NE Rp) as [r [R1 R2]].
  exists r. split; [ exact R1 | ].
  assert (CR : forall q, char_at (k_codes text) (in_set (k_codes pat) inc) q -> 0 <= q < klen text).
  { intros q C. apply char_at_gz in C. destruct C as [c [C _]]. apply gz_some_inv in C. exact C. }
  destruct R2 as [[R2 R3]|[R2 [R3 R4]]]; [ left | right ].
  - split; [ exact R2 | ]. intros q Hq C. apply (R3 q); [ | exact C ]. apply CR in C. destruct pos; cbv zeta in *; lia.
  - split.
    + pose proof (CR _ R3). destruct pos; cbv zeta in *; lia.
    + split; [ exact R3 | ]. intros q Hq C. apply (R4 q); [ | exact C ]. apply CR in C. destruct pos; cbv zeta in *; lia.
Qed.
