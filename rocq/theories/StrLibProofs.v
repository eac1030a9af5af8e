(* strip, split, join: lemmas. *)
From Coq Require Import ZArith List Lia Bool ZifyBool.
Import ListNotations.
From Verif Require Import Base ListZ IndexModel ArraySpec ArrayProofs BufferProofs StringModel StringSpec
  StringProofs StringProofs2 StringProofs3 StrLibModel StrLibSpec.
Local Open Scope Z_scope.
Ltac Zify.zify_post_hook ::= idtac.

(* ---- positions in a suffix ---- *)

Lemma first_char : forall text (P : Z -> Prop) pre t r, text = pre ++ t ->
  is_first (char_at text P) (len pre) r ->
  (r = -1 /\ Forall (fun c => ~ P c) t) \/
  (exists a c b, t = a ++ c :: b /\ r = len pre + len a /\ Forall (fun c => ~ P c) a /\ P c).
Proof.
  intros text P pre t r E H. pose proof (len_nonneg _ pre).
  assert (G : forall i c, gz t i = Some c -> P c -> char_at text P (len pre + i)).
  { intros i c Gi Pc. apply char_at_gz. exists c. split; [ | exact Pc ]. pose proof (gz_some_inv _ _ _ _ Gi).
    rewrite E, gz_app. destruct (Z.ltb_spec (len pre + i) (len pre)); [ lia | ]. rewrite <- Gi. f_equal. lia. }
  destruct H as [[H1 H2]|[H1 [H2 H3]]].
  - left. split; [ exact H1 | ]. apply Forall_forall. intros c I Pc. apply in_gz in I. destruct I as [i [Hi Gi]].
    apply (H2 (len pre + i)); [ lia | ]. eapply G; eassumption.
  - right. apply char_at_gz in H2. destruct H2 as [c [G2 Pc]]. rewrite E, gz_app in G2.
    destruct (Z.ltb_spec r (len pre)); [ lia | ].
    pose proof (gz_split _ _ _ _ G2) as S. pose proof (gz_some_inv _ _ _ _ G2) as Hr.
    eexists _, c, _. split; [ exact S | ]. split; [ lenz; lia | ]. split; [ | exact Pc ].
    apply Forall_forall. intros d I Pd. apply in_gz in I. destruct I as [i [Hi Gi]].
    rewrite len_firstn in Hi. rewrite gz_firstn in Gi.
    assert (i < r - len pre) by lia. apply (H3 (len pre + i)); [ lia | ].
    apply (G i d); [ | exact Pd ]. destruct (_ <? _) in Gi; [ exact Gi | discriminate ].
Qed.

Lemma last_char : forall text (P : Z -> Prop) r,
  is_last (char_at text P) (len text - 1) r ->
  (r = -1 /\ Forall (fun c => ~ P c) text) \/
  (exists a c b, text = a ++ c :: b /\ r = len a /\ Forall (fun c => ~ P c) b /\ P c).
Proof.
  intros text P r H. destruct H as [[H1 H2]|[H1 [H2 H3]]].
  - left. split; [ exact H1 | ]. apply Forall_forall. intros c I Pc. apply in_gz in I. destruct I as [i [Hi Gi]].
    apply (H2 i); [ lia | ]. apply char_at_gz. eauto.
  - right. apply char_at_gz in H2. destruct H2 as [c [G2 Pc]].
    pose proof (gz_split _ _ _ _ G2) as S. pose proof (gz_some_inv _ _ _ _ G2) as Hr.
    eexists _, c, _. split; [ exact S | ]. split; [ lenz; lia | ]. split; [ | exact Pc ].
    apply Forall_forall. intros d I Pd. apply in_gz in I. destruct I as [i [Hi Gi]].
    rewrite gz_skipn in Gi. destruct (Z.ltb_spec i 0); [ lia | ]. pose proof (gz_some_inv _ _ _ _ Gi).
    refine (H3 _ _ _); [ | apply char_at_gz; exists d; split; [ exact Gi | exact Pd ] ]. lia.
Qed.

Lemma occurs_suffix : forall pre t pat p, occurs t pat p -> occurs (pre ++ t) pat (len pre + p).
Proof.
  intros pre t pat p [b [a [E1 E2]]]. exists (pre ++ b), a. rewrite E1, <- app_assoc. split; [ reflexivity | ].
  change @llen with @len in *. rewrite len_app. lia.
Qed.

Lemma first_occ : forall text pat pre t r, text = pre ++ t ->
  is_first (occurs text pat) (len pre) r ->
  (r = -1 /\ forall p, ~ occurs t pat p) \/
  (exists a b, t = a ++ pat ++ b /\ r = len pre + len a /\ forall p, 0 <= p < len a -> ~ occurs t pat p).
Proof.
  intros text pat pre t r E H. pose proof (len_nonneg _ pre). destruct H as [[H1 H2]|[H1 [H2 H3]]].
  - left. split; [ exact H1 | ]. intros p O. pose proof (occurs_range _ _ _ O).
    apply (H2 (len pre + p)); [ lia | ]. rewrite E. apply occurs_suffix. exact O.
  - right. destruct H2 as [b [a [E1 E2]]]. change @llen with @len in E2.
    assert (F : firstn (length pre) b = pre /\ t = skipn (length pre) b ++ pat ++ a).
    { rewrite E in E1. assert (L : (length pre <= length b)%nat) by (unfold len in *; lia).
      rewrite <- (firstn_skipn (length pre) b) in E1. rewrite <- app_assoc in E1.
      assert (LL : length pre = length (firstn (length pre) b)) by (rewrite firstn_length; lia).
      clear - E1 LL. revert E1 LL. generalize (firstn (length pre) b) as q. generalize (skipn (length pre) b) as z. intros z q E1 LL.
      revert q E1 LL. induction pre as [|x pre IH]; intros [|y q] E1 LL; try discriminate.
      - split; [ reflexivity | exact E1 ].
      - cbn [app] in E1. inversion E1. destruct (IH q) as [Q1 Q2]; [ assumption | cbn in LL; lia | ].
        split; [ congruence | exact Q2 ]. }
    destruct F as [F1 F2]. exists (skipn (length pre) b), a. split; [ exact F2 | ].
    assert (LB : len (skipn (length pre) b) = len b - len pre) by (rewrite len_skipn; unfold len in *; lia).
    split; [ lia | ]. intros p Hp O. apply (H3 (len pre + p)); [ lia | ]. rewrite E. apply occurs_suffix. exact O.
Qed.

(* ---- slices ---- *)

Lemma max_big : forall n, 0 <= n <= 65535 -> pos_of n INT64_MAX = n.
Proof. intros n H. unfold pos_of, INT64_MAX. change (2 ^ 63 - 1) with 9223372036854775807. ifs; lia. Qed.
Lemma pos_in : forall n p, 0 <= p <= n -> pos_of n p = p.
Proof. intros n p H. unfold pos_of. ifs; lia. Qed.

Lemma kwf_len : forall s, kwf s -> 0 <= len (k_codes s) <= 65535.
Proof. intros s K. pose proof (len_nonneg _ (k_codes s)). destruct K as [_ [_ [_ [K _]]]]. lia. Qed.

Section Ops.
Variable addr : Z.
Hypothesis Ha : addr mod 8 = 0.

Lemma slice_rest : forall s pre t, kwf s -> k_codes s = pre ++ t ->
  exists r, slice_op addr s (Some (len pre)) None = SOk r /\ kwf r /\ k_codes r = t.
Proof.
  intros s pre t K E. unfold slice_op. destruct (string_slice_ok addr s (len pre) INT64_MAX Ha K) as [r [R1 [R2 R3]]].
  exists r. split; [ exact R1 | ]. split; [ exact R2 | ]. rewrite R3. unfold list_slice. change @llen with @len.
  pose proof (kwf_len s K). pose proof (len_nonneg _ pre). pose proof (len_nonneg _ t).
  rewrite max_big by assumption. rewrite E, len_app in *. rewrite pos_in by lia.
  unfold sub. rewrite skipn_app_len by reflexivity.
  replace (len pre + len t - len pre) with (len t) by lia. rewrite to_nat_len. apply firstn_all.
Qed.

Lemma slice_part : forall s pre a t e, kwf s -> k_codes s = pre ++ a ++ t -> e = len pre + len a ->
  exists r, slice_op addr s (Some (len pre)) (Some e) = SOk r /\ kwf r /\ k_codes r = a.
Proof.
  intros s pre a t e K E ->. unfold slice_op. destruct (string_slice_ok addr s (len pre) (len pre + len a) Ha K) as [r [R1 [R2 R3]]].
  exists r. split; [ exact R1 | ]. split; [ exact R2 | ]. rewrite R3. unfold list_slice. change @llen with @len.
  pose proof (len_nonneg _ pre). pose proof (len_nonneg _ t). pose proof (len_nonneg _ a).
  rewrite E, !len_app. rewrite !pos_in by lia.
  unfold sub. rewrite skipn_app_len by reflexivity. apply firstn_app_len. lia.
Qed.

Lemma slice_begin : forall s a t e, kwf s -> k_codes s = a ++ t -> e = len a ->
  exists r, slice_op addr s None (Some e) = SOk r /\ kwf r /\ k_codes r = a.
Proof.
  intros s a t e K E ->. destruct (slice_part s [] a t (len a) K E) as [r R]; [ rewrite len_nil; lia | ].
  exists r. exact R.
Qed.

(* ---- scanning from a position ---- *)

Lemma start_pos : forall s pre t, kwf s -> k_codes s = pre ++ t -> pos_of (klen s) (len pre) = len pre.
Proof.
  intros s pre t K E. apply pos_in. rewrite klen_len, E, len_app. pose proof (len_nonneg _ pre). pose proof (len_nonneg _ t). lia.
Qed.

Lemma scan_from : forall s set inc pre t, kwf s -> kwf set -> k_codes set <> [] -> scan_ok s set inc -> k_codes s = pre ++ t ->
  exists r, scan_dir s set false (Some (len pre)) inc = SOk r /\
   ((r = -1 /\ Forall (fun c => ~ in_set (k_codes set) inc c) t) \/
    (exists a c b, t = a ++ c :: b /\ r = len pre + len a /\ Forall (fun c => ~ in_set (k_codes set) inc c) a /\
       in_set (k_codes set) inc c)).
Proof.
  intros s set inc pre t K Ks NE SO E.
  destruct (scan_dir_first s set (Some (len pre)) inc K Ks NE SO) as [r [R1 R2]].
  exists r. split; [ exact R1 | ]. rewrite (start_pos s pre t K E) in R2. eapply first_char; eassumption.
Qed.

Lemma not_excl : forall set c, ~ in_set set false c <-> In c set.
Proof. intros. unfold in_set. destruct (in_dec Z.eq_dec c set); tauto. Qed.
Lemma Forall_not_excl : forall set l, Forall (fun c => ~ in_set set false c) l -> Forall (fun c => In c set) l.
Proof. intros set l. apply Forall_impl. intros c. apply not_excl. Qed.

(* ---- strip ---- *)

Lemma scan_empty_set : forall s set rev pos, k_codes set = [] ->
  scan_dir s set rev pos false =
    SOk (let p := get_index_arg pos (if rev then -1 else 0) (klen s) (if rev then VoidIsEnd else VoidIsBegin) in
         if rev && (p =? klen s) then p - 1 else p).
Proof. intros s set rev pos E. unfold scan_dir, string_scan. rewrite (klen_len set), E, len_nil. reflexivity. Qed.

Lemma rscan_last : forall s set, kwf s -> kwf set -> k_codes set <> [] -> scan_ok s set false ->
  exists r, scan_dir s set true None false = SOk r /\
   ((r = -1 /\ Forall (fun c => In c (k_codes set)) (k_codes s)) \/
    (exists a c b, k_codes s = a ++ c :: b /\ r = len a /\ Forall (fun c => In c (k_codes set)) b /\ ~ In c (k_codes set))).
Proof.
  intros s set K Ks NE SO. destruct (scan_dir_last s set None false K Ks NE SO) as [r [R1 R2]].
  exists r. split; [ exact R1 | ]. apply last_char in R2. destruct R2 as [[R2 R3]|[a [c [b [R2 [R3 [R4 R5]]]]]]].
  - left. split; [ exact R2 | apply Forall_not_excl; exact R3 ].
  - right. exists a, c, b. split; [ exact R2 | ]. split; [ exact R3 | ]. split; [ apply Forall_not_excl; exact R4 | exact R5 ].
Qed.

Lemma lstrip_ok : forall s set, kwf s -> kwf set -> scan_ok s set false ->
  exists r, lstrip addr s set = SOk r /\ kwf r /\ stripped_left (k_codes set) (k_codes s) (k_codes r).
Proof.
  intros s set K Ks SO. unfold lstrip. destruct (k_codes set) as [|x xs] eqn:ES.
  - rewrite scan_empty_set by exact ES. cbn [andb get_index_arg]. pose proof (kwf_len s K).
    rewrite klen_len. change (0 <? 0) with false. cbv iota. change (0 <? 0) with false. cbv iota.
    destruct (Z.ltb_spec (len (k_codes s)) 0); [ lia | ]. cbn [Z.eqb negb].
    destruct (slice_rest s [] (k_codes s) K eq_refl) as [r [R1 [R2 R3]]]. rewrite len_nil in R1. exists r.
    split; [ exact R1 | ]. split; [ exact R2 | ]. rewrite R3. exists []. split; [ reflexivity | ]. split; [ constructor | auto ].
  - destruct (scan_from s set false [] (k_codes s) K Ks) as [p [P1 P2]]; [ congruence | exact SO | reflexivity | ].
    rewrite len_nil in *. rewrite P1. rewrite ES in P2.
    destruct P2 as [[-> P3]|[a [c [b [P2 [P3 [P4 P5]]]]]]].
    + cbn [Z.eqb negb]. exists str_empty. split; [ reflexivity | ]. split; [ apply str_empty_kwf | ].
      exists (k_codes s). cbn [str_empty k_codes]. rewrite app_nil_r. split; [ reflexivity | ].
      split; [ apply Forall_not_excl; exact P3 | discriminate ].
    + pose proof (len_nonneg _ a). destruct (Z.eqb_spec p (-1)); [ lia | ]. cbn [negb].
      destruct (slice_rest s a (c :: b) K P2) as [r [R1 [R2 R3]]]. replace p with (len a) by lia. exists r.
      split; [ exact R1 | ]. split; [ exact R2 | ]. rewrite R3. exists a. split; [ exact P2 | ].
      split; [ apply Forall_not_excl; exact P4 | ]. intros d t0 E. inversion E. subst. exact P5.
Qed.

Lemma rstrip_ok : forall s set, kwf s -> kwf set -> scan_ok s set false ->
  exists r, rstrip addr s set = SOk r /\ kwf r /\ stripped_right (k_codes set) (k_codes s) (k_codes r).
Proof.
  intros s set K Ks SO. unfold rstrip. destruct (k_codes set) as [|x xs] eqn:ES.
  - rewrite scan_empty_set by exact ES. cbn [andb get_index_arg]. rewrite klen_len, Z.eqb_refl.
    destruct (slice_begin s (k_codes s) [] (len (k_codes s) - 1 + 1) K) as [r [R1 [R2 R3]]]; [ rewrite app_nil_r; reflexivity | lia | ].
    exists r. split; [ exact R1 | ]. split; [ exact R2 | ]. rewrite R3. exists []. rewrite app_nil_r. split; [ reflexivity | ]. split; [ constructor | auto ].
  - destruct (rscan_last s set K Ks) as [p [P1 P2]]; [ congruence | exact SO | ]. rewrite P1. rewrite ES in P2.
    destruct P2 as [[-> P3]|[a [c [b [P2 [P3 [P4 P5]]]]]]].
    + destruct (slice_begin s [] (k_codes s) (-1 + 1) K) as [r [R1 [R2 R3]]]; [ reflexivity | reflexivity | ].
      exists r. split; [ exact R1 | ]. split; [ exact R2 | ]. rewrite R3. exists (k_codes s). split; [ reflexivity | ].
      split; [ exact P3 | ]. intros d t0 E. destruct t0; discriminate.
    + destruct (slice_begin s (a ++ [c]) b (p + 1) K) as [r [R1 [R2 R3]]].
      { rewrite <- app_assoc. exact P2. } { rewrite len_app. change (len [c]) with 1. lia. }
      exists r. split; [ exact R1 | ]. split; [ exact R2 | ]. rewrite R3. exists b. split; [ rewrite <- app_assoc; exact P2 | ].
      split; [ exact P4 | ]. intros d t0 E. apply app_inj_tail in E. destruct E as [_ ->]. exact P5.
Qed.

Lemma app_head_split : forall (a a' : list Z) c c' b b', a ++ c :: b = a' ++ c' :: b' ->
  ~ (exists z, a' = a ++ c :: z) -> a' = a /\ c' = c /\ b' = b \/ exists z, a = a' ++ c' :: z.
Proof.
  induction a as [|x a IH]; intros [|x' a'] c c' b b' E N; cbn [app] in *; inversion E; subst.
  - left. auto.
  - exfalso. apply N. exists a'. reflexivity.
  - right. exists a. reflexivity.
  - destruct (IH a' c c' b b' ltac:(assumption)) as [[-> [-> ->]]|[z ->]].
    + intros [z ->]. apply N. exists z. reflexivity.
    + left. auto.
    + right. exists z. reflexivity.
Qed.

Lemma strip_ok : forall s set, kwf s -> kwf set -> scan_ok s set false ->
  exists r, strip addr s set = SOk r /\ kwf r /\ stripped (k_codes set) (k_codes s) (k_codes r).
Proof.
  intros s set K Ks SO. unfold strip. destruct (k_codes set) as [|x xs] eqn:ES.
  - rewrite !scan_empty_set by exact ES. cbn [andb get_index_arg]. pose proof (kwf_len s K).
    rewrite klen_len, Z.eqb_refl. change (0 <? 0) with false. cbv iota. change (0 <? 0) with false. cbv iota.
    destruct (Z.ltb_spec (len (k_codes s)) 0); [ lia | ]. cbn [Z.eqb negb].
    destruct (slice_part s [] (k_codes s) [] (len (k_codes s) - 1 + 1) K) as [r [R1 [R2 R3]]];
      [ rewrite app_nil_r; reflexivity | rewrite len_nil; lia | ]. rewrite len_nil in R1. exists r.
    split; [ exact R1 | ]. split; [ exact R2 | ]. rewrite R3. exists [], []. rewrite app_nil_r. split; [ reflexivity | ].
    split; [ constructor | ]. split; [ constructor | ]. auto.
  - destruct (scan_from s set false [] (k_codes s) K Ks) as [p [P1 P2]]; [ congruence | exact SO | reflexivity | ].
    rewrite len_nil in *. rewrite P1. rewrite ES in P2.
    destruct P2 as [[-> P3]|[a [c [b [P2 [P3 [P4 P5]]]]]]].
    + cbn [Z.eqb negb]. exists str_empty. split; [ reflexivity | ]. split; [ apply str_empty_kwf | ].
      exists (k_codes s), []. cbn [str_empty k_codes app]. rewrite app_nil_r. split; [ reflexivity | ].
      split; [ apply Forall_not_excl; exact P3 | ]. split; [ constructor | ]. split; intros d t0 E; [ discriminate | destruct t0; discriminate ].
    + pose proof (len_nonneg _ a). destruct (Z.eqb_spec p (-1)); [ lia | ]. cbn [negb].
      destruct (rscan_last s set K Ks) as [q [Q1 Q2]]; [ congruence | exact SO | ]. rewrite Q1. rewrite ES in Q2.
      cbn [in_set] in P5. apply Forall_not_excl in P4.
      destruct Q2 as [[-> Q3]|[a' [c' [b' [Q2 [Q3 [Q4 Q5]]]]]]].
      { exfalso. apply P5. rewrite Forall_forall in Q3. apply Q3. rewrite P2. apply in_or_app. right. left. reflexivity. }
      assert (L : exists m, c :: b = m ++ c' :: b' /\ (m = [] \/ exists m', m = c :: m') /\ a' = a ++ m).
      { rewrite P2 in Q2. destruct (app_head_split _ _ _ _ _ _ (eq_sym Q2)) as [[-> [-> ->]]|[z ->]].
        - intros [z ->]. apply Q5. rewrite Forall_forall in P4. apply P4. apply in_or_app. right. left. reflexivity.
        - exists []. split; [ reflexivity | ]. split; [ left; reflexivity | rewrite app_nil_r; reflexivity ].
        - exists (c :: z). split; [ | split; [ right; eauto | reflexivity ] ].
          rewrite <- app_assoc in Q2. apply app_inv_head in Q2. exact Q2. }
      destruct L as [m [L1 [L2 L3]]].
      destruct (slice_part s a (m ++ [c']) b' (q + 1) K) as [r [R1 [R2 R3]]].
      { rewrite P2, L1, <- app_assoc. reflexivity. } { subst q a'. rewrite !len_app. change (len [c']) with 1. lia. }
      replace p with (len a) by lia. exists r. split; [ exact R1 | ]. split; [ exact R2 | ]. rewrite R3. exists a, b'.
      split; [ rewrite P2, L1, <- app_assoc; reflexivity | ]. split; [ exact P4 | ]. split; [ exact Q4 | ].
      split.
      * intros d t0 E. destruct L2 as [->|[m' ->]]; cbn [app] in E, L1; inversion E; inversion L1; subst; assumption.
      * intros d t0 E. apply app_inj_tail in E. destruct E as [_ <-]. exact Q5.
Qed.

(* ---- split ---- *)

Definition lim (n : nat) : option nat := Some (S n).

Section Coll.
Variable coll : Z -> Z -> Z.
Hypothesis strict : forall x y, x <> y -> coll x y <> 0.

Lemma split_sep_loop_ok : forall n s sep pre t, kwf s -> kwf sep -> k_codes sep <> [] -> k_codes s = pre ++ t ->
  exists ps, split_sep_loop coll addr n s sep (len pre) = SOk ps /\ Forall kwf ps /\
    split_at (k_codes sep) (Some (S n)) t (map k_codes ps).
Proof.
  induction n; intros s sep pre t K Ks NE E; cbn [split_sep_loop].
  - destruct (slice_rest s pre t K E) as [r [R1 [R2 R3]]]. rewrite R1. exists [r]. split; [ reflexivity | ].
    split; [ auto | ]. cbn [map]. rewrite R3. apply sa_last. left. reflexivity.
  - destruct (find_dir_first coll strict s sep (Some (len pre)) K Ks) as [e [E1 E2]]. rewrite E1.
    rewrite (start_pos s pre t K E) in E2. apply (first_occ _ _ pre t) in E2; [ | exact E ].
    destruct E2 as [[-> E2]|[a [b [E2 [E3 E4]]]]].
    + cbn [Z.eqb]. destruct (slice_rest s pre t K E) as [r [R1 [R2 R3]]]. cbn [Pos.eqb]. rewrite R1. exists [r]. split; [ reflexivity | ].
      split; [ auto | ]. cbn [map]. rewrite R3. apply sa_last. right. exact E2.
    + pose proof (len_nonneg _ a). pose proof (len_nonneg _ pre). destruct (Z.eqb_spec e (-1)); [ lia | ].
      destruct (slice_part s pre a (k_codes sep ++ b) e K) as [r [R1 [R2 R3]]]; [ rewrite E, E2; reflexivity | exact E3 | ].
      rewrite R1. destruct (IHn s sep (pre ++ a ++ k_codes sep) b K Ks NE) as [ps [P1 [P2 P3]]].
      { rewrite E, E2, <- !app_assoc. reflexivity. }
      rewrite !len_app in P1. replace (e + klen sep) with (len pre + (len a + len (k_codes sep))) by (rewrite klen_len; lia).
      rewrite P1. exists (r :: ps). split; [ reflexivity | ]. split; [ constructor; assumption | ].
      cbn [map]. rewrite R3, E2. apply sa_more; [ cbn; lia | | exact P3 ].
      intros p Hp. rewrite <- E2. apply E4. exact Hp.
Qed.

(* with more allowed parts than characters there is no limit *)
Lemma split_at_unlimited : forall sep n text ps, sep <> [] -> split_at sep (Some n) text ps ->
  len text < Z.of_nat n -> split_at sep None text ps.
Proof.
  intros sep n text ps NE H. remember (Some n) as o eqn:Eo. revert n Eo.
  assert (Ls : 0 < len sep) by (destruct sep; [ contradiction | rewrite len_cons; pose proof (len_nonneg _ sep); lia ]).
  induction H as [o text C|o part text parts M C H IH]; intros n -> L.
  - apply sa_last. right. destruct C as [C|C]; [ | exact C ]. inversion C. subst n. intros p O.
    apply occurs_range in O. lia.
  - apply sa_more; [ exact I | exact C | ]. cbn [less] in *. eapply IH; [ reflexivity | ].
    rewrite !len_app in L. pose proof (len_nonneg _ part). lia.
Qed.

Lemma split_sep_ok : forall s sep max_split, kwf s -> kwf sep -> k_codes sep <> [] -> max_split <> 0 ->
  exists ps, split coll addr s (Some sep) max_split = SOk ps /\ Forall kwf ps /\
    split_at (k_codes sep) (if max_split <? 0 then None else Some (Z.to_nat max_split)) (k_codes s) (map k_codes ps).
Proof.
  intros s sep ms K Ks NE NZ. unfold split. rewrite klen_len.
  destruct (Z.eqb_spec (len (k_codes sep)) 0) as [E|_]; [ apply len_0_nil in E; contradiction | ].
  destruct (Z.eqb_spec ms 0); [ contradiction | ]. cbv zeta.
  remember (if ms <? 0 then 65536 else ms) as m eqn:Em.
  destruct (split_sep_loop_ok (Z.to_nat (m - 1)) s sep [] (k_codes s) K Ks NE eq_refl) as [ps [P1 [P2 P3]]].
  rewrite len_nil in P1. exists ps. split; [ exact P1 | ]. split; [ exact P2 | ].
  assert (EN : Z.of_nat (S (Z.to_nat (m - 1))) = m) by (destruct (ms <? 0) eqn:?; lia).
  destruct (Z.ltb_spec ms 0).
  - eapply split_at_unlimited; [ exact NE | exact P3 | ]. rewrite EN. pose proof (kwf_len s K). lia.
  - replace (Z.to_nat ms) with (S (Z.to_nat (m - 1))) by lia. exact P3.
Qed.

Lemma split_empty_sep : forall s sep max_split, k_codes sep = [] -> split coll addr s (Some sep) max_split = SExn.
Proof. intros s sep ms E. unfold split. rewrite klen_len, E. reflexivity. Qed.

Lemma split_at_join : forall sep n text ps, split_at sep n text ps -> intercalate sep ps = text.
Proof.
  induction 1 as [n text C|n part text parts M C H IH]; [ reflexivity | ].
  cbn [intercalate]. destruct parts as [|p ps]; [ inversion H | ]. rewrite IH. reflexivity.
Qed.

Lemma split_at_no_sep : forall sep text ps, sep <> [] -> split_at sep None text ps -> Forall (fun part => forall p, ~ occurs part sep p) ps.
Proof.
  intros sep text ps NE H. remember None as o eqn:Eo. revert Eo.
  induction H as [o text C|o part text parts M C H IH]; intros ->.
  - destruct C as [C|C]; [ discriminate | ]. constructor; [ exact C | constructor ].
  - constructor; [ | apply IH; reflexivity ]. intros p O. pose proof (occurs_range _ _ _ O) as [O1 O2].
    assert (0 < len sep) by (destruct sep; [ contradiction | rewrite len_cons; pose proof (len_nonneg _ sep); lia ]).
    apply (C p); [ unfold len in *; lia | ]. destruct O as [b [a [Q1 Q2]]]. exists b, (a ++ sep ++ text).
    split; [ rewrite Q1, <- !app_assoc; reflexivity | exact Q2 ].
Qed.

(* ---- split at white space ---- *)

Lemma whitespace_kwf : kwf whitespace.
Proof.
  split; [ right; left; reflexivity | ]. split. { repeat constructor; vm_compute; intuition congruence. }
  repeat split; try discriminate. left; reflexivity.
Qed.
Lemma eol_kwf : kwf eol.
Proof.
  split; [ right; left; reflexivity | ]. split. { repeat constructor; vm_compute; intuition congruence. }
  repeat split; try discriminate. left; reflexivity.
Qed.

Let ws := k_codes whitespace.

Lemma incl_not : forall set l, Forall (fun c => ~ in_set set true c) l -> Forall (fun c => ~ In c set) l.
Proof. intros set l. apply Forall_impl. intros c. exact (fun x => x). Qed.

Lemma split_ws_loop_ok : forall n s pre c t, kwf s -> scan_ok s whitespace false -> k_codes s = pre ++ c :: t -> ~ In c ws ->
  exists ps, split_ws_loop addr n s (len pre) = SOk ps /\ Forall kwf ps /\
    forall gap, Forall (fun c => In c ws) gap -> split_runs ws (Some (S n)) (gap ++ c :: t) (map k_codes ps).
Proof.
  induction n; intros s pre c t K SO E NC; cbn [split_ws_loop].
  - destruct (slice_rest s pre (c :: t) K E) as [r [R1 [R2 R3]]]. rewrite R1. exists [r]. split; [ reflexivity | ].
    split; [ auto | ]. intros gap G. cbn [map]. rewrite R3. apply sr_last; auto.
  - destruct (scan_from s whitespace true pre (c :: t) K whitespace_kwf ltac:(discriminate) ltac:(left; reflexivity) E) as [e [E1 E2]].
    rewrite E1. fold ws in E2. destruct E2 as [[-> E2]|[a [d [b [E2 [E3 [E4 E5]]]]]]].
    + cbn [Z.eqb Pos.eqb]. destruct (slice_rest s pre (c :: t) K E) as [r [R1 [R2 R3]]]. rewrite R1. exists [r]. split; [ reflexivity | ].
      split; [ auto | ]. intros gap G. cbn [map]. rewrite R3. apply incl_not in E2. apply sr_last; auto. right.
      inversion E2. assumption.
    + cbn [in_set] in E5. apply incl_not in E4.
      destruct a as [|c' w]. { cbn [app] in E2. inversion E2. subst d. contradiction. }
      cbn [app] in E2. inversion E2 as [[Ec Et]]. subst c'.
      pose proof (len_nonneg _ (c :: w)). pose proof (len_nonneg _ pre). destruct (Z.eqb_spec e (-1)); [ lia | ].
      destruct (slice_part s pre (c :: w) (d :: b) e K) as [r [R1 [R2 R3]]]; [ rewrite E, Et; reflexivity | exact E3 | ].
      rewrite R1.
      assert (E' : k_codes s = (pre ++ c :: w) ++ d :: b) by (rewrite E, Et, <- app_assoc; reflexivity).
      destruct (scan_from s whitespace false (pre ++ c :: w) (d :: b) K whitespace_kwf ltac:(discriminate) SO E') as [q [Q1 Q2]].
      rewrite len_app in Q1. rewrite <- E3 in Q1. rewrite Q1. fold ws in Q2.
      inversion E4 as [|? ? _ Fw]. subst.
      destruct Q2 as [[-> Q2]|[g [c2 [b2 [Q2 [Q3 [Q4 Q5]]]]]]].
      * cbn [Z.eqb Pos.eqb]. exists [r]. split; [ reflexivity | ]. split; [ auto | ]. intros gap G. cbn [map]. rewrite R3.
        apply (sr_more ws (Some (S (S n))) gap c w d b []); auto; [ cbn; lia | ]. apply sr_none. apply Forall_not_excl. exact Q2.
      * pose proof (len_nonneg _ g). pose proof (len_nonneg _ (pre ++ c :: w)). destruct (Z.eqb_spec q (-1)); [ lia | ].
        destruct (IHn s ((pre ++ c :: w) ++ g) c2 b2 K SO) as [ps [P1 [P2 P3]]]; [ rewrite E', Q2, <- !app_assoc; reflexivity | exact Q5 | ].
        rewrite len_app in P1. rewrite <- Q3 in P1. rewrite P1. exists (r :: ps). split; [ reflexivity | ]. split; [ constructor; assumption | ].
        intros gap G. cbn [map]. rewrite R3. apply (sr_more ws (Some (S (S n))) gap c w d b); auto; [ cbn; lia | ].
        cbn [less pred]. rewrite Q2. apply P3. apply Forall_not_excl. exact Q4.
Qed.

Lemma split_runs_unlimited : forall set n text ps, split_runs set (Some n) text ps -> len text < Z.of_nat n -> split_runs set None text ps.
Proof.
  intros set n text ps H. remember (Some n) as o eqn:Eo. revert n Eo.
  induction H as [o text F|o gap c text F NC C|o gap c word d text parts M F NC Fw Id H IH]; intros n -> L.
  - apply sr_none. exact F.
  - apply sr_last; [ exact F | exact NC | ]. right. destruct C as [C|C]; [ | exact C ]. inversion C. subst n.
    rewrite len_app, len_cons in L. pose proof (len_nonneg _ gap). pose proof (len_nonneg _ text). lia.
  - apply sr_more; auto; [ exact I | ]. cbn [less] in *. eapply IH; [ reflexivity | ].
    rewrite !len_app, !len_cons in L. pose proof (len_nonneg _ gap). pose proof (len_nonneg _ word). rewrite len_cons. lia.
Qed.

Lemma split_ws_ok : forall s max_split, kwf s -> scan_ok s whitespace false -> max_split <> 0 ->
  exists ps, split coll addr s None max_split = SOk ps /\ Forall kwf ps /\
    split_runs ws (if max_split <? 0 then None else Some (Z.to_nat max_split)) (k_codes s) (map k_codes ps).
Proof.
  intros s ms K SO NZ. unfold split. destruct (Z.eqb_spec ms 0); [ contradiction | ]. cbv zeta.
  remember (if ms <? 0 then 65536 else ms) as m eqn:Em.
  destruct (scan_from s whitespace false [] (k_codes s) K whitespace_kwf ltac:(discriminate) SO eq_refl) as [q [Q1 Q2]].
  rewrite len_nil in *. rewrite Q1. fold ws in Q2.
  destruct Q2 as [[-> Q2]|[g [c [b [Q2 [Q3 [Q4 Q5]]]]]]].
  - cbn [Z.eqb Pos.eqb]. exists []. split; [ reflexivity | ]. split; [ constructor | ]. cbn [map]. apply sr_none. apply Forall_not_excl. exact Q2.
  - pose proof (len_nonneg _ g). destruct (Z.eqb_spec q (-1)); [ lia | ].
    destruct (split_ws_loop_ok (Z.to_nat (m - 1)) s g c b K SO Q2 Q5) as [ps [P1 [P2 P3]]].
    replace q with (len g) by lia. exists ps. split; [ exact P1 | ]. split; [ exact P2 | ].
    specialize (P3 g (Forall_not_excl _ _ Q4)). rewrite <- Q2 in P3.
    assert (EN : Z.of_nat (S (Z.to_nat (m - 1))) = m) by (destruct (ms <? 0) eqn:?; lia).
    destruct (Z.ltb_spec ms 0).
    + eapply split_runs_unlimited; [ exact P3 | ]. rewrite EN. pose proof (kwf_len s K). lia.
    + replace (Z.to_nat ms) with (S (Z.to_nat (m - 1))) by lia. exact P3.
Qed.

(* ---- lines ---- *)

Lemma one_char_kwf : forall c, 0 <= c < 128 -> kwf (KStr 0 true 64 0 [c]).
Proof.
  intros c H. split; [ left; reflexivity | ]. split. { repeat constructor; cbn [k_w]; change (emax 0) with 256; lia. }
  split. { intros _. split; [ reflexivity | ]. repeat constructor. lia. }
  repeat split; try discriminate. left; reflexivity.
Qed.

Lemma char_is_ok : forall s i x c, kwf s -> gz (k_codes s) i = Some x -> 0 <= c < 128 -> char_is coll addr s i c = SOk (x =? c).
Proof.
  intros s i x c K G Hc. unfold char_is. pose proof (gz_some_inv _ _ _ _ G) as Hi.
  pose proof (get_char_ok addr s i Ha K) as GC. rewrite klen_len in GC.
  replace (elem_pos (len (k_codes s)) i) with (Some (Z.to_nat i)) in GC.
  2:{ unfold elem_pos. destruct (Z.leb_spec 0 i); [ | lia ]. destruct (Z.ltb_spec i (len (k_codes s))); [ reflexivity | lia ]. }
  destruct GC as [y [r [G1 [G2 [G3 G4]]]]]. rewrite gz_nth in G1 by lia. rewrite G1 in G. inversion G. subst y. rewrite G2.
  pose proof (one_char_kwf c Hc) as K1.
  destruct (compare_slice_main coll r 0 (klen r) (KStr 0 true 64 0 [c]) 0 1) as [v [V1 [V2 _]]];
    try (apply kwf_range; assumption); try (unfold klen, slen, len; cbn [k_codes length]; lia).
  unfold string_compare. change (klen (KStr 0 true 64 0 [c])) with 1. rewrite V1. specialize (V2 strict).
  rewrite klen_len, sub_all, G4 in V2. change (sub (k_codes (KStr 0 true 64 0 [c])) 0 1) with [c] in V2.
  f_equal. destruct (Z.eqb_spec v 0) as [E|E], (Z.eqb_spec x c) as [E2|E2]; try reflexivity.
  - apply V2 in E. inversion E. contradiction.
  - exfalso. apply E, V2. congruence.
Qed.

Let eols := k_codes eol.

Lemma split_lines_loop_ok : forall fuel s keep pre t, kwf s -> k_codes s = pre ++ t -> len t < Z.of_nat fuel ->
  exists ps, split_lines_loop coll addr fuel s keep (len pre) = SOk ps /\ Forall kwf ps /\ lines eols keep t (map k_codes ps).
Proof.
  induction fuel; intros s keep pre t K E Hf; [ pose proof (len_nonneg _ t); lia | ]. cbn [split_lines_loop].
  rewrite klen_len. pose proof (len_nonneg _ t) as Ht. pose proof (len_nonneg _ pre) as Hpre.
  assert (LE : len (k_codes s) = len pre + len t) by (rewrite E, len_app; reflexivity). rewrite LE.
  destruct (Z.eqb_spec (len pre) (len pre + len t)) as [E0|E0].
  { rewrite (len_0_nil t) by lia. exists []. split; [ reflexivity | ]. split; constructor. }
  destruct (scan_from s eol true pre t K eol_kwf ltac:(discriminate) ltac:(left; reflexivity) E) as [e [E1 E2]].
  rewrite E1. fold eols in E2. destruct E2 as [[-> E2]|[a [d [b [E2 [E3 [E4 E5]]]]]]].
  { cbn [Z.eqb Pos.eqb]. destruct (slice_rest s pre t K E) as [r [R1 [R2 R3]]]. rewrite R1. exists [r]. split; [ reflexivity | ].
    split; [ auto | ]. cbn [map]. rewrite R3. apply li_last; [ | apply incl_not; exact E2 ]. intros ->. rewrite len_nil in E0. lia. }
  cbn [in_set] in E5. apply incl_not in E4. pose proof (len_nonneg _ a) as Hna. pose proof (len_nonneg _ b) as Hnb.
  destruct (Z.eqb_spec e (-1)); [ lia | ].
  assert (Lt : len t = len a + 1 + len b) by (rewrite E2, len_app, len_cons; lia).
  assert (Gd : gz (k_codes s) e = Some d).
  { rewrite E, E2, gz_app. destruct (Z.ltb_spec e (len pre)); [ lia | ]. rewrite gz_app. destruct (Z.ltb_spec (e - len pre) (len a)); [ lia | ].
    rewrite gz_cons. destruct (Z.eqb_spec (e - len pre - len a) 0); [ reflexivity | lia ]. }
  rewrite (char_is_ok s e d 13 K Gd) by lia.
  assert (CRLF : exists v, (if (d =? 13) && (e + 1 <? len pre + len t) then char_is coll addr s (e + 1) 10 else SOk false) = SOk v /\
     (v = true <-> d = 13 /\ exists b', b = 10 :: b')).
  { destruct (Z.eqb_spec d 13) as [->|ND]; cbn [andb].
    - destruct b as [|y b'].
      + rewrite len_nil in Lt. destruct (Z.ltb_spec (e + 1) (len pre + len t)); [ lia | ].
        exists false. split; [ reflexivity | ]. split; [ discriminate | intros [_ [b' Q]]; discriminate ].
      + rewrite len_cons in Lt, Hnb. pose proof (len_nonneg _ b'). destruct (Z.ltb_spec (e + 1) (len pre + len t)); [ | lia ].
        assert (Gy : gz (k_codes s) (e + 1) = Some y).
        { rewrite E, E2, gz_app. destruct (Z.ltb_spec (e + 1) (len pre)); [ lia | ]. rewrite gz_app. destruct (Z.ltb_spec (e + 1 - len pre) (len a)); [ lia | ].
          rewrite !gz_cons. destruct (Z.eqb_spec (e + 1 - len pre - len a) 0); [ lia | ].
          destruct (Z.eqb_spec (e + 1 - len pre - len a - 1) 0); [ reflexivity | lia ]. }
        rewrite (char_is_ok s (e + 1) y 10 K Gy) by lia. eexists. split; [ reflexivity | ]. rewrite Z.eqb_eq. split.
        * intros ->. eauto.
        * intros [_ [b'' Q]]. congruence.
    - exists false. split; [ reflexivity | ]. split; [ discriminate | tauto ]. }
  destruct CRLF as [v [-> V]]. destruct v.
  - destruct V as [V _]. destruct (V eq_refl) as [-> [b' ->]]. rewrite len_cons in Lt. pose proof (len_nonneg _ b').
    destruct (slice_part s pre (if keep then a ++ [13; 10] else a) (if keep then b' else [13; 10] ++ b') (if keep then e + 2 else e) K) as [r [R1 [R2 R3]]].
    { rewrite E, E2. destruct keep; rewrite <- ?app_assoc; reflexivity. }
    { destruct keep; [ rewrite len_app; change (len [13; 10]) with 2; lia | lia ]. }
    rewrite R1. destruct (IHfuel s keep (pre ++ a ++ [13; 10]) b' K) as [ps [P1 [P2 P3]]].
    { rewrite E, E2, <- !app_assoc. reflexivity. } { lia. }
    rewrite !len_app in P1. change (len [13; 10]) with 2 in P1. replace (e + 2) with (len pre + (len a + 2)) by lia. rewrite P1.
    exists (r :: ps). split; [ reflexivity | ]. split; [ constructor; assumption | ]. cbn [map]. rewrite R3, E2.
    apply (li_more eols keep a [13; 10] b'); [ exact E4 | left; reflexivity | exact P3 ].
  - destruct (slice_part s pre (if keep then a ++ [d] else a) (if keep then b else [d] ++ b) (if keep then e + 1 else e) K) as [r [R1 [R2 R3]]].
    { rewrite E, E2. destruct keep; rewrite <- ?app_assoc; reflexivity. }
    { destruct keep; [ rewrite len_app; change (len [d]) with 1; lia | lia ]. }
    rewrite R1. destruct (IHfuel s keep (pre ++ a ++ [d]) b K) as [ps [P1 [P2 P3]]].
    { rewrite E, E2, <- !app_assoc. reflexivity. } { lia. }
    rewrite !len_app in P1. change (len [d]) with 1 in P1. replace (e + 1) with (len pre + (len a + 1)) by lia. rewrite P1.
    exists (r :: ps). split; [ reflexivity | ]. split; [ constructor; assumption | ]. cbn [map]. rewrite R3, E2.
    apply (li_more eols keep a [d] b); [ exact E4 | | exact P3 ].
    right. exists d. split; [ reflexivity | ]. split; [ exact E5 | ]. intros -> t0 Q.
    assert (false = true) by (apply V; split; [ reflexivity | eauto ]). discriminate.
Qed.

Lemma split_lines_ok : forall s keep, kwf s ->
  exists ps, split_lines coll addr s keep = SOk ps /\ Forall kwf ps /\ lines eols keep (k_codes s) (map k_codes ps).
Proof.
  intros s keep K. unfold split_lines. destruct (split_lines_loop_ok (S (length (k_codes s))) s keep [] (k_codes s) K eq_refl) as [ps P].
  - unfold len. lia.
  - exists ps. exact P.
Qed.

Lemma lines_concat : forall set text ls, lines set true text ls -> concat ls = text.
Proof.
  intros set text ls H. induction H as [|text NE F|line e rest ls F L H IH]; cbn [concat]; [ reflexivity | apply app_nil_r | ].
  rewrite IH, <- app_assoc. reflexivity.
Qed.
Lemma lines_clean : forall set text ls, lines set false text ls -> Forall (fun line => Forall (fun c => ~ In c set) line) ls.
Proof. intros set text ls H. induction H; constructor; auto. Qed.

(* ---- join ---- *)

Fixpoint inter (sep : kstr) (l : list kstr) : list kstr :=
  match l with [] => [] | [s] => [s] | s :: t => s :: sep :: inter sep t end.

Lemma set_at_app : forall (x y : list kstr) z v, set_at (x ++ z :: y) (length x) v = x ++ v :: y.
Proof. induction x; intros; cbn [app length set_at]; [ reflexivity | ]. f_equal. apply IHx. Qed.

Lemma join_fill_ok : forall l done sep, l <> [] ->
  join_fill l (length done) (done ++ repeat sep (2 * length l - 1)) = done ++ inter sep l.
Proof.
  induction l as [|s l IH]; intros done sep NE; [ contradiction | ]. cbn [join_fill inter]. destruct l as [|s2 t].
  - cbn [length Nat.mul Nat.add Nat.sub repeat]. rewrite set_at_app. reflexivity.
  - replace (2 * length (s :: s2 :: t) - 1)%nat with (S (S (2 * length (s2 :: t) - 1))) by (cbn [length]; lia).
    cbn [repeat]. rewrite set_at_app.
    replace (done ++ s :: sep :: repeat sep (2 * length (s2 :: t) - 1)) with ((done ++ [s; sep]) ++ repeat sep (2 * length (s2 :: t) - 1))
      by (rewrite <- app_assoc; reflexivity).
    replace (length done + 2)%nat with (length (done ++ [s; sep])) by (rewrite app_length; reflexivity).
    rewrite IH by discriminate. rewrite <- app_assoc. reflexivity.
Qed.

Lemma inter_texts : forall sep l, texts (inter sep l) = intercalate (k_codes sep) (map k_codes l).
Proof.
  induction l as [|s l IH]; [ reflexivity | ]. destruct l as [|s2 t]; [ cbn [inter texts map intercalate]; apply app_nil_r | ].
  cbn [inter texts map intercalate] in *. rewrite IH. reflexivity.
Qed.
Lemma inter_kwf : forall sep l, kwf sep -> Forall kwf l -> Forall kwf (inter sep l).
Proof.
  intros sep l K F. induction F as [|s l Ks Kl IH]; [ constructor | ]. destruct l as [|s2 t]; [ constructor; [ exact Ks | constructor ] | ].
  cbn [inter] in *. constructor; [ exact Ks | ]. constructor; [ exact K | exact IH ].
Qed.

Lemma join_ok : forall sep l, kwf sep -> Forall kwf l ->
  let text := intercalate (k_codes sep) (map k_codes l) in
  len text < 2 ^ 32 ->
  (len text <= 65535 -> exists r, join addr sep l = SOk r /\ kwf r /\ k_codes r = text) /\
  (65535 < len text -> join addr sep l = SExn).
Proof.
  intros sep l K F text L. unfold join.
  assert (E : join_fill l 0 (repeat sep (Z.to_nat (if 0 <? slen l * 2 - 1 then slen l * 2 - 1 else 0))) = inter sep l).
  { destruct l as [|s t]; [ reflexivity | ].
    pose proof (join_fill_ok (s :: t) [] sep ltac:(discriminate)) as J. cbn [app] in J. change (@length kstr []) with 0%nat in J.
    rewrite <- J. f_equal. f_equal. unfold slen. cbn [length]. destruct (Z.ltb_spec 0 (Z.of_nat (S (length t)) * 2 - 1)); lia. }
  cbv zeta. rewrite E. unfold text in *. rewrite <- (inter_texts sep l) in *.
  destruct (string_add_ok addr (inter sep l) Ha (inter_kwf sep l K F) L) as [[H1 H2]|[H1 H2]]; split; intros; try lia; assumption.
Qed.

End Coll.
End Ops.
