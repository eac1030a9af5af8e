(* Property tables: lemmas on the slots of one table. *)
From Coq Require Import ZArith List Lia Bool ZifyBool.
Import ListNotations.
From Verif Require Import Base ListZ ArraySpec ArrayProofs ObjModel ObjSpec ObjCalls.
Local Open Scope Z_scope.
Ltac Zify.zify_post_hook ::= idtac.

Lemma item_at_gz : forall t i, item_at t i = gz (t_items t) i.
Proof. intros. unfold item_at, gz. destruct (i <? 0); reflexivity. Qed.

Lemma gz_nil : forall A i, @gz A [] i = None.
Proof. intros. unfold gz. destruct (i <? 0); [ reflexivity | ]. destruct (Z.to_nat i); reflexivity. Qed.
Lemma upd_length : forall A (l : list A) n x, length (upd l n x) = length l.
Proof. induction l; intros [|n] x; cbn [upd length]; auto. Qed.
Lemma upd_len : forall A (l : list A) n x, len (upd l n x) = len l.
Proof. intros. unfold len. rewrite upd_length. reflexivity. Qed.
Lemma nth_error_upd : forall A (l : list A) n m x, nth_error (upd l n x) m =
  if Nat.eqb m n then (if Nat.ltb n (length l) then Some x else None) else nth_error l m.
Proof.
  induction l as [|a l IH]; intros [|n] [|m] x; cbn [upd nth_error length Nat.eqb]; try reflexivity.
  - destruct (Nat.eqb m n) eqn:E; [ | destruct m; reflexivity ]. destruct m; reflexivity.
  - rewrite IH. reflexivity.
Qed.
Lemma gz_upd : forall A (l : list A) i j x, 0 <= i < len l ->
  gz (upd l (Z.to_nat i) x) j = if j =? i then Some x else gz l j.
Proof.
  intros A l i j x H. unfold gz. rewrite nth_error_upd. unfold len in H.
  destruct (Z.ltb_spec j 0); [ destruct (Z.eqb_spec j i); [ lia | reflexivity ] | ].
  destruct (Nat.eqb_spec (Z.to_nat j) (Z.to_nat i)), (Z.eqb_spec j i); try lia; try reflexivity.
  destruct (Nat.ltb_spec (Z.to_nat i) (length l)); [ reflexivity | lia ].
Qed.

Lemma keyb_eq : forall a b, keyb a b = true <-> a = b.
Proof. intros. unfold keyb. destruct (list_eq_dec Z.eq_dec a b); split; congruence. Qed.
Lemma keyb_neq : forall a b, keyb a b = false <-> a <> b.
Proof. intros. unfold keyb. destruct (list_eq_dec Z.eq_dec a b); split; congruence. Qed.
Lemma keyb_refl : forall a, keyb a a = true.
Proof. intros. apply keyb_eq. reflexivity. Qed.

Definition pow2 (cap : Z) : Prop := exists n, 2 <= n <= 31 /\ cap = 2 ^ n.

Lemma pow2_range : forall cap, pow2 cap -> 4 <= cap <= 2147483648.
Proof.
  intros cap [n [H ->]]. change 4 with (2 ^ 2). change 2147483648 with (2 ^ 31).
  split; apply Z.pow_le_mono_r; lia.
Qed.
Lemma pow2_land : forall cap x, pow2 cap -> Z.land x (cap - 1) = x mod cap.
Proof. intros cap x [n [H ->]]. replace (2 ^ n - 1) with (Z.ones n) by (rewrite Z.ones_equiv; lia). apply Z.land_ones. lia. Qed.
Lemma pow2_next : forall cap x, pow2 cap -> Z.land (u32 (x mod cap + 1)) (cap - 1) = (x + 1) mod cap.
Proof.
  intros cap x P. pose proof (pow2_range cap P). rewrite pow2_land by exact P.
  pose proof (Z.mod_pos_bound x cap ltac:(lia)). rewrite u32_small by lia.
  rewrite Zplus_mod_idemp_l. reflexivity.
Qed.
Lemma pow2_double : forall cap, pow2 cap -> 2 * cap <= 2147483648 -> pow2 (2 * cap).
Proof.
  intros cap [n [H ->]] L. exists (n + 1). rewrite Z.pow_add_r by lia. split; [ | lia ].
  split; [ lia | ]. destruct (Z_le_gt_dec (n + 1) 31); [ assumption | ]. exfalso.
  assert (n = 31) by lia. subst n. change (2 ^ 31) with 2147483648 in L. lia.
Qed.

Section Hash.
Variable hash : key -> Z.
Hypothesis hash_range : forall k, 0 <= hash k < 2 ^ 32.

Definition kat (l : list pitem) (j : Z) : option key := match gz l j with Some it => i_key it | None => None end.

Definition live_val (v : pval) : Prop := match v with Val _ | Dyn _ => True | _ => False end.
Definition slot_ok (it : pitem) : Prop :=
  match i_key it with
  | None => i_val it = Tomb
  | Some k => i_hash it = hash k /\ (i_val it = Tomb \/ live_val (i_val it))
  end.

Definition icore (cap : Z) (l : list pitem) : Prop :=
  pow2 cap /\ len l = cap /\
  (forall j it, gz l j = Some it -> slot_ok it) /\
  (forall j1 j2 k, kat l j1 = Some k -> kat l j2 = Some k -> j1 = j2) /\
  (forall j k, kat l j = Some k -> exists d, 0 <= d < cap /\ j = (hash k + d) mod cap /\
     forall e, 0 <= e < d -> kat l ((hash k + e) mod cap) <> None).

Lemma assoc_none : forall l k, assoc l k = None <-> (forall j, kat l j <> Some k).
Proof.
  induction l as [|it l IH]; intros k; cbn [assoc].
  - split; [ | reflexivity ]. intros _ j. unfold kat. rewrite gz_nil. discriminate.
  - assert (C : forall j, kat (it :: l) j = if j =? 0 then i_key it else kat l (j - 1)).
    { intros j. unfold kat. rewrite gz_cons. destruct (j =? 0); reflexivity. }
    assert (R : (forall j, kat (it :: l) j <> Some k) <-> i_key it <> Some k /\ forall j, kat l j <> Some k).
    { split.
      - intros H. split; [ specialize (H 0); rewrite C in H; exact H | ]. intros j K.
        pose proof K as K'. unfold kat in K'. destruct (gz l j) eqn:G; [ | discriminate ]. pose proof (gz_some_inv _ _ _ _ G).
        apply (H (j + 1)). rewrite C. destruct (Z.eqb_spec (j + 1) 0); [ lia | ]. replace (j + 1 - 1) with j by lia. exact K.
      - intros [H1 H2] j. rewrite C. destruct (j =? 0); [ exact H1 | apply H2 ]. }
    rewrite R. destruct (i_key it) as [k'|] eqn:E.
    + destruct (keyb k k') eqn:B.
      * apply keyb_eq in B. subst k'. split; [ discriminate | tauto ].
      * apply keyb_neq in B. rewrite IH. split; [ split; [ congruence | assumption ] | tauto ].
    + rewrite IH. split; [ split; [ discriminate | assumption ] | tauto ].
Qed.

Lemma assoc_kat : forall l k v, assoc l k = Some v -> exists j it, gz l j = Some it /\ i_key it = Some k /\ i_val it = v.
Proof.
  induction l as [|it l IH]; intros k v A; cbn [assoc] in A; [ discriminate | ].
  assert (S : assoc l k = Some v -> exists j it0, gz (it :: l) j = Some it0 /\ i_key it0 = Some k /\ i_val it0 = v).
  { intros A'. destruct (IH k v A') as [j [it0 [G [E1 E2]]]]. exists (j + 1), it0. pose proof (gz_some_inv _ _ _ _ G).
    rewrite gz_cons. destruct (Z.eqb_spec (j + 1) 0); [ lia | ]. replace (j + 1 - 1) with j by lia. auto. }
  destruct (i_key it) as [k'|] eqn:E; [ | auto ].
  destruct (keyb k k') eqn:B; [ | auto ]. apply keyb_eq in B. subst k'. inversion A.
  exists 0, it. rewrite gz_cons. auto.
Qed.

Lemma icore_assoc : forall cap l j it k, icore cap l -> gz l j = Some it -> i_key it = Some k -> assoc l k = Some (i_val it).
Proof.
  intros cap l j it k [_ [_ [_ [D _]]]] G E. destruct (assoc l k) as [v|] eqn:A.
  - destruct (assoc_kat l k v A) as [j' [it' [G' [E1 E2]]]]. assert (j' = j). { apply (D j' j k); unfold kat; rewrite ?G, ?G'; assumption. }
    subst j'. congruence.
  - exfalso. apply (proj1 (assoc_none l k) A j). unfold kat. rewrite G. exact E.
Qed.

Lemma assoc_ext : forall cap l l' k, icore cap l -> icore cap l' ->
  (forall j it, gz l j = Some it -> i_key it = Some k -> exists j', gz l' j' = Some it) ->
  (forall j it, gz l' j = Some it -> i_key it = Some k -> exists j', gz l j' = Some it) -> assoc l k = assoc l' k.
Proof.
  intros cap l l' k C C' H H'. destruct (assoc l k) as [v|] eqn:A.
  - destruct (assoc_kat l k v A) as [j [it [G [E1 E2]]]]. destruct (H j it G E1) as [j' G'].
    rewrite (icore_assoc cap l' j' it k C' G' E1). congruence.
  - destruct (assoc l' k) as [v|] eqn:A'; [ | reflexivity ].
    destruct (assoc_kat l' k v A') as [j [it [G [E1 E2]]]]. destruct (H' j it G E1) as [j' G'].
    rewrite (icore_assoc cap l j' it k C G' E1) in A. discriminate.
Qed.

(* slots probed for key k *)
Definition probe (cap : Z) (k : key) (d : Z) : Z := (hash k + d) mod cap.
Lemma probe_range : forall cap k d, pow2 cap -> 0 <= probe cap k d < cap.
Proof. intros cap k d P. pose proof (pow2_range cap P). apply Z.mod_pos_bound. lia. Qed.
Lemma probe_first : forall cap k, pow2 cap -> Z.land (hash k) (cap - 1) = probe cap k 0.
Proof. intros. rewrite pow2_land by assumption. unfold probe. f_equal. lia. Qed.
Lemma probe_next : forall cap k d, pow2 cap -> Z.land (u32 (probe cap k d + 1)) (cap - 1) = probe cap k (d + 1).
Proof. intros. unfold probe. rewrite pow2_next by assumption. f_equal. lia. Qed.

(* the first d slots hold other keys *)
Definition passed (cap : Z) (l : list pitem) (k : key) (d : Z) : Prop :=
  forall e, 0 <= e < d -> exists k', kat l (probe cap k e) = Some k' /\ k' <> k.

Lemma passed_0 : forall cap l k, passed cap l k 0.
Proof. intros cap l k e H. lia. Qed.
Lemma passed_next : forall cap l k d k', passed cap l k d -> 0 <= d -> kat l (probe cap k d) = Some k' -> k' <> k -> passed cap l k (d + 1).
Proof.
  intros cap l k d k' P Hd K N e He. destruct (Z.eq_dec e d) as [->|]; [ eauto | apply P; lia ].
Qed.

Lemma probe_all : forall cap k j, pow2 cap -> 0 <= j < cap -> exists d, 0 <= d < cap /\ j = probe cap k d.
Proof.
  intros cap k j P Hj. pose proof (pow2_range cap P). exists ((j - hash k) mod cap).
  split; [ apply Z.mod_pos_bound; lia | ]. unfold probe. rewrite Zplus_mod_idemp_r.
  replace (hash k + (j - hash k)) with j by lia. symmetry. apply Z.mod_small. exact Hj.
Qed.

Lemma absent_empty : forall cap l k d, icore cap l -> passed cap l k d -> 0 <= d -> kat l (probe cap k d) = None -> assoc l k = None.
Proof.
  intros cap l k d C P Hd K. apply assoc_none. intros j Kj. destruct C as [_ [_ [_ [_ R]]]].
  destruct (R j k Kj) as [d' [H1 [H2 H3]]]. fold (probe cap k d') in H2. destruct (Z_lt_le_dec d' d) as [L|L].
  - destruct (P d' ltac:(lia)) as [k' [K1 K2]]. rewrite H2 in Kj. congruence.
  - destruct (Z.eq_dec d' d) as [->|]; [ congruence | ]. apply (H3 d); [ lia | exact K ].
Qed.
Lemma absent_full : forall cap l k, icore cap l -> passed cap l k cap -> assoc l k = None.
Proof.
  intros cap l k C P. apply assoc_none. intros j Kj. destruct C as [_ [_ [_ [_ R]]]].
  destruct (R j k Kj) as [d' [H1 [H2 H3]]]. destruct (P d' ltac:(lia)) as [k' [K1 K2]]. unfold probe in K1. congruence.
Qed.

Lemma key_equal : forall it k k', slot_ok it -> i_key it = Some k' -> is_key_equal k (hash k) k' (i_hash it) = keyb k k'.
Proof.
  intros it k k' S E. unfold slot_ok in S. rewrite E in S. destruct S as [-> _]. unfold is_key_equal.
  destruct (keyb k k') eqn:B.
  - apply keyb_eq in B. subst. rewrite Z.eqb_refl, andb_false_r. reflexivity.
  - destruct (_ && _); reflexivity.
Qed.

(* reading *)
Lemma find_loop_ok : forall fuel t k d, icore (t_cap t) (t_items t) -> passed (t_cap t) (t_items t) k d ->
  0 <= d <= t_cap t -> t_cap t - d < Z.of_nat fuel -> forall idx, Z.land idx (t_cap t - 1) = probe (t_cap t) k d ->
  find_property_loop fuel t k (hash k) idx (t_cap t - 1) (t_cap t - d) =
    match assoc (t_items t) k with Some Tomb | None => GTryPrototype | Some v => GFound v end.
Proof.
  induction fuel; intros t k d C P Hd Hf idx Ei; [ lia | ]. cbn [find_property_loop]. cbv zeta.
  pose proof C as [Pw [L [S [D R]]]]. pose proof (probe_range (t_cap t) k d Pw) as Hp.
  rewrite Ei, item_at_gz. destruct (gz_some _ (t_items t) (probe (t_cap t) k d)) as [it G]; [ lia | ]. rewrite G.
  assert (K : kat (t_items t) (probe (t_cap t) k d) = i_key it) by (unfold kat; rewrite G; reflexivity).
  destruct (i_key it) as [k'|] eqn:E.
  - pose proof (S _ _ G) as Sit. pose proof (key_equal it k k' Sit E) as KE. unfold slot_ok in Sit. rewrite E in Sit. destruct Sit as [_ LV].
    assert (NC : forall A (x y : A), match i_val it with Closed => x | _ => y end = y).
    { intros. destruct LV as [->|LV]; [ reflexivity | destruct (i_val it); try contradiction; reflexivity ]. }
    assert (M : match i_val it with Closed => GTryNewTable
       | _ => if is_key_equal k (hash k) k' (i_hash it) then match i_val it with Tomb => GTryPrototype | Rsvd => GBad | v => GFound v end
              else if t_cap t - d =? 0 then GTryPrototype
              else find_property_loop fuel t k (hash k) (u32 (probe (t_cap t) k d + 1)) (t_cap t - 1) (t_cap t - d - 1) end =
       match assoc (t_items t) k with Some Tomb | None => GTryPrototype | Some v => GFound v end).
    { rewrite NC, KE. destruct (keyb k k') eqn:B.
      - apply keyb_eq in B. subst k'. rewrite (icore_assoc _ _ _ _ _ C G E).
        destruct LV as [->|LV]; [ reflexivity | destruct (i_val it); try contradiction; reflexivity ].
      - apply keyb_neq in B. destruct (Z.eqb_spec (t_cap t - d) 0).
        + replace (t_cap t) with d in P by lia. rewrite (absent_full _ _ k C); [ reflexivity | ].
          replace (t_cap t) with d by lia. exact P.
        + replace (t_cap t - d - 1) with (t_cap t - (d + 1)) by lia. apply IHfuel; [ exact C | | lia | lia | apply probe_next; exact Pw ].
          eapply passed_next; [ exact P | lia | exact K | congruence ]. }
    rewrite <- M. destruct (i_val it); reflexivity.
  - rewrite (absent_empty _ _ _ _ C P ltac:(lia) K). reflexivity.
Qed.

Lemma find_property_ok : forall t k, icore (t_cap t) (t_items t) ->
  find_property t k (hash k) = match assoc (t_items t) k with Some Tomb | None => GTryPrototype | Some v => GFound v end.
Proof.
  intros t k C. unfold find_property. pose proof C as [Pw _]. pose proof (pow2_range _ Pw).
  pose proof (find_loop_ok (S (S (Z.to_nat (t_cap t)))) t k 0 C (passed_0 _ _ _) ltac:(lia) ltac:(lia) (hash k) (probe_first _ _ Pw)) as F.
  rewrite Z.sub_0_r in F. exact F.
Qed.

(* writing a slot: either free or of the same key *)
Lemma icore_put : forall cap l k d v, icore cap l -> passed cap l k d -> 0 <= d < cap ->
  (kat l (probe cap k d) = None \/ kat l (probe cap k d) = Some k) -> (v = Tomb \/ live_val v) ->
  let l' := upd l (Z.to_nat (probe cap k d)) (PItem (Some k) (hash k) v) in
  icore cap l' /\ (forall k', assoc l' k' = if keyb k' k then Some v else assoc l k') /\
  (forall j k', kat l j = Some k' -> kat l' j = Some k').
Proof.
  intros cap l k d v C P Hd K Hv l'. pose proof C as [Pw [L [S [D R]]]]. pose proof (probe_range cap k d Pw) as Hp.
  set (p := probe cap k d) in *.
  assert (G : forall j, gz l' j = if j =? p then Some (PItem (Some k) (hash k) v) else gz l j) by (intros j; apply gz_upd; lia).
  assert (Kt : forall j, kat l' j = if j =? p then Some k else kat l j).
  { intros j. unfold kat. rewrite G. destruct (j =? p); reflexivity. }
  assert (Uniq : forall j, kat l j = Some k -> j = p).
  { intros j Kj. destruct K as [K|K]; [ | apply (D j p k Kj K) ].
    exfalso. apply (proj1 (assoc_none l k)) with (j := j); [ | exact Kj ]. eapply absent_empty; [ exact C | exact P | lia | exact K ]. }
  assert (Keep : forall j k', kat l j = Some k' -> kat l' j = Some k').
  { intros j k' Kj. rewrite Kt. destruct (Z.eqb_spec j p) as [->|]; [ | exact Kj ]. destruct K as [K|K]; congruence. }
  assert (C' : icore cap l').
  { split; [ exact Pw | ]. split; [ unfold l'; rewrite upd_len; exact L | ]. split; [ | split ].
    - intros j it Gj. rewrite G in Gj. destruct (j =? p); [ inversion Gj; unfold slot_ok; cbn; auto | eapply S; exact Gj ].
    - intros j1 j2 k0 K1 K2. rewrite Kt in K1, K2. destruct (Z.eqb_spec j1 p), (Z.eqb_spec j2 p); try lia.
      + inversion K1. subst k0. symmetry in K2. symmetry. rewrite (Uniq j2) by congruence. congruence.
      + inversion K2. subst k0. rewrite (Uniq j1) by congruence. congruence.
      + eapply D; eassumption.
    - intros j k0 Kj. assert (NN : forall x, kat l x <> None -> kat l' x <> None).
      { intros x N. destruct (kat l x) as [kx|] eqn:E; [ rewrite (Keep _ _ E); discriminate | contradiction ]. }
      rewrite Kt in Kj. destruct (Z.eqb_spec j p) as [->|].
      + inversion Kj. subst k0. exists d. split; [ exact Hd | ]. split; [ reflexivity | ]. intros e He.
        destruct (P e He) as [k' [K' _]]. fold (probe cap k e). apply NN. congruence.
      + destruct (R j k0 Kj) as [d0 [R1 [R2 R3]]]. exists d0. split; [ exact R1 | ]. split; [ exact R2 | ].
        intros e He. apply NN, R3. exact He. }
  split; [ exact C' | ]. split; [ | exact Keep ]. intros k'. destruct (keyb k' k) eqn:B.
  - apply keyb_eq in B. subst k'. apply (icore_assoc cap l' p (PItem (Some k) (hash k) v) k C'); [ rewrite G, Z.eqb_refl; reflexivity | reflexivity ].
  - apply keyb_neq in B. symmetry. apply (assoc_ext cap); [ exact C | exact C' | | ].
    + intros j it Gj E. exists j. rewrite G. destruct (Z.eqb_spec j p) as [->|]; [ | exact Gj ].
      exfalso. unfold kat in K. rewrite Gj in K. destruct K; congruence.
    + intros j it Gj E. exists j. rewrite G in Gj. destruct (Z.eqb_spec j p) as [->|]; [ inversion Gj; subst it; cbn in E; congruence | exact Gj ].
Qed.

(* number of slots with a key *)
Fixpoint keys_used (l : list pitem) : Z :=
  match l with [] => 0 | it :: t => (match i_key it with Some _ => 1 | None => 0 end) + keys_used t end.
Lemma keys_used_range : forall l, 0 <= keys_used l <= len l.
Proof. induction l as [|it l IH]; cbn [keys_used]; [ rewrite len_nil; lia | ]. rewrite len_cons. destruct (i_key it); lia. Qed.
Lemma keys_used_upd : forall l i it x, gz l i = Some it ->
  keys_used (upd l (Z.to_nat i) x) = keys_used l - (match i_key it with Some _ => 1 | None => 0 end) + (match i_key x with Some _ => 1 | None => 0 end).
Proof.
  induction l as [|a l IH]; intros i it x G; [ rewrite gz_nil in G; discriminate | ].
  rewrite gz_cons in G. destruct (Z.eqb_spec i 0) as [->|].
  - inversion G. cbn [Z.to_nat upd keys_used]. lia.
  - pose proof (gz_some_inv _ _ _ _ G). replace (Z.to_nat i) with (S (Z.to_nat (i - 1))) by lia. cbn [upd keys_used].
    rewrite (IH (i - 1) it x G). lia.
Qed.
Lemma keys_used_empty : forall l, keys_used l < len l -> exists j, 0 <= j < len l /\ kat l j = None.
Proof.
  induction l as [|it l IH]; intros H; [ rewrite len_nil in H; cbn in H; lia | ]. cbn [keys_used] in H. rewrite len_cons in *.
  destruct (i_key it) as [k|] eqn:E.
  - destruct IH as [j [J1 J2]]; [ lia | ]. exists (j + 1). split; [ lia | ]. unfold kat in *. rewrite gz_cons.
    destruct (Z.eqb_spec (j + 1) 0); [ lia | ]. replace (j + 1 - 1) with j by lia. exact J2.
  - exists 0. pose proof (len_nonneg _ l). split; [ lia | ]. unfold kat. rewrite gz_cons. exact E.
Qed.

(* claiming a slot for a key in a table which is not full *)
Lemma claim_ok : forall fuel t k d, icore (t_cap t) (t_items t) -> passed (t_cap t) (t_items t) k d ->
  t_used t = keys_used (t_items t) -> keys_used (t_items t) < t_cap t ->
  0 <= d <= t_cap t -> t_cap t - d < Z.of_nat fuel -> assoc (t_items t) k = None ->
  exists e, d <= e < t_cap t /\ passed (t_cap t) (t_items t) k e /\ kat (t_items t) (probe (t_cap t) k e) = None /\
    exists it, gz (t_items t) (probe (t_cap t) k e) = Some it /\ i_val it = Tomb /\
    claim_slot fuel t k (hash k) (probe (t_cap t) k d) (t_cap t - 1) =
      Some (with_used (set_item t (probe (t_cap t) k e) (PItem (Some k) (hash k) Tomb)) (t_used t + 1), probe (t_cap t) k e).
Proof.
  induction fuel; intros t k d C P U Lt Hd Hf A; [ lia | ]. cbn [claim_slot].
  pose proof C as [Pw [L [S [D R]]]]. pose proof (probe_range (t_cap t) k d Pw) as Hp. pose proof (pow2_range _ Pw).
  rewrite item_at_gz. destruct (gz_some _ (t_items t) (probe (t_cap t) k d)) as [it G]; [ lia | ]. rewrite G.
  assert (K : kat (t_items t) (probe (t_cap t) k d) = i_key it) by (unfold kat; rewrite G; reflexivity).
  assert (Hdc : d < t_cap t).
  { destruct (Z.eq_dec d (t_cap t)) as [Q|Q]; [ | lia ]. exfalso. destruct (keys_used_empty (t_items t)) as [j [J1 J2]]; [ lia | ].
    destruct (probe_all (t_cap t) k j Pw) as [e [E1 E2]]; [ lia | ]. destruct (P e) as [k' [K1 _]]; [ lia | ]. congruence. }
  destruct (i_key it) as [k'|] eqn:E.
  - rewrite (key_equal it k k' (S _ _ G) E). destruct (keyb k k') eqn:B.
    { apply keyb_eq in B. subst k'. rewrite (icore_assoc _ _ _ _ _ C G E) in A. discriminate. }
    apply keyb_neq in B. rewrite probe_next by exact Pw.
    destruct (IHfuel t k (d + 1) C) as [e [E1 [E2 [E3 E4]]]]; try assumption; try lia.
    + eapply passed_next; [ exact P | lia | exact K | congruence ].
    + exists e. split; [ lia | ]. auto.
  - exists d. split; [ lia | ]. split; [ exact P | ]. split; [ exact K | ]. exists it. split; [ exact G | ].
    pose proof (S _ _ G) as Sit. unfold slot_ok in Sit. rewrite E in Sit. split; [ exact Sit | ]. rewrite Sit.
    pose proof (keys_used_range (t_items t)). rewrite u32_small by lia. reflexivity.
Qed.

Lemma new_table_core : forall cap, pow2 cap -> icore cap (t_items (new_table cap)).
Proof.
  intros cap P. pose proof (pow2_range cap P). unfold new_table. cbn [t_items].
  assert (Kn : forall j, kat (repeat new_item (Z.to_nat cap)) j = None).
  { intros j. unfold kat. destruct (gz _ j) eqn:G; [ | reflexivity ].
    assert (I : In p (repeat new_item (Z.to_nat cap))) by (eapply gz_in; exact G). apply repeat_spec in I. subst p. reflexivity. }
  split; [ exact P | ]. split; [ unfold len; rewrite repeat_length; lia | ]. split; [ | split ].
  - intros j it G. assert (I : In it (repeat new_item (Z.to_nat cap))) by (eapply gz_in; exact G).
    apply repeat_spec in I. subst it. reflexivity.
  - intros j1 j2 k K. rewrite Kn in K. discriminate.
  - intros j k K. rewrite Kn in K. discriminate.
Qed.
Lemma new_table_used : forall cap, keys_used (t_items (new_table cap)) = 0.
Proof. intros. unfold new_table. cbn [t_items]. induction (Z.to_nat cap); cbn [repeat keys_used new_item i_key]; lia. Qed.
Lemma new_table_assoc : forall cap k, assoc (t_items (new_table cap)) k = None.
Proof. intros. unfold new_table. cbn [t_items]. induction (Z.to_nat cap); cbn [repeat assoc new_item i_key]; auto. Qed.

(* ---- copying ---- *)

(* the live properties of the first n slots *)
Definition live_in (l : list pitem) (n : Z) (k : key) (v : pval) : Prop :=
  exists j it, 0 <= j < n /\ gz l j = Some it /\ i_key it = Some k /\ i_val it = v /\ live_val v.

Definition closed_item (it : pitem) : pitem := PItem (i_key it) (i_hash it) Closed.

(* state while table ot0 is copied: n slots are done *)
Record copying (ot0 ot nt : table) (n : Z) : Prop := Copying {
  cp_slots : forall j, gz (t_items ot) j = if (0 <=? j) && (j <? n) then option_map closed_item (gz (t_items ot0) j) else gz (t_items ot0) j;
  cp_len : len (t_items ot) = t_cap ot0;
  cp_cap : t_cap ot = t_cap ot0;
  cp_used : t_used ot = t_used ot0;
  cp_open : t_open ot = t_cap ot0 - n;
  cp_new : icore (t_cap nt) (t_items nt);
  cp_nused : t_used nt = keys_used (t_items nt);
  cp_few : keys_used (t_items nt) <= n;
  cp_nlive : forall k v, assoc (t_items nt) k = Some v -> live_val v;
  cp_map : forall k v, assoc (t_items nt) k = Some v <-> live_in (t_items ot0) n k v }.

Lemma live_in_step : forall l n it k v, gz l n = Some it -> 0 <= n ->
  (live_in l (n + 1) k v <-> live_in l n k v \/ (i_key it = Some k /\ i_val it = v /\ live_val v)).
Proof.
  intros l n it k v G Hn. split.
  - intros [j [it' [H1 [H2 [H3 [H4 H5]]]]]]. destruct (Z.eq_dec j n) as [->|].
    + right. rewrite G in H2. inversion H2. subst. auto.
    + left. exists j, it'. split; [ lia | auto ].
  - intros [[j [it' [H1 H2]]]|[H1 [H2 H3]]]; [ exists j, it'; split; [ lia | exact H2 ] | exists n, it; split; [ lia | auto ] ].
Qed.

(* fields which salvage_item leaves unchanged *)
Definition same_ctl (a b : table) : Prop :=
  t_cap a = t_cap b /\ t_open a = t_open b /\ t_copies a = t_copies b /\ t_new a = t_new b.

Definition salvage_value (ot nt : table) (i : Z) (it : pitem) : option (bool * table * table) :=
  match i_key it with
  | None => None
  | Some k =>
    match claim_slot (S (Z.to_nat (t_cap nt))) nt k (i_hash it) (Z.land (i_hash it) (t_cap nt - 1)) (t_cap nt - 1) with
    | None => None
    | Some (nt, idx) =>
      match item_at nt idx with
      | None => None
      | Some nit =>
        match i_val nit with
        | Tomb => Some (true, set_item ot i (PItem (i_key it) (i_hash it) Closed), set_item nt idx (PItem (i_key nit) (i_hash nit) (i_val it)))
        | _ => Some (false, ot, nt)
        end
      end
    end
  end.

Lemma upd_upd : forall A (l : list A) n x y, upd (upd l n x) n y = upd l n y.
Proof. induction l; intros [|n] x y; cbn [upd]; auto. f_equal. apply IHl. Qed.

Lemma salvage_live : forall ot0 ot nt n it r, icore (t_cap ot0) (t_items ot0) -> copying ot0 ot nt n -> 0 <= n < t_cap ot0 ->
  t_cap ot0 <= t_cap nt -> gz (t_items ot0) n = Some it -> live_val (i_val it) ->
  (forall j, gz (t_items (set_item ot n (closed_item it))) j =
     if (0 <=? j) && (j <? n + 1) then option_map closed_item (gz (t_items ot0) j) else gz (t_items ot0) j) ->
  r = salvage_value ot nt n it ->
  exists ot' nt', r = Some (true, ot', nt') /\ same_ctl ot' ot /\ same_ctl nt' nt /\
    copying ot0 (with_open ot' (t_open ot' - 1)) nt' (n + 1).
Proof.
  intros ot0 ot nt n it r C W Hn Hc G0 LV SL ->. pose proof C as [Pw [L [S [D R]]]].
  pose proof W as [W1 W2 W3 W4 W5 W6 W7 W8 W9 W10]. pose proof (S _ _ G0) as Sit. unfold slot_ok in Sit.
  unfold salvage_value. destruct (i_key it) as [k|] eqn:EK.
  2:{ rewrite Sit in LV. contradiction. }
  destruct Sit as [Hh _]. rewrite Hh. pose proof W6 as [PwN [LN [SN _]]]. rewrite probe_first by exact PwN.
  assert (A : assoc (t_items nt) k = None).
  { destruct (assoc (t_items nt) k) as [v|] eqn:A; [ | reflexivity ]. apply W10 in A.
    destruct A as [j [it' [J1 [J2 [J3 _]]]]]. exfalso. assert (j = n); [ | lia ].
    apply (D j n k); unfold kat; rewrite ?J2, ?G0; assumption. }
  pose proof (pow2_range _ PwN) as Hcap.
  destruct (claim_ok (Datatypes.S (Z.to_nat (t_cap nt))) nt k 0 W6 (passed_0 _ _ _) W7 ltac:(lia) ltac:(lia) ltac:(lia) A)
    as [e [E1 [E2 [E3 [itn [E4 [E5 E6]]]]]]].
  rewrite E6. set (p := probe (t_cap nt) k e) in *. pose proof (probe_range (t_cap nt) k e PwN) as Hp. fold p in Hp.
  rewrite item_at_gz. cbn [with_used set_item t_items]. rewrite gz_upd by lia. rewrite Z.eqb_refl. cbn [i_val i_key i_hash].
  do 2 eexists. split; [ reflexivity | ]. split; [ repeat split | ]. split; [ repeat split | ].
  destruct (icore_put (t_cap nt) (t_items nt) k e (i_val it) W6 E2 ltac:(lia) (or_introl E3) (or_intror LV)) as [Q1 [Q2 Q3]].
  fold p in Q1, Q2, Q3.
  assert (KU : keys_used (t_items nt) + 1 = keys_used (upd (t_items nt) (Z.to_nat p) (PItem (Some k) (hash k) (i_val it)))).
  { rewrite (keys_used_upd _ _ _ _ E4). unfold kat in E3. rewrite E4 in E3. rewrite E3. cbn [i_key]. lia. }
  constructor; cbn [with_open with_used t_cap t_used t_open t_items set_item]; rewrite ?upd_upd; try assumption; try lia.
  - unfold closed_item in SL. rewrite Hh, EK in SL. exact SL.
  - rewrite upd_len. exact W2.
  - intros k' v'. rewrite Q2. destruct (keyb k' k); [ intros E; inversion E; subst; exact LV | apply W9 ].
  - intros k' v'. rewrite Q2, (live_in_step _ _ _ _ _ G0) by lia. rewrite EK. destruct (keyb k' k) eqn:B.
    + apply keyb_eq in B. subst k'. split.
      * intros E. inversion E. right. auto.
      * intros [H|[_ [H _]]]; [ apply W10 in H; congruence | congruence ].
    + apply keyb_neq in B. rewrite W10. split; [ auto | ]. intros [H|[H _]]; [ exact H | congruence ].
Qed.

Lemma salvage_ok : forall ot0 ot nt n, icore (t_cap ot0) (t_items ot0) -> copying ot0 ot nt n -> 0 <= n < t_cap ot0 ->
  t_cap ot0 <= t_cap nt ->
  exists ot' nt', salvage_item ot nt n = Some (true, ot', nt') /\ same_ctl ot' ot /\ same_ctl nt' nt /\
    copying ot0 (with_open ot' (t_open ot' - 1)) nt' (n + 1).
Proof.
  intros ot0 ot nt n C W Hn Hc. pose proof C as [Pw [L [S [D R]]]]. pose proof W as [W1 W2 W3 W4 W5 W6 W7 W8 W9 W10].
  destruct (gz_some _ (t_items ot0) n) as [it G0]; [ lia | ].
  assert (G : gz (t_items ot) n = Some it) by (rewrite W1; destruct (Z.ltb_spec n n); [ lia | ]; rewrite andb_false_r; exact G0).
  unfold salvage_item. rewrite item_at_gz, G. pose proof (S _ _ G0) as Sit.
  assert (SL : forall j, gz (t_items (set_item ot n (closed_item it))) j =
     if (0 <=? j) && (j <? n + 1) then option_map closed_item (gz (t_items ot0) j) else gz (t_items ot0) j).
  { intros j. cbn [set_item t_items]. rewrite gz_upd by lia. rewrite W1. destruct (Z.eqb_spec j n) as [->|].
    - rewrite G0. destruct (Z.leb_spec 0 n); [ | lia ]. destruct (Z.ltb_spec n (n + 1)); [ reflexivity | lia ].
    - destruct (Z.leb_spec 0 j); cbn [andb]; [ | reflexivity ]. destruct (Z.ltb_spec j n), (Z.ltb_spec j (n + 1)); try lia; reflexivity. }
  destruct (i_val it) as [| | |v|v] eqn:EV.
  - (* tombstone *)
    do 2 eexists. split; [ reflexivity | ]. split; [ repeat split | ]. split; [ repeat split | ].
    constructor; cbn [with_open t_cap t_used t_open t_items set_item]; try assumption; try lia.
    + rewrite upd_len. exact W2.
    + intros k v. rewrite (live_in_step _ _ _ _ _ G0) by lia. rewrite W10, EV. split; [ tauto | ].
      intros [H|[_ [H1 H2]]]; [ exact H | subst v; contradiction ].
  - exfalso. unfold slot_ok in Sit. rewrite EV in Sit. destruct (i_key it); [ destruct Sit as [_ [Sit|Sit]]; [ discriminate | contradiction ] | discriminate ].
  - exfalso. unfold slot_ok in Sit. rewrite EV in Sit. destruct (i_key it); [ destruct Sit as [_ [Sit|Sit]]; [ discriminate | contradiction ] | discriminate ].
  - eapply salvage_live; try eassumption; [ rewrite EV; exact I | unfold salvage_value; rewrite EV; reflexivity ].
  - eapply salvage_live; try eassumption; [ rewrite EV; exact I | unfold salvage_value; rewrite EV; reflexivity ].
Qed.

Lemma copy_loop_ok : forall fuel ot0 ot nt n, icore (t_cap ot0) (t_items ot0) -> copying ot0 ot nt n -> 0 <= n < t_cap ot0 ->
  t_cap ot0 <= t_cap nt -> t_cap ot0 - n < Z.of_nat fuel ->
  exists ot' nt', copy_loop fuel ot nt n (t_cap ot0 - 1) = Some (ot', nt') /\ copying ot0 ot' nt' (t_cap ot0) /\
    t_copies ot' = t_copies ot /\ t_new ot' = t_new ot /\ same_ctl nt' nt.
Proof.
  induction fuel; intros ot0 ot nt n C W Hn Hc Hf; [ lia | ]. cbn [copy_loop].
  destruct (salvage_ok ot0 ot nt n C W Hn Hc) as [ot' [nt' [E [[S1 [S2 [S3 S4]]] [[N1 [N2 [N3 N4]]] W']]]]]. rewrite E. cbv zeta.
  pose proof C as [Pw _]. pose proof (pow2_range _ Pw) as Hcap. pose proof (cp_open _ _ _ _ W) as O.
  assert (U : u32 (t_open ot' - 1) = t_open ot' - 1) by (apply u32_small; lia). rewrite U.
  destruct (Z.eqb_spec (t_open ot') 1).
  - replace (n + 1) with (t_cap ot0) in W' by lia. do 2 eexists. split; [ reflexivity | ]. split; [ exact W' | ].
    split; [ exact S3 | ]. split; [ exact S4 | ]. repeat split; assumption.
  - replace (Z.land (u32 (n + 1)) (t_cap ot0 - 1)) with (n + 1).
    2:{ rewrite u32_small, pow2_land by (assumption || lia). symmetry. apply Z.mod_small. lia. }
    destruct (IHfuel ot0 _ nt' (n + 1) C W') as [ot2 [nt2 [E2 [W2 [Q1 [Q2 [Q3 [Q4 [Q5 Q6]]]]]]]]]; [ lia | lia | lia | ].
    rewrite E2. do 2 eexists. split; [ reflexivity | ]. split; [ exact W2 | ]. cbn [with_open t_copies t_new] in Q1, Q2.
    split; [ congruence | ]. split; [ congruence | ]. repeat split; congruence.
Qed.

(* a table in use *)
Record twf (t : table) : Prop := TWf {
  tw_core : icore (t_cap t) (t_items t);
  tw_used : t_used t = keys_used (t_items t);
  tw_open : t_open t = t_cap t;
  tw_copies : t_copies t = 0;
  tw_new : t_new t = None }.

(* a table which was copied *)
Record dead (t : table) (m : nat) : Prop := Dead {
  dd_new : t_new t = Some m;
  dd_copies : t_copies t = 0;
  dd_cap : len (t_items t) = t_cap t;
  dd_vals : forall j it, gz (t_items t) j = Some it -> i_val it = Closed }.

(* the property of a table entry, if it is not deleted *)
Definition prop_of (v : option pval) : option pval :=
  match v with Some Tomb => None | x => x end.

Lemma new_table_wf : forall cap, pow2 cap -> twf (new_table cap).
Proof.
  intros cap P. constructor; try reflexivity; [ apply new_table_core; exact P | ]. rewrite new_table_used. reflexivity.
Qed.

Lemma copy_table_ok : forall ot cap m, twf ot -> pow2 cap -> t_cap ot <= cap ->
  exists ot' nt', copy_table (with_new ot (Some m)) (new_table cap) = Some (ot', nt') /\ dead ot' m /\ twf nt' /\ t_cap nt' = cap /\
    t_cap ot' = t_cap ot /\ (forall j, kat (t_items ot') j = kat (t_items ot) j) /\
    (forall k, assoc (t_items nt') k = prop_of (assoc (t_items ot) k)).
Proof.
  intros ot cap m [C U O Cp Nw] P Hc. unfold copy_table. cbn [with_new t_cap t_open t_copies with_copies]. rewrite O, Cp.
  pose proof C as [Pw [L [S [D R]]]]. pose proof (pow2_range _ Pw) as Hcap. pose proof (pow2_range _ P) as Hcap'.
  replace (Z.land (u32 (64 * u32 (t_cap ot - t_cap ot))) (t_cap ot - 1)) with 0.
  2:{ rewrite Z.sub_diag. reflexivity. }
  change (u32 (0 + 1)) with 1.
  pose proof (new_table_wf cap P) as [NC NU NO NCp NN].
  assert (W : copying ot (with_copies (with_new ot (Some m)) 1) (new_table cap) 0).
  { constructor; cbn [with_copies with_new t_cap t_used t_open t_items]; try assumption; try reflexivity; try lia.
    - intros j. destruct (Z.leb_spec 0 j), (Z.ltb_spec j 0); try lia; reflexivity.
    - rewrite new_table_used. lia.
    - intros k v. rewrite new_table_assoc. discriminate.
    - intros k v. rewrite new_table_assoc. split; [ discriminate | ]. intros [j [it [J _]]]. lia. }
  destruct (copy_loop_ok (Datatypes.S (Z.to_nat (t_cap ot))) ot _ _ 0 C W) as [ot' [nt' [E [W' [Q1 [Q2 [Q3 [Q4 [Q5 Q6]]]]]]]]].
  { lia. } { exact Hc. } { lia. }
  cbn [with_copies with_new t_copies t_new] in Q1, Q2. unfold with_copies in E. cbn [with_new t_cap t_used t_open t_new t_items] in E.
  unfold with_copies at 1. cbn [with_new t_cap t_used t_open t_new t_items].
  match goal with |- context [copy_loop ?a ?b ?c ?d ?e] => replace (copy_loop a b c d e) with (Some (ot', nt')) by (symmetry; exact E) end.
  rewrite Q1. change (1 <? 1) with false. cbv iota. destruct W' as [W1 W2 W3 W4 W5 W6 W7 W8 W9 W10].
  do 2 eexists. split; [ reflexivity | ]. split; [ | split; [ | split; [ | split; [ | split ] ] ] ].
  - constructor; cbn [with_copies t_new t_copies t_cap t_items].
    + exact Q2.
    + reflexivity.
    + congruence.
    + intros j it G. rewrite W1 in G. destruct (gz (t_items ot) j) as [it0|] eqn:G0.
      * pose proof (gz_some_inv _ _ _ _ G0). destruct (Z.leb_spec 0 j); [ | lia ]. destruct (Z.ltb_spec j (t_cap ot)); [ | lia ].
        cbn [andb option_map] in G. inversion G. reflexivity.
      * destruct (_ && _) in G; discriminate.
  - constructor; try assumption; try congruence.
  - exact Q3.
  - exact W3.
  - intros j. cbn [with_copies t_items]. unfold kat. rewrite W1. destruct (gz (t_items ot) j); destruct (_ && _); reflexivity.
  - intros k. destruct (assoc (t_items nt') k) as [v|] eqn:A.
    + pose proof (W9 _ _ A) as LV. apply W10 in A. destruct A as [j [it [J1 [J2 [J3 [J4 J5]]]]]].
      rewrite (icore_assoc _ _ _ _ _ C J2 J3), J4. destruct v; try contradiction; reflexivity.
    + destruct (assoc (t_items ot) k) as [v|] eqn:A0; [ | reflexivity ].
      destruct (assoc_kat _ _ _ A0) as [j [it [G [E1 E2]]]]. pose proof (S _ _ G) as Sit. unfold slot_ok in Sit. rewrite E1 in Sit.
      destruct Sit as [_ [Sit|Sit]]; [ rewrite E2 in Sit; subst v; rewrite Sit; reflexivity | ].
      exfalso. assert (X : assoc (t_items nt') k = Some v); [ | congruence ]. apply W10. exists j, it.
      pose proof (gz_some_inv _ _ _ _ G). rewrite E2 in Sit. split; [ lia | ]. auto.
Qed.

End Hash.
