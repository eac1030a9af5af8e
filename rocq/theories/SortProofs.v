From Coq Require Import List Bool Arith Lia ZifyBool Sorting.Permutation Sorting.Sorted.
From Verif Require Import SortModel SortSpec.
Import ListNotations.

Section P.
Variable K V : Type.
Variable compare : K -> K -> cmp_result.
Notation slot := (@slot K V).
Notation less := (@is_less K V compare).

Lemma wr_app : forall (pre : list slot) x y post, wr (pre ++ x :: post) (length pre) y = Some (pre ++ y :: post).
Proof. induction pre; intros; cbn [app length wr]; [ reflexivity | now rewrite IHpre ]. Qed.

Lemma nth_error_mid : forall (pre : list slot) x post, nth_error (pre ++ x :: post) (length pre) = Some x.
Proof. intros. rewrite nth_error_app2 by lia. now rewrite Nat.sub_diag. Qed.

(* State of the partition loop: smaller slots, not smaller slots, unseen. *)
Lemma part_loop_spec : forall reverse pivot todo pre L G post,
  (forall x, In x L -> less reverse x pivot = true) ->
  (forall x, In x G -> less reverse x pivot = false) ->
  exists L' G',
    part_loop compare reverse pivot (length todo) (pre ++ L ++ G ++ todo ++ post)
      (length pre + length L + length G) (length pre + length L)
      = Some (pre ++ L' ++ G' ++ post, length pre + length L') /\
    Permutation (L ++ G ++ todo) (L' ++ G') /\
    (forall x, In x L' -> less reverse x pivot = true) /\
    (forall x, In x G' -> less reverse x pivot = false).
Proof.
  intros reverse pivot todo. induction todo as [ | x todo IH ]; intros pre L G post HL HG; cbn [length part_loop].
  - exists L, G. rewrite app_nil_r. repeat split; auto.
  - assert (E : nth_error (pre ++ L ++ G ++ (x :: todo) ++ post) (length pre + length L + length G) = Some x).
    { replace (pre ++ L ++ G ++ (x :: todo) ++ post) with ((pre ++ L ++ G) ++ x :: (todo ++ post))
        by (rewrite <- !app_assoc; reflexivity).
      replace (length pre + length L + length G) with (length (pre ++ L ++ G)) by (rewrite !app_length; lia).
      apply nth_error_mid. }
    rewrite E. destruct (less reverse x pivot) eqn:Hx.
    + destruct G as [ | g G ].
      * (* p == mid + step: the slot is swapped with itself *)
        cbn [app length] in *. rewrite Nat.add_0_r in *. rewrite E.
        replace (pre ++ L ++ x :: todo ++ post) with ((pre ++ L) ++ x :: (todo ++ post))
          by (rewrite <- !app_assoc; reflexivity).
        replace (length pre + length L) with (length (pre ++ L)) by (rewrite !app_length; lia).
        rewrite wr_app, wr_app.
        destruct (IH pre (L ++ [x]) [] post) as (L' & G' & H1 & H2 & H3 & H4).
        { intros y Hy. apply in_app_or in Hy. destruct Hy as [ | [ <- | [] ] ]; auto. }
        { intros y []. }
        exists L', G'. repeat split; auto.
        -- rewrite <- H1. cbn [app length]. f_equal.
           ++ rewrite <- !app_assoc. reflexivity.
           ++ rewrite !app_length. cbn [length]. lia.
           ++ rewrite !app_length. cbn [length]. lia.
        -- rewrite <- H2. cbn [app]. rewrite <- app_assoc. reflexivity.
      * replace (pre ++ L ++ (g :: G) ++ (x :: todo) ++ post)
          with ((pre ++ L) ++ g :: (G ++ (x :: todo) ++ post)) by (rewrite <- !app_assoc; reflexivity).
        replace (length pre + length L) with (length (pre ++ L)) by (rewrite !app_length; lia).
        rewrite nth_error_mid.
        replace ((pre ++ L) ++ g :: (G ++ (x :: todo) ++ post))
          with (((pre ++ L) ++ g :: G) ++ x :: (todo ++ post)) by (rewrite <- !app_assoc; reflexivity).
        replace (length (pre ++ L) + length (g :: G)) with (length ((pre ++ L) ++ g :: G))
          by (rewrite !app_length; cbn [length]; lia).
        rewrite wr_app.
        replace (((pre ++ L) ++ g :: G) ++ g :: todo ++ post)
          with ((pre ++ L) ++ g :: (G ++ g :: (todo ++ post))) by (rewrite <- !app_assoc; reflexivity).
        rewrite wr_app.
        destruct (IH pre (L ++ [x]) (G ++ [g]) post) as (L' & G' & H1 & H2 & H3 & H4).
        { intros y Hy. apply in_app_or in Hy. destruct Hy as [ | [ <- | [] ] ]; auto. }
        { intros y Hy. apply in_app_or in Hy. destruct Hy as [ Hy | [ <- | [] ] ]; apply HG; cbn [In]; auto. }
        exists L', G'. repeat split; auto.
        -- rewrite <- H1. f_equal.
           ++ rewrite <- !app_assoc. reflexivity.
           ++ rewrite !app_length. cbn [length]. lia.
           ++ rewrite !app_length. cbn [length]. lia.
        -- rewrite <- H2. rewrite <- !app_assoc. apply Permutation_app_head.
           transitivity (G ++ todo ++ [g; x]).
           { change ((g :: G) ++ x :: todo) with ([g] ++ (G ++ x :: todo)).
             rewrite Permutation_app_comm. rewrite <- !app_assoc. apply Permutation_app_head.
             change ((x :: todo) ++ [g]) with ([x] ++ (todo ++ [g])).
             rewrite Permutation_app_comm. rewrite <- !app_assoc. apply Permutation_app_head. constructor; reflexivity. }
           { cbn [app]. change (x :: G ++ g :: todo) with ([x] ++ (G ++ g :: todo)).
             rewrite (Permutation_app_comm [x]). rewrite <- !app_assoc. apply Permutation_app_head.
             change ((g :: todo) ++ [x]) with ([g] ++ (todo ++ [x])).
             rewrite (Permutation_app_comm [g]). rewrite <- !app_assoc. apply Permutation_app_head. constructor. }
    + destruct (IH pre L (G ++ [x]) post) as (L' & G' & H1 & H2 & H3 & H4).
      { assumption. }
      { intros y Hy. apply in_app_or in Hy. destruct Hy as [ | [ <- | [] ] ]; auto. }
      exists L', G'. repeat split; auto.
      * rewrite <- H1. f_equal.
        -- rewrite <- !app_assoc. reflexivity.
        -- rewrite !app_length. cbn [length]. lia.
      * rewrite <- H2. rewrite <- !app_assoc. reflexivity.
Qed.

(* Guard of the final swap: it can only be skipped when the slot is the pivot. *)
Definition asym_total (reverse : bool) (l : list slot) : Prop :=
  forall i j x y, i <> j -> nth_error l i = Some x -> nth_error l j = Some y ->
    less reverse x y = false -> less reverse y x = true.

Definition trans_on (reverse : bool) (l : list slot) : Prop :=
  forall x y z, In x l -> In y l -> In z l ->
    less reverse x y = true -> less reverse y z = true -> less reverse x z = true.

Lemma split_last : forall (l : list slot), l <> [] -> exists i x, l = i ++ [x].
Proof. intros l H. destruct (exists_last H) as (i & x & ->). eauto. Qed.

(* Pairwise totality is insensitive to the order of slots. *)
Definition ptotal (reverse : bool) : list slot -> Prop :=
  ForallOrdPairs (fun x y => less reverse x y = true <-> less reverse y x = false).

Lemma ptotal_perm : forall reverse l l', Permutation l l' -> ptotal reverse l -> ptotal reverse l'.
Proof.
  intros reverse l l' H. unfold ptotal. induction H; intros A; auto.
  - inversion A; subst. constructor; auto. eapply Permutation_Forall; eauto.
  - inversion A as [ | ? ? A1 A2 ]; subst. inversion A2 as [ | ? ? A3 A4 ]; subst.
    inversion A1; subst. constructor; [ constructor | constructor ]; auto.
    destruct (less reverse x y), (less reverse y x); intuition congruence.
Qed.

Lemma ptotal_app : forall reverse l1 l2, ptotal reverse (l1 ++ l2) -> ptotal reverse l1 /\ ptotal reverse l2.
Proof.
  unfold ptotal. induction l1; intros l2 A; cbn [app] in A.
  - split; [ constructor | assumption ].
  - inversion A; subst. apply IHl1 in H2. destruct H2. split; auto. constructor; auto.
    eapply Forall_forall. intros z Hz. rewrite Forall_forall in H1. apply H1. apply in_or_app; auto.
Qed.

Lemma trans_incl : forall reverse l l', incl l' l -> trans_on reverse l -> trans_on reverse l'.
Proof. intros reverse l l' H T x y z Hx Hy Hz. apply T; auto. Qed.

Lemma ss_app : forall (R : slot -> slot -> Prop) l1 p l2,
  StronglySorted R l1 -> StronglySorted R l2 ->
  (forall x, In x l1 -> R x p) -> (forall y, In y l2 -> R p y) ->
  (forall x y, In x l1 -> In y l2 -> R x y) ->
  StronglySorted R (l1 ++ p :: l2).
Proof.
  intros R. induction l1; intros p l2 S1 S2 H1 H2 H3; cbn [app].
  - constructor; auto. apply Forall_forall; auto.
  - inversion S1; subst. constructor.
    + apply IHl1; auto; intros; [ apply H1 | apply H3 ]; cbn [In]; auto.
    + apply Forall_forall. intros y Hy. apply in_app_or in Hy. destruct Hy as [ Hy | [ <- | Hy ] ].
      * rewrite Forall_forall in H5. auto.
      * apply H1. cbn [In]; auto.
      * apply H3; cbn [In]; auto.
Qed.

Definition sorted (reverse : bool) := StronglySorted (fun x y => less reverse x y = true).

Lemma sorted_short : forall reverse l, length l <= 1 -> sorted reverse l.
Proof.
  intros reverse l H. destruct l as [ | x [ | y l ] ]; cbn [length] in H; try lia; unfold sorted.
  - constructor.
  - constructor; constructor.
Qed.

(* The permutation part needs nothing from the comparison; the order part
   needs totality and transitivity. *)
Lemma sort_range_spec : forall fuel reverse seg pre post,
  seg <> [] -> length seg <= fuel ->
  exists seg', sort_range compare fuel reverse (pre ++ seg ++ post) (length pre) (length pre + length seg)
               = Some (pre ++ seg' ++ post) /\
               Permutation seg seg' /\
               (ptotal reverse seg -> trans_on reverse seg -> sorted reverse seg').
Proof.
  induction fuel; intros reverse seg pre post Hne Hf.
  { destruct seg; cbn [length] in Hf; [ congruence | lia ]. }
  destruct (split_last seg Hne) as (todo & pivot & ->).
  cbn [sort_range]. rewrite app_length in *. cbn [length] in *.
  replace (length pre + (length todo + 1) - 1) with (length pre + length todo) by lia.
  assert (E : nth_error (pre ++ (todo ++ [pivot]) ++ post) (length pre + length todo) = Some pivot).
  { replace (pre ++ (todo ++ [pivot]) ++ post) with ((pre ++ todo) ++ pivot :: post)
      by (rewrite <- !app_assoc; reflexivity).
    rewrite <- app_length. apply nth_error_mid. }
  rewrite E.
  replace (length pre + length todo - length pre) with (length todo) by lia.
  destruct (part_loop_spec reverse pivot todo pre [] [] (pivot :: post)) as (L & G & H1 & H2 & H3 & H4);
    [ intros x [] | intros x [] | ].
  cbn [app length] in H1, H2. rewrite !Nat.add_0_r in H1.
  replace (pre ++ (todo ++ [pivot]) ++ post) with (pre ++ todo ++ pivot :: post)
    by (rewrite <- !app_assoc; reflexivity).
  rewrite H1.
  assert (Hlen : length todo = length L + length G) by (rewrite (Permutation_length H2), app_length; lia).
  (* the slots after the final swap: L, pivot, G2 *)
  assert (Hswap : exists m G2, nth_error (pre ++ L ++ G ++ pivot :: post) (length pre + length L) = Some m /\
     Permutation G G2 /\
     ((less reverse pivot m = true /\
      match wr (pre ++ L ++ G ++ pivot :: post) (length pre + length todo) m with
      | None => None | Some a2 => wr a2 (length pre + length L) pivot end
      = Some (pre ++ L ++ [pivot] ++ G2 ++ post)) \/
      (less reverse pivot m = false /\ G = G2 /\ G = []) \/
      (less reverse pivot m = false /\ G <> [] /\ In m G))).
  { destruct G as [ | g G ].
    - exists pivot, []. repeat split.
      + cbn [app]. replace (pre ++ L ++ pivot :: post) with ((pre ++ L) ++ pivot :: post) by (now rewrite <- app_assoc).
        rewrite <- app_length. apply nth_error_mid.
      + constructor.
      + destruct (less reverse pivot pivot) eqn:Ep; [ left | right; left; auto ].
        split; [ reflexivity | ].
        cbn [app length] in *. replace (pre ++ L ++ pivot :: post) with ((pre ++ L) ++ pivot :: post) by (now rewrite <- app_assoc).
        replace (length pre + length todo) with (length (pre ++ L)) by (rewrite app_length; lia).
        rewrite wr_app. rewrite <- app_length. rewrite wr_app. now rewrite <- app_assoc.
    - exists g, (G ++ [g]). repeat split.
      + replace (pre ++ L ++ (g :: G) ++ pivot :: post) with ((pre ++ L) ++ g :: (G ++ pivot :: post))
          by (rewrite <- !app_assoc; reflexivity).
        rewrite <- app_length. apply nth_error_mid.
      + change (g :: G) with ([g] ++ G). apply Permutation_app_comm.
      + destruct (less reverse pivot g) eqn:Ep; [ left | right; right; repeat split; auto; [ discriminate | now left ] ].
        split; [ reflexivity | ].
        replace (pre ++ L ++ (g :: G) ++ pivot :: post) with ((pre ++ L ++ (g :: G)) ++ pivot :: post)
          by (rewrite <- !app_assoc; reflexivity).
        replace (length pre + length todo) with (length (pre ++ L ++ (g :: G)))
          by (rewrite !app_length; lia).
        rewrite wr_app.
        replace ((pre ++ L ++ g :: G) ++ g :: post) with ((pre ++ L) ++ g :: (G ++ g :: post))
          by (rewrite <- !app_assoc; reflexivity).
        rewrite <- app_length. rewrite wr_app. rewrite <- !app_assoc. reflexivity. }
  destruct Hswap as (m & G2 & Hm & HG2 & Hcase). rewrite Hm.
  (* a3: same pre/post, smaller part first, slot M in the middle, rest H *)
  assert (Ha3 : exists M H, (if less reverse pivot m then
       match wr (pre ++ L ++ G ++ pivot :: post) (length pre + length todo) m with
       | None => None | Some a2 => wr a2 (length pre + length L) pivot end
       else Some (pre ++ L ++ G ++ pivot :: post)) = Some (pre ++ L ++ [M] ++ H ++ post) /\
       Permutation (G ++ [pivot]) (M :: H) /\
       (ptotal reverse (G ++ [pivot]) -> M = pivot /\ Permutation G H)).
  { destruct Hcase as [ [C1 C2] | [ [C1 [C2 C3]] | [C1 [C2 C3]] ] ]; rewrite C1.
    - exists pivot, G2. split; [ assumption | ]. split; [ | intros; split; auto ].
      rewrite Permutation_app_comm. cbn [app]. constructor. assumption.
    - exists pivot, []. subst G2. subst G. split; [ reflexivity | ]. split; [ reflexivity | intros; split; auto ].
    - destruct G as [ | g G ]; [ congruence | ].
      exists g, (G ++ [pivot]). split; [ rewrite <- !app_assoc; reflexivity | ].
      split; [ reflexivity | ].
      intros PT. exfalso. specialize (H4 m C3).
      apply (ptotal_perm reverse _ _ (Permutation_app_comm _ [pivot])) in PT. cbn [app] in PT.
      inversion PT as [ | ? ? A _ ]; subst. rewrite Forall_forall in A. specialize (A m C3). intuition congruence. }
  destruct Ha3 as (M & H & Ha3 & HP & HM). rewrite Ha3.
  assert (HlenH : length G = length H).
  { apply Permutation_length in HP. rewrite app_length in HP. cbn [length] in HP. lia. }
  (* left recursion *)
  assert (HL : exists L', (if length pre + 1 <? length pre + length L
       then sort_range compare fuel reverse (pre ++ L ++ [M] ++ H ++ post) (length pre) (length pre + length L)
       else Some (pre ++ L ++ [M] ++ H ++ post)) = Some (pre ++ L' ++ [M] ++ H ++ post) /\
       Permutation L L' /\ (ptotal reverse L -> trans_on reverse L -> sorted reverse L')).
  { destruct (length pre + 1 <? length pre + length L) eqn:El.
    - apply IHfuel; [ | lia ]. intros ->. cbn [length] in El. lia.
    - exists L. repeat split; auto. intros _ _. apply sorted_short. lia. }
  destruct HL as (L' & HL1 & HL2 & HL3). rewrite HL1.
  pose proof (Permutation_length HL2) as HlenL.
  assert (HR : exists H', (if length pre + length L + 1 <? length pre + length todo
       then sort_range compare fuel reverse (pre ++ L' ++ [M] ++ H ++ post) (length pre + length L + 1) (length pre + (length todo + 1))
       else Some (pre ++ L' ++ [M] ++ H ++ post)) = Some (pre ++ L' ++ [M] ++ H' ++ post) /\
       Permutation H H' /\ (ptotal reverse H -> trans_on reverse H -> sorted reverse H')).
  { destruct (length pre + length L + 1 <? length pre + length todo) eqn:Er.
    - destruct (IHfuel reverse H (pre ++ L' ++ [M]) post) as (H' & R1 & R2 & R3).
      + intros ->. cbn [length] in *. lia.
      + lia.
      + exists H'. split; [ | auto ].
        rewrite !app_length in R1. cbn [length] in R1. rewrite <- !app_assoc in R1.
        replace (length pre + (length L' + 1)) with (length pre + length L + 1) in R1 by lia.
        replace (length pre + length L + 1 + length H) with (length pre + (length todo + 1)) in R1 by lia.
        exact R1.
    - exists H. repeat split; auto. intros _ _. apply sorted_short. lia. }
  destruct HR as (H' & HR1 & HR2 & HR3). rewrite HR1.
  exists (L' ++ [M] ++ H').
  assert (Hperm : Permutation (todo ++ [pivot]) (L' ++ [M] ++ H')).
  { rewrite H2. rewrite <- app_assoc. rewrite HP. rewrite HL2. cbn [app]. rewrite HR2. reflexivity. }
  split; [ rewrite <- !app_assoc; reflexivity | ]. split; [ assumption | ].
  intros PT TR.
  assert (PT2 : ptotal reverse (L ++ G ++ [pivot])).
  { eapply ptotal_perm; [ | exact PT ]. rewrite H2, app_assoc. reflexivity. }
  apply ptotal_app in PT2. destruct PT2 as [PTL PTG].
  destruct (HM PTG) as [ -> HGH ].
  assert (PTGH : ptotal reverse H).
  { apply ptotal_app in PTG. destruct PTG as [PTG _]. eapply ptotal_perm; eauto. }
  assert (TR2 : trans_on reverse (L' ++ [pivot] ++ H')).
  { eapply trans_incl; [ | exact TR ]. intros z Hz. eapply Permutation_in; [ symmetry; exact Hperm | assumption ]. }
  assert (HpG : forall y, In y H' -> less reverse pivot y = true).
  { intros y Hy. assert (HyG : In y G).
    { eapply Permutation_in; [ symmetry; exact HGH | ]. eapply Permutation_in; [ symmetry; exact HR2 | assumption ]. }
    specialize (H4 y HyG).
    apply (ptotal_perm reverse _ _ (Permutation_app_comm _ [pivot])) in PTG. cbn [app] in PTG.
    inversion PTG as [ | ? ? A _ ]; subst. rewrite Forall_forall in A. apply A; assumption. }
  assert (HLp : forall x, In x L' -> less reverse x pivot = true).
  { intros x Hx. apply H3. eapply Permutation_in; [ symmetry; exact HL2 | assumption ]. }
  apply ss_app; auto.
  - apply HL3; auto. eapply trans_incl; [ | exact TR ].
    intros z Hz. eapply Permutation_in; [ symmetry; exact Hperm | ].
    apply in_or_app. left. eapply Permutation_in; eauto.
  - apply HR3; auto. eapply trans_incl; [ | exact TR ].
    intros z Hz. eapply Permutation_in; [ symmetry; exact Hperm | ].
    apply in_or_app. right. right. eapply Permutation_in; eauto.
  - intros x y Hx Hy. apply (TR2 x pivot y); auto.
    + apply in_or_app; auto.
    + apply in_or_app; right; now left.
    + apply in_or_app; right; now right.
Qed.

(* The expanded array. *)
Lemma expand_vals : forall keyf (l : list V) i, map s_val (expand (K:=K) keyf i l) = l.
Proof. induction l; intros i; cbn [expand map s_val]; [ reflexivity | now rewrite IHl ]. Qed.

Lemma expand_length : forall keyf (l : list V) i, length (expand (K:=K) keyf i l) = length l.
Proof. induction l; intros i; cbn [expand length]; auto. Qed.

Lemma expand_keys : forall keyf (l : list V) i x, In x (expand (K:=K) keyf i l) -> s_key x = keyf (s_val x) /\ i <= s_idx x.
Proof.
  induction l; intros i x H; cbn [expand In] in H; [ contradiction | ].
  destruct H as [ <- | H ]; [ split; auto | ]. apply IHl in H. intuition lia.
Qed.

Lemma expand_ordered : forall keyf (l : list V) i, StronglySorted (fun x y => s_idx x < s_idx y) (expand (K:=K) keyf i l).
Proof.
  induction l; intros i; cbn [expand]; constructor; auto.
  apply Forall_forall. intros x Hx. apply expand_keys in Hx. cbn [s_idx]. lia.
Qed.

Lemma sort_ok : forall keyf reverse (l : list V),
  exists a, sort compare keyf reverse l = Some (map s_val a) /\
            Permutation (expand keyf 0 l) a /\
            (ptotal reverse (expand keyf 0 l) -> trans_on reverse (expand keyf 0 l) -> sorted reverse a).
Proof.
  intros keyf reverse l. unfold sort. destruct (1 <? length l) eqn:E.
  - destruct (sort_range_spec (length l) reverse (expand keyf 0 l) [] []) as (a & H1 & H2 & H3).
    + destruct l; cbn [length expand] in *; [ lia | discriminate ].
    + rewrite expand_length. lia.
    + rewrite expand_length in H1. cbn [app length] in H1. rewrite !app_nil_r in H1. cbn [plus] in H1.
      rewrite H1. exists a. auto.
  - exists (expand keyf 0 l). rewrite expand_vals. repeat split; auto.
    intros _ _. apply sorted_short. rewrite expand_length. lia.
Qed.

Hypothesis TP : total_preorder compare.

Lemma cmp_cases : forall a b,
  (compare a b = CLess /\ compare b a = CGreater) \/ (compare a b = CGreater /\ compare b a = CLess) \/
  (compare a b = CEqual /\ compare b a = CEqual).
Proof.
  intros a b. pose proof (tp_no_indet _ _ TP a b). pose proof (tp_no_indet _ _ TP b a).
  pose proof (tp_mirror _ _ TP a b). pose proof (tp_mirror _ _ TP b a).
  destruct (compare a b), (compare b a); intuition congruence.
Qed.

Lemma is_less_spec : forall reverse x y,
  less reverse x y = true <->
  (compare (s_key x) (s_key y) = (if reverse then CGreater else CLess) \/
   (compare (s_key x) (s_key y) = CEqual /\ if reverse then s_idx y < s_idx x else s_idx x < s_idx y)).
Proof.
  intros reverse x y. unfold is_less. pose proof (tp_no_indet _ _ TP (s_key x) (s_key y)).
  destruct reverse, (compare (s_key x) (s_key y)); cbn [cmp_eqb]; split; intros A;
    try congruence; try (destruct A as [ A | [ A B ] ]; try congruence); auto;
    rewrite ?Nat.ltb_lt in *; auto; right; split; auto; now apply Nat.ltb_lt.
Qed.

Lemma total_of_idx : forall reverse x y, s_idx x <> s_idx y ->
  (less reverse x y = true <-> less reverse y x = false).
Proof.
  intros reverse x y Hne.
  assert (A : less reverse x y = true \/ less reverse y x = true).
  { rewrite !is_less_spec. destruct (cmp_cases (s_key x) (s_key y)) as [ [A B] | [ [A B] | [A B] ] ];
      rewrite A, B; destruct reverse; auto; 
      destruct (Nat.lt_trichotomy (s_idx x) (s_idx y)) as [ | [ | ] ]; try lia; auto. }
  assert (B : less reverse x y = true -> less reverse y x = true -> False).
  { rewrite !is_less_spec. destruct (cmp_cases (s_key x) (s_key y)) as [ [C D] | [ [C D] | [C D] ] ];
      rewrite C, D; destruct reverse; intuition (try congruence; try lia). }
  destruct (less reverse x y), (less reverse y x); intuition congruence.
Qed.

Lemma ptotal_expand : forall keyf reverse l i, ptotal reverse (expand keyf i l).
Proof.
  intros keyf reverse l i. unfold ptotal.
  pose proof (expand_ordered keyf l i) as S. induction S; constructor; auto.
  eapply Forall_impl; [ | exact H ]. intros b Hb. cbv beta in Hb. apply total_of_idx. lia.
Qed.

Lemma cmp_trans_le : forall a b c, compare a b <> CGreater -> compare b c <> CGreater ->
  compare a c <> CGreater /\ (compare a c = CEqual -> compare a b = CEqual /\ compare b c = CEqual).
Proof.
  intros a b c H1 H2. split; [ eapply (tp_trans _ _ TP); eauto | ].
  intros E.
  destruct (cmp_cases a c) as [ [C D] | [ [C D] | [C D] ] ]; try congruence.
  assert (compare c a <> CGreater) by congruence.
  pose proof (tp_trans _ _ TP b c a H2 H). pose proof (tp_trans _ _ TP c a b H H1).
  destruct (cmp_cases a b) as [ [C1 D1] | [ [C1 D1] | [C1 D1] ] ];
  destruct (cmp_cases b c) as [ [C2 D2] | [ [C2 D2] | [C2 D2] ] ]; intuition congruence.
Qed.

Lemma less_trans : forall reverse x y z,
  less reverse x y = true -> less reverse y z = true -> less reverse x z = true.
Proof.
  intros reverse x y z. rewrite !is_less_spec. destruct reverse.
  - (* descending: use the mirrored comparisons *)
    intros H1 H2.
    assert (A1 : compare (s_key y) (s_key x) <> CGreater).
    { destruct (cmp_cases (s_key x) (s_key y)) as [ [C D] | [ [C D] | [C D] ] ]; intuition congruence. }
    assert (A2 : compare (s_key z) (s_key y) <> CGreater).
    { destruct (cmp_cases (s_key y) (s_key z)) as [ [C D] | [ [C D] | [C D] ] ]; intuition congruence. }
    destruct (cmp_trans_le _ _ _ A2 A1) as [B1 B2].
    destruct (cmp_cases (s_key x) (s_key z)) as [ [C D] | [ [C D] | [C D] ] ]; try congruence; auto.
    right. split; auto. destruct (B2 D) as [E1 E2].
    destruct (cmp_cases (s_key x) (s_key y)) as [ [C3 D3] | [ [C3 D3] | [C3 D3] ] ]; try congruence.
    destruct (cmp_cases (s_key y) (s_key z)) as [ [C4 D4] | [ [C4 D4] | [C4 D4] ] ]; try congruence.
    destruct H1 as [ | [ _ H1 ] ]; [ congruence | ]. destruct H2 as [ | [ _ H2 ] ]; [ congruence | ]. lia.
  - intros H1 H2.
    assert (A1 : compare (s_key x) (s_key y) <> CGreater) by (intuition congruence).
    assert (A2 : compare (s_key y) (s_key z) <> CGreater) by (intuition congruence).
    destruct (cmp_trans_le _ _ _ A1 A2) as [B1 B2].
    destruct (cmp_cases (s_key x) (s_key z)) as [ [C D] | [ [C D] | [C D] ] ]; try congruence; auto.
    right. split; auto. destruct (B2 C) as [E1 E2].
    destruct H1 as [ | [ _ H1 ] ]; [ congruence | ]. destruct H2 as [ | [ _ H2 ] ]; [ congruence | ]. lia.
Qed.

(* Strictly sorted permutations are unique. *)
Lemma ss_perm_unique : forall (R : slot -> slot -> Prop) l1 l2,
  (forall x y, R x y -> R y x -> False) ->
  StronglySorted R l1 -> StronglySorted R l2 -> Permutation l1 l2 -> l1 = l2.
Proof.
  intros R l1. induction l1 as [ | a l1 IH ]; intros l2 HR S1 S2 HP.
  - apply Permutation_nil in HP. now subst.
  - destruct l2 as [ | b l2 ]; [ symmetry in HP; apply Permutation_nil in HP; discriminate | ].
    inversion S1; inversion S2; subst. rewrite Forall_forall in *.
    assert (a = b).
    { assert (Ia : In a (b :: l2)) by (eapply Permutation_in; [ exact HP | now left ]).
      assert (Ib : In b (a :: l1)) by (eapply Permutation_in; [ symmetry; exact HP | now left ]).
      destruct Ia as [ | Ia ]; auto. destruct Ib as [ | Ib ]; auto.
      exfalso. eapply HR; eauto. }
    subst b. f_equal. apply IH; auto. eapply Permutation_cons_inv; eauto.
Qed.

Lemma ss_filter : forall (R : slot -> slot -> Prop) f l, StronglySorted R l -> StronglySorted R (filter f l).
Proof.
  intros R f l S. induction S; cbn [filter]; [ constructor | ].
  destruct (f a); auto. constructor; auto.
  rewrite Forall_forall in *. intros x Hx. apply filter_In in Hx. apply H. tauto.
Qed.

Lemma ss_strengthen : forall (R R' : slot -> slot -> Prop) l,
  (forall x y, In x l -> In y l -> R x y -> R' x y) -> StronglySorted R l -> StronglySorted R' l.
Proof.
  intros R R' l H S. induction S; constructor.
  - apply IHS. intros. apply H; cbn [In]; auto.
  - rewrite Forall_forall in *. intros x Hx. apply H; cbn [In]; auto.
Qed.

Lemma filter_perm : forall (f : slot -> bool) l l', Permutation l l' -> Permutation (filter f l) (filter f l').
Proof.
  intros f l l' H. induction H; cbn [filter]; auto.
  - destruct (f x); auto.
  - destruct (f x), (f y); auto. constructor.
  - etransitivity; eauto.
Qed.

Lemma filter_map_val : forall (f : V -> bool) (l : list slot),
  filter f (map s_val l) = map s_val (filter (fun x => f (s_val x)) l).
Proof.
  induction l; cbn [map filter]; auto. destruct (f (s_val a)); cbn [map]; now rewrite IHl.
Qed.

Lemma ss_rev : forall (R : slot -> slot -> Prop) l, StronglySorted R l -> StronglySorted (fun x y => R y x) (rev l).
Proof.
  intros R l S. induction S; cbn [rev]; [ constructor | ].
  assert (A : forall m, StronglySorted (fun x y => R y x) m -> Forall (R a) m -> StronglySorted (fun x y => R y x) (m ++ [a])).
  { clear. intros m S F. induction S as [ | b m S IH Hb ]; cbn [app].
    - repeat constructor.
    - inversion F; subst. constructor; auto. apply Forall_app. split; auto. }
  apply A; auto. apply Forall_rev. assumption.
Qed.

Lemma ties_filter : forall keyf k l (a : list slot), Permutation (expand keyf 0 l) a ->
  ties compare keyf k (map s_val a) =
  map s_val (filter (fun x => cmp_eqb (compare (s_key x) k) CEqual) a).
Proof.
  intros keyf k l a HP. unfold ties. rewrite filter_map_val. f_equal.
  apply filter_ext_in. intros x Hx.
  assert (Hx' : In x (expand keyf 0 l)) by (eapply Permutation_in; [ symmetry; exact HP | assumption ]).
  apply expand_keys in Hx'. destruct Hx' as [-> _]. reflexivity.
Qed.

Lemma same_tie : forall k x y, compare x k = CEqual -> compare y k = CEqual -> compare x y = CEqual.
Proof.
  intros k x y H1 H2.
  destruct (cmp_cases y k) as [ [C D] | [ [C D] | [C D] ] ]; try congruence.
  destruct (cmp_cases x k) as [ [C' D'] | [ [C' D'] | [C' D'] ] ]; try congruence.
  assert (A : compare x y <> CGreater).
  { eapply (tp_trans _ _ TP x k y); congruence. }
  assert (B : compare y x <> CGreater).
  { eapply (tp_trans _ _ TP y k x); congruence. }
  destruct (cmp_cases x y) as [ [E F] | [ [E F] | [E F] ] ]; congruence.
Qed.

Lemma sort_sorted : forall keyf reverse (l : list V),
  exists a, sort compare keyf reverse l = Some (map s_val a) /\ Permutation (expand keyf 0 l) a /\ sorted reverse a.
Proof.
  intros keyf reverse l. destruct (sort_ok keyf reverse l) as (a & H1 & H2 & H3).
  exists a. repeat split; auto. apply H3.
  - apply ptotal_expand.
  - intros x y z _ _ _. apply less_trans.
Qed.

Lemma cmp_eqb_eq : forall a b, cmp_eqb a b = true <-> a = b.
Proof. intros a b; destruct a, b; cbn [cmp_eqb]; split; congruence. Qed.

Lemma tie_idx_sorted : forall keyf reverse (l : list V) (a : list slot) k,
  Permutation (expand keyf 0 l) a -> sorted reverse a ->
  filter (fun x => cmp_eqb (compare (s_key x) k) CEqual) a =
  if reverse then rev (filter (fun x => cmp_eqb (compare (s_key x) k) CEqual) (expand keyf 0 l))
  else filter (fun x => cmp_eqb (compare (s_key x) k) CEqual) (expand keyf 0 l).
Proof.
  intros keyf reverse l a k HP HS.
  set (f := fun x : slot => cmp_eqb (compare (s_key x) k) CEqual).
  assert (A : StronglySorted (fun x y => if reverse then s_idx y < s_idx x else s_idx x < s_idx y) (filter f a)).
  { eapply ss_strengthen; [ | apply ss_filter; exact HS ].
    intros x y Hx Hy Hl. apply filter_In in Hx. apply filter_In in Hy.
    destruct Hx as [_ Hx]. destruct Hy as [_ Hy]. unfold f in *. apply cmp_eqb_eq in Hx. apply cmp_eqb_eq in Hy.
    apply is_less_spec in Hl. rewrite (same_tie k _ _ Hx Hy) in Hl.
    destruct Hl as [ Hl | [ _ Hl ] ]; [ destruct reverse; congruence | assumption ]. }
  pose proof (ss_filter _ f _ (expand_ordered keyf l 0)) as B.
  destruct reverse.
  - eapply ss_perm_unique; [ | exact A | exact (ss_rev _ _ B) | ].
    + intros x y H1 H2. cbv beta in *. lia.
    + rewrite <- Permutation_rev. apply filter_perm. symmetry. assumption.
  - eapply ss_perm_unique; [ | exact A | exact B | ].
    + intros x y H1 H2. cbv beta in *. lia.
    + apply filter_perm. symmetry. assumption.
Qed.

Lemma ss_map_val : forall (R : V -> V -> Prop) (a : list slot),
  StronglySorted (fun x y => R (s_val x) (s_val y)) a -> StronglySorted R (map s_val a).
Proof.
  intros R a S. induction S; cbn [map]; constructor; auto.
  rewrite Forall_forall in *. intros y Hy. apply in_map_iff in Hy. destruct Hy as (z & <- & Hz). auto.
Qed.

Lemma sort_order : forall keyf reverse (l : list V),
  exists l', sort compare keyf reverse l = Some l' /\ Permutation l l' /\
   (if reverse then descending compare keyf l' else ascending compare keyf l') /\
   (forall k, ties compare keyf k l' = if reverse then rev (ties compare keyf k l) else ties compare keyf k l).
Proof.
  intros keyf reverse l. destruct (sort_sorted keyf reverse l) as (a & H1 & H2 & H3).
  exists (map s_val a). split; [ assumption | ].
  assert (Hk : forall x, In x a -> s_key x = keyf (s_val x)).
  { intros x Hx. eapply expand_keys. eapply Permutation_in; [ symmetry; exact H2 | assumption ]. }
  split; [ | split ].
  - rewrite <- (expand_vals keyf l 0) at 1. now apply Permutation_map.
  - destruct reverse; apply ss_map_val; (eapply ss_strengthen; [ | exact H3 ]);
      intros x y Hx Hy Hl; cbv beta in *; apply is_less_spec in Hl; rewrite <- (Hk x Hx), <- (Hk y Hy);
      intuition congruence.
  - intros k. rewrite (ties_filter keyf k l a H2), (tie_idx_sorted keyf reverse l a k H2 H3).
    assert (T : ties compare keyf k l =
                map s_val (filter (fun x => cmp_eqb (compare (s_key x) k) CEqual) (expand keyf 0 l))).
    { rewrite <- (ties_filter keyf k l (expand keyf 0 l)) by reflexivity. now rewrite expand_vals. }
    rewrite T.
    destruct reverse; [ apply map_rev | reflexivity ].
Qed.

End P.
