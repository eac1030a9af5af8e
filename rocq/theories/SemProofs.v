(** Proofs about semaphores. *)
From Coq Require Import ZArith List Lia Bool ZifyBool.
Import ListNotations.
From Verif Require Import Base SemSpec SemModel.
Local Open Scope Z_scope.
Ltac Zify.zify_post_hook ::= idtac.

Definition cnt (n c : Z) : Prop := 1 <= c <= n /\ n <= MAX_SEM.
Definition okpc (v : Z) (p : pc) : Prop :=
  match p with
  | Idle | RFail | RUnlock | RCast => True
  | ARead n c _ | ALock n c | AWaiting n c | AWoken n c => cnt n c
  | AWait n c => cnt n c /\ v = 0
  | ACas n c _ old => cnt n c /\ 1 <= old <= MAX_SEM
  | ALeave n _ | RLock n | RRead n => 1 <= n <= MAX_SEM
  | RCas n old => 1 <= n /\ 0 <= old /\ old + n <= MAX_SEM
  end.
Definition holds (p : pc) : bool :=
  match p with
  | ARead _ _ b | ACas _ _ b _ | ALeave _ b => b
  | AWait _ _ | RRead _ | RCas _ _ | RFail | RUnlock => true
  | _ => false
  end.
Definition is_waiting (p : pc) : bool := match p with AWaiting _ _ => true | _ => false end.
Definition will_cast (p : pc) : bool := match p with RUnlock | RCast => true | _ => false end.

Record Inv (v0 : Z) (s : sem) : Prop := mkInv {
  i_range : 0 <= value s <= MAX_SEM;
  i_pcs : forall t p, nth_error (pcs s) t = Some p -> okpc (value s) p;
  i_holds : forall t p, nth_error (pcs s) t = Some p -> (holds p = true <-> mutex s = Some t);
  i_mutex : forall t, mutex s = Some t -> exists p, nth_error (pcs s) t = Some p;
  i_wake : forall t p, nth_error (pcs s) t = Some p -> is_waiting p = true -> 0 < value s ->
             exists t' p', nth_error (pcs s) t' = Some p' /\ will_cast p' = true;
  i_sum : value s + done s + sum (map part (pcs s)) = v0 + given s
}.

Lemma set_same : forall l t p, (exists q, nth_error l t = Some q) -> nth_error (set_pc l t p) t = Some p.
Proof.
  induction l as [|x l IH]; intros [|t] p [q H]; cbn [nth_error] in H; try discriminate H; [ reflexivity | ].
  cbn [set_pc nth_error]. apply IH. exists q. exact H.
Qed.

Lemma set_other : forall l t t' p, t <> t' -> nth_error (set_pc l t p) t' = nth_error l t'.
Proof.
  induction l as [|x l IH]; intros [|t] [|t'] p H; cbn [set_pc nth_error]; try reflexivity; try congruence.
  apply IH. congruence.
Qed.

Lemma set_sum : forall l t p q, nth_error l t = Some q ->
  sum (map part (set_pc l t p)) = sum (map part l) - part q + part p.
Proof.
  unfold sum. induction l as [|x l IH]; intros [|t] p q H; cbn [nth_error] in H; try discriminate H.
  - injection H as ->. cbn [set_pc map fold_right]. lia.
  - cbn [set_pc map fold_right]. rewrite (IH _ _ _ H). lia.
Qed.

Lemma frame : forall v0 s t p v' m' p' g' d',
  Inv v0 s -> nth_error (pcs s) t = Some p ->
  0 <= v' <= MAX_SEM -> okpc v' p' ->
  (v' = value s \/ forall t' n c, t' <> t -> nth_error (pcs s) t' <> Some (AWait n c)) ->
  ((m' = mutex s /\ holds p' = holds p) \/
   (m' = Some t /\ mutex s = None /\ holds p' = true) \/
   (m' = None /\ holds p = true /\ holds p' = false)) ->
  (will_cast p' = true \/ v' = 0 \/ (v' <= value s /\ is_waiting p' = false /\ will_cast p = false) \/
   (is_waiting p' = false /\ forall t' n c, nth_error (pcs s) t' <> Some (AWaiting n c))) ->
  v' + d' + part p' - g' = value s + done s + part p - given s ->
  Inv v0 (mksem v' m' (set_pc (pcs s) t p') g' d').
Proof.
  intros v0 s t p v' m' p' g' d' I N HV HP HO HM HW HS.
  pose proof (set_same (pcs s) t p' (ex_intro _ p N)) as NS.
  assert (HMP : holds p = true <-> mutex s = Some t) by exact (i_holds _ _ I t p N).
  constructor; cbn [value mutex pcs given done].
  - exact HV.
  - intros t' q Hq. destruct (Nat.eq_dec t t') as [<-|NE].
    + rewrite NS in Hq. injection Hq as <-. exact HP.
    + rewrite set_other in Hq by exact NE. pose proof (i_pcs _ _ I t' q Hq) as O.
      destruct HO as [->|HO]; [ exact O | ].
      destruct q; try exact O. exfalso. apply (HO t' n c); [ congruence | exact Hq ].
  - intros t' q Hq. destruct (Nat.eq_dec t t') as [<-|NE].
    + rewrite NS in Hq. injection Hq as <-.
      destruct HM as [(-> & ->)|[(-> & _ & ->)|(-> & _ & ->)]]; [ exact HMP | | ].
      * split; reflexivity.
      * split; discriminate.
    + rewrite set_other in Hq by exact NE. pose proof (i_holds _ _ I t' q Hq) as O.
      destruct HM as [(-> & _)|[(-> & M & _)|(-> & M & _)]]; [ exact O | | ].
      * rewrite O, M. split; [ discriminate | intros H; congruence ].
      * rewrite O, (proj1 HMP M). split; [ intros H; congruence | discriminate ].
  - intros t' Ht'. assert (NN : t' = t \/ exists q, nth_error (pcs s) t' = Some q).
    { destruct HM as [(-> & _)|[(-> & _)|(-> & _)]]; [ right; exact (i_mutex _ _ I t' Ht') | left; congruence | discriminate Ht' ]. }
    destruct NN as [->|[q Hq]]; [ exists p'; exact NS | ].
    destruct (Nat.eq_dec t t') as [<-|NE]; [ exists p'; exact NS | ].
    exists q. rewrite set_other by exact NE. exact Hq.
  - intros t' q Hq W PV.
    destruct HW as [HW|[HW|[(H1 & H2 & H3)|(H1 & H2)]]].
    + exists t, p'. split; [ exact NS | exact HW ].
    + lia.
    + destruct (Nat.eq_dec t t') as [<-|NE].
      * rewrite NS in Hq. injection Hq as <-. congruence.
      * rewrite set_other in Hq by exact NE.
        destruct (i_wake _ _ I t' q Hq W ltac:(lia)) as (t1 & p1 & N1 & W1).
        exists t1, p1. split; [ | exact W1 ]. rewrite set_other; [ exact N1 | ].
        intros <-. rewrite N in N1. injection N1 as <-. congruence.
    + destruct (Nat.eq_dec t t') as [<-|NE].
      * rewrite NS in Hq. injection Hq as <-. congruence.
      * rewrite set_other in Hq by exact NE. destruct q; try discriminate W. exfalso. exact (H2 _ _ _ Hq).
  - rewrite (set_sum _ _ _ _ N). pose proof (i_sum _ _ I). lia.
Qed.

Lemma u32_small : forall x, 0 <= x <= MAX_SEM -> u32 x = x.
Proof. intros x H. unfold u32, uwrap. apply Z.mod_small. unfold MAX_SEM in H. lia. Qed.

Lemma inv_init : forall v n, 0 <= v <= MAX_SEM -> Inv v (init v n).
Proof.
  intros v n H.
  assert (HN : forall t p, nth_error (repeat Idle n) t = Some p -> p = Idle).
  { intros t p Hp. apply nth_error_In in Hp. apply repeat_spec in Hp. exact Hp. }
  constructor; cbn [init value mutex pcs given done].
  - exact H.
  - intros t p Hp. rewrite (HN _ _ Hp). exact Logic.I.
  - intros t p Hp. rewrite (HN _ _ Hp). split; discriminate.
  - discriminate.
  - intros t p Hp W. rewrite (HN _ _ Hp) in W. discriminate W.
  - assert (E : sum (map part (repeat Idle n)) = 0).
    { clear. unfold sum. induction n as [|n IH]; [ reflexivity | ]. cbn [repeat map fold_right part]. lia. }
    rewrite E. lia.
Qed.

Lemma nth_wake : forall l t p, nth_error (map wake l) t = Some p ->
  exists q, nth_error l t = Some q /\ p = wake q.
Proof.
  intros l t p H. rewrite nth_error_map in H. destruct (nth_error l t) as [q|]; [ | discriminate H ].
  injection H as <-. exists q. auto.
Qed.

Lemma inv_wake : forall v0 s, Inv v0 s -> Inv v0 (mksem (value s) (mutex s) (map wake (pcs s)) (given s) (done s)).
Proof.
  intros v0 s I. constructor; cbn [value mutex pcs given done].
  - exact (i_range _ _ I).
  - intros t p H. apply nth_wake in H. destruct H as (q & Hq & ->). pose proof (i_pcs _ _ I _ _ Hq) as O.
    destruct q; exact O.
  - intros t p H. apply nth_wake in H. destruct H as (q & Hq & ->). pose proof (i_holds _ _ I _ _ Hq) as O.
    destruct q; exact O.
  - intros t H. destruct (i_mutex _ _ I t H) as [p Hp]. exists (wake p). rewrite nth_error_map, Hp. reflexivity.
  - intros t p H W. apply nth_wake in H. destruct H as (q & Hq & ->). destruct q; discriminate W.
  - rewrite map_map. rewrite (map_ext (fun x => part (wake x)) part); [ exact (i_sum _ _ I) | ].
    intros []; reflexivity.
Qed.

Lemma inv_run : forall v0 s ok t p s', Inv v0 s -> nth_error (pcs s) t = Some p ->
  run ok t p s = Some s' -> Inv v0 s'.
Proof.
  intros v0 s ok t p s' I N H.
  pose proof (i_range _ _ I) as RG. pose proof (i_pcs _ _ I t p N) as OK.
  pose proof (i_holds _ _ I t p N) as HO.
  destruct p as [|n c b|n c|n c|n c|n c|n c b old|n b|n|n|n old| | |]; cbn [run] in H; try discriminate H;
    cbn [okpc] in OK; cbn [holds] in HO; cbv zeta in H.
  - (* ARead *)
    destruct (dec (value s) c =? 0) eqn:E.
    + injection H as <-. apply Z.eqb_eq in E. unfold dec in E. unfold cnt in OK.
      assert (V0 : value s = 0) by (revert E; destruct (c <? value s) eqn:F; lia).
      apply (frame v0 s t (ARead n c b)); auto.
      * destruct b; cbn [okpc]; unfold cnt; [ split; [ exact OK | exact V0 ] | exact OK ].
      * left. split; [ reflexivity | ]. destruct b; reflexivity.
      * destruct b; cbn [part]; lia.
    + injection H as <-. apply Z.eqb_neq in E. unfold dec in E. unfold cnt in OK.
      apply (frame v0 s t (ARead n c b)); auto.
      * cbn [okpc]. unfold cnt. split; [ exact OK | ]. revert E. destruct (c <? value s) eqn:F; lia.
      * right. right. left. split; [ lia | ]. split; reflexivity.
  - (* ALock *)
    destruct (mutex s) eqn:M; [ discriminate H | ]. injection H as <-.
    apply (frame v0 s t (ALock n c)); auto.
    right. right. left. split; [ cbn [with_mutex value]; lia | ]. split; reflexivity.
  - (* AWait *)
    injection H as <-. destruct OK as [OK V0].
    apply (frame v0 s t (AWait n c)); auto.
  - (* AWoken *)
    destruct (mutex s) eqn:M; [ discriminate H | ]. injection H as <-.
    apply (frame v0 s t (AWoken n c)); auto.
    right. right. left. split; [ cbn [with_mutex value]; lia | ]. split; reflexivity.
  - (* ACas *)
    destruct OK as [OK OL]. destruct (ok && (value s =? old)) eqn:E.
    + apply andb_true_iff in E. destruct E as [_ E]. apply Z.eqb_eq in E. injection H as <-.
      assert (D : 1 <= dec old c <= old /\ dec old c <= c).
      { unfold dec. unfold cnt in OK. destruct (c <? old) eqn:F; lia. }
      assert (CN : 1 <= c <= n /\ n <= MAX_SEM) by exact OK.
      unfold go, with_value. cbn [value mutex pcs given done].
      rewrite (u32_small (old - dec old c)) by lia. rewrite (u32_small (c - dec old c)) by lia.
      destruct (c - dec old c =? 0) eqn:F.
      * apply (frame v0 s t (ACas n c b old)); auto.
        -- lia.
        -- cbn [okpc]. lia.
        -- right. intros t' n' c' NE Q. pose proof (i_pcs _ _ I _ _ Q) as O. cbn [okpc] in O. lia.
        -- right. right. left. split; [ lia | ]. split; reflexivity.
        -- cbn [part]. lia.
      * apply (frame v0 s t (ACas n c b old)); auto.
        -- lia.
        -- cbn [okpc]. unfold cnt. lia.
        -- right. intros t' n' c' NE Q. pose proof (i_pcs _ _ I _ _ Q) as O. cbn [okpc] in O. lia.
        -- right. right. left. split; [ lia | ]. split; reflexivity.
        -- cbn [part]. lia.
    + injection H as <-. apply (frame v0 s t (ACas n c b old)); auto.
      right. right. left. split; [ lia | ]. split; reflexivity.
  - (* ALeave *)
    injection H as <-. destruct b; cbn [with_mutex value mutex pcs given done].
    + apply (frame v0 s t (ALeave n true)); auto.
      * exact Logic.I.
      * right. right. left. split; [ lia | ]. split; reflexivity.
      * cbn [part]. lia.
    + apply (frame v0 s t (ALeave n false)); auto.
      * exact Logic.I.
      * right. right. left. split; [ lia | ]. split; reflexivity.
      * cbn [part]. lia.
  - (* RLock *)
    destruct (mutex s) eqn:M; [ discriminate H | ]. injection H as <-.
    apply (frame v0 s t (RLock n)); auto.
    right. right. left. split; [ cbn [with_mutex value]; lia | ]. split; reflexivity.
  - (* RRead *)
    rewrite u32_small in H by lia. destruct (MAX_SEM - value s <? n) eqn:E; injection H as <-.
    + apply (frame v0 s t (RRead n)); auto.
      * exact Logic.I.
      * right. right. left. split; [ lia | ]. split; reflexivity.
    + apply (frame v0 s t (RRead n)); auto.
      * cbn [okpc]. lia.
      * right. right. left. split; [ lia | ]. split; reflexivity.
  - (* RCas *)
    destruct OK as (O1 & O2 & O3). destruct (ok && (value s =? old)) eqn:E.
    + apply andb_true_iff in E. destruct E as [_ E]. apply Z.eqb_eq in E. injection H as <-.
      rewrite u32_small by lia.
      apply (frame v0 s t (RCas n old)); auto.
      * lia.
      * exact Logic.I.
      * right. intros t' n' c' NE Q. pose proof (i_holds _ _ I _ _ Q) as O. cbn [holds] in O.
        pose proof (proj1 O eq_refl). pose proof (proj1 HO eq_refl). congruence.
      * cbn [part]. lia.
    + injection H as <-. apply (frame v0 s t (RCas n old)); auto.
      * cbn [okpc]. lia.
      * right. right. left. split; [ lia | ]. split; reflexivity.
  - (* RFail *)
    injection H as <-. apply (frame v0 s t RFail); auto.
    right. right. left. split; [ cbn [with_mutex value]; lia | ]. split; reflexivity.
  - (* RUnlock *)
    injection H as <-. apply (frame v0 s t RUnlock); auto.
  - (* RCast *)
    injection H as <-.
    assert (N2 : nth_error (map wake (pcs s)) t = Some RCast) by (rewrite nth_error_map, N; reflexivity).
    apply (frame v0 (mksem (value s) (mutex s) (map wake (pcs s)) (given s) (done s)) t RCast); auto.
    + apply inv_wake. exact I.
    + right. right. right. split; [ reflexivity | ]. cbn [pcs]. intros t' n c Q.
      apply nth_wake in Q. destruct Q as (q & _ & Q). destruct q; discriminate Q.
Qed.

Lemma inv_step : forall v0 s t a s', Inv v0 s -> step t a s = Some s' -> Inv v0 s'.
Proof.
  intros v0 s t a s' I H. unfold step in H.
  destruct (nth_error (pcs s) t) as [p|] eqn:N; [ | discriminate H ].
  pose proof (i_range _ _ I) as RG. pose proof (i_pcs _ _ I t p N) as OK.
  destruct a as [n|n|ok|].
  - destruct p; try discriminate H. destruct ((1 <=? n) && (n <=? MAX_SEM)) eqn:E; [ | discriminate H ].
    injection H as <-. apply (frame v0 s t Idle); auto.
    + cbn [okpc]. unfold cnt. lia.
    + right. right. left. split; [ lia | ]. split; reflexivity.
    + cbn [part]. lia.
  - destruct p; try discriminate H. destruct ((1 <=? n) && (n <=? MAX_SEM)) eqn:E; [ | discriminate H ].
    injection H as <-. apply (frame v0 s t Idle); auto.
    + cbn [okpc]. lia.
    + right. right. left. split; [ lia | ]. split; reflexivity.
  - eapply inv_run; eassumption.
  - destruct p; try discriminate H. injection H as <-. apply (frame v0 s t (AWaiting n c)); auto.
    right. right. left. split; [ lia | ]. split; reflexivity.
Qed.

Lemma inv_reachable : forall v0 n s, 0 <= v0 <= MAX_SEM -> reachable v0 n s -> Inv v0 s.
Proof.
  intros v0 n s HV H. induction H as [|s t a s' H IH E]; [ apply inv_init; exact HV | ].
  eapply inv_step; eassumption.
Qed.

Lemma threads_kept : forall v0 n s, reachable v0 n s -> length (pcs s) = n.
Proof.
  assert (SL : forall l t p, length (set_pc l t p) = length l).
  { induction l as [|x l IH]; intros [|t] p; cbn [set_pc length]; auto. }
  intros v0 n s H. induction H as [|s t a s' H IH E]; [ apply repeat_length | ].
  unfold step in E. destruct (nth_error (pcs s) t) as [p|]; [ | discriminate E ].
  destruct a as [k|k|ok|].
  - destruct p; try discriminate E. destruct ((1 <=? k) && (k <=? MAX_SEM)); [ | discriminate E ].
    injection E as <-. cbn [go pcs]. rewrite SL. exact IH.
  - destruct p; try discriminate E. destruct ((1 <=? k) && (k <=? MAX_SEM)); [ | discriminate E ].
    injection E as <-. cbn [go pcs]. rewrite SL. exact IH.
  - destruct p; cbn [run] in E; cbv zeta in E; try discriminate E;
      repeat match type of E with
             | (if ?b then _ else _) = _ => destruct b
             | match ?m with Some _ => _ | None => _ end = _ => destruct m
             end; try discriminate E; injection E as <-; cbn [go with_mutex with_value pcs];
      try (destruct susp); cbn [with_mutex pcs]; rewrite SL, ?map_length; exact IH.
  - destruct p; try discriminate E. injection E as <-. cbn [go pcs]. rewrite SL. exact IH.
Qed.

(** A thread which can continue. *)
Lemma holder_runs : forall t p s, holds p = true -> exists s', run true t p s = Some s'.
Proof.
  intros t p s H. destruct p; cbn [holds] in H; try discriminate H; cbn [run]; cbv zeta;
    repeat match goal with |- exists _, (if ?b then _ else _) = _ => destruct b end; eexists; reflexivity.
Qed.

Lemma stuck : forall v0 s, Inv v0 s ->
  (forall t ok, step t (Continue ok) s = None) ->
  mutex s = None /\
  forall t p, nth_error (pcs s) t = Some p -> p = Idle \/ exists n c, p = AWaiting n c /\ value s = 0.
Proof.
  intros v0 s I H.
  assert (HC : forall t p, nth_error (pcs s) t = Some p -> run true t p s = None).
  { intros t p N. specialize (H t true). unfold step in H. rewrite N in H. exact H. }
  assert (HM : mutex s = None).
  { destruct (mutex s) as [t|] eqn:M; [ | reflexivity ]. exfalso.
    destruct (i_mutex _ _ I t M) as [p N]. pose proof (proj2 (i_holds _ _ I t p N) M) as HH.
    destruct (holder_runs t p s HH) as [s' R]. rewrite (HC t p N) in R. discriminate R. }
  split; [ exact HM | ].
  assert (HP : forall t p, nth_error (pcs s) t = Some p -> p = Idle \/ exists n c, p = AWaiting n c).
  { intros t p N. specialize (HC t p N).
    destruct p; cbn [run] in HC; cbv zeta in HC; rewrite ?HM in HC; eauto;
      repeat match type of HC with (if ?b then _ else _) = _ => destruct b end; discriminate HC. }
  intros t p N. destruct (HP t p N) as [->|(n & c & ->)]; [ left; reflexivity | right ].
  exists n, c. split; [ reflexivity | ]. pose proof (i_range _ _ I) as RG.
  destruct (Z.eq_dec (value s) 0) as [E|E]; [ exact E | ]. exfalso.
  destruct (i_wake _ _ I t _ N eq_refl ltac:(lia)) as (t' & p' & N' & W).
  destruct (HP t' p' N') as [->|(n' & c' & ->)]; discriminate W.
Qed.
