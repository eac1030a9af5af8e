(** Proofs about queues and stacks of threads. *)
From Coq Require Import ZArith List Lia Bool ZifyBool.
Import ListNotations.
From Verif Require Import Base QueueSpec SemSpec QueueModel.
Local Open Scope Z_scope.
Ltac Zify.zify_post_hook ::= idtac.

Ltac tup H := match type of H with
  (?a, ?b, ?c, ?d, ?e) = (?l, ?f, ?sz, ?es, ?th) =>
    assert (l = a /\ f = b /\ sz = c /\ es = d /\ th = e) as (-> & -> & -> & -> & ->)
      by (split; [ | split; [ | split; [ | split ] ] ]; congruence); clear H end.

Ltac som H := match type of H with Some ?x = Some ?y => assert (y = x) as -> by congruence; clear H end.

Definition okq (p : qpc) : Prop :=
  match p with
  | QIdle => True
  | QRel k => 1 <= k
  | QAcq one h c => exists n, h = 2 * n /\ 1 <= c <= n /\ (one = true -> n = 1)
  | QTake one h => exists n, h = 2 * n /\ 1 <= n /\ (one = true -> n = 1)
  end.

(** The elements which are in the collection. *)
Definition contents (fifo : bool) (s : coll) : list Z :=
  if fifo then skipn (Z.to_nat (front s / 2)) (elems s) else elems s.

Record QInv (fifo : bool) (s : coll) : Prop := mkQInv {
  q_pcs : forall t p, nth_error (qpcs s) t = Some p -> okq p;
  q_front : exists f, front s = 2 * f /\ 0 <= f <= Z.of_nat (length (elems s)) /\ (fifo = false -> f = 0);
  q_few : fifo = true -> front s <= 16 \/ (4 * front s <= size s /\ front s <= 256);
  q_hist : replay fifo [] (hist s) = Some (contents fifo s);
  q_size : size s = 2 * Z.of_nat (length (contents fifo s));
  q_value : 0 <= value s <= MAX_SEM;
  q_lost : 0 <= lost s;
  q_thrown : thrown s = false;
  q_sum : value s + lost s + sum (map held (qpcs s)) = Z.of_nat (length (contents fifo s))
}.

Lemma half : forall n, 2 * n / 2 = n.
Proof. intros n. rewrite Z.mul_comm. apply Z.div_mul. lia. Qed.

Lemma skip_skip : forall (l : list Z) a b, skipn a (skipn b l) = skipn (b + a) l.
Proof.
  induction l as [|x l IH]; intros a b; [ rewrite !skipn_nil; reflexivity | ].
  destruct b as [|b]; [ reflexivity | ]. cbn [skipn Nat.add]. apply IH.
Qed.

Lemma qset_nth : forall l t t' p q, nth_error (set_qpc l t p) t' = Some q -> q = p \/ nth_error l t' = Some q.
Proof.
  induction l as [|x l IH]; intros [|t] [|t'] p q H; cbn [set_qpc nth_error] in *; try discriminate H; auto.
  - injection H as <-. auto.
  - eapply IH. exact H.
Qed.

Lemma qset_sum : forall l t p q, nth_error l t = Some q ->
  sum (map held (set_qpc l t p)) = sum (map held l) - held q + held p.
Proof.
  unfold sum. induction l as [|x l IH]; intros [|t] p q H; cbn [nth_error] in H; try discriminate H.
  - injection H as ->. cbn [set_qpc map fold_right]. lia.
  - cbn [set_qpc map fold_right]. rewrite (IH _ _ _ H). lia.
Qed.

Lemma held_nonneg : forall p, okq p -> 0 <= held p.
Proof.
  intros [|k|one h c|one h] H; cbn [okq held] in *; try lia.
  - destruct H as (n & -> & H & _). rewrite half. lia.
  - destruct H as (n & -> & H & _). rewrite half. lia.
Qed.

Lemma held_le : forall l t p, (forall t p, nth_error l t = Some p -> okq p) -> nth_error l t = Some p ->
  held p <= sum (map held l).
Proof.
  unfold sum. induction l as [|x l IH]; intros t p OK H; [ destruct t; discriminate H | ].
  pose proof (held_nonneg x (OK O x eq_refl)) as HX.
  assert (HS : 0 <= fold_right Z.add 0 (map held l)).
  { clear - OK. assert (OK' : forall t p, nth_error l t = Some p -> okq p) by (intros t p H; exact (OK (S t) p H)).
    clear OK. induction l as [|y l IH]; cbn [map fold_right]; [ lia | ].
    pose proof (held_nonneg y (OK' O y eq_refl)). specialize (IH (fun t p H => OK' (S t) p H)). lia. }
  destruct t as [|t]; cbn [nth_error] in H.
  - injection H as ->. cbn [map fold_right]. lia.
  - specialize (IH t p (fun t p H => OK (S t) p H) H). cbn [map fold_right]. lia.
Qed.

Lemma replay_app : forall fifo h1 h2 st st1, replay fifo st h1 = Some st1 ->
  replay fifo st (h1 ++ h2) = replay fifo st1 h2.
Proof.
  intros fifo h1 h2. induction h1 as [|[es|n es] h1 IH]; intros st st1 H; cbn [replay app] in *.
  - injection H as ->. reflexivity.
  - apply IH. exact H.
  - destruct (Nat.leb n (length st)); [ | discriminate H ]. cbv zeta in *.
    destruct fifo.
    + destruct (eq_lists es (firstn n st)); [ apply IH; exact H | discriminate H ].
    + destruct (eq_lists es (skipn (length st - n) st)); [ apply IH; exact H | discriminate H ].
Qed.

Lemma eq_lists_refl : forall l, eq_lists l l = true.
Proof. intros l. unfold eq_lists. destruct (list_eq_dec Z.eq_dec l l); congruence. Qed.

Lemma qinv_init : forall fifo n, QInv fifo (qinit n).
Proof.
  intros fifo n.
  assert (HN : forall t p, nth_error (repeat QIdle n) t = Some p -> p = QIdle).
  { intros t p Hp. apply nth_error_In in Hp. apply repeat_spec in Hp. exact Hp. }
  assert (E : sum (map held (repeat QIdle n)) = 0).
  { clear. unfold sum. induction n as [|n IH]; [ reflexivity | ]. cbn [repeat map fold_right held]. lia. }
  assert (C : contents fifo (qinit n) = []) by (destruct fifo; reflexivity).
  constructor; rewrite ?C; cbn [qinit elems front size value lost thrown hist qpcs length]; auto; try lia.
  - intros t p Hp. rewrite (HN _ _ Hp). exact Logic.I.
  - exists 0. cbn. lia.
  - unfold MAX_SEM. lia.
Qed.

(** Steps which do not touch the elements. *)
Lemma qframe : forall fifo s t p v' l' p',
  QInv fifo s -> nth_error (qpcs s) t = Some p -> okq p' ->
  0 <= v' <= MAX_SEM -> 0 <= l' -> v' + l' + held p' = value s + lost s + held p ->
  QInv fifo (mkcoll (elems s) (front s) (size s) v' l' (thrown s) (hist s) (set_qpc (qpcs s) t p')).
Proof.
  intros fifo s t p v' l' p' I N OK HV HL HS. destruct I as [I1 I2 I3 I4 I5 I6 I7 I8 I9].
  assert (C : contents fifo (mkcoll (elems s) (front s) (size s) v' l' (thrown s) (hist s) (set_qpc (qpcs s) t p')) = contents fifo s)
    by reflexivity.
  constructor; rewrite ?C; cbn [elems front size value lost thrown hist qpcs]; auto.
  - intros t' q Hq. apply qset_nth in Hq. destruct Hq as [->|Hq]; [ exact OK | exact (I1 _ _ Hq) ].
  - rewrite (qset_sum _ _ _ _ N). lia.
Qed.

Lemma qinv_take_queue : forall s t one h, QInv true s -> nth_error (qpcs s) t = Some (QTake one h) ->
  forall l f sz es th, queue_take one h s = (l, f, sz, es, th) ->
  QInv true (mkcoll l f sz (value s) (lost s) (thrown s || th) (hist s ++ [EPop (Z.to_nat (h / 2)) es])
               (set_qpc (qpcs s) t QIdle)).
Proof.
  intros s t one h I N l f sz es th H. pose proof (held_le _ _ _ (q_pcs _ _ I) N) as HL.
  destruct I as [I1 I2 I3 I4 I5 I6 I7 I8 I9]. destruct (I1 _ _ N) as (n & -> & Hn & Hone).
  cbn [held] in HL. rewrite half in *. destruct I2 as (fr & F1 & F2 & _).
  assert (CS : contents true s = skipn (Z.to_nat fr) (elems s)) by (unfold contents; rewrite F1, half; reflexivity).
  assert (CL : n <= Z.of_nat (length (contents true s))) by lia.
  assert (CL2 : Z.of_nat (length (contents true s)) = Z.of_nat (length (elems s)) - fr) by (rewrite CS, skipn_length; lia).
  unfold queue_take in H. cbv zeta in H.
  assert (ES : slice (elems s) (front s) (front s + 2 * n) = firstn (Z.to_nat n) (contents true s)).
  { unfold slice. rewrite CS, F1, half. replace (2 * fr + 2 * n) with (2 * (fr + n)) by lia. rewrite half.
    replace (fr + n - fr) with n by lia. reflexivity. }
  rewrite ES in H.
  assert (SK : skipn (Z.to_nat (fr + n)) (elems s) = skipn (Z.to_nat n) (contents true s)).
  { rewrite CS, skip_skip. f_equal. lia. }
  assert (TH : one && match firstn (Z.to_nat n) (contents true s) with [] => true | _ => false end = false).
  { destruct (firstn (Z.to_nat n) (contents true s)) as [|x r] eqn:E; [ | apply andb_false_r ].
    apply (f_equal (@length Z)) in E. rewrite firstn_length in E. cbn [length] in E. lia. }
  rewrite TH in H.
  assert (HR : replay true [] (hist s ++ [EPop (Z.to_nat n) (firstn (Z.to_nat n) (contents true s))]) =
               Some (skipn (Z.to_nat n) (contents true s))).
  { rewrite (replay_app _ _ _ _ _ I4). cbn [replay].
    replace (Nat.leb (Z.to_nat n) (length (contents true s))) with true by (symmetry; apply Nat.leb_le; lia).
    cbv zeta. rewrite eq_lists_refl. reflexivity. }
  assert (SL : Z.of_nat (length (skipn (Z.to_nat n) (contents true s))) = Z.of_nat (length (contents true s)) - n)
    by (rewrite skipn_length; lia).
  replace (front s + 2 * n) with (2 * (fr + n)) in H by lia. rewrite half in H.
  assert (PC : forall t' q, nth_error (set_qpc (qpcs s) t QIdle) t' = Some q -> okq q).
  { intros t' q Hq. apply qset_nth in Hq. destruct Hq as [->|Hq]; [ exact Logic.I | exact (I1 _ _ Hq) ]. }
  destruct ((16 <? 2 * (fr + n)) && ((size s - 2 * n <? 4 * (2 * (fr + n))) || (256 <? 2 * (fr + n)))) eqn:CMP;
    tup H.
  - match goal with |- QInv true ?x => assert (C : contents true x = skipn (Z.to_nat n) (contents true s)) end.
    { unfold contents at 1. cbn [elems front]. exact SK. }
    constructor; rewrite ?C; cbn [elems front size value lost thrown hist qpcs]; auto; try lia.
    + exists 0. lia.
    + rewrite I8. reflexivity.
    + rewrite (qset_sum _ _ _ _ N). cbn [held]. rewrite half. lia.
  - match goal with |- QInv true ?x => assert (C : contents true x = skipn (Z.to_nat n) (contents true s)) end.
    { unfold contents at 1. cbn [elems front]. rewrite half. exact SK. }
    constructor; rewrite ?C; cbn [elems front size value lost thrown hist qpcs]; auto; try lia.
    + exists (fr + n). lia.
    + rewrite I8. reflexivity.
    + rewrite (qset_sum _ _ _ _ N). cbn [held]. rewrite half. lia.
Qed.

Lemma qinv_take_stack : forall s t one h, QInv false s -> nth_error (qpcs s) t = Some (QTake one h) ->
  forall l f sz es th, stack_take h s = (l, f, sz, es, th) ->
  QInv false (mkcoll l f sz (value s) (lost s) (thrown s || th) (hist s ++ [EPop (Z.to_nat (h / 2)) es])
               (set_qpc (qpcs s) t QIdle)).
Proof.
  intros s t one h I N l f sz es th H. pose proof (held_le _ _ _ (q_pcs _ _ I) N) as HL.
  destruct I as [I1 I2 I3 I4 I5 I6 I7 I8 I9]. destruct (I1 _ _ N) as (n & -> & Hn & Hone).
  cbn [held] in HL. rewrite half in *.
  unfold contents in I4, I5, I9. unfold stack_take in H. rewrite half in H. cbv zeta in H.
  assert (CL : (Z.to_nat n <= length (elems s))%nat) by lia.
  rewrite (proj2 (Nat.leb_le _ _) CL) in H. tup H.
  assert (PC : forall t' q, nth_error (set_qpc (qpcs s) t QIdle) t' = Some q -> okq q).
  { intros t' q Hq. apply qset_nth in Hq. destruct Hq as [->|Hq]; [ exact Logic.I | exact (I1 _ _ Hq) ]. }
  destruct I2 as (fr & F1 & F2 & F3). specialize (F3 eq_refl). subst fr.
  assert (FL : Z.of_nat (length (firstn (length (elems s) - Z.to_nat n) (elems s))) = Z.of_nat (length (elems s)) - n)
    by (rewrite firstn_length; lia).
  constructor; unfold contents; cbn [elems front size value lost thrown hist qpcs]; auto; try lia; try discriminate.
  - exists 0. lia.
  - rewrite (replay_app _ _ _ _ _ I4). cbn [replay]. rewrite (proj2 (Nat.leb_le _ _) CL). cbv zeta.
    rewrite eq_lists_refl. reflexivity.
  - rewrite I8. reflexivity.
  - rewrite (qset_sum _ _ _ _ N). cbn [held]. rewrite half. lia.
Qed.

Lemma qinv_step : forall fifo s t a s', QInv fifo s ->
  (forall one h, a = Pop one h -> Z.even h = true) -> qstep fifo t a s = Some s' -> QInv fifo s'.
Proof.
  intros fifo s t a s' I EV H. unfold qstep in H.
  destruct (nth_error (qpcs s) t) as [p|] eqn:N; [ | discriminate H ].
  pose proof (q_pcs _ _ I _ _ N) as OK. pose proof (q_value _ _ I) as HV. pose proof (q_lost _ _ I) as HL.
  destruct a as [es|one h|].
  - destruct es as [|e r]; [ destruct p; discriminate H | ]. destruct p; try discriminate H. cbv zeta in H.
    set (es := e :: r) in *. assert (EL : 1 <= Z.of_nat (length es)) by (subst es; cbn [length]; lia).
    clearbody es. som H. destruct I as [I1 I2 I3 I4 I5 I6 I7 I8 I9].
    assert (SK : contents fifo (mkcoll (elems s ++ es) (front s) (size s + 2 * Z.of_nat (length es)) (value s) (lost s) (thrown s)
                  (hist s ++ [EPush es]) (set_qpc (qpcs s) t (QRel (Z.of_nat (length es))))) = contents fifo s ++ es).
    { unfold contents. cbn [elems front]. destruct fifo; [ | reflexivity ].
      destruct I2 as (f & F1 & F2 & _). rewrite F1, half.
      rewrite skipn_app. replace (Z.to_nat f - length (elems s))%nat with O by lia. reflexivity. }
    constructor; rewrite ?SK, ?app_length; cbn [elems front size value lost thrown hist qpcs]; auto.
    + intros t' q Hq. apply qset_nth in Hq. destruct Hq as [->|Hq]; [ exact EL | exact (I1 _ _ Hq) ].
    + destruct I2 as (f & F1 & F2 & F3). exists f. rewrite app_length. split; [ exact F1 | ]. split; [ lia | exact F3 ].
    + intros Hf. specialize (I3 Hf). lia.
    + rewrite (replay_app _ _ _ _ _ I4). reflexivity.
    + lia.
    + rewrite (qset_sum _ _ _ _ N). cbn [held]. lia.
  - destruct p; try discriminate H. cbv zeta in H.
    set (h1 := if one then 2 else h) in *.
    assert (E1 : Z.even h1 = true) by (subst h1; destruct one; [ reflexivity | exact (EV false h eq_refl) ]).
    apply Z.even_spec in E1. destruct E1 as [n En]. rewrite En, half in H.
    destruct ((1 <=? n) && (n <=? MAX_SEM)) eqn:B; [ | discriminate H ]. som H.
    apply (qframe fifo s t QIdle); auto.
    + exists n. split; [ reflexivity | ]. split; [ lia | ]. intros ->. subst h1. lia.
    + cbn [held]. rewrite half. lia.
  - destruct p as [|k|one h c|one h]; cbn [qrun] in H; cbv zeta in H.
    + discriminate H.
    + cbn [okq] in OK. destruct (value s + k <=? MAX_SEM) eqn:E; som H.
      * apply (qframe fifo s t (QRel k)); auto; try exact Logic.I; cbn [held]; lia.
      * apply (qframe fifo s t (QRel k)); auto; try exact Logic.I; cbn [held]; lia.
    + destruct OK as (n & -> & Hc & Hone).
      set (d := if c <? value s then c else value s) in *.
      assert (D : 0 <= d <= c /\ d <= value s) by (subst d; destruct (c <? value s) eqn:E; lia).
      destruct (d =? 0) eqn:E; [ discriminate H | ]. som H.
      destruct (c - d =? 0) eqn:F.
      * apply (qframe fifo s t (QAcq one (2 * n) c)); auto; cbn [held]; rewrite ?half; try lia.
        exists n. split; [ reflexivity | ]. split; [ lia | exact Hone ].
      * apply (qframe fifo s t (QAcq one (2 * n) c)); auto; cbn [held]; rewrite ?half; try lia.
        exists n. split; [ reflexivity | ]. split; [ lia | exact Hone ].
    + destruct fifo.
      * destruct (queue_take one h s) as [[[[l f] sz] es] th] eqn:Q. som H.
        eapply qinv_take_queue; eassumption.
      * destruct (stack_take h s) as [[[[l f] sz] es] th] eqn:Q. som H.
        eapply qinv_take_stack; eassumption.
Qed.

Lemma qinv_reachable : forall fifo n s, qreachable true fifo n s -> QInv fifo s.
Proof.
  intros fifo n s H. induction H as [|s t a s' H IH E1 E2]; [ apply qinv_init | ].
  eapply qinv_step; [ exact IH | | exact E2 ]. exact (E1 eq_refl).
Qed.
