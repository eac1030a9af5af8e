(* Red-black trees: shape invariant, order of the nodes, insertion. *)
From Coq Require Import ZArith List Lia Bool ZifyBool.
Import ListNotations.
From Verif Require Import RbModel RbSpec RbProofs.
Local Open Scope Z_scope.
Local Open Scope rb_scope.

Definition red (t : tree) : bool := match t with N _ _ c _ => c =? 1 | E => false end.
Definition cred (k : ctx) : bool := match k with F _ _ c _ :: _ => c =? 1 | [] => false end.

(* n black nodes on each path, no red node has a red child; the dummy leaf counts as nothing *)
Fixpoint rb (n : nat) (t : tree) : Prop :=
  match t with
  | E => n = O
  | N l a c r =>
      if a =? LEAF then l = E /\ r = E /\ c = 0 /\ n = O
      else (c = 0 /\ exists m, n = S m /\ rb m l /\ rb m r) \/
           (c = 1 /\ rb n l /\ rb n r /\ red l = false /\ red r = false)
  end.

(* contexts for a tree with n black nodes on each path *)
Fixpoint crb (n : nat) (k : ctx) : Prop :=
  match k with
  | [] => True
  | F _ a c s :: k =>
      a <> LEAF /\
      ((c = 0 /\ rb n s /\ crb (S n) k) \/ (c = 1 /\ rb n s /\ red s = false /\ crb n k /\ cred k = false /\ k <> []))
  end.

(* the whole tree is a red-black tree with a black root *)
Definition ok (k : ctx) (t : tree) : Prop :=
  exists n, rb n t /\ crb n k /\ (cred k = true -> red t = false) /\ (k = [] -> red t = false).

(* nodes in order *)
Fixpoint ord (t : tree) : list Z :=
  match t with E => [] | N l a _ r => ord l ++ (if a =? LEAF then [] else [a]) ++ ord r end.
Fixpoint lft (k : ctx) : list Z :=
  match k with [] => [] | F true _ _ _ :: k => lft k | F false a _ s :: k => lft k ++ ord s ++ (if a =? LEAF then [] else [a]) end.
Fixpoint rgt (k : ctx) : list Z :=
  match k with [] => [] | F true a _ s :: k => (if a =? LEAF then [] else [a]) ++ ord s ++ rgt k | F false _ _ _ :: k => rgt k end.

Lemma ord_plug k t : ord (plug k t) = lft k ++ ord t ++ rgt k.
Proof.
  revert t. induction k as [|[[] a c s] k H]; intro t; cbn [plug lft rgt].
  - rewrite app_nil_r. reflexivity.
  - rewrite H. cbn [ord]. rewrite <- !app_assoc. reflexivity.
  - rewrite H. cbn [ord]. rewrite <- !app_assoc. reflexivity.
Qed.

Lemma ok_upL a c s k t : a <> LEAF -> ok (F true a c s :: k) t <-> ok k (N t a c s).
Proof.
  intro L. assert (L' : (a =? LEAF) = false) by lia. split; intros [n [R [C [P Q]]]].
  - cbn [crb cred] in *. destruct C as [_ [[-> [C1 C2]]|[-> [C1 [C2 [C3 [C4 C5]]]]]]].
    + exists (S n). cbn [rb red]. rewrite L'. split; [ | split ].
      * left. split; [ reflexivity | ]. exists n. auto.
      * exact C2.
      * split; reflexivity.
    + exists n. cbn [rb red]. rewrite L'. split; [ | split; [ exact C3 | split; [ congruence | congruence ] ] ].
      right. repeat split; auto.
  - cbn [rb red] in R. rewrite L' in R. destruct R as [[-> [m [-> [R1 R2]]]]|[-> [R1 [R2 [R3 R4]]]]].
    + exists m. cbn [crb cred]. split; [ exact R1 | ]. split; [ auto | ]. split; [ discriminate | discriminate ].
    + exists n. cbn [crb cred red] in *. split; [ exact R1 | ]. split; [ | split; [ auto | discriminate ] ].
      split; [ exact L | ]. right. repeat split; auto. { destruct (cred k); [ specialize (P eq_refl); discriminate | reflexivity ]. } intro K. specialize (Q K). discriminate.
Qed.

Lemma ok_upR a c s k t : a <> LEAF -> ok (F false a c s :: k) t <-> ok k (N s a c t).
Proof.
  intro L. assert (L' : (a =? LEAF) = false) by lia. split; intros [n [R [C [P Q]]]].
  - cbn [crb cred] in *. destruct C as [_ [[-> [C1 C2]]|[-> [C1 [C2 [C3 [C4 C5]]]]]]].
    + exists (S n). cbn [rb red]. rewrite L'. split; [ | split ].
      * left. split; [ reflexivity | ]. exists n. auto.
      * exact C2.
      * split; reflexivity.
    + exists n. cbn [rb red]. rewrite L'. split; [ | split; [ exact C3 | split; [ congruence | congruence ] ] ].
      right. repeat split; auto.
  - cbn [rb red] in R. rewrite L' in R. destruct R as [[-> [m [-> [R1 R2]]]]|[-> [R1 [R2 [R3 R4]]]]].
    + exists m. cbn [crb cred]. split; [ exact R2 | ]. split; [ auto | ]. split; [ discriminate | discriminate ].
    + exists n. cbn [crb cred red] in *. split; [ exact R2 | ]. split; [ | split; [ auto | discriminate ] ].
      split; [ exact L | ]. right. repeat split; auto. { destruct (cred k); [ specialize (P eq_refl); discriminate | reflexivity ]. } intro K. specialize (Q K). discriminate.
Qed.

Lemma ok_plug k t : ccnt LEAF k = 0 -> ok k t <-> ok [] (plug k t).
Proof.
  revert t. induction k as [|[d a c s] k H]; intros t L; cbn [plug ccnt] in *; [ tauto | ].
  pose proof (cnt_nonneg LEAF s). pose proof (ccnt_nonneg LEAF k).
  assert (a <> LEAF) by (intro; subst; rewrite Z.eqb_refl in L; lia).
  destruct d; [ rewrite ok_upL by assumption | rewrite ok_upR by assumption ]; apply H; destruct (LEAF =? a); lia.
Qed.

Lemma cnt_plug x k t : cnt x (plug k t) = cnt x t + ccnt x k.
Proof. revert t. induction k as [|[[] a c s] k H]; intro t; cbn [plug ccnt]; [ lia | | ]; rewrite H; cbn [cnt]; lia. Qed.

Lemma St_top h root k t : St h root k t <-> St h root [] (plug k t).
Proof. rewrite <- (app_nil_r k) at 1. apply St_plug. Qed.

(* lengths of lists and trees *)
Fixpoint size (t : tree) : nat := match t with E => O | N l _ _ r => (size l + 1 + size r)%nat end.
Fixpoint csize (k : ctx) : nat := match k with [] => O | F _ _ _ s :: k => (1 + size s + csize k)%nat end.

Lemma size_plug k t : size (plug k t) = (size t + csize k)%nat.
Proof. revert t. induction k as [|[[] a c s] k H]; intro t; cbn [plug csize]; [ lia | | ]; rewrite H; cbn [size]; lia. Qed.
Lemma length_csize k : (length k <= csize k)%nat.
Proof. induction k as [|[d a c s] k H]; cbn [length csize]; lia. Qed.

(* facts about the cells of the focus and of the frames *)
Ltac conjs := repeat match goal with H : _ /\ _ |- _ => destruct H end.
Ltac cells S := let A := fresh "A" in let B := fresh "B" in
  pose proof (s_rep _ _ _ _ S) as A; pose proof (s_crep _ _ _ _ S) as B; cbn [rep crep up ptr] in A, B; conjs.

Lemma lft_app k k' : lft (k ++ k') = lft k' ++ lft k.
Proof. induction k as [|[[] a c s] k H]; cbn [app lft]; [ rewrite app_nil_r; reflexivity | exact H | ]. rewrite H, <- !app_assoc. reflexivity. Qed.
Lemma rgt_app k k' : rgt (k ++ k') = rgt k ++ rgt k'.
Proof. induction k as [|[[] a c s] k H]; cbn [app rgt]; [ reflexivity | | exact H ]. rewrite H, <- !app_assoc. reflexivity. Qed.
Lemma plug_app k k' t : plug (k ++ k') t = plug k' (plug k t).
Proof. revert t. induction k as [|[[] a c s] k H]; intro t; cbn [app plug]; auto. Qed.

Lemma sorted_app cmp l l' : sorted cmp (l ++ l') <-> sorted cmp l /\ sorted cmp l' /\ (forall x y, In x l -> In y l' -> cmp x y <= 0).
Proof.
  induction l as [|a l H]; cbn [app sorted].
  - cbn. tauto.
  - rewrite H. setoid_rewrite in_app_iff. cbn [In]. split.
    + intros [A [B [C D]]]. repeat split; auto. intros x y [->|Hx] Hy; auto.
    + intros [[A B] [C D]]. repeat split; auto. intros y [Hy|Hy]; auto.
Qed.

(* insertion of a red leaf *)
Lemma insert_loop_ok cmp h root new q : order cmp -> forall t k fuel,
  St h root k t -> new <> 0 -> cnt new t + ccnt new k = 0 -> cnt LEAF t = 0 -> h new = Node q 0 0 1 -> sorted cmp (ord t) -> (size t < fuel)%nat ->
  exists h' root' k', insert_loop fuel h root (match k with [] => None | F d a _ _ :: _ => Some (a, d) end) new cmp = Some (h', root') /\
    St h' root' (k' ++ k) (N E new 1 E) /\ plug k' E = t /\
    (forall y, In y (lft k') -> 0 <= cmp new y) /\ (forall y, In y (rgt k') -> cmp new y < 0).
Proof.
  intros [Or1 Or2]. induction t as [|l Hl a c r Hr]; intros k fuel S Z C Lf N So Hf; destruct fuel as [|fuel]; cbn [size] in Hf; try lia.
  - destruct S as [A B Ro O G].
    destruct k as [|[d p pc s] k].
    + cbn [insert_loop bind]. rewrite Ro. cbn [plug ptr]. cbn [Z.eqb]. unfold sP. destruct (new =? 0) eqn:?; [ lia | ]. cbn [bind].
      eexists. eexists. exists []. split; [ reflexivity | ]. split; [ | split; [ reflexivity | cbn; tauto ] ].
      constructor; cbn [rep crep up ptr plug app]; auto.
      * ev. auto.
      * intro x. cbn [cnt ccnt]. dd x; lia.
      * cbn [cnt ccnt]. dd 0; lia.
    + cbn [crep] in B. destruct B as [Hp [Rs Rk]]. nz G p.
      assert (D0 : new <> p). { intro. subst p. cbn [ccnt] in C. rewrite Z.eqb_refl in C. nn. cbn [cnt] in C. lia. }
      assert (Hc : forall x, cnt x E + ccnt x (F d p pc s :: k) + (if x =? new then 1 else 0) <= 1).
      { intro x. destruct (x =? new) eqn:E; [ | specialize (O x); lia ]. apply Z.eqb_eq in E. subst x. lia. }
      exists (upd (upd h p (Node (up k) (if d then new else ptr s) (if d then ptr s else new) pc)) new (Node p 0 0 1)). exists root. exists [].
      split; [ destruct d; cbn [insert_loop]; unfold get, sP, sL, sR; ev; reflexivity | ]. split; [ | split; [ reflexivity | cbn; tauto ] ].
      constructor; cbn [rep crep up ptr app].
      * ev. auto.
      * ev. split; [ reflexivity | split ]; [ apply (rep_frame h); [ fr Hc | assumption ] | apply (crep_frame h); [ fr Hc | assumption ] ].
      * rewrite Ro. apply plug_ptr_nonempty.
      * intro x. specialize (Hc x). cbn [cnt ccnt] in *. dd x; lia.
      * cbn [cnt ccnt] in *. dd 0; lia.
  - assert (Hcur : match match k with [] => None | F d a _ _ :: _ => Some (a, d) end with
                   | None => Some root | Some (p, true) => gL h p | Some (p, false) => gR h p end = Some a).
    { destruct k as [|[d p pc s] k]; [ rewrite (s_root _ _ _ _ S); reflexivity | ].
      pose proof (proj1 (St_up _ _ _ _ _ _ _ _) S) as S'. destruct d; rewrite (St_get _ _ _ _ _ _ _ _ S'); reflexivity. }
    cbn [insert_loop]. rewrite Hcur. cbn [bind]. pose proof (St_nz _ _ _ _ _ _ _ S) as Za. destruct (a =? 0) eqn:?; [ lia | ].
    cbn [ord] in So. apply sorted_app in So. destruct So as [So1 [So2 So3]]. apply sorted_app in So2. destruct So2 as [_ [So2 So4]].
    cbn [cnt] in C, Lf. nn. assert (La : (a =? LEAF) = false) by (dd LEAF; lia). rewrite La in *.
    destruct (cmp new a <? 0) eqn:Ec.
    + destruct (Hl (F true a c r :: k) fuel) as [h' [root' [k' [Q1 [Q2 [Q3 [Q4 Q5]]]]]]]; auto; try lia.
      * apply St_upL. exact S.
      * cbn [ccnt]. dd new; lia.
      * dd LEAF; lia.
      * exists h', root', (k' ++ [F true a c r]). split; [ exact Q1 | ]. split; [ rewrite <- app_assoc; exact Q2 | ].
        split; [ rewrite plug_app; cbn [plug]; congruence | ]. rewrite lft_app, rgt_app. cbn [lft rgt app]. rewrite La. cbn [app]. rewrite app_nil_r. split; [ exact Q4 | ].
        intros y Hy. rewrite !in_app_iff in Hy. cbn [In] in Hy. destruct Hy as [Hy|[Hy|Hy]]; auto; [ subst; lia | ].
        destruct (Z.lt_ge_cases (cmp new y) 0); [ assumption | ]. exfalso.
        assert (cmp y new <= 0) by (destruct (Or1 new y); lia). assert (cmp a y <= 0) by (apply So4; cbn; auto).
        assert (cmp a new <= 0) by (apply (Or2 a y new); assumption). destruct (Or1 new a). lia.
    + destruct (Hr (F false a c l :: k) fuel) as [h' [root' [k' [Q1 [Q2 [Q3 [Q4 Q5]]]]]]]; auto; try lia.
      * apply St_upR. exact S.
      * cbn [ccnt]. dd new; lia.
      * dd LEAF; lia.
      * exists h', root', (k' ++ [F false a c l]). split; [ exact Q1 | ]. split; [ rewrite <- app_assoc; exact Q2 | ].
        split; [ rewrite plug_app; cbn [plug]; congruence | ]. rewrite lft_app, rgt_app. cbn [lft rgt app]. rewrite La, app_nil_r. split; [ | exact Q5 ].
        intros y Hy. rewrite !in_app_iff in Hy. cbn [In] in Hy. destruct Hy as [[Hy|[Hy|[]]]|Hy]; auto; [ | subst; lia ].
        destruct (Z.lt_ge_cases (cmp new y) 0); [ | assumption ]. exfalso.
        assert (cmp new y <= 0) by lia. assert (cmp y a <= 0) by (apply So3; cbn; auto).
        assert (cmp a new <= 0) by (destruct (Or1 new a); destruct (Or1 a new); lia).
        assert (cmp y new <= 0) by (apply (Or2 y a new); assumption). destruct (Or1 new y). lia.
Qed.

Lemma root_cnt f k t : 1 <= ccnt (ptr (plug (f :: k) t)) (f :: k).
Proof.
  revert f t. induction k as [|[d2 g gc s2] k H]; intros [d a c s] t.
  - destruct d; cbn [plug ptr ccnt]; rewrite Z.eqb_refl; nn; lia.
  - assert (Hx : 1 <= ccnt (ptr (plug (F d2 g gc s2 :: k) (if d then N t a c s else N s a c t))) (F d2 g gc s2 :: k)) by apply H.
    destruct d; cbn [plug] in *; cbn [ccnt] in *; nn; dd (ptr (if d2 then plug k (N (N t a c s) g gc s2) else plug k (N s2 g gc (N t a c s)))); try lia;
    destruct (_ =? a); lia.
Qed.

Lemma St_notroot h root f k l a c r : St h root (f :: k) (N l a c r) -> (a =? root) = false.
Proof.
  intros [_ _ C O _]. pose proof (root_cnt f k (N l a c r)) as R. rewrite <- C in R. specialize (O root). pose proof (cnt_ptr l a c r).
  destruct (a =? root) eqn:D; [ | reflexivity ]. apply Z.eqb_eq in D. subst a. lia.
Qed.

Lemma ok_top k t : ok k t -> ok [] (plug k t).
Proof.
  revert t. induction k as [|[d a c s] k H]; intros t OK; cbn [plug]; [ exact OK | ].
  assert (La : a <> LEAF) by (destruct OK as [n [_ [C _]]]; cbn [crb] in C; tauto).
  destruct d; apply H; [ apply ok_upL | apply ok_upR ]; assumption.
Qed.

(* the shape before the colours are repaired: the focus is red, its parent may be red too *)
Definition okr (k : ctx) (t : tree) : Prop := exists n, rb n t /\ red t = true /\ crb n k.

Ltac gets S := let A := fresh "A" in let B := fresh "B" in
  pose proof (s_rep _ _ _ _ S) as A; pose proof (s_crep _ _ _ _ S) as B; cbn [rep crep up ptr] in A, B; conjs.
Ltac ev2 := repeat (first [ progress cbn [bind fst snd n_parent n_left n_right n_red negb andb assert Z.eqb] | ev1 ]).
(* set the colour of the node in focus *)
Ltac col S c h' S' := let E := fresh "E" in destruct (St_sC _ _ _ _ _ _ c _ S) as [h' [E S']]; rewrite E; clear E; cbn [bind].
Ltac lrot S h' r' S' := let E := fresh "E" in destruct (left_rotate_ok _ _ _ _ _ _ _ _ _ _ S) as [h' [r' [E S']]]; rewrite E; clear E; cbn [bind fst snd].
Ltac rrot S h' r' S' := let E := fresh "E" in destruct (right_rotate_ok _ _ _ _ _ _ _ _ _ _ S) as [h' [r' [E S']]]; rewrite E; clear E; cbn [bind fst snd].
Ltac rd S := gets S; unfold get; ev2.
(* equality of orders and counts of trees plugged in the same context *)
Ltac same := try intro; rewrite ?ord_plug, ?cnt_plug; cbn [plug ord cnt ccnt]; rewrite ?ord_plug, ?cnt_plug; cbn [plug ord cnt ccnt lft rgt]; rewrite <- ?app_assoc; cbn [app]; rewrite <- ?app_assoc; first [ reflexivity | lia | idtac ].

Ltac upL S := apply (proj1 (St_upL _ _ _ _ _ _ _)) in S.
Ltac upR S := apply (proj1 (St_upR _ _ _ _ _ _ _)) in S.
Ltac dnL S := apply (proj2 (St_upL _ _ _ _ _ _ _)) in S.
Ltac dnR S := apply (proj2 (St_upR _ _ _ _ _ _ _)) in S.

Lemma is_red_ok h q t n : rep h q t -> cnt 0 t = 0 -> rb n t -> is_red h (ptr t) = Some (red t).
Proof.
  destruct t as [|l a c r]; intros R C B; unfold is_red; cbn [ptr red]; [ reflexivity | ].
  pose proof (cnt_ptr l 0 c r). destruct (a =? 0) eqn:Z; [ apply Z.eqb_eq in Z; subst a; lia | ]. cbn [rep] in R.
  unfold get. rewrite Z. destruct R as [-> _]. cbn [n_red bind]. cbn [rb] in B.
  destruct (a =? LEAF); [ | destruct B as [B|B] ]; [ destruct B as [_ [_ [-> _]]] | destruct B as [-> _] | destruct B as [-> _] ]; reflexivity.
Qed.

Ltac cz G := clear - G; cbn [cnt ccnt] in *; nn; dd 0; lia.

(* the result of the recursive call *)
Ltac fromIH IH S := let h' := fresh "h" in let root' := fresh "root" in let t' := fresh "t" in
  let I1 := fresh in let I2 := fresh in let I3 := fresh in let I4 := fresh in let I5 := fresh in
  destruct (IH _ _ _ _ _ _ _ S) as [h' [root' [t' [I1 [I2 [I3 [I4 I5]]]]]]];
  [ | cbn [length]; lia | lia | exists h', root', t'; split; [ exact I1 | ]; split; [ exact I2 | ]; split; [ exact I3 | ]; rewrite I4; split; [ same | intro; rewrite I5; same ] ].

Lemma insert_fix_ok : forall fuel h root k l a c r, St h root k (N l a c r) -> okr k (N l a c r) -> (length k < fuel)%nat -> a <> LEAF ->
  exists h' root' t', insert_fix fuel h root a = Some (h', root') /\ St h' root' [] t' /\ ok [] t' /\
    ord t' = ord (plug k (N l a c r)) /\ (forall x, cnt x t' = cnt x (plug k (N l a c r))).
Proof.
  induction fuel as [|fuel IH]; intros h root k l a c r S OK Hf La; [ lia | ].
  assert (La' : (a =? LEAF) = false) by lia.
  destruct OK as [n [R [Re C]]]. cbn [red] in Re. assert (c = 1) by lia. subst c. clear Re.
  pose proof R as R0. cbn [rb] in R0. rewrite La' in R0. destruct R0 as [[X _]|[_ [Rl [Rr [Bl Br]]]]]; [ discriminate | ].
  cbn [insert_fix].
  destruct k as [|[d1 p pc s1] k].
  - rewrite (s_root _ _ _ _ S). cbn [plug ptr]. rewrite Z.eqb_refl. cbn [bind negb].
    destruct (St_sC _ _ _ _ _ _ 0 _ S) as [h1 [E1 S1]]. rewrite E1. cbn [bind]. eexists. eexists. eexists. split; [ reflexivity | ].
    rewrite (s_root _ _ _ _ S) in S1. split; [ exact S1 | ]. split; [ | split; [ reflexivity | reflexivity ] ].
    exists (Datatypes.S n). cbn [rb]. rewrite La'. split; [ left; split; [ reflexivity | exists n; auto ] | ]. cbn. auto.
  - rewrite (St_notroot _ _ _ _ _ _ _ _ S). pose proof (St_get _ _ _ _ _ _ _ n_parent S) as G1. cbn [n_parent up] in G1. rewrite G1. cbn [bind].
    pose proof (proj1 (St_up _ _ _ _ _ _ _ _) S) as S1.
    assert (G2 : gC h p = Some pc) by (destruct d1; rewrite (St_get _ _ _ _ _ _ _ _ S1); reflexivity).
    rewrite G2. cbn [bind]. cbn [crb] in C. destruct C as [Lp [[-> [C1 C2]]|[-> [C1 [C2 [C3 [C4 C5]]]]]]].
    + cbn [Z.eqb negb]. exists h, root, (plug (F d1 p 0 s1 :: k) (N l a 1 r)). split; [ reflexivity | ].
      split; [ apply (proj1 (St_top _ _ (F d1 p 0 s1 :: k) _)); exact S | ]. split; [ | split; reflexivity ].
      apply (ok_top (F d1 p 0 s1 :: k)). exists n. split; [ exact R | ]. cbn [crb cred red]. split; [ tauto | ]. split; [ discriminate | discriminate ].
    + destruct k as [|[d2 g gc s2] k]; [ congruence | ]. cbn [cred] in C4. cbn [crb] in C3. destruct C3 as [Lg [[-> [C6 C7]]|[-> _]]]; [ | discriminate ].
      clear S1 G2 G1. pose proof (s_once _ _ _ _ S) as O. pose proof (s_null _ _ _ _ S) as G.
      assert (Lp' : (p =? LEAF) = false) by lia. assert (Lg' : (g =? LEAF) = false) by lia.
      nz G a. nz G p. nz G g. neq O a p. neq O a g. neq O p g. pneq O s2 p. pneq O s1 a. cbn [length] in Hf.
      rd S. match goal with Rs : rep h g s2 |- _ => pose proof (is_red_ok h g s2 n Rs ltac:(cz G) C6) as Hr end.
      destruct (red s2) eqn:Rs2.
      * destruct s2 as [|ul u uc ur]; [ discriminate | ]. cbn [red] in Rs2. assert (uc = 1) by lia. subst uc. nz G u. cbn [ptr] in *.
        assert (Lu : (u =? LEAF) = false) by (cbn [rb] in C6; destruct (u =? LEAF) eqn:?; [ destruct C6 as [_ [_ [? _]]]; discriminate | reflexivity ]).
        assert (Ru : rb (Datatypes.S n) (N ul u 0 ur)).
        { cbn [rb] in C6 |- *. rewrite Lu in *. destruct C6 as [[? _]|[_ [? [? _]]]]; [ discriminate | ]. left. split; [ reflexivity | ]. exists n. auto. }
        assert (Rp : rb (Datatypes.S n) (if d1 then N (N l a 1 r) p 0 s1 else N s1 p 0 (N l a 1 r))).
        { destruct d1; cbn [rb] in *; rewrite Lp', La' in *; left; (split; [ reflexivity | ]; exists n; auto). }
        destruct d2; ev2; rewrite Hr; ev2; pose proof (proj1 (St_up _ _ _ _ _ _ _ _) S) as S1; destruct d1.
        -- col S1 0 h1 S2. upL S2. dnR S2. col S2 0 h2 S3. upR S3. rd S3. col S3 1 h3 S4. fromIH IH S4.
           exists (Datatypes.S n). split; [ | split; [ reflexivity | exact C7 ] ]. cbn [rb] in *. rewrite Lg'. right. auto.
        -- col S1 0 h1 S2. upL S2. dnR S2. col S2 0 h2 S3. upR S3. rd S3. col S3 1 h3 S4. fromIH IH S4.
           exists (Datatypes.S n). split; [ | split; [ reflexivity | exact C7 ] ]. cbn [rb] in *. rewrite Lg'. right. auto.
        -- upR S1. dnL S1. col S1 0 h1 S2. upL S2. dnR S2. col S2 0 h2 S3. upR S3. rd S3. col S3 1 h3 S4. fromIH IH S4.
           exists (Datatypes.S n). split; [ | split; [ reflexivity | exact C7 ] ]. cbn [rb] in *. rewrite Lg'. right. auto.
        -- upR S1. dnL S1. col S1 0 h1 S2. upL S2. dnR S2. col S2 0 h2 S3. upR S3. rd S3. col S3 1 h3 S4. fromIH IH S4.
           exists (Datatypes.S n). split; [ | split; [ reflexivity | exact C7 ] ]. cbn [rb] in *. rewrite Lg'. right. auto.
      * destruct d2; ev2; rewrite Hr; ev2; pose proof (proj1 (St_up _ _ _ _ _ _ _ _) S) as S1; destruct d1; ev2.
        -- rd S. col S1 0 h1 S2. upL S2. rd S2. col S2 1 h2 S3. rd S3. rrot S3 h3 root3 S4. dnL S4. fromIH IH S4.
           exists n. split; [ exact R | ]. split; [ reflexivity | ]. cbn [crb rb]. rewrite Lg'. split; [ exact Lp | ]. left. repeat split; auto. right. auto 6.
        -- rd S. lrot S1 h0 root0 S2. dnL S2. rd S2. upL S2. col S2 0 h1 S3. upL S3. rd S3. col S3 1 h2 S4. rd S4. rrot S4 h3 root3 S5. dnL S5. fromIH IH S5.
           exists n. cbn [rb red]. rewrite Lp'. split; [ right; auto | ]. split; [ reflexivity | ]. cbn [crb rb]. rewrite Lg'. split; [ exact La | ]. left. repeat split; auto. right. auto 6.
        -- rd S. rrot S1 h0 root0 S2. dnR S2. rd S2. upR S2. col S2 0 h1 S3. upR S3. rd S3. col S3 1 h2 S4. rd S4. lrot S4 h3 root3 S5. dnR S5. fromIH IH S5.
           exists n. cbn [rb red]. rewrite Lp'. split; [ right; auto | ]. split; [ reflexivity | ]. cbn [crb rb]. rewrite Lg'. split; [ exact La | ]. left. repeat split; auto. right. auto 6.
        -- rd S. col S1 0 h1 S2. upR S2. rd S2. col S2 1 h2 S3. rd S3. lrot S3 h3 root3 S4. dnR S4. fromIH IH S4.
           exists n. split; [ exact R | ]. split; [ reflexivity | ]. cbn [crb rb]. rewrite Lg'. split; [ exact Lp | ]. left. repeat split; auto. right. auto 6.
Qed.

Lemma place_split cmp x l r : (forall y, In y l -> 0 <= cmp x y) -> (forall y, In y r -> cmp x y < 0) -> place cmp x (l ++ r) = l ++ x :: r.
Proof.
  induction l as [|y l H]; intros Hl Hr; cbn [app place].
  - destruct r as [|y r]; cbn [place]; [ reflexivity | ]. assert (cmp x y < 0) by (apply Hr; cbn; auto). destruct (cmp x y <? 0) eqn:?; [ reflexivity | lia ].
  - assert (0 <= cmp x y) by (apply Hl; cbn; auto). destruct (cmp x y <? 0) eqn:?; [ lia | ]. f_equal. apply H; [ | exact Hr ].
    intros z Hz. apply Hl. cbn. auto.
Qed.

(* memory with a valid tree of the nodes in list l *)
Definition holds (cmp : Z -> Z -> Z) (h : mem) (root : Z) (t : tree) (l : list Z) : Prop :=
  St h root [] t /\ ok [] t /\ ord t = l /\ sorted cmp l /\ (forall x, x <= 0 -> cnt x t = 0).

Lemma insert_ok cmp h root t l a fuel : order cmp -> holds cmp h root t l -> 0 < a -> cnt a t = 0 -> (size t < fuel)%nat ->
  exists h' root' t', insert fuel h root a cmp = Some (h', root') /\ St h' root' [] t' /\ ok [] t' /\ ord t' = place cmp a l /\
    (forall x, cnt x t' = cnt x t + (if x =? a then 1 else 0)).
Proof.
  intros Oc [S [OK [Ho [So Hx]]]] Ha Ca Hf. unfold insert.
  assert (Hs : exists h1, (h0 <- sC h a 1 ;; h0 <- sL h0 a 0 ;; sR h0 a 0) = Some h1 /\ h1 a = Node (n_parent (h a)) 0 0 1 /\
               forall x, x <> a -> h1 x = h x).
  { assert (D : a <> 0) by lia. unfold sC, sL, sR. ev. eexists. split; [ reflexivity | ]. split; [ ev; reflexivity | ]. intros x Hxa. ev. reflexivity. }
  destruct Hs as [h1 [E1 [Ea Ex]]].
  assert (S1 : St h1 root [] t).
  { apply (St_frame h); [ | exact S ]. intros x Hc. apply Ex. intro. subst x. cbn [ccnt] in Hc. lia. }
  destruct (insert_loop_ok cmp h1 root a (n_parent (h a)) Oc t [] fuel S1) as [h2 [root2 [k [E2 [S2 [P2 [L2 R2]]]]]]].
  { lia. } { cbn [ccnt]. lia. } { apply Hx. unfold LEAF. lia. } { exact Ea. } { rewrite Ho. exact So. } { exact Hf. }
  rewrite app_nil_r in S2.
  assert (Ck : ccnt LEAF k = 0). { pose proof (cnt_plug LEAF k E) as X. rewrite P2 in X. cbn [cnt] in X. rewrite Hx in X by (unfold LEAF; lia). lia. }
  assert (OKr : okr k (N E a 1 E)).
  { rewrite <- P2 in OK. apply (ok_plug k E Ck) in OK. destruct OK as [n [Rn [Cn _]]]. cbn [rb] in Rn. subst n. exists O.
    split; [ | split; [ reflexivity | exact Cn ] ]. cbn [rb]. destruct (a =? LEAF) eqn:L; [ unfold LEAF in L; lia | ]. right. auto. }
  assert (Hk : (length k < fuel)%nat). { pose proof (size_plug k E) as X. rewrite P2 in X. cbn [size] in X. pose proof (length_csize k). lia. }
  destruct (insert_fix_ok fuel h2 root2 k E a 1 E S2 OKr Hk) as [h' [root' [t' [I1 [I2 [I3 [I4 I5]]]]]]]; [ unfold LEAF; lia | ].
  exists h', root', t'. split.
  - revert E1. destruct (sC h a 1) as [x1|]; cbn [bind]; [ | discriminate ]. destruct (sL x1 a 0) as [x2|]; cbn [bind]; [ | discriminate ].
    intros ->. cbn [bind]. unfold insert_binary. rewrite E2. cbn [bind fst snd]. exact I1.
  - split; [ exact I2 | ]. split; [ exact I3 | ]. split.
    + rewrite I4, ord_plug. cbn [ord app]. destruct (a =? LEAF) eqn:L; [ unfold LEAF in L; lia | ]. rewrite <- Ho, <- P2, ord_plug. cbn [ord app].
      symmetry. apply place_split; assumption.
    + intro x. rewrite I5, <- P2, !cnt_plug. cbn [cnt]. lia.
Qed.
