(* Red-black trees: searching, walking, height, sequences of operations. *)
From Coq Require Import ZArith List Lia Bool ZifyBool.
Import ListNotations.
From Verif Require Import RbModel RbSpec RbProofs RbProofs2 RbProofs3 RbProofs4 RbProofs5.
Local Open Scope Z_scope.
Local Open Scope rb_scope.

Fixpoint height (t : tree) : nat := match t with E => O | N l _ _ r => S (Nat.max (height l) (height r)) end.

(* trees without the dummy leaf *)
Lemma rb_height n t : rb n t -> cnt LEAF t = 0 -> (height t <= 2 * n + (if red t then 1 else 0))%nat /\ (2 ^ n <= size t + 1)%nat.
Proof.
  assert (P : forall m, (2 ^ S m = 2 ^ m + 2 ^ m)%nat) by (intro; cbn [Nat.pow]; lia).
  revert n. induction t as [|l Hl a c r Hr]; intros n R C; cbn [rb height size red] in *.
  - subst n. cbn. lia.
  - cbn [cnt] in C. nn. rewrite (Z.eqb_sym LEAF a) in C. destruct (a =? LEAF) eqn:La; [ lia | ].
    destruct R as [[-> [m [-> [Rl Rr]]]]|[-> [Rl [Rr [Bl Br]]]]].
    + destruct (Hl _ Rl) as [Q1 Q2]; [ lia | ]. destruct (Hr _ Rr) as [Q3 Q4]; [ lia | ]. change (0 =? 1) with false. rewrite P.
      destruct (red l), (red r); cbv iota in *; lia.
    + destruct (Hl _ Rl) as [Q1 Q2]; [ lia | ]. destruct (Hr _ Rr) as [Q3 Q4]; [ lia | ]. rewrite Bl in Q1. rewrite Br in Q3. change (1 =? 1) with true. cbv iota in *. lia.
Qed.

Lemma ok_height t : ok [] t -> cnt LEAF t = 0 -> (height t <= 2 * Nat.log2 (size t + 1))%nat.
Proof.
  intros [n [R [_ [_ Q]]]] L. destruct (rb_height n t R L) as [H1 H2]. rewrite (Q eq_refl) in H1.
  assert (n <= Nat.log2 (size t + 1))%nat. { apply Nat.log2_le_pow2; lia. } lia.
Qed.

Lemma ord_size t : cnt LEAF t = 0 -> length (ord t) = size t.
Proof.
  induction t as [|l Hl a c r Hr]; intro C; cbn [ord size]; [ reflexivity | ]. cbn [cnt] in C. nn. rewrite (Z.eqb_sym LEAF a) in C.
  destruct (a =? LEAF); [ lia | ]. rewrite !app_length, Hl, Hr by lia. cbn [length]. lia.
Qed.

Lemma find_ok cmp what : consistent cmp what -> forall t fuel h root k, St h root k t -> cnt LEAF t = 0 -> sorted cmp (ord t) -> (height t <= fuel)%nat ->
  exists r, find fuel h (ptr t) what = Some r /\ found what (ord t) r.
Proof.
  intros Co. induction t as [|l Hl a c r Hr]; intros fuel h root k S L So Hf.
  - exists 0. split; [ destruct fuel; reflexivity | ]. right. split; [ reflexivity | intros ? [] ].
  - cbn [height] in Hf. destruct fuel as [|fuel]; [ lia | ]. cbn [find ptr]. pose proof (St_nz _ _ _ _ _ _ _ S) as Za. destruct (a =? 0) eqn:?; [ lia | ].
    assert (La : (a =? LEAF) = false). { destruct (a =? LEAF) eqn:E; [ apply Z.eqb_eq in E; subst a; pose proof (cnt_ptr l LEAF c r); lia | reflexivity ]. }
    cbn [ord] in *. rewrite La in *. apply sorted_app in So. destruct So as [So1 [So2 So3]]. cbn [app sorted] in So2. destruct So2 as [So4 So2].
    cbn [cnt] in L. nn. destruct (what a =? 0) eqn:Wa.
    + exists a. split; [ reflexivity | ]. left. split; [ rewrite !in_app_iff; cbn; auto | lia ].
    + rewrite !(St_get _ _ _ _ _ _ _ _ S). cbn [n_left n_right bind]. destruct (what a <? 0) eqn:Wn.
      * dnL S. destruct (Hl fuel _ _ _ S) as [x [E F]]; [ dd LEAF; lia | exact So1 | lia | ]. exists x. split; [ exact E | ].
        destruct F as [[F1 F2]|[F1 F2]]; [ left; split; [ rewrite in_app_iff; auto | exact F2 ] | right; split; [ exact F1 | ] ].
        intros y Hy. rewrite in_app_iff in Hy. cbn [app In] in Hy. destruct Hy as [Hy|[<-|Hy]]; [ auto | lia | ].
        destruct (Co a y (So4 _ Hy)) as [C1 _]. lia.
      * dnR S. destruct (Hr fuel _ _ _ S) as [x [E F]]; [ dd LEAF; lia | exact So2 | lia | ]. exists x. split; [ exact E | ].
        destruct F as [[F1 F2]|[F1 F2]]; [ left; split; [ rewrite !in_app_iff; auto | exact F2 ] | right; split; [ exact F1 | ] ].
        intros y Hy. rewrite in_app_iff in Hy. cbn [app In] in Hy. destruct Hy as [Hy|[<-|Hy]]; [ | lia | auto ].
        destruct (Co y a) as [_ C2]; [ apply So3; [ exact Hy | cbn; auto ] | ]. lia.
Qed.

(* walking *)
Lemma ascend_ok : forall k fuel h root t, St h root k t -> t <> E -> ccnt LEAF k = 0 -> (length k < fuel)%nat ->
  exists p, ascend fuel h (ptr t) = Some p /\
    ((p = 0 /\ rgt k = []) \/ (exists k' l c r, St h root k' (N l p c r) /\ rgt k = p :: ord r ++ rgt k' /\ (length k' < length k)%nat /\ plug k' (N l p c r) = plug k t)).
Proof.
  induction k as [|[d a c s] k IH]; intros fuel h root t S Ne L Hf; (destruct fuel as [|fuel]; [ cbn [length] in Hf; lia | ]); cbn [ascend];
    (destruct t as [|tl ta tc tr]; [ congruence | ]); rewrite !(St_get _ _ _ _ _ _ _ _ S); cbn [bind n_parent up].
  - exists 0. cbn. auto.
  - pose proof (proj1 (St_up _ _ _ _ _ _ _ _) S) as S1. pose proof (St_up0 _ _ _ _ S) as Z. cbn [up] in Z. rewrite Z. cbn [ccnt] in L. nn.
    assert (La : (a =? LEAF) = false). { rewrite (Z.eqb_sym LEAF a) in L. destruct (a =? LEAF); [ lia | reflexivity ]. }
    cbn [ptr].
    destruct d; rewrite !(St_get _ _ _ _ _ _ _ _ S1); cbn [bind n_right].
    + assert (Hn : (ptr s =? ta) = false). { pose proof (s_once _ _ _ _ S) as O. pose proof (s_null _ _ _ _ S) as G. nz G ta. pneq O s ta. lia. }
      rewrite Hn. exists a. split; [ reflexivity | ]. right. exists k, (N tl ta tc tr), c, s. split; [ exact S1 | ]. cbn [rgt length]. rewrite La. split; [ reflexivity | ]. split; [ lia | ].
      reflexivity.
    + cbn [ptr]. rewrite Z.eqb_refl. destruct (IH fuel h root _ S1) as [p [E P]]; [ congruence | dd LEAF; lia | cbn [length] in Hf; lia | ].
      cbn [ptr] in E. exists p. split; [ exact E | ]. cbn [rgt]. destruct P as [P|[k' [l' [c' [r' [P1 [P2 [P3 P4]]]]]]]]; [ auto | ].
      right. exists k', l', c', r'. split; [ exact P1 | ]. split; [ exact P2 | ]. split; [ cbn [length]; lia | ]. exact P4.
Qed.

Lemma walk_loop_ok {T} (f : Z -> T -> T * Z) fuel' : forall fuel h root k l a c r s, St h root k (N l a c r) -> cnt LEAF (plug k (N l a c r)) = 0 ->
  (size (plug k (N l a c r)) <= fuel')%nat -> (length (ord r ++ rgt k) < fuel)%nat ->
  walk_loop fuel fuel' h f a s = Some (visit f (a :: ord r ++ rgt k) s).
Proof.
  induction fuel as [|fuel IH]; intros h root k l a c r s S L Hs Hf; [ lia | ].
  destruct (cnt_LEAF_up _ _ L) as [Lk Lt].
  cbn [walk_loop visit]. pose proof (St_nz _ _ _ _ _ _ _ S) as Za. destruct (a =? 0) eqn:?; [ lia | ].
  destruct (f a s) as [s' e]. destruct (e =? 0) eqn:Ee; cbn [negb]; [ | reflexivity ].
  rewrite !(St_get _ _ _ _ _ _ _ _ S). cbn [bind n_right]. pose proof S as Sr. dnR Sr. rewrite (St_ptr0 _ _ _ _ Sr).
  pose proof (size_plug k (N l a c r)) as Hsz. cbn [size] in Hsz. pose proof (length_csize k) as Hlk.
  destruct r as [|rl ra rc rr].
  - cbn [negb ord app]. destruct (ascend_ok k fuel' _ _ _ S) as [p [E1 P]]; [ congruence | exact Lk | lia | ]. cbn [ptr] in E1. rewrite E1. cbn [bind].
    destruct P as [[-> ->]|[k' [l' [c' [r' [S1 [Hr [Hl Hp]]]]]]]].
    + destruct fuel; reflexivity.
    + rewrite Hr. apply (IH h root k' l' p c' r'); [ exact S1 | rewrite Hp; exact L | rewrite Hp; exact Hs | ].
        cbn [ord app] in Hf. rewrite Hr in Hf. cbn [length] in Hf. lia.
  - cbn [negb]. destruct (leftmost_ok fuel' _ _ _ _ Sr) as [k1 [b [d [rr' [Hr [Lf Hl]]]]]]; [ congruence | cbn [size] in *; lia | ]. rewrite Hl. cbn [bind].
    rewrite Hr in *. apply St_plug in Sr. 
    assert (Hp : plug (k1 ++ F false a c l :: k) (N E b d rr') = plug k (N l a c (plug k1 (N E b d rr')))) by (rewrite plug_app; reflexivity).
    assert (Lb : (b =? LEAF) = false). { cbn [cnt] in Lt. rewrite cnt_plug in Lt. destruct (b =? LEAF) eqn:E2; [ apply Z.eqb_eq in E2; subst b; pose proof (cnt_ptr RbProofs.E LEAF d rr'); nn; dd LEAF; lia | reflexivity ]. }
    rewrite ord_plug in *. cbn [ord app] in *. rewrite Lb in *. rewrite (lefts_lft _ Lf) in *. cbn [app] in *.
    rewrite (IH h root _ _ _ _ _ _ Sr); [ | rewrite Hp; exact L | rewrite Hp; exact Hs | ].
    + rewrite rgt_app. cbn [rgt]. rewrite <- app_assoc. reflexivity.
    + rewrite rgt_app. cbn [rgt length] in *. rewrite !app_length in *. lia.
Qed.

Lemma walk_ok {T} (f : Z -> T -> T * Z) fuel h root t s : St h root [] t -> cnt LEAF t = 0 -> (size t < fuel)%nat ->
  walk fuel h root f s = Some (visit f (ord t) s).
Proof.
  intros S L Hf. unfold walk. pose proof (s_root _ _ _ _ S) as C. cbn [plug] in C. subst root. rewrite (St_ptr0 _ _ _ _ S). destruct t as [|l a c r]; [ reflexivity | ].
  destruct (leftmost_ok fuel _ _ _ _ S) as [k1 [b [d [rr [Hr [Lf Hl]]]]]]; [ congruence | lia | ]. rewrite Hl. cbn [bind].
  rewrite Hr in *. apply St_top in S.
  assert (Lb : (b =? LEAF) = false). { rewrite cnt_plug in L. destruct (b =? LEAF) eqn:E2; [ apply Z.eqb_eq in E2; subst b; pose proof (cnt_ptr RbProofs.E LEAF d rr); nn; lia | reflexivity ]. }
  pose proof (ord_size _ L) as Hsz. rewrite ord_plug in *. cbn [ord app] in *. rewrite Lb, (lefts_lft _ Lf) in *. cbn [app length] in *.
  apply (walk_loop_ok f fuel fuel _ _ k1 RbProofs.E b d rr s S L); lia.
Qed.


(* sequences of operations *)
Lemma place_in cmp x l y : In y (place cmp x l) <-> y = x \/ In y l.
Proof.
  induction l as [|z l H]; cbn [place In]; [ intuition | ]. destruct (cmp x z <? 0); cbn [In]; [ intuition | ]. rewrite H. intuition.
Qed.
Lemma place_length cmp x l : length (place cmp x l) = S (length l).
Proof. induction l as [|z l H]; cbn [place length]; [ reflexivity | ]. destruct (cmp x z <? 0); cbn [length]; congruence. Qed.
Lemma place_sorted cmp x l : order cmp -> sorted cmp l -> sorted cmp (place cmp x l).
Proof.
  intros [Or1 Or2]. induction l as [|z l H]; cbn [place sorted]; [ cbn; tauto | ]. intros [A B]. destruct (cmp x z <? 0) eqn:E; cbn [sorted].
  - split; [ | auto ]. intros y [<-|Hy]; [ lia | ]. apply (Or2 x z y); [ lia | auto ].
  - split; [ | auto ]. intros y Hy. apply place_in in Hy. destruct Hy as [->|Hy]; [ | auto ]. destruct (Or1 x z), (Or1 z x). lia.
Qed.
Lemma remove_in x l y : In y (remove x l) <-> In y l /\ y <> x.
Proof. unfold remove. rewrite filter_In. split; intros [A B]; (split; [ exact A | ]); destruct (y =? x) eqn:E; cbn in *; try congruence; lia. Qed.
Lemma remove_sorted cmp x l : sorted cmp l -> sorted cmp (remove x l).
Proof.
  induction l as [|z l H]; cbn [sorted]; [ auto | ]. intros [A B]. unfold remove. cbn [filter]. destruct (negb (z =? x)); cbn [sorted]; [ | apply H; exact B ].
  split; [ | apply H; exact B ]. intros y Hy. apply A. apply (remove_in x l y). exact Hy.
Qed.
Lemma remove_length x l : (length (remove x l) <= length l)%nat.
Proof. induction l as [|z l H]; cbn [remove filter length] in *; [ lia | ]. unfold remove in *. cbn [filter]. destruct (negb (z =? x)); cbn [length]; lia. Qed.

Lemma existsb_in a l : existsb (Z.eqb a) l = true <-> In a l.
Proof.
  rewrite existsb_exists. split; [ intros [x [A B]]; apply Z.eqb_eq in B; subst; exact A | intro; exists a; split; [ assumption | apply Z.eqb_refl ] ].
Qed.

Definition flag (o : op) : bool * Z := match o with Insert a => (true, a) | Delete a => (false, a) end.

Lemma run_ok cmp fuel : order cmp -> forall os h root t l l', holds cmp h root t l -> steps cmp l os = Some l' -> (length l + length os + 4 <= fuel)%nat ->
  exists h' root' t', run fuel cmp h root (map flag os) = Some (h', root') /\ holds cmp h' root' t' l' /\ (length l' <= length l + length os)%nat.
Proof.
  intro Oc. induction os as [|o os IH]; intros h root t l l' H St Hf.
  - cbn in St. inversion St. subst l'. exists h, root, t. split; [ reflexivity | ]. split; [ exact H | cbn; lia ].
  - pose proof H as [S [OK [Ho [So Hx]]]].
    assert (Lf : cnt LEAF t = 0) by (apply Hx; unfold LEAF; lia).
    pose proof (ord_size t Lf) as Hsz. rewrite Ho in Hsz.
    cbn [steps length map] in *. destruct (step cmp l o) as [l1|] eqn:E; [ | discriminate ].
    assert (Hn : exists h1 root1 t1, (let (ins, a) := flag o in if ins then insert fuel h root a cmp else delete fuel h root a) = Some (h1, root1) /\ holds cmp h1 root1 t1 l1 /\ (length l1 <= length l + 1)%nat).
    { destruct o as [a|a]; cbn [step flag] in *.
      - destruct ((0 <? a) && negb (existsb (Z.eqb a) l)) eqn:C; [ | discriminate ]. inversion E. subst l1. clear E.
        apply andb_true_iff in C. destruct C as [C1 C2]. apply negb_true_iff in C2.
        assert (Na : ~ In a l) by (intro X; apply existsb_in in X; congruence).
        assert (Ca : cnt a t = 0). { destruct (Z.lt_ge_cases 0 (cnt a t)) as [X|X]; [ | pose proof (cnt_nonneg a t); lia ]. exfalso. apply Na. rewrite <- Ho. apply cnt_ord; [ lia | unfold LEAF; lia ]. }
        destruct (insert_ok cmp h root t l a fuel Oc H) as [h1 [root1 [t1 [E1 [S1 [OK1 [Or1 Cn1]]]]]]]; [ lia | exact Ca | lia | ].
        exists h1, root1, t1. split; [ exact E1 | ]. split; [ | rewrite place_length; lia ].
        split; [ exact S1 | ]. split; [ exact OK1 | ]. split; [ exact Or1 | ]. split; [ apply place_sorted; assumption | ].
        intros x Hx0. rewrite Cn1, Hx by exact Hx0. destruct (x =? a) eqn:?; lia.
      - destruct (existsb (Z.eqb a) l) eqn:C; [ | discriminate ]. inversion E. subst l1. clear E. apply existsb_in in C.
        destruct (delete_ok fuel h root t a S OK Hx) as [h1 [root1 [t1 [E1 [S1 [OK1 [Or1 Cn1]]]]]]]; [ rewrite Ho; exact C | lia | ].
        exists h1, root1, t1. split; [ exact E1 | ]. split; [ | pose proof (remove_length a l); lia ].
        split; [ exact S1 | ]. split; [ exact OK1 | ]. split; [ rewrite Or1, Ho; reflexivity | ]. split; [ apply remove_sorted; assumption | ].
        intros x Hx0. rewrite Cn1, Hx by exact Hx0. destruct (x =? a) eqn:E2; [ | lia ]. apply Z.eqb_eq in E2. subst x. exfalso.
        assert (X : 1 <= cnt a t) by (apply ord_cnt; rewrite Ho; exact C). rewrite Hx in X by exact Hx0. lia. }
    destruct Hn as [h1 [root1 [t1 [E1 [H1 L1]]]]].
    destruct (IH h1 root1 t1 l1 l' H1 St) as [h' [root' [t' [E2 [H2 L2]]]]]; [ lia | ].
    exists h', root', t'. split; [ | split; [ exact H2 | lia ] ]. cbn [run]. destruct (flag o) as [ins a]. rewrite E1. cbn [bind fst snd]. exact E2.
Qed.

Lemma empty_holds cmp h : holds cmp h 0 E [].
Proof.
  split; [ constructor; cbn; auto; intro; lia | ]. split; [ exists O; cbn; auto | ]. cbn. auto.
Qed.
