(* Red-black trees: deletion as a whole. *)
From Coq Require Import ZArith List Lia Bool ZifyBool.
Import ListNotations.
From Verif Require Import RbModel RbSpec RbProofs RbProofs2 RbProofs3 RbProofs4.
Local Open Scope Z_scope.
Local Open Scope rb_scope.

Lemma focus a t : 1 <= cnt a t -> exists k l c r, t = plug k (N l a c r).
Proof.
  induction t as [|l Hl b c r Hr]; cbn [cnt]; intro C; [ lia | ].
  destruct (a =? b) eqn:E.
  - apply Z.eqb_eq in E. subst b. exists [], l, c, r. reflexivity.
  - nn. destruct (Z.lt_ge_cases 0 (cnt a l)) as [H1|H1].
    + destruct Hl as [k [l' [c' [r' ->]]]]; [ lia | ]. exists (k ++ [F true b c r]), l', c', r'. rewrite plug_app. reflexivity.
    + destruct Hr as [k [l' [c' [r' ->]]]]; [ lia | ]. exists (k ++ [F false b c l]), l', c', r'. rewrite plug_app. reflexivity.
Qed.

Lemma rb0 t : rb 0 t -> cnt LEAF t = 0 -> t = E \/ exists b, t = N E b 1 E.
Proof.
  assert (B : forall t, rb 0 t -> red t = false -> cnt LEAF t = 0 -> t = E).
  { intros [|l a c r] R C L; [ reflexivity | ]. cbn [rb red cnt] in *. nn. rewrite (Z.eqb_sym LEAF a) in L. destruct (a =? LEAF); [ lia | ].
    destruct R as [[_ [m [? _]]]|[-> _]]; discriminate. }
  destruct t as [|l a c r]; intros R L; [ auto | right ]. exists a. pose proof L as L'. cbn [rb cnt] in *. nn. rewrite (Z.eqb_sym LEAF a) in L.
  destruct (a =? LEAF); [ lia | ]. destruct R as [[_ [m [? _]]]|[-> [R1 [R2 [R3 R4]]]]]; [ discriminate | ].
  rewrite (B l), (B r) by (assumption || lia). reflexivity.
Qed.

(* a node with at most one child *)
Lemma one_child k l a c r : ok k (N l a c r) -> cnt LEAF (N l a c r) = 0 -> l = E \/ r = E ->
  (l = E /\ r = E /\ (c = 0 \/ c = 1)) \/ (c = 0 /\ exists b, (l = N E b 1 E /\ r = E) \/ (l = E /\ r = N E b 1 E)).
Proof.
  intros [n [R _]] L D. assert (La : a <> LEAF). { intro. subst a. pose proof (cnt_ptr l LEAF c r). lia. }
  assert (L' : cnt LEAF l = 0 /\ cnt LEAF r = 0) by (cbn [cnt] in L; nn; destruct (LEAF =? a); lia).
  cbn [rb] in R. destruct (a =? LEAF) eqn:?; [ lia | ]. destruct R as [[-> [m [-> [R1 R2]]]]|[-> [R1 [R2 [R3 R4]]]]].
  - destruct D as [-> | ->]; [ cbn [rb] in R1 | cbn [rb] in R2 ]; subst m.
    + destruct (rb0 r R2) as [->|[b ->]]; [ tauto | tauto | right; eauto ].
    + destruct (rb0 l R1) as [->|[b ->]]; [ tauto | tauto | right; eauto ].
  - destruct D as [-> | ->]; [ cbn [rb] in R1 | cbn [rb] in R2 ]; subst n.
    + destruct (rb0 r R2) as [->|[b ->]]; [ tauto | tauto | discriminate ].
    + destruct (rb0 l R1) as [->|[b ->]]; [ tauto | tauto | discriminate ].
Qed.

Lemma cnt0_neq t x : 1 <= cnt x t -> cnt 0 t = 0 -> x <> 0.
Proof. intros A B C. subst. lia. Qed.

Lemma Leaf0 : LEAF <> 0. Proof. unfold LEAF. lia. Qed.

(* unlinking a node without children: the dummy leaf takes its place *)
Lemma unlink_leaf h root k a c : St h root k (N E a c E) -> cnt LEAF (plug k (N E a c E)) = 0 -> c = 0 \/ c = 1 ->
  exists h' root', unlink h root a = Some (h', root', LEAF) /\
    St h' root' k (N E LEAF (match k with [] => 0 | _ => if c =? 0 then 2 else 0 end) E).
Proof.
  intros S L Hc. rewrite cnt_plug in L. destruct S as [A B C O G]. cbn [rep] in A. destruct A as [Ha _]. cbn [ptr] in *.
  pose proof Leaf0 as DL. nz G a.
  assert (O' : forall x, (if x =? LEAF then 1 else 0) + (cnt x (N E a c E) + ccnt x k) <= 1).
  { intro x. specialize (O x). destruct (x =? LEAF) eqn:E; [ | lia ]. apply Z.eqb_eq in E. subst x. lia. }
  neq O' LEAF a. unfold unlink, get. rewrite Ha. ev. cbn [Z.eqb]. 
  destruct k as [|[e g gc s] k]; cbn [up] in *.
  - ev. unfold sP. ev. eexists. eexists. split; [ reflexivity | ]. constructor; cbn [rep crep up ptr plug cnt ccnt]; auto.
    + intro x. destruct (x =? LEAF); lia.
  - nz G g. neq O' g a. neq O' g LEAF. pneq O s a. cbn [crep] in B. destruct B as [Hg [Rs Rk]].
    destruct Hc as [-> | ->]; destruct e; unfold sP, sL, sR, sC; ev; cbn [Z.eqb]; (eexists; eexists; split; [ reflexivity | ]).
    all: constructor; cbn [rep crep up ptr]; [ ev; auto | ev; split; [ reflexivity | split ]; [ apply (rep_frame h); [ fr O' | assumption ] | apply (crep_frame h); [ fr O' | assumption ] ]
      | rewrite C; apply plug_ptr_nonempty | | clear - G DL; cbn [cnt ccnt] in *; nn; dd 0; lia ].
    all: intro x; pose proof (O' x) as Ox; clear - Ox; cbn [cnt ccnt] in *; nn; dd x; lia.
Qed.

(* unlinking a black node with one red child *)
Lemma unlink_one h root k l a r b : St h root k (N l a 0 r) -> cnt LEAF (plug k (N l a 0 r)) = 0 ->
  (l = N E b 1 E /\ r = E) \/ (l = E /\ r = N E b 1 E) ->
  exists h' root', unlink h root a = Some (h', root', b) /\ h' LEAF = h LEAF /\
    St h' root' k (N E b (match k with [] => 1 | _ => 0 end) E).
Proof.
  intros S L Hc. rewrite cnt_plug in L. destruct S as [A B C O G].
  pose proof Leaf0 as DL. nz G a. assert (D1 : LEAF <> a) by (intro; subst a; pose proof (cnt_ptr l LEAF 0 r); nn; lia).
  assert (Hcells : h b = Node a 0 0 1 /\ b <> 0 /\ b <> a /\ LEAF <> b /\ ptr l = (if ptr l =? 0 then 0 else b) /\ (ptr l =? 0 = true -> ptr r = b) /\ h a = Node (up k) (ptr l) (ptr r) 0).
  { cbn [rep] in A. destruct A as [Ha [Rl Rr]]. destruct Hc as [[-> ->]|[-> ->]]; cbn [ptr rep] in *.
    - nz G b. neq O b a. destruct Rl as [Hb _]. destruct (b =? 0) eqn:E; [ lia | ]. repeat split; auto; try (intro; lia). intro; subst b. cbn [cnt] in L; rewrite Z.eqb_refl in L; nn; dd LEAF; lia.
    - nz G b. neq O b a. destruct Rr as [Hb _]. repeat split; auto. intro; subst b. cbn [cnt] in L; rewrite Z.eqb_refl in L; nn; dd LEAF; lia. }
  destruct Hcells as [Hb [D2 [D3 [D4 [Hl [Hr Ha]]]]]].
  assert (Hs : (if negb (ptr l =? 0) then Some (ptr l) else gR h a) = Some b).
  { destruct (ptr l =? 0) eqn:E; cbn [negb]; [ | congruence ]. unfold get. ev. rewrite Hr by reflexivity. reflexivity. }
  unfold unlink. rewrite (get_ex _ _ _ _ _ _ _ D Ha). cbn [bind n_left]. rewrite Hs. cbn [bind]. ev.
  rewrite (get_ex _ _ _ _ _ _ _ D Ha). cbn [bind n_parent].
  assert (Ok : forall x, ccnt x k + (if x =? a then 1 else 0) + (if x =? b then 1 else 0) <= 1).
  { intro x. specialize (O x). destruct Hc as [[-> ->]|[-> ->]]; cbn [cnt] in O; lia. }
  assert (Gk : ccnt 0 k = 0) by (clear - G; nn; lia).
  assert (Lk : ccnt LEAF k = 0) by (clear - L; nn; lia).
  destruct k as [|[e g gc s] k]; cbn [up] in *.
  - cbn [Z.eqb negb bind]. unfold sP. ev. eexists. eexists. split; [ reflexivity | ]. split; [ ev; reflexivity | ]. constructor; cbn [rep crep up ptr plug cnt ccnt]; auto.
    + ev. auto.
    + intro x. destruct (x =? b); lia.
    + destruct (0 =? b) eqn:?; lia.
  - nz Gk g. neq Ok g a. neq Ok g b. 
    assert (LEAF <> g) by (intro; subst g; cbn [ccnt] in Lk; rewrite Z.eqb_refl in Lk; nn; lia).
    pneq Ok s a. cbn [crep] in B. destruct B as [Hg [Rs Rk]].
    assert (Hp : ptr (N l a 0 r) = a) by reflexivity. rewrite Hp in Hg.
    destruct e; unfold sP, sL, sR, sC, get; ev; cbn [Z.eqb]; (eexists; eexists; split; [ reflexivity | ]); (split; [ ev; reflexivity | ]).
    all: constructor; cbn [rep crep up ptr]; [ ev; auto | ev; split; [ reflexivity | split ]; [ apply (rep_frame h); [ fr Ok | assumption ] | apply (crep_frame h); [ fr Ok | assumption ] ]
      | rewrite C; apply plug_ptr_nonempty | | clear - Gk D2; cbn [cnt ccnt] in *; nn; dd 0; lia ].
    all: intro x; pose proof (Ok x) as Ox; clear - Ox; cbn [cnt ccnt] in *; nn; dd x; lia.
Qed.

(* removing the dummy leaf from the tree *)
Lemma drop_none h root t : St h root [] t -> n_red (h LEAF) = 3 -> t <> E ->
  exists h', drop_leaf h root = Some (h', root) /\ St h' root [] (match t with E => E | N l a _ r => N l a 0 r end).
Proof.
  intros S L Ne. destruct t as [|l a c r]; [ congruence | ]. unfold drop_leaf. rewrite L. cbn [Z.eqb Pos.eqb negb bind].
  pose proof (s_root _ _ _ _ S) as C. cbn [plug ptr] in C. subst root. pose proof (St_nz _ _ _ _ _ _ _ S). ev.
  destruct (St_sC _ _ _ _ _ _ 0 _ S) as [h1 [E1 S1]]. rewrite E1. cbn [bind]. exists h1. auto.
Qed.

Lemma drop_some h root k : St h root k (N E LEAF 0 E) ->
  exists h' root', drop_leaf h root = Some (h', root') /\ St h' root' [] (match plug k E with E => E | N l a _ r => N l a 0 r end).
Proof.
  intros [A B C O G]. cbn [rep ptr] in A. destruct A as [Hl _]. cbn [ptr] in B. pose proof Leaf0 as DL. unfold drop_leaf. ev. cbn [Z.eqb negb bind assert].
  assert (Hs : exists h1 root1, (if negb (up k =? 0) then pl <- gL h (up k) ;; if pl =? LEAF then h0 <- sL h (up k) 0 ;; Some (h0, root) else h0 <- sR h (up k) 0 ;; Some (h0, root) else Some (h, 0)) = Some (h1, root1)
          /\ St h1 root1 k E).
  { destruct k as [|[e g gc s] k]; cbn [up] in *.
    - cbn [Z.eqb negb]. exists h, 0. split; [ reflexivity | ]. constructor; cbn [rep crep ptr plug cnt ccnt]; auto. intro; lia.
    - nz G g. neq O g LEAF. pneq O s LEAF. cbn [crep] in B. destruct B as [Hg [Rs Rk]].
      destruct e; unfold get, sL, sR; ev; (eexists; eexists; split; [ reflexivity | ]).
      all: constructor; cbn [rep crep up ptr]; [ exact I | ev; split; [ reflexivity | split ]; [ apply (rep_frame h); [ fr O | assumption ] | apply (crep_frame h); [ fr O | assumption ] ]
        | rewrite C; apply plug_ptr_nonempty | | clear - G; cbn [cnt ccnt] in *; nn; dd 0; lia ].
      all: intro x; pose proof (O x) as Ox; clear - Ox; cbn [cnt ccnt] in *; nn; dd x; lia. }
  destruct Hs as [h1 [root1 [E1 S1]]]. rewrite E1. cbn [bind]. clear - S1. apply St_top in S1.
  destruct (plug k E) as [|l a c r].
  - pose proof (s_root _ _ _ _ S1) as C. cbn [plug ptr] in C. subst root1. cbn [Z.eqb negb]. eauto.
  - pose proof (s_root _ _ _ _ S1) as C. cbn [plug ptr] in C. subst root1. pose proof (St_nz _ _ _ _ _ _ _ S1). ev.
    destruct (St_sC _ _ _ _ _ _ 0 _ S1) as [h2 [E2 S2]]. rewrite E2. cbn [bind]. eauto.
Qed.

Lemma cnt_LEAF_up k t : cnt LEAF (plug k t) = 0 -> ccnt LEAF k = 0 /\ cnt LEAF t = 0.
Proof. rewrite cnt_plug. nn. lia. Qed.

Lemma black_root t : ok [] t -> cnt LEAF t = 0 -> match t with E => E | N l a _ r => N l a 0 r end = t.
Proof.
  intros [n [R [_ [_ Q]]]] L. specialize (Q eq_refl). destruct t as [|l a c r]; [ reflexivity | ]. cbn [rb red] in *. pose proof (cnt_ptr l LEAF c r).
  destruct (a =? LEAF) eqn:E; [ apply Z.eqb_eq in E; subst a; lia | ]. destruct R as [[-> _]|[-> _]]; [ reflexivity | discriminate ].
Qed.

Definition same_but (a : Z) (t t' : tree) : Prop := forall x, cnt x t' = cnt x t - (if x =? a then 1 else 0).

(* the part of kos_red_black_delete after the swap *)
Lemma delete_tail fuel h root k l a c r : St h root k (N l a c r) -> ok k (N l a c r) -> cnt LEAF (plug k (N l a c r)) = 0 -> n_red (h LEAF) = 3 ->
  l = E \/ r = E -> (length k + 4 <= fuel)%nat ->
  exists h' root' t', (hrs <- unlink h root a ;; let '(h, root, succ) := hrs in hr <- delete_fix fuel h root succ ;; drop_leaf (fst hr) (snd hr)) = Some (h', root') /\
    St h' root' [] t' /\ ok [] t' /\ ord t' = lft k ++ ord l ++ ord r ++ rgt k /\ same_but a (plug k (N l a c r)) t'.
Proof.
  intros S OK L L3 Hc Hf. destruct (cnt_LEAF_up _ _ L) as [Lk Lt].
  assert (La : a <> LEAF) by (intro; subst a; pose proof (cnt_ptr l LEAF c r); lia).
  destruct (one_child _ _ _ _ _ OK Lt Hc) as [[-> [-> Hcol]]|[-> [b Hb]]].
  - destruct (unlink_leaf _ _ _ _ _ S L Hcol) as [h1 [root1 [E1 S1]]]. rewrite E1. cbn [bind].
    assert (Hd : done (delete_fix fuel h1 root1 LEAF) (plug k (N E LEAF 0 E))).
    { destruct fuel as [|fuel]; [ lia | ]. pose proof OK as [n [Rn [Cn [P Q]]]].
      assert (Hdum : forall c', (c' = 0) -> rb 0 (N E LEAF c' E)) by (intros c' ->; cbn [rb]; rewrite Z.eqb_refl; auto).
      destruct k as [|f k].
      - apply (fix_exit fuel _ _ [] E LEAF 0 E S1). exists O. split; [ apply Hdum; reflexivity | ]. cbn. auto.
      - destruct Hcol as [-> | ->]; cbn [Z.eqb] in S1.
        + apply (proj1 (rb_black _ _ _ _ La)) in Rn. destruct Rn as [m [-> [Rm _]]]. cbn [rb] in Rm. subst m.
          apply (done_eq _ _ (plug (f :: k) (N E LEAF 2 E))); [ destruct f as [[] ? ? ?]; same | destruct f as [[] ? ? ?]; same | ].
          apply fix_ok; [ exact S1 | | exact Hf ]. exists O. split; [ apply Hdum; reflexivity | exact Cn ].
        + apply (proj1 (rb_red _ _ _ _ La)) in Rn. destruct Rn as [Rm _]. cbn [rb] in Rm. subst n.
          apply fix_exit; [ exact S1 | ]. exists O. split; [ apply Hdum; reflexivity | ]. split; [ exact Cn | ]. split; reflexivity. }
    destruct Hd as [h2 [root2 [t2 [E2 [S2 [OK2 [Or2 Cn2]]]]]]]. rewrite E2. cbn [bind fst snd].
    destruct (focus LEAF t2) as [k' [l' [c' [r' ->]]]]. { rewrite Cn2, cnt_plug. pose proof (cnt_ptr E LEAF 0 E). nn. lia. }
    assert (Lk' : ccnt LEAF k' = 0 /\ cnt LEAF (N l' LEAF c' r') = 1).
    { specialize (Cn2 LEAF). rewrite !cnt_plug, Lk in Cn2. cbn [cnt] in Cn2. rewrite Z.eqb_refl in Cn2. cbn [cnt]. rewrite Z.eqb_refl. nn. lia. }
    destruct Lk' as [Lk' Lt']. apply (ok_plug _ _ Lk') in OK2. destruct OK2 as [n [Rn [Cn [P Q]]]]. cbn [rb] in Rn. rewrite Z.eqb_refl in Rn.
    destruct Rn as [-> [-> [-> ->]]]. apply St_top in S2.
    destruct (drop_some _ _ _ S2) as [h3 [root3 [E3 S3]]]. rewrite E3.
    assert (OK3 : ok [] (plug k' E)). { apply ok_top. exists O. split; [ reflexivity | ]. split; [ exact Cn | ]. split; reflexivity. }
    rewrite black_root in S3; [ | exact OK3 | rewrite cnt_plug, Lk'; reflexivity ].
    exists h3, root3, (plug k' E). split; [ reflexivity | ]. split; [ exact S3 | ]. split; [ exact OK3 | ].
    rewrite !ord_plug in Or2. cbn [ord app] in Or2. rewrite Z.eqb_refl in Or2. cbn [app] in Or2. rewrite ord_plug. cbn [ord app]. split; [ exact Or2 | ].
    intro x. specialize (Cn2 x). rewrite !cnt_plug in *. cbn [cnt] in *. lia.
  - destruct (unlink_one _ _ _ _ _ _ _ S L Hb) as [h1 [root1 [E1 [L1 S1]]]]. rewrite E1. cbn [bind].
    assert (Lb : b <> LEAF). { intro. subst b. destruct Hb as [[-> ->]|[-> ->]]; cbn [cnt] in Lt; rewrite Z.eqb_refl in Lt; dd LEAF; lia. }
    assert (Lb' : (b =? LEAF) = false) by lia. assert (La' : (a =? LEAF) = false) by lia.
    assert (Hd : delete_fix fuel h1 root1 b = Some (h1, root1)).
    { destruct fuel as [|fuel]; [ lia | ]. cbn [delete_fix]. rewrite (St_get _ _ _ _ _ _ _ _ S1). cbn [bind n_red]. destruct k; reflexivity. }
    rewrite Hd. cbn [bind fst snd]. rewrite <- L1 in L3. apply St_top in S1.
    assert (Ne : forall t, t <> E -> plug k t <> E). { clear. induction k as [|[[] ? ? ?] k H]; cbn [plug]; intros t Ht; [ exact Ht | apply H; congruence | apply H; congruence ]. }
    destruct (drop_none _ _ _ S1 L3) as [h2 [E2 S2]]; [ apply Ne; congruence | ]. rewrite E2.
    assert (OK2 : ok [] (plug k (N E b 0 E))).
    { apply ok_top. destruct OK as [n [Rn [Cn [P Q]]]]. apply (proj1 (rb_black _ _ _ _ La)) in Rn. destruct Rn as [m [-> [R1 R2]]].
      assert (m = O) by (destruct Hb as [[-> ->]|[-> ->]]; [ exact R2 | exact R1 ]). subst m.
      exists 1%nat. split; [ apply rb_black; [ exact Lb | ]; exists O; cbn; auto | ]. split; [ exact Cn | ]. split; reflexivity. }
    assert (S3 : St h2 root1 [] (plug k (N E b 0 E))).
    { destruct k as [|f k]; [ exact S2 | ]. rewrite black_root in S2; [ exact S2 | exact OK2 | ].
      rewrite cnt_plug, Lk. cbn [cnt]. rewrite (Z.eqb_sym LEAF b), Lb'. reflexivity. }
    exists h2, root1, (plug k (N E b 0 E)). split; [ reflexivity | ]. split; [ exact S3 | ]. split; [ exact OK2 | ].
    rewrite ord_plug. cbn [ord app]. rewrite Lb'. split.
    + destruct Hb as [[-> ->]|[-> ->]]; cbn [ord app]; rewrite Lb'; reflexivity.
    + intro x. rewrite !cnt_plug. destruct Hb as [[-> ->]|[-> ->]]; cbn [cnt]; lia.
Qed.

Lemma remove_not x l : ~ In x l -> remove x l = l.
Proof.
  induction l as [|y l H]; intro N; cbn [remove filter] in *; [ reflexivity | ]. unfold remove in *. cbn [filter]. cbn [In] in N.
  destruct (y =? x) eqn:E; [ apply Z.eqb_eq in E; tauto | ]. cbn [negb]. f_equal. tauto.
Qed.
Lemma remove_app x l l' : remove x (l ++ l') = remove x l ++ remove x l'.
Proof. apply filter_app. Qed.
Lemma remove_mid x l l' : ~ In x l -> ~ In x l' -> remove x (l ++ x :: l') = l ++ l'.
Proof. intros A B. rewrite remove_app, remove_not by exact A. f_equal. unfold remove. cbn [filter]. rewrite Z.eqb_refl. cbn [negb]. apply remove_not. exact B. Qed.

Lemma ord_cnt x t : In x (ord t) -> 1 <= cnt x t.
Proof.
  induction t as [|l Hl a c r Hr]; cbn [ord cnt]; [ intros [] | ]. rewrite !in_app_iff. nn. intros [Q|[Q|Q]].
  - specialize (Hl Q). destruct (x =? a); lia.
  - destruct (a =? LEAF); [ destruct Q | ]. destruct Q as [->|[]]. rewrite Z.eqb_refl. lia.
  - specialize (Hr Q). destruct (x =? a); lia.
Qed.
Lemma cnt_ord x t : 1 <= cnt x t -> x <> LEAF -> In x (ord t).
Proof.
  induction t as [|l Hl a c r Hr]; cbn [ord cnt]; intros C L; [ lia | ]. rewrite !in_app_iff. nn.
  destruct (x =? a) eqn:E; [ right; left; apply Z.eqb_eq in E; subst a; destruct (x =? LEAF) eqn:E2; [ lia | cbn; auto ] | ].
  destruct (Z.lt_ge_cases 0 (cnt x l)); [ left; apply Hl; [ lia | exact L ] | right; right; apply Hr; [ lia | exact L ] ].
Qed.

Lemma lefts_lft k : lefts k -> lft k = [].
Proof. induction k as [|[d a c s] k H]; cbn [lefts lft]; [ reflexivity | ]. intros [-> L]. auto. Qed.

Lemma rb_plug_swap k t t' : ccnt LEAF k = 0 -> (forall n, rb n t -> rb n t') -> red t = red t' -> forall n, rb n (plug k t) -> rb n (plug k t').
Proof.
  revert t t'. induction k as [|[d a c s] k H]; intros t t' L R C; cbn [plug]; [ exact R | ].
  cbn [ccnt] in L. nn. rewrite (Z.eqb_sym LEAF a) in L. assert (La : (a =? LEAF) = false) by (destruct (a =? LEAF); [ lia | reflexivity ]). rewrite La in L.
  assert (Lk : ccnt LEAF k = 0) by lia.
  destruct d; (apply H; [ exact Lk | | reflexivity ]); cbn [rb]; rewrite La; intros n [[? [m [? [? ?]]]]|[? [? [? [? ?]]]]];
    first [ left; split; [ assumption | exists m; auto ] | right; rewrite <- C; auto 7 ].
Qed.

Lemma red_plug k t t' : red t = red t' -> red (plug k t) = red (plug k t').
Proof. revert t t'. induction k as [|[[] a c s] k H]; intros t t' C; cbn [plug]; [ exact C | | ]; apply H; reflexivity. Qed.

Lemma delete_ok fuel h root t a : St h root [] t -> ok [] t -> (forall x, x <= 0 -> cnt x t = 0) -> In a (ord t) -> (size t + 4 <= fuel)%nat ->
  exists h' root' t', delete fuel h root a = Some (h', root') /\ St h' root' [] t' /\ ok [] t' /\ ord t' = remove a (ord t) /\ same_but a t t'.
Proof.
  intros S OK Hx Hin Hf. unfold delete. pose proof (ord_cnt _ _ Hin) as Ca.
  assert (L : cnt LEAF t = 0) by (apply Hx; unfold LEAF; lia).
  set (h0 := upd h LEAF (Node 0 0 0 3)).
  assert (S0 : St h0 root [] t). { apply (St_frame h); [ | exact S ]. intros x Hc. unfold h0. apply upd_other. intro. subst x. cbn [ccnt] in Hc. lia. }
  destruct (focus a t Ca) as [k [l [c [r ->]]]]. apply St_top in S0. destruct (cnt_LEAF_up _ _ L) as [Lk Lt]. apply (ok_plug _ _ Lk) in OK.
  rewrite !(St_get _ _ _ _ _ _ _ _ S0). cbn [bind n_left n_right].
  pose proof (s_once _ _ _ _ S0) as O. assert (La : (a =? LEAF) = false).
  { destruct (a =? LEAF) eqn:E; [ apply Z.eqb_eq in E; subst a; lia | reflexivity ]. }
  assert (Hord : remove a (ord (plug k (N l a c r))) = lft k ++ ord l ++ ord r ++ rgt k).
  { rewrite ord_plug. cbn [ord]. rewrite La.
    pose proof (O a) as Oa. cbn [cnt] in Oa. rewrite Z.eqb_refl in Oa.
    assert (Hl : ~ In a (ord l)) by (intro H; apply ord_cnt in H; nn; lia).
    assert (Hr : ~ In a (ord r)) by (intro H; apply ord_cnt in H; nn; lia).
    assert (Hk : ~ In a (lft k ++ rgt k)). { intro H. assert (X : In a (ord (plug k E))) by (rewrite ord_plug; exact H). apply ord_cnt in X. rewrite cnt_plug in X. cbn [cnt] in X. nn. lia. }
    rewrite in_app_iff in Hk. rewrite !remove_app. rewrite (remove_not a (lft k)), (remove_not a (ord l)), (remove_not a (ord r)), (remove_not a (rgt k)) by tauto.
    assert (R1 : remove a [a] = []) by (unfold remove; cbn [filter]; rewrite Z.eqb_refl; reflexivity). rewrite R1. cbn [app]. rewrite <- !app_assoc. reflexivity. }
  rewrite Hord. rewrite size_plug in Hf. pose proof (length_csize k) as Hk. cbn [size] in Hf.
  assert (L3 : n_red (h0 LEAF) = 3) by (unfold h0; rewrite upd_same; reflexivity).
  destruct (negb (ptr l =? 0) && negb (ptr r =? 0)) eqn:E.
  - pose proof S0 as Sl. dnL Sl. pose proof S0 as Sr. dnR Sr. rewrite (St_ptr0 _ _ _ _ Sl), (St_ptr0 _ _ _ _ Sr) in E.
    assert (Nl : l <> RbProofs.E) by (destruct l; [ discriminate | congruence ]). assert (Nr : r <> RbProofs.E) by (destruct l; [ discriminate | ]; destruct r; [ discriminate | congruence ]).
    destruct (leftmost_ok (size r) _ _ _ _ Sr Nr (le_n _)) as [k1 [b [d [rr [Hr [Lf _]]]]]]. subst r.
    apply St_plug in Sr. rewrite size_plug in Hf. pose proof (length_csize k1) as Hk1. cbn [size] in Hf.
    destruct (swap_succ_ok fuel _ _ _ _ _ _ _ _ _ _ Sr Lf Nl) as [h1 [root1 [E1 [S1 F1]]]]; [ rewrite size_plug; cbn [size]; lia | ].
    rewrite E1. cbn [bind fst snd].
    assert (Ltr : cnt LEAF l = 0 /\ cnt LEAF (plug k1 (N RbProofs.E b d rr)) = 0) by (cbn [cnt] in Lt; nn; dd LEAF; lia).
    destruct Ltr as [Ltl Ltr]. destruct (cnt_LEAF_up _ _ Ltr) as [Lk1 Lb0].
    assert (Lb : (b =? LEAF) = false). { destruct (b =? LEAF) eqn:E2; [ | reflexivity ]. apply Z.eqb_eq in E2. subst b. pose proof (cnt_ptr RbProofs.E LEAF d rr). lia. }
    assert (Lrr : cnt LEAF rr = 0) by (cbn [cnt] in Lb0; nn; dd LEAF; lia).
    assert (Lall : ccnt LEAF (k1 ++ F false b c l :: k) = 0). { rewrite ccnt_app. cbn [ccnt]. rewrite (Z.eqb_sym LEAF b), Lb. lia. }
    assert (OK1 : ok (k1 ++ F false b c l :: k) (N RbProofs.E a d rr)).
    { apply (ok_plug _ _ Lall). rewrite plug_app. cbn [plug]. apply ok_top. destruct OK as [n [Rn [Cn [P Q]]]]. exists n. split; [ | auto ].
      cbn [rb] in Rn |- *. rewrite La in Rn. rewrite Lb.
      assert (Sw : forall m, rb m (plug k1 (N RbProofs.E b d rr)) -> rb m (plug k1 (N RbProofs.E a d rr))).
      { apply rb_plug_swap; [ exact Lk1 | | reflexivity ]. intro m. cbn [rb]. rewrite La, Lb. auto. }
      rewrite (red_plug k1 (N RbProofs.E a d rr) (N RbProofs.E b d rr) eq_refl).
      destruct Rn as [[? [m [? [? ?]]]]|[? [? [? [? ?]]]]]; [ left; split; [ assumption | exists m; auto ] | right; auto 7 ]. }
    destruct (delete_tail fuel h1 root1 _ _ _ _ _ S1 OK1) as [h' [root' [t' [E2 [S2 [OK2 [Or2 Cn2]]]]]]].
    + rewrite cnt_plug, Lall. cbn [cnt]. rewrite (Z.eqb_sym LEAF a), La. lia.
    + rewrite F1; [ exact L3 | ]. rewrite ccnt_app. cbn [ccnt]. rewrite (Z.eqb_sym LEAF a), La. lia.
    + left. reflexivity.
    + rewrite app_length. cbn [length]. lia.
    + exists h', root', t'. split; [ exact E2 | ]. split; [ exact S2 | ]. split; [ exact OK2 | ]. split.
      * rewrite Or2, ord_plug, lft_app, rgt_app. cbn [lft rgt ord app]. rewrite Lb, (lefts_lft k1 Lf). cbn [app]. rewrite app_nil_r, <- !app_assoc. reflexivity.
      * intro x. rewrite Cn2. rewrite !cnt_plug, ccnt_app. cbn [ccnt cnt]. rewrite cnt_plug. cbn [cnt]. lia.
  - cbn [bind fst snd].
    assert (Hc : l = RbProofs.E \/ r = RbProofs.E).
    { pose proof S0 as Sl. dnL Sl. pose proof S0 as Sr. dnR Sr. rewrite (St_ptr0 _ _ _ _ Sl), (St_ptr0 _ _ _ _ Sr) in E. destruct l; [ auto | ]. destruct r; [ auto | discriminate ]. }
    destruct (delete_tail fuel h0 root _ _ _ _ _ S0 OK L L3 Hc) as [h' [root' [t' [E2 [S2 [OK2 [Or2 Cn2]]]]]]]; [ lia | ].
    exists h', root', t'. auto.
Qed.
