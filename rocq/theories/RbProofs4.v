(* Red-black trees: deletion. *)
From Coq Require Import ZArith List Lia Bool ZifyBool.
Import ListNotations.
From Verif Require Import RbModel RbSpec RbProofs RbProofs2 RbProofs3.
Local Open Scope Z_scope.
Local Open Scope rb_scope.

(* the inner part k of a context inside a node o *)
Definition upo (k : ctx) (o : Z) : Z := match k with [] => o | F _ a _ _ :: _ => a end.
Fixpoint seg (h : mem) (child : Z) (k : ctx) (o : Z) : Prop :=
  match k with
  | [] => True
  | F d a c s :: k =>
      h a = Node (upo k o) (if d then child else ptr s) (if d then ptr s else child) c /\ rep h a s /\ seg h a k o
  end.
Fixpoint lastc (child : Z) (k : ctx) : Z := match k with [] => child | F _ a _ _ :: k => lastc a k end.

Lemma up_app k k' : up (k ++ k') = upo k (up k').
Proof. destruct k as [|[d a c s] k]; reflexivity. Qed.

Lemma crep_app h child k k' : crep h child (k ++ k') <-> seg h child k (up k') /\ crep h (lastc child k) k'.
Proof.
  revert child. induction k as [|[d a c s] k H]; intro child; cbn [app crep seg lastc]; [ tauto | ].
  rewrite H, up_app. tauto.
Qed.

Lemma seg_app h child k d a c s o : seg h child (k ++ [F d a c s]) o <->
  seg h child k a /\ h a = Node o (if d then lastc child k else ptr s) (if d then ptr s else lastc child k) c /\ rep h a s.
Proof.
  revert child. induction k as [|[d1 a1 c1 s1] k H]; intro child; cbn [app seg lastc upo]; [ tauto | ].
  rewrite H. assert (E : upo (k ++ [F d a c s]) o = upo k a) by (destruct k as [|[] ?]; reflexivity). rewrite E. tauto.
Qed.

Lemma seg_frame h h' child k o : (forall x, 1 <= ccnt x k -> h' x = h x) -> seg h child k o -> seg h' child k o.
Proof.
  revert child. induction k as [|[d a c s] k Hk]; intros child D R; cbn [seg] in *; [ exact I | ].
  destruct R as [R1 [R2 R3]]. cbn [ccnt] in D. split; [ | split ].
  - rewrite D; [ exact R1 | ]. nn. destruct (a =? a) eqn:?; lia.
  - apply (rep_frame h); [ | exact R2 ]. intros x Hx. apply D. nn. destruct (x =? a); lia.
  - apply Hk; [ | exact R3 ]. intros x Hx. apply D. nn. destruct (x =? a); lia.
Qed.

Lemma ccnt_app x k k' : ccnt x (k ++ k') = ccnt x k + ccnt x k'.
Proof. induction k as [|[d a c s] k H]; cbn [app ccnt]; lia. Qed.

Lemma lastc_app child k d a c s : lastc child (k ++ [F d a c s]) = a.
Proof. revert child. induction k as [|[d1 a1 c1 s1] k H]; intro child; cbn [app lastc]; auto. Qed.

(* the leftmost node *)
Fixpoint lefts (k : ctx) : Prop := match k with [] => True | F d _ _ _ :: k => d = true /\ lefts k end.

Lemma lefts_app k k' : lefts (k ++ k') <-> lefts k /\ lefts k'.
Proof. induction k as [|[d a c s] k H]; cbn [app lefts]; tauto. Qed.

Lemma leftmost_ok fuel : forall t h root k, St h root k t -> t <> E -> (size t <= fuel)%nat ->
  exists k' b d rr, t = plug k' (N E b d rr) /\ lefts k' /\ leftmost fuel h (ptr t) = Some b.
Proof.
  induction fuel as [|fuel IH]; intros t h root k S Ne Hs; destruct t as [|l a c r]; try congruence; cbn [size] in Hs; try lia.
  cbn [leftmost ptr]. rewrite (St_get _ _ _ _ _ _ _ _ S). cbn [bind n_left]. dnL S. rewrite (St_ptr0 _ _ _ _ S). destruct l as [|ll la lc lr].
  - exists [], a, c, r. repeat split.
  - destruct (IH _ _ _ _ S) as [k' [b [d [rr [A [B C]]]]]]; [ congruence | cbn [size] in *; lia | ].
    exists (k' ++ [F true a c r]), b, d, rr. split; [ rewrite plug_app, <- A; reflexivity | ]. split; [ | exact C ].
    apply lefts_app. cbn. auto.
Qed.

(* shapes of the path from the successor to the node *)
Fixpoint lm (t : tree) : Z := match t with E => 0 | N E a _ _ => a | N l _ _ _ => lm l end.
Lemma lm_plug k t : lefts k -> t <> E -> lm (plug k t) = lm t.
Proof.
  revert t. induction k as [|[d a c s] k H]; intros t L Ne; cbn [plug lefts] in *; [ reflexivity | ]. destruct L as [-> L].
  rewrite H by (auto; congruence). destruct t; [ congruence | reflexivity ].
Qed.

Lemma path_cases k : lefts k -> k = [] \/ (exists p pc s, k = [F true p pc s]) \/
  (exists p pc s k' q qc s', k = F true p pc s :: k' ++ [F true q qc s']).
Proof.
  destruct k as [|[d p pc s] k]; intro L; [ auto | ]. cbn [lefts] in L. destruct L as [-> L].
  destruct k as [|[d q qc s'] k'' _] using rev_ind; [ right; left; eauto | ].
  apply lefts_app in L. destruct L as [L [-> _]]. right. right. exists p, pc, s, k'', q, qc, s'. reflexivity.
Qed.

(* one write: the cells known before are known after it, the other addresses are unchanged *)
Lemma sP_ex h p v : p <> 0 -> exists h1, sP h p v = Some h1 /\ (forall a b c d, h p = Node a b c d -> h1 p = Node v b c d) /\ (forall x, x <> p -> h1 x = h x).
Proof. intro D. unfold sP. ev. eexists. split; [ reflexivity | ]. split; [ intros a b c d H; rewrite H; ev; reflexivity | intros x Hx; ev; reflexivity ]. Qed.
Lemma sL_ex h p v : p <> 0 -> exists h1, sL h p v = Some h1 /\ (forall a b c d, h p = Node a b c d -> h1 p = Node a v c d) /\ (forall x, x <> p -> h1 x = h x).
Proof. intro D. unfold sL. ev. eexists. split; [ reflexivity | ]. split; [ intros a b c d H; rewrite H; ev; reflexivity | intros x Hx; ev; reflexivity ]. Qed.
Lemma sR_ex h p v : p <> 0 -> exists h1, sR h p v = Some h1 /\ (forall a b c d, h p = Node a b c d -> h1 p = Node a b v d) /\ (forall x, x <> p -> h1 x = h x).
Proof. intro D. unfold sR. ev. eexists. split; [ reflexivity | ]. split; [ intros a b c d H; rewrite H; ev; reflexivity | intros x Hx; ev; reflexivity ]. Qed.
Lemma sC_ex h p v : p <> 0 -> exists h1, sC h p v = Some h1 /\ (forall a b c d, h p = Node a b c d -> h1 p = Node a b c v) /\ (forall x, x <> p -> h1 x = h x).
Proof. intro D. unfold sC. ev. eexists. split; [ reflexivity | ]. split; [ intros a b c d H; rewrite H; ev; reflexivity | intros x Hx; ev; reflexivity ]. Qed.
Lemma get_ex f h p a b c d : p <> 0 -> h p = Node a b c d -> get f h p = Some (f (Node a b c d)).
Proof. intros D H. unfold get. ev. reflexivity. Qed.

Ltac cellsto h p W K := repeat match goal with
  | H : h p = Node _ _ _ _ |- _ => apply W in H
  | H : h ?y = Node _ _ _ _ |- _ => rewrite <- (K y) in H by (assumption || (apply not_eq_sym; assumption))
  end.
Ltac wr1 L h p v := let h1 := fresh "h" in let E := fresh "E" in let W := fresh "W" in let K := fresh "K" in
  destruct (L h p v ltac:(assumption)) as [h1 [E [W K]]]; rewrite E; clear E; cellsto h p W K; clear W; cbn [bind fst snd].
Ltac ev3 := repeat match goal with
  | |- context [?a =? ?a] => rewrite (Z.eqb_refl a)
  | D : ?a <> ?b |- context [?a =? ?b] => rewrite (proj2 (Z.eqb_neq a b) D)
  | D : ?b <> ?a |- context [?a =? ?b] => rewrite (proj2 (Z.eqb_neq a b) (not_eq_sym D))
  end; cbn [negb bind fst snd assert n_parent n_left n_right n_red Z.eqb].
Ltac wr := match goal with
  | |- context [get ?f ?h ?p] => 
      match goal with H : h p = Node ?a ?b ?c ?d |- _ => rewrite (get_ex f h p a b c d ltac:(assumption) H) end; ev3
  | |- context [sP ?h ?p ?v] => wr1 sP_ex h p v
  | |- context [sL ?h ?p ?v] => wr1 sL_ex h p v
  | |- context [sR ?h ?p ?v] => wr1 sR_ex h p v
  | |- context [sC ?h ?p ?v] => wr1 sC_ex h p v
  end.

Lemma if_nonneg x b : 0 <= if x =? b then 1 else 0.
Proof. destruct (x =? b); lia. Qed.
Ltac nni := repeat match goal with
  | H : context [if ?x =? ?b then 1 else 0] |- _ =>
      lazymatch goal with P : 0 <= (if x =? b then 1 else 0) |- _ => fail | _ => pose proof (if_nonneg x b) end
  end.
Ltac absi := repeat match goal with
  | H : context [if ?x =? ?b then 1 else 0] |- _ => generalize dependent (if x =? b then 1 else 0); intros
  end.

(* x is counted in a part of the tree, hence it differs from the addresses which were written *)
Ltac unw O := let x := fresh "x" in let Hx := fresh "Hx" in let Ox := fresh "Ox" in
  intros x Hx; pose proof (O x) as Ox;
  repeat match goal with
  | K : forall y, y <> ?p -> ?h1 y = ?h0 y |- ?h1 x = _ =>
      rewrite (K x) by (let Z := fresh "Z" in clear - Ox Hx; intro Z; subst x; cbn [cnt ccnt] in Ox, Hx; rewrite ?Z.eqb_refl in Ox; rewrite ?Z.eqb_refl in Hx; nn; nni; lia)
  end; reflexivity.
Ltac sp h O := repeat match goal with
  | |- _ /\ _ => split
  | |- True => exact I
  | |- rep _ _ _ => apply (rep_frame h); [ unw O | assumption ]
  | |- crep _ _ _ => apply (crep_frame h); [ unw O | assumption ]
  | |- seg _ _ _ _ => apply (seg_frame h); [ unw O | assumption ]
  | |- ?h ?x = Node _ _ _ _ => assumption
  end.

(* x is not in the tree *)
Ltac outs := let x := fresh "x" in let Hx := fresh "Hx" in
  intros x Hx; rewrite ?ccnt_app in Hx;
  repeat match goal with
  | K : forall y, y <> ?p -> ?h1 y = ?h0 y |- ?h1 x = _ =>
      rewrite (K x) by (let Z := fresh "Z" in clear - Hx; intro Z; subst x; cbn [cnt ccnt app] in Hx; rewrite ?ccnt_app in Hx; cbn [cnt ccnt] in Hx; rewrite ?Z.eqb_refl in Hx; nn; nni; lia)
  end; reflexivity.

Lemma swap_succ_ok fuel h root k k1 l a c b d rr : St h root (k1 ++ F false a c l :: k) (N E b d rr) -> lefts k1 -> l <> E ->
  (size (plug k1 (N E b d rr)) <= fuel)%nat ->
  exists h' root', swap_succ fuel h root a = Some (h', root') /\ St h' root' (k1 ++ F false b c l :: k) (N E a d rr) /\
    (forall x, cnt x (N E b d rr) + ccnt x (k1 ++ F false a c l :: k) = 0 -> h' x = h x).
Proof.
  intros S L Nl Hf.
  assert (Hl : leftmost fuel h (ptr (plug k1 (N E b d rr))) = Some b).
  { pose proof (proj1 (St_plug _ _ _ _ _) S) as S1. destruct (leftmost_ok fuel _ _ _ _ S1) as [k' [b' [d' [rr' [A [B Cb]]]]]].
    { destruct k1 as [|[[] ? ? ?] k1]; cbn [plug]; [ congruence | | ]; intro X; pose proof (f_equal size X) as Y; rewrite size_plug in Y; cbn [size] in Y; lia. }
    { exact Hf. }
    rewrite Cb. f_equal. apply (f_equal lm) in A. rewrite !lm_plug in A by (auto; congruence). cbn [lm] in A. congruence. }
  destruct l as [|ll la lc lr]; [ congruence | ].
  assert (Hgr : gR h a = Some (ptr (plug k1 (N E b d rr)))).
  { pose proof (proj1 (St_plug _ _ _ _ _) S) as S1. upR S1. rewrite (St_get _ _ _ _ _ _ _ _ S1). reflexivity. }
  unfold swap_succ. rewrite Hgr. cbn [bind]. rewrite Hl. cbn [bind].
  destruct S as [A B C O G]. cbn [rep] in A. destruct A as [Hb [_ Rrr]].
  destruct (path_cases k1 L) as [->|[[p [pc [s ->]]]|[p [pc [s [k2 [q [qc [s' ->]]]]]]]]].
  - cbn [app] in *. cbn [crep] in B. destruct B as [Ha [Rl Rk]]. cbn [rep ptr plug] in *. destruct Rl as [Hla [Rll Rlr]].
    clear Hgr Hl Hf. nz G a. nz G b. nz G la. neq O a b. neq O a la. neq O b la.
    destruct rr as [|rl ra rc rr]; [ | nz G ra; neq O ra a; neq O ra b; neq O ra la; cbn [rep] in Rrr; destruct Rrr as [Hra [Rrl Rrr]] ];
    (destruct k as [|[e g gc s] k]; cbn [up ptr crep] in *;
     [ | nz G g; neq O g a; neq O g b; neq O g la; try neq O g ra; pneq O s a; destruct Rk as [Hg [Rs Rk]]; destruct e ]);
    repeat first [ progress ev3 | wr ]; (eexists; eexists; split; [ reflexivity | ]; split; [ | outs ]).
    all: constructor; cbn [app plug up ptr rep crep]; [ sp h O | sp h O | first [ reflexivity | rewrite C; cbn [plug]; apply plug_ptr; reflexivity ] | cn O | clear - G; cbn [cnt ccnt] in *; dd 0; lia ].
  - cbn [app up] in Hb. rewrite crep_app in B. cbn [app up crep seg upo lastc] in B. destruct B as [[Hp [Rs _]] [Ha [Rl Rk]]]. cbn [rep ptr plug] in *. destruct Rl as [Hla [Rll Rlr]].
    cbn [app] in *. clear Hgr Hl Hf.
    nz G a. nz G b. nz G la. nz G p. neq O a b. neq O a la. neq O b la. neq O p a. neq O p b. neq O p la.
    destruct rr as [|rl ra rc rr]; [ | nz G ra; neq O ra a; neq O ra b; neq O ra la; neq O ra p; cbn [rep] in Rrr; destruct Rrr as [Hra [Rrl Rrr]] ];
    (destruct k as [|[e g gc sg] k]; cbn [up ptr crep] in *;
     [ | nz G g; neq O g a; neq O g b; neq O g la; neq O g p; try neq O g ra; pneq O sg a; destruct Rk as [Hg [Rsg Rk]]; destruct e ]);
    repeat first [ progress ev3 | wr ]; (eexists; eexists; split; [ reflexivity | ]; split; [ | outs ]).
    all: constructor; cbn [app plug up ptr rep crep]; [ sp h O | sp h O | first [ reflexivity | rewrite C; cbn [plug]; apply plug_ptr; reflexivity ] | cn O | clear - G; cbn [cnt ccnt] in *; dd 0; lia ].
  - cbn [app up] in Hb. cbn [app] in B. rewrite <- app_assoc in B. change (F true p pc s :: k2 ++ [F true q qc s'] ++ F false a c (N ll la lc lr) :: k) with
      ((F true p pc s :: k2) ++ F true q qc s' :: F false a c (N ll la lc lr) :: k) in B.
    rewrite crep_app in B. cbn [app up crep seg upo lastc] in B. destruct B as [[Hp [Rs Sg]] [Hq [Rs' [Ha [Rl Rk]]]]]. cbn [rep ptr] in *. destruct Rl as [Hla [Rll Rlr]].
    assert (O' : forall x, cnt x (N E b d rr) + (ccnt x (F true p pc s :: k2) + ccnt x (F true q qc s' :: F false a c (N ll la lc lr) :: k)) <= 1).
    { intro x. specialize (O x). rewrite ccnt_app in O. cbn [ccnt app] in *. rewrite ccnt_app in O. cbn [ccnt] in O. lia. }
    assert (G' : cnt 0 (N E b d rr) + (ccnt 0 (F true p pc s :: k2) + ccnt 0 (F true q qc s' :: F false a c (N ll la lc lr) :: k)) = 0).
    { rewrite ccnt_app in G. cbn [ccnt app] in *. rewrite ccnt_app in G. cbn [ccnt] in G. lia. }
    clear O G. rename O' into O. rename G' into G.
    assert (Hq' : ptr (plug (F true p pc s :: k2 ++ [F true q qc s']) (N E b d rr)) = q) by (cbn [plug]; rewrite plug_app; reflexivity).
    clear Hgr Hl Hf Hq'.
    nz G a. nz G b. nz G la. nz G p. nz G q. neq O a b. neq O a la. neq O b la. neq O p a. neq O p b. neq O p la. neq O q a. neq O q b. neq O q la. neq O q p.
    destruct rr as [|rl ra rc rr]; [ | nz G ra; neq O ra a; neq O ra b; neq O ra la; neq O ra p; neq O ra q; cbn [rep] in Rrr; destruct Rrr as [Hra [Rrl Rrr]] ];
    (destruct k as [|[e g gc sg] k]; cbn [up ptr crep] in *;
     [ | nz G g; neq O g a; neq O g b; neq O g la; neq O g p; neq O g q; try neq O g ra; pneq O sg a; destruct Rk as [Hg [Rsg Rk]]; destruct e ]);
    repeat first [ progress ev3 | wr ]; (eexists; eexists; split; [ reflexivity | ]; split; [ | outs ]).
    all: constructor.
    all: lazymatch goal with
      | |- rep _ _ _ => cbn [app up ptr rep]; sp h O
      | |- crep _ _ _ =>
          cbn [app ptr]; rewrite <- app_assoc;
          change (F true p pc s :: k2 ++ [F true q qc s'] ++ F false b c (N ll la lc lr) :: ?kk) with
            ((F true p pc s :: k2) ++ F true q qc s' :: F false b c (N ll la lc lr) :: kk);
          rewrite crep_app; cbn [app up crep seg upo lastc rep ptr]; sp h O
      | |- _ = ptr _ => idtac
      | |- forall x, _ => let x := fresh "x" in intro x; pose proof (O x) as Ox; clear - Ox; rewrite !ccnt_app; cbn [ccnt app cnt] in *; rewrite ?ccnt_app; cbn [ccnt cnt]; lia
      | |- _ = 0 => clear - G; rewrite !ccnt_app; cbn [ccnt app cnt] in *; rewrite ?ccnt_app; cbn [ccnt cnt]; lia
      end.
    all: rewrite ?C; cbn [app plug]; rewrite ?plug_app; cbn [plug]; first [ reflexivity | apply plug_ptr; reflexivity ].
Qed.
