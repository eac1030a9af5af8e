(* Trees stored in memory: focus and context, and the effect of the primitive operations. *)
From Coq Require Import ZArith List Lia Bool ZifyBool.
Import ListNotations.
From Verif Require Import RbModel.
Local Open Scope Z_scope.
Local Open Scope rb_scope.

Inductive tree := E | N (l : tree) (a c : Z) (r : tree).
(* a step from a child up to node a with colour c: the child is the left (true) or right one, the
   other child is s *)
Inductive frame := F (left : bool) (a c : Z) (s : tree).
Notation ctx := (list frame).

Definition ptr (t : tree) : Z := match t with E => 0 | N _ a _ _ => a end.
Definition up (k : ctx) : Z := match k with [] => 0 | F _ a _ _ :: _ => a end.

Fixpoint plug (k : ctx) (t : tree) : tree :=
  match k with
  | [] => t
  | F true a c s :: k => plug k (N t a c s)
  | F false a c s :: k => plug k (N s a c t)
  end.

Fixpoint cnt (x : Z) (t : tree) : Z :=
  match t with E => 0 | N l a _ r => cnt x l + (if x =? a then 1 else 0) + cnt x r end.
Fixpoint ccnt (x : Z) (k : ctx) : Z :=
  match k with [] => 0 | F _ a _ s :: k => (if x =? a then 1 else 0) + cnt x s + ccnt x k end.

Fixpoint rep (h : mem) (par : Z) (t : tree) : Prop :=
  match t with
  | E => True
  | N l a c r => h a = Node par (ptr l) (ptr r) c /\ rep h a l /\ rep h a r
  end.

Fixpoint crep (h : mem) (child : Z) (k : ctx) : Prop :=
  match k with
  | [] => True
  | F d a c s :: k =>
      h a = Node (up k) (if d then child else ptr s) (if d then ptr s else child) c /\ rep h a s /\ crep h a k
  end.

(* the memory h with the given root holds the tree plug k t *)
Record St (h : mem) (root : Z) (k : ctx) (t : tree) : Prop := {
  s_rep : rep h (up k) t;
  s_crep : crep h (ptr t) k;
  s_root : root = ptr (plug k t);
  s_once : forall x, cnt x t + ccnt x k <= 1;
  s_null : cnt 0 t + ccnt 0 k = 0 }.

Lemma cnt_nonneg x t : 0 <= cnt x t.
Proof. induction t as [|l Hl a c r Hr]; cbn [cnt]; [ lia | ]. destruct (x =? a); lia. Qed.

Lemma ccnt_nonneg x k : 0 <= ccnt x k.
Proof. induction k as [|[d a c s] k Hk]; cbn [ccnt]; [ lia | ]. pose proof (cnt_nonneg x s). destruct (x =? a); lia. Qed.

Lemma cnt_ptr l a c r : 1 <= cnt a (N l a c r).
Proof. cbn [cnt]. pose proof (cnt_nonneg a l). pose proof (cnt_nonneg a r). destruct (a =? a) eqn:?; lia. Qed.

Lemma ptr_cnt t : t <> E -> 1 <= cnt (ptr t) t.
Proof. destruct t; intro; [ congruence | apply cnt_ptr ]. Qed.

Lemma upd_same h p n : upd h p n p = n.
Proof. unfold upd. rewrite Z.eqb_refl. reflexivity. Qed.
Lemma upd_other h p n x : x <> p -> upd h p n x = h x.
Proof. intro D. unfold upd. destruct (x =? p) eqn:?; [ lia | reflexivity ]. Qed.

Lemma rep_frame h h' par t : (forall x, 1 <= cnt x t -> h' x = h x) -> rep h par t -> rep h' par t.
Proof.
  revert par. induction t as [|l Hl a c r Hr]; intros par D R; cbn [rep] in *; [ exact I | ].
  destruct R as [R1 [R2 R3]]. cbn [cnt] in D. split; [ | split ].
  - rewrite D; [ exact R1 | ]. exact (cnt_ptr l a c r).
  - apply Hl; [ | exact R2 ]. intros x Hx. apply D. pose proof (cnt_nonneg x r). destruct (x =? a); lia.
  - apply Hr; [ | exact R3 ]. intros x Hx. apply D. pose proof (cnt_nonneg x l). destruct (x =? a); lia.
Qed.

Lemma crep_frame h h' child k : (forall x, 1 <= ccnt x k -> h' x = h x) -> crep h child k -> crep h' child k.
Proof.
  revert child. induction k as [|[d a c s] k Hk]; intros child D R; cbn [crep] in *; [ exact I | ].
  destruct R as [R1 [R2 R3]]. cbn [ccnt] in D. split; [ | split ].
  - rewrite D; [ exact R1 | ]. pose proof (cnt_nonneg a s). pose proof (ccnt_nonneg a k). destruct (a =? a) eqn:?; lia.
  - apply (rep_frame h); [ | exact R2 ]. intros x Hx. apply D. pose proof (ccnt_nonneg x k). destruct (x =? a); lia.
  - apply Hk; [ | exact R3 ]. intros x Hx. apply D. pose proof (cnt_nonneg x s). destruct (x =? a); lia.
Qed.

(* t is stored in h except for the parent of its root *)
Lemma rep_reparent h h' p par t : (forall x, 1 <= cnt x t -> x <> ptr t -> h' x = h x) ->
  (t <> E -> h' (ptr t) = Node par (n_left (h (ptr t))) (n_right (h (ptr t))) (n_red (h (ptr t)))) ->
  (forall x, cnt x t <= 1) -> rep h p t -> rep h' par t.
Proof.
  destruct t as [|l a c r]; intros D P O R; cbn [rep ptr] in *; [ exact I | ].
  destruct R as [R1 [R2 R3]]. split; [ | split ].
  - rewrite P by congruence. rewrite R1. reflexivity.
  - apply (rep_frame h); [ | exact R2 ]. intros x Hx. specialize (O x). cbn [cnt] in D, O. pose proof (cnt_nonneg x r). apply D.
    + destruct (x =? a); lia.
    + intro. subst x. rewrite Z.eqb_refl in O. lia.
  - apply (rep_frame h); [ | exact R3 ]. intros x Hx. specialize (O x). cbn [cnt] in D, O. pose proof (cnt_nonneg x l). apply D.
    + destruct (x =? a); lia.
    + intro. subst x. rewrite Z.eqb_refl in O. lia.
Qed.

(* k is stored in h except for the child pointer of its innermost node *)
Lemma crep_rechild h h' child' child k : (forall x, 1 <= ccnt x k -> x <> up k -> h' x = h x) ->
  match k with
  | [] => True
  | F d a c s :: k => h' a = Node (up k) (if d then child else ptr s) (if d then ptr s else child) c
  end ->
  (forall x, ccnt x k <= 1) -> crep h child' k -> crep h' child k.
Proof.
  destruct k as [|[d a c s] k]; intros D P O R; cbn [crep up] in *; [ exact I | ].
  destruct R as [R1 [R2 R3]]. split; [ exact P | split ].
  - apply (rep_frame h); [ | exact R2 ]. intros x Hx. specialize (O x). cbn [ccnt] in D, O. pose proof (ccnt_nonneg x k). apply D.
    + destruct (x =? a); lia.
    + intro. subst x. rewrite Z.eqb_refl in O. lia.
  - apply (crep_frame h); [ | exact R3 ]. intros x Hx. specialize (O x). cbn [ccnt] in D, O. pose proof (cnt_nonneg x s). apply D.
    + destruct (x =? a); lia.
    + intro. subst x. rewrite Z.eqb_refl in O. lia.
Qed.

Lemma plug_ptr k t t' : ptr t = ptr t' -> ptr (plug k t) = ptr (plug k t').
Proof.
  revert t t'. induction k as [|[[] a c s] k Hk]; intros t t' P; cbn [plug]; [ exact P | | ]; apply Hk; reflexivity.
Qed.

(* moving the focus *)
Lemma St_up h root d a c s k t : St h root (F d a c s :: k) t <-> St h root k (if d then N t a c s else N s a c t).
Proof.
  split; intros [A B C D G].
  - cbn [crep] in B. cbn [up] in A. destruct B as [B1 [B2 B3]]. constructor.
    + destruct d; cbn [rep]; auto.
    + destruct d; exact B3.
    + destruct d; exact C.
    + intro x. specialize (D x). cbn [ccnt] in D. destruct d; cbn [cnt]; lia.
    + cbn [ccnt] in G. destruct d; cbn [cnt]; lia.
  - constructor.
    + destruct d; cbn [rep] in A; cbn [up]; tauto.
    + cbn [crep]. destruct d; cbn [rep ptr] in *; tauto.
    + destruct d; exact C.
    + intro x. specialize (D x). cbn [ccnt]. destruct d; cbn [cnt] in D; lia.
    + cbn [ccnt]. destruct d; cbn [cnt] in G; lia.
Qed.

Lemma St_upL h root a c s k t : St h root (F true a c s :: k) t <-> St h root k (N t a c s).
Proof. apply (St_up h root true). Qed.
Lemma St_upR h root a c s k t : St h root (F false a c s :: k) t <-> St h root k (N s a c t).
Proof. apply (St_up h root false). Qed.

Lemma St_plug h root k k' t : St h root (k' ++ k) t <-> St h root k (plug k' t).
Proof.
  revert t. induction k' as [|[[] a c s] k' H]; intro t; cbn [app plug]; [ tauto | | ].
  - rewrite St_upL. apply H.
  - rewrite St_upR. apply H.
Qed.

Lemma St_cell h root k l a c r : St h root k (N l a c r) -> h a = Node (up k) (ptr l) (ptr r) c.
Proof. intros [A _ _ _ _]. cbn [rep] in A. apply A. Qed.

Lemma St_nz h root k l a c r : St h root k (N l a c r) -> a <> 0.
Proof.
  intros [_ _ _ _ G] Z. subst a. pose proof (cnt_ptr l 0 c r). pose proof (ccnt_nonneg 0 k). lia.
Qed.

Lemma St_get h root k l a c r f : St h root k (N l a c r) -> get f h a = Some (f (Node (up k) (ptr l) (ptr r) c)).
Proof.
  intro S. unfold get. pose proof (St_nz _ _ _ _ _ _ _ S). destruct (a =? 0) eqn:?; [ lia | ].
  rewrite (St_cell _ _ _ _ _ _ _ S). reflexivity.
Qed.

Lemma St_ptr0 h root k t : St h root k t -> (ptr t =? 0) = match t with E => true | _ => false end.
Proof. destruct t; intro S; cbn [ptr]; [ reflexivity | ]. pose proof (St_nz _ _ _ _ _ _ _ S). lia. Qed.

Lemma St_up0 h root k t : St h root k t -> (up k =? 0) = match k with [] => true | _ => false end.
Proof.
  destruct k as [|[d a c s] k]; intro S; cbn [up]; [ reflexivity | ]. apply St_up in S.
  destruct d; pose proof (St_nz _ _ _ _ _ _ _ S); lia.
Qed.

Lemma St_frame h h' root k t : (forall x, 1 <= cnt x t + ccnt x k -> h' x = h x) -> St h root k t -> St h' root k t.
Proof.
  intros D [A B C O G]. constructor; auto.
  - apply (rep_frame h); [ | exact A ]. intros x Hx. apply D. pose proof (ccnt_nonneg x k). lia.
  - apply (crep_frame h); [ | exact B ]. intros x Hx. apply D. pose proof (cnt_nonneg x t). lia.
Qed.

Ltac nn := repeat match goal with
  | |- context [cnt ?x ?t] => lazymatch goal with H : 0 <= cnt x t |- _ => fail | _ => pose proof (cnt_nonneg x t) end
  | |- context [ccnt ?x ?t] => lazymatch goal with H : 0 <= ccnt x t |- _ => fail | _ => pose proof (ccnt_nonneg x t) end
  | H : context [cnt ?x ?t] |- _ => lazymatch goal with H : 0 <= cnt x t |- _ => fail | _ => pose proof (cnt_nonneg x t) end
  | H : context [ccnt ?x ?t] |- _ => lazymatch goal with H : 0 <= ccnt x t |- _ => fail | _ => pose proof (ccnt_nonneg x t) end
  end.

(* colours *)
Lemma St_sC h root k l a c c' r : St h root k (N l a c r) ->
  exists h', sC h a c' = Some h' /\ St h' root k (N l a c' r).
Proof.
  intro S. unfold sC. pose proof (St_nz _ _ _ _ _ _ _ S) as Z. destruct (a =? 0) eqn:?; [ lia | ].
  eexists. split; [ reflexivity | ]. destruct S as [[A [A1 A2]] B C O G]. pose proof (O a) as Oa. cbn [cnt] in Oa.
  rewrite Z.eqb_refl in Oa. nn. constructor.
  - cbn [rep]. split; [ | split ].
    + rewrite upd_same, A. reflexivity.
    + apply (rep_frame h); [ | exact A1 ]. intros x Hx. apply upd_other. intro. subst x. lia.
    + apply (rep_frame h); [ | exact A2 ]. intros x Hx. apply upd_other. intro. subst x. lia.
  - apply (crep_frame h); [ | exact B ]. intros x Hx. apply upd_other. intro. subst x. lia.
  - rewrite C. apply plug_ptr. reflexivity.
  - intro x. specialize (O x). exact O.
  - exact G.
Qed.

(* evaluation of reads and writes with known cells *)
Ltac ev1 := match goal with
  | |- context [upd ?h ?p ?n ?p] => rewrite (upd_same h p n)
  | D : ?x <> ?p |- context [upd ?h ?p ?n ?x] => rewrite (upd_other h p n x D)
  | D : ?p <> ?x |- context [upd ?h ?p ?n ?x] => rewrite (upd_other h p n x (not_eq_sym D))
  | |- context [?a =? ?a] => rewrite (Z.eqb_refl a)
  | D : ?a <> ?b |- context [?a =? ?b] => rewrite (proj2 (Z.eqb_neq a b) D)
  | D : ?b <> ?a |- context [?a =? ?b] => rewrite (proj2 (Z.eqb_neq a b) (not_eq_sym D))
  | H : ?h ?a = Node _ _ _ _ |- context [?h ?a] => rewrite H
  end.
Ltac ev := repeat (first [ progress cbn [bind fst snd n_parent n_left n_right n_red negb andb get sP sL sR sC assert] | ev1 ]).

Ltac dd x := repeat match goal with
  | H : context [if x =? ?b then _ else _] |- _ => destruct (x =? b) eqn:?
  | |- context [if x =? ?b then _ else _] => destruct (x =? b) eqn:?
  end.

(* x is in a part of the tree which was not written *)
Ltac fr O := let x := fresh "x" in let Hx := fresh "Hx" in
  intros x Hx; let Ox := fresh "Ox" in pose proof (O x) as Ox; clear - Ox Hx; cbn [cnt ccnt ptr up] in *;
  try match goal with |- _ <> _ -> _ => intro end;
  nn; unfold upd; dd x; try reflexivity; exfalso; lia.

(* a <> b since both are counted *)
Ltac neq O a b := let D := fresh "D" in assert (D : a <> b);
  [ let Z := fresh in intro Z; let Oa := fresh in pose proof (O a) as Oa; clear - Oa Z; cbn [cnt ccnt ptr up] in Oa; nn; dd a; lia | ].

Ltac nz G a := let D := fresh "D" in assert (D : a <> 0);
  [ let Z := fresh in intro Z; let Oa := fresh in pose proof G as Oa; clear - Oa Z; cbn [cnt ccnt ptr up] in Oa; nn; dd 0; lia | ].

(* the counts are those of the tree before *)
Ltac cn O := let x := fresh "x" in intro x; let Ox := fresh "Ox" in pose proof (O x) as Ox; clear - Ox; cbn [cnt ccnt ptr up] in *; nn; dd x; lia.

Lemma plug_ptr_nonempty f k t t' : ptr (plug (f :: k) t) = ptr (plug (f :: k) t').
Proof. destruct f as [[] a c s]; cbn [plug]; apply plug_ptr; reflexivity. Qed.

Lemma ptr_neq t x : x <> 0 -> cnt x t = 0 -> ptr t <> x.
Proof. intros Z C P. destruct t as [|l a c r]; cbn [ptr] in P; [ congruence | ]. subst a. pose proof (cnt_ptr l x c r). lia. Qed.

Ltac pneq O t x := let D := fresh "D" in assert (D : ptr t <> x);
  [ apply ptr_neq; [ assumption | let Oa := fresh in pose proof (O x) as Oa; clear - Oa; cbn [cnt ccnt ptr up] in Oa; nn; dd x; lia ] | ].

(* what remains after the evaluation of a sequence of writes from memory h *)
Ltac fin h O C :=
  constructor; cbn [rep crep up ptr];
  [ ev; repeat split; auto; try (apply (rep_frame h); [ fr O | assumption ])
  | ev; repeat split; auto; try (apply (rep_frame h); [ fr O | assumption ]); try (apply (crep_frame h); [ fr O | assumption ])
  | first [ reflexivity | rewrite C; apply plug_ptr_nonempty ]
  | cn O
  | match goal with G : _ = 0 |- _ => clear - G; cbn [cnt ccnt] in *; dd 0; lia end ].

Lemma left_rotate_ok h root k x a c y b d z : St h root k (N x a c (N y b d z)) ->
  exists h' root', left_rotate h root a = Some (h', root') /\ St h' root' k (N (N x a c y) b d z).
Proof.
  intros [A B C O G]. cbn [rep ptr] in A. destruct A as [Ha [Rx [Hb [Ry Rz]]]].
  neq O a b. nz G a. nz G b.
  destruct y as [|yl ya yc yr];
    [ | nz G ya; neq O ya a; neq O ya b; cbn [rep] in Ry; destruct Ry as [Hy [Ryl Ryr]] ];
    (destruct k as [|[e p pc s] k]; cbn [up] in *;
     [ | nz G p; neq O p a; neq O p b; try neq O p ya; pneq O s a; cbn [ptr crep] in *; destruct B as [Hp [Rs Rk]]; destruct e ]);
    unfold left_rotate, get, sP, sL, sR, sC; cbn [ptr] in *; ev; (eexists; eexists; split; [ reflexivity | ]); fin h O C.
Qed.

Lemma right_rotate_ok h root k x a c y b d z : St h root k (N (N x a c y) b d z) ->
  exists h' root', right_rotate h root b = Some (h', root') /\ St h' root' k (N x a c (N y b d z)).
Proof.
  intros [A B C O G]. cbn [rep ptr] in A. destruct A as [Hb [[Ha [Rx Ry]] Rz]].
  neq O a b. nz G a. nz G b.
  destruct y as [|yl ya yc yr];
    [ | nz G ya; neq O ya a; neq O ya b; cbn [rep] in Ry; destruct Ry as [Hy [Ryl Ryr]] ];
    (destruct k as [|[e p pc s] k]; cbn [up] in *;
     [ | nz G p; neq O p a; neq O p b; try neq O p ya; pneq O s b; cbn [ptr crep] in *; destruct B as [Hp [Rs Rk]]; destruct e ]);
    unfold right_rotate, get, sP, sL, sR, sC; cbn [ptr] in *; ev; (eexists; eexists; split; [ reflexivity | ]); fin h O C.
Qed.
