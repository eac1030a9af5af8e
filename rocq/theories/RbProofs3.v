(* Red-black trees: rebalancing after a deletion. *)
From Coq Require Import ZArith List Lia Bool ZifyBool.
Import ListNotations.
From Verif Require Import RbModel RbSpec RbProofs RbProofs2.
Local Open Scope Z_scope.
Local Open Scope rb_scope.

(* result of the loop from a state with the whole tree t0 *)
Definition done (r : option (mem * Z)) (t0 : tree) : Prop :=
  exists h' root' t', r = Some (h', root') /\ St h' root' [] t' /\ ok [] t' /\ ord t' = ord t0 /\ (forall x, cnt x t' = cnt x t0).

Lemma done_eq r t0 t1 : ord t1 = ord t0 -> (forall x, cnt x t1 = cnt x t0) -> done r t1 -> done r t0.
Proof.
  intros O C [h' [root' [t' [A [B [D [G H]]]]]]]. exists h', root', t'. repeat split; auto; try (intro x; rewrite H; apply C); try (rewrite G; exact O); apply B.
Qed.

Lemma fix_exit fuel h root k l a c r : St h root k (N l a c r) -> ok k (N l a c r) -> done (delete_fix (S fuel) h root a) (plug k (N l a c r)).
Proof.
  intros S OK. cbn [delete_fix]. rewrite (St_get _ _ _ _ _ _ _ _ S). cbn [bind n_red].
  assert (Hc : (c =? 2) = false).
  { destruct OK as [n [R _]]. cbn [rb] in R. destruct (a =? LEAF); [ | destruct R as [R|R] ]; [ destruct R as [_ [_ [-> _]]] | destruct R as [-> _] | destruct R as [-> _] ]; reflexivity. }
  rewrite Hc. cbn [negb]. exists h, root, (plug k (N l a c r)). split; [ reflexivity | ]. split; [ apply (proj1 (St_top _ _ _ _)); exact S | ]. split; [ apply ok_top; exact OK | ]. auto.
Qed.

(* the double black node a: one black node is missing on the paths through it *)
Definition okd (k : ctx) (l : tree) (a : Z) (r : tree) : Prop := exists n, rb n (N l a 0 r) /\ crb (S n) k.

Lemma rb_black a n l r : a <> LEAF -> rb n (N l a 0 r) <-> exists m, n = S m /\ rb m l /\ rb m r.
Proof.
  intro L. cbn [rb]. destruct (a =? LEAF) eqn:?; [ lia | ]. split.
  - intros [[_ H]|[H _]]; [ exact H | discriminate ].
  - intro. left. auto.
Qed.
Lemma rb_red a n l r : a <> LEAF -> rb n (N l a 1 r) <-> rb n l /\ rb n r /\ red l = false /\ red r = false.
Proof.
  intro L. cbn [rb]. destruct (a =? LEAF) eqn:?; [ lia | ]. split.
  - intros [[H _]|[_ H]]; [ discriminate | exact H ].
  - intro. right. auto.
Qed.

Lemma rb_S n t : rb (S n) t -> exists l a c r, t = N l a c r /\ a <> LEAF /\ (c = 0 \/ c = 1).
Proof.
  destruct t as [|l a c r]; cbn [rb]; [ discriminate | ]. intro R. exists l, a, c, r. split; [ reflexivity | ].
  destruct (a =? LEAF) eqn:L; [ destruct R as [_ [_ [_ R]]]; discriminate | ]. split; [ lia | ]. destruct R as [[-> _]|[-> _]]; auto.
Qed.

Lemma rb_S_leaf n l a c r : rb (S n) (N l a c r) -> a <> LEAF.
Proof. intros R H. subst a. cbn in R. destruct R as [_ [_ [_ R]]]. discriminate. Qed.

Lemma rb_redN n t : rb n t -> red t = true -> exists l a r, t = N l a 1 r /\ a <> LEAF.
Proof.
  destruct t as [|l a c r]; cbn [rb red]; [ discriminate | ]. intros R C. assert (c = 1) by lia. subst c. exists l, a, r. split; [ reflexivity | ].
  destruct (a =? LEAF) eqn:L; [ destruct R as [_ [_ [R _]]]; discriminate | ]. lia.
Qed.

(* reading the state at the start of an iteration *)
Ltac start S := pose proof (s_once _ _ _ _ S) as O; pose proof (s_null _ _ _ _ S) as G.

Lemma fix_outer fuel h root k d l a r p pc x sl sr :
  St h root (F d p pc (N sl x 0 sr) :: k) (N l a 2 r) -> okd (F d p pc (N sl x 0 sr) :: k) l a r ->
  red (if d then sr else sl) = true ->
  done (delete_fix (S (S fuel)) h root a) (plug (F d p pc (N sl x 0 sr) :: k) (N l a 2 r)).
Proof.
  intros S [n [Ra C]] Hr. cbn [crb] in C. destruct C as [Lp C].
  assert (Rs : rb (Datatypes.S n) (N sl x 0 sr)) by tauto.
  pose proof (rb_S_leaf _ _ _ _ _ Rs) as Lx.
  apply (proj1 (rb_black _ _ _ _ Lx)) in Rs. destruct Rs as [m [Em [Rl Rr]]]. inversion Em; subst m; clear Em.
  start S. nz G a. nz G p. nz G x. neq O a p. neq O a x. neq O p x.
  remember (Datatypes.S fuel) as f. cbn [delete_fix]. rd S.
  match goal with A : rep h x sl, B : rep h x sr |- _ => pose proof (is_red_ok h x sl n A ltac:(cz G) Rl) as Hsl; pose proof (is_red_ok h x sr n B ltac:(cz G) Rr) as Hsr end.
  destruct d.
  - ev2. rewrite Hsl. cbn [bind]. rewrite Hsr. rewrite Hr. ev2.
    destruct (rb_redN _ _ Rr Hr) as [yl [y [yr [-> Ly]]]]. apply (proj1 (rb_red _ _ _ _ Ly)) in Rr. destruct Rr as [R1 [R2 [B1 B2]]]. nz G y.
    upL S. lrot S h1 root1 S1. rd S1. col S1 pc h2 S2. dnL S2. col S2 0 h3 S3. upL S3. rd S3. cbn [ptr]. dnR S3. col S3 0 h4 S4. upR S4. dnL S4. dnL S4. col S4 0 h5 S5. upL S5.
    subst f. apply (done_eq _ _ (plug (F true x pc (N yl y 0 yr) :: k) (N (N l a 0 r) p 0 sl))); [ same | same | ].
    apply fix_exit; [ exact S5 | ].
    exists (Datatypes.S n). split; [ apply rb_black; [ exact Lp | ]; exists n; auto | ].
    assert (Ry : rb (Datatypes.S n) (N yl y 0 yr)) by (apply rb_black; [ exact Ly | exists n; auto ]).
    cbn [crb red cred]. split; [ | split; [ reflexivity | discriminate ] ]. split; [ exact Lx | ].
    destruct C as [[-> [_ C]]|[-> [_ [_ C]]]]; [ left; auto | right; auto ].
  - ev2. rewrite Hsl. cbn [bind]. rewrite Hsr. rewrite Hr. ev2.
    destruct (rb_redN _ _ Rl Hr) as [yl [y [yr [-> Ly]]]]. apply (proj1 (rb_red _ _ _ _ Ly)) in Rl. destruct Rl as [R1 [R2 [B1 B2]]]. nz G y.
    upR S. rrot S h1 root1 S1. rd S1. col S1 pc h2 S2. dnR S2. col S2 0 h3 S3. upR S3. rd S3. cbn [ptr]. dnL S3. col S3 0 h4 S4. upL S4. dnR S4. dnR S4. col S4 0 h5 S5. upR S5.
    subst f. apply (done_eq _ _ (plug (F false x pc (N yl y 0 yr) :: k) (N sr p 0 (N l a 0 r)))); [ same | same | ].
    apply fix_exit; [ exact S5 | ].
    exists (Datatypes.S n). split; [ apply rb_black; [ exact Lp | ]; exists n; auto | ].
    assert (Ry : rb (Datatypes.S n) (N yl y 0 yr)) by (apply rb_black; [ exact Ly | exists n; auto ]).
    cbn [crb red cred]. split; [ | split; [ reflexivity | discriminate ] ]. split; [ exact Lx | ].
    destruct C as [[-> [_ C]]|[-> [_ [_ C]]]]; [ left; auto | right; auto ].
Qed.

Lemma fix_inner fuel h root k d l a r p pc x sl sr :
  St h root (F d p pc (N sl x 0 sr) :: k) (N l a 2 r) -> okd (F d p pc (N sl x 0 sr) :: k) l a r ->
  red (if d then sr else sl) = false -> red (if d then sl else sr) = true ->
  done (delete_fix (S (S (S fuel))) h root a) (plug (F d p pc (N sl x 0 sr) :: k) (N l a 2 r)).
Proof.
  intros S [n [Ra C]] Ho Hr. cbn [crb] in C. destruct C as [Lp C].
  assert (Rs : rb (Datatypes.S n) (N sl x 0 sr)) by tauto.
  pose proof (rb_S_leaf _ _ _ _ _ Rs) as Lx.
  apply (proj1 (rb_black _ _ _ _ Lx)) in Rs. destruct Rs as [m [Em [Rl Rr]]]. inversion Em; subst m; clear Em.
  start S. nz G a. nz G p. nz G x. neq O a p. neq O a x. neq O p x.
  remember (Datatypes.S (Datatypes.S fuel)) as f. cbn [delete_fix]. rd S.
  match goal with A : rep h x sl, B : rep h x sr |- _ => pose proof (is_red_ok h x sl n A ltac:(cz G) Rl) as Hsl; pose proof (is_red_ok h x sr n B ltac:(cz G) Rr) as Hsr end.
  destruct d.
  - ev2. rewrite Hsl. cbn [bind]. rewrite Hsr. rewrite Hr, Ho. ev2.
    destruct (rb_redN _ _ Rl Hr) as [yl [y [yr [-> Ly]]]]. apply (proj1 (rb_red _ _ _ _ Ly)) in Rl. destruct Rl as [R1 [R2 [B1 B2]]]. nz G y.
    cbn [ptr]. upL S. dnR S. dnL S. col S 0 h1 S1. upL S1. col S1 1 h2 S2. rrot S2 h3 root3 S3. upR S3. dnL S3.
    subst f. apply (done_eq _ _ (plug (F true p pc (N yl y 0 (N yr x 1 sr)) :: k) (N l a 2 r))); [ same | same | ].
    apply fix_outer; [ exact S3 | | reflexivity ].
    exists n. split; [ exact Ra | ]. cbn [crb]. split; [ exact Lp | ].
    assert (Rx : rb n (N yr x 1 sr)) by (apply rb_red; auto).
    assert (Ry : rb (Datatypes.S n) (N yl y 0 (N yr x 1 sr))) by (apply rb_black; [ exact Ly | exists n; auto ]).
    destruct C as [[-> [_ C]]|[-> [_ [_ C]]]]; [ left; auto | right; auto ].
  - ev2. rewrite Hsl. cbn [bind]. rewrite Hsr. rewrite Hr, Ho. ev2.
    destruct (rb_redN _ _ Rr Hr) as [yl [y [yr [-> Ly]]]]. apply (proj1 (rb_red _ _ _ _ Ly)) in Rr. destruct Rr as [R1 [R2 [B1 B2]]]. nz G y.
    cbn [ptr]. upR S. dnL S. dnR S. col S 0 h1 S1. upR S1. col S1 1 h2 S2. lrot S2 h3 root3 S3. upL S3. dnR S3.
    subst f. apply (done_eq _ _ (plug (F false p pc (N (N sl x 1 yl) y 0 yr) :: k) (N l a 2 r))); [ same | same | ].
    apply fix_outer; [ exact S3 | | reflexivity ].
    exists n. split; [ exact Ra | ]. cbn [crb]. split; [ exact Lp | ].
    assert (Rx : rb n (N sl x 1 yl)) by (apply rb_red; auto).
    assert (Ry : rb (Datatypes.S n) (N (N sl x 1 yl) y 0 yr)) by (apply rb_black; [ exact Ly | exists n; auto ]).
    destruct C as [[-> [_ C]]|[-> [_ [_ C]]]]; [ left; auto | right; auto ].
Qed.

(* no red nephew: one step up *)
Lemma fix_step fuel h root k d l a r p pc x sl sr :
  St h root (F d p pc (N sl x 0 sr) :: k) (N l a 2 r) -> okd (F d p pc (N sl x 0 sr) :: k) l a r ->
  red sl = false -> red sr = false ->
  exists h', delete_fix (S fuel) h root a = delete_fix fuel h' root p /\
    St h' root k (if d then N (N l a 0 r) p (if pc =? 0 then 2 else 0) (N sl x 1 sr) else N (N sl x 1 sr) p (if pc =? 0 then 2 else 0) (N l a 0 r)).
Proof.
  intros S [n [Ra C]] Ho Hr. cbn [crb] in C. destruct C as [Lp C].
  assert (Rs : rb (Datatypes.S n) (N sl x 0 sr)) by tauto.
  pose proof (rb_S_leaf _ _ _ _ _ Rs) as Lx.
  apply (proj1 (rb_black _ _ _ _ Lx)) in Rs. destruct Rs as [m [Em [Rl Rr]]]. inversion Em; subst m; clear Em.
  start S. nz G a. nz G p. nz G x. neq O a p. neq O a x. neq O p x.
  cbn [delete_fix]. rd S.
  match goal with A : rep h x sl, B : rep h x sr |- _ => pose proof (is_red_ok h x sl n A ltac:(cz G) Rl) as Hsl; pose proof (is_red_ok h x sr n B ltac:(cz G) Rr) as Hsr end.
  assert (Hpc : (if negb (pc =? 0) then 0 else 2) = (if pc =? 0 then 2 else 0)) by (destruct (pc =? 0); reflexivity).
  destruct d.
  - ev2. rewrite Hsl. cbn [bind]. rewrite Hsr. rewrite Hr, Ho. ev2. rewrite Hpc.
    upL S. col S (if pc =? 0 then 2 else 0) h1 S1. dnL S1. col S1 0 h2 S2. upL S2. dnR S2. col S2 1 h3 S3. upR S3. exists h3. auto.
  - ev2. rewrite Hsl. cbn [bind]. rewrite Hsr. rewrite Hr, Ho. ev2. rewrite Hpc.
    upR S. col S (if pc =? 0 then 2 else 0) h1 S1. dnR S1. col S1 0 h2 S2. upR S2. dnL S2. col S2 1 h3 S3. upL S3. exists h3. auto.
Qed.

Lemma rb_pair p (d : bool) n s t : p <> LEAF -> rb n s -> rb n t -> rb (S n) (if d then N t p 0 s else N s p 0 t).
Proof. intros. destruct d; apply rb_black; auto; exists n; auto. Qed.

Lemma fix_redparent fuel h root k d l a r p s :
  St h root (F d p 1 s :: k) (N l a 2 r) -> okd (F d p 1 s :: k) l a r ->
  done (delete_fix (S (S (S fuel))) h root a) (plug (F d p 1 s :: k) (N l a 2 r)).
Proof.
  intros S OK. pose proof OK as [n [Ra C]]. cbn [crb] in C. destruct C as [Lp [[? _]|[_ [Rs [Bs [C1 [C2 C3]]]]]]]; [ discriminate | ].
  destruct (rb_S _ _ Rs) as [sl [x [c [sr [-> [Lx Hc]]]]]]. cbn [red] in Bs. assert (c = 0) by (destruct Hc; [ assumption | subst; discriminate ]). subst c.
  destruct (red (if d then sr else sl)) eqn:Ro; [ apply fix_outer; assumption | ].
  destruct (red (if d then sl else sr)) eqn:Ri; [ apply fix_inner; assumption | ].
  destruct (fix_step (Datatypes.S (Datatypes.S fuel)) _ _ _ _ _ _ _ _ _ _ _ _ S OK) as [h' [E' S']]; [ destruct d; assumption | destruct d; assumption | ].
  rewrite E'. cbn [Z.eqb] in S'.
  apply (proj1 (rb_black _ _ _ _ Lx)) in Rs. destruct Rs as [m [Em [Rl Rr]]]. inversion Em; subst m; clear Em.
  assert (Rx : rb n (N sl x 1 sr)) by (apply rb_red; [ exact Lx | ]; destruct d; auto).
  apply (done_eq _ _ (plug k (if d then N (N l a 0 r) p 0 (N sl x 1 sr) else N (N sl x 1 sr) p 0 (N l a 0 r)))); [ destruct d; same | destruct d; same | ].
  assert (OKp : ok k (if d then N (N l a 0 r) p 0 (N sl x 1 sr) else N (N sl x 1 sr) p 0 (N l a 0 r))).
  { exists (Datatypes.S n). split; [ apply rb_pair; assumption | ]. split; [ exact C1 | ]. destruct d; split; reflexivity. }
  destruct d; apply fix_exit; assumption.
Qed.

Lemma fix_ok : forall fuel h root k l a r, St h root k (N l a 2 r) -> okd k l a r -> (length k + 4 <= fuel)%nat ->
  done (delete_fix fuel h root a) (plug k (N l a 2 r)).
Proof.
  induction fuel as [|fuel IH]; intros h root k l a r S OK Hf; [ lia | ]. pose proof OK as [n [Ra C]].
  destruct k as [|[d p pc s] k].
  - start S. nz G a. cbn [delete_fix]. rd S. col S 0 h1 S1. exists h1, root, (N l a 0 r). split; [ reflexivity | ]. split; [ exact S1 | ].
    split; [ | split; reflexivity ]. exists n. split; [ exact Ra | ]. cbn. auto.
  - cbn [crb] in C. destruct C as [Lp C].
    destruct (Z.eq_dec pc 1) as [->|Hpc].
    { destruct fuel as [|[|fuel]]; [ cbn [length] in Hf; lia | cbn [length] in Hf; lia | ]. apply fix_redparent; assumption. }
    destruct C as [[-> [Rs C]]|[-> _]]; [ | congruence ]. clear Hpc.
    destruct (rb_S _ _ Rs) as [sl [x [c [sr [-> [Lx Hc]]]]]]. destruct Hc as [-> | ->].
    + destruct (red (if d then sr else sl)) eqn:Ro. { destruct fuel as [|fuel]; [ cbn [length] in Hf; lia | ]. apply fix_outer; assumption. }
      destruct (red (if d then sl else sr)) eqn:Ri. { destruct fuel as [|[|fuel]]; [ cbn [length] in Hf; lia | cbn [length] in Hf; lia | ]. apply fix_inner; assumption. }
      destruct (fix_step fuel _ _ _ _ _ _ _ _ _ _ _ _ S OK) as [h' [E' S']]; [ destruct d; assumption | destruct d; assumption | ].
      rewrite E'. cbn [Z.eqb] in S'.
      apply (proj1 (rb_black _ _ _ _ Lx)) in Rs. destruct Rs as [m [Em [Rl Rr]]]. inversion Em; subst m; clear Em.
      assert (Rx : rb n (N sl x 1 sr)) by (apply rb_red; [ exact Lx | ]; destruct d; auto).
      assert (OKp : rb (Datatypes.S n) (if d then N (N l a 0 r) p 0 (N sl x 1 sr) else N (N sl x 1 sr) p 0 (N l a 0 r))) by (apply rb_pair; assumption).
      apply (done_eq _ _ (plug k (if d then N (N l a 0 r) p 2 (N sl x 1 sr) else N (N sl x 1 sr) p 2 (N l a 0 r)))); [ destruct d; same | destruct d; same | ].
      cbn [length] in Hf. destruct d; (apply IH; [ assumption | | lia ]); exists (Datatypes.S n); auto.
    + apply (proj1 (rb_red _ _ _ _ Lx)) in Rs. destruct Rs as [Rl [Rr [Bl Br]]].
      start S. nz G a. nz G p. nz G x. neq O a p. neq O a x. neq O p x.
      destruct fuel as [|[|[|fuel]]]; [ cbn [length] in Hf; lia | cbn [length] in Hf; lia | cbn [length] in Hf; lia | ].
      remember (Datatypes.S (Datatypes.S (Datatypes.S fuel))) as f. cbn [delete_fix]. rd S. destruct d.
      * ev2. upL S. lrot S h1 root1 S1. dnL S1. col S1 1 h2 S2. upL S2. col S2 0 h3 S3. dnL S3. dnL S3.
        subst f. apply (done_eq _ _ (plug (F true p 1 sl :: F true x 0 sr :: k) (N l a 2 r))); [ same | same | ].
        apply fix_redparent; [ exact S3 | ]. exists n. split; [ exact Ra | ]. cbn [crb]. split; [ exact Lp | ]. right. repeat split; auto. discriminate.
      * ev2. upR S. rrot S h1 root1 S1. dnR S1. col S1 1 h2 S2. upR S2. col S2 0 h3 S3. dnR S3. dnR S3.
        subst f. apply (done_eq _ _ (plug (F false p 1 sr :: F false x 0 sl :: k) (N l a 2 r))); [ same | same | ].
        apply fix_redparent; [ exact S3 | ]. exists n. split; [ exact Ra | ]. cbn [crb]. split; [ exact Lp | ]. right. repeat split; auto. discriminate.
Qed.
