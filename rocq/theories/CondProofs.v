From Coq Require Import ZArith List Bool.
From Verif Require Import DeadModel DeadSpec CondModel CondSpec.
Import ListNotations.
Local Open Scope Z_scope.

Section COND.
Context {V St : Type} (L : lang V St).
Notation run := (run_code L).

Lemma run_app l1 l2 st :
  run (l1 ++ l2) st = match run l1 st with (inl None, st) => run l2 st | r => r end.
Proof.
  revert st. induction l1 as [|[t|e op t] r IH]; intros st; cbn [app run_code]; [reflexivity|reflexivity|].
  destruct (l_ev L e st) as [v st'|v st']; [|reflexivity].
  destruct (Bool.eqb (l_true L v) op); [reflexivity|apply IH].
Qed.

Lemma run_leaf k op j n st :
  run (gen_inner (CLeaf k) op j n) st =
  match truth L (CLeaf k) st with
  | (inl b, st) => (inl (if Bool.eqb b op then Some j else None), st)
  | (inr v, st) => (inr v, st)
  end.
Proof.
  destruct k as [b|b|e], op; cbn; try (destruct b; reflexivity);
    destruct (l_ev L e st) as [v st'|v st']; try reflexivity; destruct (l_true L v); reflexivity.
Qed.

Lemma run_pure c : forall op j n st, pure op c = true ->
  run (gen_inner c op j n) st =
  match truth L c st with
  | (inl b, st) => (inl (if Bool.eqb b op then Some j else None), st)
  | (inr v, st) => (inr v, st)
  end.
Proof.
  induction c as [k|c IH|a IHa b IHb|a IHa b IHb]; intros op j n st H.
  - apply run_leaf.
  - cbn [gen_inner truth pure] in *. rewrite (IH _ _ _ _ H). destruct (truth L c st) as [[b|v] s]; [|reflexivity].
    destruct b, op; reflexivity.
  - cbn [pure] in H. apply andb_prop in H as [H Hb]. apply andb_prop in H as [Ho Ha].
    destruct op; [discriminate|]. cbn [gen_inner truth]. rewrite run_app, (IHa _ _ _ _ Ha).
    destruct (truth L a st) as [[[|]|v] s]; cbn [Bool.eqb]; [apply (IHb _ _ _ _ Hb)|reflexivity|reflexivity].
  - cbn [pure] in H. apply andb_prop in H as [H Hb]. apply andb_prop in H as [Ho Ha].
    destruct op; [|discriminate]. cbn [gen_inner truth]. rewrite run_app, (IHa _ _ _ _ Ha).
    destruct (truth L a st) as [[[|]|v] s]; cbn [Bool.eqb]; [reflexivity|apply (IHb _ _ _ _ Hb)|reflexivity].
Qed.

(* the jump array is used if the truth is op; otherwise the near array or the end *)
Definition goes (op : bool) (j n : label) (t : (bool + V) * St) (r : (option label + V) * St) : Prop :=
  match t with
  | (inl b, st) => if Bool.eqb b op then r = (inl (Some j), st)
                   else r = (inl (Some n), st) \/ r = (inl None, st)
  | (inr v, st) => r = (inr v, st)
  end.

Lemma run_good c : forall op j n st, good c = true ->
  goes op j n (truth L c st) (run (gen_inner c op j n) st).
Proof.
  induction c as [k|c IH|a IHa b IHb|a IHa b IHb]; intros op j n st H.
  - rewrite run_leaf. destruct (truth L (CLeaf k) st) as [[b|v] s]; cbn [goes]; [|reflexivity].
    destruct (Bool.eqb b op); auto.
  - cbn [gen_inner truth good] in *. pose proof (IH (negb op) j n st H) as G.
    destruct (truth L c st) as [[b|v] s]; cbn [goes] in *; [|exact G].
    destruct b, op; exact G.
  - cbn [good] in H. apply andb_prop in H as [Ha Hb]. cbn [gen_inner truth]. rewrite run_app.
    destruct op; cbn [negb]; rewrite (run_pure a false _ _ st Ha);
      destruct (truth L a st) as [[[|]|v] s]; cbn [Bool.eqb goes]; auto; apply (IHb _ _ _ _ Hb).
  - cbn [good] in H. apply andb_prop in H as [Ha Hb]. cbn [gen_inner truth]. rewrite run_app.
    destruct op; cbn [negb]; rewrite (run_pure a true _ _ st Ha);
      destruct (truth L a st) as [[[|]|v] s]; cbn [Bool.eqb goes]; auto; apply (IHb _ _ _ _ Hb).
Qed.

Theorem good_right c op st : good c = true -> jumps_far L c op st = expected L c op st.
Proof.
  intros H. pose proof (run_good c op Far Near st H) as G. unfold jumps_far, expected, gen_cond.
  destruct (truth L c st) as [[b|v] s]; cbn [goes] in G.
  - destruct (Bool.eqb b op); [rewrite G; reflexivity|destruct G as [G|G]; rewrite G; reflexivity].
  - rewrite G. reflexivity.
Qed.
End COND.

(* ---- conditions of other shapes are compiled wrongly ---- *)

Definition open (c : cond) : Prop := Forall (fun k => exists e, k = KExpr e) (leaves c).

Definition agree (f g : Z -> bool) (c : cond) : Prop := forall e, In (KExpr e) (leaves c) -> f e = g e.

Lemma no_exc f c : open c -> exists b, truth (world f) c tt = (inl b, tt).
Proof.
  unfold open. induction c as [k|c IH|x IHx y IHy|x IHx y IHy]; cbn [leaves truth]; intros Ho.
  - inversion Ho as [|? ? [e He]]; subst. cbn. eauto.
  - destruct (IH Ho) as [b ->]. eauto.
  - apply Forall_app in Ho as [H1 H2]. destruct (IHx H1) as [[|] ->]; eauto.
  - apply Forall_app in Ho as [H1 H2]. destruct (IHx H1) as [[|] ->]; eauto.
Qed.

Lemma agree_truth f g c : open c -> agree f g c -> truth (world f) c tt = truth (world g) c tt.
Proof.
  unfold open, agree. induction c as [k|c IH|a IHa b IHb|a IHa b IHb]; cbn [leaves truth]; intros Ho H.
  - inversion Ho as [|? ? [e He]]; subst. cbn. rewrite (H e) by (left; reflexivity). reflexivity.
  - rewrite IH by assumption. reflexivity.
  - apply Forall_app in Ho as [Hoa Hob].
    rewrite IHa by (auto; intros e He; apply H, in_or_app; auto).
    destruct (truth (world g) a tt) as [[[|]|v] []]; try reflexivity;
      apply IHb; auto; intros e He; apply H, in_or_app; auto.
  - apply Forall_app in Ho as [Hoa Hob].
    rewrite IHa by (auto; intros e He; apply H, in_or_app; auto).
    destruct (truth (world g) a tt) as [[[|]|v] []]; try reflexivity;
      apply IHb; auto; intros e He; apply H, in_or_app; auto.
Qed.

Lemma agree_run f g c op j n : open c -> agree f g c ->
  run_code (world f) (gen_inner c op j n) tt = run_code (world g) (gen_inner c op j n) tt.
Proof.
  unfold open, agree. revert op j n. induction c as [k|c IH|a IHa b IHb|a IHa b IHb]; cbn [leaves]; intros op j n Ho H.
  - inversion Ho as [|? ? [e He]]; subst. destruct op; cbn; rewrite (H e) by (left; reflexivity); reflexivity.
  - cbn [gen_inner]. apply IH; assumption.
  - apply Forall_app in Ho as [Hoa Hob]. cbn [gen_inner]. rewrite !run_app.
    assert (Ha : forall o x y, run_code (world f) (gen_inner a o x y) tt = run_code (world g) (gen_inner a o x y) tt)
      by (intros; apply IHa; auto; intros e He; apply H, in_or_app; auto).
    assert (Hb : forall o x y, run_code (world f) (gen_inner b o x y) tt = run_code (world g) (gen_inner b o x y) tt)
      by (intros; apply IHb; auto; intros e He; apply H, in_or_app; auto).
    destruct op; rewrite Ha; (destruct (run_code (world g) (gen_inner a _ _ _) tt) as [[[l|]|v] []]; [reflexivity| |reflexivity]); apply Hb.
  - apply Forall_app in Ho as [Hoa Hob]. cbn [gen_inner]. rewrite !run_app.
    assert (Ha : forall o x y, run_code (world f) (gen_inner a o x y) tt = run_code (world g) (gen_inner a o x y) tt)
      by (intros; apply IHa; auto; intros e He; apply H, in_or_app; auto).
    assert (Hb : forall o x y, run_code (world f) (gen_inner b o x y) tt = run_code (world g) (gen_inner b o x y) tt)
      by (intros; apply IHb; auto; intros e He; apply H, in_or_app; auto).
    destruct op; rewrite Ha; (destruct (run_code (world g) (gen_inner a _ _ _) tt) as [[[l|]|v] []]; [reflexivity| |reflexivity]); apply Hb.
Qed.

(* values for two conditions without common operands *)
Lemma merge a b f g : NoDup (leaves a ++ leaves b) ->
  exists h, agree h f a /\ agree h g b.
Proof.
  intros H. assert (D : forall e : Z, {In (KExpr e) (leaves a)} + {~ In (KExpr e) (leaves a)}).
  { intros e. apply in_dec. intros x y. decide equality; try apply Bool.bool_dec; apply Z.eq_dec. }
  exists (fun e => if D e then f e else g e). split; intros e He.
  - destruct (D e); [reflexivity|contradiction].
  - destruct (D e) as [Hi|]; [exfalso|reflexivity].
    clear - H Hi He. induction (leaves a) as [|x r IH]; [destruct Hi|].
    cbn in H. inversion H; subst. destruct Hi as [->|Hi]; [apply H2, in_or_app; auto|auto].
Qed.

Lemma nodup_l {A} (a b : list A) : NoDup (a ++ b) -> NoDup a.
Proof.
  induction a as [|x r IH]; cbn; intros H; [constructor|]. inversion H; subst. constructor; auto.
  intros Hi. apply H2, in_or_app; auto.
Qed.
Lemma nodup_r {A} (a b : list A) : NoDup (a ++ b) -> NoDup b.
Proof. induction a as [|x r IH]; cbn; intros H; [assumption|]. inversion H; subst. auto. Qed.

(* every condition can be true and can be false *)
Lemma any_truth c : open c -> NoDup (leaves c) -> forall b, exists f, truth (world f) c tt = (inl b, tt).
Proof.
  unfold open. induction c as [k|c IH|x IHx y IHy|x IHx y IHy]; cbn [leaves]; intros Ho Hn b.
  - inversion Ho as [|? ? [e He]]; subst. exists (fun _ => b). reflexivity.
  - destruct (IH Ho Hn (negb b)) as [f Hf]. exists f. cbn [truth]. rewrite Hf, negb_involutive. reflexivity.
  - apply Forall_app in Ho as [Ha Hb].
    destruct (IHx Ha (nodup_l _ _ Hn) true) as [f Hf]. destruct (IHy Hb (nodup_r _ _ Hn) b) as [g Hg].
    destruct (merge x y f g Hn) as (h & H1 & H2). exists h. cbn [truth].
    rewrite (agree_truth h f x Ha H1), Hf, (agree_truth h g y Hb H2), Hg. reflexivity.
  - apply Forall_app in Ho as [Ha Hb].
    destruct (IHx Ha (nodup_l _ _ Hn) false) as [f Hf]. destruct (IHy Hb (nodup_r _ _ Hn) b) as [g Hg].
    destruct (merge x y f g Hn) as (h & H1 & H2). exists h. cbn [truth].
    rewrite (agree_truth h f x Ha H1), Hf, (agree_truth h g y Hb H2), Hg. reflexivity.
Qed.

Notation wrun f := (run_code (world f)).

(* the code of a first operand, then the code of a second operand *)
Lemma seq_run a b f g o1 j1 n1 o2 j2 n2 r : open a -> open b -> NoDup (leaves a ++ leaves b) ->
  wrun f (gen_inner a o1 j1 n1) tt = (inl None, tt) -> wrun g (gen_inner b o2 j2 n2) tt = r ->
  exists h, agree h f a /\ agree h g b /\ wrun h (gen_inner a o1 j1 n1 ++ gen_inner b o2 j2 n2) tt = r.
Proof.
  intros Ha Hb Hn Hf Hg. destruct (merge a b f g Hn) as (h & H1 & H2). exists h.
  split; [assumption|split; [assumption|]]. rewrite run_app, (agree_run h f a), Hf, (agree_run h g b); auto.
Qed.

(* the code of every condition can jump to the jump array and can reach its end *)
Lemma any_run c : open c -> NoDup (leaves c) -> forall op j n,
  (exists f, wrun f (gen_inner c op j n) tt = (inl (Some j), tt)) /\
  (exists f, wrun f (gen_inner c op j n) tt = (inl None, tt)).
Proof.
  unfold open. induction c as [k|c IH|x IHx y IHy|x IHx y IHy]; cbn [leaves]; intros Ho Hn op j n.
  - inversion Ho as [|? ? [e He]]; subst. split; [exists (fun _ => op)|exists (fun _ => negb op)]; destruct op; reflexivity.
  - cbn [gen_inner]. apply IH; assumption.
  - apply Forall_app in Ho as [Ha Hb]. pose proof (nodup_l _ _ Hn) as Na. pose proof (nodup_r _ _ Hn) as Nb.
    cbn [gen_inner]. destruct (IHy Hb Nb op j n) as [[g1 G1] [g2 G2]]. destruct op; cbn [negb].
    + destruct (IHx Ha Na false n j) as [_ [f F]]. split;
        [destruct (seq_run x y f g1 _ _ _ _ _ _ _ Ha Hb Hn F G1) as (h & _ & _ & Hh)
        |destruct (seq_run x y f g2 _ _ _ _ _ _ _ Ha Hb Hn F G2) as (h & _ & _ & Hh)]; eauto.
    + destruct (IHx Ha Na false j n) as [[f1 F1] [f F]]. split.
      * exists f1. rewrite run_app, F1. reflexivity.
      * destruct (seq_run x y f g2 _ _ _ _ _ _ _ Ha Hb Hn F G2) as (h & _ & _ & Hh); eauto.
  - apply Forall_app in Ho as [Ha Hb]. pose proof (nodup_l _ _ Hn) as Na. pose proof (nodup_r _ _ Hn) as Nb.
    cbn [gen_inner]. destruct (IHy Hb Nb op j n) as [[g1 G1] [g2 G2]]. destruct op; cbn [negb].
    + destruct (IHx Ha Na true j n) as [[f1 F1] [f F]]. split.
      * exists f1. rewrite run_app, F1. reflexivity.
      * destruct (seq_run x y f g2 _ _ _ _ _ _ _ Ha Hb Hn F G2) as (h & _ & _ & Hh); eauto.
    + destruct (IHx Ha Na true n j) as [_ [f F]]. split;
        [destruct (seq_run x y f g1 _ _ _ _ _ _ _ Ha Hb Hn F G1) as (h & _ & _ & Hh)
        |destruct (seq_run x y f g2 _ _ _ _ _ _ _ Ha Hb Hn F G2) as (h & _ & _ & Hh)]; eauto.
Qed.

(* the near array is used *)
Lemma near_run c : open c -> NoDup (leaves c) -> forall op j n, pure op c = false ->
  exists f, wrun f (gen_inner c op j n) tt = (inl (Some n), tt).
Proof.
  unfold open. induction c as [k|c IH|x IHx y IHy|x IHx y IHy]; cbn [leaves pure]; intros Ho Hn op j n H.
  - discriminate.
  - cbn [gen_inner]. apply IH; assumption.
  - apply Forall_app in Ho as [Ha Hb]. pose proof (nodup_l _ _ Hn) as Na. pose proof (nodup_r _ _ Hn) as Nb.
    cbn [gen_inner]. destruct op; cbn [negb andb] in *.
    + destruct (any_run x Ha Na false n j) as [[f F] _]. exists f. rewrite run_app, F. reflexivity.
    + destruct (pure false x) eqn:Hx.
      * destruct (any_run x Ha Na false j n) as [_ [f F]]. destruct (IHy Hb Nb false j n H) as [g G].
        destruct (seq_run x y f g _ _ _ _ _ _ _ Ha Hb Hn F G) as (h & _ & _ & Hh); eauto.
      * destruct (IHx Ha Na false j n Hx) as [f F]. exists f. rewrite run_app, F. reflexivity.
  - apply Forall_app in Ho as [Ha Hb]. pose proof (nodup_l _ _ Hn) as Na. pose proof (nodup_r _ _ Hn) as Nb.
    cbn [gen_inner]. destruct op; cbn [negb andb] in *.
    + destruct (pure true x) eqn:Hx.
      * destruct (any_run x Ha Na true j n) as [_ [f F]]. destruct (IHy Hb Nb true j n H) as [g G].
        destruct (seq_run x y f g _ _ _ _ _ _ _ Ha Hb Hn F G) as (h & _ & _ & Hh); eauto.
      * destruct (IHx Ha Na true j n Hx) as [f F]. exists f. rewrite run_app, F. reflexivity.
    + destruct (any_run x Ha Na true n j) as [[f F] _]. exists f. rewrite run_app, F. reflexivity.
Qed.

(* some values of the operands give a wrong jump *)
Lemma bad_run c : open c -> NoDup (leaves c) -> forall op j n, good c = false -> 
  exists f b r, truth (world f) c tt = (inl b, tt) /\ wrun f (gen_inner c op j n) tt = (inl r, tt) /\
    r = Some (if Bool.eqb b op then n else j).
Proof.
  unfold open. induction c as [k|c IH|x IHx y IHy|x IHx y IHy]; cbn [leaves good]; intros Ho Hn op j n H.
  - discriminate.
  - cbn [gen_inner]. destruct (IH Ho Hn (negb op) j n H) as (f & b & r & H1 & H2 & H3).
    exists f, (negb b), r. cbn [truth]. rewrite H1. split; [reflexivity|]. split; [assumption|].
    rewrite H3. destruct b, op; reflexivity.
  - apply Forall_app in Ho as [Ha Hb]. pose proof (nodup_l _ _ Hn) as Na. pose proof (nodup_r _ _ Hn) as Nb.
    destruct (pure false x) eqn:Hx.
    + (* the second operand is wrong *)
      destruct (IHy Hb Nb op j n H) as (g & b & r & G1 & G2 & G3).
      destruct (any_truth x Ha Na true) as [f F].
      destruct (merge x y f g Hn) as (h & M1 & M2). exists h, b, r. cbn [truth gen_inner].
      rewrite (agree_truth h f x Ha M1), F, (agree_truth h g y Hb M2), G1. split; [reflexivity|]. split; [|assumption].
      rewrite run_app. assert (E0 : forall p q, wrun h (gen_inner x false p q) tt = (inl None, tt)).
      { intros p q. rewrite run_pure by assumption. rewrite (agree_truth h f x Ha M1), F. reflexivity. }
      destruct op; cbn [negb]; rewrite E0, (agree_run h g y _ _ _ Hb M2); exact G2.
    + (* the first operand jumps over the second one *)
      destruct (any_truth y Hb Nb false) as [g G].
      destruct op.
      * destruct (near_run x Ha Na false n j Hx) as [f F].
        destruct (merge x y f g Hn) as (h & M1 & M2). exists h, false, (Some j). cbn [truth gen_inner negb].
        split; [|split; [rewrite run_app, (agree_run h f x _ _ _ Ha M1), F; reflexivity|reflexivity]].
        destruct (no_exc h x Ha) as [[|] ->]; [rewrite (agree_truth h g y Hb M2), G|]; reflexivity.
      * destruct (near_run x Ha Na false j n Hx) as [f F].
        destruct (merge x y f g Hn) as (h & M1 & M2). exists h, false, (Some n). cbn [truth gen_inner negb].
        split; [|split; [rewrite run_app, (agree_run h f x _ _ _ Ha M1), F; reflexivity|reflexivity]].
        destruct (no_exc h x Ha) as [[|] ->]; [rewrite (agree_truth h g y Hb M2), G|]; reflexivity.
  - apply Forall_app in Ho as [Ha Hb]. pose proof (nodup_l _ _ Hn) as Na. pose proof (nodup_r _ _ Hn) as Nb.
    destruct (pure true x) eqn:Hx.
    + destruct (IHy Hb Nb op j n H) as (g & b & r & G1 & G2 & G3).
      destruct (any_truth x Ha Na false) as [f F].
      destruct (merge x y f g Hn) as (h & M1 & M2). exists h, b, r. cbn [truth gen_inner].
      rewrite (agree_truth h f x Ha M1), F, (agree_truth h g y Hb M2), G1. split; [reflexivity|]. split; [|assumption].
      rewrite run_app. assert (E0 : forall p q, wrun h (gen_inner x true p q) tt = (inl None, tt)).
      { intros p q. rewrite run_pure by assumption. rewrite (agree_truth h f x Ha M1), F. reflexivity. }
      destruct op; cbn [negb]; rewrite E0, (agree_run h g y _ _ _ Hb M2); exact G2.
    + destruct (any_truth y Hb Nb true) as [g G].
      destruct op.
      * destruct (near_run x Ha Na true j n Hx) as [f F].
        destruct (merge x y f g Hn) as (h & M1 & M2). exists h, true, (Some n). cbn [truth gen_inner negb].
        split; [|split; [rewrite run_app, (agree_run h f x _ _ _ Ha M1), F; reflexivity|reflexivity]].
        destruct (no_exc h x Ha) as [[|] ->]; [|rewrite (agree_truth h g y Hb M2), G]; reflexivity.
      * destruct (near_run x Ha Na true n j Hx) as [f F].
        destruct (merge x y f g Hn) as (h & M1 & M2). exists h, true, (Some j). cbn [truth gen_inner negb].
        split; [|split; [rewrite run_app, (agree_run h f x _ _ _ Ha M1), F; reflexivity|reflexivity]].
        destruct (no_exc h x Ha) as [[|] ->]; [|rewrite (agree_truth h g y Hb M2), G]; reflexivity.
Qed.

Theorem bad_wrong c op : open c -> NoDup (leaves c) -> good c = false ->
  exists f, jumps_far (world f) c op tt <> expected (world f) c op tt.
Proof.
  intros Ho Hn H. destruct (bad_run c Ho Hn op Far Near H) as (f & b & r & H1 & H2 & ->).
  exists f. unfold jumps_far, expected, gen_cond. rewrite H1, H2. destruct (Bool.eqb b op); discriminate.
Qed.
