(* The matcher tries the outcomes of the bytecode in order. *)
From Coq Require Import ZArith List Lia Bool ZifyBool.
Import ListNotations.
From Verif Require Import Base ListZ ReClassModel ReModel.
Local Open Scope Z_scope.
Ltac Zify.zify_post_hook ::= idtac.

Lemma u16_small : forall x, 0 <= x <= 65535 -> u16 x = x.
Proof. intros x H. unfold u16, uwrap. apply Z.mod_small. change (2 ^ 16) with 65536. lia. Qed.
Lemma s16_u16 : forall x, -32768 <= x <= 32767 -> s16 (u16 x) = x.
Proof.
  intros x H. unfold s16, swrap, u16, uwrap. change (2 ^ 16) with 65536. change (2 ^ (16 - 1)) with 32768.
  Z.div_mod_to_equations. brk; lia.
Qed.

Lemma len_setz : forall A (l : list A) i v, 0 <= i < len l -> len (setz l i v) = len l.
Proof. intros. unfold setz. lenz. lia. Qed.
Lemma gz_setz : forall A (l : list A) i v j, 0 <= i < len l -> gz (setz l i v) j = if j =? i then Some v else gz l j.
Proof.
  intros A l i v j H. unfold setz. rewrite gz_app, gz_firstn, gz_cons, gz_skipn. lenz.
  destruct (Z.ltb_spec j (Z.min (Z.of_nat (Z.to_nat i)) (len l))).
  - rewrite (proj2 (Z.ltb_lt _ _)) by lia. rewrite (proj2 (Z.eqb_neq j i)) by lia. reflexivity.
  - replace (Z.min (Z.of_nat (Z.to_nat i)) (len l)) with i by lia. destruct (Z.eqb_spec j i).
    + rewrite (proj2 (Z.eqb_eq (j - i) 0)) by lia. reflexivity.
    + rewrite (proj2 (Z.eqb_neq (j - i) 0)) by lia. rewrite (proj2 (Z.ltb_ge (j - i - 1) 0)) by lia. f_equal. lia.
Qed.
Lemma setz_app_l : forall A (l m : list A) i v, 0 <= i < len l -> setz (l ++ m) i v = setz l i v ++ m.
Proof.
  intros A l m i v H. unfold setz. rewrite firstn_app, skipn_app. unfold len in H.
  replace (Z.to_nat i - length l)%nat with 0%nat by lia. replace (Z.to_nat i + 1 - length l)%nat with 0%nat by lia.
  cbn [firstn skipn]. rewrite app_nil_r, <- app_assoc. reflexivity.
Qed.
Lemma setz_app_r : forall A (l m : list A) i v, len l <= i -> setz (l ++ m) i v = l ++ setz m (i - len l) v.
Proof.
  intros A l m i v H. unfold setz. rewrite firstn_app, skipn_app. unfold len in *.
  rewrite firstn_all2 by lia. rewrite skipn_all2 by lia. cbn [app]. rewrite <- app_assoc.
  replace (Z.to_nat (i - Z.of_nat (length l))) with (Z.to_nat i - length l)%nat by lia.
  replace (Z.to_nat i + 1 - length l)%nat with (Z.to_nat i - length l + 1)%nat by lia. reflexivity.
Qed.

Section Outs.
Variable re : robj.
Variable str : list Z.
Variables lo hi : Z.
Notation code := (o_code re).

(* the outcomes of running the code from an address, in the order in which they are tried *)
Inductive outs : Z -> Z -> list Z -> list (Z * list (option (Z * Z))) -> Prop :=
| o_end : forall pc pos sl, len code <= pc -> outs pc pos sl [(pos, found_groups re sl)]
| o_fail : forall pc pos sl, pc < len code -> step re str lo hi pc pos sl = SFail -> outs pc pos sl []
| o_next : forall pc pos sl pc' pos' sl' l, pc < len code -> step re str lo hi pc pos sl = SNext pc' pos' sl' ->
    outs pc' pos' sl' l -> outs pc pos sl l
| o_fork : forall pc pos sl pc1 pc2 pos' sl' l1 l2, pc < len code -> step re str lo hi pc pos sl = SFork pc1 pc2 pos' sl' ->
    0 <= pc2 <= 65535 -> 0 <= hi - pos' <= 65535 ->
    outs pc1 pos' sl' l1 -> outs pc2 pos' sl' l2 -> outs pc pos sl (l1 ++ l2).

(* what a result shows *)
Definition shows (v : vres) (r : option (Z * list (option (Z * Z)))) : Prop :=
  match v, r with
  | VMatch e sl, Some x => (e, found_groups re sl) = x
  | VNone, None => True
  | _, _ => False
  end.
Definition runs (pc pos : Z) (sl : list Z) st r : Prop :=
  exists F, forall f, (F <= f)%nat -> shows (run re str lo hi f pc pos sl st) r.
Definition pops st r : Prop :=
  match st with
  | [] => r = None
  | (idx, offs, sl) :: st' => runs idx (hi - offs) sl st' r
  end.

Lemma runs_next : forall pc pos sl pc' pos' sl' st r, pc < len code -> step re str lo hi pc pos sl = SNext pc' pos' sl' ->
  runs pc' pos' sl' st r -> runs pc pos sl st r.
Proof.
  intros pc pos sl pc' pos' sl' st r H E [F R]. exists (S F). intros f Hf. destruct f as [|f]; [lia |]. cbn [run].
  rewrite (proj2 (Z.ltb_lt _ _) H), E. apply R. lia.
Qed.

Lemma outs_runs : forall pc pos sl l, outs pc pos sl l ->
  match l with
  | [] => forall st r, pops st r -> runs pc pos sl st r
  | x :: _ => forall st, runs pc pos sl st (Some x)
  end.
Proof.
  induction 1 as [pc pos sl H | pc pos sl H E | pc pos sl pc' pos' sl' l H E O IH | pc pos sl pc1 pc2 pos' sl' l1 l2 H E B1 B2 O1 IH1 O2 IH2].
  - intros st. exists 1%nat. intros f Hf. destruct f as [|f]; [lia |]. cbn [run]. rewrite (proj2 (Z.ltb_ge _ _) H). reflexivity.
  - intros st r P. destruct st as [|[[idx offs] s'] st].
    + exists 1%nat. intros f Hf. destruct f as [|f]; [lia |]. cbn [run]. rewrite (proj2 (Z.ltb_lt _ _) H), E. cbn in P. rewrite P. exact I.
    + destruct P as [F P]. exists (S F). intros f Hf. destruct f as [|f]; [lia |]. cbn [run]. rewrite (proj2 (Z.ltb_lt _ _) H), E.
      apply P. lia.
  - destruct l as [|x l]; intros; eapply runs_next; eauto.
  - assert (K : forall st r, runs pc1 pos' sl' ((u16 pc2, u16 (hi - pos'), sl') :: st) r -> runs pc pos sl st r).
    { intros st r [F R]. exists (S F). intros f Hf. destruct f as [|f]; [lia |]. cbn [run].
      rewrite (proj2 (Z.ltb_lt _ _) H), E. apply R. lia. }
    assert (P2 : forall st r, runs pc2 pos' sl' st r -> pops ((u16 pc2, u16 (hi - pos'), sl') :: st) r).
    { intros st r R. cbn [pops]. rewrite !u16_small by lia. replace (hi - (hi - pos')) with pos' by lia. exact R. }
    destruct l1 as [|x l1]; cbn [app].
    + destruct l2 as [|y l2]; intros; apply K, IH1, P2; auto.
    + intros st. apply K, IH1.
Qed.

Lemma outs_result : forall pc pos sl l, outs pc pos sl l -> runs pc pos sl [] (hd_error l).
Proof.
  intros pc pos sl l O. pose proof (outs_runs _ _ _ _ O) as R. destruct l as [|x l]; cbn [hd_error]; [| apply R].
  apply R. reflexivity.
Qed.
End Outs.
