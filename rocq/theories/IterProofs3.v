From Coq Require Import ZArith List Lia Bool ZifyBool.
Import ListNotations.
From Verif Require Import Base ListZ IndexModel ArrayModel ArraySpec ArrayProofs BufferModel BufferSpec BufferProofs
  IterModel IterSpec ParseIntModel ParseIntSpec ParseIntProofs.
Local Open Scope Z_scope.

(* ---- array.insert with an iterator ---- *)
Section Ins.
Context {V : Type}.
Variable void : V.

Lemma upd_app : forall (x y : list V) a b, upd (x ++ a :: y) (length x) b = x ++ b :: y.
Proof. induction x; intros; cbn; [ reflexivity | f_equal; apply IHx ]. Qed.

Lemma overwrite_ok : forall src (a : arr V) x y z, rep a (x ++ y ++ z) -> y <> [] ->
  exists a' s1 s2 y', overwrite_from src a (len x) (len x + len y) = Ok (a', len x + len s1, s2) /\
    src = s1 ++ s2 /\ len s1 + len y' = len y /\ rep a' (x ++ s1 ++ y' ++ z) /\ (y' = [] \/ s2 = []).
Proof.
  induction src as [|v src IH]; intros a x y z Hr Hy.
  - exists a, [], [], y. cbn [overwrite_from]. rewrite len_nil, Z.add_0_r. split; [ reflexivity | ]. split; [ reflexivity | ].
    split; [ lia | ]. split; [ exact Hr | right; reflexivity ].
  - destruct y as [|y0 y]; [ congruence | ]. cbn [overwrite_from].
    destruct (rep_len _ _ Hr) as [_ Hl]. rewrite !len_app, len_cons in Hl.
    pose proof (len_nonneg _ x). pose proof (len_nonneg _ y). pose proof (len_nonneg _ z). unfold CAPMAX in Hl.
    unfold vm_set. destruct (_ || _) eqn:Eo; [ lia | ]. clear Eo.
    pose proof (write_ok a _ (len x) v Hr ltac:(lia)) as W. unfold elem_pos in W.
    rewrite !len_app, len_cons in W.
    destruct ((0 <=? len x) && (len x <? len x + (1 + len y + len z))) eqn:E; [ | lia ]. clear E.
    destruct W as [a' [W1 W2]]. rewrite W1. cbn [bind]. unfold len in W2 at 1. rewrite Nat2Z.id in W2.
    cbn [app] in W2. rewrite upd_app in W2. rewrite len_cons.
    destruct (Z.leb_spec (len x + (1 + len y)) (len x + 1)).
    + assert (y = []) by (destruct y; [ reflexivity | rewrite len_cons in *; pose proof (len_nonneg _ y); lia ]). subst y.
      exists a', [v], src, []. split; [ reflexivity | ]. split; [ reflexivity | ]. split; [ reflexivity | ].
      split; [ exact W2 | left; reflexivity ].
    + assert (Hy' : y <> []) by (intros ->; rewrite len_nil in *; lia).
      assert (W2' : rep a' ((x ++ [v]) ++ y ++ z)) by (rewrite <- app_assoc; exact W2).
      destruct (IH a' (x ++ [v]) y z W2' Hy') as (a2 & s1 & s2 & y' & I1 & I2 & I3 & I4 & I5).
      rewrite !len_app, len_cons, len_nil in I1.
      replace (len x + (1 + len y)) with (len x + (1 + 0) + len y) by lia.
      replace (len x + 1) with (len x + (1 + 0)) by lia. rewrite I1.
      exists a2, (v :: s1), s2, y'. rewrite len_cons. split; [ do 3 f_equal; lia | ].
      split; [ cbn; f_equal; exact I2 | ]. split; [ lia | ].
      split; [ | exact I5 ]. rewrite <- !app_assoc in I4. exact I4.
Qed.

Lemma array_of_rep : forall l : list V, len l <= CAPMAX -> rep (array_of l) l.
Proof.
  intros l H. unfold rep, array_of. cbn [a_size a_buf]. rewrite len_map. split; [ reflexivity | ]. split; [ lia | ].
  intros i Hi. unfold gz. destruct (Z.ltb_spec i 0); [ lia | ]. rewrite nth_error_map.
  destruct (Z.ltb_spec i (len l)); [ | lia ].
  destruct (nth_error l (Z.to_nat i)) eqn:E; [ reflexivity | ]. apply nth_error_None in E. unfold len in *. lia.
Qed.

Lemma src_part_all : forall l : list V, len l <= CAPMAX -> src_part l 0 INT64_MAX = l.
Proof.
  intros l H. unfold src_part, list_slice, pos_of, sub. change @llen with @len. pose proof (len_nonneg _ l).
  change (0 =? INT64_MAX) with false. cbv iota.
  change (INT64_MAX <? 0) with false. change (0 <? 0) with false. cbv iota.
  replace (Z.max 0 (Z.min (len l) INT64_MAX)) with (len l) by (unfold CAPMAX, INT64_MAX in *; lia).
  replace (Z.max 0 (Z.min (len l) 0)) with 0 by lia. cbn [Z.to_nat skipn]. rewrite Z.sub_0_r.
  rewrite to_nat_len. apply firstn_all.
Qed.

Lemma ins_parts : forall (x y z ins : list V) b e, b = len x -> e = len x + len y ->
  list_insert (x ++ y ++ z) b e ins = x ++ ins ++ z.
Proof.
  intros x y z ins b e -> ->. unfold list_insert, pos_of, splice. change @llen with @len.
  pose proof (len_nonneg _ x). pose proof (len_nonneg _ y). pose proof (len_nonneg _ z). rewrite !len_app.
  destruct (Z.ltb_spec (len x) 0); [ lia | ]. destruct (Z.ltb_spec (len x + len y) 0); [ lia | ].
  replace (Z.max 0 (Z.min (len x + (len y + len z)) (len x))) with (len x) by lia.
  replace (Z.max (len x) (Z.max 0 (Z.min (len x + (len y + len z)) (len x + len y)))) with (len (x ++ y)) by (rewrite len_app; lia).
  rewrite firstn_app_len by reflexivity. f_equal. f_equal.
  rewrite app_assoc. apply skipn_app_len. reflexivity.
Qed.

Lemma list_insert_pos : forall (l ins : list V) b e b' e',
  pos_of (len l) b = pos_of (len l) b' ->
  Z.max (pos_of (len l) b) (pos_of (len l) e) = Z.max (pos_of (len l) b') (pos_of (len l) e') ->
  list_insert l b e ins = list_insert l b' e' ins.
Proof.
  intros l ins b e b' e' H1 H2. unfold list_insert. change @llen with @len. rewrite H2, H1. reflexivity.
Qed.

Lemma insert_iter_ok : forall (a : arr V) l src b e, rep a l -> len src <= CAPMAX ->
  (exists a', insert_iter void a b e src = Ok a' /\ rep a' (list_insert l b e src)) \/
  (insert_iter void a b e src = Oom /\ 2 ^ 27 < len (list_insert l b e src)).
Proof.
  intros a l src b e Hr Hsrc. destruct (rep_len _ _ Hr) as [Hs Hl]. unfold insert_iter. rewrite Hs.
  set (n := len l) in *.
  set (b1 := if (if b <? 0 then b + n else b) <? 0 then 0 else if b <? 0 then b + n else b).
  set (e1 := if n <? (if e <? 0 then e + n else e) then n else if e <? 0 then e + n else e).
  set (e2 := if e1 <? b1 then b1 else e1).
  assert (Hb1 : 0 <= b1 /\ pos_of n b = Z.min n b1) by (unfold b1, pos_of; ztest; lia).
  assert (He1 : e1 <= n /\ pos_of n e = Z.max 0 e1) by (unfold e1, pos_of; ztest; lia).
  clearbody b1 e1. destruct Hb1 as [Hb1 Pb]. destruct He1 as [He1 Pe].
  destruct (Z.ltb_spec b1 e2) as [Hlt|Hlt].
  - assert (Ee : e2 = e1) by (unfold e2 in *; destruct (e1 <? b1) eqn:?; lia). clearbody e2. subst e2.
    assert (Esp : exists x y z, l = x ++ y ++ z /\ len x = b1 /\ len y = e1 - b1).
    { exists (firstn (Z.to_nat b1) l), (sub l b1 e1), (skipn (Z.to_nat e1) l). split; [ apply split3; lia | ].
      unfold n, len in *. split; [ rewrite firstn_length; lia | ]. unfold sub. rewrite firstn_length, skipn_length. lia. }
    destruct Esp as (x & y & z & -> & Ex & Ey).
    assert (Hy : y <> []) by (intros ->; rewrite len_nil in Ey; lia).
    destruct (overwrite_ok src a x y z Hr Hy) as (a' & s1 & s2 & y' & O1 & O2 & O3 & O4 & O5).
    rewrite Ey, Ex in O1. replace (b1 + (e1 - b1)) with e1 in O1 by lia. rewrite O1. cbn [bind].
    assert (Hs2 : len s2 <= CAPMAX) by (subst src; rewrite len_app in Hsrc; pose proof (len_nonneg _ s1); lia).
    destruct (insert_ok void (fun _ _ => true) a' _ (Some (array_of s2)) s2 (b1 + len s1) e1 0 INT64_MAX O4 (array_of_rep _ Hs2) ltac:(discriminate)) as [[a2 [P1 P2]] | [P1 P2]]; rewrite src_part_all in P2 by exact Hs2.
    + left. exists a2. split; [ exact P1 | ].
      rewrite (list_insert_pos _ src b e b1 e1) by (fold n; unfold pos_of in *; ztest; lia).
      rewrite (ins_parts x y z src b1 e1) by lia.
      replace (x ++ s1 ++ y' ++ z) with ((x ++ s1) ++ y' ++ z) in P2 by (rewrite <- app_assoc; reflexivity).
      rewrite (ins_parts (x ++ s1) y' z s2) in P2 by (rewrite len_app; lia).
      rewrite O2, <- !app_assoc in *. exact P2.
    + right. split; [ exact P1 | ].
      rewrite (list_insert_pos _ src b e b1 e1) by (fold n; unfold pos_of in *; ztest; lia).
      rewrite (ins_parts x y z src b1 e1) by lia.
      replace (x ++ s1 ++ y' ++ z) with ((x ++ s1) ++ y' ++ z) in P2 by (rewrite <- app_assoc; reflexivity).
      rewrite (ins_parts (x ++ s1) y' z s2) in P2 by (rewrite len_app; lia).
      rewrite O2, <- !app_assoc in *. exact P2.
  - assert (Ee : e2 = b1 /\ e1 <= b1) by (unfold e2 in *; destruct (e1 <? b1) eqn:?; lia). clearbody e2. destruct Ee as [-> Ee].
    rewrite (list_insert_pos l src b e b1 b1) by (fold n; unfold pos_of in *; ztest; lia).
    destruct (insert_ok void (fun _ _ => true) a _ (Some (array_of src)) src b1 b1 0 INT64_MAX Hr (array_of_rep _ Hsrc) ltac:(discriminate)) as [[a2 [P1 P2]] | [P1 P2]]; rewrite src_part_all in P2 by exact Hsrc.
    + left. exists a2. split; [ exact P1 | exact P2 ].
    + right. split; [ exact P1 | exact P2 ].
Qed.
End Ins.

(* ---- get_value_from_array ---- *)
Lemma get_value_ok : forall V (a : arr V) l i d, rep a l ->
  get_value a i d = Ok (match elem_pos (len l) i with Some k => nth k l d | None => d end).
Proof.
  intros V a l i d Hr. destruct (rep_len _ _ Hr) as [Hs Hl]. unfold get_value. rewrite Hs. unfold CAPMAX in Hl.
  set (j := if i <? 0 then if len l + i <? 0 then len l else len l + i else i).
  destruct (Z.ltb_spec j (len l)) as [H|H].
  - assert (Hj : 0 <= j /\ (j = i \/ j = len l + i /\ i < 0)) by (unfold j in *; ztest; lia).
    unfold vm_get. destruct (_ || _) eqn:E; [ lia | ]. clear E.
    pose proof (read_ok a l j Hr ltac:(lia)) as R.
    assert (E1 : elem_pos (len l) j = Some (Z.to_nat j)) by (unfold elem_pos; ztest; lia || reflexivity).
    assert (E2 : elem_pos (len l) i = Some (Z.to_nat j)).
    { unfold elem_pos. destruct Hj as [Hj [Hj'|[Hj' Hn]]].
      - destruct (_ && _) eqn:E; [ congruence | lia ].
      - destruct (_ && _) eqn:E; [ lia | ]. clear E. destruct (_ && _) eqn:E; [ congruence | lia ]. }
    rewrite E1 in R. rewrite E2. destruct (nth_error l (Z.to_nat j)) as [v|] eqn:En.
    + rewrite (nth_error_nth _ _ d En). exact R.
    + apply nth_error_None in En. unfold len in *. lia.
  - assert (E2 : elem_pos (len l) i = None).
    { unfold elem_pos. unfold j in H. destruct (Z.ltb_spec i 0); [ destruct (Z.ltb_spec (len l + i) 0) | ];
        (destruct (_ && _) eqn:E; [ lia | ]; clear E; destruct (_ && _) eqn:E; [ lia | reflexivity ]). }
    rewrite E2. reflexivity.
Qed.
