From Coq Require Import ZArith List Bool Arith Lia ZifyBool.
From Verif Require Import Base ReClassModel ReClassSpec.
Import ListNotations.
Open Scope Z_scope.
Ltac Zify.zify_post_hook ::= Z.div_mod_to_equations.

(* Sorted, separated ranges above lo. *)
Fixpoint ok (lo : Z) (rs : list range) : Prop :=
  match rs with
  | [] => True
  | (b, e) :: t => lo < b /\ b <= e /\ e < 2 ^ 24 /\ ok (e + 1) t
  end.

Fixpoint last_hi (lo : Z) (rs : list range) : Z :=
  match rs with [] => lo | (b, e) :: t => last_hi (e + 1) t end.

Lemma ok_app : forall A B lo, ok lo (A ++ B) <-> ok lo A /\ ok (last_hi lo A) B.
Proof.
  induction A as [ | [b e] A IH ]; intros B lo; cbn [app ok last_hi]; [ tauto | ].
  rewrite IH. tauto.
Qed.

Lemma last_hi_app : forall A B lo, last_hi lo (A ++ B) = last_hi (last_hi lo A) B.
Proof. induction A as [ | [b e] A IH ]; intros; cbn [app last_hi]; auto. Qed.

Lemma ok_weaken : forall rs lo lo', lo' <= lo -> ok lo rs -> ok lo' rs.
Proof. destruct rs as [ | [b e] t ]; cbn [ok]; intros; intuition lia. Qed.

Lemma ok_in : forall rs lo b e, ok lo rs -> In (b, e) rs -> lo < b /\ b <= e /\ e < 2 ^ 24.
Proof.
  induction rs as [ | [b' e'] t IH ]; intros lo b e H Hi; cbn [In ok] in *; [ contradiction | ].
  destruct Hi as [ [= -> ->] | Hi ]; [ tauto | ].
  destruct H as (H1 & H2 & H3 & H4). destruct (IH _ _ _ H4 Hi). lia.
Qed.

Lemma last_hi_bound : forall A lo b e, ok lo A -> In (b, e) A -> e + 1 <= last_hi lo A.
Proof.
  induction A as [ | [b' e'] t IH ]; intros lo b e H Hi; cbn [In ok last_hi] in *; [ contradiction | ].
  destruct H as (H1 & H2 & H3 & H4). destruct Hi as [ [= -> ->] | Hi ].
  - clear IH H1 H2. revert e H3 H4. induction t as [ | [b2 e2] t IHt ]; intros; cbn [last_hi ok] in *; [ lia | ].
    destruct H4 as (? & ? & ? & ?). specialize (IHt e2 H1 H2). lia.
  - eapply IH; eauto.
Qed.

Lemma last_hi_lo : forall A lo, ok lo A -> lo <= last_hi lo A.
Proof.
  induction A as [ | [b' e'] t IH ]; intros lo H; cbn [ok last_hi] in *; [ lia | ].
  destruct H as (H1 & H2 & H3 & H4). specialize (IH _ H4). lia.
Qed.

Lemma listed_app : forall A B c, listed (A ++ B) c <-> listed A c \/ listed B c.
Proof.
  intros A B c. unfold listed. split.
  - intros (b & e & Hi & Hc). apply in_app_or in Hi. destruct Hi; [ left | right ]; eauto.
  - intros [ (b & e & Hi & Hc) | (b & e & Hi & Hc) ]; exists b, e; split; auto; apply in_or_app; auto.
Qed.

Lemma listed_cons : forall b e B c, listed ((b, e) :: B) c <-> (b <= c <= e) \/ listed B c.
Proof.
  intros b e B c. unfold listed. split.
  - intros (b' & e' & [ [= <- <-] | Hi ] & Hc); [ left; lia | right; eauto ].
  - intros [ Hc | (b' & e' & Hi & Hc) ]; [ exists b, e | exists b', e' ]; split; cbn [In]; auto.
Qed.

Lemma listed_nil : forall c, ~ listed [] c.
Proof. intros c (b & e & [] & _). Qed.

Lemma listed_hi : forall A lo c, ok lo A -> listed A c -> lo < c < last_hi lo A.
Proof.
  intros A lo c H (b & e & Hi & Hc). destruct (ok_in _ _ _ _ H Hi).
  pose proof (last_hi_bound _ _ _ _ H Hi). lia.
Qed.

Lemma listed_lo : forall B lo c, ok lo B -> listed B c -> lo < c.
Proof. intros A lo c H (b & e & Hi & Hc). destruct (ok_in _ _ _ _ H Hi). lia. Qed.

(* Elements at positions below / above a split point. *)
Lemma nth_split_ok : forall (rs : list range) lo i b e, ok lo rs -> nth_error rs i = Some (b, e) ->
  exists A B, rs = A ++ (b, e) :: B /\ length A = i /\
              (forall b' e', In (b', e') A -> e' + 1 < b) /\ (forall b' e', In (b', e') B -> e + 1 < b').
Proof.
  intros rs lo i b e H Hn. destruct (nth_error_split rs i Hn) as (A & B & -> & Hl).
  exists A, B. repeat split; auto.
  - intros b' e' Hi. apply ok_app in H. destruct H as [HA HB]. cbn [ok] in HB.
    pose proof (last_hi_bound _ _ _ _ HA Hi). lia.
  - intros b' e' Hi. apply ok_app in H. destruct H as [HA HB]. cbn [ok] in HB.
    destruct HB as (_ & _ & _ & HB). destruct (ok_in _ _ _ _ HB Hi). lia.
Qed.

Lemma find_pos_spec : forall fuel rs code lo hi, ok (-1) rs ->
  (lo <= hi)%nat -> (hi <= length rs)%nat -> (hi - lo < fuel)%nat ->
  (forall i b e, (i < lo)%nat -> nth_error rs i = Some (b, e) -> b < code) ->
  (forall i b e, (hi <= i)%nat -> nth_error rs i = Some (b, e) -> code <= b) ->
  exists p, find_pos fuel rs code lo hi = Some (p, p) /\ (p <= length rs)%nat /\
    (forall i b e, (i < p)%nat -> nth_error rs i = Some (b, e) -> b < code) /\
    (forall i b e, (p <= i)%nat -> nth_error rs i = Some (b, e) -> code <= b).
Proof.
  induction fuel; intros rs code lo hi Hok Hlh Hhl Hf Hlo Hhi; [ lia | ].
  cbn [find_pos]. destruct (lo <? hi)%nat eqn:E.
  2:{ exists lo. replace hi with lo in * by lia. repeat split; auto. }
  pose proof (Nat.div_mod (lo + hi) 2 ltac:(lia)) as Hdm.
  pose proof (Nat.mod_upper_bound (lo + hi) 2 ltac:(lia)) as Hmm.
  set (mid := ((lo + hi) / 2)%nat) in *.
  destruct (nth_error rs mid) as [ [mb me] | ] eqn:En.
  2:{ apply nth_error_None in En. lia. }
  destruct (nth_split_ok rs (-1) mid mb me Hok En) as (A & B & Hrs & HA & HbA & HbB).
  assert (Hbelow : forall i b e, (i < mid)%nat -> nth_error rs i = Some (b, e) -> b < mb).
  { intros i b e Hi Hn. subst rs. rewrite nth_error_app1 in Hn by lia.
    apply nth_error_In in Hn. specialize (HbA _ _ Hn).
    apply ok_app in Hok. destruct Hok as [HokA _]. destruct (ok_in _ _ _ _ HokA Hn). lia. }
  assert (Habove : forall i b e, (mid < i)%nat -> nth_error rs i = Some (b, e) -> mb < b).
  { intros i b e Hi Hn. subst rs. rewrite nth_error_app2 in Hn by lia.
    destruct (i - length A)%nat as [ | j ] eqn:Ej; [ lia | ]. cbn [nth_error] in Hn.
    apply nth_error_In in Hn. specialize (HbB _ _ Hn).
    apply ok_app in Hok. destruct Hok as [_ HokB]. cbn [ok] in HokB. lia. }
  destruct (code =? mb) eqn:E1.
  - exists mid. repeat split; try lia.
    + intros i b e Hi Hn. specialize (Hbelow _ _ _ Hi Hn). lia.
    + intros i b e Hi Hn. destruct (Nat.eq_dec i mid) as [ -> | ].
      * rewrite En in Hn. injection Hn as <- <-. lia.
      * assert (mid < i)%nat by lia. specialize (Habove _ _ _ H Hn). lia.
  - destruct (code <? mb) eqn:E2.
    + apply IHfuel; auto; try lia.
      intros i b e Hi Hn. destruct (Nat.eq_dec i mid) as [ -> | ].
      * rewrite En in Hn. injection Hn as <- <-. lia.
      * assert (mid < i)%nat by lia. specialize (Habove _ _ _ H Hn). lia.
    + apply IHfuel; auto; try lia.
      intros i b e Hi Hn. destruct (Nat.eq_dec i mid) as [ -> | ].
      * rewrite En in Hn. injection Hn as <- <-. lia.
      * assert (i < mid)%nat by lia. specialize (Hbelow _ _ _ H Hn). lia.
Qed.

(* The search splits the class at the insertion point. *)
Lemma find_split : forall rs code, ok (-1) rs ->
  exists A B, rs = A ++ B /\ find_pos (S (length rs)) rs code 0 (length rs) = Some (length A, length A) /\
    (forall b e, In (b, e) A -> b < code) /\ (forall b e, In (b, e) B -> code <= b).
Proof.
  intros rs code Hok.
  destruct (find_pos_spec (S (length rs)) rs code 0 (length rs) Hok) as (p & H1 & H2 & H3 & H4); try lia.
  { intros i b e Hi Hn. apply nth_error_None in Hi. congruence. }
  exists (firstn p rs), (skipn p rs). rewrite firstn_skipn, firstn_length, Nat.min_l by lia.
  repeat split; auto.
  - intros b e Hi. apply In_nth_error in Hi. destruct Hi as [i Hi].
    assert (i < length (firstn p rs))%nat by (apply nth_error_Some; rewrite Hi; discriminate).
    rewrite firstn_length in H. apply (H3 i b e); [ lia | ].
    rewrite <- (firstn_skipn p rs), nth_error_app1 by (rewrite firstn_length; lia). assumption.
  - intros b e Hi. apply In_nth_error in Hi. destruct Hi as [i Hi].
    apply (H4 (p + i)%nat b e); [ lia | ].
    rewrite <- (firstn_skipn p rs), nth_error_app2 by (rewrite firstn_length; lia).
    rewrite firstn_length, Nat.min_l by lia. replace (p + i - p)%nat with i by lia. assumption.
Qed.

Lemma skip_touching_spec : forall B e i, 0 <= e < 2 ^ 24 ->
  exists B1 B2, B = B1 ++ B2 /\ skip_touching B e i = (i + length B1)%nat /\
    (forall b' e', In (b', e') B1 -> b' <= e + 1) /\
    (match B2 with [] => True | (b', _) :: _ => e + 1 < b' end).
Proof.
  intros B e i He. revert i. induction B as [ | [b' e'] B IH ]; intros i; cbn [skip_touching].
  - exists [], []. cbn [length]. repeat split; auto; intros; contradiction.
  - replace (u32 (e + 1)) with (e + 1) by (unfold u32, uwrap; rewrite Z.mod_small; lia).
    destruct (e + 1 <? b') eqn:E.
    + exists [], ((b', e') :: B). cbn [length]. repeat split; auto; try lia; intros; contradiction.
    + destruct (IH (S i)) as (B1 & B2 & -> & H2 & H3 & H4).
      exists ((b', e') :: B1), B2. cbn [length app]. repeat split; auto; try lia.
      intros b2 e2 [ [= <- <-] | Hi ]; [ lia | eauto ].
Qed.

Lemma upd_app : forall A x B y, upd (A ++ x :: B) (length A) y = A ++ y :: B.
Proof. induction A; intros; cbn [app length upd]; [ reflexivity | now rewrite IHA ]. Qed.

Lemma nth_app_mid : forall (A : list range) x B, nth_error (A ++ x :: B) (length A) = Some x.
Proof. intros. rewrite nth_error_app2 by lia. now rewrite Nat.sub_diag. Qed.

Lemma firstn_app_len : forall (A B : list range), firstn (length A) (A ++ B) = A.
Proof. intros. rewrite firstn_app, Nat.sub_diag, firstn_all. cbn [firstn]. apply app_nil_r. Qed.

Lemma skipn_app_len : forall (A B : list range), skipn (length A) (A ++ B) = B.
Proof. intros. rewrite skipn_app, Nat.sub_diag, skipn_all. reflexivity. Qed.

Lemma u32_small : forall x, 0 <= x < 2 ^ 32 -> u32 x = x.
Proof. intros. unfold u32, uwrap. now rewrite Z.mod_small. Qed.

(* The ranges which touch a new range b..e (from above) fill everything
   between b and the last one of them, once e is included. *)
Lemma touching_last : forall B1 x lo, ok lo (B1 ++ [x]) ->
  last_hi lo (B1 ++ [x]) = snd x + 1.
Proof. intros. rewrite last_hi_app. destruct x. reflexivity. Qed.

Lemma touching_union : forall B1 bx ex b e c lo,
  ok lo (B1 ++ [(bx, ex)]) -> (forall b' e', In (b', e') (B1 ++ [(bx, ex)]) -> b <= b' <= e + 1) ->
  b <= e ->
  ((b <= c <= e \/ listed (B1 ++ [(bx, ex)]) c) <-> b <= c <= Z.max e ex).
Proof.
  intros B1 bx ex b e c lo Hok Hb Hbe. split.
  - intros [ H | H ]; [ lia | ].
    destruct H as (b' & e' & Hi & Hc). pose proof (Hb _ _ Hi).
    pose proof (last_hi_bound _ _ _ _ Hok Hi). rewrite (touching_last B1 (bx, ex) lo Hok) in H0. cbn [snd] in H0. lia.
  - intros H. destruct (Z.le_gt_cases c e); [ left; lia | right ].
    apply listed_app. right. apply listed_cons. left.
    assert (In (bx, ex) (B1 ++ [(bx, ex)])) by (apply in_or_app; right; now left).
    pose proof (Hb _ _ H1). lia.
Qed.

(* What adding a range does, in all cases: the union, except that a range
   which is nested in a range other than the last one cuts it. *)
Definition cut_by (rs : list range) (b e : Z) (A : list range) (pb pe : Z) (B : list range) : Prop :=
  rs = A ++ (pb, pe) :: B /\ B <> [] /\ pb < b <= pe /\ e < pe.

Lemma add_spec : forall rs b e, ok (-1) rs -> 0 <= b <= e -> e < 2 ^ 24 ->
  exists rs', add_class_range rs b e = Some rs' /\ ok (-1) rs' /\
   ((exists A pb pe B, cut_by rs b e A pb pe B /\ rs' = A ++ (pb, e) :: B) \/
    ((forall A pb pe B, ~ cut_by rs b e A pb pe B) /\
     forall c, listed rs' c <-> listed rs c \/ b <= c <= e)).
Proof.
  intros rs b e Hok Hbe He.
  destruct (find_split rs b Hok) as (A & B & -> & Hf & HA & HB).
  unfold add_class_range. rewrite Hf.
  pose proof (proj1 (ok_app A B (-1)) Hok) as [HokA HokB].
  destruct (length A =? length (A ++ B))%nat eqn:Elast.
  - (* insertion point after all ranges *)
    assert (B = []) by (destruct B; auto; rewrite app_length in Elast; cbn [length] in Elast; lia).
    subst B. rewrite app_nil_r in *.
    destruct (length A) as [ | l ] eqn:El.
    + destruct A; [ | discriminate ]. exists [(b, e)]. split; [ reflexivity | ]. split; [ cbn [ok]; lia | ].
      right. split.
      * intros A' pb pe B' (H & _). destruct A'; discriminate.
      * intros c. rewrite listed_cons. pose proof (listed_nil c). tauto.
    + destruct (exists_last (l := A)) as (A' & [lb le] & ->); [ intros ->; discriminate | ].
      rewrite app_length in El. cbn [length] in El. assert (l = length A') by lia. subst l.
      rewrite nth_app_mid.
      apply ok_app in HokA. destruct HokA as [HokA' Hl]. cbn [ok] in Hl.
      pose proof (HA lb le ltac:(apply in_or_app; right; now left)) as Hlb.
      pose proof (last_hi_lo _ _ HokA') as Hll.
      rewrite (u32_small (le + 1)) by lia.
      assert (Hnocut : forall A0 pb pe B0, ~ cut_by (A' ++ [(lb, le)]) b e A0 pb pe B0).
      { intros A0 pb pe B0 (H1 & H2 & H3 & H4).
        destruct (exists_last H2) as (B' & x & ->).
        change (A0 ++ (pb, pe) :: B' ++ [x]) with (A0 ++ ((pb, pe) :: B') ++ [x]) in H1.
        rewrite app_assoc in H1. apply app_inj_tail in H1. destruct H1 as [H1 <-].
        subst A'. pose proof (last_hi_bound _ _ pb pe HokA' ltac:(apply in_or_app; right; now left)). lia. }
      destruct (b <=? le + 1) eqn:Etouch.
      * destruct (e >? le) eqn:Egt.
        -- rewrite upd_app. exists (A' ++ [(lb, e)]). split; [ reflexivity | ]. split.
           { apply ok_app. split; auto. cbn [ok]. lia. }
           right. split; auto. intros c. rewrite !listed_app, !listed_cons. pose proof (listed_nil c).
           intuition lia.
        -- exists (A' ++ [(lb, le)]). split; [ reflexivity | ]. split; [ apply ok_app; split; auto; cbn [ok]; lia | ].
           right. split; auto. intros c. rewrite !listed_app, !listed_cons. pose proof (listed_nil c).
           intuition lia.
      * exists ((A' ++ [(lb, le)]) ++ [(b, e)]). split; [ reflexivity | ]. split.
        { apply ok_app. split; [ apply ok_app; split; auto; cbn [ok]; lia | ].
          rewrite last_hi_app. cbn [last_hi ok]. lia. }
        right. split; auto. intros c. rewrite (listed_app _ [(b, e)]), listed_cons. pose proof (listed_nil c). tauto.
  - (* insertion point before some range *)
    assert (HBne : B <> []) by (intros ->; rewrite app_nil_r in Elast; lia).
    destruct (skip_touching_spec B e (length A) ltac:(lia)) as (B1 & B2 & HBs & Hskip & HB1 & HB2).
    pose proof (proj1 (ok_app B1 B2 (last_hi (-1) A))) as HokB12. rewrite HBs in HokB.
    specialize (HokB12 HokB). destruct HokB12 as [HokB1 HokB2].
    assert (HB2ok : forall hi, e + 1 <= hi \/ True -> hi = Z.max (e + 1) (last_hi (last_hi (-1) A) B1) -> ok hi B2).
    { intros hi _ ->. destruct B2 as [ | [b2 e2] B2 ]; cbn [ok] in *; auto. intuition lia. }
    assert (Hmax : forall x y, B1 = x ++ [y] -> last_hi (last_hi (-1) A) B1 = snd y + 1).
    { intros x y ->. rewrite (touching_last x y _ HokB1). reflexivity. }
    (* does the previous range touch? *)
    destruct (length A) as [ | l ] eqn:El.
    { (* no previous range *)
      destruct A; [ | discriminate ]. cbn [app] in *. cbn [skipn]. rewrite Hskip. cbn [last_hi] in *.
      assert (Hnocut : forall A0 pb pe B0, ~ cut_by B b e A0 pb pe B0).
      { intros A0 pb pe B0 (H1 & H2 & H3 & H4).
        pose proof (HB pb pe ltac:(rewrite H1; apply in_or_app; right; now left)). lia. }
      destruct B1 as [ | [b1 e1] B1t ] eqn:EB1.
      - cbn [length]. cbn [Nat.add Nat.ltb Nat.leb].
        exists ((b, e) :: B). subst B. cbn [firstn skipn app]. split; [ reflexivity | ]. split.
        { cbn [ok app]. repeat split; try lia. destruct B2 as [ | [b2 e2] B2 ]; cbn [ok app] in *; auto. intuition lia. }
        right. split; auto. intros c. rewrite listed_cons. tauto.
      - rewrite <- EB1 in *. destruct (exists_last (l := B1)) as (B1i & [bx ex] & HB1l); [ subst; discriminate | ].
        replace (0 <? 0 + length B1)%nat with true by (subst B1; cbn [length]; lia).
        assert (Hn0 : nth_error B 0 = Some (b1, e1)) by (subst B B1; reflexivity).
        assert (Hnl : nth_error B (0 + length B1 - 1) = Some (bx, ex)).
        { rewrite HBs, HB1l, app_length. cbn [length].
          replace (0 + (length B1i + 1) - 1)%nat with (length B1i) by lia.
          rewrite <- app_assoc. cbn [app]. apply nth_app_mid. }
        rewrite Hn0, Hnl. cbn [Nat.add firstn app].
        replace (skipn (length B1) B) with B2 by (rewrite HBs; symmetry; apply skipn_app_len).
        assert (Hb1 : b <= b1 <= e + 1).
        { split; [ apply (HB b1 e1); rewrite HBs, EB1; now left | apply (HB1 b1 e1); rewrite EB1; now left ]. }
        assert (Hexx : bx <= ex) by (rewrite HB1l in HokB1; apply ok_app in HokB1; cbn [ok] in HokB1; lia).
        assert (He1 : e1 <= ex).
        { pose proof (last_hi_bound B1 (-1) b1 e1 HokB1 ltac:(rewrite EB1; now left)).
          rewrite (Hmax _ _ HB1l) in H. cbn [snd] in H. lia. }
        set (jb := if b <? b1 then b else b1).
        set (en1 := if ex >? e then ex else e).
        set (je := if en1 >? e1 then en1 else e1).
        assert (Hjb : jb = b) by (unfold jb; destruct (b <? b1) eqn:?; lia).
        assert (Hje : je = Z.max e ex).
        { unfold je, en1. destruct (ex >? e) eqn:?; match goal with |- context [if ?x then _ else _] => destruct x eqn:? end; lia. }
        rewrite Hjb, Hje.
        exists ((b, Z.max e ex) :: B2). split; [ reflexivity | ].
        rewrite (Hmax _ _ HB1l) in HB2ok, HokB2. cbn [snd] in HB2ok, HokB2.
        split.
        { cbn [ok]. repeat split; try lia.
          - assert (ex < 2 ^ 24) by (rewrite HB1l in HokB1; apply ok_app in HokB1; cbn [ok] in HokB1; lia). lia.
          - apply (HB2ok (Z.max e ex + 1)); auto. lia. }
        right. split; auto. intros c. rewrite listed_cons, HBs, listed_app.
        pose proof (touching_union B1i bx ex b e c (-1)) as TU. rewrite <- HB1l in TU.
        rewrite <- (TU HokB1); [ tauto | | lia ].
        intros b' e' Hi. split; [ apply (HB b' e'); rewrite HBs; apply in_or_app; auto | eapply HB1; eauto ]. }
    destruct (exists_last (l := A)) as (A' & [pb pe] & ->); [ intros ->; discriminate | ].
    rewrite app_length in El. cbn [length] in El. assert (l = length A') by lia. subst l.
    pose proof (HA pb pe ltac:(apply in_or_app; right; now left)) as Hpb.
    apply ok_app in HokA. destruct HokA as [HokA' Hp]. cbn [ok] in Hp.
    pose proof (last_hi_lo _ _ HokA') as Hll.
    rewrite <- app_assoc. cbn [app]. rewrite nth_app_mid. rewrite (u32_small (pe + 1)) by lia.
    rewrite last_hi_app in *. cbn [last_hi] in *.
    destruct (b <=? pe + 1) eqn:Etouch.
    + (* joins the previous range *)
      rewrite upd_app.
      assert (Hsk : skipn (S (length A')) (A' ++ (pb, e) :: B) = B).
      { replace (A' ++ (pb, e) :: B) with ((A' ++ [(pb, e)]) ++ B) by (rewrite <- app_assoc; reflexivity).
        replace (S (length A')) with (length (A' ++ [(pb, e)])) by (rewrite app_length; cbn [length]; lia).
        apply skipn_app_len. }
      rewrite Hsk, Hskip.
      replace (length A' <? S (length A') + length B1)%nat with true by lia.
      rewrite nth_app_mid.
      destruct B1 as [ | y B1t ] eqn:EB1.
      * (* nothing else touched *)
        cbn [length]. replace (S (length A') + 0 - 1)%nat with (length A') by lia. rewrite nth_app_mid.
        rewrite firstn_app_len. rewrite Nat.add_0_r, Hsk.
        replace (b <? pb) with false by lia. replace (e >? e) with false by lia. replace (e >? e) with false by lia.
        exists (A' ++ (pb, e) :: B). split; [ reflexivity | ]. cbn [app] in HBs. subst B2.
        cbn [length last_hi] in *.
        assert (Hok' : ok (-1) (A' ++ (pb, e) :: B)).
        { apply ok_app. split; auto. cbn [ok]. repeat split; try lia.
          destruct B as [ | [b2 e2] B ]; cbn [ok] in *; auto. intuition lia. }
        split; [ assumption | ].
        destruct (Z.lt_ge_cases e pe) as [ Hcut | Hnc ].
        -- left. exists A', pb, pe, B. split; [ | reflexivity ].
           split; [ rewrite <- ?app_assoc; reflexivity | ]. split; [ assumption | ]. lia.
        -- right. split.
           { intros A0 pb0 pe0 B0 (H1 & H2 & H3 & H4).
             destruct (Nat.lt_trichotomy (length A0) (length A')) as [ Hlt | [ Heq | Hgt ] ].
             - assert (In (pb0, pe0) A').
               { assert (nth_error (A' ++ (pb, pe) :: B) (length A0) = Some (pb0, pe0)) by (rewrite H1; apply nth_app_mid).
                 rewrite nth_error_app1 in H by lia. eapply nth_error_In; eauto. }
               pose proof (last_hi_bound _ _ _ _ HokA' H). lia.
             - assert (nth_error (A' ++ (pb, pe) :: B) (length A0) = Some (pb0, pe0)) by (rewrite H1; apply nth_app_mid).
               rewrite Heq, nth_app_mid in H. injection H as <- <-. lia.
             - assert (In (pb0, pe0) B).
               { assert (nth_error (A' ++ (pb, pe) :: B) (length A0) = Some (pb0, pe0)) by (rewrite H1; apply nth_app_mid).
                 rewrite nth_error_app2 in H by lia.
                 destruct (length A0 - length A')%nat eqn:?; [ lia | ]. cbn [nth_error] in H. eapply nth_error_In; eauto. }
               specialize (HB _ _ H). lia. }
           intros c. rewrite !listed_app, !listed_cons.
           assert (pb <= c <= e <-> (pb <= c <= pe \/ b <= c <= e)) by lia. tauto.
      * rewrite <- EB1 in *.
        destruct (exists_last (l := B1)) as (B1i & [bx ex] & HB1l); [ subst; discriminate | ].
        assert (Hnl : nth_error (A' ++ (pb, e) :: B) (S (length A') + length B1 - 1) = Some (bx, ex)).
        { rewrite HBs, HB1l, app_length. cbn [length].
          replace (A' ++ (pb, e) :: (B1i ++ [(bx, ex)]) ++ B2) with ((A' ++ (pb, e) :: B1i) ++ (bx, ex) :: B2)
            by (rewrite <- !app_assoc; reflexivity).
          replace (S (length A') + (length B1i + 1) - 1)%nat with (length (A' ++ (pb, e) :: B1i))
            by (rewrite app_length; cbn [length]; lia).
          apply nth_app_mid. }
        rewrite Hnl. rewrite firstn_app_len.
        assert (Hsk2 : skipn (S (length A') + length B1) (A' ++ (pb, e) :: B) = B2).
        { rewrite HBs. replace (A' ++ (pb, e) :: B1 ++ B2) with ((A' ++ (pb, e) :: B1) ++ B2) by (rewrite <- app_assoc; reflexivity).
          replace (S (length A') + length B1)%nat with (length (A' ++ (pb, e) :: B1)) by (rewrite app_length; cbn [length]; lia).
          apply skipn_app_len. }
        rewrite Hsk2. replace (b <? pb) with false by lia.
        rewrite (Hmax _ _ HB1l) in HB2ok, HokB2. cbn [snd] in HB2ok, HokB2.
        assert (Hxx : pe + 1 < bx /\ bx <= ex /\ ex < 2 ^ 24).
        { rewrite HB1l in HokB1. apply ok_app in HokB1. destruct HokB1 as [Q1 Q2]. cbn [ok] in Q2.
          pose proof (last_hi_lo _ _ Q1). lia. }
        assert (HBx : b <= bx <= e + 1).
        { split; [ apply (HB bx ex); rewrite HBs, HB1l; apply in_or_app; left; apply in_or_app; right; now left
                 | apply (HB1 bx ex); rewrite HB1l; apply in_or_app; right; now left ]. }
        exists (A' ++ (pb, Z.max e ex) :: B2).
        split.
        { f_equal. f_equal. f_equal. f_equal. destruct (ex >? e) eqn:E1; [ replace (ex >? e) with true by lia | replace (e >? e) with false by lia ]; lia. }
        split.
        { apply ok_app. split; auto. cbn [ok]. repeat split; try lia.
          apply (HB2ok (Z.max e ex + 1)); auto. lia. }
        right. split.
        { intros A0 pb0 pe0 B0 (H1 & H2 & H3 & H4).
          destruct (Nat.lt_trichotomy (length A0) (length A')) as [ Hlt | [ Heq | Hgt ] ].
          - assert (In (pb0, pe0) A').
            { assert (nth_error (A' ++ (pb, pe) :: B) (length A0) = Some (pb0, pe0)) by (rewrite H1; apply nth_app_mid).
              rewrite nth_error_app1 in H by lia. eapply nth_error_In; eauto. }
            pose proof (last_hi_bound _ _ _ _ HokA' H). lia.
          - assert (nth_error (A' ++ (pb, pe) :: B) (length A0) = Some (pb0, pe0)) by (rewrite H1; apply nth_app_mid).
            rewrite Heq, nth_app_mid in H. injection H as <- <-. lia.
          - assert (In (pb0, pe0) B).
            { assert (nth_error (A' ++ (pb, pe) :: B) (length A0) = Some (pb0, pe0)) by (rewrite H1; apply nth_app_mid).
              rewrite nth_error_app2 in H by lia.
              destruct (length A0 - length A')%nat eqn:?; [ lia | ]. cbn [nth_error] in H. eapply nth_error_In; eauto. }
            specialize (HB _ _ H). lia. }
        intros c. rewrite !listed_app, !listed_cons, HBs, listed_app.
        pose proof (touching_union B1i bx ex b e c (pe + 1)) as TU. rewrite <- HB1l in TU.
        specialize (TU HokB1).
        assert (TU' : b <= c <= e \/ listed B1 c <-> b <= c <= Z.max e ex).
        { apply TU; [ | lia ]. intros b' e' Hi. split; [ apply (HB b' e'); rewrite HBs; apply in_or_app; auto | eapply HB1; eauto ]. }
        assert (pb <= c <= Z.max e ex <-> pb <= c <= pe \/ b <= c <= Z.max e ex) by lia. tauto.
    + (* previous range is separate *)
      assert (Hnocut : forall A0 pb0 pe0 B0, ~ cut_by (A' ++ (pb, pe) :: B) b e A0 pb0 pe0 B0).
      { intros A0 pb0 pe0 B0 (H1 & H2 & H3 & H4).
        destruct (Nat.lt_trichotomy (length A0) (length A')) as [ Hlt | [ Heq | Hgt ] ].
        - assert (In (pb0, pe0) A').
          { assert (nth_error (A' ++ (pb, pe) :: B) (length A0) = Some (pb0, pe0)) by (rewrite H1; apply nth_app_mid).
            rewrite nth_error_app1 in H by lia. eapply nth_error_In; eauto. }
          pose proof (last_hi_bound _ _ _ _ HokA' H). lia.
        - assert (nth_error (A' ++ (pb, pe) :: B) (length A0) = Some (pb0, pe0)) by (rewrite H1; apply nth_app_mid).
          rewrite Heq, nth_app_mid in H. injection H as <- <-. lia.
        - assert (In (pb0, pe0) B).
          { assert (nth_error (A' ++ (pb, pe) :: B) (length A0) = Some (pb0, pe0)) by (rewrite H1; apply nth_app_mid).
            rewrite nth_error_app2 in H by lia.
            destruct (length A0 - length A')%nat eqn:?; [ lia | ]. cbn [nth_error] in H. eapply nth_error_In; eauto. }
          specialize (HB _ _ H). lia. }
      set (A := A' ++ [(pb, pe)]) in *.
      assert (HlenA : length A = S (length A')) by (unfold A; rewrite app_length; cbn [length]; lia).
      replace (A' ++ (pb, pe) :: B) with (A ++ B) in * by (unfold A; rewrite <- app_assoc; reflexivity).
      rewrite <- HlenA in *. rewrite skipn_app_len, Hskip.
      assert (HhiA : last_hi (-1) A = pe + 1) by (unfold A; rewrite last_hi_app; reflexivity).
      assert (HokA : ok (-1) A) by (unfold A; apply ok_app; split; auto; cbn [ok]; lia).
      destruct B1 as [ | [b1 e1] B1t ] eqn:EB1.
      * cbn [length]. rewrite Nat.add_0_r. rewrite Nat.ltb_irrefl. rewrite firstn_app_len, skipn_app_len.
        exists (A ++ (b, e) :: B). split; [ reflexivity | ]. cbn [app] in HBs. subst B2. cbn [last_hi] in *.
        split.
        { apply ok_app. split; auto. rewrite HhiA. cbn [ok]. repeat split; try lia.
          destruct B as [ | [b2 e2] B ]; cbn [ok] in *; auto. intuition lia. }
        right. split; auto. intros c. rewrite !listed_app, listed_cons. tauto.
      * rewrite <- EB1 in *. destruct (exists_last (l := B1)) as (B1i & [bx ex] & HB1l); [ subst; discriminate | ].
        replace (length A <? length A + length B1)%nat with true by (rewrite EB1; cbn [length]; lia).
        assert (Hn0 : nth_error (A ++ B) (length A) = Some (b1, e1)) by (rewrite HBs, EB1; apply nth_app_mid).
        assert (Hnl : nth_error (A ++ B) (length A + length B1 - 1) = Some (bx, ex)).
        { rewrite HBs, HB1l, app_length. cbn [length].
          replace (A ++ (B1i ++ [(bx, ex)]) ++ B2) with ((A ++ B1i) ++ (bx, ex) :: B2) by (rewrite <- !app_assoc; reflexivity).
          replace (length A + (length B1i + 1) - 1)%nat with (length (A ++ B1i)) by (rewrite app_length; lia).
          apply nth_app_mid. }
        rewrite Hn0, Hnl, firstn_app_len.
        assert (Hsk2 : skipn (length A + length B1) (A ++ B) = B2).
        { rewrite HBs, app_assoc, <- app_length. apply skipn_app_len. }
        rewrite Hsk2.
        assert (Hb1 : b <= b1 <= e + 1).
        { split; [ apply (HB b1 e1); rewrite HBs, EB1; now left | apply (HB1 b1 e1); rewrite EB1; now left ]. }
        assert (Hxx : bx <= ex /\ ex < 2 ^ 24).
        { rewrite HB1l in HokB1. apply ok_app in HokB1. cbn [ok] in HokB1. lia. }
        assert (He1 : e1 <= ex).
        { pose proof (last_hi_bound B1 (pe + 1) b1 e1 HokB1 ltac:(rewrite EB1; now left)).
          rewrite (Hmax _ _ HB1l) in H. cbn [snd] in H. lia. }
        set (jb := if b <? b1 then b else b1).
        set (en1 := if ex >? e then ex else e).
        set (je := if en1 >? e1 then en1 else e1).
        assert (Hjb : jb = b) by (unfold jb; destruct (b <? b1) eqn:?; lia).
        assert (Hje : je = Z.max e ex).
        { unfold je, en1. destruct (ex >? e) eqn:?; match goal with |- context [if ?x then _ else _] => destruct x eqn:? end; lia. }
        rewrite Hjb, Hje.
        rewrite (Hmax _ _ HB1l) in HB2ok, HokB2. cbn [snd] in HB2ok, HokB2.
        exists (A ++ (b, Z.max e ex) :: B2). split; [ reflexivity | ]. split.
        { apply ok_app. split; auto. rewrite HhiA. cbn [ok]. repeat split; try lia.
          apply (HB2ok (Z.max e ex + 1)); auto. lia. }
        right. split; auto. intros c. rewrite !listed_app, listed_cons, HBs, listed_app.
        pose proof (touching_union B1i bx ex b e c (pe + 1)) as TU. rewrite <- HB1l in TU.
        rewrite <- (TU HokB1); [ tauto | | lia ].
        intros b' e' Hi. split; [ apply (HB b' e'); rewrite HBs; apply in_or_app; auto | eapply HB1; eauto ].
Qed.

(* Binary search membership. *)
Lemma match_loop_spec : forall fuel rs code lo hi, ok (-1) rs ->
  (lo < hi)%nat -> (hi <= length rs)%nat -> (hi - lo <= fuel)%nat ->
  (forall i b e, (i < lo)%nat -> nth_error rs i = Some (b, e) -> e < code) ->
  (forall i b e, (hi <= i)%nat -> nth_error rs i = Some (b, e) -> code < b) ->
  exists r, match_loop fuel rs code lo hi = Some r /\ (r = true <-> listed rs code).
Proof.
  induction fuel; intros rs code lo hi Hok Hlh Hhl Hf Hlo Hhi; [ lia | ].
  cbn [match_loop].
  pose proof (Nat.div_mod (lo + hi) 2 ltac:(lia)) as Hdm.
  pose proof (Nat.mod_upper_bound (lo + hi) 2 ltac:(lia)) as Hmm.
  set (mid := ((lo + hi) / 2)%nat) in *.
  destruct (nth_error rs mid) as [ [mb me] | ] eqn:En.
  2:{ apply nth_error_None in En. lia. }
  destruct (nth_split_ok rs (-1) mid mb me Hok En) as (A & B & Hrs & HA & HbA & HbB).
  assert (Hmbe : mb <= me) by (subst rs; apply ok_app in Hok; cbn [ok] in Hok; lia).
  assert (Hbelow : forall i b e, (i < mid)%nat -> nth_error rs i = Some (b, e) -> e < mb).
  { intros i b e Hi Hn. subst rs. rewrite nth_error_app1 in Hn by lia.
    apply nth_error_In in Hn. specialize (HbA _ _ Hn). lia. }
  assert (Habove : forall i b e, (mid < i)%nat -> nth_error rs i = Some (b, e) -> me < b).
  { intros i b e Hi Hn. subst rs. rewrite nth_error_app2 in Hn by lia.
    destruct (i - length A)%nat as [ | j ] eqn:Ej; [ lia | ]. cbn [nth_error] in Hn.
    apply nth_error_In in Hn. specialize (HbB _ _ Hn). lia. }
  assert (Hnone : (forall i b e, nth_error rs i = Some (b, e) -> ~ b <= code <= e) ->
                  (false = true <-> listed rs code)).
  { intros H. split; [ discriminate | ]. intros (b & e & Hi & Hc). apply In_nth_error in Hi.
    destruct Hi as [i Hi]. exfalso. eapply H; eauto. }
  assert (Hbe : forall i b e, nth_error rs i = Some (b, e) -> b <= e).
  { intros i b e Hi. apply nth_error_In in Hi. apply (ok_in _ _ _ _ Hok) in Hi. lia. }
  destruct (code <? mb) eqn:E1; [ | destruct (code >? me) eqn:E2 ].
  - assert (Hup : forall i b e, (mid <= i)%nat -> nth_error rs i = Some (b, e) -> code < b).
    { intros i b e Hi Hn. destruct (Nat.eq_dec i mid) as [ -> | ].
      - rewrite En in Hn. injection Hn as <- <-. lia.
      - assert (mid < i)%nat by lia. specialize (Habove _ _ _ H Hn). lia. }
    destruct (lo <? mid)%nat eqn:El.
    + apply IHfuel; auto; lia.
    + exists false. split; [ reflexivity | ]. apply Hnone. intros i b e Hn.
      destruct (le_lt_dec mid i) as [ Hi | Hi ]; [ specialize (Hup _ _ _ Hi Hn); lia | ].
      assert (i < lo)%nat by lia. specialize (Hlo _ _ _ H Hn). lia.
  - assert (Hdn : forall i b e, (i < S mid)%nat -> nth_error rs i = Some (b, e) -> e < code).
    { intros i b e Hi Hn. destruct (Nat.eq_dec i mid) as [ -> | ].
      - rewrite En in Hn. injection Hn as <- <-. lia.
      - assert (i < mid)%nat by lia. specialize (Hbelow _ _ _ H Hn). lia. }
    destruct (S mid <? hi)%nat eqn:El.
    + apply IHfuel; auto; lia.
    + exists false. split; [ reflexivity | ]. apply Hnone. intros i b e Hn.
      destruct (le_lt_dec hi i) as [ Hi | Hi ]; [ specialize (Hhi _ _ _ Hi Hn); lia | ].
      assert (i < S mid)%nat by lia. specialize (Hdn _ _ _ H Hn). lia.
  - exists true. split; [ reflexivity | ]. split; auto. intros _.
    exists mb, me. split; [ eapply nth_error_In; eauto | lia ].
Qed.

Lemma match_class_spec : forall rs code, ok (-1) rs -> rs <> [] ->
  exists r, match_class rs code = Some r /\ (r = true <-> listed rs code).
Proof.
  intros rs code Hok Hne. unfold match_class. apply match_loop_spec; auto; try lia.
  - destruct rs; [ congruence | cbn [length]; lia ].
  - intros i b e Hi Hn. apply nth_error_None in Hi. congruence.
Qed.

(* A cut range is a hidden range of the specification. *)
Lemma cut_hidden : forall rs b e A pb pe B, ok (-1) rs -> b <= e -> cut_by rs b e A pb pe B -> hidden rs b e.
Proof.
  intros rs b e A pb pe B Hok Hbe (-> & HB & Hpb & Hpe).
  apply ok_app in Hok. destruct Hok as [HA HokB]. cbn [ok] in HokB. destruct HokB as (O1 & O2 & O3 & O4).
  split.
  - intros c Hc. apply listed_app. right. apply listed_cons. left. lia.
  - destruct B as [ | [b2 e2] B ]; [ congruence | ]. cbn [ok] in O4.
    exists b2. split; [ lia | ]. split.
    + apply listed_app. right. apply listed_cons. right. apply listed_cons. left. lia.
    + exists (pe + 1). split; [ lia | ]. rewrite listed_app, !listed_cons.
      intros [ H | [ H | [ H | H ] ] ]; try lia.
      * pose proof (listed_hi _ _ _ HA H). lia.
      * destruct O4 as (O5 & O6 & _ & O4). pose proof (listed_lo _ _ _ O4 H). lia.
Qed.

Lemma hidden_ext : forall l l' b e, (forall c, listed l c <-> listed l' c) -> hidden l b e -> hidden l' b e.
Proof.
  intros l l' b e H [H1 (x & H2 & H3 & g & H4 & H5)]. split.
  - intros c Hc. apply H. auto.
  - exists x. split; auto. split; [ now apply H | ]. exists g. split; auto. intros Hg. apply H5. now apply H.
Qed.

Lemma build_spec : forall l rs done, ok (-1) rs -> (forall c, listed rs c <-> listed done c) ->
  Forall valid_range l -> no_hidden done l ->
  exists rs', build_class rs l = Some rs' /\ ok (-1) rs' /\ (forall c, listed rs' c <-> listed (done ++ l) c).
Proof.
  induction l as [ | [b e] l IH ]; intros rs done Hok Heq Hv Hn; cbn [build_class].
  - exists rs. rewrite app_nil_r. auto.
  - inversion Hv as [ | ? ? Hv1 Hv2 ]; subst. inversion Hn as [ | ? ? ? ? Hn1 Hn2 ]; subst.
    unfold valid_range in Hv1. cbn [fst snd] in Hv1.
    destruct (add_spec rs b e Hok) as (rs1 & H1 & H2 & H3); try lia.
    rewrite H1.
    destruct H3 as [ (A & pb & pe & B & Hcut & _) | [_ H3] ].
    { exfalso. apply Hn1. eapply hidden_ext; [ exact Heq | ]. eapply cut_hidden; eauto. lia. }
    destruct (IH rs1 (done ++ [(b, e)])) as (rs' & G1 & G2 & G3); auto.
    { intros c. rewrite H3, Heq, listed_app, listed_cons. pose proof (listed_nil c). tauto. }
    exists rs'. rewrite G1. repeat split; auto; rewrite G3, <- app_assoc; auto.
Qed.

Lemma build_nonempty : forall l rs rs', build_class rs l = Some rs' -> (rs <> [] \/ l <> []) -> ok (-1) rs ->
  Forall valid_range l -> rs' <> [].
Proof.
  induction l as [ | [b e] l IH ]; intros rs rs' H Hne Hok Hv; cbn [build_class] in H.
  - injection H as <-. tauto.
  - inversion Hv as [ | ? ? Hv1 Hv2 ]; subst. unfold valid_range in Hv1. cbn [fst snd] in Hv1.
    destruct (add_spec rs b e Hok) as (rs1 & H1 & H2 & H3); try lia.
    rewrite H1 in H. eapply IH; eauto. left. intros ->.
    destruct H3 as [ (A & pb & pe & B & _ & H3) | [_ H3] ].
    + destruct A; discriminate.
    + apply (listed_nil b). apply H3. right. lia.
Qed.

Lemma disjoint_no_hidden : forall l done, Forall valid_range l ->
  (forall b e, In (b, e) l -> forall c, b <= c <= e -> ~ listed done c) -> disjoint_ranges l -> no_hidden done l.
Proof.
  induction l as [ | [b e] l IH ]; intros done Hv Hd Hp; constructor.
  - inversion Hv as [ | ? ? Hv1 Hv2 ]; subst. unfold valid_range in Hv1. cbn [fst snd] in Hv1.
    intros [H _]. apply (Hd b e ltac:(now left) b); [ lia | ]. apply H. lia.
  - inversion Hv as [ | ? ? Hv1 Hv2 ]; subst. inversion Hp as [ | ? ? Hp1 Hp2 ]; subst.
    apply IH; auto. intros b' e' Hi c Hc. rewrite listed_app, listed_cons. pose proof (listed_nil c).
    intros [ H' | [ H' | H' ] ]; [ | | tauto ].
    + apply (Hd b' e' (or_intror Hi) c Hc H').
    + rewrite Forall_forall in Hp1. specialize (Hp1 _ Hi). cbn [fst snd] in Hp1. lia.
Qed.
