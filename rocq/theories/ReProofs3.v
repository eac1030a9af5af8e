(* find() returns the first match. *)
From Coq Require Import ZArith List Lia Bool ZifyBool.
Import ListNotations.
From Verif Require Import Base ListZ ReClassModel ReClassSpec ReModel ReSpec ReProofs1 ReProofs2.
Local Open Scope Z_scope.
Ltac Zify.zify_post_hook ::= idtac.

(* a group which begins or ends at the position 65535 is shown as void *)
Definition visible (o : option (Z * Z)) : option (Z * Z) :=
  match o with
  | Some (b, e) => if negb (b =? 65535) && negb (e =? 65535) then Some (b, e) else None
  | None => None
  end.

Lemma visible_enc : forall o, (if negb (fst (enc o) =? 65535) && negb (snd (enc o) =? 65535) then Some (fst (enc o), snd (enc o)) else None) = visible o.
Proof. intros [[b e]|]; reflexivity. Qed.

Lemma group_pairs_ok : forall caps l, len l = 2 * len caps ->
  (forall g, 0 <= g < len caps -> exists o, gz caps g = Some o /\ gz l (g * 2) = Some (fst (enc o)) /\ gz l (g * 2 + 1) = Some (snd (enc o))) ->
  group_pairs (length caps) l = map visible caps.
Proof.
  induction caps as [|x caps IH]; intros l Hl H; [destruct l; reflexivity |]. rewrite len_cons in Hl. pose proof (len_nonneg _ caps).
  destruct l as [|b l]; [rewrite len_nil in Hl; lia |]. destruct l as [|e l]; [rewrite len_cons, len_nil in Hl; lia |]. rewrite !len_cons in Hl.
  rewrite len_cons in H. cbn [length group_pairs map]. destruct (H 0 ltac:(lia)) as (o & H1 & H2 & H3).
  change (gz (x :: caps) 0) with (Some x) in H1. change (gz (b :: e :: l) (0 * 2)) with (Some b) in H2.
  change (gz (b :: e :: l) (0 * 2 + 1)) with (Some e) in H3. assert (x = o /\ b = fst (enc o) /\ e = snd (enc o)) as (-> & -> & ->) by (repeat split; congruence).
  rewrite visible_enc. f_equal. apply IH; [lia |]. intros g Hg. destruct (H (g + 1) ltac:(lia)) as (o' & K1 & K2 & K3). exists o'.
  rewrite gz_cons in K1. rewrite (proj2 (Z.eqb_neq (g + 1) 0)) in K1 by lia. replace (g + 1 - 1) with g in K1 by lia.
  rewrite !gz_cons in K2. rewrite (proj2 (Z.eqb_neq ((g + 1) * 2) 0)), (proj2 (Z.eqb_neq ((g + 1) * 2 - 1) 0)) in K2 by lia.
  replace ((g + 1) * 2 - 1 - 1) with (g * 2) in K2 by lia.
  rewrite !gz_cons in K3. rewrite (proj2 (Z.eqb_neq ((g + 1) * 2 + 1) 0)), (proj2 (Z.eqb_neq ((g + 1) * 2 + 1 - 1) 0)) in K3 by lia.
  replace ((g + 1) * 2 + 1 - 1 - 1) with (g * 2 + 1) in K3 by lia. auto.
Qed.

Section Find.
Variable o : robj.
Variable s : list Z.
Variables lo hi : Z.
Variable r : ReSpec.re.
Variable d : Z.
Hypothesis Hcode : len (o_code o) <= 32767.
Hypothesis Hcoded : coded (o_classes o) 0 r (o_counts o) (o_code o) d.
Hypothesis Hng : 0 <= o_groups o.
Hypothesis Hgr : groups_ok r 0 (o_groups o).
Hypothesis Hlo : 0 <= lo.
Hypothesis Hhi : hi <= len s.
Hypothesis Hlen : len s <= 65535.
Hypothesis Hchars : Forall (fun c => 0 <= c < 2 ^ 24) s.

Definition no_groups : list (option (Z * Z)) := repeat None (Z.to_nat (o_groups o)).
Definition shown (m : Z * list (option (Z * Z))) : Z * list (option (Z * Z)) := (fst m, map visible (snd m)).
Notation am := (all_matches s lo hi class_has 65535).

Lemma counts_nonneg : 0 <= o_counts o.
Proof. destruct (coded_mono _ _ _ _ _ _ Hcoded) as (H & _). exact H. Qed.

Lemma found_shown : forall m sl, holds o hi (fun _ => None) m sl -> found_groups o sl = map visible (snd m).
Proof.
  intros m sl (H1 & H2 & _ & H4). pose proof counts_nonneg. unfold found_groups. rewrite <- H2 in *. unfold len at 1. rewrite Nat2Z.id.
  apply group_pairs_ok; [rewrite len_skipn; lia |]. intros g Hg. destruct (H4 g ltac:(lia)) as (x & E1 & E2 & E3). exists x.
  rewrite !gz_skipn. rewrite (proj2 (Z.ltb_ge (g * 2) 0)), (proj2 (Z.ltb_ge (g * 2 + 1) 0)) by lia.
  replace (g * 2 + Z.of_nat (Z.to_nat (o_counts o))) with (o_counts o + g * 2) by lia.
  replace (g * 2 + 1 + Z.of_nat (Z.to_nat (o_counts o))) with (o_counts o + g * 2 + 1) by lia. auto.
Qed.

Lemma init_holds : forall p, 0 <= p <= hi -> holds o hi (fun _ => None) (p, no_groups) (init_slots o).
Proof.
  intros p Hp. pose proof counts_nonneg. unfold init_slots, no_groups. split; [lenz; lia |]. cbn [fst snd]. split; [lenz; lia |]. split; [exact Hp |].
  intros g Hg. exists None. rewrite gz_repeat, !gz_app, !gz_repeat, len_repeat. cbn [enc fst snd].
  repeat match goal with |- context [?a <? ?b] => first [rewrite (proj2 (Z.ltb_lt a b)) by lia | rewrite (proj2 (Z.ltb_ge a b)) by lia] end.
  repeat match goal with |- context [?a <=? ?b] => first [rewrite (proj2 (Z.leb_le a b)) by lia | rewrite (proj2 (Z.leb_gt a b)) by lia] end.
  auto.
Qed.

Lemma outs_all : forall p, 0 <= p <= hi -> outs o s lo hi 0 p (init_slots o) (map shown (am r (p, no_groups))).
Proof.
  intros p Hp. assert (At : at_code o 0 (o_code o)) by (exists [], []; rewrite app_nil_r; auto).
  pose proof counts_nonneg as Hc.
  destruct (sim_all o s lo hi Hcode Hc Hng Hlo Hhi Hlen Hchars _ _ _ _ _ Hcoded 0 0 At Hgr ltac:(lia) ltac:(lia) ltac:(lia)) as [Sm _].
  assert (E : map shown (am r (p, no_groups)) = flat_map (fun m => [shown m]) (am r (p, no_groups))).
  { generalize (am r (p, no_groups)). intros l. induction l as [|x l IH]; cbn [map flat_map app]; [reflexivity | rewrite IH; reflexivity]. }
  rewrite E. apply (Sm (fun _ => None) (p, no_groups) (init_slots o)); [reflexivity | apply init_holds; exact Hp |].
  intros m sl Hh _. unfold shown. rewrite <- (found_shown m sl Hh). apply o_end. lia.
Qed.

Definition find_result (lo' : Z) (x : fres) : Prop :=
  match x with
  | FVoid => forall p, lo' <= p <= hi -> am r (p, no_groups) = []
  | FMatch b e gs => lo' <= b <= hi /\ (forall p, lo' <= p < b -> am r (p, no_groups) = []) /\
      exists caps rest, am r (b, no_groups) = (e, caps) :: rest /\ gs = map visible caps
  | FUb | FFuel => False
  end.

Lemma find_loop_ok : forall n p, 0 <= p -> Z.of_nat n = hi - p + 1 ->
  exists F, forall f, (F <= f)%nat -> find_result p (find_loop o s lo hi f n p).
Proof.
  induction n as [|n IH]; intros p Hp Hn.
  - exists O. intros f _. cbn [find_loop find_result]. intros q Hq. lia.
  - destruct (outs_result o s lo hi _ _ _ _ (outs_all p ltac:(lia))) as [F1 R1].
    destruct (IH (p + 1) ltac:(lia) ltac:(lia)) as [F2 R2]. exists (F1 + F2)%nat. intros f Hf.
    specialize (R1 f ltac:(lia)). specialize (R2 f ltac:(lia)). cbn [find_loop].
    destruct (run o s lo hi f 0 p (init_slots o) []) as [e sl | | |] eqn:Er; cbn [shows] in R1; destruct (am r (p, no_groups)) as [|[e' caps] rest] eqn:Ea; cbn [map hd_error] in R1; try contradiction.
    + unfold shown in R1. cbn [fst snd] in R1. assert (e = e' /\ found_groups o sl = map visible caps) as [-> Eg] by (split; congruence).
      cbn [find_result]. split; [lia |]. split; [intros q Hq; lia |]. exists caps, rest. rewrite Ea. auto.
    + destruct (find_loop o s lo hi f n (p + 1)) as [b e gs | | |]; cbn [find_result] in *; try contradiction.
      * destruct R2 as (B & N & C). split; [lia |]. split; [| exact C]. intros q Hq. destruct (Z.eq_dec q p) as [-> | ]; [exact Ea | apply N; lia].
      * intros q Hq. destruct (Z.eq_dec q p) as [-> | ]; [exact Ea | apply R2; lia].
Qed.

Lemma find_ok : lo <= hi -> exists F, forall f, (F <= f)%nat -> find_result lo (re_find o s lo hi f).
Proof. intros H. unfold re_find. apply find_loop_ok; lia. Qed.
End Find.
