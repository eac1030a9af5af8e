(* C20: character classes of regular expressions. *)
From Coq Require Import ZArith List Bool Lia ZifyBool.
From Verif Require Import Base ReClassModel ReClassSpec ReClassProofs.
Import ListNotations.
Open Scope Z_scope.

(* A class matches exactly the listed characters as long as no range is written
   inside an earlier, longer listed stretch which is not the topmost one. *)
Theorem class_is_union : forall l c, l <> [] -> Forall valid_range l -> no_hidden [] l ->
  exists rs r, build_class [] l = Some rs /\ match_class rs c = Some r /\ (r = true <-> listed l c).
Proof.
  intros l c Hne Hv Hn.
  destruct (build_spec l [] [] I ltac:(intros; tauto) Hv Hn) as (rs & H1 & H2 & H3).
  assert (Hrs : rs <> []).
  { eapply (build_nonempty l [] rs H1); [ now right | exact I | assumption ]. }
  destruct (match_class_spec rs c H2 Hrs) as (r & M1 & M2).
  exists rs, r. repeat split; auto; intros; [ apply H3, M2 | apply M2, H3 ]; auto.
Qed.

(* Ranges which do not overlap may be written in any order. *)
Theorem class_disjoint_any_order : forall l c, l <> [] -> Forall valid_range l -> disjoint_ranges l ->
  exists rs r, build_class [] l = Some rs /\ match_class rs c = Some r /\ (r = true <-> listed l c).
Proof.
  intros l c Hne Hv Hd. apply class_is_union; auto.
  apply disjoint_no_hidden; auto. intros b e _ c' _ H. exact (listed_nil _ H).
Qed.

(* Building and matching never fail or leave the array, and no character is
   matched which is not listed, with no restriction on the ranges. *)
Theorem class_sound : forall l c, l <> [] -> Forall valid_range l ->
  exists rs r, build_class [] l = Some rs /\ match_class rs c = Some r /\ (r = true -> listed l c).
Proof.
  intros l c Hne Hv.
  assert (G : forall l rs done, ok (-1) rs -> (forall c, listed rs c -> listed done c) -> Forall valid_range l ->
    exists rs', build_class rs l = Some rs' /\ ok (-1) rs' /\ (forall c, listed rs' c -> listed (done ++ l) c)).
  { clear. induction l as [ | [b e] l IH ]; intros rs done Hok Heq Hv; cbn [build_class].
    - exists rs. rewrite app_nil_r. auto.
    - inversion Hv as [ | ? ? Hv1 Hv2 ]; subst. unfold valid_range in Hv1. cbn [fst snd] in Hv1.
      destruct (add_spec rs b e Hok) as (rs1 & H1 & H2 & H3); try lia. rewrite H1.
      destruct (IH rs1 (done ++ [(b, e)])) as (rs' & G1 & G2 & G3); auto.
      { intros c Hc. rewrite listed_app, listed_cons.
        destruct H3 as [ (A & pb & pe & B & (-> & _ & _ & Hlt) & ->) | [_ H3] ].
        - left. apply Heq. rewrite listed_app, listed_cons in *.
          destruct Hc as [ | [ | ] ]; auto. right. left. lia.
        - apply H3 in Hc. destruct Hc; auto. }
      exists rs'. rewrite G1. repeat split; auto. intros c Hc. apply G3 in Hc. now rewrite <- app_assoc in Hc. }
  destruct (G l [] [] I ltac:(intros; tauto) Hv) as (rs & H1 & H2 & H3).
  assert (Hrs : rs <> []) by (eapply (build_nonempty l [] rs H1); [ now right | exact I | assumption ]).
  destruct (match_class_spec rs c H2 Hrs) as (r & M1 & M2).
  exists rs, r. repeat split; auto. intros Hr. apply H3, M2, Hr.
Qed.

(* [a-mzb-c] does not match 'f' although a-m lists it. *)
Theorem class_is_union_refuted : exists l c rs, Forall valid_range l /\ listed l c /\
  build_class [] l = Some rs /\ match_class rs c = Some false.
Proof.
  exists [(97, 109); (122, 122); (98, 99)], 102, [(97, 99); (122, 122)].
  split; [ repeat constructor; cbn; lia | ]. split.
  - exists 97, 109. split; [ now left | lia ].
  - split; reflexivity.
Qed.

(* \d and \w. *)
Theorem digit_class : forall c, exists rs, build_class [] digit_ranges = Some rs /\
  exists r, match_class rs c = Some r /\ (r = true <-> 48 <= c <= 57).
Proof.
  intros c. destruct (class_disjoint_any_order digit_ranges c) as (rs & r & H1 & H2 & H3).
  - discriminate.
  - repeat constructor; cbn; lia.
  - repeat constructor.
  - exists rs. split; auto. exists r. split; auto. rewrite H3. unfold digit_ranges.
    rewrite listed_cons. pose proof (listed_nil c). tauto.
Qed.

Theorem word_class : forall c, exists rs, build_class [] word_ranges = Some rs /\
  exists r, match_class rs c = Some r /\
    (r = true <-> (48 <= c <= 57 \/ 65 <= c <= 90 \/ c = 95 \/ 97 <= c <= 122)).
Proof.
  intros c. destruct (class_disjoint_any_order word_ranges c) as (rs & r & H1 & H2 & H3).
  - discriminate.
  - repeat constructor; cbn; lia.
  - repeat (constructor; cbn [fst snd]); lia.
  - exists rs. split; auto. exists r. split; auto. rewrite H3. unfold word_ranges.
    rewrite !listed_cons. pose proof (listed_nil c). intuition lia.
Qed.

(* Overlapping and touching ranges in mixed order which satisfy no_hidden. *)
Example class_ex_hyp : no_hidden [] [(110, 120); (97, 101); (100, 109); (98, 99)].
Proof.
  repeat constructor; cbn [app]; unfold hidden; rewrite ?listed_app;
    intros [H (x & Hx & Hl & g & Hg & Hng)].
  - pose proof (H 110 ltac:(lia)) as (b & e & [] & _).
  - specialize (H 97 ltac:(lia)). rewrite listed_cons in H. pose proof (listed_nil 97). intuition lia.
  - specialize (H 102 ltac:(lia)). rewrite !listed_cons in H. pose proof (listed_nil 102). intuition lia.
  - rewrite !listed_cons in *. pose proof (listed_nil x). apply Hng.
    intuition lia.
Qed.
Example class_ex : build_class [] [(110, 120); (97, 101); (100, 109); (98, 99)] = Some [(97, 120)].
Proof. reflexivity. Qed.

Print Assumptions class_is_union.
Print Assumptions class_disjoint_any_order.
Print Assumptions class_sound.
Print Assumptions class_is_union_refuted.
Print Assumptions digit_class.
Print Assumptions word_class.
