(* Lists indexed by Z: lemmas used by the array, buffer and string proofs. *)
From Coq Require Import ZArith List Lia Bool ZifyBool.
Import ListNotations.
From Verif Require Import Base.
Local Open Scope Z_scope.

Definition len {A} (l : list A) : Z := Z.of_nat (length l).

(* element at a Z index *)
Definition gz {A} (l : list A) (i : Z) : option A :=
  if i <? 0 then None else nth_error l (Z.to_nat i).

Lemma len_nonneg : forall A (l : list A), 0 <= len l.
Proof. intros. unfold len. lia. Qed.
Lemma len_nil : forall A, len (@nil A) = 0.
Proof. reflexivity. Qed.
Lemma len_cons : forall A (x : A) l, len (x :: l) = 1 + len l.
Proof. intros. unfold len. cbn [length]. lia. Qed.
Lemma len_app : forall A (l m : list A), len (l ++ m) = len l + len m.
Proof. intros. unfold len. rewrite app_length. lia. Qed.
Lemma len_map : forall A B (f : A -> B) l, len (map f l) = len l.
Proof. intros. unfold len. rewrite map_length. reflexivity. Qed.
Lemma len_repeat : forall A (x : A) n, len (repeat x n) = Z.of_nat n.
Proof. intros. unfold len. rewrite repeat_length. reflexivity. Qed.
Lemma len_firstn : forall A n (l : list A), len (firstn n l) = Z.min (Z.of_nat n) (len l).
Proof. intros. unfold len. rewrite firstn_length. lia. Qed.
Lemma len_skipn : forall A n (l : list A), len (skipn n l) = Z.max 0 (len l - Z.of_nat n).
Proof. intros. unfold len. rewrite skipn_length. lia. Qed.
Lemma len_rev : forall A (l : list A), len (rev l) = len l.
Proof. intros. unfold len. rewrite rev_length. reflexivity. Qed.

Lemma gz_neg : forall A (l : list A) i, i < 0 -> gz l i = None.
Proof. intros. unfold gz. destruct (Z.ltb_spec i 0); [ reflexivity | lia ]. Qed.
Lemma gz_ge : forall A (l : list A) i, len l <= i -> gz l i = None.
Proof.
  intros A l i H. unfold gz, len in *. destruct (Z.ltb_spec i 0); [ reflexivity | ].
  apply nth_error_None. lia.
Qed.
Lemma gz_some : forall A (l : list A) i, 0 <= i < len l -> exists x, gz l i = Some x.
Proof.
  intros A l i H. unfold gz, len in *. destruct (Z.ltb_spec i 0); [ lia | ].
  destruct (nth_error l (Z.to_nat i)) eqn:E; [ eauto | ].
  apply nth_error_None in E. lia.
Qed.
Lemma gz_some_inv : forall A (l : list A) i x, gz l i = Some x -> 0 <= i < len l.
Proof.
  intros A l i x H. unfold gz, len in *. destruct (Z.ltb_spec i 0); [ discriminate | ].
  assert (nth_error l (Z.to_nat i) <> None) by congruence.
  apply nth_error_Some in H1. lia.
Qed.
Lemma gz_app : forall A (l m : list A) i,
  gz (l ++ m) i = if i <? len l then gz l i else gz m (i - len l).
Proof.
  intros A l m i. unfold gz, len. destruct (Z.ltb_spec i 0).
  - destruct (Z.ltb_spec i (Z.of_nat (length l))); [ reflexivity | lia ].
  - destruct (Z.ltb_spec i (Z.of_nat (length l))).
    + apply nth_error_app1. lia.
    + destruct (Z.ltb_spec (i - Z.of_nat (length l)) 0); [ lia | ].
      rewrite nth_error_app2 by lia. f_equal. lia.
Qed.
Lemma gz_cons : forall A (x : A) l i, gz (x :: l) i = if i =? 0 then Some x else gz l (i - 1).
Proof.
  intros A x l i. change (x :: l) with ([x] ++ l). rewrite gz_app. unfold len. cbn [length].
  destruct (Z.eqb_spec i 0) as [->|]; [ reflexivity | ].
  destruct (Z.ltb_spec i (Z.of_nat 1)); [ rewrite !gz_neg by lia; reflexivity | reflexivity ].
Qed.
Lemma gz_firstn : forall A n (l : list A) i,
  gz (firstn n l) i = if i <? Z.of_nat n then gz l i else None.
Proof.
  intros A n l i. unfold gz. destruct (Z.ltb_spec i 0).
  - destruct (i <? Z.of_nat n); reflexivity.
  - destruct (Z.ltb_spec i (Z.of_nat n)).
    + assert (Hn : (Z.to_nat i < n)%nat) by lia. revert Hn. generalize (Z.to_nat i). clear.
      intros k. revert n l. induction k; intros n l Hn; destruct n; try lia; destruct l; try reflexivity.
      cbn [firstn nth_error]. apply IHk. lia.
    + apply nth_error_None. rewrite firstn_length. lia.
Qed.
Lemma gz_skipn : forall A n (l : list A) i,
  gz (skipn n l) i = if i <? 0 then None else gz l (i + Z.of_nat n).
Proof.
  intros A n l i. unfold gz. destruct (Z.ltb_spec i 0); [ reflexivity | ].
  destruct (Z.ltb_spec (i + Z.of_nat n) 0); [ lia | ].
  replace (Z.to_nat (i + Z.of_nat n)) with (n + Z.to_nat i)%nat by lia.
  generalize (Z.to_nat i). clear. revert l.
  induction n; intros l k; [ reflexivity | ].
  destruct l; cbn [skipn Nat.add nth_error]; [ destruct k; reflexivity | apply IHn ].
Qed.
Lemma gz_repeat : forall A (x : A) n i,
  gz (repeat x n) i = if (0 <=? i) && (i <? Z.of_nat n) then Some x else None.
Proof.
  intros A x n i. destruct (Z.leb_spec 0 i); cbn [andb]; [ | apply gz_neg; lia ].
  destruct (Z.ltb_spec i (Z.of_nat n)); [ | apply gz_ge; rewrite len_repeat; lia ].
  unfold gz. destruct (Z.ltb_spec i 0); [ lia | ].
  apply nth_error_repeat. lia.
Qed.
Lemma gz_map : forall A B (f : A -> B) l i, gz (map f l) i = option_map f (gz l i).
Proof.
  intros. unfold gz. destruct (i <? 0); [ reflexivity | ].
  rewrite nth_error_map. reflexivity.
Qed.
Lemma gz_rev : forall A (l : list A) i, 0 <= i < len l -> gz (rev l) i = gz l (len l - 1 - i).
Proof.
  intros A l i. revert i. induction l as [|x l IH]; intros i Hi.
  - rewrite len_nil in Hi. lia.
  - cbn [rev]. rewrite len_cons in *. rewrite gz_app, len_rev, !gz_cons.
    destruct (Z.ltb_spec i (len l)).
    + rewrite IH by lia. destruct (Z.eqb_spec (1 + len l - 1 - i) 0); [ lia | ].
      f_equal. lia.
    + replace (i - len l) with 0 by lia.
      replace (1 + len l - 1 - i) with 0 by lia. reflexivity.
Qed.
Lemma gz_ext : forall A (l m : list A),
  len l = len m -> (forall i, 0 <= i < len l -> gz l i = gz m i) -> l = m.
Proof.
  induction l as [|x l IH]; intros m Hl H.
  - destruct m; [ reflexivity | ]. rewrite len_cons, len_nil in Hl.
    pose proof (len_nonneg _ m). lia.
  - destruct m as [|y m].
    + rewrite len_cons, len_nil in Hl. pose proof (len_nonneg _ l). lia.
    + rewrite !len_cons in *. pose proof (len_nonneg _ l). f_equal.
      * specialize (H 0 ltac:(lia)). rewrite !gz_cons in H. cbn in H. congruence.
      * apply IH; [ lia | ]. intros i Hi. specialize (H (i + 1) ltac:(lia)).
        rewrite !gz_cons in H. destruct (Z.eqb_spec (i + 1) 0); [ lia | ].
        replace (i + 1 - 1) with i in H by lia. exact H.
Qed.
Lemma gz_in : forall A (l : list A) i x, gz l i = Some x -> In x l.
Proof.
  intros A l i x H. unfold gz in H. destruct (i <? 0); [ discriminate | ].
  eapply nth_error_In. eassumption.
Qed.
Lemma in_gz : forall A (l : list A) x, In x l -> exists i, 0 <= i < len l /\ gz l i = Some x.
Proof.
  intros A l x H. apply In_nth_error in H. destruct H as [n H].
  exists (Z.of_nat n). assert (E : gz l (Z.of_nat n) = Some x).
  { unfold gz. destruct (Z.ltb_spec (Z.of_nat n) 0); [ lia | ]. rewrite Nat2Z.id. exact H. }
  split; [ | exact E ]. apply gz_some_inv in E. exact E.
Qed.
Lemma gz_split : forall A (l : list A) i x, gz l i = Some x ->
  l = firstn (Z.to_nat i) l ++ x :: skipn (Z.to_nat i + 1) l.
Proof.
  intros A l i x H. pose proof (gz_some_inv _ _ _ _ H) as Hi. unfold gz in H.
  destruct (Z.ltb_spec i 0); [ lia | ].
  revert H. generalize (Z.to_nat i). clear. intros n. revert l.
  induction n; intros l H; destruct l; try discriminate; cbn [nth_error] in H.
  - inversion H. reflexivity.
  - cbn [firstn app Nat.add skipn]. f_equal. apply IHn. exact H.
Qed.

(* rewriting with all of the above, splitting the conditions *)
Ltac lenz := repeat first
  [ rewrite len_app | rewrite len_cons | rewrite len_nil | rewrite len_map | rewrite len_repeat
  | rewrite len_firstn | rewrite len_skipn | rewrite len_rev ].
Ltac lenz_in H := repeat first
  [ rewrite len_app in H | rewrite len_cons in H | rewrite len_nil in H | rewrite len_map in H
  | rewrite len_repeat in H | rewrite len_firstn in H | rewrite len_skipn in H | rewrite len_rev in H ].
Ltac gzs := repeat first
  [ rewrite gz_app | rewrite gz_cons | rewrite gz_map | rewrite gz_repeat
  | rewrite gz_firstn | rewrite gz_skipn ].
Ltac ztest := repeat match goal with
  | |- context [ ?a <? ?b ] => destruct (Z.ltb_spec a b)
  | |- context [ ?a <=? ?b ] => destruct (Z.leb_spec a b)
  | |- context [ ?a =? ?b ] => destruct (Z.eqb_spec a b)
  end.
Ltac brk := match goal with
  | |- context [ if ?c then _ else _ ] => let E := fresh "Ec" in destruct c eqn:E; try (exfalso; lia)
  end.
