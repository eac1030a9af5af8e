(* C18: array.sort. *)
From Coq Require Import ZArith List Bool Sorting.Permutation Sorting.Sorted Lia.
From Verif Require Import SortModel SortSpec SortProofs.
Import ListNotations.

(* Sorting never fails and never accesses a slot outside of the array, and the
   result is a permutation, whatever the comparison answers (NaN included). *)
Theorem sort_permutes : forall (K V : Type) (compare : K -> K -> cmp_result) (keyf : V -> K) reverse l,
  exists l', sort compare keyf reverse l = Some l' /\ Permutation l l'.
Proof.
  intros. destruct (sort_ok K V compare keyf reverse l) as (a & H1 & H2 & _).
  exists (map s_val a). split; [ assumption | ].
  rewrite <- (expand_vals K V keyf l 0) at 1. now apply Permutation_map.
Qed.

Theorem sort_ascending_stable : forall (K V : Type) (compare : K -> K -> cmp_result) (keyf : V -> K) l,
  total_preorder compare ->
  exists l', sort compare keyf false l = Some l' /\ Permutation l l' /\
             ascending compare keyf l' /\ stable compare keyf l l'.
Proof. intros K V compare keyf l TP. exact (sort_order K V compare TP keyf false l). Qed.

(* Descending: ordered, but every group of equal keys comes out reversed. *)
Theorem sort_descending : forall (K V : Type) (compare : K -> K -> cmp_result) (keyf : V -> K) l,
  total_preorder compare ->
  exists l', sort compare keyf true l = Some l' /\ Permutation l l' /\
             descending compare keyf l' /\
             forall k, ties compare keyf k l' = rev (ties compare keyf k l).
Proof. intros K V compare keyf l TP. exact (sort_order K V compare TP keyf true l). Qed.

(* A concrete total preorder: integers. *)
Definition zcmp (a b : Z) : cmp_result :=
  match Z.compare a b with Lt => CLess | Eq => CEqual | Gt => CGreater end.

Example zcmp_total_preorder : total_preorder zcmp.
Proof.
  constructor; unfold zcmp; intros.
  - destruct (Z.compare_spec a b); discriminate.
  - destruct (Z.compare_spec a b), (Z.compare_spec b a); split; try congruence; lia.
  - now rewrite Z.compare_refl.
  - destruct (Z.compare_spec a b), (Z.compare_spec b c), (Z.compare_spec a c); try congruence; lia.
Qed.

Example sort_ex : sort zcmp fst false [(3, 1); (1, 2); (3, 3); (2, 4); (1, 5)]%Z
  = Some [(1, 2); (1, 5); (2, 4); (3, 1); (3, 3)]%Z.
Proof. vm_compute. reflexivity. Qed.

(* Stability in descending order, promised by the documentation, fails. *)
Theorem sort_descending_stable_refuted :
  exists (compare : Z -> Z -> cmp_result) (keyf : Z * Z -> Z) l l',
    total_preorder compare /\ sort compare keyf true l = Some l' /\ ~ stable compare keyf l l'.
Proof.
  exists zcmp, fst, [(1, 1); (1, 2)]%Z, [(1, 2); (1, 1)]%Z.
  split; [ exact zcmp_total_preorder | ]. split; [ reflexivity | ].
  intros H. specialize (H 1%Z). vm_compute in H. discriminate.
Qed.

Print Assumptions sort_permutes.
Print Assumptions sort_ascending_stable.
Print Assumptions sort_descending.
Print Assumptions sort_descending_stable_refuted.
