(* Stable sorting, independently of the algorithm. *)
From Coq Require Import List Bool Sorting.Permutation Sorting.Sorted.
From Verif Require Import SortModel.
Import ListNotations.

Section SortSpec.
Variable K V : Type.
Variable compare : K -> K -> cmp_result.

(* The keys are totally preordered by the comparison. *)
Record total_preorder : Prop := {
  tp_no_indet : forall a b, compare a b <> CIndet;
  tp_mirror : forall a b, compare a b = CLess <-> compare b a = CGreater;
  tp_refl : forall a, compare a a = CEqual;
  tp_trans : forall a b c, compare a b <> CGreater -> compare b c <> CGreater -> compare a c <> CGreater
}.

(* Elements whose key compares equal to k, in order of appearance. *)
Definition ties (keyf : V -> K) (k : K) (l : list V) : list V :=
  filter (fun v => cmp_eqb (compare (keyf v) k) CEqual) l.

Definition ascending (keyf : V -> K) : list V -> Prop :=
  StronglySorted (fun x y => compare (keyf x) (keyf y) <> CGreater).

Definition descending (keyf : V -> K) : list V -> Prop :=
  StronglySorted (fun x y => compare (keyf x) (keyf y) <> CLess).

(* Equal keys keep their relative order. *)
Definition stable (keyf : V -> K) (l l' : list V) : Prop :=
  forall k, ties keyf k l' = ties keyf k l.

End SortSpec.
Arguments total_preorder {K}.
Arguments ties {K V}.
Arguments ascending {K V}.
Arguments descending {K V}.
Arguments stable {K V}.
