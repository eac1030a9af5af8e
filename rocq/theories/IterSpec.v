(* What the sequence functions give, stated on lists and numbers. *)
From Coq Require Import ZArith List Lia Bool.
Import ListNotations.
From Verif Require Import Base.
Local Open Scope Z_scope.

(* start, start + d, ..., k terms *)
Definition progression (start d k : Z) : list Z :=
  map (fun i => start + Z.of_nat i * d) (seq 0 (Z.to_nat k)).

(* term number i of the range belongs to it *)
Definition in_range (start stop d i : Z) : Prop :=
  (0 < d /\ start + i * d < stop) \/ (d < 0 /\ stop < start + i * d).
(* the range has exactly k terms *)
Definition range_size (start stop d k : Z) : Prop :=
  0 <= k /\ forall i, 0 <= i -> (i < k <-> in_range start stop d i).

(* all ways to pick one element of each list, the first list varies fastest *)
Fixpoint tuples {A} (ls : list (list A)) : list (list A) :=
  match ls with
  | [] => [[]]
  | l :: rest => flat_map (fun t => map (fun x => x :: t) l) (tuples rest)
  end.
(* 0, 1, ..., n - 1 *)
Definition upto (n : Z) : list Z := map Z.of_nat (seq 0 (Z.to_nat n)).

(* rows 0 .. m-1 of a table given by its columns *)
Definition rows {A} (d : A) (m : nat) (cols : list (list A)) : list (list A) :=
  map (fun i => map (fun c => nth i c d) cols) (seq 0 m).
Definition shortest {A} (m : nat) (cols : list (list A)) : Prop :=
  (forall c, In c cols -> (m <= length c)%nat) /\ exists c, In c cols /\ length c = m.

(* the k lowest hexadecimal digits of v, most significant first *)
Definition hex_char (d : Z) : Z := if d <? 10 then 48 + d else 87 + d.
Definition hex_text (k : nat) (v : Z) : list Z :=
  map (fun i => hex_char (v / 16 ^ Z.of_nat (k - 1 - i) mod 16)) (seq 0 k).

Definition join_text {A} (sep : list A) (l : list (list A)) : list A :=
  match l with [] => [] | x :: r => x ++ flat_map (fun y => sep ++ y) r end.
