(* Specification of strings: plain lists of code points. *)
From Coq Require Import ZArith List Lia Bool ZifyBool.
Import ListNotations.
From Verif Require Import Base ArraySpec.
Local Open Scope Z_scope.

(* lexicographic comparison, the sign of the result counts; [ord] compares two different
   characters *)
Fixpoint lex (ord : Z -> Z -> Z) (a b : list Z) : Z :=
  match a, b with
  | [], [] => 0
  | [], _ => -1
  | _, [] => 1
  | x :: a, y :: b => if x =? y then lex ord a b else ord x y
  end.

(* order of code points *)
Definition code_order (x y : Z) : Z := x - y.

(* the pattern occurs in the text at position p *)
Definition occurs (text pat : list Z) (p : Z) : Prop :=
  exists before after, text = before ++ pat ++ after /\ llen before = p.

(* the character at position p satisfies P *)
Definition char_at (text : list Z) (P : Z -> Prop) (p : Z) : Prop :=
  exists before c after, text = before ++ c :: after /\ llen before = p /\ P c.

(* r is the first position from [from] on where P holds, -1 if there is none *)
Definition is_first (P : Z -> Prop) (from r : Z) : Prop :=
  (r = -1 /\ forall p, from <= p -> ~ P p) \/
  (from <= r /\ P r /\ forall p, from <= p < r -> ~ P p).

(* r is the last position up to [from] where P holds, -1 if there is none *)
Definition is_last (P : Z -> Prop) (from r : Z) : Prop :=
  (r = -1 /\ forall p, p <= from -> ~ P p) \/
  (r <= from /\ P r /\ forall p, r < p <= from -> ~ P p).

Definition in_set (set : list Z) (include : bool) (c : Z) : Prop :=
  if include then In c set else ~ In c set.

Fixpoint repeat_text (n : nat) (l : list Z) : list Z :=
  match n with O => [] | S k => l ++ repeat_text k l end.

(* djb2a hash of a text *)
Definition text_hash (l : list Z) : Z :=
  fold_left (fun h c => Z.lxor (h * 33 mod 2 ^ 32) c) l 5381.
