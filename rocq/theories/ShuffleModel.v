(** Model of random.prototype.shuffle, modules/random.kos:38-55. *)
From Coq Require Import ZArith List Lia Bool ZifyBool.
Import ListNotations.
From Verif Require Import Base ListZ RandModel.
Local Open Scope Z_scope.

Section Elements.
Context {A : Type}.

(** Assignment to an element; indexes are within the array. *)
Fixpoint put (i : nat) (v : A) (l : list A) : list A :=
  match l, i with
  | [], _ => []
  | _ :: r, O => v :: r
  | x :: r, S k => x :: put k v r
  end.

(** The exchange of two elements (random.kos:48-50); [None] is an exception for
    an invalid index. *)
Definition exchange (i j : nat) (l : list A) : option (list A) :=
  match nth_error l i, nth_error l j with
  | Some tmp, Some y => Some (put j tmp (put i y l))
  | _, _ => None
  end.

(** The loop (random.kos:43-52) with the numbers [this.integer(0, max)] gives. *)
Fixpoint loop_draws (idx : nat) (draws : list Z) (l : list A) : option (list A) :=
  match idx with
  | O => Some l
  | S i =>
      match draws with
      | [] => None
      | d :: ds =>
          if Z.of_nat i =? d then loop_draws i ds l
          else match exchange i (Z.to_nat d) l with
               | Some l' => loop_draws i ds l'
               | None => None
               end
      end
  end.
Definition shuffle_draws (draws : list Z) (l : list A) : option (list A) :=
  if 1 <? len l then loop_draws (length l - 1) draws l else Some l.

(** The same with the generator of modules/kos_mod_random.c; [fuel] bounds the
    number of rejected numbers of each call.  The elements of the iterable
    (random.kos:39) are given as a list. *)
Fixpoint loop_rng (fuel : nat) (mx : Z) (idx : nat) (r : rng) (l : list A) : option (list A * rng) :=
  match idx with
  | O => Some (l, r)
  | S i =>
      match rand_integer fuel r (Some 0) (Some mx) with
      | Some (IVal d _, r') =>
          if Z.of_nat i =? d then loop_rng fuel mx i r' l
          else match exchange i (Z.to_nat d) l with
               | Some l' => loop_rng fuel mx i r' l'
               | None => None
               end
      | _ => None
      end
  end.
Definition shuffle (fuel : nat) (r : rng) (l : list A) : option (list A * rng) :=
  if 1 <? len l then loop_rng fuel (len l - 1) (length l - 1) r l else Some (l, r).

End Elements.
