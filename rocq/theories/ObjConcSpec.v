(* Operations on the properties of an object shared by threads. *)
From Coq Require Import ZArith List Lia Bool ZifyBool.
Import ListNotations.
From Verif Require Import Base ListZ.
Local Open Scope Z_scope.

(* OSet k (Some v): set property k to v; OSet k None: delete property k; OGet k: read property k *)
Inductive op := OSet (k : list Z) (v : option Z) | OGet (k : list Z).
(* RNone: the exception "no such property"; RFail: out of memory *)
Inductive result := RVal (v : Z) | RNone | RDone | RFail.

(* an operation which a thread has completed *)
Definition event := (Z * op * result)%type.
