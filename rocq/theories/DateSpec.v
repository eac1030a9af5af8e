(* The Gregorian calendar, from the day after a given day. *)
From Coq Require Import ZArith List Lia Bool ZifyBool.
Import ListNotations.
From Verif Require Import Base.
Local Open Scope Z_scope.

Definition leap (y : Z) : Prop := (y mod 4 = 0 /\ y mod 100 <> 0) \/ y mod 400 = 0.
Definition leapb (y : Z) : bool := ((y mod 4 =? 0) && negb (y mod 100 =? 0)) || (y mod 400 =? 0).

Definition month_len (y m : Z) : Z :=
  if m =? 2 then (if leapb y then 29 else 28)
  else if (m =? 4) || (m =? 6) || (m =? 9) || (m =? 11) then 30 else 31.

Notation date := (Z * Z * Z)%type (only parsing).
Definition valid_date (d : date) : Prop :=
  let '(y, m, d) := d in 1 <= m <= 12 /\ 1 <= d <= month_len y m.

Definition next_day (d : date) : date :=
  let '(y, m, d) := d in
  if d <? month_len y m then (y, m, d + 1)
  else if m <? 12 then (y, m + 1, 1) else (y + 1, 1, 1).

(* The date [n] days after 1970-01-01. *)
Definition date_of (n : Z) : date := Nat.iter (Z.to_nat n) next_day (1970, 1, 1).

(* The instant of a date and time of the day, in microseconds. *)
Definition instant (n h mi s us : Z) : Z := ((((n * 24 + h) * 60 + mi) * 60) + s) * 1000000 + us.
Definition valid_time (h mi s us : Z) : Prop := 0 <= h <= 23 /\ 0 <= mi <= 59 /\ 0 <= s <= 59 /\ 0 <= us <= 999999.
