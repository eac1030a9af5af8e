(* What a floating-point text denotes and how close a double is to it. *)
From Coq Require Import ZArith List Bool.
From Verif Require Import Base ParseIntSpec.
Import ListNotations.
Local Open Scope Z_scope.

(* The number of digits among digits and underscores. *)
Fixpoint digit_count (l : list Z) : Z :=
  match l with
  | [] => 0
  | c :: r => (if c =? 95 then 0 else 1) + digit_count r
  end.

(* The exponent part: nothing, or a letter e and an integer literal. *)
Inductive exp_text : list Z -> Z -> Prop :=
| et_none : exp_text [] 0
| et_some : forall c t neg r m, c = 101 \/ c = 69 -> int_text t neg r m -> literal_fits neg r m ->
    exp_text (c :: t) (literal_value neg r m).

(* The fraction: nothing, or a dot and digits. *)
Inductive frac_text : list Z -> list Z -> Prop :=
| ft_none : frac_text [] []
| ft_some : forall b, frac_text (46 :: b) b.

(* The text l is a sign, digits, a fraction and an exponent; it denotes
   n * 10^x, negated if neg. *)
Definition float_text (l : list Z) (neg : bool) (n f ex : Z) : Prop :=
  exists s a fr b xs, l = s ++ a ++ fr ++ xs /\ a ++ fr ++ xs <> [] /\
    sign_text s neg /\ frac_text fr b /\ exp_text xs ex /\
    digits_of 10 (a ++ b) 0 n /\ f = digit_count b.

(* Magnitude bits of a double: the pattern without the sign.  A finite double
   with these bits is dbl_mag * 2^-1074, and the distance to the next larger
   one is dbl_ulp * 2^-1074. *)
Definition dbl_exp (mag : Z) : Z := mag / 2 ^ 52.
Definition dbl_frac (mag : Z) : Z := mag mod 2 ^ 52.
Definition dbl_mag (mag : Z) : Z :=
  if dbl_exp mag =? 0 then dbl_frac mag else (2 ^ 52 + dbl_frac mag) * 2 ^ (dbl_exp mag - 1).
Definition dbl_ulp (mag : Z) : Z := if dbl_exp mag =? 0 then 1 else 2 ^ (dbl_exp mag - 1).
Definition dbl_inf : Z := 2047 * 2 ^ 52.

(* n * 10^x * 2^1074 as the fraction dec_num / dec_den. *)
Definition dec_num (n x : Z) : Z := n * 10 ^ (Z.max x 0) * 2 ^ 1074.
Definition dec_den (x : Z) : Z := 10 ^ (Z.max (- x) 0).

(* The double is less than one unit in its last place away. *)
Definition within_ulp (mag n x : Z) : Prop :=
  Z.abs (dbl_mag mag * dec_den x - dec_num n x) < dbl_ulp mag * dec_den x.

(* No finite double is nearer, and of two equally near ones it is the even one. *)
Definition nearest_even (mag n x : Z) : Prop :=
  forall mag', 0 <= mag' < dbl_inf ->
    let d := Z.abs (dbl_mag mag * dec_den x - dec_num n x) in
    let d' := Z.abs (dbl_mag mag' * dec_den x - dec_num n x) in
    d < d' \/ (d = d' /\ (mag = mag' \/ Z.even mag = true)).

(* The denoted value, compared with a power of two times 2^-1074. *)
Definition close_to (v u n x : Z) : Prop :=
  Z.abs (v * dec_den x - dec_num n x) < u * dec_den x.

(* What is claimed of a result: it is less than a unit in the last place away,
   except in the two cases where the carry of the final rounding leaves the
   range of the exponent field. *)
Definition accurate (mag n x : Z) : Prop :=
  (mag < dbl_inf /\ within_ulp mag n x) \/
  (mag = 0 /\ close_to (2 ^ 52) 1 n x) \/
  (mag = dbl_inf /\ close_to (2 ^ 2098) (2 ^ 2045) n x).

(* At least as large as the middle between the largest double and 2^1024. *)
Definition overflows (n x : Z) : Prop := (2 ^ 2098 - 2 ^ 2044) * dec_den x <= dec_num n x.
