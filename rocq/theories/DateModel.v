(* Model of modules/datetime.kos.

   Integers are int64_t values with the arithmetic of the VM (FoldModel.v):
   + - * are undefined on overflow, / and % truncate.  Divisors are positive
   constants, so / and % cannot fail.  A field of the date is void or a number;
   a timestamp is an integer (float timestamps are not modelled, nor arguments
   which are not numbers). *)
From Coq Require Import ZArith List Lia Bool ZifyBool SpecFloat.
Import ListNotations.
From Verif Require Import Base ListZ FoldModel.
Local Open Scope Z_scope.

Definition bind {A B : Type} (r : res A) (k : A -> res B) : res B :=
  match r with Ok x => k x | Err e => Err e | Ub => Ub end.
Notation "x <- e ;; k" := (bind e (fun x => k)) (at level 61, e at next level, right associativity).

Definition chk (z : Z) : res Z := match sint z with Some z => Ok z | None => Ub end.
Definition iadd (a b : Z) : res Z := chk (a + b).
Definition isub (a b : Z) : res Z := chk (a - b).
Definition imul (a b : Z) : res Z := chk (a * b).

(* modules/datetime.kos:7-13 *)
Definition first_day_from_year (year : Z) : res Z :=
  y0 <- isub year 1970 ;;
  a <- imul 365 y0 ;;
  y1 <- isub year 1969 ;;
  b <- iadd a (vm_shr y1 2) ;;
  y2 <- isub year 1901 ;;
  c <- isub b (Z.quot y2 100) ;;
  y3 <- isub year 1601 ;;
  iadd c (Z.quot y3 400).

(* modules/datetime.kos:15-18 *)
Definition is_leap_year (year : Z) : bool :=
  (Z.rem year 4 =? 0) && (negb (Z.rem year 100 =? 0) || (Z.rem year 400 =? 0)).

(* modules/datetime.kos:20-21 *)
Definition first_day : list Z := [0; 31; 59; 90; 120; 151; 181; 212; 243; 273; 304; 334; 365].
Definition first_day_leap : list Z := [0; 31; 60; 91; 121; 152; 182; 213; 244; 274; 305; 335; 366].
Definition first_days (leap : bool) : list Z := if leap then first_day_leap else first_day.

(* Reading an array element; an invalid index throws an exception. *)
Definition elem (l : list Z) (i : Z) : res Z :=
  match gz l i with Some z => Ok z | None => Err ERange end.

(* modules/datetime.kos:23-48; [fuel] is the number of iterations. *)
Fixpoint month_loop (fuel : nat) (day_in_year : Z) (fd : list Z) (b e : Z) : res (Z * Z) :=
  match fuel with
  | O => Err EType
  | S k =>
    if b + 1 <? e then
      let mid := Z.quot (b + e) 2 in
      day <- elem fd mid ;;
      if day_in_year =? day then Ok (mid, day)
      else if day_in_year <? day then month_loop k day_in_year fd b mid
      else month_loop k day_in_year fd mid e
    else day <- elem fd b ;; Ok (b, day)
  end.
Definition get_month (day_in_year : Z) (leap : bool) : res (Z * Z) :=
  month_loop 12 day_in_year (first_days leap) 0 12.

(* modules/datetime.kos:57-68.  integer(floor(value)) is the conversion of the VM, which takes
   the floor and fails for a number which does not fit (modules/kos_mod_base.c:408-453,
   modules/kos_mod_math.c:373-417, core/kos_utils.c KOS_get_integer).  [None] is void. *)
Definition date_check (value : option num) (mn mx : Z) : res Z :=
  value <- match value with
           | Some (NF d) => z <- get_integer (NF d) ;; Ok (Some z)
           | Some (NI z) => Ok (Some z)
           | None => Ok None
           end ;;
  match value with
  | None => Err EType
  | Some v => if (v <? mn) || (mx <? v) then Err ERange else Ok v
  end.

Record dt : Type := mkdt {
  d_year : Z; d_month : Z; d_day : Z; d_hour : Z; d_minute : Z; d_second : Z;
  d_us : option Z; d_leap : bool; d_timestamp : Z }.

(* The constant 365.2425: 6425414011327611 * 2^-44. *)
Definition year_len : dbl := S754_finite false 6425414011327611 (-44).

(* modules/datetime.kos:130-173 *)
Definition decode (ts : Z) : res dt :=
  let us := Z.rem ts 1000000 in
  let t := Z.quot ts 1000000 in
  let second := Z.rem t 60 in
  let t := Z.quot t 60 in
  let minute := Z.rem t 60 in
  let t := Z.quot t 60 in
  let hour := Z.rem t 24 in
  let t := Z.quot t 24 in
  y <- get_integer (NF (ddiv (of_int t) year_len)) ;;
  year0 <- iadd y 1970 ;;
  day_ts <- first_day_from_year year0 ;;
  ydl <- (if t <? day_ts then
            year <- isub year0 1 ;;
            let leap := is_leap_year year in
            day_ts <- isub day_ts (if leap then 366 else 365) ;;
            Ok (year, day_ts, leap)
          else
            let leap := is_leap_year year0 in
            let days_in_year := if leap then 366 else 365 in
            next <- iadd day_ts days_in_year ;;
            if next <=? t then
              year <- iadd year0 1 ;;
              let leap' := if leap || negb (Z.land year 3 =? 0) then false else is_leap_year year in
              Ok (year, next, leap')
            else Ok (year0, day_ts, leap)) ;;
  let '(year, day_ts, leap) := ydl in
  t <- isub t day_ts ;;
  mf <- get_month t leap ;;
  let '(month_idx, fd) := mf in
  month <- iadd month_idx 1 ;;
  d <- isub t fd ;;
  day <- iadd d 1 ;;
  Ok (mkdt year month day hour minute second (Some us) leap ts).

(* modules/datetime.kos:175-219 *)
Definition encode (year month day hour minute second us : option num) : res dt :=
  year <- date_check year 1970 290307 ;;
  month <- date_check month 1 12 ;;
  day <- date_check day 1 31 ;;
  hour <- date_check hour 0 23 ;;
  minute <- date_check minute 0 59 ;;
  let second := match second with None => Some (NI 0) | _ => second end in
  second <- date_check second 0 59 ;;
  us <- match us with
        | None => Ok None
        | _ => us <- date_check us 0 999999 ;; Ok (Some us)
        end ;;
  let leap := is_leap_year year in
  t <- first_day_from_year year ;;
  let fds := first_days leap in
  fm <- elem fds (month - 1) ;;
  t <- iadd t fm ;;
  fn <- elem fds month ;;
  _ <- date_check (Some (NI day)) 1 (fn - fm + 1) ;;
  d <- isub day 1 ;;
  t <- iadd t d ;;
  t <- imul t 24 ;; t <- iadd t hour ;;
  t <- imul t 60 ;; t <- iadd t minute ;;
  t <- imul t 60 ;; t <- iadd t second ;;
  t <- imul t 1000000 ;;
  t <- match us with
       | Some u => if u =? 0 then Ok t else iadd t u
       | None => Ok t
       end ;;
  Ok (mkdt year month day hour minute second us leap t).

(* modules/datetime.kos:111-129: the constructor.  The first argument is the
   timestamp if it is the only one. *)
Definition is_void {A} (x : option A) : bool := match x with None => true | _ => false end.
Definition datetime (year month day hour minute second us : option num) (timestamp : option Z) : res dt :=
  match timestamp with
  | Some ts =>
      if is_void year && is_void month && is_void day && is_void hour && is_void minute
         && is_void second && is_void us then decode ts else Err EType
  | None =>
      if is_void month && is_void day && is_void hour && is_void minute && is_void second && is_void us then
        match year with
        | Some (NI ts) => decode ts
        | Some (NF _) => Ub          (* not modelled *)
        | None => encode None month day hour minute second us
        end
      else encode year month day hour minute second us
  end.
