(* What pack and unpack should do: the grammar of formats, and the layout of values in bytes. *)
From Coq Require Import ZArith List Lia Bool ZifyBool.
Import ListNotations.
From Verif Require Import Base ListZ Utf8Spec PackModel.
Local Open Scope Z_scope.

(* ---- formats ---- *)

Record dir := mkdir { d_big : bool; d_chr : Z; d_size : option Z; d_count : Z }.

Definition spaces (s : list Z) : Prop := Forall (fun c => c = 32) s.
Definition digit (c : Z) : Prop := 48 <= c <= 57.
Definition decimal (s : list Z) : Z := fold_left (fun n c => n * 10 + (c - 48)) s 0.
(* the largest number is 4294967289 *)
Definition number (s : list Z) (n : Z) : Prop :=
  s <> [] /\ Forall digit s /\ decimal s = n /\ n <= 4294967289.
Definition no_digit (s : list Z) : Prop := match s with [] => True | c :: _ => ~ digit c end.

(* a count in front of a format character *)
Inductive count_prefix : list Z -> Z -> Prop :=
| CP_none : count_prefix [] 1
| CP_num : forall ds n sp, number ds n -> spaces sp -> count_prefix (ds ++ sp) n.

Definition sized_chars : list Z := [117; 105; 102; 98; 115].   (* u i f b s *)

(* format big s ds: the string s, read in big endian mode if big, has the directives ds *)
Inductive format : bool -> list Z -> list dir -> Prop :=
| F_end : forall big sp, spaces sp -> format big sp []
| F_little : forall big sp pre n r ds, spaces sp -> count_prefix pre n ->
    format false r ds -> format big (sp ++ pre ++ 60 :: r) ds
| F_big : forall big sp pre n r ds, spaces sp -> count_prefix pre n ->
    format true r ds -> format big (sp ++ pre ++ 62 :: r) ds
| F_pad : forall big sp pre n r ds, spaces sp -> count_prefix pre n ->
    format big r ds -> format big (sp ++ pre ++ 120 :: r) (mkdir big 120 (Some 1) n :: ds)
| F_sized : forall big sp pre n c num size r ds, spaces sp -> count_prefix pre n ->
    In c sized_chars -> number num size -> no_digit r ->
    format big r ds -> format big (sp ++ pre ++ c :: num ++ r) (mkdir big c (Some size) n :: ds)
| F_string : forall big sp pre n r ds, spaces sp -> count_prefix pre n -> no_digit r ->
    format big r ds -> format big (sp ++ pre ++ 115 :: r) (mkdir big 115 None n :: ds).

(* ---- values as bytes ---- *)

Definition le_bytes (n : nat) (z : Z) : list Z := map (fun k => z / 256 ^ Z.of_nat k mod 256) (seq 0 n).
Definition int_bytes (big : bool) (n z : Z) : list Z :=
  let l := le_bytes (Z.to_nat n) z in if big then rev l else l.

Definition utf8_char (c : Z) : list Z :=
  if c <? 128 then [c]
  else if c <? 2048 then [192 + c / 64; 128 + c mod 64]
  else if c <? 65536 then [224 + c / 4096; 128 + c / 64 mod 64; 128 + c mod 64]
  else [240 + c / 262144; 128 + c / 4096 mod 64; 128 + c / 64 mod 64; 128 + c mod 64].
Definition utf8 (cs : list Z) : list Z := flat_map utf8_char cs.

(* exactly n bytes: cut, or padded with zeros *)
Definition fit (n : Z) (l : list Z) : list Z :=
  firstn (Z.to_nat n) l ++ repeat 0 (Z.to_nat (n - len l)).

Definition int_value (fp : fpops) (v : pv) : option Z :=
  match v with VInt z => Some z | VFlt f => f_int fp f | _ => None end.
Definition float_value (fp : fpops) (v : pv) : option Z :=
  match v with VInt z => Some (f_of_int fp z) | VFlt f => Some f | _ => None end.

(* is (c, size) a field *)
Definition field_ok (c : Z) (size : option Z) : bool :=
  match size with
  | Some n =>
      if (c =? 117) || (c =? 105) then (n =? 1) || (n =? 2) || (n =? 4) || (n =? 8)
      else if c =? 102 then (n =? 4) || (n =? 8)
      else (c =? 98) || (c =? 115)
  | None => c =? 115
  end.

(* bytes of one value; None: exception.  [self] are the bytes of the buffer before the field. *)
Definition field (fp : fpops) (self : list Z) (big : bool) (c : Z) (size : option Z) (v : pv) : option (list Z) :=
  match size with
  | None => match v with VStr cs => if forallb (fun x => x <? 2 ^ 21) cs then Some (utf8 cs) else None | _ => None end
  | Some n =>
      if (c =? 117) || (c =? 105) then option_map (int_bytes big n) (int_value fp v)
      else if c =? 102 then
        option_map (fun f => int_bytes big n (if n =? 4 then f_to32 fp f else f)) (float_value fp v)
      else if c =? 98 then match v with VBuf l => Some (fit n l) | VSelf => Some (fit n self) | _ => None end
      else match v with VStr cs => if forallb (fun x => x <? 2 ^ 21) cs then Some (fit n (utf8 cs)) else None | _ => None end
  end.

Fixpoint fields (fp : fpops) (self : list Z) (big : bool) (c : Z) (size : option Z) (vs : list pv) : option (list Z) :=
  match vs with
  | [] => Some []
  | v :: r =>
      match field fp self big c size v with
      | None => None
      | Some x => option_map (app x) (fields fp (self ++ x) big c size r)
      end
  end.

(* bytes for all directives *)
Definition dir_bytes (fp : fpops) (self : list Z) (d : dir) (vs : list pv) : option (list Z * list pv) :=
  if d_chr d =? 120 then Some (repeat 0 (Z.to_nat (d_count d)), vs)
  else if field_ok (d_chr d) (d_size d) && (d_count d <=? len vs) then
    option_map (fun x => (x, skipn (Z.to_nat (d_count d)) vs))
      (fields fp self (d_big d) (d_chr d) (d_size d) (firstn (Z.to_nat (d_count d)) vs))
  else None.

Fixpoint layout_of (fp : fpops) (self : list Z) (ds : list dir) (vs : list pv) : option (list Z) :=
  match ds with
  | [] => Some []
  | d :: r =>
      match dir_bytes fp self d vs with
      | None => None
      | Some (x, vs') => option_map (app x) (layout_of fp (self ++ x) r vs')
      end
  end.

(* the values to be packed *)
Definition values_of (args : list pv) : list pv := match args with VArr l :: _ => l | _ => args end.

(* bytes needed by the directives with a size *)
Definition dir_room (d : dir) : Z := match d_size d with Some n => n * d_count d | None => 0 end.
Definition string_room (vs : list pv) : Z :=
  fold_right (fun v n => match v with VStr cs => len (utf8 cs) + n | _ => n end) 0 vs.
Definition total_room (ds : list dir) : Z := fold_right (fun d n => dir_room d + n) 0 ds.

(* ---- bytes as values ---- *)

Fixpoint le_value (l : list Z) : Z := match l with [] => 0 | b :: r => b + 256 * le_value r end.
Definition be_value (l : list Z) : Z := le_value (rev l).

(* the value found in the bytes of one field *)
Inductive reads_as (fp : fpops) (big : bool) : Z -> list Z -> pv -> Prop :=
| R_u : forall l, let x := if big then be_value l else le_value l in
    reads_as fp big 117 l (VInt (if x <? 2 ^ 63 then x else x - 2 ^ 64))
| R_i : forall l, let x := if big then be_value l else le_value l in
    reads_as fp big 105 l (VInt (if x <? 2 ^ (8 * len l - 1) then x else x - 2 ^ (8 * len l)))
| R_f4 : forall l, len l = 4 -> reads_as fp big 102 l (VFlt (f_of32 fp (if big then be_value l else le_value l)))
| R_f8 : forall l, len l = 8 -> reads_as fp big 102 l (VFlt (if big then be_value l else le_value l))
| R_b : forall l, reads_as fp big 98 l (VBuf l)
| R_s : forall l cs, text false l cs -> len cs <= 65535 -> reads_as fp big 115 l (VStr cs).

Inductive reads_n (fp : fpops) (big : bool) (c size : Z) : Z -> list Z -> list pv -> Prop :=
| RN_0 : reads_n fp big c size 0 [] []
| RN_S : forall n x r v vs, 0 <= n -> len x = size -> reads_as fp big c x v -> reads_n fp big c size n r vs ->
    reads_n fp big c size (n + 1) (x ++ r) (v :: vs).

(* the directives read the values vs from the begin of the bytes l *)
Inductive unpacks (fp : fpops) : list dir -> list Z -> list pv -> Prop :=
| U_nil : forall l, unpacks fp [] l []
| U_pad : forall big n x ds l vs, len x = n -> unpacks fp ds l vs ->
    unpacks fp (mkdir big 120 (Some 1) n :: ds) (x ++ l) vs
| U_none : forall big c n ds l vs, unpacks fp ds l vs -> c <> 120 -> unpacks fp (mkdir big c (Some n) 0 :: ds) l vs
| U_some : forall big c n k x ds l vs ws, c <> 120 -> 0 < k -> field_ok c (Some n) = true ->
    reads_n fp big c n k x vs -> unpacks fp ds l ws ->
    unpacks fp (mkdir big c (Some n) k :: ds) (x ++ l) (vs ++ ws)
| U_rest : forall big ds l cs ws, text false l cs -> len cs <= 65535 -> unpacks fp ds [] ws ->
    unpacks fp (mkdir big 115 None 1 :: ds) l (VStr cs :: ws).

(* ---- values which a field can hold exactly ---- *)

Definition exact (fp : fpops) (c : Z) (size : option Z) (v : pv) : Prop :=
  match v with
  | VInt z => exists n, size = Some n /\
      (c = 117 /\ (n < 8 /\ 0 <= z < 2 ^ (8 * n) \/ n = 8 /\ - 2 ^ 63 <= z < 2 ^ 63) \/
       c = 105 /\ - 2 ^ (8 * n - 1) <= z < 2 ^ (8 * n - 1))
  | VFlt f => c = 102 /\ (size = Some 8 /\ 0 <= f < 2 ^ 64 \/
                          size = Some 4 /\ f_of32 fp (f_to32 fp f) = f /\ 0 <= f_to32 fp f < 2 ^ 32)
  | VBuf l => c = 98 /\ size = Some (len l) /\ Forall is_byte l
  | VStr cs => c = 115 /\ len cs <= 65535 /\ Forall (fun x => 0 <= x) cs /\ (size = None \/ size = Some (len (utf8 cs)))
  | _ => False
  end.

(* every value is exact for its field; a string without size is the last field *)
Fixpoint exact_all (fp : fpops) (ds : list dir) (vs : list pv) : Prop :=
  match ds with
  | [] => True
  | d :: r =>
      if d_chr d =? 120 then exact_all fp r vs
      else Forall (exact fp (d_chr d) (d_size d)) (firstn (Z.to_nat (d_count d)) vs) /\
           (d_size d = None -> r = [] /\ d_count d = 1) /\
           exact_all fp r (skipn (Z.to_nat (d_count d)) vs)
  end.

(* the values used by the directives *)
Fixpoint used (ds : list dir) (vs : list pv) : list pv :=
  match ds with
  | [] => []
  | d :: r => if d_chr d =? 120 then used r vs
              else firstn (Z.to_nat (d_count d)) vs ++ used r (skipn (Z.to_nat (d_count d)) vs)
  end.
