(* JSON texts after RFC 8259, independent of the module's code.  Only the part which the module can represent without loss:
   numbers are integers of 64 bits without an exponent, strings have no escape sequences, the keys of an object are distinct. *)
From Coq Require Import String Ascii ZArith List Lia Bool.
Import ListNotations.
From Verif Require Import Base LexSpec JsonModel.
Local Open Scope Z_scope.

Definition json_ws (w : list Z) : Prop := Forall (fun c => c = 32 \/ c = 9 \/ c = 10 \/ c = 13) w.

(* the value of decimal digits *)
Definition decimal (l : list Z) : Z := fold_left (fun a c => 10 * a + (c - 48)) l 0.
(* no leading zeros *)
Definition json_uint (l : list Z) (n : Z) : Prop :=
  Forall (fun c => 48 <= c <= 57) l /\ (l = [48] \/ exists d t, l = d :: t /\ d <> 48) /\ n = decimal l.

(* characters of a string which do not need an escape sequence: not a quote, a backslash or a control character *)
Definition json_chars (cs : list Z) : Prop := Forall (fun c => 32 <= c <= 0x10FFFF /\ c <> 34 /\ c <> 92) cs.
Definition json_quoted (s cs : list Z) : Prop := s = [34] ++ cs ++ [34] /\ json_chars cs.

Inductive json_value : list Z -> jv -> Prop :=
| jv_null : json_value (bytes "null") JVoid
| jv_true : json_value (bytes "true") (JBool true)
| jv_false : json_value (bytes "false") (JBool false)
| jv_uint : forall s n, json_uint s n -> n < 2 ^ 63 -> json_value s (JInt n)
| jv_neg : forall s n, json_uint s n -> n <= 2 ^ 63 -> json_value ([45] ++ s) (JInt (- n))
| jv_str : forall s cs, json_quoted s cs -> json_value s (JStr cs)
| jv_arr_empty : forall w, json_ws w -> json_value ([91] ++ w ++ [93]) (JArr [])
| jv_arr : forall s l, json_elements s l -> json_value ([91] ++ s ++ [93]) (JArr l)
| jv_obj_empty : forall w, json_ws w -> json_value ([123] ++ w ++ [125]) (JObj [])
| jv_obj : forall s l, json_members s l -> NoDup (map fst l) -> json_value ([123] ++ s ++ [125]) (JObj l)
with json_elements : list Z -> list jv -> Prop :=
| je_one : forall w1 s v w2, json_ws w1 -> json_value s v -> json_ws w2 -> json_elements (w1 ++ s ++ w2) [v]
| je_more : forall w1 s v w2 t l, json_ws w1 -> json_value s v -> json_ws w2 -> json_elements t l ->
    json_elements (w1 ++ s ++ w2 ++ [44] ++ t) (v :: l)
with json_members : list Z -> list (list Z * jv) -> Prop :=
| jm_one : forall s k v, json_member s k v -> json_members s [(k, v)]
| jm_more : forall s k v t l, json_member s k v -> json_members t l -> json_members (s ++ [44] ++ t) ((k, v) :: l)
with json_member : list Z -> list Z -> jv -> Prop :=
| jm : forall w1 q k w2 w3 s v w4, json_ws w1 -> json_quoted q k -> json_ws w2 -> json_ws w3 -> json_value s v -> json_ws w4 ->
    json_member (w1 ++ q ++ w2 ++ [58] ++ w3 ++ s ++ w4) k v.

Definition json_text (s : list Z) (v : jv) : Prop :=
  exists w1 t w2, s = w1 ++ t ++ w2 /\ json_ws w1 /\ json_value t v /\ json_ws w2.

(* the number of bytes of a character in UTF-8 *)
Definition utf8_bytes (c : Z) : Z := if c <? 0x80 then 1 else if c <? 0x800 then 2 else if c <? 0x10000 then 3 else 4.
Definition utf8_size (s : list Z) : Z := fold_right (fun c n => utf8_bytes c + n) 0 s.

(* values which can be written without escape sequences *)
Inductive plain : jv -> Prop :=
| pl_void : plain JVoid
| pl_bool : forall b, plain (JBool b)
| pl_int : forall z, - 2 ^ 63 <= z < 2 ^ 63 -> plain (JInt z)
| pl_str : forall cs, json_chars cs -> plain (JStr cs)
| pl_arr : forall l, Forall plain l -> plain (JArr l)
| pl_obj : forall l, Forall (fun p => json_chars (fst p) /\ plain (snd p)) l -> NoDup (map fst l) -> plain (JObj l).
(* the smallest integer does not occur in the value *)
Fixpoint no_min (v : jv) : Prop :=
  match v with
  | JInt z => z <> - 2 ^ 63
  | JArr l => fold_right (fun v p => no_min v /\ p) True l
  | JObj l => fold_right (fun q p => no_min (snd q) /\ p) True l
  | _ => True
  end.
(* no object in the value has the key s *)
Fixpoint no_key (s : list Z) (v : jv) : Prop :=
  match v with
  | JArr l => fold_right (fun v p => no_key s v /\ p) True l
  | JObj l => fold_right (fun q p => fst q <> s /\ no_key s (snd q) /\ p) True l
  | _ => True
  end.
(* an upper bound for the number of characters of the text *)
Fixpoint max_len (v : jv) : Z :=
  match v with
  | JVoid => 4
  | JBool _ => 5
  | JInt _ => 20
  | JStr cs => Z.of_nat (length cs) + 2
  | JArr l => 2 + fold_right (fun v n => max_len v + 1 + n) 0 l
  | JObj l => 2 + fold_right (fun p n => Z.of_nat (length (fst p)) + 3 + max_len (snd p) + 1 + n) 0 l
  end.
