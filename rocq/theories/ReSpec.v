(* What a regular expression means: its syntax, the text which denotes it, the
   text ranges which it matches and the order in which matches are preferred. *)
From Coq Require Import ZArith List Lia Bool ZifyBool.
Import ListNotations.
From Verif Require Import Base ListZ.
Local Open Scope Z_scope.

(* ---- syntax ---- *)

(* not at a word edge, at the beginning, at the end, at either *)
Inductive edge := ENone | EBegin | EEnd | EBoth.

Inductive re :=
| REmpty
| RSeq (a b : re)
| RAlt (a b : re)
| RChar (c : Z)
| RAny
| RSet (neg : bool) (l : list (Z * Z))
| RBol
| REol
| REdge (k : edge)
| RGroup (g : option Z) (a : re)
| RRep (lazy : bool) (min : Z) (max : option Z) (a : re).

(* ---- text ---- *)

Definition is_digit (c : Z) : Prop := 48 <= c <= 57.
Inductive number : list Z -> Z -> Prop :=
| num_one : forall c, is_digit c -> number [c] (c - 48)
| num_more : forall w n c, number w n -> is_digit c -> number (w ++ [c]) (n * 10 + (c - 48)).

Inductive counted : list Z -> Z -> option Z -> Prop :=
| q_star : counted [42] 0 None
| q_plus : counted [43] 1 None
| q_opt : counted [63] 0 (Some 1)
| q_exact : forall w n, number w n -> 0 < n <= 65535 -> counted (123 :: w ++ [125]) n (Some n)
| q_least : forall w n, number w n -> n <= 65535 -> counted (123 :: w ++ [44; 125]) n None
| q_range : forall w n v m, number w n -> number v m -> n <= m <= 65535 -> 0 < m ->
    counted (123 :: w ++ 44 :: v ++ [125]) n (Some m).

(* a question mark after the count makes it lazy *)
Inductive quantifier : list Z -> bool -> Z -> option Z -> Prop :=
| q_greedy : forall w n m, counted w n m -> quantifier w false n m
| q_lazy : forall w n m, counted w n m -> quantifier (w ++ [63]) true n m.

(* \t \n \v \f \r, and also a backslash followed by the character 0, which
   stands for the character 14 *)
Inductive space_escape : Z -> Z -> Prop :=
| se_t : space_escape 116 9
| se_n : space_escape 110 10
| se_v : space_escape 118 11
| se_f : space_escape 102 12
| se_r : space_escape 114 13
| se_0 : space_escape 0 14.

(* . * + ? { ^ $ \ [ ] | ( ) and the double quote *)
Definition literal_escapes : list Z := [46; 42; 43; 63; 123; 94; 36; 92; 91; 93; 124; 40; 41; 34].
Definition digits : list (Z * Z) := [(48, 57)].
Definition word_chars : list (Z * Z) := [(97, 122); (95, 95); (65, 90); (48, 57)].

Inductive escape : Z -> re -> Prop :=
| es_literal : forall c, In c literal_escapes -> escape c (RChar c)
| es_space : forall c d, space_escape c d -> escape c (RChar d)
| es_word_begin : escape 60 (REdge EBegin)
| es_word_end : escape 62 (REdge EEnd)
| es_b : escape 98 (REdge EBoth)
| es_B : escape 66 (REdge ENone)
| es_d : escape 100 (RSet false digits)
| es_D : escape 68 (RSet true digits)
| es_w : escape 119 (RSet false word_chars)
| es_W : escape 87 (RSet true word_chars).

(* [ ] ( ) ^ the double quote, \ and - *)
Definition class_escapes : list Z := [91; 93; 40; 41; 94; 34; 92; 45].
Inductive class_char : list Z -> Z -> Prop :=
| cc_plain : forall c, c <> 92 -> class_char [c] c
| cc_literal : forall c, In c class_escapes -> class_char [92; c] c
| cc_space : forall c d, space_escape c d -> class_char [92; c] d.

Definition starts_with (w : list Z) (c : Z) : Prop := exists v, w = c :: v.

Inductive class_items : list Z -> list (Z * Z) -> Prop :=
| ci_char : forall w c, class_char w c -> class_items w [(c, c)]
| ci_range : forall w b v e, class_char w b -> class_char v e -> b <= e ->
    class_items (w ++ 45 :: v) [(b, e)]
| ci_char_more : forall w c v l, class_char w c -> class_items v l ->
    ~ starts_with v 93 -> ~ starts_with v 45 -> class_items (w ++ v) ((c, c) :: l)
| ci_range_more : forall w b v e u l, class_char w b -> class_char v e -> b <= e ->
    class_items u l -> ~ starts_with u 93 -> class_items (w ++ 45 :: v ++ u) ((b, e) :: l).

Inductive class_text : list Z -> bool -> list (Z * Z) -> Prop :=
| ct_pos : forall w l, class_items w l -> ~ starts_with w 94 -> class_text (w ++ [93]) false l
| ct_neg : forall w l, class_items w l -> class_text (94 :: w ++ [93]) true l.

(* . ^ $ \ [ ( ) | * + ? { *)
Definition special : list Z := [46; 94; 36; 92; 91; 40; 41; 124; 42; 43; 63; 123].

(* g is the number of the first capturing group of the text, g' the number of
   the first one after it *)
Inductive alt_text : Z -> list Z -> re -> Z -> Prop :=
| at_one : forall g w a g', seq_text g w a g' -> alt_text g w a g'
| at_or : forall g w a g1 v b g2, seq_text g w a g1 -> alt_text g1 v b g2 ->
    alt_text g (w ++ 124 :: v) (RAlt a b) g2
with seq_text : Z -> list Z -> re -> Z -> Prop :=
| st_nil : forall g, seq_text g [] REmpty g
| st_cons : forall g w a g1 v b g2, item_text g w a g1 -> seq_text g1 v b g2 ->
    seq_text g (w ++ v) (RSeq a b) g2
with item_text : Z -> list Z -> re -> Z -> Prop :=
| it_atom : forall g w a g', atom_text g w a g' -> item_text g w a g'
| it_rep : forall g w a g' q lazy n m, atom_text g w a g' -> quantifier q lazy n m ->
    item_text g (w ++ q) (RRep lazy n m a) g'
with atom_text : Z -> list Z -> re -> Z -> Prop :=
| tx_char : forall g c, ~ In c special -> atom_text g [c] (RChar c) g
| tx_any : forall g, atom_text g [46] RAny g
| tx_bol : forall g, atom_text g [94] RBol g
| tx_eol : forall g, atom_text g [36] REol g
| tx_escape : forall g c r, escape c r -> atom_text g [92; c] r g
| tx_class : forall g w neg l, class_text w neg l -> atom_text g (91 :: w) (RSet neg l) g
| tx_group : forall g w a g', alt_text (g + 1) w a g' ->
    atom_text g (40 :: w ++ [41]) (RGroup (Some g) a) g'
| tx_plain_group : forall g w a g', alt_text g w a g' ->
    atom_text g (40 :: 63 :: 58 :: w ++ [41]) (RGroup None a) g'.

Definition re_text (w : list Z) (r : re) (ngroups : Z) : Prop := alt_text 0 w r ngroups.

(* Size of the compiled expression in 16-bit words *)
Fixpoint code_size (r : re) : Z :=
  match r with
  | REmpty => 0
  | RSeq a b => code_size a + code_size b
  | RAlt a b => 4 + code_size a + code_size b
  | RChar c => if c <? 65536 then 2 else 3
  | RAny => 1
  | RSet _ _ => 2
  | RBol => 1
  | REol => 1
  | REdge _ => 2
  | RGroup _ a => 4 + code_size a
  | RRep _ _ _ a => 9 + code_size a
  end.

(* ---- meaning ---- *)

Definition is_word (c : Z) : bool :=
  ((65 <=? c) && (c <=? 90)) || ((97 <=? c) && (c <=? 122)) || ((48 <=? c) && (c <=? 57)) || (c =? 95).
Definition is_eol (c : Z) : bool := (c =? 10) || (c =? 13).

(* one of the ranges contains the character *)
Definition in_ranges (l : list (Z * Z)) (c : Z) : bool :=
  existsb (fun r => (fst r <=? c) && (c <=? snd r)) l.

Section Meaning.
Variable s : list Z.          (* the searched string *)
Variables lo hi : Z.          (* the searched part of it *)
Variable in_set : list (Z * Z) -> Z -> bool.

Definition next_is (p : Z -> bool) (i : Z) : bool :=
  (i <? hi) && match gz s i with Some c => p c | None => false end.
Definition prev_is (p : Z -> bool) (i : Z) : bool :=
  (0 <? i) && match gz s (i - 1) with Some c => p c | None => false end.

(* ^: the beginning of the part or just after a line end; $: the end of the
   part or just before a line end *)
Definition at_bol (i : Z) : bool := (i <=? lo) || prev_is is_eol i.
Definition at_eol (i : Z) : bool := (hi <=? i) || next_is is_eol i.
(* characters before the searched part count, characters after it do not *)
Definition at_edge (k : edge) (i : Z) : bool :=
  let p := prev_is is_word i in
  let n := next_is is_word i in
  match k with
  | ENone => Bool.eqb p n
  | EBegin => negb p && n
  | EEnd => p && negb n
  | EBoth => xorb p n
  end.

Fixpoint chain (R : Z -> Z -> Prop) (n : nat) (i j : Z) : Prop :=
  match n with
  | O => i = j
  | S n => exists k, R i k /\ chain R n k j
  end.

(* r matches the characters i .. j-1 of s *)
Fixpoint matches (r : re) (i j : Z) : Prop :=
  match r with
  | REmpty => i = j
  | RSeq a b => exists k, matches a i k /\ matches b k j
  | RAlt a b => matches a i j \/ matches b i j
  | RChar c => next_is (Z.eqb c) i = true /\ j = i + 1
  | RAny => next_is (fun _ => true) i = true /\ j = i + 1
  | RSet neg l => next_is (fun c => xorb neg (in_set l c)) i = true /\ j = i + 1
  | RBol => at_bol i = true /\ i = j
  | REol => at_eol i = true /\ i = j
  | REdge k => at_edge k i = true /\ i = j
  | RGroup _ a => matches a i j
  | RRep _ n m a => exists k : nat, n <= Z.of_nat k /\
      match m with Some x => Z.of_nat k <= x | None => True end /\ chain (matches a) k i j
  end.

(* Position and groups: the position where a group was entered and left the
   last time *)
Notation found := (Z * list (option (Z * Z)))%type.

Definition set_group (l : list (option (Z * Z))) (g : Z) (x : Z * Z) : list (option (Z * Z)) :=
  firstn (Z.to_nat g) l ++ Some x :: skipn (Z.to_nat g + 1) l.

(* k repetitions were made, up to n more are possible *)
Fixpoint repeated (f : found -> list found) (lazy : bool) (min : Z) (n : nat) (k : Z) (m : found) : list found :=
  match n with
  | O => [m]
  | S n' =>
    let more := flat_map (repeated f lazy min n' (k + 1)) (f m) in
    if k <? min then more else if lazy then m :: more else more ++ [m]
  end.

Variable unbounded : Z.       (* the highest number of repetitions tried for * and + *)

Definition step_one (p : Z -> bool) (m : found) : list found :=
  if next_is p (fst m) then [(fst m + 1, snd m)] else [].
Definition stay (b : bool) (m : found) : list found := if b then [m] else [].

(* All matches of r from a position, the preferred ones first: the left
   alternative before the right one, more repetitions before fewer ones, but
   fewer before more with a lazy quantifier. *)
Fixpoint all_matches (r : re) (m : found) : list found :=
  match r with
  | REmpty => [m]
  | RSeq a b => flat_map (all_matches b) (all_matches a m)
  | RAlt a b => all_matches a m ++ all_matches b m
  | RChar c => step_one (Z.eqb c) m
  | RAny => step_one (fun _ => true) m
  | RSet neg l => step_one (fun c => xorb neg (in_set l c)) m
  | RBol => stay (at_bol (fst m)) m
  | REol => stay (at_eol (fst m)) m
  | REdge k => stay (at_edge k (fst m)) m
  | RGroup None a => all_matches a m
  | RGroup (Some g) a =>
    map (fun x => (fst x, set_group (snd x) g (fst m, fst x))) (all_matches a m)
  | RRep lazy n mx a =>
    repeated (all_matches a) lazy n (Z.to_nat (match mx with Some x => x | None => unbounded end)) 0 m
  end.
End Meaning.

(* every repetition without an upper bound advances *)
Fixpoint advances (r : re) : bool :=
  match r with
  | RSeq a b => advances a || advances b
  | RAlt a b => advances a && advances b
  | RChar _ | RAny | RSet _ _ => true
  | RGroup _ a => advances a
  | RRep _ n _ a => (0 <? n) && advances a
  | _ => false
  end.
Fixpoint loops_advance (r : re) : bool :=
  match r with
  | RSeq a b | RAlt a b => loops_advance a && loops_advance b
  | RGroup _ a => loops_advance a
  | RRep _ _ None a => advances a && loops_advance a
  | RRep _ _ (Some _) a => loops_advance a
  | _ => true
  end.

(* r contains the capturing group number g around a *)
Fixpoint has_group (r : re) (g : Z) (a : re) : Prop :=
  match r with
  | RSeq x y | RAlt x y => has_group x g a \/ has_group y g a
  | RGroup o x => (o = Some g /\ x = a) \/ has_group x g a
  | RRep _ _ _ x => has_group x g a
  | _ => False
  end.

(* the character classes of r *)
Fixpoint sets_of (r : re) : list (list (Z * Z)) :=
  match r with
  | RSeq x y | RAlt x y => sets_of x ++ sets_of y
  | RGroup _ x => sets_of x
  | RRep _ _ _ x => sets_of x
  | RSet _ l => [l]
  | _ => []
  end.

(* the counts of quantifiers *)
Fixpoint counts_ok (r : re) : Prop :=
  match r with
  | RSeq x y | RAlt x y => counts_ok x /\ counts_ok y
  | RGroup _ x => counts_ok x
  | RRep _ n m x => 0 <= n <= 65535 /\ match m with Some k => n <= k <= 65535 /\ 1 <= k | None => True end /\ counts_ok x
  | _ => True
  end.
