(* The quoted form of a string: printable ASCII characters stay, quotes and backslashes get a backslash, all others are
   written with their code in hexadecimal. *)
From Coq Require Import ZArith List Bool.
Import ListNotations.
Local Open Scope Z_scope.

Definition hexd (v : Z) : Z := if v <? 10 then 48 + v else 87 + v.
(* n digits of the code *)
Fixpoint hex_of (n : nat) (code : Z) : list Z :=
  match n with O => [] | S k => hex_of k (code / 16) ++ [hexd (code mod 16)] end.
Definition braces (n : nat) (code : Z) : list Z := [92; 120; 123] ++ hex_of n code ++ [125].
Definition quote_char (c : Z) : list Z :=
  if (c =? 34) || (c =? 92) then [92; c]
  else if (32 <=? c) && (c <=? 126) then [c]
  else if c <? 0x100 then [92; 120] ++ hex_of 2 c
  else if c <? 0x800 then braces 3 c
  else if c <? 0x10000 then braces 4 c
  else braces 5 c.
Definition quoted (cs : list Z) : list Z := 34 :: flat_map quote_char cs ++ [34].
