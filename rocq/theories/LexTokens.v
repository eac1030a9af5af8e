(* What the text of a token of each type is, and a program as a sequence of tokens; after doc/grammar.md:50-419.
   From the model there are only the types tok and token. *)
From Coq Require Import ZArith List.
Import ListNotations.
From Verif Require Import LexModel LexSpec.
Local Open Scope Z_scope.

(* the bytes after the text s of the token are rest *)
Definition token_ok (ty : tok) (s rest : list Z) : Prop :=
  match ty with
  | TWhite => well_formed (s ++ rest) -> White s
  | TEol => Eol s rest
  | TComment =>
      (LineComment s /\ (rest = [] \/ (exists c t, rest = c :: t /\ is_eol_char c) \/ bad_utf8 rest)) \/
      BlockComment s \/
      (* without an end *)
      exists body, s = [47; 42] ++ body /\ ((no_end body /\ (rest = [] \/ bad_utf8 rest)) \/ bad_utf8 (body ++ rest))
  | TEof => s = [] /\ rest = []
  | TIdent => Word s /\ not_next WordChar rest /\ ~ In s keyword_list
  | TKeyword k => Word s /\ not_next WordChar rest /\ is_keyword s k
  | TNum =>
      (DecimalOf LooseNumber s /\ not_next WordChar rest) \/ (HexLiteral s /\ not_next HexDigit rest) \/ (BinaryLiteral s /\ not_next BinaryDigit rest)
  | TStr => (exists body, s = 34 :: body ++ [34] /\ StringBody body) \/ (exists r body, s = r :: 34 :: body ++ [34] /\ (r = 114 \/ r = 82) /\ RawBody body)
  | TStrOpen => exists body, s = 34 :: body ++ [92; 40] /\ StringBody body
  | TOper op => longest_operator (s ++ rest) s op \/ odd_op (s ++ rest) \/ (s = [47] /\ rest = [] /\ op = 0)
  | TSep k => exists c, s = [c] /\ In (c, k) separators
  end.
(* the next part of a string with expressions in it *)
Definition string_rest_ok (ty : tok) (s : list Z) : Prop :=
  exists body, StringBody body /\ ((ty = TStr /\ s = 41 :: body ++ [34]) \/ (ty = TStrOpen /\ s = 41 :: body ++ [92; 40])).

(* line and column of the text after before *)
Definition position_ok (before : list Z) (line col : Z) : Prop := line = 1 + eols before /\ (no_tab before -> col = column before).

(* before is the text before these tokens, rest is their text *)
Inductive Tiles : list Z -> list Z -> list token -> Prop :=
| tiles_eof : forall before t, t_type t = TEof -> t_begin t = [] -> t_len t = 0 -> Tiles before [] [t]
| tiles_cons : forall before s rest t ts, s <> [] -> t_type t <> TEof -> token_ok (t_type t) s rest -> t_begin t = s ++ rest ->
    t_len t = Z.of_nat (length s) -> t_len t <= 0xFFFF -> position_ok before (t_line t) (t_col t) -> ~ splits_eol before (s ++ rest) ->
    Tiles (before ++ s) rest ts -> Tiles before (s ++ rest) (t :: ts).
