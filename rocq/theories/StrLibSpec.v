(* Specification of strip, split and join on lists of code points. *)
From Coq Require Import ZArith List Lia Bool ZifyBool.
Import ListNotations.
From Verif Require Import Base StringSpec.
Local Open Scope Z_scope.

(* s without the longest prefix of characters of the set *)
Definition stripped_left (set s r : list Z) : Prop :=
  exists p, s = p ++ r /\ Forall (fun c => In c set) p /\ (forall c t, r = c :: t -> ~ In c set).
Definition stripped_right (set s r : list Z) : Prop :=
  exists p, s = r ++ p /\ Forall (fun c => In c set) p /\ (forall c t, r = t ++ [c] -> ~ In c set).
Definition stripped (set s r : list Z) : Prop :=
  exists p q, s = p ++ r ++ q /\ Forall (fun c => In c set) p /\ Forall (fun c => In c set) q /\
    (forall c t, r = c :: t -> ~ In c set) /\ (forall c t, r = t ++ [c] -> ~ In c set).

Fixpoint intercalate (sep : list Z) (parts : list (list Z)) : list Z :=
  match parts with
  | [] => []
  | [p] => p
  | p :: t => p ++ sep ++ intercalate sep t
  end.

(* may another part be split off: [limit] parts at most, None without limit *)
Definition more (limit : option nat) : Prop := match limit with None => True | Some n => (1 < n)%nat end.
Definition less (limit : option nat) : option nat := match limit with None => None | Some n => Some (pred n) end.

(* the parts between occurrences of sep, taken from left to right *)
Inductive split_at (sep : list Z) : option nat -> list Z -> list (list Z) -> Prop :=
| sa_last n text : n = Some 1%nat \/ (forall p, ~ occurs text sep p) -> split_at sep n text [text]
| sa_more n part text parts : more n ->
    (forall p, 0 <= p < Z.of_nat (length part) -> ~ occurs (part ++ sep ++ text) sep p) ->
    split_at sep (less n) text parts -> split_at sep n (part ++ sep ++ text) (part :: parts).

(* the parts between runs of characters of the set *)
Inductive split_runs (set : list Z) : option nat -> list Z -> list (list Z) -> Prop :=
| sr_none n text : Forall (fun c => In c set) text -> split_runs set n text []
| sr_last n gap c text : Forall (fun c => In c set) gap -> ~ In c set ->
    n = Some 1%nat \/ Forall (fun c => ~ In c set) text -> split_runs set n (gap ++ c :: text) [c :: text]
| sr_more n gap c word d text parts : more n -> Forall (fun c => In c set) gap -> ~ In c set ->
    Forall (fun c => ~ In c set) word -> In d set -> split_runs set (less n) (d :: text) parts ->
    split_runs set n (gap ++ (c :: word) ++ d :: text) ((c :: word) :: parts).

(* a line end: CR LF, or one of the set where CR is not followed by LF *)
Definition line_end (set : list Z) (e rest : list Z) : Prop :=
  e = [13; 10] \/ exists c, e = [c] /\ In c set /\ (c = 13 -> forall t, rest <> 10 :: t).

Inductive lines (set : list Z) (keep : bool) : list Z -> list (list Z) -> Prop :=
| li_none : lines set keep [] []
| li_last text : text <> [] -> Forall (fun c => ~ In c set) text -> lines set keep text [text]
| li_more line e rest ls : Forall (fun c => ~ In c set) line -> line_end set e rest -> lines set keep rest ls ->
    lines set keep (line ++ e ++ rest) ((if keep then line ++ e else line) :: ls).
