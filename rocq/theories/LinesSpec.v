(** Lines of a text (modules/io.kos, doc of read_lines; modules/base.kos, eol). *)
From Coq Require Import ZArith List Lia Bool ZifyBool.
Import ListNotations.
From Verif Require Import Utf8Spec.
Local Open Scope Z_scope.

(** Characters which end a line: LF, CR, VT, FF, FS, GS, RS, NEL, LS, PS. *)
Definition ends_line (c : Z) : bool :=
  existsb (Z.eqb c) [10; 13; 11; 12; 28; 29; 30; 133; 8232; 8233].

(** [acc] is the beginning of the current line.  CR and LF together are one end. *)
Fixpoint lines (keep : bool) (acc text : list Z) : list (list Z) :=
  match text with
  | [] => match acc with [] => [] | _ => [acc] end
  | c :: r =>
      if c =? 13 then
        match r with
        | d :: r' =>
            if d =? 10 then (if keep then acc ++ [13; 10] else acc) :: lines keep [] r'
            else (if keep then acc ++ [13] else acc) :: lines keep [] r
        | [] => [if keep then acc ++ [13] else acc]
        end
      else if ends_line c then (if keep then acc ++ [c] else acc) :: lines keep [] r
      else lines keep (acc ++ [c]) r
  end.

Definition lines_of (keep : bool) (text : list Z) : list (list Z) := lines keep [] text.

(** A file read in parts of [n] bytes, where no part begins or ends within a
    character: the characters of each part.  A string has up to 65535 of them. *)
Inductive chunks (n : nat) : list Z -> list (list Z) -> Prop :=
| Ch_nil : chunks n [] []
| Ch_cons : forall b cs css, b <> [] -> wf_text (firstn n b) cs -> Z.of_nat (length cs) <= 65535 ->
    chunks n (skipn n b) css -> chunks n b (cs :: css).

(** The first line of a file, including the LF, and the rest. *)
Fixpoint first_line (bytes : list Z) : list Z * list Z :=
  match bytes with
  | [] => ([], [])
  | b :: r => if b =? 10 then ([b], r) else let '(a, q) := first_line r in (b :: a, q)
  end.
