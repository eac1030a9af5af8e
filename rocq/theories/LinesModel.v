(** Model of reading lines: modules/io.kos file.prototype.read_lines,
    modules/kos_mod_io.c read_line. *)
From Coq Require Import ZArith List Lia Bool ZifyBool.
Import ListNotations.
From Verif Require Import Base ListZ Utf8Model.
Local Open Scope Z_scope.

(** * read_lines, modules/io.kos:174-244 *)

(** [eol], modules/base.kos:748. *)
Definition eol : list Z := [10; 13; 11; 12; 28; 29; 30; 133; 8232; 8233].
Definition in_eol (c : Z) : bool := existsb (Z.eqb c) eol.

(** [str.scan(eol, pos)] (io.kos:214): the string from [pos] on is split at the
    first such character.  Strings are lists of character codes; [str] with a
    position is the rest of the list; scan and slices of strings are modelled in
    StringModel. *)
Fixpoint scan_eol (s : list Z) : option (list Z * Z * list Z) :=
  match s with
  | [] => None
  | c :: r =>
      if in_eol c then Some ([], c, r)
      else match scan_eol r with
           | Some (a, d, b) => Some (c :: a, d, b)
           | None => None
           end
  end.

(** The inner loop (io.kos:213-238): lines which are yielded, and [prev].
    [fuel] is the length of the string; each round consumes a character. *)
Fixpoint inner (fuel : nat) (keep : bool) (prev s : list Z) : list (list Z) * list Z :=
  match fuel with
  | O => ([], prev ++ s)
  | S k =>
      match scan_eol s with
      | None => ([], prev ++ s)
      | Some (a, c, r) =>
          match (c =? 13), r with
          | true, [] => ([], prev ++ s)
          | true, d :: r' =>
              if d =? 10 then
                let '(ls, p) := inner k keep [] r' in
                ((prev ++ if keep then a ++ [13; 10] else a) :: ls, p)
              else
                let '(ls, p) := inner k keep [] r in
                ((prev ++ if keep then a ++ [13] else a) :: ls, p)
          | false, _ =>
              let '(ls, p) := inner k keep [] r in
              ((prev ++ if keep then a ++ [c] else a) :: ls, p)
          end
      end
  end.

(** A carriage return at the end of the previous part (io.kos:190-207): the lines
    yielded, [prev], and the rest of the string. *)
Definition pending (keep : bool) (prev str : list Z) : list (list Z) * list Z * list Z :=
  match prev with
  | [] => ([], prev, str)
  | _ =>
      if last prev 0 =? 13 then
        match str with
        | d :: r => if d =? 10
                    then ([if keep then prev ++ [10] else removelast prev], [], r)
                    else ([if keep then prev else removelast prev], [], str)
        | [] => ([if keep then prev else removelast prev], [], str)
        end
      else ([], prev, str)
  end.

(** The outer loop (io.kos:183-239) for the strings which are read; an empty
    string, at the end of the file, ends it (io.kos:209-211, 241-243). *)
Fixpoint outer (keep : bool) (prev : list Z) (strs : list (list Z)) : list (list Z) :=
  match strs with
  | [] =>
      let '(ls, prev1, _) := pending keep prev [] in
      ls ++ match prev1 with [] => [] | _ => [prev1] end
  | str :: r =>
      let '(ls, prev1, rest) := pending keep prev str in
      match str with
      | [] => ls ++ match prev1 with [] => [] | _ => [prev1] end
      | _ =>
          let '(ls2, prev2) := inner (length rest) keep prev1 rest in
          ls ++ ls2 ++ outer keep prev2 r
      end
  end.

(** [string(buffer)]: KOS_new_string_from_buffer, core/kos_string.c:313-388, with
    the checks of UTF-8 and of the length; decoded to 32-bit characters (the
    width does not matter, see Utf8Props). *)
Definition to_string (addr : Z) (bytes : list Z) : option (list Z) :=
  match get_len false addr bytes with
  | Ok (n, _) => if 65535 <? n then None
                 else match decode 32 false bytes with Ok cs => Some cs | _ => None end
  | _ => None
  end.

(** [this.read_some(gran, buf)], modules/kos_mod_io.c:827-905: a file gives all
    bytes asked for, except at its end. *)
Definition chunk_size (gran : Z) : Z := if gran <=? 0 then 4096 else gran.

(** read_lines on a file: lines which are yielded, and whether an exception
    ends the iteration.  The address of the data of the buffer is [addr]. *)
Fixpoint file_loop (fuel : nat) (addr : Z) (keep : bool) (gran : Z) (prev bytes : list Z)
  : list (list Z) * bool :=
  match fuel with
  | O => ([], true)
  | S k =>
      let n := Z.to_nat (chunk_size gran) in
      match to_string addr (firstn n bytes) with
      | None => ([], true)
      | Some str =>
          let '(ls, prev1, rest) := pending keep prev str in
          match str with
          | [] => (ls ++ match prev1 with [] => [] | _ => [prev1] end, false)
          | _ =>
              let '(ls2, prev2) := inner (length rest) keep prev1 rest in
              let '(ls3, e) := file_loop k addr keep gran prev2 (skipn n bytes) in
              (ls ++ ls2 ++ ls3, e)
          end
      end
  end.
Definition read_lines (addr : Z) (keep : bool) (gran : Z) (bytes : list Z) : list (list Z) * bool :=
  file_loop (S (length bytes)) addr keep gran [] bytes.

(** * read_line, modules/kos_mod_io.c:697-800 *)

(** fgets(buf, n + 1, file) reads up to [n] bytes and stops after LF. *)
Fixpoint fgets (n : nat) (bytes : list Z) : list Z * list Z :=
  match n with
  | O => ([], bytes)
  | S k =>
      match bytes with
      | [] => ([], [])
      | b :: r => if b =? 10 then ([b], r)
                  else let '(a, q) := fgets k r in (b :: a, q)
      end
  end.

(** strlen of what fgets has stored: bytes before the first NUL (781). *)
Fixpoint before_nul (l : list Z) : list Z :=
  match l with
  | [] => []
  | b :: r => if b =? 0 then [] else b :: before_nul r
  end.

(** is_eol (697-700). *)
Definition is_eol (c : Z) : bool := (c =? 10) || (c =? 13).

(** The loop (757-786): bytes of the line, and the rest of the file.  [fuel] is
    the number of bytes of the file plus one; errors are not modelled. *)
Fixpoint line_loop (fuel : nat) (reserved : nat) (done bytes : list Z) : list Z * list Z :=
  match fuel with
  | O => (done, bytes)
  | S k =>
      let '(got, rest) := fgets reserved bytes in
      match got with
      | [] => (done, rest)
      | _ =>
          let num := before_nul got in
          let done1 := done ++ num in
          if negb (Nat.eqb (length num) 0) && Nat.eqb (length num) reserved
             && negb (is_eol (last done1 0))
          then line_loop k reserved done1 rest
          else (done1, rest)
      end
  end.
Definition read_line (reserved : Z) (bytes : list Z) : list Z * list Z :=
  line_loop (S (length bytes)) (Z.to_nat reserved) [] bytes.
