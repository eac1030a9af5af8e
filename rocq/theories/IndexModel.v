(* Index normalisation, core/kos_utils.c. *)
From Coq Require Import ZArith List Lia Bool ZifyBool.
Import ListNotations.
From Verif Require Import Base.
Local Open Scope Z_scope.

(* core/kos_utils.c:202-213 KOS_fix_index(int64_t idx, unsigned length).
   [idx += length] cannot overflow because idx is negative there. *)
Definition fix_index (idx len : Z) : Z :=
  let idx := if idx <? 0 then idx + len else idx in
  if idx <? 0 then 0
  else if len <? idx then len
  else idx.

(* core/kos_utils.c:215-259 KOS_get_index_arg, the numeric part and the two void cases.
   The argument is None for KOS_VOID; a void argument with any other void_index value is an
   exception raised by KOS_get_integer and is not modelled. *)
Inductive void_index := VoidIsBegin | VoidIsEnd.

Definition get_index_arg (arg : option Z) (begin_pos end_pos : Z) (vi : void_index) : Z :=
  match arg with
  | None => match vi with VoidIsBegin => begin_pos | VoidIsEnd => end_pos end
  | Some ival =>
      let ival := if ival <? 0 then ival + end_pos else ival in
      if ival <? begin_pos then begin_pos
      else if end_pos <? ival then end_pos
      else ival
  end.
