(** Small functions of core/kos_compiler_vars.c: path of an imported module,
    comparison of closures. *)
From Coq Require Import ZArith List Lia Bool ZifyBool.
Import ListNotations.
From Verif Require Import Base ListZ.
Local Open Scope Z_scope.

(** get_module_path_len (453-471): names are the bytes of the tokens, which have
    at most 65535 bytes each.  [total_len] is uint32_t. *)
Fixpoint path_total (total : Z) (names : list (list Z)) : Z :=
  match names with
  | [] => total
  | t :: r =>
      let total1 := if total =? 0 then total else uwrap 32 (total + 1) in
      path_total (uwrap 32 (total1 + len t)) r
  end.
Definition get_module_path_len (names : list (list Z)) : Z :=
  let total := path_total 0 names in
  if 65535 <? total then 0 else total.

(** [POverflow]: bytes are written behind the end of the allocated buffer. *)
Inductive path_res : Type := POk (path : list Z) (name_len : Z) | POverflow.

(** The loop which copies the names (500-511); [done] are the bytes before [dst]. *)
Fixpoint copy_names (size : Z) (done : list Z) (names : list (list Z)) : option (list Z) :=
  match names with
  | [] => Some done
  | t :: r =>
      let done1 := match done with [] => done | _ => done ++ [47] end in
      let done2 := done1 ++ t in
      if size <? len done2 then None else copy_names size done2 r
  end.

(** kos_get_module_path_name (473-526).  The buffer has [name_len + 1] bytes;
    KOS_mempool_alloc rounds the size up to a multiple of 8
    (core/kos_memory.c:99).  A failed allocation is not modelled.  The assertion
    in line 513 is not compiled in release builds and comes after the copy. *)
Definition get_module_path_name (names : list (list Z)) : path_res :=
  match names with
  | [] => POk [] 0
  | [t] => POk t (len t)
  | _ =>
      let name_len := get_module_path_len names in
      match copy_names ((name_len + 1 + 7) / 8 * 8) [] names with
      | Some path => POk path name_len
      | None => POverflow
      end
  end.

(** scope_ref_compare_item (60-67), scope_ref_compare_node (69-76): the difference
    of two 64-bit addresses converted to int; the conversion keeps the low 32
    bits (implementation-defined; all supported compilers). *)
Definition scope_ref_compare (a b : Z) : Z := swrap 32 (a - b).
