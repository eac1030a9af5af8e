(* Life cycle of a generator: prepare_call and finish_call for one generator object. *)
From Coq Require Import ZArith List Lia Bool.
Import ListNotations.
Local Open Scope Z_scope.

(* inc/kos_entity.h:394-402 KOS_FUNCTION_STATE; regular functions are not modelled here *)
Inductive gstate := GInit | GReady | GActive | GRunning | GDone.

(* the instruction which makes the call; NEXT_JUMP is the one used by loops *)
Inductive instr := INextJump | INext | ICall.

Inductive exn :=
| EArgs       (* too few or wrong arguments *)
| ENotGen     (* not a generator *)
| EOverflow   (* stack overflow or no memory for the stack; the stack is unchanged *)
| EMemory     (* no memory for the arguments *)
| ERunning    (* generator is already running *)
| EEnd        (* generator end *)
| EUser (v : Z).

Record gen := mkgen { g_state : gstate; g_can_yield : bool; g_instr : instr; g_handler : bool }.

Definition set_state (g : gen) (s : gstate) : gen := mkgen s (g_can_yield g) (g_instr g) (g_handler g).

Inductive outcome :=
| Entered            (* the code of the generator runs *)
| Instantiated
| Raised (e : exn)
| Yielded
| Finished.          (* loop ends, no exception *)

Definition is_next (i : instr) : bool := match i with ICall => false | _ => true end.

(* core/kos_vm.c:923-1125 prepare_call for a generator.
   args_ok: result of the argument checks at :964-982 (min_args is 0 after instantiation);
   push_ok: result of kos_stack_push, a failing one leaves the stack as it was (theorem rejected_call);
   mk_ok: result of make_args and set_default_args_for_handler.
   The stack flag KOS_CAN_YIELD of the generator's frame is [g_can_yield]. *)
Definition prepare_call (g : gen) (i : instr) (args_ok push_ok mk_ok : bool) : gen * outcome :=
  if negb args_ok then (g, Raised EArgs) else
  match g_state g with
  | GInit =>
      if is_next i then (g, Raised ENotGen)
      else if negb push_ok then (g, Raised EOverflow)
      else if negb mk_ok then (g, Raised EMemory)
      else (g, Instantiated)
  | GReady | GActive =>
      let g1 := set_state g GRunning in
      if negb push_ok
      then (g1, Raised EOverflow)       (* :1114-1120: the stack did not change, so the state is not restored *)
      else if g_handler g && negb mk_ok
      then (set_state g1 (g_state g), Raised EMemory)
      else (mkgen GRunning true i (g_handler g), Entered)
  | GRunning => (g, Raised ERunning)
  | GDone => (g, Raised EEnd)
  end.

(* :1019-1059 the copy made when the generator function is called *)
Definition instantiate (handler : bool) : gen := mkgen GReady true ICall handler.

(* what the body does after it was entered: yields (KOS_CAN_YIELD is cleared by INSTR_YIELD :3569,
   or for a handler when it returned a value :3471, :3858), returns, throws *)
Inductive body := BYield | BReturn | BThrow (e : exn).

(* core/kos_vm.c:1127-1164 finish_call; the body is [b] *)
Definition finish_call (g : gen) (b : body) : gen * outcome :=
  let can_yield := match b with BYield => false | _ => g_can_yield g end in
  let g := mkgen (g_state g) can_yield (g_instr g) (g_handler g) in
  match b with
  | BThrow e => (set_state g GDone, Raised e)
  | _ =>
      if can_yield then
        (set_state g GDone, match g_instr g with INextJump => Finished | _ => Raised EEnd end)
      else (set_state g (if g_handler g then GReady else GActive), Yielded)
  end.

Inductive event :=
| EvCall (i : instr) (args_ok push_ok mk_ok : bool)
| EvFinish (b : body).

Definition gstep (g : gen) (e : event) : gen * outcome :=
  match e with
  | EvCall i a p m => prepare_call g i a p m
  | EvFinish b => finish_call g b
  end.

Definition run_gen (evs : list event) (g : gen) : gen :=
  fold_left (fun g e => fst (gstep g e)) evs g.

(* Loops over a generator which is not running.  The behaviour of the code of the generator is
   a list of values it yields, then its end. *)
Inductive fin := FReturn | FThrow (e : exn).

Record lgen := mkl { l_state : gstate; l_values : list Z; l_fin : fin }.

Inductive item := Item (v : Z) | NoItem | ItemExn (e : exn).

(* one complete call by KOS_call_generator or NEXT_JUMP (no stack overflow): :3870-3891, :3659-3735;
   an exception generator_end thrown by the body counts as the end *)
Definition complete_call (g : lgen) : lgen * item :=
  match l_values g with
  | v :: r => (mkl GActive r (l_fin g), Item v)
  | [] =>
      (mkl GDone [] (l_fin g),
       match l_fin g with
       | FReturn => NoItem
       | FThrow EEnd => NoItem
       | FThrow e => ItemExn e
       end)
  end.

(* core/kos_vm.c:3108-3260 INSTR_NEXT_JUMP *)
Definition next_jump (g : lgen) : lgen * item :=
  match l_state g with
  | GDone => (g, ItemExn EEnd)              (* :3141-3145 *)
  | GReady | GActive => complete_call g
  | GRunning => (g, ItemExn ENotGen)        (* KOS_iterator_next, core/kos_utils.c:1845, :1876-1878 *)
  | GInit => (g, ItemExn ENotGen)
  end.

(* core/kos_utils.c:1839-1880 KOS_iterator_next for a generator *)
Definition iterator_next (g : lgen) : lgen * item :=
  match l_state g with
  | GDone => (g, NoItem)
  | GReady | GActive => complete_call g
  | _ => (g, ItemExn ENotGen)
  end.

(* a loop calling one of these until the end: the values seen, and the exception *)
Fixpoint loop (next : lgen -> lgen * item) (fuel : nat) (g : lgen) : option (lgen * list Z * option exn) :=
  match fuel with
  | O => None
  | Datatypes.S fuel' =>
      match next g with
      | (g', Item v) =>
          match loop next fuel' g' with
          | Some (g'', l, e) => Some (g'', v :: l, e)
          | None => None
          end
      | (g', NoItem) => Some (g', [], None)
      | (g', ItemExn e) => Some (g', [], Some e)
      end
  end.
