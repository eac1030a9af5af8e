(* What a generator is: idle, executing (with the instruction which called it), or finished. *)
From Coq Require Import ZArith List Lia Bool.
Import ListNotations.
From Verif Require Import GenModel.
Local Open Scope Z_scope.

Inductive phase := Idle | Executing (i : instr) | Over.

Definition spec_step (p : phase) (e : event) (handler : bool) : option (phase * outcome) :=
  match e, p with
  | EvCall _ false _ _, _ => Some (p, Raised EArgs)
  | EvCall i true _ mk, Idle => if handler && negb mk then Some (Idle, Raised EMemory) else Some (Executing i, Entered)
  | EvCall _ true _ _, Executing _ => Some (p, Raised ERunning)
  | EvCall _ true _ _, Over => Some (Over, Raised EEnd)
  | EvFinish BYield, Executing _ => Some (Idle, Yielded)
  | EvFinish BReturn, Executing i => Some (Over, match i with INextJump => Finished | _ => Raised EEnd end)
  | EvFinish (BThrow x), Executing _ => Some (Over, Raised x)
  | EvFinish _, _ => None   (* nothing to finish *)
  end.

Fixpoint spec_run (p : phase) (evs : list event) (handler : bool) : option (phase * list outcome) :=
  match evs with
  | [] => Some (p, [])
  | e :: r =>
      match spec_step p e handler with
      | None => None
      | Some (p', o) => match spec_run p' r handler with None => None | Some (p'', l) => Some (p'', o :: l) end
      end
  end.

Fixpoint outcomes (evs : list event) (g : gen) : list outcome :=
  match evs with
  | [] => []
  | e :: r => snd (gstep g e) :: outcomes r (fst (gstep g e))
  end.

(* no call is rejected by the stack *)
Definition pushes_ok (evs : list event) : Prop :=
  Forall (fun e => match e with EvCall _ _ p _ => p = true | _ => True end) evs.

Definition in_phase (p : phase) (s : gstate) : Prop :=
  match p with
  | Idle => s = GReady \/ s = GActive
  | Executing _ => s = GRunning
  | Over => s = GDone
  end.

Definition is_call (e : event) : bool := match e with EvCall _ _ _ _ => true | _ => false end.

Definition fin_exn (f : fin) : option exn :=
  match f with FReturn => None | FThrow EEnd => None | FThrow e => Some e end.
