(* The call stack as a plain list of frames, top first, plus the frames of suspended generators. *)
From Coq Require Import ZArith List Lia Bool.
Import ListNotations.
From Verif Require Import Base ListZ StackModel.
Local Open Scope Z_scope.

(* [f_gen] is the identity of the frame's own stack object for generators and for functions with closures.
   [f_body]: function, catch information, instruction offset, then registers. *)
Record frame := mkframe { f_gen : option Z; f_body : list slot; f_info : Z }.

(* [saved]: frames of suspended generators; a frame without [f_gen] there belongs to a function
   which has returned: closures still use its variables *)
Record astate := mka { frames : list frame; saved : Z -> option frame }.

Inductive op :=
| OPush (func nregs info : Z)          (* regular function *)
| OPushNew (func nregs info : Z)       (* closure or new generator *)
| OPushGen (g info : Z)                (* continue a suspended generator *)
| OPop                                 (* leave a regular function, or suspend a generator *)
| OReturn (m : Z)                      (* leave a closure or a generator, closures use [m] variables *)
| OWriteVar (g k : Z) (x : slot)       (* change a variable of an outer function *)
| OWrite (k : Z) (x : slot).           (* change the current frame *)

Definition nregs (f : frame) : Z := len (f_body f) - 3.

Definition empty_body (func n : Z) : list slot :=
  [SObj func; SInt catch_init; SInt 0] ++ repeat SBad (Z.to_nat n).

Definition info_ok (n info : Z) : bool := (1 <=? n) && (n <=? 255) && (info mod 256 =? n).

Definition sset (s : Z -> option frame) (g : Z) (v : option frame) : Z -> option frame :=
  fun x => if x =? g then v else s x.

Definition is_gen (f : frame) : bool := match f_gen f with Some _ => true | None => false end.
Definition has_id (g : Z) (f : frame) : bool := match f_gen f with Some g' => g' =? g | None => false end.

(* variables are counted from the first register, or from the end if negative *)
Definition var_ok (f : frame) (k : Z) : bool := (- nregs f <=? k) && (k <? nregs f).
Definition var_pos (f : frame) (k : Z) : Z := 3 + (if k <? 0 then nregs f + k else k).
Definition set_var (f : frame) (k : Z) (x : slot) : frame :=
  mkframe (f_gen f) (upd (f_body f) (Z.to_nat (var_pos f k)) x) (f_info f).

(* [id] names the object of a new reentrant frame *)
Definition astep (a : astate) (o : op) (id : Z) : option astate :=
  match o with
  | OPush func n info =>
      if info_ok n info then Some (mka (mkframe None (empty_body func n) info :: frames a) (saved a)) else None
  | OPushNew func n info =>
      if info_ok n info then Some (mka (mkframe (Some id) (empty_body func n) info :: frames a) (saved a)) else None
  | OPushGen g info =>
      match saved a g with
      | Some f =>
          if is_gen f && info_ok (nregs f) info
          then Some (mka (mkframe (Some g) (f_body f) info :: frames a) (sset (saved a) g None)) else None
      | None => None
      end
  | OPop =>
      match frames a with
      | f :: r =>
          Some (mka r (match f_gen f with Some g => sset (saved a) g (Some f) | None => saved a end))
      | [] => None
      end
  | OReturn m =>
      match frames a with
      | f :: r =>
          match f_gen f with
          | Some g =>
              if (0 <=? m) && (m <=? nregs f)
              then Some (mka r (sset (saved a) g (Some (mkframe None (firstn (Z.to_nat (m + 3)) (f_body f)) (f_info f / 256 * 256 + m)))))
              else None
          | None => None
          end
      | [] => None
      end
  | OWriteVar g k x =>
      match find (has_id g) (frames a) with
      | Some f =>
          if var_ok f k
          then Some (mka (map (fun f => if has_id g f then set_var f k x else f) (frames a)) (saved a)) else None
      | None =>
          match saved a g with
          | Some f => if var_ok f k then Some (mka (frames a) (sset (saved a) g (Some (set_var f k x)))) else None
          | None => None
          end
      end
  | OWrite k x =>
      match frames a with
      | f :: r =>
          if (-3 <=? k) && (k <? nregs f)
          then Some (mka (mkframe (f_gen f) (upd (f_body f) (Z.to_nat (k + 3)) x) (f_info f) :: r) (saved a))
          else None
      | [] => None
      end
  end.

(* number of entries taken by a frame *)
Definition cost (f : frame) : Z := nregs f + 4 + match f_gen f with Some _ => 1 | None => 0 end.

Definition total (fs : list frame) : Z := fold_right (fun f n => cost f + n) 0 fs.

(* what the current frame looks like *)
Definition reads (c : ctx) (f : frame) : Prop :=
  (forall k, -3 <= k < nregs f -> read_frame c k = gz (f_body f) (k + 3)) /\
  read_frame c (nregs f) = Some (SInt (f_info f)).

Definition run_op (fuel : nat) (c : ctx) (o : op) (a1 a2 : option Z) : res :=
  match o with
  | OPush func n info => kos_stack_push c FPlain func n info a1 a2
  | OPushNew func n info => kos_stack_push c FNew func n info a1 a2
  | OPushGen g info =>
      (* the number of registers is that of the generator function *)
      kos_stack_push c (FGen g) 0 (info mod 256) info a1 a2
  | OPop => kos_stack_pop fuel c
  | OReturn m => bind (set_closure_stack_size c m) (kos_stack_pop fuel)
  | OWriteVar g k x => write_stack c g k x
  | OWrite k x => write_reg c k x
  end.

Definition op_room (o : op) : option Z :=
  match o with
  | OPush _ n _ => Some (n + 4)
  | OPushNew _ n _ => Some (n + 4)
  | OPushGen _ info => Some (info mod 256 + 4)
  | _ => None
  end.

(* allocated objects are new *)
Definition new_ids (c : ctx) (a1 a2 : option Z) : Prop :=
  (forall n, a1 = Some n -> hp c n = None) /\ (forall n, a2 = Some n -> hp c n = None) /\
  (forall n, a1 = Some n -> a2 <> Some n).

(* Out of memory is excluded when a regular function is called from a generator or from a function with closures. *)
Definition oom_safe (a : astate) (o : op) (a1 a2 : option Z) : Prop :=
  match o with
  | OPush _ _ _ => (a1 <> None /\ a2 <> None) \/ (forall f r, frames a = f :: r -> f_gen f = None)
  | _ => True
  end.

(* The executions: every operation is run by the implementation and by the list of frames.
   A push may be rejected; the caller then runs its clean-up. *)
Inductive exec : ctx -> astate -> Prop :=
| exec_init : exec (mkctx (fun _ => None) None 0 0) (mka [] (fun _ => None))
| exec_step : forall c a o n1 n2 fuel c' a',
    exec c a -> new_ids c (Some n1) (Some n2) -> (2 <= fuel)%nat ->
    astep a o n2 = Some a' ->
    run_op fuel c o (Some n1) (Some n2) = Done c' ->
    exec c' a'
| exec_fail : forall c a o a1 a2 fuel c1 c' n a',
    exec c a -> new_ids c a1 a2 -> (2 <= fuel)%nat ->
    astep a o n = Some a' -> oom_safe a o a1 a2 ->
    run_op fuel c o a1 a2 = Fail c1 ->
    call_cleanup fuel c c1 = Done c' ->
    exec c' a.

(* a frame stored at an index of a stack object *)
Definition frame_at (h : heap) (loc : Z * Z) (f : frame) : Prop :=
  exists s, h (fst loc) = Some s /\
    (forall k, 0 <= k < nregs f + 3 -> gz (s_slots s) (snd loc + k) = gz (f_body f) k) /\
    gz (s_slots s) (snd loc + nregs f + 3) = Some (SInt (f_info f)).
