(* Call stack: chunks holding frames, and separate stack objects for generators and for functions
   whose variables are used by inner functions (closures).
   A stack object is the list of its used entries (size is its length) and its capacity.
   Allocation results are inputs: None is out of memory, Some id a new object. *)
From Coq Require Import ZArith List Lia Bool ZifyBool.
Import ListNotations.
From Verif Require Import Base ListZ.
Local Open Scope Z_scope.

Definition KOS_STACK_EXTRA := 4.          (* core/kos_object_internal.h:274 *)
Definition KOS_MAX_STACK_DEPTH := 1024.   (* core/kos_config.h:45, default configuration *)
Definition STACK_CAPACITY := 509.         (* core/kos_stack.c:104 for KOS_STACK_OBJ_SIZE 4096, entries start at offset 24 *)
Definition catch_init := 0x1FFFFF * 256.  (* core/kos_stack.c:161 *)

(* an entry: KOS_BADPTR, a stack object, a small integer, any other object *)
Inductive slot := SBad | SPtr (id : Z) | SInt (z : Z) | SObj (v : Z).

Record stk := mkstk { s_cap : Z; s_re : bool; s_slots : list slot }.

Definition heap := Z -> option stk.
Definition hset (h : heap) (id : Z) (s : stk) : heap := fun x => if x =? id then Some s else h x.

(* ctx->stack, ctx->regs_idx, ctx->stack_depth *)
Record ctx := mkctx { hp : heap; cur : option Z; regs_idx : Z; depth : Z }.

Inductive res :=
| Done (c : ctx)
| Fail (c : ctx)   (* an exception is raised *)
| Bad.             (* wrong memory access or failed assertion *)

Definition set_slot0 (s : stk) (x : slot) : stk := mkstk (s_cap s) (s_re s) (x :: tl (s_slots s)).
Definition append (s : stk) (l : list slot) : stk := mkstk (s_cap s) (s_re s) (s_slots s ++ l).
Definition size (s : stk) : Z := len (s_slots s).

(* core/kos_stack.c:75-117 chain_stack_frame and init_stack for a new object [n] when the current
   object is not reentrant (unchain_reentrant_frame has nothing to do) or does not exist *)
Definition chain_new (c : ctx) (n : Z) (cap : Z) (re : bool) : ctx :=
  match cur c with
  | Some old => mkctx (hset (hp c) n (mkstk cap re [SPtr old])) (Some n) (regs_idx c) (depth c + 1)
  | None => mkctx (hset (hp c) n (mkstk cap re [SBad])) (Some n) (regs_idx c) (depth c)
  end.

(* core/kos_stack.c:25-73 unchain_reentrant_frame; [a] is used if a new chunk is needed *)
Definition unchain_reentrant_frame (c : ctx) (a : option Z) : res :=
  match cur c with
  | None => Bad
  | Some g =>
    match hp c g with
    | None => Bad
    | Some gs =>
      if s_re gs then
        match s_slots gs with
        | SPtr old :: _ =>
          match hp c old with
          | None => Bad
          | Some os =>
            if s_re os then Bad else
            if size os =? s_cap os then
              match a with
              | None => Fail c
              | Some n =>
                  let c1 := chain_new (mkctx (hp c) (Some old) (regs_idx c) (depth c)) n STACK_CAPACITY false in
                  let h1 := hset (hp c1) g (set_slot0 gs (SPtr n)) in
                  match h1 n with
                  | None => Bad
                  | Some ns => Done (mkctx (hset h1 n (append ns [SPtr g])) (Some n) (regs_idx c1) (depth c1))
                  end
              end
            else Done (mkctx (hset (hp c) old (append os [SPtr g])) (Some old) (regs_idx c) (depth c))
          end
        | _ => Bad
        end
      else Done c
    end
  end.

(* core/kos_stack.c:119-128 push_new_stack when the current object is not reentrant *)
Definition push_new_stack (c : ctx) (a : option Z) : res :=
  match a with
  | None => Fail c
  | Some n => Done (chain_new c n STACK_CAPACITY false)
  end.

(* core/kos_stack.c:75-92 chain_stack_frame for an existing object *)
Definition chain_stack_frame (c : ctx) (g : Z) (a : option Z) : res :=
  match unchain_reentrant_frame c a with
  | Done c =>
      match cur c, hp c g with
      | Some old, Some gs =>
          Done (mkctx (hset (hp c) g (set_slot0 gs (SPtr old))) (Some g) (regs_idx c) (depth c + size gs))
      | _, _ => Bad
      end
  | r => r
  end.

(* core/kos_stack.c:130-150 push_new_reentrant_stack: the object [a2] is allocated first *)
Definition push_new_reentrant_stack (c : ctx) (room : Z) (a1 a2 : option Z) : res :=
  match a2 with
  | None => Fail c
  | Some n =>
      match unchain_reentrant_frame c a1 with
      | Done c => Done (chain_new c n room true)
      | r => r
      end
  end.

(* the function called *)
Inductive fkind :=
| FPlain          (* regular function *)
| FNew            (* function with closure, or generator function to be instantiated *)
| FGen (g : Z).   (* instantiated generator with its stack object *)

(* core/kos_stack.c:268-286: new frame in the current object *)
Definition new_frame (func nregs info : Z) : list slot :=
  [SObj func; SInt catch_init; SInt 0] ++ repeat SBad (Z.to_nat nregs) ++ [SInt info].

Definition write_frame (c : ctx) (func nregs info : Z) : res :=
  match cur c with
  | None => Bad
  | Some id =>
      match hp c id with
      | None => Bad
      | Some s =>
          if s_cap s <? size s + nregs + KOS_STACK_EXTRA then Bad else
          Done (mkctx (hset (hp c) id (append s (new_frame func nregs info))) (Some id) (size s + 3)
                      (depth c + (nregs + KOS_STACK_EXTRA)))
      end
  end.

Definition bind (r : res) (k : ctx -> res) : res := match r with Done c => k c | _ => r end.

(* reg_init, core/kos_stack.c:191 *)
Definition reg_init (instr ret_reg nregs : Z) : Z := instr * 65536 + ret_reg * 256 + nregs.

(* core/kos_stack.c:240-243: replace the last entry of the generator's stack object *)
Definition set_last (l : list slot) (x : slot) : list slot := removelast l ++ [x].

(* core/kos_stack.c:152-292 kos_stack_push of a function or class.  a1, a2: results of allocations;
   a2 is used for the frame object of FNew and for the second chunk allocation of FPlain.
   Out of memory is [Fail] with the context as the code leaves it. *)
Definition kos_stack_push (c : ctx) (f : fkind) (func nregs info : Z) (a1 a2 : option Z) : res :=
  let room := nregs + KOS_STACK_EXTRA in
  if KOS_MAX_STACK_DEPTH <? depth c + room then Fail c else
  match f with
  | FPlain =>
      match cur c with
      | None => bind (push_new_stack c a1) (fun c => write_frame c func nregs info)
      | Some id =>
          match hp c id with
          | None => Bad
          | Some s =>
              if s_cap s <? size s + room then
                bind (unchain_reentrant_frame c a1) (fun c =>
                match cur c with
                | None => Bad
                | Some id =>
                    match hp c id with
                    | None => Bad
                    | Some s =>
                        bind (if s_cap s <? size s + room then push_new_stack c a2 else Done c)
                             (fun c => write_frame c func nregs info)
                    end
                end)
              else write_frame c func nregs info
          end
      end
  | FGen g =>
      bind (match cur c with None => push_new_stack c a1 | Some _ => Done c end) (fun c =>
      bind (chain_stack_frame c g a1) (fun c =>
      match hp c g with
      | None => Bad
      | Some gs => Done (mkctx (hset (hp c) g (mkstk (s_cap gs) (s_re gs) (set_last (s_slots gs) (SInt info)))) (cur c) 4 (depth c))
      end))
  | FNew =>
      bind (match cur c with None => push_new_stack c a1 | Some _ => Done c end) (fun c =>
      bind (push_new_reentrant_stack c (room + 1) a1 a2) (fun c =>
      write_frame c func nregs info))
  end.

(* core/kos_stack.c:339-357: leave empty chunks *)
Fixpoint pop_chunks (fuel : nat) (c : ctx) (id : Z) : res :=
  match fuel with
  | O => Bad
  | Datatypes.S fuel' =>
      match hp c id with
      | None => Bad
      | Some s =>
          if size s =? 1 then
            match s_slots s with
            | SBad :: _ => Done (mkctx (hp c) None 0 (depth c))
            | SPtr prev :: _ => pop_chunks fuel' (mkctx (hp c) (Some prev) (regs_idx c) (depth c - 1)) prev
            | _ => Bad
            end
          else (* core/kos_stack.c:359-400 *)
            match last (s_slots s) SBad with
            | SInt info => Done (mkctx (hp c) (Some id) (size s - 1 - info mod 256) (depth c))
            | SPtr g =>
                let h1 := hset (hp c) id (mkstk (s_cap s) (s_re s) (removelast (s_slots s))) in
                match h1 g with
                | None => Bad
                | Some gs => Done (mkctx (hset h1 g (set_slot0 gs (SPtr id))) (Some g) 4 (depth c))
                end
            | _ => Bad
            end
      end
  end.

(* core/kos_stack.c:294-401 kos_stack_pop, release build (assertions are not checked) *)
Definition kos_stack_pop (fuel : nat) (c : ctx) : res :=
  match cur c with
  | None => Bad
  | Some id =>
      match hp c id with
      | None => Bad
      | Some s =>
          if 1 <? size s then
            if s_re s then
              match s_slots s with
              | SPtr prev :: _ => pop_chunks fuel (mkctx (hp c) (Some prev) (regs_idx c) (depth c - size s)) prev
              | _ => Bad
              end
            else
              let nregs := size s - regs_idx c - 1 in
              let delta := nregs + KOS_STACK_EXTRA in
              if size s <? delta then Bad else
              pop_chunks fuel
                (mkctx (hset (hp c) id (mkstk (s_cap s) (s_re s) (firstn (Z.to_nat (size s - delta)) (s_slots s))))
                       (Some id) (regs_idx c) (depth c - delta)) id
          else pop_chunks fuel c id
      end
  end.

(* the current frame, core/kos_vm.c:442-445: entry [k] counted from register 0,
   -3, -2, -1 are the function, the catch information and the instruction offset *)
Definition read_frame (c : ctx) (k : Z) : option slot :=
  match cur c with
  | None => None
  | Some id => match hp c id with None => None | Some s => gz (s_slots s) (regs_idx c + k) end
  end.

Fixpoint upd (l : list slot) (i : nat) (x : slot) : list slot :=
  match l, i with
  | [], _ => []
  | _ :: t, O => x :: t
  | h :: t, Datatypes.S i' => h :: upd t i' x
  end.

Definition write_reg (c : ctx) (k : Z) (x : slot) : res :=
  match cur c with
  | None => Bad
  | Some id =>
      match hp c id with
      | None => Bad
      | Some s =>
          if (0 <=? regs_idx c + k) && (regs_idx c + k <? size s) then
            Done (mkctx (hset (hp c) id (mkstk (s_cap s) (s_re s) (upd (s_slots s) (Z.to_nat (regs_idx c + k)) x)))
                        (cur c) (regs_idx c) (depth c))
          else Bad
      end
  end.

(* core/kos_vm.c:1275-1308 set_closure_stack_size when the function has finished (KOS_GENERATOR_DONE):
   only the registers used by closures remain in the stack object *)
Definition set_closure_stack_size (c : ctx) (closure_size : Z) : res :=
  match cur c with
  | None => Bad
  | Some id =>
      match hp c id with
      | None => Bad
      | Some s =>
          if s_re s then
            let sz := closure_size + 1 + KOS_STACK_EXTRA in
            if size s <? sz then Bad else
            match last (s_slots s) SBad with
            | SInt info =>
                Done (mkctx (hset (hp c) id (mkstk (s_cap s) (s_re s)
                               (firstn (Z.to_nat (sz - 1)) (s_slots s) ++ [SInt (info / 256 * 256 + closure_size)])))
                            (cur c) (regs_idx c) (depth c - (size s - sz)))
            | _ => Bad
            end
          else Done c
      end
  end.

(* core/kos_vm.c:1221-1246 read_stack: a variable of an outer function; None is the exception *)
Definition read_stack (c : ctx) (id : Z) (idx : Z) : option slot :=
  match hp c id with
  | None => None
  | Some s => gz (s_slots s) (if idx <? 0 then idx + size s - 1 else idx + KOS_STACK_EXTRA)
  end.

(* core/kos_vm.c:1248-1273 write_stack *)
Definition write_stack (c : ctx) (id : Z) (idx : Z) (x : slot) : res :=
  match hp c id with
  | None => Bad
  | Some s =>
      let i := if idx <? 0 then idx + size s - 1 else idx + KOS_STACK_EXTRA in
      if (0 <=? i) && (i <? size s) then
        Done (mkctx (hset (hp c) id (mkstk (s_cap s) (s_re s) (upd (s_slots s) (Z.to_nat i) x)))
                    (cur c) (regs_idx c) (depth c))
      else Fail c
  end.

(* core/kos_vm.c:1114-1116: prepare_call pops the frame if the stack changed before the error *)
Definition same_place (c0 c : ctx) : bool :=
  match cur c0, cur c with
  | None, None => true
  | Some a, Some b => a =? b
  | _, _ => false
  end && (regs_idx c0 =? regs_idx c).

Definition call_cleanup (fuel : nat) (c0 c : ctx) : res :=
  if same_place c0 c then Done c else kos_stack_pop fuel c.

(* core/kos_stack.c:408-494 walk_stack with a callback which does not fail: the frames found (object and index of the frame) *)
Fixpoint walk_stack (fuel : nat) (h : heap) (top : Z) (id sz : Z) (prev_size : option Z) : option (list (Z * Z)) :=
  if sz =? 0 then Some [] else
  match fuel with
  | O => None
  | Datatypes.S fuel' =>
      match h id with
      | None => None
      | Some s =>
          if sz =? 1 then
            match s_slots s with
            | SBad :: _ => Some []
            | SPtr prev :: _ =>
                match h prev with
                | None => None
                | Some ps =>
                    if s_re s && negb (id =? top) then
                      match prev_size with
                      | None => None
                      | Some p => walk_stack fuel' h top prev (p - 1) None
                      end
                    else walk_stack fuel' h top prev (size ps) prev_size
                end
            | _ => None
            end
          else
            match gz (s_slots s) (sz - 1) with
            | Some (SInt info) =>
                let fsize := info mod 256 + KOS_STACK_EXTRA in
                match walk_stack fuel' h top id (sz - fsize) prev_size with
                | None => None
                | Some l => Some ((id, sz - fsize) :: l)
                end
            | Some (SPtr g) =>
                match h g with
                | None => None
                | Some gs => walk_stack fuel' h top g (size gs) (Some sz)
                end
            | _ => None
            end
      end
  end.
