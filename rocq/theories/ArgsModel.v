(* Binding of arguments to parameters: register layout chosen by the compiler, initialisation of
   the registers by the interpreter, named arguments and arguments of built-in functions.
   Parameters with default values follow the parameters without them (grammar).
   A value is any element of [V]; arrays are lists: ArrayProps.array_insert_is_splice and the
   theorems next to it show that the array functions used here behave like list functions.
   Failure to allocate memory is not modelled. *)
From Coq Require Import ZArith List Lia Bool ZifyBool.
Import ListNotations.
From Verif Require Import Base ListZ.
Local Open Scope Z_scope.

Definition KOS_MAX_REGS := 255.        (* core/kos_compiler.c:21 *)
Definition KOS_MAX_ARGS_IN_REGS := 32. (* core/kos_config.h:48 *)
Definition KOS_NO_REG := 255.          (* core/kos_compiler.h:17 *)

Inductive res (A : Type) :=
| Ok (a : A)
| Exn   (* an exception is raised *)
| Ub.   (* memory outside of the objects involved is accessed *)
Arguments Ok {A} _. Arguments Exn {A}. Arguments Ub {A}.

Definition bind {A B} (x : res A) (k : A -> res B) : res B :=
  match x with Ok a => k a | Exn => Exn | Ub => Ub end.
Notation "'do' x <- a ; b" := (bind a (fun x => b)) (at level 200, x pattern, a at level 100, b at level 200).

(* ---- compiler ---- *)

(* A parameter: does it have a default value, is it referred to in the function (num_reads or
   num_assignments not zero after the optimizer's last pass). *)
Record param := mkparam { p_default : bool; p_used : bool }.

(* Where the code of the function looks for a parameter: a register, an element of the array in
   the register rest_reg, nowhere (the parameter is not used). *)
Inductive place := InReg (r : Z) | InRest (idx : Z) | Nowhere.

(* core/kos_compiler_args.c:149-195: index of the last used parameter, number of parameters *)
Fixpoint max_used (ps : list param) (i m : Z) : Z :=
  match ps with
  | [] => m
  | p :: t => max_used t (i + 1) (if p_used p then i else m)
  end.

(* core/kos_compiler_args.c:197-198 *)
Definition count_args (ps : list param) (have_ellipsis : bool) : Z :=
  if have_ellipsis then len ps else max_used ps 0 (-1) + 1.

Definition have_rest (num_args : Z) : bool := KOS_MAX_ARGS_IN_REGS <? num_args.

(* core/kos_compiler_args.c:200-228: a parameter is in a register unless it is the 32nd or a later
   one of a function which has more than 32; [true] is VAR_ARGUMENT_IN_REG *)
Definition arg_in_reg (num_args i : Z) : bool := negb (have_rest num_args) || (i <? KOS_MAX_ARGS_IN_REGS - 1).

(* core/kos_compiler.c:72-105, 119-150 gen_reg while no register has been released *)
Definition gen_reg (num_regs : Z) : option (Z * Z) :=
  if num_regs =? KOS_MAX_REGS then None else Some (num_regs, num_regs + 1).

(* core/kos_compiler.c:5712-5780: loop over the parameters.  State: next register, min_args,
   declared and used default arguments.  None: the compiler reports an error. *)
Fixpoint gen_args (num_args : Z) (ell : bool) (ps : list param) (i : Z) (regs min_args decl_def used_def : Z) (places : list place)
  : option (Z * Z * Z * Z * list place) :=
  match ps with
  | [] => Some (regs, min_args, decl_def, used_def, places)
  | p :: t =>
      if KOS_MAX_REGS <=? i then None else
      let decl_def' := if p_default p then decl_def + 1 else decl_def in
      let used_def' := if p_default p && (p_used p || ell) then decl_def' else used_def in
      if i <? num_args then
        let min_args' := if p_default p then min_args else min_args + 1 in
        if arg_in_reg num_args i then
          match gen_reg regs with
          | None => None
          | Some (r, regs') => gen_args num_args ell t (i + 1) regs' min_args' decl_def' used_def' (places ++ [InReg r])
          end
        else gen_args num_args ell t (i + 1) regs min_args' decl_def' used_def'
               (places ++ [InRest (i - (KOS_MAX_ARGS_IN_REGS - 1))])
      else gen_args num_args ell t (i + 1) regs min_args decl_def' used_def' (places ++ [Nowhere])
  end.

(* inc/kos_entity.h KOS_FUNCTION_OPTS, filled by core/kos_module.c:910-919 *)
Record opts := mkopts {
  num_regs : Z; min_args : Z; num_def_args : Z; num_binds : Z; args_reg : Z; rest_reg : Z;
  ellipsis_reg : Z; this_reg : Z; bind_reg : Z }.

Definition gen_reg_if (c : bool) (regs : Z) : option (Z * Z) :=
  if c then gen_reg regs else Some (KOS_NO_REG, regs).

(* n registers in a row: core/kos_compiler.c:5826-5862 *)
Fixpoint gen_reg_n (n : nat) (regs : Z) : option Z :=
  match n with
  | O => Some regs
  | Datatypes.S n' => match gen_reg regs with None => None | Some (_, regs') => gen_reg_n n' regs' end
  end.

(* core/kos_compiler.c:5690-5862 and 5898-5903 gen_function, 6017-6024 function_literal.
   [nindep]: registers taken by variables of the function used by inner functions, [ell]: is there
   a used ellipsis parameter, [ell_indep]: its register when an inner function uses it,
   [uses_this]: is 'this' needed, [binds]: number of bound closures (and base class objects),
   [body]: number of further registers allocated for the body. *)
Definition compile_args (nindep : Z) (ps : list param) (ell : bool) (ell_indep : option Z) (uses_this : bool)
    (binds body : nat) : option (opts * list place) :=
  let num_args := count_args ps ell in
  match gen_args num_args ell ps 0 nindep 0 0 0 [] with
  | None => None
  | Some (regs, min_args, decl_def, used_def, places) =>
    match gen_reg_if (have_rest num_args) regs with None => None | Some (rest, regs) =>
    match gen_reg_if uses_this regs with None => None | Some (this, regs) =>
    match (if ell then match ell_indep with Some r => Some (r, regs) | None => gen_reg regs end else Some (KOS_NO_REG, regs))
    with None => None | Some (ellr, regs) =>
    match gen_reg_n binds regs with None => None | Some regs' =>
    match gen_reg_n body regs' with None => None | Some nregs =>
      Some (mkopts nregs min_args (if 0 <? decl_def then num_args - min_args else 0)
              (Z.of_nat binds)
              (if 0 <? min_args + used_def then nindep else KOS_NO_REG)
              rest ellr this
              (if (0 <? Z.of_nat binds) then regs else KOS_NO_REG), places)
    end end end end end
  end.

(* ---- interpreter ---- *)
Section VM.
Context {V : Type}.

(* what a register holds: a value, or an array created for the call *)
Inductive content := One (v : V) | Arr (l : list V).

Definition frame := Z -> content.

Definition reg_write (nregs r : Z) (c : content) (f : frame) : res frame :=
  if (0 <=? r) && (r <? nregs) then Ok (fun k => if k =? r then c else f k) else Ub.

(* positional arguments: registers of the caller or an array *)
Inductive input := FromStack (buf : list V) (idx num : Z) | FromArray (l : list V).

Definition num_input (i : input) : Z := match i with FromStack _ _ n => n | FromArray l => len l end.

(* [count] elements of a buffer *)
Definition read_n (buf : list V) (offs count : Z) : res (list V) :=
  if (0 <=? offs) && (0 <=? count) && (offs + count <=? len buf)
  then Ok (firstn (Z.to_nat count) (skipn (Z.to_nat offs) buf)) else Ub.

Definition read_input (i : input) (offs count : Z) : res (list V) :=
  match i with
  | FromStack buf idx _ => read_n buf (idx + offs) count
  | FromArray l => read_n l offs count
  end.

(* kos_atomic_move_ptr into consecutive registers *)
Fixpoint move_to_regs (nregs reg : Z) (vs : list V) (f : frame) : res frame :=
  match vs with
  | [] => Ok f
  | v :: t => do f' <- reg_write nregs reg (One v) f; move_to_regs nregs (reg + 1) t f'
  end.

(* core/kos_vm.c:480-519 slice_args *)
Definition slice_args (i : input) (b e : Z) : res (list V) :=
  let n := num_input i in
  if (b <? n) && (b <? e) then
    let e := if n <? e then n else e in
    read_input i b (e - b)
  else Ok [].

(* core/kos_array.c:596-710 KOS_array_insert on lists, src another array *)
Definition fix_index (i n : Z) : Z :=
  if i <? 0 then (if i + n <? 0 then 0 else i + n) else if n <? i then n else i.
Definition array_insert (l : list V) (b e : Z) (src : list V) (sb se : Z) : list V :=
  let b := fix_index b (len l) in
  let e := fix_index e (len l) in
  let e := if e <? b then b else e in
  let sb := fix_index sb (len src) in
  let se := fix_index se (len src) in
  let se := if se <? sb then sb else se in
  firstn (Z.to_nat b) l ++ firstn (Z.to_nat (se - sb)) (skipn (Z.to_nat sb) src) ++ skipn (Z.to_nat e) l.

(* core/kos_vm.c:521-700 init_registers.  [f] holds the registers after kos_stack_push, [defaults]
   the default values, [closures] the bound closures.  Assertions are not modelled. *)
Definition init_ellipsis (o : opts) (i : input) (f : frame) : res frame :=
  if ellipsis_reg o =? KOS_NO_REG then Ok f else
  do e <- (if min_args o + num_def_args o <? num_input i then slice_args i (min_args o + num_def_args o) (2 ^ 32 - 1) else Ok []);
  reg_write (num_regs o) (ellipsis_reg o) (Arr e) f.

Definition init_args (o : opts) (defaults : list V) (i : input) (f : frame) : res frame :=
  if args_reg o =? KOS_NO_REG then Ok f else
  let num_named := min_args o + num_def_args o in
  let args_reg_end := Z.min (rest_reg o) (args_reg o + num_named) in
  let n := num_input i in
  let num_to_move := Z.min n (u32 (args_reg_end - args_reg o)) in
  do vs <- (if num_to_move =? 0 then Ok [] else read_input i 0 num_to_move);
  do f <- move_to_regs (num_regs o) (args_reg o) vs f;
  let reg := args_reg o + num_to_move in
  do f <- (if reg <? args_reg_end then
             do vs <- read_n defaults (u32 (n - min_args o)) (args_reg_end - reg);
             move_to_regs (num_regs o) reg vs f
           else Ok f);
  if rest_reg o =? KOS_NO_REG then Ok f else
  let num_reg_args := u32 (args_reg_end - args_reg o) in
  do rest <- slice_args i num_reg_args num_named;
  let rest :=
    if (n <? num_named) && (num_reg_args <? num_named) then
      let def_src_offs := if n <? num_reg_args then u32 (num_reg_args - min_args o) else u32 (n - num_reg_args) in
      array_insert rest INT64_MAX INT64_MAX defaults def_src_offs INT64_MAX
    else rest in
  reg_write (num_regs o) (rest_reg o) (Arr rest) f.

Definition init_registers (o : opts) (defaults closures : list V) (i : input) (this : V) (f : frame) : res frame :=
  do f <- (if this_reg o =? KOS_NO_REG then Ok f else reg_write (num_regs o) (this_reg o) (One this) f);
  do f <- init_ellipsis o i f;
  do f <- init_args o defaults i f;
  if bind_reg o =? KOS_NO_REG then Ok f else move_to_regs (num_regs o) (bind_reg o) closures f.

(* core/kos_vm.c:781-812 set_default_args_for_handler: new contents of the array *)
Definition set_default_args_for_handler (o : opts) (defaults args : list V) : list V :=
  if num_def_args o =? 0 then args else
  if len args <? min_args o + num_def_args o then
    array_insert args (len args) INT64_MAX defaults (u32 (len args - min_args o)) INT64_MAX
  else args.

(* Words representing objects: even numbers are small integers, odd ones are pointers *)
Definition to_small_int (i : Z) : Z := 2 * i.            (* inc/kos_entity.h:153 *)
Definition get_small_int (id : Z) : Z := Z.quot id 2.    (* inc/kos_entity.h:152 *)

(* core/kos_module.c:936-955, core/kos_entity.c:288: argument map; names are numbers here *)
Fixpoint index_of (names : list Z) (k i : Z) : option Z :=
  match names with
  | [] => None
  | h :: t => if h =? k then Some i else index_of t k (i + 1)
  end.

(* KOS_get_property on the argument map: the map, then object.prototype ([proto]) *)
Definition get_arg_idx (names : list Z) (proto : Z -> option Z) (k : Z) : option Z :=
  match index_of names k 0 with
  | Some i => Some (to_small_int i)
  | None => proto k
  end.

Fixpoint upd {A} (l : list A) (i : nat) (x : A) : list A :=
  match l, i with
  | [], _ => []
  | _ :: t, O => x :: t
  | h :: t, Datatypes.S i' => h :: upd t i' x
  end.

(* core/kos_vm.c:847-875; None is the placeholder.  [props] are the own properties of the object *)
Fixpoint fill_named (max_args : Z) (names : list Z) (proto : Z -> option Z) (props : list (Z * V)) (args : list (option V)) (end_found : Z)
  : res (list (option V) * Z) :=
  match props with
  | [] => Ok (args, end_found)
  | (k, v) :: t =>
      match get_arg_idx names proto k with
      | None => Exn
      | Some id =>
          let idx := u32 (get_small_int id) in
          if idx <? max_args
          then fill_named max_args names proto t (upd args (Z.to_nat idx) (Some v)) (Z.max end_found (idx + 1))
          else fill_named max_args names proto t args end_found
      end
  end.

(* core/kos_vm.c:892-907: placeholders from min_args up to end_found get their default value *)
Fixpoint fill_defaults (fuel : nat) (i end_found min_args : Z) (defaults : list V) (args : list (option V))
  : res (list (option V) * Z) :=
  match fuel with
  | O => Ok (args, i)
  | Datatypes.S fuel' =>
      if i <? end_found then
        match nth_error args (Z.to_nat i) with
        | None => Exn
        | Some (Some _) => fill_defaults fuel' (i + 1) end_found min_args defaults args
        | Some None =>
            match nth_error defaults (Z.to_nat (i - min_args)) with
            | None => Exn
            | Some d => fill_defaults fuel' (i + 1) end_found min_args defaults (upd args (Z.to_nat i) (Some d))
            end
        end
      else Ok (args, i)
  end.

End VM.

(* core/kos_vm.c:814-921 get_named_args.  [names]: None when the function has no argument map. *)
Definition get_named_args {V} (o : opts) (defaults : list V) (names : option (list Z)) (proto : Z -> option Z)
    (props : list (Z * V)) : res (list (option V)) :=
  match names with
  | None => Exn
  | Some names =>
      let max_args := num_def_args o + min_args o in
      do (args, end_found) <- fill_named max_args names proto props (repeat None (Z.to_nat max_args)) 0;
      if existsb (fun x => match x with None => true | Some _ => false end) (firstn (Z.to_nat (min_args o)) args) then Exn else
      do (args, i) <- fill_defaults (Z.to_nat max_args) (min_args o) end_found (min_args o) defaults args;
      if i <? max_args
      then Ok (array_insert args i max_args (map Some defaults) (i - min_args o) INT64_MAX)
      else Ok args
  end.

(* the object passed as arguments *)
Inductive actual (V : Type) := ARegs (buf : list V) (idx num : Z) | AArray (l : list V) | AObject (props : list (Z * V)) | AOther.
Arguments ARegs {V} _ _ _. Arguments AArray {V} _. Arguments AObject {V} _. Arguments AOther {V}.

Fixpoint all_some {V} (l : list (option V)) : option (list V) :=
  match l with
  | [] => Some []
  | None :: _ => None
  | Some v :: t => match all_some t with Some r => Some (v :: r) | None => None end
  end.

(* core/kos_vm.c:952-972 prepare_call: checks on arguments.  A placeholder left in the array is
   reported as Ub. *)
Definition check_args {V} (o : opts) (defaults : list V) (names : option (list Z)) (proto : Z -> option Z) (a : actual V)
  : res (@input V) :=
  match a with
  | ARegs buf idx num => if num <? min_args o then Exn else Ok (FromStack buf idx num)
  | AArray l => if len l <? min_args o then Exn else Ok (FromArray l)
  | AObject props =>
      do l <- get_named_args o defaults names proto props;
      match all_some l with
      | None => Ub
      | Some l => if len l <? min_args o then Exn else Ok (FromArray l)
      end
  | AOther => Exn
  end.

(* core/kos_vm.c:982-995 prepare_call, a regular function without handler *)
Definition call_function {V} (o : opts) (defaults closures : list V) (names : option (list Z)) (proto : Z -> option Z)
    (a : actual V) (this : V) (f : @frame V) : res (@frame V) :=
  do i <- check_args o defaults names proto a;
  init_registers o defaults closures i this f.

(* core/kos_vm.c:996-1006 prepare_call, a built-in function: the arguments given to the handler.
   When the caller passed an array, it is that array: its contents after the call are returned. *)
Definition call_handler {V} (o : opts) (defaults : list V) (names : option (list Z)) (proto : Z -> option Z) (a : actual V)
  : res (list V) :=
  do i <- check_args o defaults names proto a;
  do l <- (match i with FromArray l => Ok l | FromStack buf idx num => if num =? 0 then Ok [] else read_n buf idx num end);
  Ok (set_default_args_for_handler o defaults l).

(* how the function's code obtains a parameter: a register, or GET.ELEM8 / GET.ELEM on the rest
   array, which raises an exception when the element does not exist *)
Definition read_place {V} (o : opts) (f : @frame V) (p : place) : res V :=
  match p with
  | InReg r => match f r with One v => Ok v | Arr _ => Ub end
  | InRest i => match f (rest_reg o) with
                | Arr l => match nth_error l (Z.to_nat i) with Some v => Ok v | None => Exn end
                | One _ => Ub end
  | Nowhere => Ub
  end.
