(* Model of the bytecode encoding: core/kos_compiler.c (operands, instructions, jumps),
   core/kos_misc.c (operand decoding), core/kos_disasm.c (operand tables), core/kos_entity.c (line
   lookup).
   Simplifications: code is a list of bytes, memory allocation succeeds, offsets do not exceed the
   range of int (KOS_MAX_CODE_SIZE is 2^21).  None: a failed assertion, undefined behaviour, or a
   read past the end. *)
From Coq Require Import ZArith List Bool.
Import ListNotations.
From Verif Require Import Base.
Local Open Scope Z_scope.

(* kos_compiler.c:743-750: do ... while (value); 5 steps for an uint32_t *)
Fixpoint write_uimm (fuel : nat) (value : Z) : list Z :=
  match fuel with
  | O => []
  | S fuel =>
      let byte := value mod 256 in
      let value := Z.shiftr value 7 in
      Z.lor byte (if value =? 0 then 0 else 128) :: (if value =? 0 then [] else write_uimm fuel value)
  end.

(* kos_compiler.c:752-755; value is an int32_t, shifts of negative values as two's complement *)
Definition encode_signed (value : Z) : Z := u32 (Z.lxor (s32 (Z.shiftl value 1)) (Z.shiftr value 31)).

(* kos_compiler.c:758-767 *)
Definition get_simm_size (value : Z) : Z :=
  let uvalue := encode_signed value in
  if uvalue <=? 127 then 1 else
  if uvalue <=? 16383 then 2 else
  if uvalue <=? 2097151 then 3 else
  if uvalue <=? 268435455 then 4 else 5.

(* kos_compiler.c:769-772 *)
Definition write_simm (value : Z) : list Z := write_uimm 5 (encode_signed value).

(* kos_misc.c:728-750 loop; returns value and size; [asserts] tells if assertions are enabled *)
Fixpoint load_uimm_loop (fuel : nat) (asserts : bool) (cur : list Z) (uv bits size : Z) : option (Z * Z) :=
  match fuel, cur with
  | S fuel, byte :: cur =>
      let v := Z.land byte 127 in
      if asserts && (4294967295 <? uv + Z.shiftl v bits) then None else
      let uv := u32 (uv + u32 (Z.shiftl v bits)) in
      if 127 <? byte then load_uimm_loop fuel asserts cur uv (bits + 7) (size + 1)
      else if asserts && negb (size + 1 <? 5) then None else Some (uv, size + 1)
  | _, _ => None
  end.

(* kos_misc.c:728-750; more than 5 steps shift a 32-bit value by 35 *)
Definition load_uimm (asserts : bool) (bytecode : list Z) : option (Z * Z) :=
  load_uimm_loop 5 asserts bytecode 0 0 0.

(* kos_misc.c:752-764; the result is the field sv *)
Definition load_simm (asserts : bool) (bytecode : list Z) : option (Z * Z) :=
  match load_uimm asserts bytecode with
  | None => None
  | Some (uv, size) =>
      let sv := Z.shiftr (s32 uv) 1 in
      Some (if Z.land uv 1 =? 1 then Z.lnot sv else sv, size)
  end.

(* kos_opcodes.h *)
Definition BREAKPOINT := 0x80.
Definition CANCEL := 0xC7.
Definition JUMP := 0xB5.
Definition JUMP_COND := 0xB6.
Definition JUMP_NOT_COND := 0xB7.
Definition NEXT_JUMP := 0xB8.
Definition CATCH := 0xC6.

Definition one_of (l : list Z) (x : Z) : bool := existsb (Z.eqb x) l.

(* kos_disasm.c:15-103 *)
Definition get_num_operands (instr : Z) : nat :=
  if one_of [0x84; 0x85; 0x86; 0xB5; 0xC0; 0xC5] instr then 1%nat else
  if one_of [0x82; 0x81; 0x83; 0x87; 0x88; 0x89; 0x8A; 0x92; 0x93; 0x9B; 0x97; 0x9E; 0xA7; 0xAB; 0xB6; 0xB7; 0xBB; 0xBC;
             0xC6; 0x9C; 0x9D; 0xC4; 0xB9] instr then 2%nat else
  if one_of [0x8B; 0x8C; 0x8D; 0x8E; 0x90; 0x91; 0x94; 0x95; 0x96; 0x98; 0x99; 0x9A; 0x9F; 0xA0; 0xA1; 0xA2; 0xA3; 0xA4;
             0xA5; 0xA6; 0xA8; 0xA9; 0xAA; 0xAC; 0xAD; 0xAE; 0xAF; 0xB0; 0xB1; 0xB2; 0xB3; 0xB4; 0xBA; 0xB8; 0xC1; 0xC3] instr then 3%nat else
  if one_of [0xBD; 0xBF; 0xC2; 0x8F] instr then 4%nat else
  if instr =? 0xBE then 5%nat else 0%nat.

(* kos_disasm.c:105-150; -1: variable length *)
Definition get_operand_size (instr op : Z) : Z :=
  if one_of [0x82; 0x83; 0x93; 0x96; 0x97; 0xC6] instr then (if 0 <? op then -1 else 1) else
  if one_of [0x9B; 0xB5; 0xB6; 0xB7] instr then (if op =? 0 then -1 else 1) else
  if one_of [0x94; 0x95] instr then (if op =? 1 then -1 else 1) else
  if instr =? 0xB8 then (if op =? 2 then -1 else 1) else 1.

(* kos_disasm.c:182-258 *)
Definition is_register (instr op : Z) : bool :=
  if one_of [0x81; 0x82; 0x83; 0x87; 0x93; 0x96; 0x97; 0xBB; 0xC6] instr then negb (0 <? op) else
  if one_of [0x8D; 0x8E; 0x90; 0x91; 0xB1; 0xB3] instr then negb (1 <? op) else
  if one_of [0x94; 0x95; 0x99; 0x9A; 0xBA] instr then negb (op =? 1) else
  if one_of [0x9B; 0xB6; 0xB7] instr then negb (op =? 0) else
  if instr =? 0xBE then op <? 4 else
  if one_of [0xBF; 0xC2] instr then op <? 3 else
  if one_of [0xC3; 0xB8] instr then op <? 2 else
  if instr =? 0xB5 then false else true.

(* kos_disasm.c:260-298 *)
Definition is_signed_op (instr op : Z) : bool :=
  if one_of [0xB5; 0xB6; 0xB7] instr then op =? 0 else
  if one_of [0x81; 0x99; 0xC6] instr then op =? 1 else
  if one_of [0x8D; 0x8E; 0xB8] instr then op =? 2 else false.

(* kos_compiler.c:806-838, one operand; sizes other than -1 and 1 do not occur *)
Definition gen_operand (instr op value : Z) : option (list Z) :=
  if get_operand_size instr op =? -1 then
    if is_register instr op then None else
    if is_signed_op instr op then Some (write_simm value)
    else if value <? 0 then None else Some (write_uimm 5 (u32 value))
  else
    if negb (is_register instr op) &&
       negb (if is_signed_op instr op then u32 (value + 128) <? 256 else u32 value <? 256) then None
    else Some [value mod 256].

Fixpoint gen_operands (instr op : Z) (values : list Z) : option (list Z) :=
  match values with
  | [] => Some []
  | v :: values =>
      match gen_operand instr op v, gen_operands instr (op + 1) values with
      | Some a, Some b => Some (a ++ b)
      | _, _ => None
      end
  end.

(* kos_compiler.c:774-851, the bytes appended to code_gen_buf *)
Definition gen_instr (instr : Z) (values : list Z) : option (list Z) :=
  if (BREAKPOINT <=? instr) && (instr <=? CANCEL) then
    match gen_operands instr 0 values with Some l => Some (instr :: l) | None => None end
  else None.

(* one operand at the current position: kos_disasm.c:454-477 and 490-495, the same as in each
   instruction of kos_vm.c, e.g. 1788-1789, 2983-2984 *)
Definition read_operand (asserts : bool) (instr op : Z) (code : list Z) : option (Z * Z) :=
  if get_operand_size instr op =? -1 then
    if is_signed_op instr op then load_simm asserts code else load_uimm asserts code
  else
    match code with
    | [] => None
    | b :: _ => Some (if negb (is_register instr op) && is_signed_op instr op then swrap 8 b else b, 1)
    end.

Fixpoint read_operands (asserts : bool) (instr op : Z) (n : nat) (code : list Z) : option (list Z * list Z) :=
  match n with
  | O => Some ([], code)
  | S n =>
      match read_operand asserts instr op code with
      | None => None
      | Some (v, size) =>
          match read_operands asserts instr (op + 1) n (skipn (Z.to_nat size) code) with
          | None => None
          | Some (vs, code) => Some (v :: vs, code)
          end
      end
  end.

(* kos_disasm.c:443-497: opcode, operands and the remaining code *)
Definition read_instr (asserts : bool) (code : list Z) : option (Z * list Z * list Z) :=
  match code with
  | [] => None
  | instr :: code =>
      match read_operands asserts instr 0 (get_num_operands instr) code with
      | None => None
      | Some (vs, code) => Some (instr, vs, code)
      end
  end.

(* kos_disasm.c:420-552: the whole code; offset, opcode and operands of each instruction *)
Fixpoint disasm (fuel : nat) (asserts : bool) (offs : Z) (code : list Z) : option (list (Z * (Z * list Z))) :=
  match code with
  | [] => Some []
  | _ =>
      match fuel with
      | O => None
      | S fuel =>
          match read_instr asserts code with
          | None => None
          | Some (instr, vs, rest) =>
              match disasm fuel asserts (offs + (Z.of_nat (length code) - Z.of_nat (length rest))) rest with
              | None => None
              | Some l => Some ((offs, (instr, vs)) :: l)
              end
          end
      end
  end.

(* kos_compiler.c:1006-1012 *)
Record jump := Jump { j_offs : Z; j_target : Z; j_orig : Z; j_base : Z; j_imm : Z }.

(* kos_compiler.c:1014-1032, with the target of set_jump_target 1039-1046 *)
Definition add_jump (jump_instr_offs target_offs : Z) : jump := Jump jump_instr_offs target_offs jump_instr_offs 0 1.

(* kos_compiler.c:1121-1131, the loop; returns new_imm_size *)
Fixpoint imm_size_loop (fuel : nat) (e : jump) (new_imm_size : Z) : option Z :=
  match fuel with
  | O => None
  | S fuel =>
      let target_offs := if j_offs e <? j_target e then j_target e + (new_imm_size - j_imm e) else j_target e in
      let prev_imm_size := new_imm_size in
      let jump_offs := target_offs - (j_offs e + j_base e + prev_imm_size) in
      let new_imm_size := get_simm_size jump_offs in
      if new_imm_size <? prev_imm_size then None
      else if prev_imm_size <? new_imm_size then imm_size_loop fuel e new_imm_size
      else Some new_imm_size
  end.

(* kos_compiler.c:1114-1138; returns the updated entry and delta; sizes are at most 5 *)
Definition update_imm_size (e : jump) : option (jump * Z) :=
  match imm_size_loop 6 e (j_imm e) with
  | None => None
  | Some s => Some (Jump (j_offs e) (j_target e) (j_orig e) (j_base e) s, s - j_imm e)
  end.

Definition move_target (jump_instr_offs delta : Z) (e : jump) : jump :=
  if jump_instr_offs <? j_target e then Jump (j_offs e) (j_target e + delta) (j_orig e) (j_base e) (j_imm e) else e.
Definition move_both (jump_instr_offs delta : Z) (e : jump) : jump :=
  move_target jump_instr_offs delta (Jump (j_offs e + delta) (j_target e) (j_orig e) (j_base e) (j_imm e)).

(* kos_compiler.c:1140-1164; the entries are before ++ cur :: after *)
Definition update_jump_offsets (before : list jump) (cur : jump) (after : list jump) : option (list jump * list jump * Z) :=
  match update_imm_size cur with
  | None => None
  | Some (cur', delta) =>
      if delta =? 0 then Some (before ++ [cur'], after, delta)
      else Some (map (move_target (j_offs cur) delta) (before ++ [cur']), map (move_both (j_offs cur) delta) after, delta)
  end.

(* kos_compiler.c:1193-1207 *)
Definition set_base (code : list Z) (e : jump) : option jump :=
  if j_target e <? 0 then None else
  match nth_error code (Z.to_nat (j_orig e)) with
  | None => None
  | Some opcode =>
      let base := if opcode =? JUMP then 1 else if opcode =? NEXT_JUMP then 3 else 2 in
      Some (Jump (j_offs e) (j_target e) (j_orig e) base (j_imm e))
  end.

(* kos_compiler.c:1188-1210 with [first], 1217-1218 otherwise *)
Fixpoint pass (n : nat) (first : option (list Z)) (before after : list jump) (total : Z) : option (list jump * Z) :=
  match n, after with
  | _, [] => Some (before, total)
  | O, _ => None
  | S n, cur :: after =>
      match (match first with Some code => set_base code cur | None => Some cur end) with
      | None => None
      | Some cur =>
          match update_jump_offsets before cur after with
          | None => None
          | Some (before, after, delta) => pass n first before after (u32 (total + delta))
          end
      end
  end.

(* kos_compiler.c:1213-1219 *)
Fixpoint passes (fuel : nat) (l : list jump) (total : Z) : option (list jump) :=
  if total =? 0 then Some l else
  match fuel with
  | O => None
  | S fuel =>
      match pass (length l) None [] l 0 with
      | None => None
      | Some (l, total) => passes fuel l total
      end
  end.

(* kos_compiler.c:1059-1112 *)
Definition write_jump_offs (code : list Z) (e : jump) : option (list Z) :=
  match nth_error code (Z.to_nat (j_offs e)) with
  | None => None
  | Some opcode =>
      if negb (one_of [CATCH; NEXT_JUMP; JUMP; JUMP_COND; JUMP_NOT_COND] opcode) then None else
      let jump_offs := j_target e - (j_offs e + j_base e + j_imm e) in
      let packed_imm := write_simm jump_offs in
      if negb (Z.of_nat (length packed_imm) =? j_imm e) then None else
      let imm_offs := Z.to_nat (j_offs e + (if opcode =? CATCH then 2 else if opcode =? NEXT_JUMP then 3 else 1)) in
      Some (firstn imm_offs code ++ packed_imm ++ skipn (imm_offs + 1) code)
  end.

Notation addr2line := (list (Z * Z)) (only parsing). (* offset, line *)

(* kos_compiler.c:1238-1239 *)
Fixpoint move_lines (orig total : Z) (a : addr2line) : addr2line * addr2line :=
  match a with
  | (offs, line) :: a' =>
      if offs <=? orig then let (done, rest) := move_lines orig total a' in ((u32 (offs + total), line) :: done, rest)
      else ([], a)
  | [] => ([], [])
  end.

(* kos_compiler.c:1221-1248 *)
Fixpoint write_jumps (code : list Z) (l : list jump) (lines : addr2line) (total : Z) : option (list Z * addr2line) :=
  match l with
  | [] => Some (code, if total =? 0 then lines else map (fun p => (u32 (fst p + total), snd p)) lines)
  | e :: l =>
      match write_jump_offs code e with
      | None => None
      | Some code =>
          let (done, rest) := move_lines (j_orig e) total lines in
          match write_jumps code l rest (u32 (total + (j_imm e - 1))) with
          | None => None
          | Some (code, rest) => Some (code, done ++ rest)
          end
      end
  end.

(* kos_compiler.c:1166-1253 *)
Definition update_jumps (fuel : nat) (code : list Z) (l : list jump) (lines : addr2line) : option (list Z * addr2line) :=
  match pass (length l) (Some code) [] l 0 with
  | None => None
  | Some (l, total) =>
      match passes fuel l total with
      | None => None
      | Some l => write_jumps code l lines 0
      end
  end.

(* kos_entity.c:383-395; [prev] is the entry before ptr, None if ptr is the first one, where the
   decrement leaves the array *)
Fixpoint find_line (prev : option (Z * Z)) (l : addr2line) (offs : Z) : option Z :=
  match l with
  | (o, line) :: l =>
      if o <? offs then find_line (Some (o, line)) l offs
      else if offs <? o then match prev with Some (_, line) => Some line | None => None end
      else Some line
  | [] => match prev with Some (_, line) => Some line | None => None end
  end.

(* kos_entity.c:365-401, for a function with bytecode *)
Definition function_addr_to_line (l : addr2line) (offs : Z) : option Z :=
  match l with [] => Some 0 | _ => find_line None l offs end.
