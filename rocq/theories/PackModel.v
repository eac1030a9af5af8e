(* buffer.pack and buffer.unpack, modules/kos_mod_base.c:2724-3597.

   Characters of the format are code points.  Floating-point numbers are their 64 bits; the
   conversions done by the hardware (and KOS_get_integer for a float) are the parameter [fpops].
   The read-only flag, other threads, the GC and allocation failures are not modelled. *)
From Coq Require Import ZArith List Lia Bool ZifyBool.
Import ListNotations.
From Verif Require Import Base IndexModel BufferModel Utf8Model.
Local Open Scope Z_scope.

(* an argument: integer, float, another buffer, the buffer itself, string, array, anything else *)
Inductive pv :=
| VInt (z : Z) | VFlt (bits : Z) | VBuf (bytes : list Z) | VSelf | VStr (cs : list Z) | VArr (l : list pv) | VOther.

Record fpops := mkfp {
  f_int : Z -> option Z;   (* KOS_get_integer, None: exception *)
  f_of_int : Z -> Z;       (* (double)integer *)
  f_to32 : Z -> Z;         (* bits of (float)double *)
  f_of32 : Z -> Z          (* bits of (double)float *)
}.

(* an exception keeps the state: the buffer may have been changed before *)
Inductive pres (A S : Type) : Type :=
| POk (a : A)
| PExn (s : S)
| PBad.             (* memory access outside of the storage, or endless loop *)
Arguments POk {A S} a.
Arguments PExn {A S} s.
Arguments PBad {A S}.

Definition NOSIZE := 4294967295.   (* ~0U *)

(* ---- the format string; a position in it is the rest of the string ---- *)

Definition is_digit (c : Z) : bool := (48 <=? c) && (c <=? 57).

(* modules/kos_mod_base.c:2756-2776 pack_format_skip_spaces *)
Fixpoint skip_spaces (s : list Z) : list Z :=
  match s with
  | [] => []
  | c :: t =>
      match t with
      | [] => if c =? 32 then [] else s
      | _ => if c =? 32 then skip_spaces t else s
      end
  end.

(* modules/kos_mod_base.c:2795-2813, the loop of pack_format_get_count *)
Fixpoint get_count_loop (s : list Z) (count : Z) : Z * list Z :=
  match s with
  | [] => (count, [])
  | c :: t =>
      if negb (is_digit c) then (count, s)
      else if 429496729 <=? count then (NOSIZE, s)
      else get_count_loop t (u32 (count * 10 + (c - 48)))
  end.

(* modules/kos_mod_base.c:2778-2817 pack_format_get_count; the first character is a digit *)
Definition get_count (s : list Z) : Z * list Z :=
  match s with
  | [] => (NOSIZE, [])
  | c :: t => get_count_loop t (c - 48)
  end.

(* modules/kos_mod_base.c:2848-2868, the optional count; None: exception *)
Definition read_count (s : list Z) : option (Z * list Z) :=
  match s with
  | [] => None
  | c :: _ =>
      if is_digit c then
        let (count, r) := get_count s in
        if count =? NOSIZE then None
        else match skip_spaces r with
             | [] => None
             | r' => Some (count, r')
             end
      else Some (1, s)
  end.

(* modules/kos_mod_base.c:2891-2931, the size after format character [c]; None: exception *)
Definition read_size (c : Z) (s : list Z) : option (Z * list Z) :=
  match s with
  | [] => if c =? 115 then Some (NOSIZE, []) else None
  | d :: _ =>
      if is_digit d then
        let (size, r) := get_count s in
        if size =? NOSIZE then None else Some (size, r)
      else if c =? 115 then Some (NOSIZE, s) else None
  end.

(* modules/kos_mod_base.c:2819-2952 process_pack_format.  60 '<', 62 '>', 120 'x', 117 'u', 105 'i', 102 'f', 98 'b', 115 's'.
   Every iteration consumes a character, so [fuel] is the length of the string. *)
Fixpoint process_pack_format {St : Type} (handler : St -> bool -> Z -> Z -> Z -> pres St St)
    (fuel : nat) (s : list Z) (big_end : bool) (st : St) : pres St St :=
  match s with
  | [] => POk st
  | _ =>
    match fuel with
    | O => PBad
    | Datatypes.S fuel' =>
      match skip_spaces s with
      | [] => POk st
      | s1 =>
        match read_count s1 with
        | None => PExn st
        | Some (count, s2) =>
          match s2 with
          | [] => PBad
          | c :: t =>
            if c =? 60 then process_pack_format handler fuel' t false st
            else if c =? 62 then process_pack_format handler fuel' t true st
            else
              let rs := if c =? 120 then Some (1, t)
                        else if (c =? 117) || (c =? 105) || (c =? 102) || (c =? 98) || (c =? 115) then read_size c t
                        else None in
              match rs with
              | None => PExn st
              | Some (size, r) =>
                  match handler st big_end c size count with
                  | POk st' => process_pack_format handler fuel' r big_end st'
                  | e => e
                  end
              end
          end
        end
      end
    end
  end.

(* ---- pack ---- *)

Record pst := mkpst { p_buf : buf; p_data : list pv; p_idx : Z }.

Definition set_data (b : buf) (d : list Z) : buf := Buf (b_size b) d (b_ext b).

(* modules/kos_mod_base.c:3043-3047, 3105-3109, the bytes of an integer, one by one; n iterations are left *)
Fixpoint put_int (n : nat) (i size : Z) (big : bool) (value : Z) (d : list Z) (dst : Z) : bres (list Z) :=
  match n with
  | O => BOk d
  | Datatypes.S n' =>
      let offs := if big then size - 1 - i else i in
      bdo d' <- wr_range d (dst + offs) [Z.land value 255];
      put_int n' (i + 1) size big (Z.shiftr value 8) d' dst
  end.

(* KOS_string_to_cstr_vec, core/kos_string.c:464-502, without the terminating zero.
   Strings with 8-bit or 16-bit elements give the same bytes (theorem utf8_encoders_agree). *)
Definition string_bytes (cs : list Z) : option (list Z) :=
  match calc_buf_size_32 cs 0 with
  | None => None
  | Some _ => Some (encode_32 cs)
  end.

Definition gzv (l : list pv) (i : Z) : option pv := if i <? 0 then None else nth_error l (Z.to_nat i).

(* modules/kos_mod_base.c:3027-3214, one value of pack_format: writes at [dst], returns the buffer and the next dst *)
Definition pack_one (fp : fpops) (big : bool) (c size : Z) (b : buf) (dst : Z) (v : pv) : pres (buf * Z) buf :=
  if (c =? 117) || (c =? 105) then                       (* :3027-3050 *)
    match match v with VInt z => Some z | VFlt f => f_int fp f | _ => None end with
    | None => PExn b
    | Some z =>
        match put_int (Z.to_nat size) 0 size big z (b_data b) dst with
        | BOk d => POk (set_data b d, dst + size)
        | BExn => PExn b
        | _ => PBad
        end
    end
  else if c =? 102 then                                  (* :3071-3112 *)
    match match v with VInt z => Some (f_of_int fp z) | VFlt f => Some f | _ => None end with
    | None => PExn b
    | Some f =>
        match put_int (Z.to_nat size) 0 size big (if size =? 4 then f_to32 fp f else f) (b_data b) dst with
        | BOk d => POk (set_data b d, dst + size)
        | BExn => PExn b
        | _ => PBad
        end
    end
  else if c =? 98 then                                   (* :3127-3161 *)
    let put (bytes : list Z) : pres (buf * Z) buf :=
      let copy_size := blen bytes in
      match (if copy_size =? 0 then BOk (b_data b) else wr_range (b_data b) dst bytes) with
      | BOk d =>
          match (if copy_size <? size then set_range d (dst + copy_size) (size - copy_size) 0 else BOk d) with
          | BOk d' => POk (set_data b d', dst + size)
          | BExn => PExn b
          | _ => PBad
          end
      | BExn => PExn b
      | _ => PBad
      end in
    match v with
    | VBuf bytes => put (firstn (Z.to_nat (if blen bytes <? size then blen bytes else size)) bytes)
    | VSelf =>
        (* src is the begin of the storage which dst points into *)
        let src_size := b_size b in
        let copy_size := if src_size <? size then src_size else size in
        let copy_size := if (dst <? copy_size) && (0 <? dst) then dst else copy_size in
        match rd_range (b_data b) 0 copy_size with
        | BOk bytes => put bytes
        | BExn => PExn b
        | _ => PBad
        end
    | _ => PExn b
    end
  else                                                   (* :3179-3214 *)
    match v with
    | VStr cs =>
        match string_bytes cs with
        | None => PExn b
        | Some bytes =>
            let copy_size := if blen bytes <? size then blen bytes else size in
            let copy (b : buf) (dst : Z) : pres (buf * Z) buf :=
              match (if copy_size =? 0 then BOk (b_data b)
                     else wr_range (b_data b) dst (firstn (Z.to_nat copy_size) bytes)) with
              | BOk d =>
                  if size =? NOSIZE then POk (set_data b d, dst)
                  else
                    match (if copy_size <? size then set_range d (dst + copy_size) (size - copy_size) 0 else BOk d) with
                    | BOk d' => POk (set_data b d', dst + size)
                    | BExn => PExn b
                    | _ => PBad
                    end
              | BExn => PExn b
              | _ => PBad
              end in
            if size =? NOSIZE then
              match buffer_make_room b copy_size with
              | BOk (b', dst') => copy b' dst'
              | BExn => PExn b
              | _ => PBad
              end
            else copy b dst
        end
    | _ => PExn b
    end.

(* modules/kos_mod_base.c:3027, 3071, 3127, 3179, the loops over [count] values: KOS_array_read raises an exception after the end of the array *)
Fixpoint pack_loop (fp : fpops) (n : nat) (big : bool) (c size : Z) (st : pst) (dst : Z) : pres pst pst :=
  match n with
  | O => POk st
  | Datatypes.S n' =>
      match gzv (p_data st) (p_idx st) with
      | None => PExn st
      | Some v =>
          match pack_one fp big c size (p_buf st) dst v with
          | POk (b, dst') => pack_loop fp n' big c size (mkpst b (p_data st) (p_idx st + 1)) dst'
          | PExn b => PExn (mkpst b (p_data st) (p_idx st + 1))
          | PBad => PBad
          end
      end
  end.

(* modules/kos_mod_base.c:2972-2987, the values are the arguments after the format, or the array given as first argument *)
Definition find_data (st : pst) : pst :=
  if p_idx st <? 0 then
    match p_data st with
    | _ :: VArr l :: _ => mkpst (p_buf st) l 0
    | _ => mkpst (p_buf st) (p_data st) 1
    end
  else st.

(* modules/kos_mod_base.c:2954-3223 pack_format; a null dst is not used for writing (its value here is 0) *)
Definition pack_format (fp : fpops) (st : pst) (big : bool) (c size count : Z) : pres pst pst :=
  let st := find_data st in
  let room :=
    if negb (size =? NOSIZE) && negb (size =? 0) && negb (count =? 0)
    then buffer_make_room (p_buf st) (u32 (size * count))
    else BOk (p_buf st, 0) in
  match room with
  | BExn => PExn st
  | BHang | BBad => PBad
  | BOk (b, dst) =>
      let st := mkpst b (p_data st) (p_idx st) in
      if c =? 120 then
        if count =? 0 then POk st
        else match set_range (b_data b) dst count 0 with
             | BOk d => POk (mkpst (set_data b d) (p_data st) (p_idx st))
             | BExn => PExn st
             | _ => PBad
             end
      else if ((c =? 117) || (c =? 105)) && negb ((size =? 1) || (size =? 2) || (size =? 4) || (size =? 8)) then PExn st
      else if (c =? 102) && negb ((size =? 4) || (size =? 8)) then PExn st
      else if blen (p_data st) <? u32 (p_idx st + count) then PExn st
      else pack_loop fp (Z.to_nat count) big c size st dst
  end.

(* modules/kos_mod_base.c:3485-3514 pack; the arguments follow the format string *)
Definition pack (fp : fpops) (b : buf) (format : list Z) (args : list pv) : pres pst pst :=
  process_pack_format (pack_format fp) (length format) format false (mkpst b (VStr format :: args) (-1)).

(* ---- unpack ---- *)

Record ust := mkust { u_out : list pv; u_idx : Z }.

(* modules/kos_mod_base.c:3293-3296, the bytes of an integer *)
Fixpoint get_uint (n : nat) (i size : Z) (big : bool) (value : Z) (d : list Z) (offs : Z) : bres Z :=
  match n with
  | O => BOk value
  | Datatypes.S n' =>
      let rel := if big then i else size - 1 - i in
      bdo x <- rd_range d (offs + rel) 1;
      get_uint n' (i + 1) size big (Z.lor (u64 (Z.shiftl value 8)) (nth 0 x 0)) d offs
  end.

(* core/kos_string.c:44-62 string_size_from_max_code, :313-391 KOS_new_string_from_buffer for a
   buffer which is not empty; [addr] is the address of the storage *)
Definition string_from_buffer (addr : Z) (b : buf) (begin_ end_ : Z) : pres (list Z) unit :=
  if (end_ <? begin_) || (b_size b <? end_) then PExn tt
  else
    match rd_range (b_data b) begin_ (end_ - begin_) with
    | BOk bytes =>
        match get_len false (addr + begin_) bytes with
        | Ok (n, max_code) =>
            if 65535 <? n then PExn tt
            else match decode (if max_code <? 256 then 8 else if max_code <? 65536 then 16 else 32) false bytes with
                 | Ok cs => POk cs
                 | _ => PBad
                 end
        | Fail => PExn tt
        | OverRead => PBad
        end
    | BExn => PExn tt
    | _ => PBad
    end.

(* modules/kos_mod_base.c:3289-3376, one value of unpack_format at [offs], size > 0 or the empty string or buffer *)
Definition unpack_one (fp : fpops) (addr : Z) (b : buf) (big : bool) (c size offs : Z) : pres pv unit :=
  if (c =? 102) || (c =? 105) || (c =? 117) then         (* :3289-3333 *)
    match get_uint (Z.to_nat size) 0 size big 0 (b_data b) offs with
    | BOk value =>
        if (c =? 105) && (size <? 8) then
          let shift := 64 - 8 * size in
          POk (VInt (Z.shiftr (s64 (Z.shiftl value shift)) shift))
        else if c =? 102 then POk (VFlt (if size =? 4 then f_of32 fp (u32 value) else value))
        else POk (VInt (s64 value))
    | BExn => PExn tt
    | _ => PBad
    end
  else if c =? 98 then                                   (* :3336-3356 *)
    if size =? 0 then POk (VBuf [])
    else match (bdo bytes <- rd_range (b_data b) offs size;
                bdo d <- wr_range (b_data (new_buffer size)) 0 bytes;
                BOk (firstn (Z.to_nat size) d)) with
         | BOk bytes => POk (VBuf bytes)
         | BExn => PExn tt
         | _ => PBad
         end
  else                                                   (* :3361-3375 *)
    if size =? 0 then POk (VStr [])
    else match string_from_buffer addr b offs (u32 (offs + size)) with
         | POk cs => POk (VStr cs)
         | PExn e => PExn e
         | PBad => PBad
         end.

(* modules/kos_mod_base.c:3289, 3336, 3361, the loops over [count] values *)
Fixpoint unpack_loop (fp : fpops) (addr : Z) (b : buf) (n : nat) (big : bool) (c size : Z) (out : list pv) (offs : Z)
  : pres ust unit :=
  match n with
  | O => POk (mkust out offs)
  | Datatypes.S n' =>
      match unpack_one fp addr b big c size offs with
      | POk v => unpack_loop fp addr b n' big c size (out ++ [v]) (offs + size)
      | PExn e => PExn e
      | PBad => PBad
      end
  end.

(* modules/kos_mod_base.c:3225-3382 unpack_format *)
Definition unpack_format (fp : fpops) (addr : Z) (b : buf) (st : ust) (big : bool) (c size count : Z) : pres ust ust :=
  let data_size := b_size b in
  if (size =? NOSIZE) && negb (count =? 1) then PExn st
  else
    let size := if size =? NOSIZE then u32 (data_size - u_idx st) else size in
    if data_size <? u32 (u_idx st + u32 (size * count)) then PExn st
    else if count =? 0 then POk st
    else if c =? 120 then POk (mkust (u_out st) (s32 (u_idx st + u32 (size * count))))
    else if ((c =? 117) || (c =? 105) || (c =? 102)) &&
            (((c =? 102) && negb (size =? 4) && negb (size =? 8)) ||
             negb ((size =? 1) || (size =? 2) || (size =? 4) || (size =? 8))) then PExn st
    else match unpack_loop fp addr b (Z.to_nat count) big c size (u_out st) (u_idx st) with
         | POk st' => POk st'
         | PExn _ => PExn st
         | PBad => PBad
         end.

(* modules/kos_mod_base.c:3556-3597 unpack; [pos] None is void *)
Definition unpack (fp : fpops) (addr : Z) (b : buf) (format : list Z) (pos : option Z) : pres ust ust :=
  process_pack_format (unpack_format fp addr b) (length format) format false
    (mkust [] (get_index_arg pos 0 (b_size b) VoidIsBegin)).
