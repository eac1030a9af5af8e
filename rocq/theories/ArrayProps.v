(* Arrays: properties C04, C05, C06. *)
From Coq Require Import ZArith List Lia Bool ZifyBool.
Import ListNotations.
From Verif Require Import Base ListZ IndexModel ArrayModel ArraySpec ArrayProofs.
Local Open Scope Z_scope.

(* C04: an index is normalised to the position it denotes. *)
Theorem fix_index_is_pos_of : forall n i, 0 <= n -> fix_index i n = pos_of n i /\ 0 <= fix_index i n <= n.
Proof. intros n i H. rewrite fix_index_pos by exact H. split; [ reflexivity | apply pos_of_range; exact H ]. Qed.

Example fix_index_ex : map (fun i => fix_index i 5) [0; 4; 5; 6; -1; -5; -6; INT64_MIN; INT64_MAX] = [0; 4; 5; 5; 4; 0; 0; 0; 5].
Proof. reflexivity. Qed.

(* C04: slicing an array gives exactly the elements in [begin, end).  [rep a l] says that the
   array object [a] holds the list [l], see ArrayProofs.v. *)
Theorem array_slice_is_list_slice : forall (V : Type) (a : arr V) l b e, rep a l ->
  (exists s, array_slice a b e = Ok s /\ rep s (list_slice l b e)) \/
  (array_slice a b e = Oom /\ 2 ^ 27 < len l).
Proof. intros. apply slice_ok. assumption. Qed.

Definition mk (l : list Z) : arr Z := Arr (len l) (map Some l ++ [None; None]).

Example array_slice_ex :
  map (fun be => match array_slice (mk [10; 11; 12; 13]) (fst be) (snd be) with Ok s => contents_of s | _ => [] end)
      [(0, INT64_MAX); (1, 3); (-2, 4); (3, 1); (-100, -3); (2, 2)]
  = [[10; 11; 12; 13]; [11; 12]; [12; 13]; []; [10]; []].
Proof. vm_compute. reflexivity. Qed.

(* C05: KOS_array_insert is list splice, for a source which is another array or the same array.
   The last hypothesis excludes inserting a non-empty part of the same array which lies behind
   the replaced part and is shorter than it. *)
Theorem array_insert_is_splice : forall (V : Type) (void : V) (a : arr V) l src ls b e sb se,
  rep a l -> src_rep src l ls ->
  (src = None ->
     let from := pos_of (len l) b in let to := Z.max from (pos_of (len l) e) in
     len (src_part l sb se) = 0 \/ pos_of (len l) sb < to \/ to - from <= len (src_part l sb se)) ->
  (exists a', array_insert void a b e src sb se = Ok a' /\ rep a' (list_insert l b e (src_part ls sb se))) \/
  (array_insert void a b e src sb se = Oom /\ 2 ^ 27 < len (list_insert l b e (src_part ls sb se))).
Proof. intros V void. exact (insert_ok void (fun _ _ => true)). Qed.

Example array_insert_ex :
  map (fun x => match array_insert 0 (mk [10; 11; 12; 13; 14]) (fst (fst x)) (snd (fst x)) None (fst (snd x)) (snd (snd x)) with
                | Ok s => contents_of s | _ => [] end)
      [((1, 2), (0, 5)); ((2, 4), (0, 1)); ((1, 4), (2, 5)); ((0, 1), (3, 5)); ((4, 5), (1, 4))]
  = [[10; 10; 11; 12; 13; 14; 12; 13; 14]; [10; 11; 10; 14]; [10; 12; 13; 14; 14]; [13; 14; 11; 12; 13; 14]; [10; 11; 12; 13; 11; 12; 13]].
Proof. vm_compute. reflexivity. Qed.

(* C46: in the excluded case the source index is advanced by a wrapped 32-bit difference,
   which reads far outside of the storage. *)
Theorem array_insert_self_refuted :
  exists a l, rep a l /\ array_insert 0 a 0 2 None 3 4 = Bad /\
    list_insert l 0 2 (src_part l 3 4) = [3; 2; 3].
Proof.
  exists (Arr 4 (map Some [0; 1; 2; 3])), [0; 1; 2; 3].
  split; [ | split; [ vm_compute; reflexivity | reflexivity ] ].
  split; [ reflexivity | ]. cbn [a_buf]. split; [ unfold CAPMAX; cbn; lia | ].
  intros i Hi. cbn in Hi.
  assert (H : i = 0 \/ i = 1 \/ i = 2 \/ i = 3) by lia.
  destruct H as [->|[->|[->| ->]]]; reflexivity.
Qed.

(* C06: any sequence of operations on a fresh array gives the results of the same operations on
   a list.  (model_step and model_run, in ArrayProofs.v, apply the modelled functions and turn
   their outcome into the output type of the specification; None would be an access outside of
   the storage.) *)
Theorem array_refines_list : forall (V : Type) (void : V) (veq : V -> V -> bool) n os,
  0 <= n < 2 ^ 28 -> Forall op_ok os ->
  exists s outs af lf, new_array void n = Ok s /\
    model_run void veq s os = Some (outs, af) /\
    trace_ok void veq (repeat void (Z.to_nat n)) os outs lf /\
    contents_of af = lf.
Proof.
  intros V void veq n os Hn Hok. destruct (new_array_ok void n Hn) as [s [Es Hr]].
  destruct (run_ok void veq os s _ Hr Hok) as [outs [af [lf [E [Ht Hf]]]]].
  exists s, outs, af, lf. split; [ exact Es | split; [ exact E | split; [ exact Ht | apply contents_rep; exact Hf ] ] ].
Qed.

Example array_refines_ex :
  match new_array 0 2 with
  | Ok s => option_map fst (model_run 0 Z.eqb s
      [OPush 7; OWrite (-2) 5; OResize 6; OFill 4 (-1) 9; OCas 1 5 8; OInsertSelf 1 3; OSlice 0 INT64_MAX; OPop; ORead 99; OReserve 100; ORead (-1)])
  | _ => None end
  = Some [RIdx 2; RUnit; RUnit; RUnit; RVal 5; RUnit; RList [0; 0; 8; 7; 0; 9; 0; 0; 9; 0]; RVal 0; RExn; RUnit; RVal 9].
Proof. vm_compute. reflexivity. Qed.

(* C47: the cas method truncates its position to 32 bits, so a position far outside of the
   array modifies an element instead of raising an exception. *)
Theorem array_cas_position_refuted :
  exists a l a', rep a l /\ array_cas_method Z.eqb a 4294967296 10 99 = Ok (a', 10) /\
    contents_of a' = [99; 11] /\ list_step 0 Z.eqb l (OCas 4294967296 10 99) = (l, RExn).
Proof.
  exists (Arr 2 (map Some [10; 11])), [10; 11], (Arr 2 (map Some [99; 11])).
  split; [ | split; [ vm_compute; reflexivity | split; reflexivity ] ].
  split; [ reflexivity | ]. cbn [a_buf]. split; [ unfold CAPMAX; cbn; lia | ].
  intros i Hi. cbn in Hi. assert (H : i = 0 \/ i = 1) by lia. destruct H as [->| ->]; reflexivity.
Qed.

Print Assumptions fix_index_is_pos_of.
Print Assumptions array_slice_is_list_slice.
Print Assumptions array_insert_is_splice.
Print Assumptions array_insert_self_refuted.
Print Assumptions array_refines_list.
Print Assumptions array_cas_position_refuted.
