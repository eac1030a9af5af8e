(* Buffers: properties C04, C31, C48, C49. *)
From Coq Require Import ZArith List Lia Bool ZifyBool.
Import ListNotations.
From Verif Require Import Base ListZ IndexModel ArraySpec ArrayProofs BufferModel BufferSpec BufferProofs.
Local Open Scope Z_scope.

(* C31: any sequence of operations on a buffer gives the results of the same operations on a
   list of bytes, and never accesses memory outside of the storage.  (bmodel_run applies the
   modelled functions; None would be such an access, or an endless loop.) *)
Theorem buffer_refines_bytes : forall os, bops_ok [] os ->
  exists bf, bmodel_run (new_buffer 0) os = Some (fst (bytes_run [] os), bf) /\
             bytes_of bf = snd (bytes_run [] os).
Proof.
  intros os H. destruct (brun_ok os (new_buffer 0) [] new_buffer_0 ltac:(vm_compute; discriminate) H) as (bf & E & Hr).
  exists bf. split; [ exact E | apply brep_bytes; exact Hr ].
Qed.

(* the same starting with any contents *)
Theorem buffer_refines_bytes_from : forall l os, llen l <= 2147483647 -> bops_ok l os ->
  exists bf, bmodel_run (buf_of l) os = Some (fst (bytes_run l os), bf) /\
             bytes_of bf = snd (bytes_run l os).
Proof.
  intros l os Hl H. change @llen with @len in Hl.
  destruct (brun_ok os (buf_of l) l (buf_of_rep l ltac:(lia)) Hl H) as (bf & E & Hr).
  exists bf. split; [ exact E | apply brep_bytes; exact Hr ].
Qed.

Example buffer_refines_ex :
  option_map (fun r => (fst r, bytes_of (snd r))) (bmodel_run (new_buffer 0)
    [BAppend [1; 2; 3]; BResize 6 9; BSet (-1) 7; BGet 5; BGet 6; BSet 0 256; BFill 4 (Some 1) (Some (-4));
     BSlice (Some (-3)) None; BCopySelf (Some 1) (Some 0) (Some 4); BCopy None [50; 51; 52] (Some 1) None;
     BReserve 1000; BReserve (-1); BResize 5 0; BGet (-5)])
  = Some ([BUnit; BUnit; BUnit; BVal 7; BErr; BErr; BUnit; BList [9; 9; 7]; BUnit; BUnit; BUnit; BErr; BUnit; BVal 51],
          [51; 52; 4; 3; 9]).
Proof. vm_compute. reflexivity. Qed.

(* C04: slicing a buffer gives exactly the bytes in [begin, end), in a new buffer. *)
Theorem buffer_slice_is_list_slice : forall b l bg en, brep b l ->
  exists s, buffer_slice b bg en = BOk s /\ brep s (list_slice l bg en).
Proof.
  intros b l bg en H.
  destruct (slice_method_ok b l (Some bg) (Some en) H) as (s & E & Hs). exists s. split; assumption.
Qed.

Example buffer_slice_ex :
  map (fun be => match buffer_slice (buf_of [10; 11; 12; 13]) (fst be) (snd be) with BOk s => bytes_of s | _ => [-9] end)
      [(0, INT64_MAX); (1, 3); (-2, 4); (3, 1); (INT64_MIN, -3); (2, 2)]
  = [[10; 11; 12; 13]; [11; 12]; [12; 13]; []; [10]; []].
Proof. vm_compute. reflexivity. Qed.

(* C31: the constructor concatenates the bytes of its arguments; strings and buffers must not be
   empty (see buffer_ctor_empty_refuted). *)
Definition ctor_arg_ok (a : ctor_arg) : Prop :=
  match a with
  | AArray l => True
  | AString l | ABuffer l => l <> []
  end.

Definition ctor_prefix_ok (args : list ctor_arg) : Prop :=
  Forall ctor_arg_ok args /\ Forall (fun a => forallb byte_ok (arg_bytes a) = true) args.

Lemma ctor_prefix : forall args rest,
  Forall ctor_arg_ok args -> Forall (fun a => forallb byte_ok (arg_bytes a) = true) args ->
  llen (flat_map arg_bytes args) <= 4294967232 ->
  exists b, buffer_ctor (args ++ rest) = ctor_loop b rest /\ brep b (flat_map arg_bytes args).
Proof.
  intros args rest H1 H2 H3. unfold buffer_ctor. change @llen with @len in H3.
  assert (G : forall b l, brep b l -> len (l ++ flat_map arg_bytes args) <= 4294967232 ->
    exists b', ctor_loop b (args ++ rest) = ctor_loop b' rest /\ brep b' (l ++ flat_map arg_bytes args)).
  { clear H3. induction args as [|a args IH]; intros b l Hr Hl.
    - exists b. split; [ reflexivity | ]. cbn [flat_map]. rewrite app_nil_r. exact Hr.
    - inversion H1 as [|? ? Ha H1']; inversion H2 as [|? ? Hb H2']; subst. cbn [flat_map] in *.
      lenz_in Hl. pose proof (len_nonneg _ (flat_map arg_bytes args)).
      destruct (ctor_step_ok b l a Hr Hb ltac:(lia)) as (b' & E & Hr').
      { intros _ E. destruct a as [m|m|m]; cbn in *; [ eexists; reflexivity | contradiction | contradiction ]. }
      destruct (IH H1' H2' b' _ Hr') as (b'' & E' & Hr''); [ lenz; lia | ].
      exists b''. split; [ cbn [ctor_loop app]; rewrite E; exact E' | rewrite app_assoc; exact Hr'' ]. }
  exact (G _ _ new_buffer_0 H3).
Qed.

Theorem buffer_ctor_concat : forall args, ctor_prefix_ok args ->
  llen (flat_map arg_bytes args) <= 4294967232 ->
  exists b, buffer_ctor args = BOk b /\ bytes_of b = flat_map arg_bytes args.
Proof.
  intros args [H1 H2] H3. destruct (ctor_prefix args [] H1 H2 H3) as (b & E & Hr).
  rewrite app_nil_r in E. exists b. split; [ exact E | apply brep_bytes; exact Hr ].
Qed.

(* C31: an array element which is not a byte is rejected, whatever precedes it. *)
Theorem buffer_ctor_rejects_bytes : forall pre l, ctor_prefix_ok pre ->
  forallb byte_ok l = false -> llen (flat_map arg_bytes pre) + llen l <= 4294967232 ->
  buffer_ctor (pre ++ [AArray l]) = BExn.
Proof.
  intros pre l [H1 H2] Hl Hs. change @llen with @len in Hs. pose proof (len_nonneg _ l).
  destruct (ctor_prefix pre [AArray l] H1 H2 ltac:(change @llen with @len; lia)) as (b & E & Hr).
  rewrite E. cbn [ctor_loop]. pose proof Hr as (Hsz & _).
  pose proof (len_nonneg _ (flat_map arg_bytes pre)).
  unfold ctor_step. change @blen with @len. rewrite Hsz.
  destruct (Z.eqb_spec (len l) 0) as [E0|E0].
  { destruct l; [ discriminate | rewrite len_cons in E0; pose proof (len_nonneg _ l); lia ]. }
  rewrite u32_small by lia.
  destruct (bresize_ok b _ (len (flat_map arg_bytes pre) + len l) Hr ltac:(lia)) as (t & E' & Hc & Hlt).
  rewrite E'. cbn [bbind b_data b_ext b_size]. rewrite has_storage_pos by lia.
  destruct (room_split _ t (len l) ltac:(lia) Hlt) as (y & z & -> & Hy).
  rewrite store_bytes_bad by assumption. reflexivity.
Qed.

Theorem buffer_ctor_num_fills : forall n v, size_ok n && byte_ok v = true ->
  exists b, buffer_ctor_num n v = BOk b /\ bytes_of b = repeat v (Z.to_nat n).
Proof.
  intros n v H. destruct (resize_method_ok _ _ n v new_buffer_0 H) as (b & E & Hr).
  unfold size_ok, byte_ok in H. unfold resize_method in E. unfold buffer_ctor_num.
  destruct ((n <? 0) || (2147483647 <? n)) eqn:E1; [ lia | ].
  destruct ((v <? 0) || (255 <? v)) eqn:E2; [ lia | ].
  cbn [new_buffer b_size] in E.
  destruct (Z.eqb_spec n 0) as [->|Hn].
  - exists (new_buffer 0). split; reflexivity.
  - destruct (Z.ltb_spec 0 n); [ | lia ]. rewrite Z.sub_0_r in E. exists b. split; [ exact E | ].
    rewrite (brep_bytes _ _ Hr). unfold bytes_resize. rewrite firstn_nil. cbn [app llen length].
    f_equal. unfold llen. cbn [length]. lia.
Qed.

Example buffer_ctor_ex :
  match buffer_ctor [AArray [1; 2]; AString [97]; AArray []; ABuffer [255; 0]] with BOk b => bytes_of b | _ => [] end
    = [1; 2; 97; 255; 0] /\
  buffer_ctor [AArray [1; 256]] = BExn /\
  match buffer_ctor_num 3 7 with BOk b => bytes_of b | _ => [] end = [7; 7; 7].
Proof. vm_compute. repeat split; reflexivity. Qed.

(* C48: converting or appending empty data to an empty buffer raises an exception instead of
   giving an empty buffer. *)
Theorem buffer_ctor_empty_refuted :
  buffer_ctor [AString []] = BExn /\ buffer_ctor [ABuffer []] = BExn /\
  buffer_ctor [AString []; AString [97]] = BExn /\
  append_bytes (new_buffer 0) [] = BExn /\
  (exists b, buffer_ctor [AArray []] = BOk b /\ bytes_of b = []).
Proof. repeat split; try reflexivity. exists (new_buffer 0). split; reflexivity. Qed.

(* C49: rounding the capacity up wraps for more than 2^32 - 64 bytes.  KOS_buffer_resize then
   reports success for a buffer whose size exceeds its storage: filling it writes outside of the
   storage and a later reserve never returns. *)
Theorem buffer_resize_wrap_refuted :
  exists b, buffer_resize (new_buffer 0) 4294967295 = BOk b /\
    b_size b = 4294967295 /\ b_data b = [] /\
    buffer_fill b 0 1 7 = BBad /\ buffer_reserve b 64 = BHang.
Proof. exists (Buf 4294967295 [] false). repeat split; reflexivity. Qed.

(* C49: concatenating two buffers of the largest size which buffer() and resize allow writes
   outside of the storage, for the same reason. *)
Lemma zeros : forall n, 0 <= n -> exists l, len l = n /\ forallb byte_ok l = true.
Proof.
  intros n Hn. exists (repeat 0 (Z.to_nat n)). split; [ lenz; lia | ].
  apply forallb_forall. intros x Hx. apply repeat_spec in Hx. subst. reflexivity.
Qed.
Theorem buffer_ctor_wrap_refuted :
  exists l, len l = 2147483647 /\ forallb byte_ok l = true /\ buffer_ctor [ABuffer l; ABuffer l] = BBad.
Proof.
  destruct (zeros 2147483647 ltac:(lia)) as (l & Hl & Hb).
  exists l. split; [ exact Hl | split; [ exact Hb | ] ].
  assert (Hne : l <> []) by (intros ->; rewrite len_nil in Hl; lia).
  destruct (ctor_step_ok _ _ (ABuffer l) new_buffer_0 Hb) as (b & E & Hr).
  { cbn [arg_bytes]. rewrite len_nil. lia. }
  { intros _ E. contradiction. }
  cbn [app arg_bytes] in Hr. unfold buffer_ctor. cbn [ctor_loop]. rewrite E. clear E. cbn [bbind].
  pose proof Hr as (Hs & He & Hc & t & Hd). pose proof (len_nonneg _ (b_data b)).
  assert (Hu : 0 <= u32 (len (b_data b) * 2) <= 4294967232).
  { destruct (grow_cap _ 0 Hc ltac:(lia)) as [G _].
    destruct (Z.ltb_spec (u32 (len (b_data b) * 2)) 0); [ | exact G ].
    unfold u32, uwrap in *. change (2 ^ 32) with 4294967296 in *. lia. }
  assert (Hst : 0 < len (b_data b)) by (rewrite Hd; lenz; pose proof (len_nonneg _ t); lia).
  unfold ctor_step. change @blen with @len. rewrite Hs, Hl.
  change (u32 (2147483647 + 2147483647)) with 4294967294.
  unfold buffer_resize. change @blen with @len. rewrite Hs, Hl. destruct Hc as [Hc _].
  destruct (Z.ltb_spec (len (b_data b)) 4294967294); [ | lia ].
  change (2147483647 <? 4294967294) with true. cbn [andb].
  destruct (Z.ltb_spec (u32 (len (b_data b) * 2)) 4294967294); [ | lia ].
  unfold buffer_reserve. rewrite He. change (align_cap 4294967294) with 0. change @blen with @len.
  destruct (Z.ltb_spec (len (b_data b)) 0); [ lia | ]. cbn [bbind b_data b_ext b_size].
  rewrite has_storage_pos by exact Hst. unfold wr_range. change @blen with @len. rewrite Hl.
  destruct (Z.leb_spec (2147483647 + 2147483647) (len (b_data b))); [ lia | ].
  rewrite andb_false_r. reflexivity.
Qed.

Print Assumptions buffer_refines_bytes.
Print Assumptions buffer_refines_bytes_from.
Print Assumptions buffer_slice_is_list_slice.
Print Assumptions buffer_ctor_concat.
Print Assumptions buffer_ctor_rejects_bytes.
Print Assumptions buffer_ctor_num_fills.
Print Assumptions buffer_ctor_empty_refuted.
Print Assumptions buffer_resize_wrap_refuted.
Print Assumptions buffer_ctor_wrap_refuted.
