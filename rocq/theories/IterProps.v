(* Sequence functions: properties C29, C30, C66 to C75. *)
From Coq Require Import ZArith List Lia Bool ZifyBool.
Import ListNotations.
From Verif Require Import Base ListZ IndexModel ArrayModel ArraySpec ArrayProofs BufferModel BufferSpec BufferProofs
  ParseIntModel IterModel IterSpec IterProofs IterProofs2 IterProofs3 IterProofs4 IterProofs5.
Local Open Scope Z_scope.

(* the meaning of the optional arguments of range *)
Definition range_of (start : Z) (args : list Z) (b e d : Z) : Prop :=
  (args = [] /\ b = 0 /\ e = start /\ d = 1) \/
  (exists stop, args = [stop] /\ b = start /\ e = stop /\ d = 1) \/
  (exists stop stp more, args = stop :: stp :: more /\ b = start /\ e = stop /\ d = stp).

(* C29: range yields the terms of its arithmetic progression, as long as they are on the near
   side of the end, and then returns, if the term after the last one is a 64-bit integer. *)
Theorem range_values : forall wraps start args b e d k n, range_of start args b e d ->
  is_int64 b -> is_int64 e -> range_size b e d k -> is_int64 (b + k * d) ->
  (Z.of_nat n <= k -> fst (range wraps n start args) = progression b d (Z.of_nat n) /\
     exists s, snd (range wraps n start args) = Running s) /\
  (k < Z.of_nat n -> range wraps n start args = (progression b d k, Finished REnd)).
Proof.
  intros w start args b e d k n Ha Hb He Hk Hin.
  assert (E : range_args start args = (b, e, d)).
  { destruct Ha as [(-> & -> & -> & ->) | [(stop & -> & -> & -> & ->) | (stop & stp & more & -> & -> & -> & ->)]]; reflexivity. }
  unfold range. rewrite E.
  destruct (loop_take w e d (range_next w e d) (range_next_start _ _ _) (range_next_after _ _ _) n b k (RStart b) Hk
    (range_size_in b e d k Hk Hb He) eq_refl) as [L1 [L2 _]].
  split; [ exact L1 | ]. intros Hn. apply L2; assumption.
Qed.
(* every range has a size *)
Theorem range_size_total : forall b e d, exists k, range_size b e d k.
Proof. exact range_size_exists. Qed.

Example range_ex : range false 10 4 [] = ([0; 1; 2; 3], Finished REnd) /\
  range false 10 10 [0; -4; 99] = ([10; 6; 2], Finished REnd) /\ range false 10 5 [5; 3] = ([], Finished REnd) /\
  range false 10 1 [2; 0] = ([], Finished REnd) /\
  range false 3 INT64_MIN [INT64_MAX; 2 ^ 62] = ([INT64_MIN; -(2 ^ 62) * 1; 0], Running (RAfter 0)).
Proof. vm_compute. auto. Qed.

(* C29: iota yields consecutive integers; after the largest one it ends if addition wraps. *)
Theorem iota_values : forall wraps init n, is_int64 init ->
  (Z.of_nat n <= INT64_MAX - init + 1 ->
     fst (iota wraps n init) = progression init 1 (Z.of_nat n) /\ exists s, snd (iota wraps n init) = Running s) /\
  (INT64_MAX - init + 1 < Z.of_nat n ->
     iota wraps n init = (progression init 1 (INT64_MAX - init + 1), if wraps then Finished REnd else Undefined)).
Proof. intros w init n H. apply (iota_take w n init (RStart init) H eq_refl). Qed.

Example iota_ex : fst (iota false 4 7) = [7; 8; 9; 10] /\
  iota true 5 (INT64_MAX - 1) = ([INT64_MAX - 1; INT64_MAX], Finished REnd).
Proof. vm_compute. auto. Qed.

(* C73: when the term after the last one is not a 64-bit integer, the addition overflows: undefined
   behaviour, or more values if it wraps.  iota always ends with an overflow. *)
Theorem range_limit_refuted : exists b e d k, is_int64 b /\ is_int64 e /\ is_int64 d /\ range_size b e d k /\ k = 1 /\
  range false 2 b [e; d] = ([b], Undefined) /\
  fst (range true 3 b [e; d]) = [b; INT64_MIN; INT64_MIN + 2].
Proof.
  exists (INT64_MAX - 1), INT64_MAX, 2, 1.
  split; [ vm_compute; split; discriminate | ]. split; [ vm_compute; split; discriminate | ].
  split; [ vm_compute; split; discriminate | ].
  split; [ split; [ lia | ]; intros i Hi; unfold in_range, INT64_MAX; lia | ].
  split; [ reflexivity | ]. split; vm_compute; reflexivity.
Qed.
Theorem range_overflow : forall b e d k n, is_int64 b -> is_int64 e -> range_size b e d k -> 0 < k ->
  ~ is_int64 (b + k * d) -> k < Z.of_nat n -> range false n b [e; d] = (progression b d k, Undefined).
Proof.
  intros b e d k n Hb He Hk Hk0 Hin Hn. unfold range. cbn [range_args].
  destruct (loop_take false e d (range_next false e d) (range_next_start _ _ _) (range_next_after _ _ _) n b k (RStart b) Hk
    (range_size_in b e d k Hk Hb He) eq_refl) as [_ [_ L3]].
  apply L3; auto.
Qed.
Example range_overflow_ex : range false 5 (INT64_MAX - 2) [INT64_MAX; 4] = ([INT64_MAX - 2], Undefined) /\
  ~ is_int64 (INT64_MAX - 2 + 1 * 4).
Proof. split; [ vm_compute; reflexivity | unfold is_int64, INT64_MAX; lia ]. Qed.
Theorem iota_end_refuted : exists init, is_int64 init /\ iota false 2 init = ([init], Undefined).
Proof. exists INT64_MAX. split; [ unfold is_int64, INT64_MIN, INT64_MAX; lia | vm_compute; reflexivity ]. Qed.

(* C66: the loop the compiler emits for a constant non-zero step sees the values range yields. *)
Definition step_of (args : list Z) : Z := match args with _ :: d :: _ => d | _ => 1 end.
Theorem for_range_is_range : forall wraps n start args, step_of args <> 0 ->
  for_range wraps n start args = range wraps n start args.
Proof.
  intros w n start args H. unfold for_range, range. destruct args as [|e [|d more]]; cbn [range_args step_of] in *;
    apply for_range_eq; exact H || discriminate.
Qed.
Example for_range_ex : for_range false 10 10 [0; -4] = ([10; 6; 2], Finished REnd) /\
  for_range false 10 3 [] = ([0; 1; 2], Finished REnd).
Proof. vm_compute. auto. Qed.

(* C74: with a step of 0 the loop never ends although range yields nothing *)
Theorem for_range_zero_step_refuted : exists start args, range false 1 start args = ([], Finished REnd) /\
  forall n, for_range false n start args = (repeat start n, Running (match n with O => RStart start | _ => RAfter start end)).
Proof.
  exists 0, [1; 0]. split; [ reflexivity | ]. intros n. destruct n as [|n]; [ reflexivity | ].
  unfold for_range. cbn [take for_range_next]. change (0 <? 0) with false. change (0 <? 1) with true. cbv iota.
  assert (G : forall k, take (for_range_next false 1 0) k (RAfter 0) = (repeat 0 k, Running (RAfter 0))).
  { induction k as [|k IH]; [ reflexivity | ]. cbn [take for_range_next]. change (iadd false 0 0) with (Some 0). cbv iota.
    change (0 <? 0) with false. change (0 <? 1) with true. cbv iota. rewrite IH. reflexivity. }
  rewrite G. reflexivity.
Qed.

(* C30: iproduct yields the Cartesian product of 0..a-1 for its arguments, first argument
   fastest; for one argument the numbers themselves.  The second component tells that the
   generator has returned. *)
Theorem iproduct_tuples : forall args n, (forall a, In a args -> is_int64 a) ->
  iproduct n args =
  match args with
  | [] => ([], true)
  | [a] => (firstn n (map IInt (upto a)), Nat.ltb (length (upto a)) n)
  | _ => (firstn n (map IArr (tuples (map upto args))), Nat.ltb (length (tuples (map upto args))) n)
  end.
Proof.
  intros args n H. pose proof (iproduct_ok args n H) as P. destruct args as [|a [|b rest]]; exact P.
Qed.
Example iproduct_ex :
  iproduct 100 [2; 3] = (map IArr [[0; 0]; [1; 0]; [0; 1]; [1; 1]; [0; 2]; [1; 2]], true) /\
  iproduct 4 [2; 1; 2] = (map IArr [[0; 0; 0]; [1; 0; 0]; [0; 0; 1]; [1; 0; 1]], false) /\
  iproduct 9 [2; 0; 2] = ([], true) /\ iproduct 9 [2] = ([IInt 0; IInt 1], true).
Proof. vm_compute. auto. Qed.

(* C30: product yields the Cartesian product of its arguments, generators among them are cached *)
Theorem product_tuples : forall A (void : A) args,
  product void args = match args with
                      | [] => inl []
                      | [x] => inl (snd x)
                      | _ => inr (tuples (map snd args))
                      end.
Proof. exact product_ok. Qed.
Example product_ex : product 0 [(true, [5; 6]); (false, [7]); (true, [8; 9])] = inr [[5; 7; 8]; [6; 7; 8]; [5; 7; 9]; [6; 7; 9]].
Proof. vm_compute. reflexivity. Qed.

(* each element of the Cartesian product appears once per way to choose its parts *)
Theorem tuples_complete : forall A (ls : list (list A)) t, In t (tuples ls) <-> Forall2 (fun x l => In x l) t ls.
Proof.
  induction ls as [|l ls IH]; intros t; cbn [tuples].
  - split; [ intros [<-|[]]; constructor | intros H; inversion H; left; reflexivity ].
  - rewrite in_flat_map. split.
    + intros [u [H1 H2]]. apply in_map_iff in H2. destruct H2 as [x [<- Hx]]. constructor; [ exact Hx | apply IH; exact H1 ].
    + intros H. inversion H as [|x ? u ? Hx Hu]; subst. exists u. split; [ apply IH; exact Hu | ].
      apply in_map_iff. exists x. auto.
Qed.
Theorem tuples_once : forall A (ls : list (list A)), Forall (@NoDup A) ls -> NoDup (tuples ls).
Proof.
  induction ls as [|l ls IH]; intros H; cbn [tuples]; [ constructor; [ intros [] | constructor ] | ].
  inversion H as [|? ? Hl Hls]; subst. specialize (IH Hls). clear H Hls.
  induction (tuples ls) as [|t ts IHt]; cbn [flat_map]; [ constructor | ].
  inversion IH as [|? ? Hn Hd]; subst. specialize (IHt Hd).
  assert (Hm : NoDup (map (fun x => x :: t) l)).
  { clear - Hl. induction Hl; cbn; constructor; auto. intros Hin. apply in_map_iff in Hin. destruct Hin as [y [E Hy]].
    injection E as ->. contradiction. }
  assert (Hdis : forall x, In x (map (fun x => x :: t) l) -> ~ In x (flat_map (fun t => map (fun x => x :: t) l) ts)).
  { intros x H1 H2. apply in_map_iff in H1. destruct H1 as [y [<- Hy]]. apply in_flat_map in H2. destruct H2 as [u [Hu H2]].
    apply in_map_iff in H2. destruct H2 as [z [E Hz]]. injection E as _ <-. contradiction. }
  revert Hm Hdis. generalize (map (fun x => x :: t) l). intros m Hm Hdis. induction Hm; cbn; [ exact IHt | ].
  constructor.
  - intros Hin. apply in_app_or in Hin. destruct Hin as [Hin|Hin]; [ contradiction | ]. apply (Hdis x); [ left; reflexivity | exact Hin ].
  - apply IHHm. intros y Hy. apply Hdis. right. exact Hy.
Qed.
Example tuples_ex : tuples [[1; 2]; [3; 4]] = [[1; 3]; [2; 3]; [1; 4]; [2; 4]].
Proof. reflexivity. Qed.

(* C67: a slice of a generator yields the elements begin, ..., end - 1 of what it would have
   yielded, for infinite generators too *)
Theorem slice_values : forall T A (next : T -> step T A) begin end_ n s, 0 <= begin ->
  fst (take (slice_next next begin end_) n (SStart s)) =
  firstn (match end_ with None => n | Some e => Nat.min n (Z.to_nat (e - begin)) end)
         (skipn (Z.to_nat begin) (fst (take next (Z.to_nat begin + n) s))).
Proof. intros. apply slice_ok'. assumption. Qed.
(* and leaves the generator where it was after element end - 1 *)
Theorem slice_consumption : forall T A (next : T -> step T A) begin end_ s l s', 0 <= begin < end_ ->
  take next (Z.to_nat end_) s = (l, Running s') ->
  take (slice_next next begin (Some end_)) (S (Z.to_nat (end_ - begin))) (SStart s) =
    (skipn (Z.to_nat begin) l, Finished (SEnd s')).
Proof. intros T A next b e s l s' H Ht. apply slice_consumes; assumption. Qed.
Example slice_ex :
  fst (take (slice_next (iota_next false) 3 (Some 6)) 10 (SStart (RStart 0))) = [3; 4; 5] /\
  fst (take (slice_next (range_next false 5 1) 3 None) 10 (SStart (RStart 0))) = [3; 4] /\
  fst (take (slice_next (range_next false 5 1) 7 (Some 9)) 10 (SStart (RStart 0))) = [].
Proof. vm_compute. auto. Qed.

(* C68: zip yields the rows of the table whose columns are its arguments, up to the end of the
   shortest one.  The iterators before the first shortest one have lost one more element. *)
Theorem zip_rows : forall A (d : A) m n (pre : list (list A)) c post,
  (forall x, In x pre -> (m < length x)%nat) -> length c = m -> (forall x, In x post -> (m <= length x)%nat) ->
  fst (take zip_next n (pre ++ c :: post)) = firstn n (rows d m (pre ++ c :: post)) /\
  snd (take zip_next n (pre ++ c :: post)) =
    (if (n <=? m)%nat then Running (map (skipn n) (pre ++ c :: post))
     else Finished (map (skipn (m + 1)) pre ++ map (skipn m) (c :: post))).
Proof. exact zip_take. Qed.
Example zip_ex : take zip_next 9 [[1; 2; 3]; [4; 5]; [7; 8; 9]] = ([[1; 4; 7]; [2; 5; 8]], Finished [[]; []; [9]]).
Proof. reflexivity. Qed.

(* C69: array.insert with a source which is not an array replaces the elements begin, ..., end - 1
   by those of the source *)
Theorem array_insert_iterator : forall V (void : V) (a : arr V) l src b e, rep a l -> len src <= 2 ^ 28 ->
  (exists a', insert_iter void a b e src = Ok a' /\ rep a' (list_insert l b e src)) \/
  (insert_iter void a b e src = Oom /\ 2 ^ 27 < len (list_insert l b e src)).
Proof. intros V void a l src b e Hr H. apply insert_iter_ok; [ exact Hr | unfold CAPMAX; lia ]. Qed.
Example array_insert_iterator_ex :
  map (fun x => match insert_iter 0 (Arr 4 (map Some [10; 11; 12; 13])) (fst (fst x)) (snd (fst x)) (snd x) with
                | Ok s => firstn (Z.to_nat (a_size s)) (a_buf s) | _ => [] end)
      [((1, 3), [7]); ((1, 3), [7; 8; 9]); ((-1, -1), [7]); ((9, 0), [7; 8]); ((0, 100), [])]
  = map (map Some) [[10; 7; 13]; [10; 7; 8; 9; 13]; [10; 11; 12; 7; 13]; [10; 11; 12; 13; 7; 8]; []].
Proof. vm_compute. reflexivity. Qed.

(* C69: get(index, default) reads the element or gives the default *)
Theorem array_get_value : forall V (a : arr V) l i d, rep a l ->
  get_value a i d = Ok (match elem_pos (len l) i with Some k => nth k l d | None => d end).
Proof. exact get_value_ok. Qed.
Example array_get_value_ex :
  map (fun i => get_value (Arr 3 (map Some [10; 11; 12])) i 99) [0; 2; 3; -1; -3; -4; INT64_MIN]
  = map Ok [10; 12; 99; 12; 10; 99; 99].
Proof. vm_compute. reflexivity. Qed.

(* C70: buffer.insert replaces the bytes begin, ..., end - 1 by those of another buffer, for a
   position inside of the buffer *)
Theorem buffer_insert_splice : forall b l s ls bg en, brep b l -> brep s ls ->
  bg <= len l -> len l <= 2147483647 -> len (list_insert l bg en ls) <= 2147483647 ->
  exists b', buffer_insert b bg en (Some s) = BOk b' /\ brep b' (list_insert l bg en ls).
Proof. intros b l s ls bg en H1 H2 H3 H4 H5. eapply buffer_insert_ok; eassumption. Qed.
Definition mkbuf (l : list Z) : buf := buf_of l.
Example buffer_insert_ex :
  map (fun x => match buffer_insert (mkbuf [1; 2; 3; 4]) (fst (fst x)) (snd (fst x)) (Some (mkbuf (snd x))) with
                | BOk b => bytes_of b | _ => [] end)
      [((1, 3), [7]); ((1, 3), [7; 8; 9]); ((-1, -1), [7]); ((4, 0), [7; 8]); ((0, 100), []); ((0, 2), [8; 9])]
  = [[1; 7; 4]; [1; 7; 8; 9; 4]; [1; 2; 3; 7; 4]; [1; 2; 3; 4; 7; 8]; []; [8; 9; 3; 4]].
Proof. vm_compute. reflexivity. Qed.

(* C75: a position behind the end appends zeroes instead of the bytes (array.insert appends the
   elements), and inserting a buffer into itself does not insert its bytes *)
Theorem buffer_insert_past_end_refuted : exists b l s ls bg, brep b l /\ brep s ls /\ len l < bg /\
  list_insert l bg bg ls = [1; 2; 9] /\
  match buffer_insert b bg bg (Some s) with BOk b' => bytes_of b' = [1; 2; 0] | _ => False end.
Proof.
  exists (buf_of [1; 2]), [1; 2], (buf_of [9]), [9], 5.
  split; [ apply buf_of_rep; vm_compute; discriminate | ]. split; [ apply buf_of_rep; vm_compute; discriminate | ].
  split; [ reflexivity | ]. split; reflexivity.
Qed.
Theorem buffer_insert_self_refuted : exists b l bg, brep b l /\ 0 <= bg <= len l /\
  list_insert l bg bg l = [1; 1; 2; 3; 2; 3] /\
  match buffer_insert b bg bg None with BOk b' => bytes_of b' = [1; 1; 2; 3; 0; 0] | _ => False end.
Proof.
  exists (buf_of [1; 2; 3]), [1; 2; 3], 1.
  split; [ apply buf_of_rep; vm_compute; discriminate | ]. split; [ vm_compute; split; discriminate | ]. split; reflexivity.
Qed.

(* C71: hex gives the hexadecimal digits of the two's complement pattern, at least min_digits of
   them and otherwise as few as possible; the parser reads the number back *)
Theorem hex_digits_of : forall value md, is_int64 value -> 0 <= md <= 16 ->
  exists k, hex value md = Some ([48; 120] ++ hex_text k (u64 value)) /\
    (1 <= k <= 16)%nat /\ md <= Z.of_nat k /\ u64 value < 16 ^ Z.of_nat k /\
    (k = 1%nat \/ Z.of_nat k = md \/ 16 ^ Z.of_nat (k - 1) <= u64 value).
Proof. exact hex_ok. Qed.
Theorem hex_parse : forall value md, is_int64 value -> 0 <= md <= 16 ->
  exists t, hex value md = Some t /\ parse_int t = PVal value.
Proof. exact hex_parses. Qed.
Example hex_ex : hex 123 0 = Some [48; 120; 55; 98] /\ hex 123 4 = Some [48; 120; 48; 48; 55; 98] /\
  hex (-1) 3 = Some ([48; 120] ++ repeat 102 16) /\ hex 0 0 = Some [48; 120; 48] /\ hex INT64_MIN 16 = Some ([48; 120; 56] ++ repeat 48 15).
Proof. vm_compute. auto 10. Qed.

(* C72: join *)
Theorem join_separates : forall A (sep : list A) l, join sep l = join_text sep l.
Proof. exact join_ok. Qed.
Example join_ex : join [0] [[1; 2]; []; [3]] = [1; 2; 0; 0; 3] /\ join [0] [[1; 2]] = [1; 2] /\ join [0] [] = [].
Proof. auto. Qed.

(* C72: ljust, rjust and zfill give a string of the requested size which keeps the characters of the
   original one; zfill keeps a sign in front *)
Theorem justify_sizes : forall s size fill, slen (ljust s size fill) = Z.max (slen s) size /\
  slen (rjust s size fill) = Z.max (slen s) size /\ slen (zfill s size fill) = Z.max (slen s) size.
Proof.
  intros s size fill. unfold ljust, rjust, zfill, slen. destruct (Z.leb_spec size (Z.of_nat (length s))) as [H|H]; [ lia | ].
  rewrite !app_length, repeat_length. repeat split; try lia.
  destruct s as [|c r]; [ rewrite app_length, repeat_length; cbn [length] in *; lia | ].
  destruct (_ || _); cbn [length] in *; rewrite app_length, repeat_length; cbn [length]; lia.
Qed.
Theorem justify_contents : forall s size fill, exists n,
  ljust s size fill = s ++ repeat fill n /\ rjust s size fill = repeat fill n ++ s /\
  (forall c r, s = c :: r -> c = 43 \/ c = 45 -> zfill s size fill = c :: repeat fill n ++ r) /\
  ((forall r, s <> 43 :: r /\ s <> 45 :: r) -> zfill s size fill = repeat fill n ++ s).
Proof.
  intros s size fill. unfold ljust, rjust, zfill. destruct (Z.leb_spec size (slen s)) as [H|H].
  - exists O. cbn [repeat]. rewrite app_nil_r. split; [ reflexivity | ]. split; [ reflexivity | ].
    split; [ intros c r -> _; reflexivity | reflexivity ].
  - exists (Z.to_nat (size - slen s)). split; [ reflexivity | ]. split; [ reflexivity | ]. split.
    + intros c r -> Hc. destruct (_ || _) eqn:E; [ reflexivity | lia ].
    + intros Hs. destruct s as [|c r]; [ reflexivity | ]. destruct (_ || _) eqn:E; [ | reflexivity ].
      exfalso. destruct (Hs r) as [H1 H2]. assert (C : c = 43 \/ c = 45) by lia. destruct C as [->| ->]; congruence.
Qed.
Example justify_ex : ljust [97] 3 32 = [97; 32; 32] /\ rjust [97] 3 32 = [32; 32; 97] /\ zfill [45; 49] 4 48 = [45; 48; 48; 49] /\ zfill [] 2 48 = [48; 48].
Proof. vm_compute. auto. Qed.

Print Assumptions range_values.
Print Assumptions range_size_total.
Print Assumptions iota_values.
Print Assumptions range_limit_refuted.
Print Assumptions range_overflow.
Print Assumptions iota_end_refuted.
Print Assumptions for_range_is_range.
Print Assumptions for_range_zero_step_refuted.
Print Assumptions iproduct_tuples.
Print Assumptions product_tuples.
Print Assumptions tuples_complete.
Print Assumptions tuples_once.
Print Assumptions slice_values.
Print Assumptions slice_consumption.
Print Assumptions zip_rows.
Print Assumptions array_insert_iterator.
Print Assumptions array_get_value.
Print Assumptions buffer_insert_splice.
Print Assumptions buffer_insert_past_end_refuted.
Print Assumptions buffer_insert_self_refuted.
Print Assumptions hex_digits_of.
Print Assumptions hex_parse.
Print Assumptions join_separates.
Print Assumptions justify_sizes.
Print Assumptions justify_contents.
