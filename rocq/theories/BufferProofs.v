(* Buffers: lemmas. *)
From Coq Require Import ZArith List Lia Bool ZifyBool.
Import ListNotations.
From Verif Require Import Base ListZ IndexModel ArraySpec ArrayProofs BufferModel BufferSpec.
Local Open Scope Z_scope.
Ltac Zify.zify_post_hook ::= Z.div_mod_to_equations.

Notation CAP := 4294967232.   (* 2^32 - 64 *)

Definition cap_ok (d : list Z) : Prop := len d <= CAP /\ len d mod 64 = 0.

(* the buffer holds exactly the bytes [l], in its own storage *)
Definition brep (b : buf) (l : list Z) : Prop :=
  b_size b = len l /\ b_ext b = false /\ cap_ok (b_data b) /\ exists t, b_data b = l ++ t.

Definition bytes_of (b : buf) : list Z := firstn (Z.to_nat (b_size b)) (b_data b).

(* a buffer object holding [l], with storage as allocated by KOS_new_buffer *)
Definition buf_of (l : list Z) : buf :=
  Buf (len l) (l ++ alloc (align_cap (len l) - len l)) false.

Definition bmodel_fin (b : buf) (r : bres buf) : option (buf * bout) :=
  match r with
  | BOk b' => Some (b', BUnit) | BExn => Some (b, BErr) | BHang => None | BBad => None
  end.

(* one operation on the model; None is undefined behaviour or an endless loop *)
Definition bmodel_step (b : buf) (o : bop) : option (buf * bout) :=
  match o with
  | BResize n v => bmodel_fin b (resize_method b n v)
  | BFill v bg en => bmodel_fin b (fill_method b v bg en)
  | BReserve n => bmodel_fin b (reserve_method b n)
  | BGet i => match get_method b i with
              | BOk v => Some (b, BVal v) | BExn => Some (b, BErr) | BHang => None | BBad => None end
  | BSet i v => bmodel_fin b (set_method b i v)
  | BAppend bytes => bmodel_fin b (append_bytes b bytes)
  | BSlice bg en => match slice_method b bg en with
              | BOk s => Some (b, BList (bytes_of s)) | BExn => Some (b, BErr) | BHang => None | BBad => None end
  | BCopy pos src sb se => bmodel_fin b (copy_method b pos (Some (buf_of src)) sb se)
  | BCopySelf pos sb se => bmodel_fin b (copy_method b pos None sb se)
  end.

Fixpoint bmodel_run (b : buf) (os : list bop) : option (list bout * buf) :=
  match os with
  | [] => Some ([], b)
  | o :: r => match bmodel_step b o with
              | None => None
              | Some (b', x) => match bmodel_run b' r with None => None | Some (xs, bf) => Some (x :: xs, bf) end
              end
  end.

(* ---- ranges ---- *)

Lemma to_nat_len : forall A (l : list A), Z.to_nat (len l) = length l.
Proof. intros. unfold len. lia. Qed.
Lemma firstn_app_len : forall A (x y : list A) n, n = len x -> firstn (Z.to_nat n) (x ++ y) = x.
Proof.
  intros A x y n ->. rewrite to_nat_len, firstn_app, firstn_all, Nat.sub_diag, firstn_O, app_nil_r. reflexivity.
Qed.
Lemma skipn_app_len : forall A (x y : list A) n, n = len x -> skipn (Z.to_nat n) (x ++ y) = y.
Proof. intros A x y n ->. rewrite to_nat_len, skipn_app, skipn_all, Nat.sub_diag. reflexivity. Qed.

Lemma wr_range_ok : forall x y z off bytes, off = len x -> len bytes = len y ->
  wr_range (x ++ y ++ z) off bytes = BOk (x ++ bytes ++ z).
Proof.
  intros x y z off bytes H1 H2. unfold wr_range. change @blen with @len. lenz.
  pose proof (len_nonneg _ x). pose proof (len_nonneg _ z). brk. clear Ec.
  rewrite firstn_app_len by exact H1. rewrite (app_assoc x y z), skipn_app_len by (lenz; lia).
  reflexivity.
Qed.
Lemma rd_range_ok : forall x y z off n, off = len x -> n = len y ->
  rd_range (x ++ y ++ z) off n = BOk y.
Proof.
  intros x y z off n H1 H2. unfold rd_range. change @blen with @len. lenz.
  pose proof (len_nonneg _ x). pose proof (len_nonneg _ z). brk. clear Ec.
  rewrite skipn_app_len by exact H1. rewrite firstn_app_len by exact H2. reflexivity.
Qed.
Lemma set_range_ok : forall x y z off n v, off = len x -> n = len y ->
  set_range (x ++ y ++ z) off n v = BOk (x ++ repeat v (Z.to_nat n) ++ z).
Proof.
  intros x y z off n v H1 H2. unfold set_range. change @blen with @len. lenz.
  pose proof (len_nonneg _ x). pose proof (len_nonneg _ z). brk. clear Ec.
  rewrite firstn_app_len by exact H1. rewrite (app_assoc x y z), skipn_app_len by (lenz; lia).
  reflexivity.
Qed.

Lemma skipn_skipn' : forall A n m (l : list A), skipn n (skipn m l) = skipn (m + n) l.
Proof.
  intros A n m. induction m as [|m IH]; intros l; [ reflexivity | ].
  destruct l; [ rewrite !skipn_nil; reflexivity | cbn [skipn Nat.add]; apply IH ].
Qed.
Lemma split3 : forall A (l : list A) f t, 0 <= f <= t ->
  l = firstn (Z.to_nat f) l ++ sub l f t ++ skipn (Z.to_nat t) l.
Proof.
  intros A l f t H. unfold sub.
  rewrite <- (firstn_skipn (Z.to_nat f) l) at 1. f_equal.
  rewrite <- (firstn_skipn (Z.to_nat (t - f)) (skipn (Z.to_nat f) l)) at 1. f_equal.
  rewrite skipn_skipn'. f_equal. lia.
Qed.

(* ---- capacity ---- *)

Lemma align_cap_ok : forall n, 0 <= n <= CAP ->
  n <= align_cap n <= CAP /\ align_cap n mod 64 = 0.
Proof.
  intros n H. unfold align_cap. rewrite u32_small by lia. lia.
Qed.
Lemma alloc_len : forall n, 0 <= n -> len (alloc n) = n.
Proof. intros n H. unfold alloc. lenz. lia. Qed.

Lemma buf_of_rep : forall l, len l <= CAP -> brep (buf_of l) l.
Proof.
  intros l H. pose proof (len_nonneg _ l). pose proof (align_cap_ok (len l) ltac:(lia)).
  unfold brep, buf_of, cap_ok; cbn [b_size b_data b_ext]. lenz. rewrite alloc_len by lia.
  repeat split; try lia. eexists; reflexivity.
Qed.

Lemma brep_bytes : forall b l, brep b l -> bytes_of b = l.
Proof.
  intros b l (H1 & _ & _ & t & H2). unfold bytes_of. rewrite H2. apply firstn_app_len. exact H1.
Qed.

Lemma new_buffer_0 : brep (new_buffer 0) [].
Proof. apply (buf_of_rep []). vm_compute. discriminate. Qed.

Lemma breserve_ok : forall b l n, brep b l -> 0 <= n <= CAP ->
  exists t, buffer_reserve b n = BOk (Buf (len l) (l ++ t) false) /\ cap_ok (l ++ t) /\ n <= len (l ++ t).
Proof.
  intros b l n (Hs & He & [Hc Hm] & t & Hd) Hn. pose proof (len_nonneg _ l).
  pose proof (align_cap_ok n Hn) as [Ha Hb].
  unfold buffer_reserve. rewrite He. change @blen with @len.
  destruct (Z.ltb_spec (len (b_data b)) (align_cap n)).
  - assert (len l <= len (b_data b)) by (rewrite Hd; lenz; pose proof (len_nonneg _ t); lia).
    destruct (Z.ltb_spec (len (b_data b)) (b_size b)); [ lia | ].
    exists (alloc (align_cap n - len l)). rewrite Hd, Hs, firstn_app_len by reflexivity.
    split; [ reflexivity | ]. unfold cap_ok. lenz. rewrite alloc_len by lia.
    replace (len l + (align_cap n - len l)) with (align_cap n) by lia. lia.
  - exists t. rewrite <- Hd. split; [ destruct b as [bs bd be]; cbn [b_size b_data b_ext] in *; subst; reflexivity | ].
    split; [ split; assumption | lia ].
Qed.

Lemma grow_cap : forall d n, cap_ok d -> 0 <= n <= CAP ->
  0 <= (if u32 (len d * 2) <? n then n else u32 (len d * 2)) <= CAP /\
  n <= (if u32 (len d * 2) <? n then n else u32 (len d * 2)).
Proof.
  intros d n [H1 H2] Hn. pose proof (len_nonneg _ d).
  assert (E : 0 <= u32 (len d * 2) <= CAP).
  { unfold u32, uwrap. change (2 ^ 32) with 4294967296. lia. }
  destruct (Z.ltb_spec (u32 (len d * 2)) n); lia.
Qed.

Lemma bresize_ok : forall b l n, brep b l -> 0 <= n <= CAP ->
  exists t, buffer_resize b n = BOk (Buf n (l ++ t) false) /\ cap_ok (l ++ t) /\ n <= len (l ++ t).
Proof.
  intros b l n Hr Hn. pose proof Hr as (Hs & He & Hc & t & Hd). pose proof (len_nonneg _ l).
  pose proof (grow_cap _ n Hc Hn) as [Hg Hg'].
  unfold buffer_resize. change @blen with @len.
  destruct ((b_size b <? n) && (len (b_data b) <? n)) eqn:E.
  - destruct (breserve_ok b l _ Hr Hg) as (t' & E' & Hc' & Hl').
    rewrite E'. cbn [bbind b_data b_ext]. exists t'. split; [ reflexivity | split; [ exact Hc' | exact (Z.le_trans _ _ _ Hg' Hl') ] ].
  - cbn [bbind]. rewrite He, Hd. exists t. rewrite <- Hd. split; [ reflexivity | split; [ exact Hc | ] ].
    assert (len l <= len (b_data b)) by (rewrite Hd; lenz; pose proof (len_nonneg _ t); lia).
    lia.
Qed.

Lemma has_storage_pos : forall n d e, 0 < len d -> has_storage (Buf n d e) = true.
Proof. intros n d e H. unfold has_storage. cbn [b_data b_ext]. change @blen with @len. lia. Qed.

(* a room of [len y] bytes behind the contents *)
Lemma room_split : forall (l t : list Z) k, 0 <= k -> len l + k <= len (l ++ t) ->
  exists y z, t = y ++ z /\ len y = k.
Proof.
  intros l t k Hk H. lenz_in H. exists (firstn (Z.to_nat k) t), (skipn (Z.to_nat k) t).
  rewrite firstn_skipn. split; [ reflexivity | ]. lenz. lia.
Qed.

Lemma brep_intro : forall l m t, cap_ok (l ++ t) -> len m = len l -> brep (Buf (len l) (m ++ t) false) m.
Proof.
  intros l m t [H1 H2] Hm. unfold brep, cap_ok. cbn [b_size b_data b_ext]. lenz_in H1. lenz_in H2.
  lenz. rewrite Hm. repeat split; try lia. eexists; reflexivity.
Qed.
Lemma brep_intro' : forall n m t, cap_ok (m ++ t) -> n = len m -> brep (Buf n (m ++ t) false) m.
Proof. intros n m t H ->. apply brep_intro; [ exact H | reflexivity ]. Qed.

(* ---- methods ---- *)

Lemma resize_method_ok : forall b l n v, brep b l -> size_ok n && byte_ok v = true ->
  exists b', resize_method b n v = BOk b' /\ brep b' (bytes_resize l n v).
Proof.
  intros b l n v Hr Hok. unfold size_ok, byte_ok in Hok. pose proof (len_nonneg _ l).
  pose proof Hr as (Hs & _). unfold resize_method. brk. brk.
  destruct (bresize_ok b l n Hr ltac:(lia)) as (t & E & Hc & Hl). rewrite E. cbn [bbind]. clear Ec Ec0 E.
  rewrite Hs. unfold bytes_resize. change @llen with @len. destruct (Z.ltb_spec (len l) n).
  - rewrite has_storage_pos by lia. cbn [b_data b_ext].
    destruct (room_split l t (n - len l)) as (y & z & -> & Hy); [ lia | lia | ].
    rewrite set_range_ok by (reflexivity || lia). cbn [bbind]. eexists; split; [ reflexivity | ].
    rewrite firstn_all2 by (unfold len in *; lia). rewrite app_assoc.
    apply brep_intro'; [ | lenz; lia ]. unfold cap_ok in *. lenz. lenz_in Hc.
    replace (len l + Z.of_nat (Z.to_nat (n - len l)) + len z) with (len l + (len y + len z)) by lia. lia.
  - eexists; split; [ reflexivity | ].
    replace (Z.to_nat (n - len l)) with 0%nat by lia. cbn [repeat]. rewrite app_nil_r.
    replace (l ++ t) with (firstn (Z.to_nat n) l ++ (skipn (Z.to_nat n) l ++ t)) in *
      by (rewrite app_assoc, firstn_skipn; reflexivity).
    apply brep_intro'; [ exact Hc | lenz; lia ].
Qed.

Lemma s32_pos : forall n, 0 <= n <= 2147483647 -> s32 n = n.
Proof. intros. apply s32_small. lia. Qed.

Lemma splice_app : forall (l t ins : list Z) f u, 0 <= f <= u -> u <= len l ->
  splice (l ++ t) f u ins = splice l f u ins ++ t.
Proof.
  intros l t ins f u H1 H2. unfold splice, len in *.
  rewrite firstn_app, skipn_app.
  replace (Z.to_nat f - length l)%nat with 0%nat by lia.
  replace (Z.to_nat u - length l)%nat with 0%nat by lia.
  cbn [firstn skipn]. rewrite app_nil_r, <- !app_assoc. reflexivity.
Qed.

Lemma splice_same : forall (l : list Z) f, 0 <= f -> splice l f f [] = l.
Proof. intros l f H. unfold splice. cbn [app]. apply firstn_skipn. Qed.

Lemma fill_method_ok : forall b l v bg en, brep b l -> len l <= 2147483647 -> byte_ok v = true ->
  exists b', fill_method b v bg en = BOk b' /\ brep b' (bytes_fill l v bg en).
Proof.
  intros b l v bg en Hr Hl Hok. unfold byte_ok in Hok. pose proof (len_nonneg _ l).
  pose proof Hr as (Hs & He & Hc & t & Hd). unfold fill_method. rewrite Hs, s32_pos by lia.
  brk. clear Ec. unfold bytes_fill. change @llen with @len.
  assert (E1 : get_index_arg bg 0 (len l) VoidIsBegin = from_pos (len l) bg).
  { destruct bg as [i|]; [ | reflexivity ]. unfold get_index_arg, from_pos, pos_of. ztest; lia. }
  rewrite E1.
  assert (Hf : 0 <= from_pos (len l) bg <= len l).
  { destruct bg as [i|]; cbn [from_pos]; [ apply pos_of_range; lia | lia ]. }
  set (f := from_pos (len l) bg) in *. clearbody f.
  assert (E2 : get_index_arg en f (len l) VoidIsEnd = Z.max f (to_pos (len l) en)).
  { destruct en as [i|]; unfold get_index_arg, to_pos, pos_of; ztest; lia. }
  rewrite E2.
  assert (Hu : f <= Z.max f (to_pos (len l) en) <= len l).
  { destruct en as [i|]; cbn [to_pos]; [ pose proof (pos_of_range (len l) i); lia | lia ]. }
  set (u := Z.max f (to_pos (len l) en)) in *. clearbody u. clear E1 E2.
  unfold buffer_fill. rewrite Hs, !fix_index_pos by lia.
  replace (pos_of (len l) f) with f by (unfold pos_of; ztest; lia).
  replace (pos_of (len l) u) with u by (unfold pos_of; ztest; lia).
  destruct (Z.ltb_spec f u).
  - pose proof (len_nonneg _ t). rewrite Hd, (split3 _ (l ++ t) f u) by lia.
    rewrite set_range_ok; [ | lenz; lia | rewrite sub_len by (lenz; pose proof (len_nonneg _ t); lia); lia ].
    cbn [bbind]. eexists; split; [ reflexivity | ].
    change (brep (Buf (len l) (splice (l ++ t) f u (repeat v (Z.to_nat (u - f)))) (b_ext b))
                 (splice l f u (repeat v (Z.to_nat (u - f))))).
    rewrite splice_app, He by lia. rewrite Hd in Hc.
    apply brep_intro; [ exact Hc | ]. rewrite len_splice by lia. lenz. lia.
  - exists b. split; [ reflexivity | ]. replace u with f by lia. rewrite Z.sub_diag.
    cbn [Z.to_nat repeat]. rewrite splice_same by lia. exact Hr.
Qed.

Lemma reserve_method_ok : forall b l n, brep b l -> size_ok n = true ->
  exists b', reserve_method b n = BOk b' /\ brep b' l.
Proof.
  intros b l n Hr Hok. unfold size_ok in Hok. unfold reserve_method. brk.
  destruct (breserve_ok b l n Hr ltac:(lia)) as (t & E & Hc & _). rewrite E.
  eexists; split; [ reflexivity | ]. apply brep_intro'; [ exact Hc | reflexivity ].
Qed.

Lemma buf_index_ok : forall b l i, brep b l -> len l <= 2147483647 ->
  match elem_pos (len l) i with
  | Some k => buf_index b i = BOk (Z.of_nat k) /\ (k < length l)%nat
  | None => buf_index b i = BExn
  end.
Proof.
  intros b l i (Hs & _) Hl. pose proof (len_nonneg _ l). unfold elem_pos, buf_index.
  rewrite Hs, s32_pos by lia.
  destruct ((0 <=? i) && (i <? len l)) eqn:E1.
  - brk. destruct (Z.ltb_spec i 0); [ lia | ]. rewrite u32_small by lia. brk.
    split; [ f_equal; lia | unfold len in *; lia ].
  - destruct ((- len l <=? i) && (i <? 0)) eqn:E2.
    + brk. destruct (Z.ltb_spec i 0); [ | lia ]. rewrite u32_small by lia. brk.
      split; [ f_equal; lia | unfold len in *; lia ].
    + destruct ((2147483647 <? i) || (i <? -2147483648)) eqn:E3; [ reflexivity | ].
      destruct (Z.ltb_spec i 0).
      * assert (Hu : len l <= u32 (i + len l)).
        { unfold u32, uwrap. change (2 ^ 32) with 4294967296. lia. }
        brk. reflexivity.
      * rewrite u32_small by lia. brk. reflexivity.
Qed.

Lemma nth_split3 : forall (l : list Z) k v, nth_error l k = Some v ->
  exists x z, l = x ++ [v] ++ z /\ length x = k.
Proof.
  intros l k v H. apply nth_error_split in H. destruct H as (x & z & H1 & H2). exists x, z. split; assumption.
Qed.
Lemma replace_mid : forall (x z : list Z) v w, replace (x ++ [v] ++ z) (length x) w = x ++ [w] ++ z.
Proof. intros x z v w. induction x; cbn; [ reflexivity | f_equal; exact IHx ]. Qed.

Lemma get_method_ok : forall b l i, brep b l -> len l <= 2147483647 ->
  match elem_pos (len l) i with
  | Some k => exists v, nth_error l k = Some v /\ get_method b i = BOk v
  | None => get_method b i = BExn
  end.
Proof.
  intros b l i Hr Hl. pose proof (buf_index_ok b l i Hr Hl) as H. unfold get_method.
  destruct (elem_pos (len l) i) as [k|]; [ | rewrite H; reflexivity ].
  destruct H as [H Hk]. rewrite H. cbn [bbind]. pose proof Hr as (_ & _ & _ & t & Hd). rewrite Hd.
  destruct (nth_error l k) as [v|] eqn:E; [ | apply nth_error_None in E; lia ].
  exists v. split; [ reflexivity | ]. destruct (nth_split3 l k v E) as (x & z & -> & Hx).
  rewrite <- !app_assoc. rewrite rd_range_ok by (unfold len; cbn [length]; lia). reflexivity.
Qed.

Lemma set_method_ok : forall b l i v, brep b l -> len l <= 2147483647 -> byte_ok v = true ->
  match elem_pos (len l) i with
  | Some k => exists b', set_method b i v = BOk b' /\ brep b' (replace l k v)
  | None => set_method b i v = BExn
  end.
Proof.
  intros b l i v Hr Hl Hok. unfold byte_ok in Hok. pose proof (buf_index_ok b l i Hr Hl) as H. unfold set_method.
  brk. clear Ec.
  destruct (elem_pos (len l) i) as [k|]; [ | rewrite H; reflexivity ].
  destruct H as [H Hk]. rewrite H. cbn [bbind]. pose proof Hr as (Hs & He & Hc & t & Hd).
  destruct (nth_error l k) as [w|] eqn:E; [ | apply nth_error_None in E; lia ].
  destruct (nth_split3 l k w E) as (x & z & -> & Hx). subst k.
  rewrite Hd in *. rewrite <- !app_assoc. rewrite wr_range_ok by (unfold len; cbn [length]; lia).
  cbn [bbind]. eexists; split; [ reflexivity | ]. rewrite replace_mid, Hs, He.
  replace (x ++ [v] ++ z ++ t) with ((x ++ [v] ++ z) ++ t) by (rewrite <- !app_assoc; reflexivity).
  apply brep_intro; [ exact Hc | ]. lenz. lia.
Qed.

Lemma append_ok : forall b l bytes, brep b l -> bytes <> [] -> len l + len bytes <= CAP ->
  exists b', append_bytes b bytes = BOk b' /\ brep b' (l ++ bytes).
Proof.
  intros b l bytes Hr Hne Hl. pose proof (len_nonneg _ l). pose proof Hr as (Hs & He & Hc & t & Hd).
  assert (0 < len bytes) by (destruct bytes; [ congruence | rewrite len_cons; pose proof (len_nonneg _ bytes); lia ]).
  unfold append_bytes, buffer_make_room. change @blen with @len. rewrite Hs, u32_small by lia.
  brk. clear Ec.
  pose proof (grow_cap _ (len l + len bytes) Hc ltac:(lia)) as [Hg Hg'].
  assert (X : exists t', (if len (b_data b) <? Z.max (len l + len bytes) 1024
     then buffer_reserve b (if u32 (len (b_data b) * 2) <? len l + len bytes then len l + len bytes
                            else u32 (len (b_data b) * 2))
     else BOk b) = BOk (Buf (len l) (l ++ t') false) /\ cap_ok (l ++ t') /\ len l + len bytes <= len (l ++ t')).
  { destruct (Z.ltb_spec (len (b_data b)) (Z.max (len l + len bytes) 1024)).
    - destruct (breserve_ok b l _ Hr Hg) as (t' & E' & Hc' & Hl').
      exists t'. split; [ exact E' | split; [ exact Hc' | exact (Z.le_trans _ _ _ Hg' Hl') ] ].
    - exists t. rewrite <- Hd. split; [ destruct b as [bs bd be]; cbn [b_size b_data b_ext] in *; subst; reflexivity | ].
      split; [ exact Hc | lia ]. }
  destruct X as (t' & E & Hc' & Hl'). rewrite E. cbn [bbind b_data b_ext]. clear E.
  rewrite has_storage_pos by lia. cbn [bbind b_data b_ext b_size].
  destruct (room_split l t' (len bytes)) as (y & z & -> & Hy); [ lia | lia | ].
  rewrite wr_range_ok by (reflexivity || lia). cbn [bbind]. eexists; split; [ reflexivity | ].
  rewrite app_assoc. apply brep_intro'; [ | lenz; lia ]. unfold cap_ok in *. lenz. lenz_in Hc'.
  rewrite Hy in Hc'. rewrite <- Z.add_assoc. exact Hc'.
Qed.

Lemma void_begin_pos : forall n i, 0 <= n -> fix_index (void_begin i) n = from_pos n i.
Proof.
  intros n i H. rewrite fix_index_pos by lia. destruct i; [ reflexivity | ]. cbn [void_begin from_pos].
  unfold pos_of. ztest; lia.
Qed.
Lemma void_end_pos : forall n i, 0 <= n <= CAP -> fix_index (void_end i) n = to_pos n i.
Proof.
  intros n i H. rewrite fix_index_pos by lia. destruct i; [ reflexivity | ]. cbn [void_end to_pos].
  unfold pos_of, INT64_MAX. ztest; lia.
Qed.
Lemma from_pos_range : forall n i, 0 <= n -> 0 <= from_pos n i <= n.
Proof. intros n i H. destruct i; cbn [from_pos]; [ apply pos_of_range; lia | lia ]. Qed.
Lemma to_pos_range : forall n i, 0 <= n -> 0 <= to_pos n i <= n.
Proof. intros n i H. destruct i; cbn [to_pos]; [ apply pos_of_range; lia | lia ]. Qed.

Lemma sub_app : forall (l t : list Z) f u, 0 <= f <= u -> u <= len l -> sub (l ++ t) f u = sub l f u.
Proof.
  intros l t f u H1 H2. unfold sub, len in *. rewrite skipn_app, firstn_app, skipn_length.
  replace (Z.to_nat (u - f) - (length l - Z.to_nat f))%nat with 0%nat by lia.
  cbn [firstn]. apply app_nil_r.
Qed.
Lemma sub_empty : forall (l : list Z) f u, u <= f -> sub l f u = [].
Proof. intros l f u H. unfold sub. replace (Z.to_nat (u - f)) with 0%nat by lia. reflexivity. Qed.

Lemma slice_method_ok : forall b l bg en, brep b l ->
  exists s, slice_method b bg en = BOk s /\ brep s (bytes_slice l bg en).
Proof.
  intros b l bg en (Hs & He & Hc & t & Hd). pose proof (len_nonneg _ l). pose proof (len_nonneg _ t).
  assert (Hl : len l <= CAP) by (destruct Hc as [Hc _]; rewrite Hd in Hc; lenz_in Hc; lia).
  unfold slice_method, buffer_slice, bytes_slice. change @llen with @len.
  rewrite Hs, void_begin_pos, void_end_pos by lia.
  pose proof (from_pos_range (len l) bg ltac:(lia)) as Hf.
  pose proof (to_pos_range (len l) en ltac:(lia)) as Hu.
  set (f := from_pos (len l) bg) in *. set (u := to_pos (len l) en) in *. clearbody f u.
  destruct (Z.eqb_spec (len l) 0).
  - eexists; split; [ reflexivity | ]. rewrite sub_empty by lia. apply new_buffer_0.
  - destruct (Z.ltb_spec u f).
    + rewrite Z.sub_diag. change (u32 0) with 0. cbn [Z.eqb]. eexists; split; [ reflexivity | ].
      rewrite sub_empty by lia. apply new_buffer_0.
    + rewrite u32_small by lia. destruct (Z.eqb_spec (u - f) 0) as [E|E].
      * rewrite E. eexists; split; [ reflexivity | ]. rewrite sub_empty by lia. apply new_buffer_0.
      * assert (Hsl : len (sub l f u) = u - f) by (apply sub_len; lia).
        rewrite Hd, (split3 _ (l ++ t) f u) by lia. rewrite sub_app by lia.
        rewrite rd_range_ok by (lenz; lia). cbn [bbind].
        pose proof (align_cap_ok (u - f) ltac:(lia)) as [Ha Hb].
        unfold new_buffer. cbn [b_data].
        assert (Ea : alloc (align_cap (u - f)) =
                     [] ++ repeat junk (Z.to_nat (u - f)) ++ alloc (align_cap (u - f) - (u - f))).
        { unfold alloc. cbn [app]. rewrite <- repeat_app. f_equal. lia. }
        rewrite Ea, wr_range_ok by (lenz; lia). cbn [bbind app]. eexists; split; [ reflexivity | ].
        apply brep_intro'; [ | lia ]. unfold cap_ok. lenz. rewrite alloc_len, Hsl by lia.
        replace (u - f + (align_cap (u - f) - (u - f))) with (align_cap (u - f)) by lia. lia.
Qed.

Lemma overwrite_nil : forall (l : list Z) p, 0 <= p <= len l -> overwrite l p [] = l.
Proof.
  intros l p H. unfold overwrite. change @llen with @len. rewrite len_nil, firstn_nil.
  replace (p + Z.min 0 (len l - p)) with p by lia. apply splice_same. lia.
Qed.
Lemma overwrite_end : forall (l ins : list Z), overwrite l (len l) ins = l.
Proof.
  intros l ins. pose proof (len_nonneg _ l). unfold overwrite. change @llen with @len.
  pose proof (len_nonneg _ ins).
  replace (Z.min (len ins) (len l - len l)) with 0 by lia. rewrite Z.add_0_r.
  cbn [Z.to_nat firstn]. apply splice_same. lia.
Qed.

Lemma copy_method_ok : forall b l pos src ls sb se, brep b l ->
  match src with None => ls = l | Some s => brep s ls end ->
  exists b', copy_method b pos src sb se = BOk b' /\
             brep b' (overwrite l (from_pos (len l) pos) (bytes_slice ls sb se)).
Proof.
  intros b l pos src ls sb se Hr Hsrc. pose proof Hr as (Hs & He & Hc & t & Hd).
  assert (Hs' : brep (match src with None => b | Some s => s end) ls) by (destruct src; [ exact Hsrc | subst; exact Hr ]).
  clear Hsrc. unfold copy_method, buffer_copy. cbv zeta.
  set (s := match src with None => b | Some s => s end) in *. clearbody s. clear src.
  destruct Hs' as (Hs' & _ & Hc' & t' & Hd').
  pose proof (len_nonneg _ l). pose proof (len_nonneg _ ls). pose proof (len_nonneg _ t). pose proof (len_nonneg _ t').
  assert (Hl : len l <= CAP) by (destruct Hc as [Hc _]; rewrite Hd in Hc; lenz_in Hc; lia).
  assert (Hl' : len ls <= CAP) by (destruct Hc' as [Hc' _]; rewrite Hd' in Hc'; lenz_in Hc'; lia).
  rewrite Hs, Hs', !void_begin_pos, void_end_pos by lia.
  pose proof (from_pos_range (len l) pos ltac:(lia)) as Hp.
  pose proof (from_pos_range (len ls) sb ltac:(lia)) as Hf.
  pose proof (to_pos_range (len ls) se ltac:(lia)) as Hu.
  unfold bytes_slice. change @llen with @len.
  set (p := from_pos (len l) pos) in *. set (f := from_pos (len ls) sb) in *. set (u := to_pos (len ls) se) in *.
  clearbody p f u.
  destruct ((f <? u) && (p <? len l)) eqn:E.
  - set (n := Z.min (u - f) (len l - p)).
    assert (Hsl : len (sub ls f u) = u - f) by (apply sub_len; lia).
    assert (Hn : len (sub ls f (f + n)) = n) by (rewrite sub_len by lia; lia).
    rewrite Hd', (split3 _ (ls ++ t') f (f + n)) by lia. rewrite sub_app by lia.
    rewrite rd_range_ok by (lenz; lia). cbn [bbind].
    rewrite Hd, (split3 _ (l ++ t) p (p + n)) by lia.
    rewrite wr_range_ok; [ | lenz; lia | rewrite Hn, sub_len by (lenz; lia); lia ].
    cbn [bbind]. eexists; split; [ reflexivity | ].
    change (brep (Buf (len l) (splice (l ++ t) p (p + n) (sub ls f (f + n))) (b_ext b))
                 (overwrite l p (sub ls f u))).
    rewrite splice_app, He by lia.
    replace (overwrite l p (sub ls f u)) with (splice l p (p + n) (sub ls f (f + n))).
    + rewrite Hd in Hc. apply brep_intro; [ exact Hc | ]. rewrite len_splice by lia. lia.
    + unfold overwrite. change @llen with @len. rewrite Hsl. fold n. f_equal.
      unfold sub. rewrite firstn_firstn. f_equal. lia.
  - exists b. split; [ reflexivity | ].
    destruct (Z.ltb_spec f u).
    + replace p with (len l) by lia. rewrite overwrite_end. exact Hr.
    + rewrite sub_empty by lia. rewrite overwrite_nil by lia. exact Hr.
Qed.

Lemma bstep_ok : forall b l o, brep b l -> len l <= 2147483647 -> bop_ok l o ->
  exists b', bmodel_step b o = Some (b', snd (bytes_step l o)) /\ brep b' (fst (bytes_step l o)).
Proof.
  intros b l o Hr Hl [Hb Ho].
  destruct o as [n v|v bg en|n|i|i v|bytes|bg en|pos src sb se|pos sb se]; cbn [bmodel_step bytes_step] in *.
  - destruct (size_ok n && byte_ok v) eqn:E.
    + destruct (resize_method_ok b l n v Hr E) as (b' & E' & Hr'). rewrite E'. exists b'. split; [ reflexivity | exact Hr' ].
    + exists b. split; [ | exact Hr ]. unfold resize_method, size_ok, byte_ok in *.
      destruct ((n <? 0) || (2147483647 <? n)) eqn:E1; [ reflexivity | ].
      destruct ((v <? 0) || (255 <? v)) eqn:E2; [ reflexivity | lia ].
  - destruct (byte_ok v) eqn:E.
    + destruct (fill_method_ok b l v bg en Hr Hl E) as (b' & E' & Hr'). rewrite E'. exists b'. split; [ reflexivity | exact Hr' ].
    + exists b. split; [ | exact Hr ]. unfold fill_method, byte_ok in *.
      destruct ((v <? 0) || (255 <? v)) eqn:E2; [ reflexivity | lia ].
  - destruct (size_ok n) eqn:E.
    + destruct (reserve_method_ok b l n Hr E) as (b' & E' & Hr'). rewrite E'. exists b'. split; [ reflexivity | exact Hr' ].
    + exists b. split; [ | exact Hr ]. unfold reserve_method, size_ok in *.
      destruct ((n <? 0) || (2147483647 <? n)) eqn:E1; [ reflexivity | lia ].
  - change @llen with @len in *. pose proof (get_method_ok b l i Hr Hl) as H.
    destruct (elem_pos (len l) i) as [k|].
    + destruct H as (v & E1 & E2). rewrite E1, E2. exists b. split; [ reflexivity | exact Hr ].
    + rewrite H. exists b. split; [ reflexivity | exact Hr ].
  - change @llen with @len in *. destruct (byte_ok v) eqn:E.
    + pose proof (set_method_ok b l i v Hr Hl E) as H. destruct (elem_pos (len l) i) as [k|].
      * destruct H as (b' & E' & Hr'). rewrite E'. exists b'. split; [ reflexivity | exact Hr' ].
      * rewrite H. exists b. split; [ reflexivity | exact Hr ].
    + exists b. split; [ | exact Hr ]. unfold set_method, byte_ok in *.
      destruct ((v <? 0) || (255 <? v)) eqn:E2; [ reflexivity | lia ].
  - change @llen with @len in *. cbn [fst] in Hb. lenz_in Hb.
    destruct (append_ok b l bytes Hr Ho ltac:(lia)) as (b' & E' & Hr'). rewrite E'. exists b'. split; [ reflexivity | exact Hr' ].
  - destruct (slice_method_ok b l bg en Hr) as (s & E' & Hr'). rewrite E'. exists b.
    rewrite (brep_bytes _ _ Hr'). split; [ reflexivity | exact Hr ].
  - change @llen with @len in *.
    destruct (copy_method_ok b l pos (Some (buf_of src)) src sb se Hr) as (b' & E' & Hr').
    { apply buf_of_rep. lia. }
    rewrite E'. exists b'. split; [ reflexivity | exact Hr' ].
  - change @llen with @len in *.
    destruct (copy_method_ok b l pos None l sb se Hr eq_refl) as (b' & E' & Hr').
    rewrite E'. exists b'. split; [ reflexivity | exact Hr' ].
Qed.

Lemma brun_ok : forall os b l, brep b l -> len l <= 2147483647 -> bops_ok l os ->
  exists bf, bmodel_run b os = Some (fst (bytes_run l os), bf) /\ brep bf (snd (bytes_run l os)).
Proof.
  induction os as [|o os IH]; intros b l Hr Hl Hok.
  - exists b. split; [ reflexivity | exact Hr ].
  - destruct Hok as [Ho Hos]. destruct (bstep_ok b l o Hr Hl Ho) as (b' & E & Hr').
    cbn [bmodel_run bytes_run]. rewrite E. destruct Ho as [Ho _]. change @llen with @len in Ho.
    destruct (IH b' _ Hr' Ho Hos) as (bf & E' & Hf). rewrite E'.
    destruct (bytes_step l o) as [l' x]. cbn [fst snd] in *.
    destruct (bytes_run l' os) as [xs lf]. exists bf. split; [ reflexivity | exact Hf ].
Qed.

(* ---- constructor ---- *)

Definition arg_bytes (a : ctor_arg) : list Z :=
  match a with AArray l => l | AString l => l | ABuffer l => l end.

Lemma store_bytes_ok : forall l x y z, forallb byte_ok l = true -> len y = len l ->
  store_bytes (x ++ y ++ z) (len x) l = BOk (x ++ l ++ z).
Proof.
  induction l as [|v l IH]; intros x y z Hb Hy.
  - destruct y; [ reflexivity | rewrite len_cons, len_nil in Hy; pose proof (len_nonneg _ y); lia ].
  - cbn [forallb] in Hb. apply andb_true_iff in Hb. destruct Hb as [Hv Hb]. unfold byte_ok in Hv.
    destruct y as [|w y]; [ rewrite len_cons, len_nil in Hy; pose proof (len_nonneg _ l); lia | ].
    rewrite !len_cons in Hy. cbn [store_bytes]. brk.
    change (x ++ (w :: y) ++ z) with (x ++ [w] ++ (y ++ z)). rewrite wr_range_ok by reflexivity.
    cbn [bbind]. rewrite app_assoc. replace (len x + 1) with (len (x ++ [v])) by (lenz; lia).
    rewrite IH by (exact Hb || lia). rewrite <- app_assoc. reflexivity.
Qed.

Lemma store_bytes_bad : forall l x y z, forallb byte_ok l = false -> len y = len l ->
  store_bytes (x ++ y ++ z) (len x) l = BExn.
Proof.
  induction l as [|v l IH]; intros x y z Hb Hy; [ discriminate | ].
  destruct y as [|w y]; [ rewrite len_cons, len_nil in Hy; pose proof (len_nonneg _ l); lia | ].
  rewrite !len_cons in Hy. cbn [store_bytes forallb] in *.
  destruct ((v <? 0) || (255 <? v)) eqn:E; [ reflexivity | ].
  assert (Hv : byte_ok v = true) by (unfold byte_ok; lia). rewrite Hv in Hb. cbn [andb] in Hb.
  change (x ++ (w :: y) ++ z) with (x ++ [w] ++ (y ++ z)). rewrite wr_range_ok by reflexivity.
  cbn [bbind]. rewrite app_assoc. replace (len x + 1) with (len (x ++ [v])) by (lenz; lia).
  apply IH; [ exact Hb | lia ].
Qed.

Lemma ctor_step_ok : forall b l a, brep b l ->
  forallb byte_ok (arg_bytes a) = true -> len l + len (arg_bytes a) <= CAP ->
  (l = [] -> arg_bytes a = [] -> exists m, a = AArray m) ->
  exists b', ctor_step b a = BOk b' /\ brep b' (l ++ arg_bytes a).
Proof.
  intros b l a Hr Hb Hl Hne. pose proof (len_nonneg _ l). pose proof Hr as (Hs & _).
  pose proof (len_nonneg _ (arg_bytes a)).
  destruct (bresize_ok b l (len l + len (arg_bytes a)) Hr ltac:(lia)) as (t & E & Hc & Hlt).
  destruct (room_split l t (len (arg_bytes a))) as (y & z & -> & Hy); [ lia | lia | ].
  assert (Hfin : brep (Buf (len l + len (arg_bytes a)) (l ++ arg_bytes a ++ z) false) (l ++ arg_bytes a)).
  { rewrite app_assoc. apply brep_intro'; [ | lenz; lia ]. unfold cap_ok in *. lenz. lenz_in Hc.
    rewrite Hy in Hc. rewrite <- Z.add_assoc. exact Hc. }
  assert (Hst : arg_bytes a <> [] \/ l <> [] -> has_storage (Buf (len l + len (arg_bytes a)) (l ++ y ++ z) false) = true).
  { intros Hor. apply has_storage_pos. destruct Hor as [Hor|Hor].
    - destruct (arg_bytes a); [ congruence | ]. rewrite len_cons in Hlt. pose proof (len_nonneg _ l0). lia.
    - destruct l; [ congruence | ]. rewrite len_cons in *. pose proof (len_nonneg _ l). lia. }
  assert (Hany : forall m, arg_bytes a = m -> (a = AString m \/ a = ABuffer m) -> m <> [] \/ l <> []).
  { intros m Em Ea. destruct m; [ | left; discriminate ]. destruct l; [ | right; discriminate ].
    destruct (Hne eq_refl Em) as [m' Em']. destruct Ea; congruence. }
  destruct a as [m|m|m]; cbn [arg_bytes] in *; unfold ctor_step; change @blen with @len; rewrite Hs.
  - destruct (Z.eqb_spec (len m) 0) as [Em|Em].
    + destruct m; [ | rewrite len_cons in Em; pose proof (len_nonneg _ m); lia ].
      rewrite app_nil_r. exists b. split; [ reflexivity | exact Hr ].
    + rewrite u32_small, E by lia. cbn [bbind b_data b_ext b_size].
      rewrite Hst by (left; intros ->; rewrite len_nil in Em; lia).
      rewrite store_bytes_ok by assumption. cbn [bbind]. eexists; split; [ reflexivity | exact Hfin ].
  - rewrite u32_small, E by lia. cbn [bbind b_data b_ext b_size].
    rewrite Hst by (apply (Hany m); auto).
    rewrite wr_range_ok by (reflexivity || lia). cbn [bbind]. eexists; split; [ reflexivity | exact Hfin ].
  - rewrite u32_small, E by lia. cbn [bbind b_data b_ext b_size].
    rewrite Hst by (apply (Hany m); auto).
    rewrite wr_range_ok by (reflexivity || lia). cbn [bbind]. eexists; split; [ reflexivity | exact Hfin ].
Qed.
