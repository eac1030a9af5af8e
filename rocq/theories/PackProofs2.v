(* pack: the bytes written. *)
From Coq Require Import ZArith List Lia Bool ZifyBool.
Import ListNotations.
From Verif Require Import Base ListZ ArrayProofs BufferModel BufferProofs Utf8Model PackModel PackSpec PackProofs.
Local Open Scope Z_scope.
Ltac Zify.zify_post_hook ::= idtac.

Notation CAP := 4294967232.   (* 2^32 - 64 *)

Lemma make_room_ok : forall b l k, brep b l -> 0 <= k -> len l + k <= CAP -> 0 < k \/ 0 < len (b_data b) ->
  exists y z, buffer_make_room b k = BOk (Buf (len l + k) (l ++ y ++ z) false, len l) /\ len y = k /\ cap_ok (l ++ y ++ z) /\
    0 < len (l ++ y ++ z).
Proof.
  intros b l k Hr Hk Hl Hne. pose proof (len_nonneg _ l). pose proof Hr as (Hs & He & Hc & t & Hd).
  unfold buffer_make_room. change @blen with @len. rewrite Hs, u32_small by lia.
  destruct (Z.ltb_spec (4294967295 - len l) k); [lia |].
  pose proof (grow_cap _ (len l + k) Hc ltac:(lia)) as [Hg Hg'].
  assert (X : exists t', (if len (b_data b) <? Z.max (len l + k) 1024
     then buffer_reserve b (if u32 (len (b_data b) * 2) <? len l + k then len l + k else u32 (len (b_data b) * 2))
     else BOk b) = BOk (Buf (len l) (l ++ t') false) /\ cap_ok (l ++ t') /\ len l + k <= len (l ++ t') /\
     0 < len (l ++ t')).
  { destruct (Z.ltb_spec (len (b_data b)) (Z.max (len l + k) 1024)).
    - pose proof Hr as Hr2. destruct (breserve_ok b l _ Hr Hg) as (t' & E' & Hc' & Hl').
      exists t'. split; [exact E' |]. split; [exact Hc' |]. split; [exact (Z.le_trans _ _ _ Hg' Hl') |].
      pose proof (len_nonneg _ t'). pose proof (len_nonneg _ (l ++ t')).
      destruct Hne as [K | K]; [lia |].
      assert (PP : 0 < u32 (len (b_data b) * 2) \/ len (b_data b) = 2147483648).
      { destruct Hc as [C1 C2]. unfold u32, uwrap. change (2 ^ 32) with 4294967296.
        destruct (Z.lt_ge_cases (len (b_data b)) 2147483648); [left; rewrite Z.mod_small by lia; lia |].
        destruct (Z.eq_dec (len (b_data b)) 2147483648); [right; assumption |]. left.
        replace (len (b_data b) * 2) with (len (b_data b) * 2 - 4294967296 + 1 * 4294967296) by lia.
        rewrite Z.mod_add by lia. rewrite Z.mod_small by lia. lia. }
      destruct PP as [P | P].
      + destruct (Z.ltb_spec (u32 (len (b_data b) * 2)) (len l + k)); lia.
      + lia.
    - exists t. rewrite <- Hd. split; [destruct b as [bs bd be]; cbn [b_size b_data b_ext] in *; subst; reflexivity |].
      split; [exact Hc |]. split; [lia |]. lia. }
  destruct X as (t' & E & Hc' & Hl' & Hp). rewrite E. cbn [bbind b_data b_ext]. clear E.
  rewrite has_storage_pos by lia.
  destruct (room_split l t' k Hk Hl') as (y & z & -> & Hy). exists y, z. auto.
Qed.

(* ---- integers ---- *)

Lemma le_bytes_S : forall n z, le_bytes (Datatypes.S n) z = z mod 256 :: le_bytes n (z / 256).
Proof.
  intros n z. unfold le_bytes. cbn [seq map]. f_equal; [change (256 ^ Z.of_nat 0) with 1; rewrite Z.div_1_r; reflexivity |].
  rewrite <- seq_shift, map_map. apply map_ext. intros k. f_equal.
  rewrite Nat2Z.inj_succ, Z.pow_succ_r by lia. rewrite Z.div_div by lia. reflexivity.
Qed.

Lemma le_bytes_len : forall n z, len (le_bytes n z) = Z.of_nat n.
Proof. intros. unfold le_bytes. rewrite len_map. unfold len. rewrite seq_length. reflexivity. Qed.

Lemma int_bytes_len : forall big n z, 0 <= n -> len (int_bytes big n z) = n.
Proof. intros big n z H. unfold int_bytes. destruct big; rewrite ?len_rev, le_bytes_len; lia. Qed.

Lemma put_le : forall n i size v pre w y post, i = len w -> len y = Z.of_nat n ->
  put_int n i size false v (pre ++ w ++ y ++ post) (len pre) = BOk (pre ++ w ++ le_bytes n v ++ post).
Proof.
  induction n as [| n IH]; intros i size v pre w y post Hi Hy.
  - destruct y; [reflexivity | rewrite len_cons in Hy; pose proof (len_nonneg _ y); lia].
  - destruct y as [| x y]; [rewrite len_nil in Hy; lia |]. rewrite len_cons in Hy.
    cbn [put_int]. replace (pre ++ w ++ (x :: y) ++ post) with ((pre ++ w) ++ [x] ++ y ++ post) by (rewrite <- !app_assoc; reflexivity).
    rewrite wr_range_ok by (rewrite ?len_app, ?Hi; reflexivity). cbn [bbind].
    replace ((pre ++ w) ++ [Z.land v 255] ++ y ++ post) with (pre ++ (w ++ [Z.land v 255]) ++ y ++ post) by (rewrite <- !app_assoc; reflexivity).
    rewrite IH by (rewrite ?len_app, ?len_cons, ?len_nil; lia).
    rewrite le_bytes_S, land_255, shiftr_div by lia. change (2 ^ 8) with 256. rewrite <- !app_assoc. reflexivity.
Qed.

Lemma put_be : forall n i size v pre w y post, size - i = Z.of_nat n -> len y = Z.of_nat n ->
  put_int n i size true v (pre ++ y ++ w ++ post) (len pre) = BOk (pre ++ rev (le_bytes n v) ++ w ++ post).
Proof.
  induction n as [| n IH]; intros i size v pre w y post Hi Hy.
  - destruct y; [reflexivity | rewrite len_cons in Hy; pose proof (len_nonneg _ y); lia].
  - destruct (exists_last (l := y)) as (y' & x & ->); [intros ->; rewrite len_nil in Hy; lia |].
    rewrite len_app, len_cons, len_nil in Hy.
    cbn [put_int]. replace (pre ++ (y' ++ [x]) ++ w ++ post) with ((pre ++ y') ++ [x] ++ w ++ post) by (rewrite <- !app_assoc; reflexivity).
    rewrite wr_range_ok by (rewrite ?len_app; (reflexivity || lia)). cbn [bbind].
    replace ((pre ++ y') ++ [Z.land v 255] ++ w ++ post) with (pre ++ y' ++ ([Z.land v 255] ++ w) ++ post) by (rewrite <- !app_assoc; reflexivity).
    rewrite IH by lia.
    rewrite le_bytes_S, land_255, shiftr_div by lia. change (2 ^ 8) with 256. cbn [rev]. rewrite <- !app_assoc. reflexivity.
Qed.

Lemma put_int_ok : forall n big v pre y post, 0 <= n -> len y = n ->
  put_int (Z.to_nat n) 0 n big v (pre ++ y ++ post) (len pre) = BOk (pre ++ int_bytes big n v ++ post).
Proof.
  intros n big v pre y post Hn Hy. unfold int_bytes. destruct big.
  - pose proof (put_be (Z.to_nat n) 0 n v pre [] y post ltac:(lia) ltac:(lia)) as H. exact H.
  - pose proof (put_le (Z.to_nat n) 0 n v pre [] y post eq_refl ltac:(lia)) as H. exact H.
Qed.

(* ---- strings ---- *)

Lemma lor_hi : forall a b k n, a = k * 2 ^ n -> 0 <= n -> 0 <= b < 2 ^ n -> Z.lor a b = a + b.
Proof. intros a b k n -> H1 H2. apply lor_add_low; assumption. Qed.

Lemma utf8_char_ok : forall c, 0 <= c < 2 ^ 21 -> encode_char_32 c = utf8_char c.
Proof.
  intros c H. change (2 ^ 21) with 2097152 in H. unfold encode_char_32, utf8_char.
  change (2 ^ 7) with 128. change (2 ^ 11) with 2048. change (2 ^ 16) with 65536.
  assert (U : forall x, 0 <= x < 256 -> uwrap 8 x = x) by (intros x Hx; unfold uwrap; apply Z.mod_small; exact Hx).
  assert (L6 : forall x, 0 <= x -> Z.lor 128 (Z.land x 63) = 128 + x mod 64).
  { intros x Hx. rewrite land_63. apply (lor_hi 128 (x mod 64) 2 6); [reflexivity | lia |]. apply Z.mod_pos_bound. lia. }
  assert (D : forall x m, 0 <= x -> 0 < m -> 0 <= x / m) by (intros; apply Z.div_pos; lia).
  assert (M : forall x, 0 <= x mod 64 < 64) by (intros; apply Z.mod_pos_bound; lia).
  destruct (Z.ltb_spec c 128); [rewrite U by lia; reflexivity |].
  destruct (Z.ltb_spec c 2048).
  { rewrite shiftr_div by lia. change (2 ^ 6) with 64.
    pose proof (D c 64 ltac:(lia) ltac:(lia)). assert (c / 64 < 32) by (apply Z.div_lt_upper_bound; lia).
    rewrite (lor_hi 192 (c / 64) 3 6) by (change (2 ^ 6) with 64; lia).
    rewrite L6 by lia. specialize (M c). rewrite !U by lia. reflexivity. }
  destruct (Z.ltb_spec c 65536).
  { rewrite !shiftr_div by lia. change (2 ^ 12) with 4096. change (2 ^ 6) with 64.
    pose proof (D c 64 ltac:(lia) ltac:(lia)). pose proof (D c 4096 ltac:(lia) ltac:(lia)).
    assert (c / 4096 < 16) by (apply Z.div_lt_upper_bound; lia).
    rewrite (lor_hi 224 (c / 4096) 7 5) by (change (2 ^ 5) with 32; lia).
    rewrite !L6 by lia. pose proof (M c). pose proof (M (c / 64)). rewrite !U by lia. reflexivity. }
  rewrite !shiftr_div by lia. change (2 ^ 18) with 262144. change (2 ^ 12) with 4096. change (2 ^ 6) with 64.
  pose proof (D c 64 ltac:(lia) ltac:(lia)). pose proof (D c 4096 ltac:(lia) ltac:(lia)). pose proof (D c 262144 ltac:(lia) ltac:(lia)).
  assert (c / 262144 < 8) by (apply Z.div_lt_upper_bound; lia).
  rewrite (lor_hi 240 (c / 262144) 15 4) by (change (2 ^ 4) with 16; lia).
  rewrite !L6 by lia. pose proof (M c). pose proof (M (c / 64)). pose proof (M (c / 4096)). rewrite !U by lia. reflexivity.
Qed.

Lemma calc_some : forall cs n, Forall (fun c => 0 <= c) cs ->
  match calc_buf_size_32 cs n with Some _ => true | None => false end = forallb (fun x => x <? 2 ^ 21) cs.
Proof.
  induction cs as [| c cs IH]; intros n F; [reflexivity |]. inversion F as [| ? ? F1 F2]; subst.
  cbn [calc_buf_size_32 forallb]. change (2 ^ 7) with 128. change (2 ^ 11) with 2048. change (2 ^ 16) with 65536.
  change (2 ^ 21) with 2097152 in *.
  destruct (Z.ltb_spec c 128); [rewrite IH by assumption; destruct (Z.ltb_spec c 2097152); [reflexivity | lia] |].
  destruct (Z.ltb_spec c 2048); [rewrite IH by assumption; destruct (Z.ltb_spec c 2097152); [reflexivity | lia] |].
  destruct (Z.ltb_spec c 65536); [rewrite IH by assumption; destruct (Z.ltb_spec c 2097152); [reflexivity | lia] |].
  destruct (Z.ltb_spec c 2097152); [rewrite IH by assumption; reflexivity | reflexivity].
Qed.

Definition wf_pv (v : pv) : Prop := match v with VStr cs => Forall (fun c => 0 <= c) cs | _ => True end.

Lemma string_bytes_ok : forall cs, Forall (fun c => 0 <= c) cs ->
  string_bytes cs = if forallb (fun x => x <? 2 ^ 21) cs then Some (utf8 cs) else None.
Proof.
  intros cs F. unfold string_bytes. pose proof (calc_some cs 0 F) as C.
  destruct (calc_buf_size_32 cs 0); rewrite <- C; [| reflexivity]. f_equal.
  assert (A : Forall (fun c => 0 <= c < 2 ^ 21) cs).
  { rewrite Forall_forall in F |- *. intros x Hx. split; [apply F; exact Hx |].
    symmetry in C. rewrite forallb_forall in C. apply Z.ltb_lt. apply C. exact Hx. }
  clear - A. induction A as [| c cs H A IH]; [reflexivity |].
  unfold encode_32, utf8 in *. cbn [flat_map]. rewrite IH, utf8_char_ok by exact H. reflexivity.
Qed.

(* ---- one field ---- *)

Lemma fit_len : forall n l, 0 <= n -> len (fit n l) = n.
Proof. intros n l H. unfold fit. rewrite len_app, len_firstn, len_repeat. pose proof (len_nonneg _ l). lia. Qed.

Lemma firstn_min : forall (l : list Z) n, 0 <= n ->
  firstn (Z.to_nat (if len l <? n then len l else n)) l = firstn (Z.to_nat n) l.
Proof.
  intros l n H. destruct (Z.ltb_spec (len l) n); [| reflexivity].
  rewrite (firstn_all2 (n := Z.to_nat (len l))) by (unfold len; lia).
  rewrite firstn_all2; [reflexivity | unfold len in *; lia].
Qed.

(* writing the first bytes of a field, then zeros *)
Lemma put_fit : forall n (src pre y post : list Z), 0 <= n -> len y = n -> let w := firstn (Z.to_nat n) src in
  (match (if len w =? 0 then BOk (pre ++ y ++ post) else wr_range (pre ++ y ++ post) (len pre) w) with
   | BOk d => if len w <? n then set_range d (len pre + len w) (n - len w) 0 else BOk d
   | e => e
   end) = BOk (pre ++ fit n src ++ post).
Proof.
  intros n src pre y post Hn Hy w.
  assert (Hw : len w = Z.min n (len src)) by (unfold w; rewrite len_firstn; lia).
  pose proof (len_nonneg _ src). pose proof (len_nonneg _ w).
  assert (E : (if len w =? 0 then BOk (pre ++ y ++ post) else wr_range (pre ++ y ++ post) (len pre) w)
    = BOk (pre ++ w ++ skipn (Z.to_nat (len w)) y ++ post)).
  { destruct (Z.eqb_spec (len w) 0) as [Z0 | _].
    - rewrite Z0. destruct w; [reflexivity | rewrite len_cons in Z0; pose proof (len_nonneg _ w); lia].
    - rewrite <- (firstn_skipn (Z.to_nat (len w)) y) at 1. rewrite <- app_assoc.
      rewrite wr_range_ok; [reflexivity | reflexivity |]. rewrite len_firstn. lia. }
  rewrite E. unfold fit. fold w. destruct (Z.ltb_spec (len w) n).
  - replace (pre ++ w ++ skipn (Z.to_nat (len w)) y ++ post) with ((pre ++ w) ++ skipn (Z.to_nat (len w)) y ++ post)
      by (rewrite <- !app_assoc; reflexivity).
    rewrite set_range_ok; [| rewrite len_app; lia | rewrite len_skipn; lia].
    replace (n - len w) with (n - len src) by lia. rewrite <- !app_assoc. reflexivity.
  - replace (Z.to_nat (n - len src)) with O by lia. cbn [repeat]. rewrite app_nil_r.
    rewrite skipn_all2 by (unfold len in *; lia). reflexivity.
Qed.

Lemma bmatch : forall (A : Type) (a : bres A) (f : A -> bres A) r,
  match a with BOk d => f d | BExn => BExn | BHang => BHang | BBad => BBad end = BOk r -> exists d, a = BOk d /\ f d = BOk r.
Proof. intros A a f r H. destruct a; try discriminate. eauto. Qed.

Lemma field_chars : forall c n, field_ok c (Some n) = true ->
  ((c =? 117) || (c =? 105) = true /\ (n = 1 \/ n = 2 \/ n = 4 \/ n = 8)) \/ (c = 102 /\ (n = 4 \/ n = 8)) \/ c = 98 \/ c = 115.
Proof.
  intros c n H. unfold field_ok in H. destruct ((c =? 117) || (c =? 105)); [left; split; [reflexivity | lia] |]. right.
  destruct (Z.eqb_spec c 102); [left; split; [assumption | lia] |]. right. lia.
Qed.

Lemma pack_one_sized : forall fp big c n sz pre y post v, 0 < n -> n <> NOSIZE -> len y = n ->
  field_ok c (Some n) = true -> wf_pv v -> (v = VSelf -> pre <> [] /\ len pre + n <= sz) ->
  match field fp pre big c (Some n) v with
  | Some x => pack_one fp big c n (Buf sz (pre ++ y ++ post) false) (len pre) v
                = POk (Buf sz (pre ++ x ++ post) false, len pre + n) /\ len x = n
  | None => exists b', pack_one fp big c n (Buf sz (pre ++ y ++ post) false) (len pre) v = PExn b'
  end.
Proof.
  intros fp big c n sz pre y post v Hn NN Hy FO WF SELF.
  destruct (field_chars c n FO) as [[C HS] | [[-> HS] | [-> | ->]]]; unfold field, pack_one.
  - rewrite C. unfold int_value. destruct (match v with VInt z => Some z | VFlt f => f_int fp f | _ => None end) as [z |]; cbn [option_map].
    + cbn [b_data]. rewrite put_int_ok by lia. split; [reflexivity | apply int_bytes_len; lia].
    + eexists; reflexivity.
  - change ((102 =? 117) || (102 =? 105)) with false. change (102 =? 102) with true. cbv iota. unfold float_value.
    destruct (match v with VInt z => Some (f_of_int fp z) | VFlt f => Some f | _ => None end) as [f |]; cbn [option_map].
    + cbn [b_data]. rewrite put_int_ok by lia. split; [reflexivity | apply int_bytes_len; lia].
    + eexists; reflexivity.
  - change ((98 =? 117) || (98 =? 105)) with false. change (98 =? 102) with false. change (98 =? 98) with true. cbv iota zeta.
    change @blen with @len. cbn [b_data b_size].
    assert (PUT : forall src, match (if len (firstn (Z.to_nat n) src) =? 0 then BOk (pre ++ y ++ post)
                      else wr_range (pre ++ y ++ post) (len pre) (firstn (Z.to_nat n) src)) with
      | BOk d => match (if len (firstn (Z.to_nat n) src) <? n then set_range d (len pre + len (firstn (Z.to_nat n) src)) (n - len (firstn (Z.to_nat n) src)) 0 else BOk d) with
                 | BOk d' => POk (set_data (Buf sz (pre ++ y ++ post) false) d', len pre + n)
                 | BExn => PExn (Buf sz (pre ++ y ++ post) false)
                 | _ => PBad end
      | BExn => PExn (Buf sz (pre ++ y ++ post) false)
      | _ => PBad end = POk (Buf sz (pre ++ fit n src ++ post) false, len pre + n)).
    { intros src. pose proof (put_fit n src pre y post ltac:(lia) Hy) as P. cbv zeta in P.
      apply (bmatch (list Z) _ (fun d => if len (firstn (Z.to_nat n) src) <? n
        then set_range d (len pre + len (firstn (Z.to_nat n) src)) (n - len (firstn (Z.to_nat n) src)) 0 else BOk d)) in P.
      destruct P as (d & P1 & P2). rewrite P1, P2. reflexivity. }
    destruct v as [z | f | bytes | | cs | l |]; try (eexists; reflexivity).
    + rewrite firstn_min by lia. split; [apply PUT | apply fit_len; lia].
    + destruct (SELF eq_refl) as [NE LE]. pose proof (len_nonneg _ pre).
      assert (0 < len pre) by (destruct pre; [contradiction | rewrite len_cons; pose proof (len_nonneg _ pre); lia]).
      destruct (Z.ltb_spec sz n); [lia |].
      assert (CS : (if (len pre <? n) && (0 <? len pre) then len pre else n) = Z.min n (len pre)).
      { destruct (Z.ltb_spec (len pre) n); destruct (Z.ltb_spec 0 (len pre)); cbn [andb]; lia. }
      rewrite CS.
      assert (RD : rd_range (pre ++ y ++ post) 0 (Z.min n (len pre)) = BOk (firstn (Z.to_nat n) pre)).
      { rewrite <- (firstn_skipn (Z.to_nat n) pre) at 1. rewrite <- app_assoc.
        apply (rd_range_ok [] (firstn (Z.to_nat n) pre)); [reflexivity | rewrite len_firstn; lia]. }
      rewrite RD. split; [apply PUT | apply fit_len; lia].
  - change ((115 =? 117) || (115 =? 105)) with false. change (115 =? 102) with false. change (115 =? 98) with false. cbv iota.
    destruct v as [z | f | bytes | | cs | l |]; try (eexists; reflexivity).
    cbn [wf_pv] in WF. rewrite string_bytes_ok by exact WF.
    destruct (forallb (fun x => x <? 2 ^ 21) cs); [| eexists; reflexivity].
    change @blen with @len. cbv zeta. destruct (Z.eqb_spec n NOSIZE); [contradiction |]. cbn [b_data].
    assert (CS : (if len (utf8 cs) <? n then len (utf8 cs) else n) = len (firstn (Z.to_nat n) (utf8 cs))).
    { rewrite len_firstn. pose proof (len_nonneg _ (utf8 cs)). destruct (Z.ltb_spec (len (utf8 cs)) n); lia. }
    rewrite firstn_min by lia. rewrite CS.
    pose proof (put_fit n (utf8 cs) pre y post ltac:(lia) Hy) as P. cbv zeta in P.
    apply (bmatch (list Z) _ (fun d => if len (firstn (Z.to_nat n) (utf8 cs)) <? n
        then set_range d (len pre + len (firstn (Z.to_nat n) (utf8 cs))) (n - len (firstn (Z.to_nat n) (utf8 cs))) 0 else BOk d)) in P.
    destruct P as (d & P1 & P2). rewrite P1, P2. split; [reflexivity | apply fit_len; lia].
Qed.

(* fields of size 0 write nothing *)
Lemma fit_0 : forall l, fit 0 l = [].
Proof.
  intros l. unfold fit. cbn [Z.to_nat firstn app]. replace (Z.to_nat (0 - len l)) with O by (pose proof (len_nonneg _ l); lia).
  reflexivity.
Qed.

Lemma pack_one_zero : forall fp big c sz d v self, field_ok c (Some 0) = true -> wf_pv v -> 0 <= sz ->
  match field fp self big c (Some 0) v with
  | Some x => pack_one fp big c 0 (Buf sz d false) 0 v = POk (Buf sz d false, 0) /\ x = []
  | None => exists b', pack_one fp big c 0 (Buf sz d false) 0 v = PExn b'
  end.
Proof.
  intros fp big c sz d v self FO WF SZ.
  destruct (field_chars c 0 FO) as [[C HS] | [[-> HS] | [-> | ->]]]; try lia; unfold field, pack_one.
  - change ((98 =? 117) || (98 =? 105)) with false. change (98 =? 102) with false. change (98 =? 98) with true. cbv iota zeta.
    change @blen with @len. cbn [b_data b_size].
    destruct v as [z | f | bytes | | cs | l |]; try (eexists; reflexivity).
    + destruct (Z.ltb_spec (len bytes) 0); [pose proof (len_nonneg _ bytes); lia |]. cbn [Z.to_nat firstn].
      split; [reflexivity | apply fit_0].
    + destruct (Z.ltb_spec sz 0); [lia |]. change ((0 <? 0) && (0 <? 0)) with false. cbv iota.
      unfold rd_range. change @blen with @len.
      destruct (Z.leb_spec (0 + 0) (len d)); [| pose proof (len_nonneg _ d); lia].
      change (0 <=? 0) with true. cbn [andb Z.to_nat firstn]. split; [reflexivity | apply fit_0].
  - change ((115 =? 117) || (115 =? 105)) with false. change (115 =? 102) with false. change (115 =? 98) with false. cbv iota.
    destruct v as [z | f | bytes | | cs | l |]; try (eexists; reflexivity).
    cbn [wf_pv] in WF. rewrite string_bytes_ok by exact WF.
    destruct (forallb (fun x => x <? 2 ^ 21) cs); [| eexists; reflexivity].
    change @blen with @len. cbv zeta. change (0 =? NOSIZE) with false. cbn [b_data].
    destruct (Z.ltb_spec (len (utf8 cs)) 0); [pose proof (len_nonneg _ (utf8 cs)); lia |].
    change (0 =? 0) with true. change (0 <? 0) with false. cbv iota. split; [reflexivity | apply fit_0].
Qed.

(* a string without size is appended *)
Lemma pack_one_sizeless : forall fp big b l v dst, brep b l -> wf_pv v -> 0 < len (b_data b) \/ v <> VStr [] -> len l + string_room [v] <= CAP ->
  match field fp l big 115 None v with
  | Some x => exists b' dst', pack_one fp big 115 NOSIZE b dst v = POk (b', dst') /\ brep b' (l ++ x) /\ 0 < len (b_data b') /\
                len x = string_room [v]
  | None => exists b', pack_one fp big 115 NOSIZE b dst v = PExn b'
  end.
Proof.
  intros fp big b l v dst Hr WF ST RM. unfold field, pack_one.
  change ((115 =? 117) || (115 =? 105)) with false. change (115 =? 102) with false. change (115 =? 98) with false. cbv iota.
  destruct v as [z | f | bytes | | cs | l0 |]; try (eexists; reflexivity).
  cbn [wf_pv] in WF. rewrite string_bytes_ok by exact WF.
  destruct (forallb (fun x => x <? 2 ^ 21) cs); [| eexists; reflexivity].
  change @blen with @len. cbv zeta. change (NOSIZE =? NOSIZE) with true. cbv iota. cbn [string_room fold_right] in RM.
  pose proof (len_nonneg _ (utf8 cs)). pose proof (len_nonneg _ l).
  destruct (Z.ltb_spec (len (utf8 cs)) NOSIZE); [| unfold NOSIZE in *; lia].
  assert (ST' : 0 < len (utf8 cs) \/ 0 < len (b_data b)).
  { destruct ST as [ST | ST]; [right; exact ST | left]. destruct cs as [| a cs]; [contradiction |].
    unfold utf8. cbn [flat_map]. rewrite len_app. pose proof (len_nonneg _ (flat_map utf8_char cs)).
    enough (0 < len (utf8_char a)) by lia. unfold utf8_char. destruct (a <? 128), (a <? 2048), (a <? 65536); reflexivity. }
  destruct (make_room_ok b l (len (utf8 cs)) Hr ltac:(lia) ltac:(lia) ST') as (y & z & E & Ly & Hc & Hp).
  rewrite E. cbn [b_data]. rewrite firstn_all2 by (unfold len; lia).
  assert (W : (if len (utf8 cs) =? 0 then BOk (l ++ y ++ z) else wr_range (l ++ y ++ z) (len l) (utf8 cs)) = BOk (l ++ utf8 cs ++ z)).
  { destruct (Z.eqb_spec (len (utf8 cs)) 0) as [Z0 | _].
    - destruct y; [| rewrite len_cons in Ly; pose proof (len_nonneg _ y); lia].
      destruct (utf8 cs) as [| a u] eqn:EU; [reflexivity | rewrite len_cons in Z0; pose proof (len_nonneg _ u); lia].
    - apply wr_range_ok; [reflexivity | lia]. }
  rewrite W. do 2 eexists. split; [reflexivity |]. unfold set_data. cbn [b_size b_ext b_data].
  assert (LL : len (l ++ utf8 cs ++ z) = len (l ++ y ++ z)) by (rewrite !len_app; lia).
  split; [| split].
  - rewrite app_assoc. apply brep_intro'; [| rewrite len_app; reflexivity]. rewrite <- app_assoc. unfold cap_ok in *. rewrite LL. exact Hc.
  - rewrite LL. exact Hp.
  - cbn [string_room fold_right]. lia.
Qed.
