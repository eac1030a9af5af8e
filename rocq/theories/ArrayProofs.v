(* Arrays: lemmas. *)
From Coq Require Import ZArith List Lia Bool ZifyBool.
Import ListNotations.
From Verif Require Import Base ListZ IndexModel ArrayModel ArraySpec.
Local Open Scope Z_scope.

Section Proofs.
Context {V : Type}.
Variable void : V.
Variable veq : V -> V -> bool.
Notation arr := (arr V).

Lemma zlen_len : forall A (l : list A), zlen l = len l. Proof. reflexivity. Qed.
Lemma llen_len : forall A (l : list A), llen l = len l. Proof. reflexivity. Qed.

(* one operation on the model, exceptions leave the array unchanged; None is undefined behaviour *)
Definition fin1 (a : arr) (r : res arr) : option (arr * out V) :=
  match r with
  | Ok a' => Some (a', RUnit) | Exn => Some (a, RExn) | Oom => Some (a, ROom) | Bad => None
  end.

Definition contents_of (a : arr) : list V :=
  flat_map (fun s => match s with Some v => [v] | None => [] end) (firstn (Z.to_nat (a_size a)) (a_buf a)).

Definition model_step (a : arr) (o : op V) : option (arr * out V) :=
  match o with
  | ORead i => match vm_get a i with
               | Ok v => Some (a, RVal v) | Exn => Some (a, RExn) | Oom => Some (a, ROom) | Bad => None end
  | OWrite i v => fin1 a (vm_set a i v)
  | OCas i old new => match array_cas_method veq a i old new with
               | Ok (a', v) => Some (a', RVal v) | Exn => Some (a, RExn) | Oom => Some (a, ROom) | Bad => None end
  | OPush v => match array_push a v with
               | Ok (a', i) => Some (a', RIdx i) | Exn => Some (a, RExn) | Oom => Some (a, ROom) | Bad => None end
  | OPop => match array_pop void a with
               | Ok (a', v) => Some (a', RVal v) | Exn => Some (a, RExn) | Oom => Some (a, ROom) | Bad => None end
  | OResize n => fin1 a (array_resize void a n)
  | OReserve n => fin1 a (array_reserve a n)
  | OFill b e v => fin1 a (array_fill a b e v)
  | OSlice b e => match array_slice a b e with
               | Ok s => Some (a, RList (contents_of s)) | Exn => Some (a, RExn) | Oom => Some (a, ROom) | Bad => None end
  | OInsert b e src =>
      match (do s <- new_array void (zlen src);
             do s' <- fold_left (fun r v => do x <- r; do y <- array_write (fst x) (snd x) v; Ok (y, snd x + 1)) src (Ok (s, 0));
             Ok (fst s')) with
      | Ok s => fin1 a (insert_array void a b e (Some s))
      | _ => None
      end
  | OInsertSelf b e => fin1 a (insert_array void a b e None)
  end.

Fixpoint model_run (a : arr) (os : list (op V)) : option (list (out V) * arr) :=
  match os with
  | [] => Some ([], a)
  | o :: os' =>
      match model_step a o with
      | None => None
      | Some (a', r) => match model_run a' os' with None => None | Some (rs, af) => Some (r :: rs, af) end
      end
  end.

(* ---- memory primitives ---- *)

Lemma ld_gz : forall (l : list (option V)) i s, gz l i = Some s -> ld l i = Ok s.
Proof.
  intros l i s H. pose proof (gz_some_inv _ _ _ _ H) as Hi. unfold ld.
  rewrite zlen_len. destruct (Z.leb_spec 0 i); [ | lia ]. destruct (Z.ltb_spec i (len l)); [ | lia ].
  cbn [andb]. unfold gz in H. destruct (Z.ltb_spec i 0); [ lia | ]. rewrite H. reflexivity.
Qed.

Lemma upd_len : forall A (l : list A) n x, len (upd l n x) = len l.
Proof.
  unfold len. induction l; intros n x; destruct n; cbn [upd length]; try reflexivity.
  specialize (IHl n x). lia.
Qed.

Lemma gz_upd : forall A (l : list A) n x i,
  gz (upd l n x) i = if (i =? Z.of_nat n) && (i <? len l) then Some x else gz l i.
Proof.
  induction l; intros n x i.
  - destruct n; cbn [upd]; rewrite len_nil; destruct (Z.ltb_spec i 0);
      rewrite ?andb_false_r; try reflexivity; rewrite ?(gz_neg _ _ i) by lia;
      destruct (i =? _) eqn:E; cbn [andb]; try reflexivity; lia.
  - pose proof (len_nonneg _ l). destruct n; cbn [upd]; rewrite !gz_cons, len_cons.
    + change (Z.of_nat 0) with 0. destruct (Z.eqb_spec i 0) as [->|]; [ | reflexivity ].
      destruct (Z.ltb_spec 0 (1 + len l)); [ reflexivity | lia ].
    + rewrite IHl. destruct (Z.eqb_spec i 0) as [->|].
      * destruct (Z.eqb_spec 0 (Z.of_nat (S n))); [ lia | reflexivity ].
      * replace (i - 1 =? Z.of_nat n) with (i =? Z.of_nat (S n)) by lia.
        replace (i - 1 <? len l) with (i <? 1 + len l) by lia. reflexivity.
Qed.

Lemma st_ok : forall (l : list (option V)) i x, 0 <= i < len l -> st l i x = Ok (upd l (Z.to_nat i) x).
Proof.
  intros l i x H. unfold st. rewrite zlen_len.
  destruct (Z.leb_spec 0 i); [ | lia ]. destruct (Z.ltb_spec i (len l)); [ reflexivity | lia ].
Qed.

Lemma gz_upd_z : forall A (l : list A) j x i, 0 <= j < len l ->
  gz (upd l (Z.to_nat j) x) i = if i =? j then Some x else gz l i.
Proof.
  intros A l j x i H. rewrite gz_upd. rewrite Z2Nat.id by lia.
  destruct (Z.eqb_spec i j) as [->|]; cbn [andb]; [ | reflexivity ].
  destruct (Z.ltb_spec j (len l)); [ reflexivity | lia ].
Qed.

Lemma fill_slots_ok : forall n (l : list (option V)) i x,
  0 <= i -> i + Z.of_nat n <= len l ->
  exists r, fill_slots n l i x = Ok r /\ len r = len l /\
    forall j, gz r j = if (i <=? j) && (j <? i + Z.of_nat n) then Some x else gz l j.
Proof.
  induction n; intros l i x H0 H1; cbn [fill_slots].
  - exists l. split; [ reflexivity | split; [ reflexivity | ] ]. intros j.
    destruct ((i <=? j) && (j <? i + Z.of_nat 0)) eqn:E; [ lia | reflexivity ].
  - rewrite st_ok by lia. cbn [bind].
    destruct (IHn (upd l (Z.to_nat i) x) (i + 1) x) as [r [Hr [Hl Hg]]]; [ lia | rewrite upd_len; lia | ].
    exists r. split; [ exact Hr | ]. split; [ rewrite Hl; apply upd_len | ].
    intros j. rewrite Hg. rewrite gz_upd_z by lia.
    destruct ((i + 1 <=? j) && (j <? i + 1 + Z.of_nat n)) eqn:E;
      destruct ((i <=? j) && (j <? i + Z.of_nat (S n))) eqn:E2; try lia; try reflexivity;
      destruct (Z.eqb_spec j i); try lia; try reflexivity.
Qed.

Lemma move_up_ok : forall n (l : list (option V)) d s,
  0 <= d -> 0 <= s -> d + Z.of_nat n <= len l -> s + Z.of_nat n <= len l ->
  (d <= s \/ s + Z.of_nat n <= d) ->
  exists r, move_up n l d s = Ok r /\ len r = len l /\
    forall j, gz r j = if (d <=? j) && (j <? d + Z.of_nat n) then gz l (j - d + s) else gz l j.
Proof.
  induction n; intros l d s Hd Hs Hdl Hsl Hov; cbn [move_up].
  - exists l. split; [ reflexivity | split; [ reflexivity | ] ]. intros j.
    destruct ((d <=? j) && (j <? d + Z.of_nat 0)) eqn:E; [ lia | reflexivity ].
  - destruct (gz_some _ l s ltac:(lia)) as [x Hx].
    rewrite (ld_gz _ _ _ Hx). cbn [bind]. rewrite st_ok by lia. cbn [bind].
    destruct (IHn (upd l (Z.to_nat d) x) (d + 1) (s + 1)) as [r [Hr [Hl Hg]]];
      [ lia | lia | rewrite upd_len; lia | rewrite upd_len; lia | lia | ].
    exists r. split; [ exact Hr | ]. split; [ rewrite Hl; apply upd_len | ].
    intros j. rewrite Hg. rewrite !gz_upd_z by lia.
    destruct ((d + 1 <=? j) && (j <? d + 1 + Z.of_nat n)) eqn:E;
      destruct ((d <=? j) && (j <? d + Z.of_nat (S n))) eqn:E2; try lia.
    + destruct (Z.eqb_spec (j - (d + 1) + (s + 1)) d); [ lia | ]. f_equal. lia.
    + destruct (Z.eqb_spec j d); [ | lia ]. subst j. rewrite <- Hx. f_equal. lia.
    + destruct (Z.eqb_spec j d); [ lia | reflexivity ].
Qed.

Lemma move_down_ok : forall n (l : list (option V)) d s,
  d < len l -> s < len l -> Z.of_nat n <= d + 1 -> Z.of_nat n <= s + 1 ->
  s <= d ->
  exists r, move_down n l d s = Ok r /\ len r = len l /\
    forall j, gz r j = if (d - Z.of_nat n <? j) && (j <=? d) then gz l (j - d + s) else gz l j.
Proof.
  induction n; intros l d s Hd Hs Hdl Hsl Hov; cbn [move_down].
  - exists l. split; [ reflexivity | split; [ reflexivity | ] ]. intros j.
    destruct ((d - Z.of_nat 0 <? j) && (j <=? d)) eqn:E; [ lia | reflexivity ].
  - destruct (gz_some _ l s ltac:(lia)) as [x Hx].
    rewrite (ld_gz _ _ _ Hx). cbn [bind]. rewrite st_ok by lia. cbn [bind].
    destruct (IHn (upd l (Z.to_nat d) x) (d - 1) (s - 1)) as [r [Hr [Hl Hg]]];
      [ rewrite upd_len; lia | rewrite upd_len; lia | lia | lia | lia | ].
    exists r. split; [ exact Hr | ]. split; [ rewrite Hl; apply upd_len | ].
    intros j. rewrite Hg. rewrite !gz_upd_z by lia.
    destruct ((d - 1 - Z.of_nat n <? j) && (j <=? d - 1)) eqn:E;
      destruct ((d - Z.of_nat (S n) <? j) && (j <=? d)) eqn:E2; try lia.
    + destruct (Z.eqb_spec (j - (d - 1) + (s - 1)) d); [ lia | ]. f_equal. lia.
    + destruct (Z.eqb_spec j d); [ | lia ]. subst j. rewrite <- Hx. f_equal. lia.
    + destruct (Z.eqb_spec j d); [ lia | reflexivity ].
Qed.

Lemma move_ptr_ok : forall (l : list (option V)) d s n,
  0 <= d -> 0 <= s -> 0 < n -> d + n <= len l -> s + n <= len l ->
  exists r, move_ptr l d s n = Ok r /\ len r = len l /\
    forall j, gz r j = if (d <=? j) && (j <? d + n) then gz l (j - d + s) else gz l j.
Proof.
  intros l d s n Hd Hs Hn Hdl Hsl. unfold move_ptr.
  destruct (Z.eqb_spec s d) as [->|Hne].
  - exists l. split; [ reflexivity | split; [ reflexivity | ] ]. intros j.
    destruct ((d <=? j) && (j <? d + n)); [ | reflexivity ]. f_equal. lia.
  - rewrite Z.max_r by lia. destruct ((s <? d) && (d <? s + n)) eqn:E.
    + destruct (move_down_ok (Z.to_nat n) l (d + n - 1) (s + n - 1)) as [r [Hr [Hl Hg]]]; try lia.
      exists r. split; [ exact Hr | split; [ exact Hl | ] ]. intros j. rewrite Hg.
      destruct ((d + n - 1 - Z.of_nat (Z.to_nat n) <? j) && (j <=? d + n - 1)) eqn:E1;
        destruct ((d <=? j) && (j <? d + n)) eqn:E2; try lia; [ f_equal; lia | reflexivity ].
    + destruct (move_up_ok (Z.to_nat n) l d s) as [r [Hr [Hl Hg]]]; try lia.
      exists r. split; [ exact Hr | split; [ exact Hl | ] ]. intros j. rewrite Hg.
      rewrite Z2Nat.id by lia. reflexivity.
Qed.

Lemma move_from_ok : forall n (l src : list (option V)) d s,
  0 <= d -> 0 <= s -> d + Z.of_nat n <= len l -> s + Z.of_nat n <= len src ->
  exists r, move_from n l src d s = Ok r /\ len r = len l /\
    forall j, gz r j = if (d <=? j) && (j <? d + Z.of_nat n) then gz src (j - d + s) else gz l j.
Proof.
  induction n; intros l src d s Hd Hs Hdl Hsl; cbn [move_from].
  - exists l. split; [ reflexivity | split; [ reflexivity | ] ]. intros j.
    destruct ((d <=? j) && (j <? d + Z.of_nat 0)) eqn:E; [ lia | reflexivity ].
  - destruct (gz_some _ src s ltac:(lia)) as [x Hx].
    rewrite (ld_gz _ _ _ Hx). cbn [bind]. rewrite st_ok by lia. cbn [bind].
    destruct (IHn (upd l (Z.to_nat d) x) src (d + 1) (s + 1)) as [r [Hr [Hl Hg]]];
      [ lia | lia | rewrite upd_len; lia | lia | ].
    exists r. split; [ exact Hr | ]. split; [ rewrite Hl; apply upd_len | ].
    intros j. rewrite Hg. rewrite !gz_upd_z by lia.
    destruct ((d + 1 <=? j) && (j <? d + 1 + Z.of_nat n)) eqn:E;
      destruct ((d <=? j) && (j <? d + Z.of_nat (S n))) eqn:E2; try lia.
    + f_equal. lia.
    + destruct (Z.eqb_spec j d); [ | lia ]. subst j. rewrite <- Hx. f_equal. lia.
    + destruct (Z.eqb_spec j d); [ lia | reflexivity ].
Qed.

(* ---- representation ---- *)

Definition CAPMAX : Z := 268435457.

(* the array holds exactly the list *)
Definition rep (a : arr) (l : list V) : Prop :=
  a_size a = len l /\ len l <= len (a_buf a) <= CAPMAX /\
  forall i, 0 <= i < len (a_buf a) ->
    gz (a_buf a) i = Some (if i <? len l then gz l i else None).

Lemma alloc_capacity_bounds : forall c, 1 <= c < MAX_ARRAY_SIZE ->
  c <= alloc_capacity c <= CAPMAX.
Proof.
  intros c H. unfold alloc_capacity, MAX_ARRAY_SIZE, CAPMAX, u32, uwrap in *.
  change (2 ^ 32) with 4294967296.
  rewrite (Z.mod_small ((c - 1) * 8)) by lia.
  rewrite (Z.mod_small (32 + (c - 1) * 8)) by lia.
  rewrite (Z.mod_small (32 + (c - 1) * 8 + 31)) by lia.
  replace (32 + (c - 1) * 8 + 31) with (8 * c + 55) by lia.
  pose proof (Z.div_mod (8 * c + 55) 32 ltac:(lia)).
  pose proof (Z.mod_pos_bound (8 * c + 55) 32 ltac:(lia)).
  set (q := (8 * c + 55) / 32) in *.
  rewrite (Z.mod_small (q * 32 - 32)) by lia.
  replace (q * 32 - 32) with ((4 * q - 4) * 8) by lia. rewrite Z.div_mul by lia.
  rewrite Z.mod_small by lia. lia.
Qed.

Lemma alloc_buffer_ok : forall c, 1 <= c < MAX_ARRAY_SIZE ->
  exists b, alloc_buffer (V:=V) c = Ok b /\ c <= len b <= CAPMAX /\
    forall i, 0 <= i < len b -> gz b i = Some None.
Proof.
  intros c H. pose proof (alloc_capacity_bounds c H) as Hc. unfold alloc_buffer.
  destruct (Z.ltb_spec c MAX_ARRAY_SIZE); [ | lia ].
  eexists. split; [ reflexivity | ]. rewrite len_repeat. split; [ lia | ].
  intros i Hi. rewrite gz_repeat.
  destruct ((0 <=? i) && (i <? Z.of_nat (Z.to_nat (alloc_capacity c)))) eqn:E; [ reflexivity | lia ].
Qed.

Lemma rep_gz : forall a l i, rep a l -> 0 <= i < len l -> gz (a_buf a) i = Some (gz l i).
Proof.
  intros a l i [_ [H1 H2]] Hi. rewrite H2 by lia. destruct (Z.ltb_spec i (len l)); [ reflexivity | lia ].
Qed.

Lemma rep_gz_out : forall a l i, rep a l -> len l <= i < len (a_buf a) -> gz (a_buf a) i = Some None.
Proof.
  intros a l i [_ [H1 H2]] Hi. pose proof (len_nonneg _ l).
  rewrite H2 by lia. destruct (Z.ltb_spec i (len l)); [ lia | reflexivity ].
Qed.

Lemma reserve_ok : forall a l c, rep a l -> 0 <= c ->
  (c < MAX_ARRAY_SIZE -> exists a', array_reserve a c = Ok a' /\ rep a' l /\ c <= len (a_buf a')
      /\ len (a_buf a) <= len (a_buf a')) /\
  (MAX_ARRAY_SIZE <= c -> c <= len (a_buf a) /\ array_reserve a c = Ok a \/ array_reserve a c = Oom).
Proof.
  intros a l c Hr Hc. unfold array_reserve. rewrite zlen_len.
  destruct (Z.ltb_spec (len (a_buf a)) c) as [Hlt|Hge].
  2:{ split; intros.
      - exists a. intuition lia.
      - left. split; [ lia | reflexivity ]. }
  split; intros Hm.
  - pose proof (len_nonneg _ (a_buf a)) as Hnn.
    destruct (alloc_buffer_ok c ltac:(lia)) as [b [Hb [Hbl Hbg]]].
    unfold resize_storage. rewrite Hb. cbn [bind]. unfold copy_buf. change @zlen with @len.
    destruct (Z.leb_spec (len (a_buf a)) (len b)); [ | lia ]. cbn [bind].
    eexists. split; [ reflexivity | ]. cbn [a_buf a_size].
    assert (HL : len (a_buf a ++ skipn (length (a_buf a)) b) = len b).
    { lenz. unfold len in *. lia. }
    rewrite HL. destruct Hr as [Hs [Hl Hg]].
    split; [ | lia ]. split; [ exact Hs | ]. cbn [a_buf a_size]. rewrite HL. split; [ lia | ].
    intros i Hi. gzs. destruct (Z.ltb_spec i (len (a_buf a))).
    + apply Hg. lia.
    + destruct (Z.ltb_spec (i - len (a_buf a)) 0); [ lia | ]. rewrite Hbg by (unfold len in *; lia).
      destruct (Z.ltb_spec i (len l)); [ lia | reflexivity ].
  - right. unfold resize_storage, alloc_buffer.
    destruct (Z.ltb_spec c MAX_ARRAY_SIZE); [ lia | reflexivity ].
Qed.

Definition resized (l : list V) (n : Z) : list V := firstn (Z.to_nat n) l ++ repeat void (Z.to_nat (n - len l)).

Lemma len_resized : forall l n, 0 <= n -> len (resized l n) = n.
Proof. intros l n H. unfold resized. lenz. pose proof (len_nonneg _ l). lia. Qed.

Lemma gz_resized : forall l n i, 0 <= i < n -> gz (resized l n) i = if i <? len l then gz l i else Some void.
Proof.
  intros l n i Hi. unfold resized. gzs. lenz. pose proof (len_nonneg _ l).
  destruct (Z.ltb_spec i (Z.min (Z.of_nat (Z.to_nat n)) (len l))).
  - destruct (Z.ltb_spec i (Z.of_nat (Z.to_nat n))); [ | lia ].
    destruct (Z.ltb_spec i (len l)); [ reflexivity | lia ].
  - destruct (Z.ltb_spec i (len l)); [ lia | ].
    destruct (_ && _) eqn:E; [ reflexivity | lia ].
Qed.

Lemma resize_ok : forall a l n, rep a l -> 0 <= n < 2 ^ 32 ->
  (exists a', array_resize void a n = Ok a' /\ rep a' (resized l n)
     /\ len (a_buf a) <= len (a_buf a')) \/
  (array_resize void a n = Oom /\ 2 ^ 27 < n /\ len (a_buf a) < n).
Proof.
  intros a l n Hr Hn. change (2 ^ 27) with 134217728. change (2 ^ 32) with 4294967296 in Hn.
  unfold array_resize. rewrite zlen_len.
  assert (Hstep : forall a', rep a' l -> n <= len (a_buf a') -> len (a_buf a) <= len (a_buf a') ->
     exists a'', (if a_size a' <? n then
        do buf <- fill_slots (Z.to_nat (n - a_size a')) (a_buf a') (a_size a') (Some void); Ok (Arr n buf)
      else if n <? a_size a' then
        do buf <- fill_slots (Z.to_nat (a_size a' - n)) (a_buf a') n None; Ok (Arr n buf)
      else Ok (Arr n (a_buf a'))) = Ok a'' /\ rep a'' (resized l n) /\ len (a_buf a) <= len (a_buf a'')).
  { intros a' Hr' Hcap Hmono. pose proof (len_nonneg _ l). pose proof Hr' as [Hs [Hl Hg]]. rewrite Hs.
    destruct (Z.ltb_spec (len l) n).
    - destruct (fill_slots_ok (Z.to_nat (n - len l)) (a_buf a') (len l) (Some void)) as [r [Hf [Hrl Hrg]]];
        [ lia | lia | ].
      rewrite Hf. cbn [bind]. eexists. split; [ reflexivity | ]. cbn [a_buf]. rewrite Hrl. split; [ | lia ].
      split; [ cbn [a_size]; rewrite len_resized; lia | ]. cbn [a_buf]. rewrite len_resized, Hrl by lia.
      split; [ lia | ]. intros i Hi. rewrite Hrg.
      rewrite Hg by lia. destruct (Z.ltb_spec i n).
      + rewrite gz_resized by lia.
        destruct ((len l <=? i) && (i <? len l + Z.of_nat (Z.to_nat (n - len l)))) eqn:E;
          destruct (Z.ltb_spec i (len l)); try lia; reflexivity.
      + destruct ((len l <=? i) && (i <? len l + Z.of_nat (Z.to_nat (n - len l)))) eqn:E; [ lia | ].
        destruct (Z.ltb_spec i (len l)); [ lia | reflexivity ].
    - destruct (Z.ltb_spec n (len l)).
      + destruct (fill_slots_ok (Z.to_nat (len l - n)) (a_buf a') n None) as [r [Hf [Hrl Hrg]]];
          [ lia | lia | ].
        rewrite Hf. cbn [bind]. eexists. split; [ reflexivity | ]. cbn [a_buf]. rewrite Hrl. split; [ | lia ].
        split; [ cbn [a_size]; rewrite len_resized; lia | ]. cbn [a_buf]. rewrite len_resized, Hrl by lia.
        split; [ lia | ]. intros i Hi. rewrite Hrg. rewrite Hg by lia.
        destruct (Z.ltb_spec i n).
        * rewrite gz_resized by lia. destruct (Z.ltb_spec i (len l)); [ | lia ].
          destruct ((n <=? i) && (i <? n + Z.of_nat (Z.to_nat (len l - n)))) eqn:E; [ lia | reflexivity ].
        * destruct (Z.ltb_spec i (len l)).
          -- destruct ((n <=? i) && (i <? n + Z.of_nat (Z.to_nat (len l - n)))) eqn:E; [ reflexivity | lia ].
          -- destruct ((n <=? i) && (i <? n + Z.of_nat (Z.to_nat (len l - n)))); reflexivity.
      + eexists. split; [ reflexivity | ]. cbn [a_buf]. split; [ | lia ].
        replace (resized l n) with l; [ split; [ cbn [a_size]; lia | exact (conj Hl Hg) ] | ].
        unfold resized. replace (Z.to_nat (n - len l)) with O by lia. cbn [repeat].
        rewrite app_nil_r. symmetry. apply firstn_all2. unfold len in *. lia. }
  destruct (Z.ltb_spec (len (a_buf a)) n).
  - pose proof Hr as [_ [Hcap _]]. unfold CAPMAX in Hcap. pose proof (len_nonneg _ l).
    set (c := Z.max (u32 (len (a_buf a) * 2)) n).
    assert (Hc : c = Z.max (len (a_buf a) * 2) n).
    { unfold c, u32, uwrap. change (2 ^ 32) with 4294967296. rewrite Z.mod_small by lia. reflexivity. }
    destruct (reserve_ok a l c Hr ltac:(lia)) as [R1 R2].
    destruct (Z.lt_ge_cases c MAX_ARRAY_SIZE) as [Hm|Hm].
    + destruct (R1 Hm) as [a' [E [Hr' [Hcap' Hmono]]]]. rewrite E. cbn [bind]. left. apply Hstep; [ exact Hr' | lia | lia ].
    + right. unfold MAX_ARRAY_SIZE in Hm.
      destruct (R2 Hm) as [[Hle E]|E]; [ lia | ].
      rewrite E. cbn [bind]. split; [ reflexivity | lia ].
  - cbn [bind]. left. apply Hstep; [ exact Hr | lia | lia ].
Qed.

(* ---- index arithmetic ---- *)

Lemma fix_index_pos : forall n i, 0 <= n -> fix_index i n = pos_of n i.
Proof.
  intros n i Hn. unfold fix_index, pos_of.
  destruct (Z.ltb_spec i 0); ztest; lia.
Qed.

Lemma pos_of_range : forall n i, 0 <= n -> 0 <= pos_of n i <= n.
Proof. intros. unfold pos_of. lia. Qed.

Lemma bufidx_spec : forall n i, 0 <= n <= CAPMAX -> - 2 ^ 31 <= i < 2 ^ 31 ->
  if bufidx n i <? n
  then elem_pos n i = Some (Z.to_nat (bufidx n i)) /\ 0 <= bufidx n i
  else elem_pos n i = None.
Proof.
  intros n i Hn Hi. unfold CAPMAX in Hn. change (2 ^ 31) with 2147483648 in Hi.
  unfold bufidx, elem_pos, u32, uwrap. change (2 ^ 32) with 4294967296.
  destruct (Z.ltb_spec i 0).
  - assert (E : i mod 4294967296 = i + 4294967296) by (symmetry; apply Z.mod_unique with (-1); lia).
    rewrite E. destruct (Z.leb_spec 0 i); [ lia | ]. cbn [andb].
    destruct (Z.leb_spec (- n) i).
    + assert (E2 : (i + 4294967296 + n) mod 4294967296 = i + n) by (symmetry; apply Z.mod_unique with 1; lia).
      rewrite E2. destruct (Z.ltb_spec (i + n) n); [ | lia ]. cbn [andb].
      split; [ f_equal; f_equal; lia | lia ].
    + rewrite Z.mod_small by lia. destruct (Z.ltb_spec (i + 4294967296 + n) n); [ lia | ]. reflexivity.
  - rewrite Z.mod_small by lia. destruct (Z.leb_spec 0 i); [ | lia ]. cbn [andb].
    destruct (Z.ltb_spec i n); [ split; [ reflexivity | lia ] | ].
    destruct (_ && _) eqn:E; [ lia | reflexivity ].
Qed.

Lemma elem_pos_out : forall n i, 0 <= n <= CAPMAX -> (2147483647 <? i) || (i <? -2147483648) = true ->
  elem_pos n i = None.
Proof.
  intros n i Hn H. unfold elem_pos, CAPMAX in *.
  destruct (_ && _) eqn:E; [ lia | ]. destruct ((- n <=? i) && _) eqn:E2; [ lia | reflexivity ].
Qed.

Lemma nth_gz : forall A (l : list A) i, 0 <= i -> nth_error l (Z.to_nat i) = gz l i.
Proof. intros. unfold gz. destruct (Z.ltb_spec i 0); [ lia | reflexivity ]. Qed.

Lemma replace_upd : forall A (l : list A) k x, replace l k x = upd l k x.
Proof. induction l; intros k x; destruct k; cbn [replace upd]; [ reflexivity .. | f_equal; apply IHl ]. Qed.

Lemma rep_upd : forall a l i v, rep a l -> 0 <= i < len l ->
  rep (Arr (a_size a) (upd (a_buf a) (Z.to_nat i) (Some v))) (upd l (Z.to_nat i) v).
Proof.
  intros a l i v [Hs [Hl Hg]] Hi. split; [ cbn [a_size]; rewrite upd_len; exact Hs | ].
  cbn [a_buf]. rewrite !upd_len. split; [ exact Hl | ]. intros j Hj.
  rewrite gz_upd_z by lia. destruct (Z.eqb_spec j i) as [->|].
  - rewrite gz_upd_z by lia. destruct (Z.ltb_spec i (len l)); [ | lia ]. rewrite Z.eqb_refl. reflexivity.
  - rewrite Hg by lia. rewrite gz_upd_z by lia. destruct (Z.eqb_spec j i); [ lia | reflexivity ].
Qed.

Lemma rep_len : forall a l, rep a l -> a_size a = len l /\ 0 <= len l <= CAPMAX.
Proof. intros a l [H [H1 _]]. pose proof (len_nonneg _ l). lia. Qed.

Lemma read_ok : forall a l i, rep a l -> - 2 ^ 31 <= i < 2 ^ 31 ->
  array_read a i = match elem_pos (len l) i with
                   | Some k => match nth_error l k with Some v => Ok v | None => Exn end
                   | None => Exn end.
Proof.
  intros a l i Hr Hi. destruct (rep_len _ _ Hr) as [Hs Hl]. unfold array_read. rewrite Hs.
  pose proof (bufidx_spec (len l) i Hl Hi) as Hb. destruct (Z.ltb_spec (bufidx (len l) i) (len l)).
  - destruct Hb as [-> Hb]. pose proof (rep_gz _ _ (bufidx (len l) i) Hr ltac:(lia)) as Hg.
    rewrite (ld_gz _ _ _ Hg). cbn [bind]. rewrite nth_gz by lia. reflexivity.
  - rewrite Hb. reflexivity.
Qed.

Lemma write_ok : forall a l i v, rep a l -> - 2 ^ 31 <= i < 2 ^ 31 ->
  match elem_pos (len l) i with
  | Some k => exists a', array_write a i v = Ok a' /\ rep a' (upd l k v)
  | None => array_write a i v = Exn
  end.
Proof.
  intros a l i v Hr Hi. destruct (rep_len _ _ Hr) as [Hs Hl]. unfold array_write. rewrite Hs.
  pose proof (bufidx_spec (len l) i Hl Hi) as Hb. destruct (Z.ltb_spec (bufidx (len l) i) (len l)).
  - destruct Hb as [-> Hb]. set (j := bufidx (len l) i) in *.
    destruct (gz_some _ l j ltac:(lia)) as [x Hx].
    pose proof (rep_gz _ _ j Hr ltac:(lia)) as Hg. rewrite Hx in Hg.
    rewrite (ld_gz _ _ _ Hg). cbn [bind]. destruct Hr as [Hr1 [Hr2 Hr3]].
    rewrite st_ok by lia. cbn [bind]. eexists. split; [ reflexivity | ].
    rewrite <- Hr1. apply rep_upd; [ exact (conj Hr1 (conj Hr2 Hr3)) | lia ].
  - rewrite Hb. reflexivity.
Qed.

Lemma cas_ok : forall a l i old new, rep a l -> - 2 ^ 31 <= i < 2 ^ 31 ->
  match elem_pos (len l) i with
  | Some k => exists x a', nth_error l k = Some x /\ array_cas veq a i old new = Ok (a', x) /\
       rep a' (if veq x old then upd l k new else l)
  | None => array_cas veq a i old new = Exn
  end.
Proof.
  intros a l i old new Hr Hi. destruct (rep_len _ _ Hr) as [Hs Hl]. unfold array_cas. rewrite Hs.
  pose proof (bufidx_spec (len l) i Hl Hi) as Hb. destruct (Z.ltb_spec (bufidx (len l) i) (len l)).
  - destruct Hb as [-> Hb]. set (j := bufidx (len l) i) in *.
    destruct (gz_some _ l j ltac:(lia)) as [x Hx].
    pose proof (rep_gz _ _ j Hr ltac:(lia)) as Hg. rewrite Hx in Hg.
    rewrite (ld_gz _ _ _ Hg). cbn [bind]. exists x. rewrite nth_gz by lia.
    destruct (veq x old).
    + pose proof Hr as [Hr1 [Hr2 Hr3]]. rewrite st_ok by lia. cbn [bind].
      eexists. split; [ exact Hx | split; [ reflexivity | ] ]. rewrite <- Hr1. apply rep_upd; [ exact Hr | lia ].
    + exists a. split; [ exact Hx | split; [ reflexivity | exact Hr ] ].
  - rewrite Hb. reflexivity.
Qed.

Lemma push_ok : forall a l v, rep a l ->
  (exists a', array_push a v = Ok (a', len l) /\ rep a' (l ++ [v])) \/
  (array_push a v = Oom /\ 2 ^ 27 < len l + 1).
Proof.
  intros a l v Hr. change (2 ^ 27) with 134217728.
  destruct (rep_len _ _ Hr) as [Hs Hl]. unfold array_push. rewrite Hs. change @zlen with @len.
  assert (Hstep : forall a', rep a' l -> len l < len (a_buf a') ->
    exists a'', (do _s <- ld (a_buf a') (len l); do buf <- st (a_buf a') (len l) (Some v);
                 Ok (Arr (len l + 1) buf, len l)) = Ok (a'', len l) /\ rep a'' (l ++ [v])).
  { intros a' Hr' Hc. rewrite (ld_gz _ _ _ (rep_gz_out _ _ (len l) Hr' ltac:(lia))). cbn [bind].
    rewrite st_ok by lia. cbn [bind]. eexists. split; [ reflexivity | ].
    destruct Hr' as [Hs' [Hl' Hg']].
    split; [ cbn [a_size]; lenz; lia | ]. cbn [a_buf]. rewrite upd_len. lenz. split; [ lia | ].
    intros i Hi. rewrite gz_upd_z by lia. gzs. destruct (Z.eqb_spec i (len l)) as [->|].
    - destruct (Z.ltb_spec (len l) (len l + (1 + 0))); [ | lia ].
      destruct (Z.ltb_spec (len l) (len l)); [ lia | ]. rewrite Z.sub_diag. reflexivity.
    - rewrite Hg' by lia. destruct (Z.ltb_spec i (len l)).
      + destruct (Z.ltb_spec i (len l + (1 + 0))); [ reflexivity | lia ].
      + destruct (Z.ltb_spec i (len l + (1 + 0))); [ lia | reflexivity ]. }
  destruct (Z.leb_spec (len (a_buf a)) (len l)).
  - pose proof Hr as [_ [Hcap _]]. unfold CAPMAX in Hcap.
    set (c := Z.max (u32 (len (a_buf a) * 2)) (len l + 1)).
    assert (Hc : c = Z.max (len (a_buf a) * 2) (len l + 1)).
    { unfold c, u32, uwrap. change (2 ^ 32) with 4294967296. rewrite Z.mod_small by lia. reflexivity. }
    destruct (reserve_ok a l c Hr ltac:(lia)) as [R1 R2].
    destruct (Z.lt_ge_cases c MAX_ARRAY_SIZE) as [Hm|Hm].
    + destruct (R1 Hm) as [a' [E [Hr' [Hcap' Hmono]]]]. rewrite E. cbn [bind]. left. apply Hstep; [ exact Hr' | lia ].
    + right. unfold MAX_ARRAY_SIZE in Hm. destruct (R2 Hm) as [[Hle E]|E]; [ lia | ].
      rewrite E. cbn [bind]. split; [ reflexivity | lia ].
  - cbn [bind]. left. apply Hstep; [ exact Hr | lia ].
Qed.

Lemma pop_ok : forall a l, rep a l ->
  match rev l with
  | [] => array_pop void a = Exn
  | v :: r => exists a', array_pop void a = Ok (a', v) /\ rep a' (rev r)
  end.
Proof.
  intros a l Hr. destruct (rep_len _ _ Hr) as [Hs Hl]. unfold array_pop. rewrite Hs.
  destruct (rev l) as [|v r] eqn:E.
  - apply (f_equal (@rev V)) in E. rewrite rev_involutive in E. subst l. reflexivity.
  - assert (El : l = rev r ++ [v]) by (rewrite <- (rev_involutive l), E; reflexivity).
    assert (Hlen : len l = len (rev r) + 1) by (rewrite El; lenz; lia).
    pose proof (len_nonneg _ (rev r)). unfold CAPMAX in Hl.
    destruct (Z.eqb_spec (len l) 0); [ lia | ].
    rewrite (read_ok a l (len l - 1) Hr) by lia. unfold elem_pos.
    destruct (_ && _) eqn:E2; [ | lia ]. rewrite nth_gz by lia.
    assert (Hg : gz l (len l - 1) = Some v).
    { rewrite El. gzs. lenz. destruct (Z.ltb_spec (len r + (1 + 0) - 1) (len r)); [ lia | ].
      destruct (Z.eqb_spec (len r + (1 + 0) - 1 - len r) 0); [ reflexivity | lia ]. }
    rewrite Hg. cbn [bind].
    destruct (resize_ok a l (len l - 1) Hr ltac:(lia)) as [[a' [Ea [Hr' _]]]|[_ [_ H2]]].
    + rewrite Ea. cbn [bind]. exists a'. split; [ reflexivity | ].
      replace (rev r) with (resized l (len l - 1)); [ exact Hr' | ].
      unfold resized. replace (Z.to_nat (len l - 1 - len l)) with O by lia. cbn [repeat]. rewrite app_nil_r.
      rewrite El. rewrite firstn_app. replace (Z.to_nat (len (rev r ++ [v]) - 1)) with (length (rev r)).
      * rewrite firstn_all, Nat.sub_diag. cbn [firstn]. apply app_nil_r.
      * lenz. unfold len. rewrite rev_length. lia.
    + destruct Hr as [_ [? _]]. lia.
Qed.

Lemma fill_loop_ok : forall n (l : list (option V)) i v,
  0 <= i -> i + Z.of_nat n <= len l ->
  (forall j, i <= j < i + Z.of_nat n -> exists x, gz l j = Some (Some x)) ->
  exists r, fill_loop n l i v = Ok r /\ len r = len l /\
    forall j, gz r j = if (i <=? j) && (j <? i + Z.of_nat n) then Some (Some v) else gz l j.
Proof.
  induction n; intros l i v H0 H1 Hs; cbn [fill_loop].
  - exists l. split; [ reflexivity | split; [ reflexivity | ] ]. intros j.
    destruct ((i <=? j) && (j <? i + Z.of_nat 0)) eqn:E; [ lia | reflexivity ].
  - destruct (Hs i ltac:(lia)) as [x Hx]. rewrite (ld_gz _ _ _ Hx). cbn [bind].
    rewrite st_ok by lia. cbn [bind].
    destruct (IHn (upd l (Z.to_nat i) (Some v)) (i + 1) v) as [r [Hr [Hl Hg]]]; [ lia | rewrite upd_len; lia | | ].
    + intros j Hj. rewrite gz_upd_z by lia. destruct (Z.eqb_spec j i); [ eauto | apply Hs; lia ].
    + exists r. split; [ exact Hr | ]. split; [ rewrite Hl; apply upd_len | ].
      intros j. rewrite Hg. rewrite gz_upd_z by lia.
      destruct ((i + 1 <=? j) && (j <? i + 1 + Z.of_nat n)) eqn:E;
        destruct ((i <=? j) && (j <? i + Z.of_nat (S n))) eqn:E2; try lia; try reflexivity;
        destruct (Z.eqb_spec j i); try lia; try reflexivity.
Qed.

Lemma gz_splice : forall A (l ins : list A) from to i, 0 <= from <= to -> to <= len l -> 0 <= i ->
  gz (splice l from to ins) i =
    if i <? from then gz l i
    else if i <? from + len ins then gz ins (i - from)
    else gz l (i - len ins + (to - from)).
Proof.
  intros A l ins from to i H1 H2 Hi. pose proof (len_nonneg _ ins). unfold splice. gzs. lenz.
  replace (Z.min (Z.of_nat (Z.to_nat from)) (len l)) with from by lia.
  destruct (Z.ltb_spec i from).
  - destruct (Z.ltb_spec i (Z.of_nat (Z.to_nat from))); [ reflexivity | lia ].
  - destruct (Z.ltb_spec (i - from) (len ins)).
    + destruct (Z.ltb_spec i (from + len ins)); [ reflexivity | lia ].
    + destruct (Z.ltb_spec i (from + len ins)); [ lia | ].
      destruct (Z.ltb_spec (i - from - len ins) 0); [ lia | ]. f_equal. lia.
Qed.

Lemma len_splice : forall A (l ins : list A) from to, 0 <= from <= to -> to <= len l ->
  len (splice l from to ins) = len l - (to - from) + len ins.
Proof. intros. unfold splice. lenz. lia. Qed.

Lemma fill_ok : forall a l b e v, rep a l ->
  exists a', array_fill a b e v = Ok a' /\ rep a' (list_fill l b e v).
Proof.
  intros a l b e v Hr. destruct (rep_len _ _ Hr) as [Hs Hl]. unfold array_fill. rewrite Hs.
  rewrite !fix_index_pos by lia. unfold list_fill. change @llen with @len.
  pose proof (pos_of_range (len l) b ltac:(lia)). pose proof (pos_of_range (len l) e ltac:(lia)).
  set (f := pos_of (len l) b) in *. set (t := pos_of (len l) e) in *.
  destruct Hr as [Hr1 [Hr2 Hr3]].
  destruct (Z.ltb_spec f t).
  - destruct (fill_loop_ok (Z.to_nat (t - f)) (a_buf a) f v) as [r [Hf [Hrl Hrg]]]; [ lia | lia | | ].
    + intros j Hj. rewrite Hr3 by lia. destruct (Z.ltb_spec j (len l)); [ | lia ].
      destruct (gz_some _ l j ltac:(lia)) as [x ->]. eauto.
    + rewrite Hf. cbn [bind]. eexists. split; [ reflexivity | ].
      assert (HL : len (splice l f t (repeat v (Z.to_nat (t - f)))) = len l).
      { rewrite len_splice by lia. lenz. lia. }
      split; [ cbn [a_size]; lia | ]. cbn [a_buf]. rewrite HL, Hrl. split; [ lia | ].
      intros i Hi. rewrite Hrg, Hr3 by lia. destruct (Z.ltb_spec i (len l)).
      * rewrite gz_splice by lia. lenz. rewrite Z2Nat.id by lia.
        destruct ((f <=? i) && (i <? f + (t - f))) eqn:E.
        -- destruct (Z.ltb_spec i f); [ lia | ]. destruct (Z.ltb_spec i (f + (t - f))); [ | lia ].
           rewrite gz_repeat. brk. reflexivity.
        -- destruct (Z.ltb_spec i f); [ reflexivity | ]. destruct (Z.ltb_spec i (f + (t - f))); [ lia | ].
           f_equal. f_equal. lia.
      * rewrite Z2Nat.id by lia. destruct ((f <=? i) && (i <? f + (t - f))) eqn:E; [ lia | reflexivity ].
  - replace (Z.to_nat (t - f)) with O by lia. cbn [fill_loop bind].
    eexists. split; [ reflexivity | ]. exact (conj eq_refl (conj Hr2 Hr3)).
Qed.

Lemma slice_loop_ok : forall n (buf : list (option V)) l i,
  0 <= i -> i + Z.of_nat n <= len l -> len l <= len buf ->
  (forall j, 0 <= j < len l -> gz buf j = Some (gz l j)) ->
  slice_loop n buf i = Ok (firstn n (skipn (Z.to_nat i) l)).
Proof.
  induction n; intros buf l i H0 H1 H2 Hg; cbn [slice_loop]; [ reflexivity | ].
  destruct (gz_some _ l i ltac:(lia)) as [x Hx]. pose proof (Hg i ltac:(lia)) as Hgi. rewrite Hx in Hgi.
  rewrite (ld_gz _ _ _ Hgi). cbn [bind]. rewrite (IHn buf l (i + 1)) by (assumption || lia). cbn [bind].
  f_equal. rewrite (gz_split _ _ _ _ Hx) at 2. rewrite skipn_app.
  assert (E : length (firstn (Z.to_nat i) l) = Z.to_nat i).
  { rewrite firstn_length. unfold len in *. lia. }
  rewrite (skipn_all2 (firstn (Z.to_nat i) l)) by lia. rewrite E, Nat.sub_diag. cbn [app skipn firstn].
  replace (Z.to_nat i + 1)%nat with (Z.to_nat (i + 1)) by lia. reflexivity.
Qed.

Lemma sub_len : forall A (l : list A) f t, 0 <= f <= t -> t <= len l -> len (sub l f t) = t - f.
Proof. intros. unfold sub. lenz. lia. Qed.

Lemma rep_fresh : forall (l : list V) b,
  len l <= len b <= CAPMAX -> (forall i, 0 <= i < len b -> gz b i = Some None) ->
  rep (Arr (len l) (map Some l ++ skipn (length (map Some l)) b)) l.
Proof.
  intros l b Hb Hg.
  assert (HL : len (map Some l ++ skipn (length (map Some l)) b) = len b).
  { lenz. rewrite map_length. unfold len in *. lia. }
  split; [ reflexivity | ]. cbn [a_buf]. rewrite HL. split; [ lia | ].
  intros i Hi. gzs. lenz. destruct (Z.ltb_spec i (len l)).
  - destruct (gz_some _ l i ltac:(lia)) as [x ->]. reflexivity.
  - destruct (Z.ltb_spec (i - len l) 0); [ lia | ]. rewrite map_length. apply Hg. unfold len in *. lia.
Qed.

Lemma slice_ok : forall a l b e, rep a l ->
  (exists s, array_slice a b e = Ok s /\ rep s (list_slice l b e)) \/
  (array_slice a b e = Oom /\ 2 ^ 27 < len l).
Proof.
  intros a l b e Hr. destruct (rep_len _ _ Hr) as [Hs Hl]. unfold array_slice, list_slice. rewrite Hs.
  change @llen with @len. rewrite !fix_index_pos by lia.
  pose proof (pos_of_range (len l) b ltac:(lia)). pose proof (pos_of_range (len l) e ltac:(lia)).
  set (f := pos_of (len l) b) in *. set (t := pos_of (len l) e) in *.
  assert (Hnil : rep (Arr 0 []) (@nil V)).
  { split; [ reflexivity | ]. cbn [a_buf]. rewrite !len_nil. unfold CAPMAX. split; [ lia | intros; lia ]. }
  destruct (Z.eqb_spec (len l) 0).
  { left. eexists. split; [ reflexivity | ]. unfold sub. replace (Z.to_nat (t - f)) with O by lia. exact Hnil. }
  set (t' := if t <? f then f else t).
  assert (Ht' : t' = Z.max f t) by (unfold t'; destruct (Z.ltb_spec t f); lia).
  unfold CAPMAX in Hl.
  assert (Eu : u32 (t' - f) = t' - f).
  { unfold u32, uwrap. apply Z.mod_small. change (2 ^ 32) with 4294967296. lia. }
  rewrite Eu. destruct (Z.eqb_spec (t' - f) 0).
  { left. eexists. split; [ reflexivity | ]. unfold sub. replace (Z.to_nat (t - f)) with O by lia. exact Hnil. }
  destruct (Z.lt_ge_cases (t' - f) MAX_ARRAY_SIZE).
  - destruct (alloc_buffer_ok (t' - f) ltac:(lia)) as [bb [Hb [Hbl Hbg]]]. rewrite Hb. cbn [bind].
    destruct Hr as [Hr1 [Hr2 Hr3]].
    assert (Hg : forall j, 0 <= j < len l -> gz (a_buf a) j = Some (gz l j)).
    { intros j Hj. rewrite Hr3 by lia. destruct (Z.ltb_spec j (len l)); [ reflexivity | lia ]. }
    rewrite (slice_loop_ok _ (a_buf a) l) by (assumption || lia).
    cbn [bind]. unfold copy_buf. change @zlen with @len.
    replace t' with t by lia. change (firstn (Z.to_nat (t - f)) (skipn (Z.to_nat f) l)) with (sub l f t).
    assert (Hsl : len (sub l f t) = t - f) by (apply sub_len; lia).
    lenz. destruct (Z.leb_spec (len (sub l f t)) (len bb)); [ | lia ]. cbn [bind].
    left. eexists. split; [ reflexivity | ]. apply rep_fresh; [ lia | exact Hbg ].
  - right. unfold alloc_buffer. destruct (Z.ltb_spec (t' - f) MAX_ARRAY_SIZE); [ lia | ].
    split; [ reflexivity | ]. unfold MAX_ARRAY_SIZE in *. lia.
Qed.

(* ---- insert ---- *)

Lemma full_list : forall n (buf : list (option V)),
  (forall i, 0 <= i < Z.of_nat n -> exists x, gz buf i = Some (Some x)) ->
  exists l, len l = Z.of_nat n /\ forall i, 0 <= i < Z.of_nat n -> gz buf i = Some (gz l i).
Proof.
  induction n; intros buf H.
  - exists []. split; [ reflexivity | intros; lia ].
  - destruct (IHn buf) as [l [Hl Hg]]; [ intros i Hi; apply H; lia | ].
    destruct (H (Z.of_nat n) ltac:(lia)) as [x Hx].
    exists (l ++ [x]). split; [ lenz; lia | ].
    intros i Hi. gzs. destruct (Z.ltb_spec i (len l)); [ apply Hg; lia | ].
    replace i with (Z.of_nat n) by lia. replace (Z.of_nat n - len l) with 0 by lia. exact Hx.
Qed.

Lemma gz_sub : forall A (l : list A) f t i, 0 <= f -> 0 <= i < t - f -> gz (sub l f t) i = gz l (f + i).
Proof.
  intros A l f t i Hf Hi. unfold sub. gzs. repeat brk. f_equal. lia.
Qed.

(* what the element moves must achieve *)
Definition moved (l spl : list V) (buf r : list (option V)) : Prop :=
  len r = len buf /\
  (forall i, 0 <= i < len spl -> gz r i = Some (gz spl i)) /\
  (forall i, len spl <= i < len l -> exists x, gz r i = Some (Some x)) /\
  (forall i, Z.max (len l) (len spl) <= i < len buf -> gz r i = Some None).

Section Moves.
Variables (l : list V) (buf : list (option V)) (db de sb se : Z).
Hypothesis Hdest : 0 <= db <= de /\ de <= len l.
Hypothesis Hsrc : 0 <= sb <= se.
Let sd := se - sb.
Let dd := de - db.
Hypothesis Hcap : Z.max (len l) (len l - dd + sd) <= len buf.
Hypothesis Hold : forall i, 0 <= i < len l -> gz buf i = Some (gz l i).
Hypothesis Htomb : forall i, Z.max (len l) (len l - dd + sd) <= i < len buf -> gz buf i = Some None.

Ltac movestep d s n :=
  let r := fresh "r" in let E := fresh "E" in let L := fresh "L" in let G := fresh "G" in
  destruct (move_ptr_ok _ d s n) as [r [E [L G]]]; [ .. | rewrite E; clear E ].

Lemma moved_intro : forall (ls : list V) r, se <= len ls -> len r = len buf ->
  (forall i, 0 <= i < db -> gz r i = gz buf i) ->
  (forall i, db <= i < db + sd -> gz r i = Some (gz ls (i - db + sb))) ->
  (forall i, db + sd <= i < len l - dd + sd -> gz r i = gz buf (i - sd + dd)) ->
  (forall i, len l - dd + sd <= i < len l -> exists j, 0 <= j < len l /\ gz r i = gz buf j) ->
  (forall i, Z.max (len l) (len l - dd + sd) <= i < len buf -> gz r i = gz buf i) ->
  moved l (splice l db de (sub ls sb se)) buf r.
Proof.
  intros ls r Hls Hlen H1 H2 H3 H4 H5.
  assert (HS : len (sub ls sb se) = sd) by (apply sub_len; lia).
  assert (HL : len (splice l db de (sub ls sb se)) = len l - dd + sd).
  { rewrite len_splice by lia. lia. }
  unfold moved. rewrite HL. split; [ exact Hlen | ]. split; [ | split ].
  - intros i Hi. rewrite gz_splice, HS by lia.
    destruct (Z.ltb_spec i db); [ rewrite H1, Hold by lia; reflexivity | ].
    destruct (Z.ltb_spec i (db + sd)).
    + rewrite H2, gz_sub by lia. f_equal. f_equal. lia.
    + rewrite H3, Hold by lia. f_equal.
  - intros i Hi. destruct (H4 i Hi) as [j [Hj E]]. rewrite E, Hold by lia.
    destruct (gz_some _ l j Hj) as [x ->]. eauto.
  - intros i Hi. rewrite H5 by lia. apply Htomb. lia.
Qed.

Lemma move_tail : de < len l \/ (de = len l /\ True) -> sd <> dd ->
  exists r, (if negb (sd =? dd) && (de <? len l)
             then move_ptr buf (de - dd + sd) de (len l - de) else Ok buf) = Ok r /\ len r = len buf /\
    forall j, gz r j = if (db + sd <=? j) && (j <? len l - dd + sd) then gz buf (j - sd + dd) else gz buf j.
Proof.
  intros _ Hne. destruct (Z.eqb_spec sd dd); [ lia | ]. cbn [negb andb].
  destruct (Z.ltb_spec de (len l)).
  - destruct (move_ptr_ok buf (de - dd + sd) de (len l - de)) as [r [E [L G]]]; try lia.
    exists r. split; [ exact E | split; [ exact L | ] ]. intros j. rewrite G. repeat brk; [ f_equal; lia | reflexivity ].
  - exists buf. split; [ reflexivity | split; [ reflexivity | ] ]. intros j. brk. reflexivity.
Qed.

(* inserting from another storage *)
Lemma moves_other : forall (ls : list V) sbuf, se <= len ls -> len ls <= len sbuf ->
  (forall i, 0 <= i < len ls -> gz sbuf i = Some (gz ls i)) ->
  exists r,
    (do buf1 <- (if negb (sd =? dd) && (de <? len l)
                 then move_ptr buf (de - dd + sd) de (len l - de) else Ok buf);
     if sd =? 0 then Ok buf1 else move_from (Z.to_nat sd) buf1 sbuf db sb) = Ok r /\
    moved l (splice l db de (sub ls sb se)) buf r.
Proof.
  intros ls sbuf Hls Hlb Hg.
  assert (Hr1 : exists r, (if negb (sd =? dd) && (de <? len l)
             then move_ptr buf (de - dd + sd) de (len l - de) else Ok buf) = Ok r /\ len r = len buf /\
    forall j, gz r j = if (db + sd <=? j) && (j <? len l - dd + sd) then gz buf (j - sd + dd) else gz buf j).
  { destruct (Z.eq_dec sd dd) as [Heq|Hne]; [ | apply move_tail; [ lia | exact Hne ] ].
    rewrite Heq, Z.eqb_refl. cbn [negb andb]. exists buf. split; [ reflexivity | split; [ reflexivity | ] ].
    intros j. brk; [ f_equal; lia | reflexivity ]. }
  destruct Hr1 as [r1 [E1 [L1 G1]]]. rewrite E1. cbn [bind].
  destruct (Z.eqb_spec sd 0).
  - exists r1. split; [ reflexivity | ]. apply moved_intro; [ lia | exact L1 | | | | | ]; intros i Hi.
    + rewrite G1. brk. reflexivity.
    + lia.
    + rewrite G1. brk. reflexivity.
    + exists i. split; [ lia | ]. rewrite G1. brk. reflexivity.
    + rewrite G1. brk. reflexivity.
  - destruct (move_from_ok (Z.to_nat sd) r1 sbuf db sb) as [r [E [L G]]]; try lia.
    exists r. split; [ exact E | ]. rewrite Z2Nat.id in G by lia.
    apply moved_intro; [ lia | lia | | | | | ]; intros i Hi.
    + rewrite G, !G1. repeat brk. reflexivity.
    + rewrite G. brk. apply Hg. lia.
    + rewrite G, !G1. repeat brk. reflexivity.
    + exists i. split; [ lia | ]. rewrite G, !G1. repeat brk. reflexivity.
    + rewrite G, !G1. repeat brk. reflexivity.
Qed.

(* inserting from itself, source before or after the replaced part *)
Lemma moves_self_apart : se <= len l -> se <= db \/ de <= sb /\ dd <= sd -> sd <> 0 ->
  exists r,
    (do buf1 <- (if negb (sd =? dd) && (de <? len l)
                 then move_ptr buf (de - dd + sd) de (len l - de) else Ok buf);
     move_ptr buf1 db (if de <=? sb then sb + (sd - dd) else sb) sd) = Ok r /\
    moved l (splice l db de (sub l sb se)) buf r.
Proof.
  intros Hls Hap Hnz.
  assert (Hr1 : exists r, (if negb (sd =? dd) && (de <? len l)
             then move_ptr buf (de - dd + sd) de (len l - de) else Ok buf) = Ok r /\ len r = len buf /\
    forall j, gz r j = if (db + sd <=? j) && (j <? len l - dd + sd) then gz buf (j - sd + dd) else gz buf j).
  { destruct (Z.eq_dec sd dd) as [Heq|Hne]; [ | apply move_tail; [ lia | exact Hne ] ].
    rewrite Heq, Z.eqb_refl. cbn [negb andb]. exists buf. split; [ reflexivity | split; [ reflexivity | ] ].
    intros j. brk; [ f_equal; lia | reflexivity ]. }
  destruct Hr1 as [r1 [E1 [L1 G1]]]. rewrite E1. cbn [bind].
  destruct (move_ptr_ok r1 db (if de <=? sb then sb + (sd - dd) else sb) sd) as [r [E [L G]]];
    [ lia | destruct (Z.leb_spec de sb); lia | lia | lia | destruct (Z.leb_spec de sb); lia | ].
  exists r. split; [ exact E | ].
  apply moved_intro; [ lia | lia | | | | | ]; intros i Hi.
  - rewrite G, !G1. repeat brk; reflexivity.
  - rewrite G. brk. rewrite G1. destruct (Z.leb_spec de sb).
    + brk. rewrite Hold by lia. f_equal. f_equal. lia.
    + brk. rewrite Hold by lia. reflexivity.
  - rewrite G, !G1. repeat brk; reflexivity.
  - exists i. split; [ lia | ]. rewrite G, !G1. repeat brk; reflexivity.
  - rewrite G, !G1. repeat brk; reflexivity.
Qed.

(* overlapping, the array shrinks or keeps its size *)
Lemma moves_self_shrink : se <= len l -> db < se -> sb < de -> sd <> 0 -> sd <= dd ->
  exists r,
    (do buf1 <- (if sb =? db then Ok buf else move_ptr buf db sb sd);
     if de <? len l then move_ptr buf1 (db + sd) de (len l - de) else Ok buf1) = Ok r /\
    moved l (splice l db de (sub l sb se)) buf r.
Proof.
  intros Hls Ho1 Ho2 Hnz Hle.
  assert (Hr1 : exists r, (if sb =? db then Ok buf else move_ptr buf db sb sd) = Ok r /\ len r = len buf /\
    forall j, gz r j = if (db <=? j) && (j <? db + sd) then gz buf (j - db + sb) else gz buf j).
  { destruct (Z.eqb_spec sb db) as [Heq|Hne].
    - exists buf. split; [ reflexivity | split; [ reflexivity | ] ]. intros j. brk; [ f_equal; lia | reflexivity ].
    - apply move_ptr_ok; lia. }
  destruct Hr1 as [r1 [E1 [L1 G1]]]. rewrite E1. cbn [bind].
  assert (Hr2 : exists r, (if de <? len l then move_ptr r1 (db + sd) de (len l - de) else Ok r1) = Ok r /\ len r = len r1 /\
    forall j, gz r j = if (db + sd <=? j) && (j <? len l - dd + sd) then gz r1 (j - sd + dd) else gz r1 j).
  { destruct (Z.ltb_spec de (len l)).
    - destruct (move_ptr_ok r1 (db + sd) de (len l - de)) as [r [E [L G]]]; try lia.
      exists r. split; [ exact E | split; [ exact L | ] ]. intros j. rewrite G. repeat brk; [ f_equal; lia | reflexivity ].
    - exists r1. split; [ reflexivity | split; [ reflexivity | ] ]. intros j. brk. reflexivity. }
  destruct Hr2 as [r [E [L G]]]. exists r. split; [ exact E | ].
  apply moved_intro; [ lia | lia | | | | | ]; intros i Hi.
  - rewrite G, !G1. repeat brk; reflexivity.
  - rewrite G, !G1. repeat brk. rewrite Hold by lia. reflexivity.
  - rewrite G, !G1. repeat brk; reflexivity.
  - exists i. split; [ lia | ]. rewrite G, !G1. repeat brk. reflexivity.
  - rewrite G, !G1. repeat brk; reflexivity.
Qed.

(* overlapping, the array grows *)
Lemma moves_self_grow : se <= len l -> db < se -> sb < de -> sd <> 0 -> dd < sd ->
  exists r,
    (let mid := Z.min (db + sd) se in
     do buf1 <- (if de <? len l then move_ptr buf (db + sd) de (len l - de) else Ok buf);
     do buf2 <- (if sb <? mid then move_ptr buf1 db sb (mid - sb) else Ok buf1);
     if mid <? se then move_ptr buf2 (db + mid - sb) (mid + sd - dd) (se - mid) else Ok buf2) = Ok r /\
    moved l (splice l db de (sub l sb se)) buf r.
Proof.
  intros Hls Ho1 Ho2 Hnz Hgt. cbv zeta. set (mid := Z.min (db + sd) se).
  assert (Hmid : mid <= db + sd /\ mid <= se /\ (mid = db + sd \/ mid = se)) by (unfold mid; lia).
  clearbody mid.
  assert (Hr1 : exists r, (if de <? len l then move_ptr buf (db + sd) de (len l - de) else Ok buf) = Ok r /\ len r = len buf /\
    forall j, gz r j = if (db + sd <=? j) && (j <? len l - dd + sd) then gz buf (j - sd + dd) else gz buf j).
  { destruct (Z.ltb_spec de (len l)).
    - destruct (move_ptr_ok buf (db + sd) de (len l - de)) as [r [E [L G]]]; try lia.
      exists r. split; [ exact E | split; [ exact L | ] ]. intros j. rewrite G. repeat brk; [ f_equal; lia | reflexivity ].
    - exists buf. split; [ reflexivity | split; [ reflexivity | ] ]. intros j. brk. reflexivity. }
  destruct Hr1 as [r1 [E1 [L1 G1]]]. rewrite E1. cbn [bind].
  destruct (Z.ltb_spec sb mid); [ | lia ].
  destruct (move_ptr_ok r1 db sb (mid - sb)) as [r2 [E2 [L2 G2]]]; try lia. rewrite E2. cbn [bind].
  assert (Hr3 : exists r, (if mid <? se then move_ptr r2 (db + mid - sb) (mid + sd - dd) (se - mid) else Ok r2) = Ok r /\ len r = len r2 /\
    forall j, gz r j = if (db + mid - sb <=? j) && (j <? db + sd) then gz r2 (j - (db - sb) + sd - dd) else gz r2 j).
  { destruct (Z.ltb_spec mid se).
    - destruct (move_ptr_ok r2 (db + mid - sb) (mid + sd - dd) (se - mid)) as [r [E [L G]]]; try lia.
      exists r. split; [ exact E | split; [ exact L | ] ]. intros j. rewrite G. repeat brk; [ f_equal; lia | reflexivity ].
    - exists r2. split; [ reflexivity | split; [ reflexivity | ] ]. intros j. brk. reflexivity. }
  destruct Hr3 as [r [E [L G]]]. exists r. split; [ exact E | ].
  apply moved_intro; [ lia | lia | | | | | ]; intros i Hi.
  - rewrite G, !G2, !G1. repeat brk; reflexivity.
  - rewrite G. brk.
    + rewrite !G2, !G1. repeat brk. rewrite Hold by lia. f_equal. f_equal. lia.
    + rewrite !G2, !G1. repeat brk. rewrite Hold by lia. reflexivity.
  - rewrite G, !G2, !G1. repeat brk; reflexivity.
  - lia.
  - rewrite G, !G2, !G1. repeat brk; reflexivity.
Qed.

End Moves.

Lemma u32_small : forall x, 0 <= x < 4294967296 -> u32 x = x.
Proof. intros x H. unfold u32, uwrap. apply Z.mod_small. exact H. Qed.

(* the last part: cut to the new size *)
Lemma finish_insert : forall l spl buf r size1,
  size1 = Z.max (len l) (len spl) -> size1 <= len buf <= CAPMAX ->
  moved l spl buf r ->
  exists a', (if len spl <? len l then array_resize void (Arr size1 r) (len spl) else Ok (Arr size1 r)) = Ok a' /\ rep a' spl.
Proof.
  intros l spl buf r size1 Hs Hcap [Hlen [H1 [H2 H3]]].
  pose proof (len_nonneg _ l). pose proof (len_nonneg _ spl).
  destruct (full_list (Z.to_nat size1) r) as [l2 [Hl2 Hg2]].
  { intros i Hi. destruct (Z.lt_ge_cases i (len spl)).
    - rewrite H1 by lia. destruct (gz_some _ spl i ltac:(lia)) as [x ->]. eauto.
    - apply H2. lia. }
  assert (Hrep : rep (Arr size1 r) l2).
  { split; [ cbn [a_size]; lia | ]. cbn [a_buf]. split; [ lia | ]. intros i Hi.
    destruct (Z.ltb_spec i (len l2)); [ apply Hg2; lia | apply H3; lia ]. }
  destruct (Z.ltb_spec (len spl) (len l)).
  - unfold CAPMAX in Hcap.
    destruct (resize_ok _ _ (len spl) Hrep ltac:(lia)) as [[a' [E [Hr' _]]]|[_ [_ Hx]]].
    + exists a'. split; [ exact E | ]. replace spl with (resized l2 (len spl)); [ exact Hr' | ].
      apply gz_ext; [ apply len_resized; lia | ]. rewrite len_resized by lia. intros i Hi.
      rewrite gz_resized by lia. destruct (Z.ltb_spec i (len l2)); [ | lia ].
      assert (Some (gz l2 i) = Some (gz spl i)) by (rewrite <- Hg2, <- H1 by lia; reflexivity). congruence.
    + cbn [a_buf] in Hx. lia.
  - eexists. split; [ reflexivity | ]. replace spl with l2; [ exact Hrep | ].
    apply gz_ext; [ lia | ]. intros i Hi.
    assert (Some (gz l2 i) = Some (gz spl i)) by (rewrite <- Hg2, <- H1 by lia; reflexivity). congruence.
Qed.

Definition src_rep (src : option arr) (l ls : list V) : Prop :=
  match src with None => ls = l | Some s => rep s ls end.

(* elements taken from the source *)
Definition src_part (ls : list V) (b e : Z) : list V :=
  if b =? e then [] else list_slice ls b e.

Lemma insert_ok : forall a l src ls b e sb se,
  rep a l -> src_rep src l ls ->
  (* not the case of inserting a later, shorter part of the same array *)
  (src = None ->
     let from := pos_of (len l) b in let to := Z.max from (pos_of (len l) e) in
     len (src_part l sb se) = 0 \/ pos_of (len l) sb < to \/ to - from <= len (src_part l sb se)) ->
  (exists a', array_insert void a b e src sb se = Ok a' /\ rep a' (list_insert l b e (src_part ls sb se))) \/
  (array_insert void a b e src sb se = Oom /\ 2 ^ 27 < len (list_insert l b e (src_part ls sb se))).
Proof.
  intros a l src ls b e sb0 se0 Hr Hsrc Hcond.
  destruct (rep_len _ _ Hr) as [Hs Hl].
  assert (Hlsl : 0 <= len ls <= CAPMAX /\ match src with None => a_size a | Some s => a_size s end = len ls).
  { destruct src as [s|]; cbn [src_rep] in Hsrc.
    - destruct (rep_len _ _ Hsrc). lia.
    - subst ls. lia. }
  destruct Hlsl as [Hll Hsl]. unfold CAPMAX in Hl, Hll.
  unfold array_insert. cbv zeta. rewrite Hsl, Hs. rewrite !fix_index_pos by lia.
  unfold list_insert. change @llen with @len. cbv zeta in Hcond.
  pose proof (pos_of_range (len l) b ltac:(lia)) as Hp1. pose proof (pos_of_range (len l) e ltac:(lia)) as Hp2.
  set (db := pos_of (len l) b) in *.
  replace (if pos_of (len l) e <? db then db else pos_of (len l) e) with (Z.max db (pos_of (len l) e)) by (destruct (Z.ltb_spec (pos_of (len l) e) db); lia).
  set (de := Z.max db (pos_of (len l) e)) in *.
  assert (Hde : db <= de <= len l) by lia. clearbody db de.
  set (ins := src_part ls sb0 se0) in *.
  (* normalised source range *)
  set (sb := if sb0 =? se0 then sb0 else pos_of (len ls) sb0).
  set (se := if sb0 =? se0 then se0 else if (if sb0 =? se0 then se0 else pos_of (len ls) se0) <? sb then sb else pos_of (len ls) se0).
  assert (Hse : (if sb0 =? se0 then if sb0 =? se0 then se0 else pos_of (len ls) se0
       else if (if sb0 =? se0 then se0 else pos_of (len ls) se0) <? sb
            then sb else if sb0 =? se0 then se0 else pos_of (len ls) se0) = se).
  { unfold se. destruct (sb0 =? se0); reflexivity. }
  rewrite Hse. clear Hse.
  pose proof (pos_of_range (len ls) sb0 ltac:(lia)) as Hq1. pose proof (pos_of_range (len ls) se0 ltac:(lia)) as Hq2.
  assert (Hsd : se - sb = len ins /\ (len ins = 0 \/ (0 <= sb <= se /\ se <= len ls /\ ins = sub ls sb se /\ sb = pos_of (len ls) sb0))).
  { unfold se, sb, ins, src_part. destruct (Z.eqb_spec sb0 se0).
    - rewrite len_nil. lia.
    - unfold list_slice. change @llen with @len. set (f := pos_of (len ls) sb0) in *. set (t := pos_of (len ls) se0) in *.
      destruct (Z.ltb_spec t f).
      + split; [ unfold sub; lenz; lia | left; unfold sub; lenz; lia ].
      + split; [ rewrite sub_len; lia | right ]. split; [ lia | split; [ lia | split; reflexivity ] ]. }
  destruct Hsd as [Hsd Hins]. pose proof (len_nonneg _ ins) as Hinn.
  assert (Hcond' : src = None -> len ins = 0 \/ sb < de \/ de - db <= len ins).
  { intros HN. specialize (Hcond HN). destruct Hins as [|[_ [_ [_ Esb]]]]; [ lia | ].
    subst src. cbn [src_rep] in Hsrc. subst ls. fold ins in Hcond. rewrite Esb. exact Hcond. }
  clear Hcond. rewrite Hsd.
  assert (Hinl : len ins <= len ls) by lia.
  assert (HL : len (splice l db de ins) = len l - (de - db) + len ins) by (apply len_splice; lia).
  rewrite (u32_small (de - db)) by lia. rewrite (u32_small (len ins)) by lia.
  rewrite (u32_small (len l - (de - db))) by lia. rewrite (u32_small (len l - (de - db) + len ins)) by lia.
  rewrite <- HL.
  (* the first resize *)
  assert (Hres : (exists a1, (if de - db <? len ins then array_resize void a (len (splice l db de ins)) else Ok a) = Ok a1 /\
       a_size a1 = Z.max (len l) (len (splice l db de ins)) /\
       a_size a1 <= len (a_buf a1) <= CAPMAX /\
       (forall i, 0 <= i < len l -> gz (a_buf a1) i = Some (gz l i)) /\
       (forall i, a_size a1 <= i < len (a_buf a1) -> gz (a_buf a1) i = Some None)) \/
     ((if de - db <? len ins then array_resize void a (len (splice l db de ins)) else Ok a) = Oom /\
        2 ^ 27 < len (splice l db de ins))).
  { destruct (Z.ltb_spec (de - db) (len ins)).
    - destruct (resize_ok a l (len (splice l db de ins)) Hr ltac:(lia)) as [[a1 [E [[Hr1 [Hr2 Hr3]] _]]]|[E [Hx _]]].
      + left. exists a1. split; [ exact E | ]. rewrite len_resized in * by lia.
        split; [ lia | split; [ lia | split ] ]; intros i Hi; rewrite Hr3 by lia.
        * destruct (Z.ltb_spec i (len (splice l db de ins))); [ | lia ]. rewrite gz_resized by lia.
          destruct (Z.ltb_spec i (len l)); [ reflexivity | lia ].
        * destruct (Z.ltb_spec i (len (splice l db de ins))); [ lia | reflexivity ].
      + right. split; [ exact E | exact Hx ].
    - left. exists a. split; [ reflexivity | ]. split; [ lia | ].
      pose proof Hr as [_ [Hc _]]. split; [ lia | split; intros i Hi ].
      + apply rep_gz; assumption.
      + apply (rep_gz_out a l); [ exact Hr | lia ]. }
  destruct Hres as [[a1 [E1 [Hs1 [Hc1 [Hold Htomb]]]]]|[E Hx]].
  2:{ rewrite E. cbn [bind]. right. split; [ reflexivity | exact Hx ]. }
  rewrite E1. cbn [bind]. clear E1.
  set (spl := splice l db de ins) in *.
  assert (Hcore : forall r, moved l spl (a_buf a1) r ->
     exists a', (if len ins <? de - db then array_resize void (Arr (a_size a1) r) (len spl) else Ok (Arr (a_size a1) r)) = Ok a' /\ rep a' spl).
  { intros r Hm. replace (len ins <? de - db) with (len spl <? len l) by (rewrite HL; lia).
    apply (finish_insert l spl (a_buf a1)); [ exact Hs1 | exact Hc1 | exact Hm ]. }
  assert (Hfin : forall (x : res (list (option V))), (exists r, x = Ok r /\ moved l spl (a_buf a1) r) ->
     exists a', (do buf' <- x;
        if len ins <? de - db then array_resize void (Arr (a_size a1) buf') (len spl) else Ok (Arr (a_size a1) buf')) = Ok a' /\ rep a' spl).
  { intros x [r [-> Hm]]. cbn [bind]. apply Hcore. exact Hm. }
  left. apply Hfin. clear Hfin Hcore.
  destruct (Z.eqb_spec (len ins) 0) as [Hz|Hnz].
  - (* nothing inserted *)
    rewrite !orb_true_r. assert (Ei : ins = []) by (destruct ins; [ reflexivity | rewrite len_cons in Hz; pose proof (len_nonneg _ ins); lia ]).
    destruct (moves_other l (a_buf a1) db de 0 0) with (ls := l) (sbuf := a_buf a1) as [r [E Hm]]; try lia; try assumption.
    + intros i Hi. apply Htomb. lia.
    + rewrite Z.sub_0_r in E. change (0 =? 0) with true in E. cbv iota in E.
      exists r. split.
      * rewrite Hz. exact E.
      * unfold spl. rewrite Ei. change (@nil V) with (sub l 0 0). exact Hm.
  - destruct Hins as [|[Hi1 [Hi2 [Hi3 Hi4]]]]; [ lia | ].
    assert (Htomb' : forall i, Z.max (len l) (len l - (de - db) + (se - sb)) <= i < len (a_buf a1) -> gz (a_buf a1) i = Some None)
      by (intros i Hi; apply Htomb; lia).
    rewrite orb_false_r. destruct src as [s|]; cbn [negb orb andb src_rep] in *.
    + destruct (moves_other l (a_buf a1) db de sb se) with (ls := ls) (sbuf := a_buf s) as [r [E Hm]]; try lia; try assumption.
      * destruct Hsrc as [_ [? _]]. lia.
      * intros i Hi. apply rep_gz; assumption.
      * exists r. split; [ | unfold spl; rewrite Hi3; exact Hm ]. rewrite Hsd in E.
        destruct (Z.eqb_spec (len ins) 0); [ lia | ]. exact E.
    + subst ls. specialize (Hcond' eq_refl).
      destruct ((se <=? db) || (de <=? sb)) eqn:Eap.
      * destruct (moves_self_apart l (a_buf a1) db de sb se) as [r [E Hm]]; try lia; try assumption.
        exists r. split; [ | unfold spl; rewrite Hi3; exact Hm ]. rewrite Hsd in E. rewrite <- E.
        destruct (Z.leb_spec de sb); [ | reflexivity ]. rewrite (u32_small (len ins - (de - db))) by lia. reflexivity.
      * destruct (Z.leb_spec (len ins) (de - db)).
        -- destruct (moves_self_shrink l (a_buf a1) db de sb se) as [r [E Hm]]; try lia; try assumption.
           exists r. split; [ | unfold spl; rewrite Hi3; exact Hm ]. rewrite Hsd in E. exact E.
        -- destruct (moves_self_grow l (a_buf a1) db de sb se) as [r [E Hm]]; try lia; try assumption.
           exists r. split; [ | unfold spl; rewrite Hi3; exact Hm ]. rewrite Hsd in E. exact E.
Qed.

(* ---- building a source array ---- *)

Lemma new_array_ok : forall n, 0 <= n < MAX_ARRAY_SIZE ->
  exists s, new_array void n = Ok s /\ rep s (repeat void (Z.to_nat n)).
Proof.
  intros n Hn. unfold new_array. destruct (Z.ltb_spec n MAX_ARRAY_SIZE); [ | lia ].
  destruct (Z.eqb_spec n 0) as [->|].
  - eexists. split; [ reflexivity | ]. split; [ reflexivity | ]. cbn [a_buf Z.to_nat repeat]. rewrite !len_nil.
    unfold CAPMAX. split; [ lia | intros; lia ].
  - destruct (alloc_buffer_ok n ltac:(lia)) as [b [Hb [Hbl Hbg]]]. rewrite Hb. cbn [bind].
    destruct (fill_slots_ok (Z.to_nat n) b 0 (Some void)) as [r [Hf [Hrl Hrg]]]; try lia.
    rewrite Hf. cbn [bind]. eexists. split; [ reflexivity | ].
    split; [ cbn [a_size]; lenz; lia | ]. cbn [a_buf]. lenz. split; [ lia | ].
    intros i Hi. rewrite Hrg, gz_repeat. repeat brk; try reflexivity. apply Hbg. lia.
Qed.

Lemma upd_app_mid : forall A (l1 l2 : list A) x y, upd (l1 ++ x :: l2) (length l1) y = l1 ++ y :: l2.
Proof. induction l1; intros; cbn [app length upd]; [ reflexivity | f_equal; apply IHl1 ]. Qed.

Lemma build_ok : forall rest done s, rep s (done ++ repeat void (length rest)) -> len (done ++ rest) < MAX_ARRAY_SIZE ->
  exists s', fold_left (fun r v => do x <- r; do y <- array_write (fst x) (snd x) v; Ok (y, snd x + 1)) rest (Ok (s, len done))
      = Ok (s', len done + len rest) /\ rep s' (done ++ rest).
Proof.
  induction rest as [|v rest IH]; intros done s Hr Hl.
  - cbn [fold_left length repeat] in *. rewrite app_nil_r in *. exists s. split; [ rewrite len_nil, Z.add_0_r; reflexivity | exact Hr ].
  - cbn [fold_left bind fst snd length repeat] in *. unfold MAX_ARRAY_SIZE in Hl. lenz_in Hl.
    pose proof (len_nonneg _ done). pose proof (len_nonneg _ rest).
    pose proof (write_ok s _ (len done) v Hr ltac:(lia)) as Hw.
    assert (Ep : elem_pos (len (done ++ void :: repeat void (length rest))) (len done) = Some (length done)).
    { unfold elem_pos. lenz. brk. f_equal. unfold len. lia. }
    rewrite Ep in Hw. destruct Hw as [a' [-> Hr']]. cbn [bind].
    rewrite upd_app_mid in Hr'.
    destruct (IH (done ++ [v]) a') as [s' [E Hs']].
    + rewrite <- app_assoc. exact Hr'.
    + unfold MAX_ARRAY_SIZE. lenz. lia.
    + exists s'. replace (len done + 1) with (len (done ++ [v])) by (lenz; lia). rewrite E.
      split; [ f_equal; f_equal; lenz; lia | ]. rewrite <- app_assoc in Hs'. exact Hs'.
Qed.

(* ---- simulation ---- *)

Lemma contents_rep : forall a l, rep a l -> contents_of a = l.
Proof.
  intros a l [Hs [Hl Hg]]. unfold contents_of. rewrite Hs.
  replace (firstn (Z.to_nat (len l)) (a_buf a)) with (map Some l).
  - clear. induction l; [ reflexivity | ]. cbn [map flat_map app]. f_equal. exact IHl.
  - pose proof (len_nonneg _ l). apply gz_ext; [ lenz; lia | ]. lenz. intros i Hi. gzs. brk. rewrite Hg by lia. brk.
    destruct (gz_some _ l i Hi) as [x ->]. reflexivity.
Qed.

Lemma nth_elem_pos : forall (l : list V) i k, elem_pos (len l) i = Some k -> exists v, nth_error l k = Some v.
Proof.
  intros l i k H. destruct (nth_error l k) eqn:E; [ eauto | ]. exfalso.
  apply nth_error_None in E. unfold elem_pos in H. unfold len in *.
  destruct ((0 <=? i) && (i <? Z.of_nat (length l))) eqn:E1; [ inversion H; subst k; lia | ].
  destruct ((- Z.of_nat (length l) <=? i) && (i <? 0)) eqn:E2; [ inversion H; subst k; lia | discriminate ].
Qed.

Lemma resized_list_resize : forall l n, resized l n = list_resize void l n.
Proof. reflexivity. Qed.

Lemma s32_small : forall i, - 2 ^ 31 <= i < 2 ^ 31 -> s32 i = i.
Proof.
  intros i H. change (2 ^ 31) with 2147483648 in H. unfold s32, swrap.
  change (2 ^ 32) with 4294967296. change (2 ^ (32 - 1)) with 2147483648. cbv zeta.
  destruct (Z.lt_ge_cases i 0).
  - assert (E : i mod 4294967296 = i + 4294967296) by (symmetry; apply Z.mod_unique with (-1); lia).
    rewrite E. brk. lia.
  - rewrite Z.mod_small by lia. brk. reflexivity.
Qed.

Lemma list_slice_all : forall (l : list V), list_slice l 0 INT64_MAX = l \/ 2 ^ 62 < len l.
Proof.
  intros l. destruct (Z.lt_ge_cases (2 ^ 62) (len l)); [ right; assumption | left ].
  pose proof (len_nonneg _ l). unfold list_slice, pos_of. change @llen with @len.
  unfold INT64_MAX. change (2 ^ 62) with 4611686018427387904 in *. change (2 ^ 63) with 9223372036854775808.
  change (0 <? 0) with false. change (9223372036854775808 - 1 <? 0) with false. cbv iota. unfold sub.
  replace (Z.to_nat (Z.max 0 (Z.min (len l) 0))) with O by lia. cbn [skipn].
  apply firstn_all2. unfold len in *. lia.
Qed.

Lemma src_part_all : forall l : list V, len l <= CAPMAX -> src_part l 0 INT64_MAX = l.
Proof.
  intros l H. unfold src_part. change (0 =? INT64_MAX) with false. cbv iota.
  destruct (list_slice_all l) as [E|E]; [ exact E | unfold CAPMAX in H; lia ].
Qed.

Lemma step_ok : forall a l o, rep a l -> op_ok o ->
  exists a' r, model_step a o = Some (a', r) /\
    ((r = snd (list_step void veq l o) /\ rep a' (fst (list_step void veq l o))) \/
     (r = ROom /\ may_oom void veq l o /\ rep a' l)).
Proof.
  intros a l o Hr Hok. destruct (rep_len _ _ Hr) as [Hs Hl].
  destruct o as [i|i v|i old new|v| |n|n|b e v|b e|b e src|b e]; cbn [model_step list_step op_ok] in *; change @llen with @len in *.
  - (* read *)
    unfold vm_get. destruct ((2147483647 <? i) || (i <? -2147483648)) eqn:E.
    + rewrite (elem_pos_out _ _ Hl E). do 2 eexists. split; [ reflexivity | ]. left. split; [ reflexivity | exact Hr ].
    + rewrite (read_ok a l i Hr) by lia. destruct (elem_pos (len l) i) as [k|] eqn:Ek.
      * destruct (nth_elem_pos _ _ _ Ek) as [x Hx]. rewrite Hx.
        do 2 eexists. split; [ reflexivity | ]. left. split; [ reflexivity | exact Hr ].
      * do 2 eexists. split; [ reflexivity | ]. left. split; [ reflexivity | exact Hr ].
  - (* write *)
    unfold vm_set. destruct ((2147483647 <? i) || (i <? -2147483648)) eqn:E.
    + rewrite (elem_pos_out _ _ Hl E). do 2 eexists. split; [ reflexivity | ]. left. split; [ reflexivity | exact Hr ].
    + pose proof (write_ok a l i v Hr ltac:(lia)) as Hw. destruct (elem_pos (len l) i) as [k|].
      * destruct Hw as [a' [-> Hr']]. do 2 eexists. split; [ reflexivity | ]. left.
        cbn [fst snd]. rewrite replace_upd. split; [ reflexivity | exact Hr' ].
      * rewrite Hw. do 2 eexists. split; [ reflexivity | ]. left. split; [ reflexivity | exact Hr ].
  - (* cas *)
    unfold array_cas_method. rewrite s32_small by exact Hok.
    pose proof (cas_ok a l i old new Hr Hok) as Hw. destruct (elem_pos (len l) i) as [k|].
    + destruct Hw as [x [a' [Hx [-> Hr']]]]. rewrite Hx. do 2 eexists. split; [ reflexivity | ]. left.
      cbn [fst snd]. rewrite replace_upd. split; [ reflexivity | exact Hr' ].
    + rewrite Hw. do 2 eexists. split; [ reflexivity | ]. left. split; [ reflexivity | exact Hr ].
  - (* push *)
    destruct (push_ok a l v Hr) as [[a' [-> Hr']]|[-> Hx]]; do 2 eexists; (split; [ reflexivity | ]).
    + left. split; [ reflexivity | exact Hr' ].
    + right. split; [ reflexivity | ]. split; [ | exact Hr ]. left. cbn [list_step fst]. change @llen with @len. lenz. lia.
  - (* pop *)
    pose proof (pop_ok a l Hr) as Hp. destruct (rev l) as [|v r].
    + rewrite Hp. do 2 eexists. split; [ reflexivity | ]. left. split; [ reflexivity | exact Hr ].
    + destruct Hp as [a' [-> Hr']]. do 2 eexists. split; [ reflexivity | ]. left. split; [ reflexivity | exact Hr' ].
  - (* resize *)
    destruct (resize_ok a l n Hr Hok) as [[a' [-> [Hr' _]]]|[-> [Hx _]]]; do 2 eexists; (split; [ reflexivity | ]).
    + left. split; [ reflexivity | exact Hr' ].
    + right. split; [ reflexivity | ]. split; [ | exact Hr ]. left. cbn [list_step fst]. change @llen with @len.
      rewrite <- resized_list_resize, len_resized; lia.
  - (* reserve *)
    destruct (reserve_ok a l n Hr ltac:(lia)) as [R1 R2].
    destruct (Z.lt_ge_cases n MAX_ARRAY_SIZE) as [Hm|Hm].
    + destruct (R1 Hm) as [a' [-> [Hr' _]]]. do 2 eexists. split; [ reflexivity | ]. left. split; [ reflexivity | exact Hr' ].
    + destruct (R2 Hm) as [[_ E]|E]; rewrite E; do 2 eexists; (split; [ reflexivity | ]).
      * left. split; [ reflexivity | exact Hr ].
      * right. split; [ reflexivity | ]. split; [ | exact Hr ]. right. exists n. split; [ reflexivity | exact Hm ].
  - (* fill *)
    destruct (fill_ok a l b e v Hr) as [a' [-> Hr']]. do 2 eexists. split; [ reflexivity | ]. left. split; [ reflexivity | exact Hr' ].
  - (* slice *)
    destruct (slice_ok a l b e Hr) as [[s [-> Hr']]|[-> Hx]]; do 2 eexists; (split; [ reflexivity | ]).
    + left. cbn [fst snd]. rewrite (contents_rep _ _ Hr'). split; [ reflexivity | exact Hr ].
    + right. split; [ reflexivity | ]. split; [ left; exact Hx | exact Hr ].
  - (* insert another array *)
    change @zlen with @len. pose proof (len_nonneg _ src).
    destruct (new_array_ok (len src)) as [s [-> Hrs]]; [ unfold MAX_ARRAY_SIZE; lia | ]. cbn [bind].
    destruct (build_ok src [] s) as [s' [E Hrs']].
    { cbn [app]. replace (length src) with (Z.to_nat (len src)) by (unfold len; lia). exact Hrs. }
    { cbn [app]. unfold MAX_ARRAY_SIZE. lia. }
    rewrite len_nil in E. rewrite E. cbn [bind fst]. cbn [app] in Hrs'. unfold insert_array.
    destruct (rep_len _ _ Hrs') as [_ Hsl].
    destruct (insert_ok a l (Some s') src b e 0 INT64_MAX Hr Hrs') as [[a' [-> Hr']]|[-> Hx]];
      [ discriminate | | ]; rewrite src_part_all in * by lia; do 2 eexists; (split; [ reflexivity | ]).
    + left. split; [ reflexivity | exact Hr' ].
    + right. split; [ reflexivity | ]. split; [ left; exact Hx | exact Hr ].
  - (* insert into itself *)
    unfold insert_array.
    destruct (insert_ok a l None l b e 0 INT64_MAX Hr eq_refl) as [[a' [-> Hr']]|[-> Hx]].
    + intros _. cbv zeta. rewrite src_part_all by lia. pose proof (pos_of_range (len l) b ltac:(lia)).
      pose proof (pos_of_range (len l) e ltac:(lia)). lia.
    + rewrite src_part_all in Hr' by lia. do 2 eexists. split; [ reflexivity | ]. left. split; [ reflexivity | exact Hr' ].
    + rewrite src_part_all in Hx by lia. do 2 eexists. split; [ reflexivity | ].
      right. split; [ reflexivity | ]. split; [ left; exact Hx | exact Hr ].
Qed.

Lemma run_ok : forall os a l, rep a l -> Forall op_ok os ->
  exists outs af lf, model_run a os = Some (outs, af) /\ trace_ok void veq l os outs lf /\ rep af lf.
Proof.
  induction os as [|o os IH]; intros a l Hr Hok.
  - exists [], a, l. split; [ reflexivity | split; [ constructor | exact Hr ] ].
  - inversion Hok as [|? ? Ho Hos]; subst. cbn [model_run].
    destruct (step_ok a l o Hr Ho) as [a' [r [-> [[-> Hr']|[-> [Hm Hr']]]]]].
    + destruct (IH _ _ Hr' Hos) as [outs [af [lf [-> [Ht Hf]]]]].
      do 3 eexists. split; [ reflexivity | split; [ constructor; exact Ht | exact Hf ] ].
    + destruct (IH _ _ Hr' Hos) as [outs [af [lf [-> [Ht Hf]]]]].
      do 3 eexists. split; [ reflexivity | split; [ constructor 3; [ exact Hm | exact Ht ] | exact Hf ] ].
Qed.

End Proofs.
