(* Proofs about pack: the loops over values, directives, whole formats. *)
From Coq Require Import ZArith List Lia Bool ZifyBool.
Import ListNotations.
From Verif Require Import Base ListZ Utf8Spec BufferModel BufferSpec BufferProofs ArrayProofs PackModel PackSpec PackProofs PackProofs2.
Local Open Scope Z_scope.
Ltac Zify.zify_post_hook ::= idtac.

Lemma gzv_app : forall A v B, gzv (A ++ v :: B) (len A) = Some v.
Proof.
  intros A v B. unfold gzv. pose proof (len_nonneg _ A). destruct (Z.ltb_spec (len A) 0); [lia |].
  rewrite to_nat_len, nth_error_app2 by lia. rewrite Nat.sub_diag. reflexivity.
Qed.
Lemma gzv_end : forall A, gzv A (len A) = None.
Proof.
  intros A. unfold gzv. pose proof (len_nonneg _ A). destruct (Z.ltb_spec (len A) 0); [reflexivity |].
  rewrite to_nat_len. apply nth_error_None. lia.
Qed.

Lemma loop_add : forall fp n m big c size st dst,
  (exists st', pack_loop fp n big c size st dst = PExn st') -> exists st', pack_loop fp (n + m) big c size st dst = PExn st'.
Proof.
  induction n as [| n IH]; intros m big c size st dst [st' H]; [discriminate |].
  cbn [pack_loop Nat.add] in *. destruct (gzv (p_data st) (p_idx st)); [| eauto].
  destruct (pack_one fp big c size (p_buf st) dst p) as [[b dst'] | |]; eauto.
Qed.

(* ---- fields with a size ---- *)
Lemma loop_sized : forall fp big c n sz, 0 < n -> n <> NOSIZE -> field_ok c (Some n) = true ->
  forall vs m pre y post A B, Forall wf_pv vs -> n * len vs <= len y -> (In VSelf vs -> pre <> []) ->
  len pre + len y <= sz ->
  match fields fp pre big c (Some n) vs with
  | Some x => exists y1 y2, y = y1 ++ y2 /\ len y1 = n * len vs /\ len x = len y1 /\
      pack_loop fp (length vs + m) big c n (mkpst (Buf sz (pre ++ y ++ post) false) (A ++ vs ++ B) (len A)) (len pre) =
      pack_loop fp m big c n (mkpst (Buf sz (pre ++ x ++ y2 ++ post) false) (A ++ vs ++ B) (len A + len vs)) (len pre + len x)
  | None => exists st', pack_loop fp (length vs + m) big c n (mkpst (Buf sz (pre ++ y ++ post) false) (A ++ vs ++ B) (len A)) (len pre) = PExn st'
  end.
Proof.
  intros fp big c n sz Hn NN FO. induction vs as [| v vs IH]; intros m pre y post A B WF LY SELF SZ.
  - cbn [fields length Nat.add]. exists [], y. change (len (@nil pv)) with 0. change (len (@nil Z)) with 0.
    rewrite !Z.add_0_r. repeat split; try reflexivity; lia.
  - inversion WF as [| v0 vs0 W1 W2]; subst. rewrite len_cons in *. pose proof (len_nonneg _ vs). pose proof (len_nonneg _ pre).
    assert (HM : n * (1 + len vs) = n + n * len vs) by lia. assert (0 <= n * len vs) by nia. 
    destruct (room_split [] y n ltac:(lia) ltac:(cbn [app]; change (len (@nil Z)) with 0; lia)) as (ya & yb & EY & La). cbn [app] in EY. subst y.
    rewrite len_app in *.
    pose proof (pack_one_sized fp big c n sz pre ya (yb ++ post) v Hn NN La FO W1) as P.
    rewrite <- (app_assoc ya yb post).
    assert (PS : v = VSelf -> pre <> [] /\ len pre + n <= sz).
    { intros ->. split; [apply SELF; left; reflexivity | pose proof (len_nonneg _ yb); lia]. }
    specialize (P PS). cbn [fields length Nat.add pack_loop]. cbn [p_data p_idx p_buf]. cbn [app]. rewrite gzv_app.
    destruct (field fp pre big c (Some n) v) as [x |].
    + destruct P as [P LX]. rewrite P.
      assert (SELF' : In VSelf vs -> pre ++ x <> []).
      { intros _ E. apply app_eq_nil in E. destruct E as [_ ->]. change (len (@nil Z)) with 0 in LX. lia. }
      specialize (IH m (pre ++ x) yb post (A ++ [v]) B W2 ltac:(lia) SELF' ltac:(rewrite len_app; lia)).
      rewrite !len_app in IH. rewrite <- !app_assoc in IH. cbn [app] in IH. change (len [v]) with 1 in IH. rewrite LX in IH.
      destruct (fields fp (pre ++ x) big c (Some n) vs) as [x' |]; cbn [option_map].
      * destruct IH as (y1 & y2 & -> & L1 & L2 & IH). exists (ya ++ y1), y2.
        split; [rewrite app_assoc; reflexivity |]. rewrite !len_app. repeat split; try lia. rewrite IH.
        rewrite <- !app_assoc. f_equal; [f_equal; lia | lia].
      * destruct IH as [st' IH]. exists st'. exact IH.
    + destruct P as [b' P]. rewrite P. eexists; reflexivity.
Qed.

(* ---- fields of size 0 ---- *)
Lemma loop_zero : forall fp big c sz d, 0 <= sz -> field_ok c (Some 0) = true ->
  forall vs m self A B, Forall wf_pv vs ->
  match fields fp self big c (Some 0) vs with
  | Some x => x = [] /\
      pack_loop fp (length vs + m) big c 0 (mkpst (Buf sz d false) (A ++ vs ++ B) (len A)) 0 =
      pack_loop fp m big c 0 (mkpst (Buf sz d false) (A ++ vs ++ B) (len A + len vs)) 0
  | None => exists st', pack_loop fp (length vs + m) big c 0 (mkpst (Buf sz d false) (A ++ vs ++ B) (len A)) 0 = PExn st'
  end.
Proof.
  intros fp big c sz d SZ FO. induction vs as [| v vs IH]; intros m self A B WF.
  - cbn [fields length Nat.add]. change (len (@nil pv)) with 0. rewrite !Z.add_0_r. split; reflexivity.
  - inversion WF as [| v0 vs0 W1 W2]; subst. rewrite len_cons.
    pose proof (pack_one_zero fp big c sz d v self FO W1 SZ) as P.
    cbn [fields length Nat.add pack_loop]. cbn [p_data p_idx p_buf]. cbn [app]. rewrite gzv_app.
    destruct (field fp self big c (Some 0) v) as [x |].
    + destruct P as [P ->]. rewrite P.
      specialize (IH m (self ++ []) (A ++ [v]) B W2). rewrite !len_app in IH. rewrite <- !app_assoc in IH. cbn [app] in IH.
      change (len [v]) with 1 in IH. rewrite (app_nil_r self) in *.
      destruct (fields fp self big c (Some 0) vs) as [x' |]; cbn [option_map].
      * destruct IH as [-> IH]. split; [reflexivity |]. rewrite IH. do 2 f_equal. lia.
      * exact IH.
    + destruct P as [b' P]. rewrite P. eexists; reflexivity.
Qed.

(* ---- strings without size ---- *)
Lemma string_room_nonneg : forall vs, 0 <= string_room vs.
Proof. induction vs as [| v vs IH]; cbn [string_room fold_right]; [lia |]. destruct v as [| | | | cs | |]; try exact IH. pose proof (len_nonneg _ (utf8 cs)). unfold string_room in IH. lia. Qed.
Lemma string_room_cons : forall v vs, string_room (v :: vs) = string_room [v] + string_room vs.
Proof. intros v vs. cbn [string_room fold_right]. unfold string_room. destruct v; lia. Qed.

Lemma loop_sizeless : forall fp big vs m b l dst A B, brep b l -> Forall wf_pv vs ->
  0 < len (b_data b) \/ ~ In (VStr []) vs -> len l + string_room vs <= CAP ->
  match fields fp l big 115 None vs with
  | Some x => exists b' dst', brep b' (l ++ x) /\ (0 < len (b_data b) -> 0 < len (b_data b')) /\ len x <= string_room vs /\
      pack_loop fp (length vs + m) big 115 NOSIZE (mkpst b (A ++ vs ++ B) (len A)) dst =
      pack_loop fp m big 115 NOSIZE (mkpst b' (A ++ vs ++ B) (len A + len vs)) dst'
  | None => exists st', pack_loop fp (length vs + m) big 115 NOSIZE (mkpst b (A ++ vs ++ B) (len A)) dst = PExn st'
  end.
Proof.
  intros fp big. induction vs as [| v vs IH]; intros m b l dst A B Hr WF ST RM.
  - cbn [fields length Nat.add]. exists b, dst. change (len (@nil pv)) with 0. rewrite !Z.add_0_r, app_nil_r. split; [exact Hr |]. split; [auto |]. split; [apply string_room_nonneg | reflexivity].
  - inversion WF as [| v0 vs0 W1 W2]; subst. rewrite len_cons. rewrite string_room_cons in RM. pose proof (string_room_nonneg vs).
    assert (ST1 : 0 < len (b_data b) \/ v <> VStr []) by (destruct ST as [ST | ST]; [left; exact ST | right; intros ->; apply ST; left; reflexivity]).
    pose proof (pack_one_sizeless fp big b l v dst Hr W1 ST1 ltac:(lia)) as P.
    cbn [fields length Nat.add pack_loop]. cbn [p_data p_idx p_buf]. cbn [app]. rewrite gzv_app.
    destruct (field fp l big 115 None v) as [x |].
    + destruct P as (b' & dst' & P & Hr' & ST' & LX). rewrite P.
      specialize (IH m b' (l ++ x) dst' (A ++ [v]) B Hr' W2 (or_introl ST') ltac:(rewrite len_app; lia)).
      rewrite !len_app in IH. rewrite <- !app_assoc in IH. cbn [app] in IH. change (len [v]) with 1 in IH.
      destruct (fields fp (l ++ x) big 115 None vs) as [x' |]; cbn [option_map].
      * destruct IH as (b2 & dst2 & Hr2 & ST2 & L2 & IH). exists b2, dst2. split; [rewrite app_assoc; exact Hr2 |]. split; [auto |]. split.
        -- rewrite len_app, string_room_cons. lia.
        -- rewrite IH. do 2 f_equal. lia.
      * exact IH.
    + destruct P as [b' P]. rewrite P. eexists; reflexivity.
Qed.

(* ---- one directive ---- *)

Lemma loop_end : forall fp m big c size b A dst, (0 < m)%nat ->
  exists st', pack_loop fp m big c size (mkpst b A (len A)) dst = PExn st'.
Proof.
  intros fp m big c size b A dst H. destruct m; [lia |]. cbn [pack_loop]. cbn [p_data p_idx]. rewrite gzv_end. eauto.
Qed.

Lemma firstn_in : forall (A : Type) n (l : list A) x, In x (firstn n l) -> In x l.
Proof. intros A n l x H. rewrite <- (firstn_skipn n l). apply in_or_app. left. exact H. Qed.
Lemma firstn_room : forall n vs, string_room (firstn n vs) <= string_room vs.
Proof.
  induction n as [| n IH]; intros vs; [apply string_room_nonneg |]. destruct vs as [| v vs]; [apply Z.le_refl |].
  cbn [firstn]. rewrite string_room_cons, (string_room_cons v vs). specialize (IH vs). lia.
Qed.
Lemma field_ok_any : forall d, dir_wf d -> d_chr d <> 120 ->
  field_ok (d_chr d) (d_size d) =
    negb (((d_chr d =? 117) || (d_chr d =? 105)) && negb ((size_num d =? 1) || (size_num d =? 2) || (size_num d =? 4) || (size_num d =? 8))) &&
    negb ((d_chr d =? 102) && negb ((size_num d =? 4) || (size_num d =? 8))).
Proof.
  intros d [_ W] N. unfold size_num, field_ok. destruct (d_size d) as [n |].
  - destruct W as [_ [[W _] | W]]; [contradiction |]. apply sized_in in W.
    destruct (Z.eqb_spec (d_chr d) 102) as [-> | N1]; [cbn [Z.eqb orb andb]; destruct ((n =? 4) || (n =? 8)); reflexivity |].
    destruct ((d_chr d =? 117) || (d_chr d =? 105)) eqn:E1; cbn [andb negb].
    + rewrite negb_involutive. destruct ((n =? 1) || (n =? 2) || (n =? 4) || (n =? 8)); reflexivity.
    + lia.
  - rewrite W. reflexivity.
Qed.
Lemma app_firstn_split : forall (A : Type) n (l : list A), n = len (firstn (Z.to_nat n) l) -> Z.to_nat n = length (firstn (Z.to_nat n) l).
Proof. intros A n l H. rewrite H at 1. apply to_nat_len. Qed.

Lemma pack_dir : forall fp d b l A vs, brep b l -> dir_wf d -> Forall wf_pv vs ->
  len l + dir_room d + string_room vs <= CAP -> len A + len vs < 2 ^ 32 ->
  (In VSelf vs -> l <> []) -> 0 < len (b_data b) \/ ~ In (VStr []) vs ->
  match dir_bytes fp l d vs with
  | Some (x, vs') => exists b' A', pack_format fp (mkpst b (A ++ vs) (len A)) (d_big d) (d_chr d) (size_num d) (d_count d) =
        POk (mkpst b' (A' ++ vs') (len A')) /\ A' ++ vs' = A ++ vs /\ brep b' (l ++ x) /\
        (0 < len (b_data b) -> 0 < len (b_data b')) /\ len x + string_room vs' <= dir_room d + string_room vs
  | None => exists st', pack_format fp (mkpst b (A ++ vs) (len A)) (d_big d) (d_chr d) (size_num d) (d_count d) = PExn st'
  end.
Proof.
  intros fp d b l A vs Hr WD WF RM LN SELF ST. pose proof (string_room_nonneg vs) as SR. pose proof (len_nonneg _ l) as L0.
  pose proof (len_nonneg _ A) as LA. pose proof (len_nonneg _ vs) as LV.
  assert (CNT : 0 <= d_count d <= 4294967289) by apply WD.
  unfold dir_bytes, pack_format, find_data. cbn [p_idx p_data p_buf].
  destruct (Z.ltb_spec (len A) 0); [lia |]. cbn [p_idx p_data p_buf].
  destruct (Z.eqb_spec (d_chr d) 120) as [C | C].
  - (* padding *)
    assert (SZ : d_size d = Some 1).
    { destruct WD as [_ W]. destruct (d_size d) as [n |].
      - destruct W as [_ [[_ ->] | W]]; [reflexivity |]. apply sized_in in W. lia.
      - lia. }
    unfold size_num, dir_room in *. rewrite SZ in *. change (1 =? NOSIZE) with false. change (1 =? 0) with false. cbn [negb andb].
    rewrite Z.mul_1_l in *.
    destruct (Z.eqb_spec (d_count d) 0) as [E0 | NE]; cbn [negb].
    + rewrite E0. cbn [Z.to_nat repeat]. exists b, A. rewrite app_nil_r. split; [reflexivity |]. split; [reflexivity |]. split; [exact Hr |]. split; [auto |]. change (len (@nil Z)) with 0. lia.
    + rewrite u32_small by (lia).
      destruct (make_room_ok b l (d_count d) Hr ltac:(lia) ltac:(lia) ltac:(lia)) as (y & z & E & Ly & Hc & Hp). rewrite E.
      cbn [b_data]. rewrite set_range_ok by (auto; lia). unfold set_data. cbn [b_size b_ext p_data p_idx].
      assert (LL : len (l ++ repeat 0 (Z.to_nat (d_count d)) ++ z) = len (l ++ y ++ z)) by (rewrite !len_app, len_repeat; lia).
      do 2 eexists. split; [reflexivity |]. split; [reflexivity |]. split; [| split].
      * rewrite app_assoc. apply brep_intro'; [| rewrite len_app, len_repeat; lia].
        rewrite <- app_assoc. unfold cap_ok in *. rewrite LL. exact Hc.
      * intros _. cbn [b_data]. rewrite LL. exact Hp.
      * rewrite len_repeat. lia.
  - rewrite field_ok_any by assumption.
    set (c1 := ((d_chr d =? 117) || (d_chr d =? 105)) && negb ((size_num d =? 1) || (size_num d =? 2) || (size_num d =? 4) || (size_num d =? 8))).
    set (c2 := (d_chr d =? 102) && negb ((size_num d =? 4) || (size_num d =? 8))).
    pose proof (field_ok_any d WD C) as FO. fold c1 c2 in FO.
    (* the room *)
    assert (ROOM : exists b1 dst, (if negb (size_num d =? NOSIZE) && negb (size_num d =? 0) && negb (d_count d =? 0)
        then buffer_make_room b (u32 (size_num d * d_count d)) else BOk (b, 0)) = BOk (b1, dst) /\
      match d_size d with
      | None => b1 = b
      | Some n => if (n =? 0) || (d_count d =? 0) then b1 = b /\ dst = 0
                  else exists y z, b1 = Buf (len l + n * d_count d) (l ++ y ++ z) false /\ dst = len l /\ len y = n * d_count d /\
                         cap_ok (l ++ y ++ z) /\ 0 < len (l ++ y ++ z)
      end).
    { unfold size_num, dir_room in *. destruct WD as [_ W]. destruct (d_size d) as [n |].
      - destruct W as [W _]. destruct (Z.eqb_spec n NOSIZE); [unfold NOSIZE in *; lia |]. cbn [negb andb].
        destruct (Z.eqb_spec n 0); cbn [negb andb orb]; [eauto |]. destruct (Z.eqb_spec (d_count d) 0); cbn [negb]; [eauto |].
        assert (0 < n * d_count d) by nia. rewrite u32_small by (lia).
        destruct (make_room_ok b l (n * d_count d) Hr ltac:(lia) ltac:(lia) ltac:(lia)) as (y & z & E & Ly & Hc & Hp).
        rewrite E. do 2 eexists. split; [reflexivity |]. exists y, z. auto.
      - change (NOSIZE =? NOSIZE) with true. cbn [negb andb]. eauto. }
    destruct ROOM as (b1 & dst & -> & ROOM). cbn [p_data p_idx p_buf].
    destruct c1 eqn:E1; cbn [negb andb]; [eauto |]. destruct c2 eqn:E2; cbn [negb andb]; [eauto |]. cbn [negb andb] in FO.
    change @blen with @len. rewrite len_app.
    (* the loop, for the values which exist *)
    set (k := Z.min (d_count d) (len vs)). set (m := (Z.to_nat (d_count d) - Z.to_nat k)%nat).
    set (ws := firstn (Z.to_nat k) vs). set (us := skipn (Z.to_nat k) vs).
    assert (EV : vs = ws ++ us) by (symmetry; apply firstn_skipn).
    assert (LW : length ws = Z.to_nat k). { unfold ws. rewrite firstn_length. unfold k, len in *. lia. }
    assert (LWZ : len ws = k) by (unfold len; rewrite LW; unfold k; lia).
    assert (NM : Z.to_nat (d_count d) = (length ws + m)%nat) by (rewrite LW; unfold m, k; lia).
    assert (WW : Forall wf_pv ws) by (rewrite EV in WF; apply Forall_app in WF; apply WF).
    assert (SW : In VSelf ws -> l <> []) by (intros I; apply SELF; rewrite EV; apply in_or_app; left; exact I).
    assert (STW : 0 < len (b_data b) \/ ~ In (VStr []) ws).
    { destruct ST as [ST | ST]; [left; exact ST | right; intros I; apply ST; rewrite EV; apply in_or_app; left; exact I]. }
    assert (SRV : string_room vs = string_room ws + string_room us).
    { rewrite EV. clear. induction ws as [| w ws IH]; [reflexivity |]. cbn [app]. rewrite string_room_cons, (string_room_cons w ws). lia. }
    pose proof (string_room_nonneg ws). pose proof (string_room_nonneg us).
    assert (LOOP : match fields fp l (d_big d) (d_chr d) (d_size d) ws with
      | Some x => exists b' dst',
          pack_loop fp (length ws + m) (d_big d) (d_chr d) (size_num d) (mkpst b1 (A ++ ws ++ us) (len A)) dst =
          pack_loop fp m (d_big d) (d_chr d) (size_num d) (mkpst b' (A ++ ws ++ us) (len A + len ws)) dst' /\
          (m = O -> brep b' (l ++ x) /\ (0 < len (b_data b) -> 0 < len (b_data b')) /\
                    len x <= dir_room d + string_room ws)
      | None => exists st', pack_loop fp (length ws + m) (d_big d) (d_chr d) (size_num d) (mkpst b1 (A ++ ws ++ us) (len A)) dst = PExn st'
      end).
    { unfold size_num, dir_room in *. destruct (d_size d) as [n |] eqn:DS.
      - pose proof (proj2 WD) as W. rewrite DS in W. destruct W as [W _].
        destruct (Z.eqb_spec n 0) as [-> | N0]; cbn [orb] in ROOM.
        + destruct ROOM as [-> ->]. destruct Hr as (R1 & R2 & R3). destruct b as [bs bd be]. cbn [b_size b_ext b_data] in *.
          subst be bs. pose proof (loop_zero fp (d_big d) (d_chr d) (len l) bd L0 FO ws m l A us WW) as P.
          destruct (fields fp l (d_big d) (d_chr d) (Some 0) ws) as [x |]; [| exact P]. destruct P as [-> P].
          do 2 eexists. split; [exact P |]. intros _. rewrite app_nil_r. split; [| split; [auto |]].
          * split; [reflexivity |]. split; [reflexivity |]. exact R3.
          * change (len (@nil Z)) with 0. lia.
        + destruct (Z.eqb_spec (d_count d) 0) as [C0 | C0].
          * destruct ROOM as [-> ->]. assert (K0 : ws = []) by (unfold ws, k; rewrite C0; replace (Z.min 0 (len vs)) with 0 by lia; reflexivity).
            rewrite K0. cbn [fields length Nat.add]. do 2 eexists. change (len (@nil pv)) with 0. rewrite Z.add_0_r. split; [reflexivity |].
            intros _. rewrite app_nil_r. split; [exact Hr | split; [auto |]]. rewrite C0, Z.mul_0_r. apply Z.le_refl.
          * destruct ROOM as (y & z & -> & -> & Ly & Hc & Hp).
            assert (NK : n * len ws <= n * d_count d) by (apply Z.mul_le_mono_nonneg_l; [lia | rewrite LWZ; unfold k; lia]).
            pose proof (loop_sized fp (d_big d) (d_chr d) n (len l + n * d_count d) ltac:(lia) ltac:(unfold NOSIZE; lia) FO
                          ws m l y z A us WW ltac:(lia) SW ltac:(lia)) as P.
            destruct (fields fp l (d_big d) (d_chr d) (Some n) ws) as [x |]; [| exact P].
            destruct P as (y1 & y2 & EY & Ly1 & Lx & P). do 2 eexists. split; [exact P |]. intros M0.
            assert (LC : len ws = d_count d) by (rewrite LWZ; unfold m, k in *; lia).
            assert (Y2 : y2 = []).
            { rewrite EY, len_app in Ly. rewrite Ly1, LC in Ly. destruct y2; [reflexivity |]. rewrite len_cons in Ly. pose proof (len_nonneg _ y2). lia. }
            subst y2. rewrite app_nil_r in EY. subst y1. cbn [app b_data].
            assert (LL : len (l ++ x ++ z) = len (l ++ y ++ z)) by (rewrite !len_app; lia).
            split; [| split].
            -- rewrite app_assoc. apply brep_intro'; [| rewrite len_app; lia]. rewrite <- app_assoc. unfold cap_ok in *. rewrite LL. exact Hc.
            -- intros _. rewrite LL. exact Hp.
            -- lia.
      - subst b1. pose proof (proj2 WD) as W. rewrite DS in W. rewrite W.
        pose proof (loop_sizeless fp (d_big d) ws m b l dst A us Hr WW STW ltac:(lia)) as P.
        destruct (fields fp l (d_big d) 115 None ws) as [x |]; [| exact P].
        destruct P as (b' & dst' & Hr' & ST' & LX & P). exists b', dst'. split; [exact P |]. intros _. split; [exact Hr' |]. split; [exact ST' | lia]. }
    rewrite <- NM, <- EV in LOOP. cbn [andb].
    destruct (Z.leb_spec (d_count d) (len vs)) as [LE | GT].
    + assert (K : k = d_count d) by (unfold k; lia). assert (M0 : m = O) by (unfold m; lia).
      assert (UM : u32 (len A + d_count d) = len A + d_count d) by (apply u32_small; change (2 ^ 32) with 4294967296 in *; lia).
      rewrite UM. destruct (Z.ltb_spec (len A + len vs) (len A + d_count d)); [lia |].
      unfold ws in LOOP. rewrite K in LOOP. fold ws.
      destruct (fields fp l (d_big d) (d_chr d) (d_size d) (firstn (Z.to_nat (d_count d)) vs)) as [x |] eqn:FE; cbn [option_map].
      * destruct LOOP as (b' & dst' & P & Q). destruct (Q M0) as (Q1 & Q2 & Q3). rewrite P, M0. cbn [pack_loop].
        assert (EU : skipn (Z.to_nat (d_count d)) vs = us) by (unfold us; rewrite K; reflexivity).
        assert (EW : firstn (Z.to_nat (d_count d)) vs = ws) by (unfold ws; rewrite K; reflexivity).
        rewrite EU. rewrite EW in *. exists b', (A ++ ws). rewrite <- app_assoc, <- EV, len_app. split; [reflexivity |]. split; [reflexivity |]. split; [exact Q1 |]. split; [exact Q2 | lia].
      * exact LOOP.
    + assert (MP : (0 < m)%nat) by (unfold m, k in *; lia).
      assert (KV : k = len vs) by (unfold k; lia).
      assert (EU : us = []) by (unfold us; rewrite KV, to_nat_len; apply skipn_all).
      destruct (Z.ltb_spec (len A + len vs) (u32 (len A + d_count d))); [eauto |].
      destruct (fields fp l (d_big d) (d_chr d) (d_size d) ws) as [x |]; [| exact LOOP].
      destruct LOOP as (b' & dst' & P & _). rewrite P. rewrite LWZ, KV, <- len_app. apply loop_end. exact MP.
Qed.

(* ---- all directives ---- *)

Lemma total_room_cons : forall d ds, total_room (d :: ds) = dir_room d + total_room ds.
Proof. reflexivity. Qed.
Lemma dir_room_nonneg : forall d, dir_wf d -> 0 <= dir_room d.
Proof. intros d [C W]. unfold dir_room. destruct (d_size d) as [n |]; [| lia]. destruct W as [W _]. nia. Qed.
Lemma total_room_nonneg : forall ds, Forall dir_wf ds -> 0 <= total_room ds.
Proof.
  induction 1 as [| d ds W F IH]; [apply Z.le_refl |]. rewrite total_room_cons. pose proof (dir_room_nonneg d W). lia.
Qed.

Lemma dir_bytes_suffix : forall fp l d vs x vs', dir_bytes fp l d vs = Some (x, vs') -> exists ws, vs = ws ++ vs'.
Proof.
  intros fp l d vs x vs'. unfold dir_bytes. destruct (d_chr d =? 120).
  - intros H. exists []. cbn [app]. congruence.
  - destruct (field_ok (d_chr d) (d_size d) && (d_count d <=? len vs)); [| discriminate].
    destruct (fields fp l (d_big d) (d_chr d) (d_size d) (firstn (Z.to_nat (d_count d)) vs)); cbn [option_map]; [| discriminate].
    intros H. exists (firstn (Z.to_nat (d_count d)) vs). assert (E : vs' = skipn (Z.to_nat (d_count d)) vs) by congruence.
    rewrite E. symmetry. apply firstn_skipn.
Qed.

Lemma pack_dirs : forall fp ds b l A vs, brep b l -> Forall dir_wf ds -> Forall wf_pv vs ->
  len l + total_room ds + string_room vs <= CAP -> len A + len vs < 2 ^ 32 ->
  (In VSelf vs -> l <> []) -> 0 < len (b_data b) \/ ~ In (VStr []) vs ->
  match layout_of fp l ds vs with
  | Some x => exists st', run_dirs (pack_format fp) ds (mkpst b (A ++ vs) (len A)) = POk st' /\ brep (p_buf st') (l ++ x)
  | None => exists st', run_dirs (pack_format fp) ds (mkpst b (A ++ vs) (len A)) = PExn st'
  end.
Proof.
  intros fp. induction ds as [| d ds IH]; intros b l A vs Hr WD WF RM LN SELF ST; cbn [layout_of run_dirs].
  - eexists. split; [reflexivity |]. rewrite app_nil_r. exact Hr.
  - inversion WD as [| d0 ds0 W1 W2]; subst. rewrite total_room_cons in RM. pose proof (total_room_nonneg ds W2).
    pose proof (pack_dir fp d b l A vs Hr W1 WF ltac:(lia) LN SELF ST) as P.
    destruct (dir_bytes fp l d vs) as [[x vs'] |] eqn:DB.
    + destruct P as (b' & A' & P & EA & Hr' & ST' & RM'). rewrite P.
      pose proof (dir_bytes_suffix _ _ _ _ _ _ DB) as IV.
      destruct IV as [ws EV].
      assert (X : len A' + len vs' < 2 ^ 32) by (rewrite <- len_app, EA, len_app; exact LN).
      specialize (IH b' (l ++ x) A' vs' Hr' W2). rewrite EV in WF. apply Forall_app in WF. destruct WF as [_ WF].
      specialize (IH WF ltac:(rewrite len_app; lia) X).
      assert (S1 : In VSelf vs' -> l ++ x <> []).
      { intros I E. apply app_eq_nil in E. destruct E as [E _]. apply SELF; [| exact E]. rewrite EV. apply in_or_app. right. exact I. }
      assert (S2 : 0 < len (b_data b') \/ ~ In (VStr []) vs').
      { destruct ST as [ST | ST]; [left; auto | right; intros I; apply ST; rewrite EV; apply in_or_app; right; exact I]. }
      specialize (IH S1 S2). destruct (layout_of fp (l ++ x) ds vs') as [x' |]; cbn [option_map].
      * destruct IH as (st' & IH & Hr2). exists st'. split; [exact IH |]. rewrite app_assoc. exact Hr2.
      * exact IH.
    + destruct P as [st' P]. rewrite P. eauto.
Qed.

Lemma values_split : forall s args, exists A, forall fp b d, pack_format fp (mkpst b (VStr s :: args) (-1)) (d_big d) (d_chr d) (size_num d) (d_count d) =
  pack_format fp (mkpst b (A ++ values_of args) (len A)) (d_big d) (d_chr d) (size_num d) (d_count d) /\ len A <= 1.
Proof.
  intros s args. unfold pack_format, find_data. cbn [p_idx p_data p_buf]. change (-1 <? 0) with true. cbv iota.
  assert (G : forall (A : list pv), len A <? 0 = false) by (intros A; pose proof (len_nonneg _ A); lia).
  destruct args as [| a args].
  { exists [VStr s]. intros. rewrite G. split; [reflexivity | discriminate]. }
  destruct a as [z | f | l | | cs | l |]; try (exists [VStr s]; intros; rewrite G; split; [reflexivity | discriminate]).
  exists []. intros. rewrite G. split; [reflexivity | discriminate].
Qed.

Lemma pack_all : forall fp ds b l s args, brep b l -> Forall dir_wf ds -> Forall wf_pv (values_of args) ->
  len l + total_room ds + string_room (values_of args) <= CAP -> len (values_of args) + 1 < 2 ^ 32 ->
  (In VSelf (values_of args) -> l <> []) -> 0 < len (b_data b) \/ ~ In (VStr []) (values_of args) ->
  match layout_of fp l ds (values_of args) with
  | Some x => exists st', run_dirs (pack_format fp) ds (mkpst b (VStr s :: args) (-1)) = POk st' /\ brep (p_buf st') (l ++ x)
  | None => exists st', run_dirs (pack_format fp) ds (mkpst b (VStr s :: args) (-1)) = PExn st'
  end.
Proof.
  intros fp ds b l s args Hr WD WF RM LN SELF ST. destruct ds as [| d ds].
  - cbn [layout_of run_dirs]. eexists. split; [reflexivity |]. rewrite app_nil_r. exact Hr.
  - destruct (values_split s args) as [A VS]. destruct (VS fp b d) as [VE LA].
    pose proof (pack_dirs fp (d :: ds) b l A (values_of args) Hr WD WF RM ltac:(lia) SELF ST) as P.
    cbn [run_dirs] in *. rewrite VE. exact P.
Qed.

