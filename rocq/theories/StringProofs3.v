(* Strings: lemmas about operations which create strings. *)
From Coq Require Import ZArith List Lia Bool ZifyBool.
Import ListNotations.
From Verif Require Import Base ListZ IndexModel ArraySpec ArrayProofs BufferProofs StringModel StringSpec
  StringProofs StringProofs2.
Local Open Scope Z_scope.
Ltac Zify.zify_post_hook ::= idtac.

Lemma wr_elems_ok : forall x y z src off, off = len x -> len src = len y ->
  wr_elems (x ++ y ++ z) off src = SOk (x ++ src ++ z).
Proof.
  intros x y z src off -> E. unfold wr_elems. change @slen with @len. rewrite !len_app.
  pose proof (len_nonneg _ x). pose proof (len_nonneg _ z).
  destruct (Z.leb_spec 0 (len x)); [ | lia ]. destruct (Z.leb_spec (len x + len src) (len x + (len y + len z))); [ | lia ].
  cbn [andb]. f_equal. rewrite firstn_app_len by reflexivity. do 2 f_equal.
  rewrite app_assoc. apply skipn_app_len. lenz. lia.
Qed.

Lemma emax_mono : forall v w, width_ok v -> width_ok w -> v <= w -> emax v <= emax w.
Proof. intros v w [->|[->| ->]] [->|[->| ->]] H; vm_compute; try discriminate; lia. Qed.

Lemma str_empty_kwf : kwf str_empty.
Proof. repeat split; cbn; try constructor; auto; lia. Qed.

Lemma mod8 : forall a w, width_ok w -> a mod 8 = 0 -> a mod 2 ^ w = 0.
Proof.
  intros a w W H. apply Z.mod_divide in H; [ | lia ]. destruct H as [k ->].
  destruct W as [->|[->| ->]]; [ change (2 ^ 0) with 1 | change (2 ^ 1) with 2 | change (2 ^ 2) with 4 ].
  - apply Z.mod_1_r.
  - replace (k * 8) with (k * 4 * 2) by lia. apply Z.mod_mul. lia.
  - replace (k * 8) with (k * 2 * 4) by lia. apply Z.mod_mul. lia.
Qed.

(* ---- concatenation ---- *)

Fixpoint texts (ss : list kstr) : list Z :=
  match ss with [] => [] | s :: t => k_codes s ++ texts t end.
Fixpoint cnt (ss : list kstr) : Z :=
  match ss with [] => 0 | s :: t => (if klen s =? 0 then 0 else 1) + cnt t end.

Lemma klen_len : forall s, klen s = len (k_codes s).
Proof. reflexivity. Qed.
Lemma cnt_le : forall ss, 0 <= cnt ss <= len (texts ss).
Proof.
  induction ss as [|s t IH]; cbn [cnt texts]; [ rewrite len_nil; lia | ]. rewrite len_app, klen_len.
  pose proof (len_nonneg _ (k_codes s)). destruct (Z.eqb_spec (len (k_codes s)) 0); lia.
Qed.
Lemma len_0_nil : forall (l : list Z), len l = 0 -> l = [].
Proof. intros [|x l] H; [ reflexivity | ]. rewrite len_cons in H. pose proof (len_nonneg _ l). lia. Qed.
Lemma cnt_0 : forall ss, cnt ss = 0 -> texts ss = [].
Proof.
  induction ss as [|s t IH]; cbn [cnt texts]; [ reflexivity | ]. rewrite klen_len. pose proof (cnt_le t).
  destruct (Z.eqb_spec (len (k_codes s)) 0) as [E|E]; intros H0; [ | lia ].
  rewrite (len_0_nil _ E). apply IH. lia.
Qed.
Lemma cnt_1 : forall ss s, cnt ss = 1 -> In s ss -> klen s <> 0 -> texts ss = k_codes s.
Proof.
  induction ss as [|x t IH]; intros s H I N; [ contradiction | ]. cbn [cnt texts] in *.
  rewrite klen_len in H, N. pose proof (cnt_le t). destruct I as [->|I].
  - destruct (Z.eqb_spec (len (k_codes s)) 0); [ contradiction | ]. rewrite cnt_0 by lia. apply app_nil_r.
  - destruct (Z.eqb_spec (len (k_codes x)) 0) as [E|E].
    + rewrite (len_0_nil _ E). apply (IH s); [ lia | exact I | exact N ].
    + assert (cnt t = 0) as C by lia. exfalso. clear - C I N. induction t as [|y t IH]; [ contradiction | ].
      cbn [cnt] in C. pose proof (cnt_le t). rewrite klen_len in C. destruct I as [->|I].
      * destruct (Z.eqb_spec (len (k_codes s)) 0); lia.
      * apply IH; [ exact I | destruct (len (k_codes y) =? 0) in C; lia ].
Qed.

Lemma lor_small : forall a b, 0 <= a <= 3 -> 0 <= b <= 3 -> 0 <= Z.lor a b <= 3.
Proof.
  intros a b Ha Hb.
  assert (a = 0 \/ a = 1 \/ a = 2 \/ a = 3) as [->|[->|[->| ->]]] by lia;
  assert (b = 0 \/ b = 1 \/ b = 2 \/ b = 3) as [->|[->|[->| ->]]] by lia; vm_compute; intuition congruence.
Qed.
Lemma lor_absorb : forall a b m, Z.lor (Z.lor a b) m = m -> Z.lor a m = m /\ Z.lor b m = m.
Proof.
  intros a b m H. split.
  - rewrite <- H at 1. rewrite <- H at 2. rewrite Z.lor_assoc, (Z.lor_assoc a a b), Z.lor_diag. reflexivity.
  - rewrite <- H at 1. rewrite <- H at 2. rewrite Z.lor_assoc, (Z.lor_comm a b), (Z.lor_assoc b b a), Z.lor_diag. reflexivity.
Qed.

Lemma add_scan_ok : forall ss a, Forall kwf ss -> 0 <= c_mash a <= 3 -> 0 <= c_len a -> 0 <= c_num a ->
  c_len a + len (texts ss) < 2 ^ 32 -> c_num a + cnt ss < 2 ^ 32 ->
  exists a', add_scan (map Some ss) a = Some a' /\ 0 <= c_mash a' <= 3 /\ Z.lor (c_mash a) (c_mash a') = c_mash a' /\
    Forall (fun s => Z.lor (k_w s) (c_mash a') = c_mash a') ss /\
    (c_ascii a' = true <-> c_ascii a = true /\ Forall (fun s => k_ascii s = true) ss) /\
    c_len a' = c_len a + len (texts ss) /\ c_num a' = c_num a + cnt ss /\
    (cnt ss = 0 -> c_non0 a' = c_non0 a) /\
    (cnt ss <> 0 -> exists s, c_non0 a' = Some s /\ In s ss /\ klen s <> 0).
Proof.
  induction ss as [|s t IH]; intros a F Hm Hl Hn Bl Bn; cbn [map add_scan texts cnt] in *.
  - exists a. rewrite len_nil. split; [ reflexivity | ]. split; [ exact Hm | ]. split; [ apply Z.lor_diag | ].
    split; [ constructor | ]. split; [ intuition constructor | ]. split; [ lia | ]. split; [ lia | ].
    split; [ auto | intros; contradiction ].
  - inversion F as [|? ? K Kt]. subst. rewrite len_app in Bl.
    pose proof (len_nonneg _ (texts t)). pose proof (cnt_le t). pose proof (len_nonneg _ (k_codes s)).
    assert (Ks : 0 <= k_w s <= 3) by (destruct K as [[W|[W|W]] _]; lia).
    rewrite klen_len in *.
    assert (El : u32 (c_len a + len (k_codes s)) = c_len a + len (k_codes s)) by (apply u32_small; lia).
    set (a1 := Acc _ _ _ _ _). destruct (IH a1 Kt) as [a' [R1 [R2 [R3 [R4 [R5 [R6 [R7 [R8 R9]]]]]]]]].
    + apply lor_small; assumption.
    + cbn. rewrite El. lia.
    + cbn. destruct (Z.eqb_spec (len (k_codes s)) 0); [ lia | ]. rewrite u32_small; lia.
    + cbn. rewrite El. lia.
    + cbn. destruct (Z.eqb_spec (len (k_codes s)) 0); [ lia | ]. rewrite u32_small; lia.
    + exists a'. split; [ exact R1 | ]. split; [ exact R2 | ].
      unfold a1 in *. cbn [c_mash c_ascii c_len c_num c_non0] in *.
      destruct (lor_absorb _ _ _ R3) as [L1 L2].
      split; [ exact L1 | ]. split; [ constructor; assumption | ].
      split. { rewrite R5, andb_true_iff. rewrite Forall_cons_iff. tauto. }
      rewrite El in R6. split; [ rewrite len_app; lia | ].
      destruct (Z.eqb_spec (len (k_codes s)) 0) as [E|E].
      * split; [ lia | ]. split; [ intros; apply R8; lia | ]. intros NZ. destruct R9 as [x [X1 [X2 X3]]]; [ lia | ].
        exists x. cbn [In]. auto.
      * rewrite u32_small in R7 by lia. split; [ lia | ]. split; [ intros; lia | ]. intros _.
        destruct (Z.eq_dec (cnt t) 0) as [C|C].
        -- exists s. rewrite R8 by exact C. cbn [In]. auto.
        -- destruct (R9 C) as [x [X1 [X2 X3]]]. exists x. cbn [In]. auto.
Qed.

Lemma add_copy_ok : forall dw ss x y, Forall (fun s => k_w s <= dw) ss -> len y = len (texts ss) ->
  len x + len (texts ss) < 2 ^ 32 ->
  add_copy dw (map Some ss) (len x) (x ++ y) = SOk (x ++ texts ss).
Proof.
  induction ss as [|s t IH]; intros x y F L B; cbn [map add_copy texts] in *.
  - rewrite len_nil in L. rewrite (len_0_nil _ L). reflexivity.
  - inversion F as [|? ? Ks Kt]. subst. rewrite len_app in L, B. pose proof (len_nonneg _ (texts t)).
    pose proof (len_nonneg _ (k_codes s)). pose proof (len_nonneg _ x).
    assert (E : init_empty_string dw (x ++ y) (len x) s =
      SOk ((x ++ k_codes s) ++ skipn (length (k_codes s)) y)).
    { unfold init_empty_string. change @slen with @len. destruct (Z.eqb_spec (len (k_codes s)) 0) as [E0|E0].
      - rewrite (len_0_nil _ E0). cbn [length skipn]. rewrite app_nil_r. reflexivity.
      - destruct (Z.ltb_spec dw (k_w s)); [ lia | ].
        rewrite <- (firstn_skipn (length (k_codes s)) y) at 1.
        rewrite wr_elems_ok; [ rewrite <- app_assoc; reflexivity | reflexivity | ]. unfold len in *. rewrite firstn_length. lia. }
    rewrite E. rewrite klen_len. rewrite u32_small by lia. rewrite <- len_app.
    rewrite IH; [ rewrite <- app_assoc; reflexivity | exact Kt | | ].
    + unfold len in *. rewrite skipn_length. lia.
    + rewrite len_app. lia.
Qed.

Lemma lor_width : forall k m, width_ok k -> 0 <= m <= 3 -> Z.lor k m = m ->
  k <= (if Z.land m 2 =? 2 then 2 else if Z.land m 1 =? 1 then 1 else 0).
Proof.
  intros k m K M. assert (m = 0 \/ m = 1 \/ m = 2 \/ m = 3) as [->|[->|[->| ->]]] by lia;
  destruct K as [->|[->| ->]]; vm_compute; intuition congruence.
Qed.

Lemma texts_forall : forall (P : Z -> Prop) ss, Forall (fun s => Forall P (k_codes s)) ss -> Forall P (texts ss).
Proof. induction 1; cbn [texts]; [ constructor | ]. apply Forall_app. auto. Qed.

Lemma string_add_ok : forall addr ss, addr mod 8 = 0 -> Forall kwf ss -> len (texts ss) < 2 ^ 32 ->
  (len (texts ss) <= 65535 /\ exists r, string_add addr (map Some ss) = SOk r /\ kwf r /\ k_codes r = texts ss) \/
  (65535 < len (texts ss) /\ string_add addr (map Some ss) = SExn).
Proof.
  intros addr ss Ha F B.
  assert (G : (exists s, ss = [s]) \/ (forall s, ss <> [s])).
  { destruct ss as [|s [|s2 t]]; [ right; intros; discriminate | left; eauto | right; intros; discriminate ]. }
  destruct G as [[s ->]|NS].
  { cbn [texts map string_add] in *. rewrite app_nil_r in *. inversion F as [|? ? K _]. subst.
    left. split; [ apply K | ]. exists s. auto. }
  destruct (add_scan_ok ss (Acc 0 true 0 0 None) F) as [a [R1 [R2 [R3 [R4 [R5 [R6 [R7 [R8 R9]]]]]]]]];
    cbn [c_mash c_len c_num c_ascii c_non0] in *; try lia; [ pose proof (cnt_le ss); lia | ].
  cbn [Z.add] in R6, R7.
  assert (E : string_add addr (map Some ss) =
      let '(w, asc) := if Z.land (c_mash a) 2 =? 2 then (2, false)
                       else if Z.land (c_mash a) 1 =? 1 then (1, false)
                       else (0, c_ascii a) in
      if (c_num a =? 1) && negb (c_len a =? 0)
      then match c_non0 a with Some s => SOk s | None => SBad end
      else if c_len a =? 0 then SOk str_empty
      else if c_len a <=? 0xFFFF
      then sdo codes <- add_copy w (map Some ss) 0 (new_elems (c_len a)) ;
           SOk (KStr w asc addr 0 codes)
      else SExn).
  { unfold string_add. rewrite R1. destruct ss as [|s [|s2 t]]; try reflexivity. destruct (NS s). reflexivity. }
  rewrite E. clear E. rewrite R6, R7.
  set (w := if Z.land (c_mash a) 2 =? 2 then 2 else if Z.land (c_mash a) 1 =? 1 then 1 else 0).
  set (asc := if Z.land (c_mash a) 2 =? 2 then false else if Z.land (c_mash a) 1 =? 1 then false else c_ascii a).
  replace (if Z.land (c_mash a) 2 =? 2 then (2, false) else if Z.land (c_mash a) 1 =? 1 then (1, false) else (0, c_ascii a))
    with (w, asc) by (unfold w, asc; destruct (_ =? 2); [ reflexivity | destruct (_ =? 1); reflexivity ]).
  assert (Ww : width_ok w) by (unfold w, width_ok; ifs; auto).
  assert (Fw : Forall (fun s => k_w s <= w) ss).
  { rewrite Forall_forall in *. intros s I. apply lor_width; [ apply (F s I) | exact R2 | apply (R4 s I) ]. }
  assert (Fc : Forall (fun c => 0 <= c < emax w) (texts ss)).
  { apply texts_forall. rewrite Forall_forall in *. intros s I. destruct (F s I) as [W [C _]].
    pose proof (emax_mono _ _ W Ww (Fw s I)). eapply Forall_impl; [ | exact C ]. cbv beta. intros; lia. }
  assert (As : asc = true -> w = 0 /\ Forall (fun c => c < 128) (texts ss)).
  { unfold asc, w. destruct (Z.land (c_mash a) 2 =? 2); [ discriminate | ].
    destruct (Z.land (c_mash a) 1 =? 1); [ discriminate | ]. intros A. split; [ reflexivity | ].
    apply R5 in A. destruct A as [_ A]. apply texts_forall. rewrite Forall_forall in *. intros s I.
    destruct (F s I) as [_ [_ [C _]]]. apply C. apply (A s I). }
  clearbody w asc.
  destruct ((cnt ss =? 1) && negb (len (texts ss) =? 0)) eqn:T.
  { destruct R9 as [s [S1 [S2 S3]]]; [ lia | ]. rewrite S1. assert (ET : texts ss = k_codes s) by (apply cnt_1; [ lia | assumption | assumption ]).
    rewrite Forall_forall in F. pose proof (F s S2) as K. left. rewrite ET. split; [ apply K | ]. exists s. auto. }
  destruct (Z.eqb_spec (len (texts ss)) 0) as [E0|E0].
  { left. split; [ lia | ]. exists str_empty. rewrite (len_0_nil _ E0). split; [ reflexivity | ]. split; [ apply str_empty_kwf | reflexivity ]. }
  destruct (Z.leb_spec (len (texts ss)) 65535) as [L|L]; [ left | right; split; [ exact L | reflexivity ] ].
  split; [ exact L | ].
  pose proof (len_nonneg _ (texts ss)).
  pose proof (add_copy_ok w ss [] (new_elems (len (texts ss))) Fw) as C. cbn [app] in C. rewrite len_nil in C.
  rewrite C; [ | unfold new_elems; lenz; lia | lia ].
  eexists. split; [ reflexivity | ]. split; [ | reflexivity ].
  repeat split; cbn [k_w k_codes k_ascii k_addr k_hash]; auto; try (apply As; assumption). apply mod8; assumption.
Qed.

Lemma add_scan_none : forall l a, In None l -> add_scan l a = None.
Proof.
  induction l as [|[s|] t IH]; intros a I; [ contradiction | | reflexivity ].
  cbn [add_scan]. apply IH. destruct I as [I|I]; [ discriminate | exact I ].
Qed.
Lemma string_add_exn : forall addr l, In None l -> string_add addr l = SExn.
Proof.
  intros addr l I. unfold string_add. rewrite add_scan_none by exact I.
  destruct l as [|[s|] [|? ?]]; try reflexivity. destruct I as [I|[]]. discriminate.
Qed.

(* ---- slice ---- *)

Lemma Forall_sub : forall (P : Z -> Prop) l b e, Forall P l -> Forall P (sub l b e).
Proof.
  intros P l b e F. rewrite Forall_forall in *. intros x I. apply F. unfold sub in I.
  apply In_nth_error in I. destruct I as [n I].
  rewrite <- (firstn_skipn (Z.to_nat b) l). apply in_or_app. right.
  rewrite <- (firstn_skipn (Z.to_nat (e - b)) (skipn (Z.to_nat b) l)). apply in_or_app. left.
  eapply nth_error_In; exact I.
Qed.

Lemma string_slice_ok : forall addr s b e, addr mod 8 = 0 -> kwf s ->
  exists r, string_slice addr s b e = SOk r /\ kwf r /\ k_codes r = list_slice (k_codes s) b e.
Proof.
  intros addr s b e Ha K. unfold string_slice, list_slice. rewrite klen_len. change @llen with @len.
  set (l := k_codes s) in *. set (n := len l) in *.
  assert (Hn : 0 <= n) by apply len_nonneg.
  destruct (Z.eqb_spec n 0) as [E0|E0].
  { exists str_empty. split; [ reflexivity | ]. split; [ apply str_empty_kwf | ].
    unfold n in E0. apply len_0_nil in E0. rewrite E0. unfold sub. rewrite skipn_nil, firstn_nil. reflexivity. }
  set (b1 := if b <? 0 then b + n else b). set (e1 := if e <? 0 then e + n else e).
  cbv zeta. set (b2 := if b1 <? 0 then 0 else b1). set (e2 := if n <? e1 then n else e1).
  set (e3 := if e2 <? b2 then b2 else e2).
  assert (Pb : pos_of n b = Z.min n b2) by (unfold b2, b1, pos_of; ifs; lia).
  assert (Pe : pos_of n e = Z.max 0 e2) by (unfold e2, e1, pos_of; ifs; lia).
  assert (Hb2 : 0 <= b2) by (unfold b2; ifs; lia). assert (He2 : e2 <= n) by (unfold e2; ifs; lia).
  assert (He3 : e3 = Z.max b2 e2) by (unfold e3; ifs; lia).
  clearbody e3 e2 b2. clear b1 e1. rewrite Pb, Pe.
  destruct (Z.eqb_spec (e3 - b2) n) as [E1|E1].
  { exists s. split; [ reflexivity | ]. split; [ exact K | ]. fold l.
    replace (Z.min n b2) with 0 by lia. replace (Z.max 0 e2) with n by lia. symmetry. apply sub_all. }
  destruct (Z.eqb_spec (e3 - b2) 0) as [E2|E2].
  { exists str_empty. split; [ reflexivity | ]. split; [ apply str_empty_kwf | ]. symmetry. apply sub_empty. lia. }
  destruct (Z.ltb_spec n (b2 + (e3 - b2))); [ lia | ].
  replace (Z.min n b2) with b2 by lia. replace (Z.max 0 e2) with e3 by lia.
  fold (sub l b2 e3).
  eexists. split; [ reflexivity | ]. split; [ | reflexivity ].
  destruct K as [K1 [K2 [K3 [K4 [K5 K6]]]]]. fold l n in K2, K3, K4.
  repeat split; cbn [k_w k_codes k_ascii k_addr k_hash].
  - exact K1.
  - apply Forall_sub. exact K2.
  - apply K3. assumption.
  - apply Forall_sub. apply K3. assumption.
  - rewrite len_sub_in; unfold n in *; lia.
  - destruct (_ <=? 16); [ apply mod8; assumption | ]. rewrite Z.shiftl_mul_pow2 by (destruct K1 as [->|[->| ->]]; lia).
    rewrite Z.mod_add; [ exact K5 | ]. destruct K1 as [->|[->| ->]]; discriminate.
  - left. reflexivity.
Qed.

(* ---- reverse, repeat ---- *)

Lemma reverse_loop_ok : forall src x y, len x = len src ->
  reverse_loop src (len src - 1) (x ++ y) = SOk (rev src ++ y).
Proof.
  induction src as [|c t IH]; intros x y L; cbn [reverse_loop rev].
  - rewrite len_nil in L. rewrite (len_0_nil _ L). reflexivity.
  - rewrite len_cons in *. pose proof (len_nonneg _ t).
    destruct (exists_last (l := x)) as [x' [d ->]]. { intros ->. rewrite len_nil in L. lia. }
    rewrite len_app in L. change (len [d]) with 1 in L.
    replace (1 + len t - 1) with (len t) by lia. rewrite <- app_assoc.
    rewrite wr_elems_ok by (reflexivity || lia). cbn [app].
    replace (x' ++ c :: y) with (x' ++ (c :: y)) by reflexivity.
    rewrite (IH x' (c :: y)) by lia. rewrite <- app_assoc. reflexivity.
Qed.

Lemma string_reverse_ok : forall addr s, addr mod 8 = 0 -> kwf s ->
  exists r, string_reverse addr s = SOk r /\ kwf r /\ k_codes r = rev (k_codes s).
Proof.
  intros addr s Ha K. unfold string_reverse. rewrite klen_len. set (l := k_codes s).
  pose proof (len_nonneg _ l) as Hn.
  destruct (Z.ltb_spec (len l) 2).
  - exists s. split; [ reflexivity | ]. split; [ exact K | ]. fold l. destruct l as [|a [|b t]]; try reflexivity.
    rewrite !len_cons in *. pose proof (len_nonneg _ t). lia.
  - pose proof (reverse_loop_ok l (new_elems (len l)) []) as R. rewrite !app_nil_r in R. rewrite R by (unfold new_elems; lenz; lia).
    eexists. split; [ reflexivity | ]. split; [ | reflexivity ].
    destruct K as [K1 [K2 [K3 [K4 [K5 K6]]]]]. fold l in K2, K3, K4.
    repeat split; cbn [k_w k_codes k_ascii k_addr k_hash].
    + exact K1.
    + apply Forall_rev. exact K2.
    + apply K3. assumption.
    + apply Forall_rev. apply K3. assumption.
    + rewrite len_rev. exact K4.
    + apply mod8; assumption.
    + left. reflexivity.
Qed.

Lemma repeat_text_len : forall n l, len (repeat_text n l) = Z.of_nat n * len l.
Proof. induction n; intros; cbn [repeat_text]; [ reflexivity | ]. rewrite len_app, IHn. lia. Qed.
Lemma repeat_text_forall : forall (P : Z -> Prop) n l, Forall P l -> Forall P (repeat_text n l).
Proof. induction n; intros; cbn [repeat_text]; [ constructor | ]. apply Forall_app. auto. Qed.

Lemma repeat_loop_ok : forall n fuel src x y, (n < fuel)%nat -> 0 < len src -> len y = Z.of_nat n * len src ->
  repeat_loop fuel src (len x) (len x + len y) (x ++ y) = SOk (x ++ repeat_text n src).
Proof.
  induction n; intros fuel src x y Hf Hs L; (destruct fuel; [ lia | ]); cbn [repeat_loop repeat_text].
  - destruct (Z.ltb_spec (len x) (len x + len y)); [ lia | ]. rewrite (len_0_nil y) by lia. reflexivity.
  - destruct (Z.ltb_spec (len x) (len x + len y)); [ | lia ].
    remember (len x + len y) as e eqn:Ee.
    rewrite <- (firstn_skipn (length src) y) at 1.
    assert (F : len (firstn (length src) y) = len src) by (unfold len in *; rewrite firstn_length; lia).
    rewrite wr_elems_ok by (reflexivity || (symmetry; exact F) || lia). change @slen with @len.
    replace e with (len (x ++ src) + len (skipn (length src) y)).
    2:{ rewrite Ee, len_app. unfold len in *. rewrite skipn_length. lia. }
    rewrite <- len_app. rewrite app_assoc. rewrite IHn; [ rewrite <- app_assoc; reflexivity | lia | exact Hs | ].
    unfold len in *. rewrite skipn_length. lia.
Qed.

Lemma string_repeat_ok : forall addr s n, addr mod 8 = 0 -> kwf s -> 0 <= n < 2 ^ 32 ->
  (n * klen s <= 65535 /\ exists r, string_repeat addr s n = SOk r /\ kwf r /\ k_codes r = repeat_text (Z.to_nat n) (k_codes s)) \/
  (65535 < n * klen s /\ string_repeat addr s n = SExn).
Proof.
  intros addr s n Ha K Hn. unfold string_repeat. rewrite klen_len. set (l := k_codes s) in *.
  pose proof (len_nonneg _ l) as Hl. assert (Ll : len l <= 65535) by apply K.
  destruct ((len l =? 0) || (n =? 0)) eqn:E0.
  { left. split; [ nia | ]. exists str_empty. split; [ reflexivity | ]. split; [ apply str_empty_kwf | ].
    symmetry. apply len_0_nil. rewrite repeat_text_len. nia. }
  destruct (Z.eqb_spec n 1) as [->|N1].
  { left. split; [ lia | ]. exists s. split; [ reflexivity | ]. split; [ exact K | ]. change (Z.to_nat 1) with 1%nat. cbn [repeat_text].
    symmetry. apply app_nil_r. }
  destruct (Z.ltb_spec 65535 n) as [B|B]; cbn [orb].
  { right. split; [ nia | reflexivity ]. }
  assert (U : u32 (len l * n) = n * len l) by (rewrite u32_small; nia). rewrite U.
  destruct (Z.ltb_spec 65535 (n * len l)) as [B2|B2]; [ right; split; [ exact B2 | reflexivity ] | left ].
  split; [ exact B2 | ].
  pose proof (repeat_loop_ok (Z.to_nat n) (S (Z.to_nat n)) l [] (new_elems (n * len l)) ltac:(lia) ltac:(lia)) as R.
  assert (LN : len (new_elems (n * len l)) = n * len l) by (unfold new_elems; lenz; nia).
  rewrite LN in R. cbn [app] in R. rewrite len_nil in R. cbn [Z.add] in R.
  rewrite R by (rewrite Z2Nat.id; lia). clear R.
  eexists. split; [ reflexivity | ]. split; [ | reflexivity ].
  destruct K as [K1 [K2 [K3 [K4 [K5 K6]]]]]. fold l in K2, K3, K4.
  repeat split; cbn [k_w k_codes k_ascii k_addr k_hash].
  - exact K1.
  - apply repeat_text_forall. exact K2.
  - apply K3. assumption.
  - apply repeat_text_forall. apply K3. assumption.
  - rewrite repeat_text_len. rewrite Z2Nat.id; lia.
  - apply mod8; assumption.
  - left. reflexivity.
Qed.

Lemma repeats_ok : forall addr s n, addr mod 8 = 0 -> kwf s ->
  (0 <= n <= 65535 /\ n * klen s <= 65535 /\
     exists r, repeats addr s n = SOk r /\ kwf r /\ k_codes r = repeat_text (Z.to_nat n) (k_codes s)) \/
  ((n < 0 \/ 65535 < n \/ 65535 < n * klen s) /\ repeats addr s n = SExn).
Proof.
  intros addr s n Ha K. unfold repeats.
  destruct ((n <? 0) || (65535 <? n) || (65535 <? n * klen s)) eqn:E.
  - right. split; [ lia | reflexivity ].
  - left. split; [ lia | ]. split; [ lia | ].
    destruct (string_repeat_ok addr s n Ha K ltac:(lia)) as [[_ R]|[R _]]; [ exact R | lia ].
Qed.

(* ---- characters ---- *)

Lemma size_code : forall m, 0 <= m < 2 ^ 32 ->
  let '(w, a) := string_size_from_max_code m in
  width_ok w /\ m < emax w /\ (a = true <-> m < 128) /\ (a = true -> w = 0) /\ (forall v, width_ok v -> m < emax v -> w <= v).
Proof.
  intros m H. unfold string_size_from_max_code. destruct emax_vals as [E0 [E1 E2]].
  destruct (Z.ltb_spec m 128); [ | destruct (Z.ltb_spec m 256); [ | destruct (Z.ltb_spec m 65536) ] ];
  (split; [ unfold width_ok; lia | ]); (split; [ lia | ]); (split; [ intuition lia | ]); (split; [ intuition lia | ]);
  intros v [->|[->| ->]] Hv; lia.
Qed.

Lemma uwrap_small : forall w c, width_ok w -> 0 <= c < emax w -> uwrap (8 * 2 ^ w) c = c.
Proof. intros w c W H. unfold uwrap. apply Z.mod_small. exact H. Qed.

Lemma get_char_code_ok : forall s i,
  string_get_char_code s i = match elem_pos (klen s) i with
    | Some k => match nth_error (k_codes s) k with Some c => SOk c | None => SExn end
    | None => SExn end.
Proof.
  intros s i. unfold string_get_char_code, elem_pos. rewrite klen_len. pose proof (len_nonneg _ (k_codes s)) as Hn.
  assert (NE : forall k, 0 <= k < len (k_codes s) -> exists c, nth_error (k_codes s) (Z.to_nat k) = Some c).
  { intros k Hk. destruct (gz_some _ (k_codes s) k Hk) as [c C]. exists c. rewrite gz_nth by lia. exact C. }
  destruct (Z.ltb_spec i 0).
  - destruct (Z.leb_spec 0 i); [ lia | ]. cbn [andb]. rewrite (Z.add_comm i).
    destruct ((0 <=? len (k_codes s) + i) && (len (k_codes s) + i <? len (k_codes s))) eqn:E.
    + replace (- len (k_codes s) <=? i) with true by lia. cbn [andb].
      destruct (NE (len (k_codes s) + i)) as [c ->]; [ lia | reflexivity ].
    + replace (- len (k_codes s) <=? i) with false by lia. reflexivity.
  - destruct ((0 <=? i) && (i <? len (k_codes s))) eqn:E.
    + destruct (NE i) as [c ->]; [ lia | reflexivity ].
    + rewrite andb_false_r. reflexivity.
Qed.

Lemma single_kwf : forall addr c, addr mod 8 = 0 -> 0 <= c < 2 ^ 32 ->
  let '(w, a) := string_size_from_max_code c in
  kwf (KStr w a addr 0 [uwrap (8 * 2 ^ w) c]) /\ uwrap (8 * 2 ^ w) c = c.
Proof.
  intros addr c Ha Hc. pose proof (size_code c Hc) as S. destruct (string_size_from_max_code c) as [w a].
  destruct S as [S1 [S2 [S3 [S4 _]]]]. rewrite uwrap_small by (assumption || lia). split; [ | reflexivity ].
  repeat split; cbn [k_w k_codes k_ascii k_addr k_hash]; auto.
  - constructor; [ lia | constructor ].
  - constructor; [ apply S3; assumption | constructor ].
  - change (len [c]) with 1. lia.
  - apply mod8; assumption.
Qed.

Lemma get_char_ok : forall addr s i, addr mod 8 = 0 -> kwf s ->
  match elem_pos (klen s) i with
  | Some k => exists c r, nth_error (k_codes s) k = Some c /\ string_get_char addr s i = SOk r /\ kwf r /\ k_codes r = [c]
  | None => string_get_char addr s i = SExn
  end.
Proof.
  intros addr s i Ha K. unfold string_get_char. rewrite get_char_code_ok.
  destruct (elem_pos (klen s) i) as [k|] eqn:E; [ | reflexivity ].
  assert (Hk : exists c, nth_error (k_codes s) k = Some c).
  { assert (k < length (k_codes s))%nat.
    { revert E. unfold elem_pos. rewrite klen_len. unfold len. ifs; intros E; inversion E; lia. }
    destruct (nth_error (k_codes s) k) eqn:N; [ eauto | ]. apply nth_error_None in N. lia. }
  destruct Hk as [c C]. rewrite C. exists c.
  assert (Bc : 0 <= c < 2 ^ 32).
  { destruct K as [K1 [K2 _]]. rewrite Forall_forall in K2. specialize (K2 c (nth_error_In _ _ C)). cbv beta in K2.
    pose proof (width_emax _ K1). lia. }
  pose proof (single_kwf addr c Ha Bc) as S. destruct (string_size_from_max_code c) as [w a]. destruct S as [S1 S2].
  eexists. split; [ reflexivity | ]. split; [ reflexivity | ]. split; [ exact S1 | ]. cbn [k_codes]. rewrite S2. reflexivity.
Qed.

(* ---- from codes ---- *)

Lemma lor_lt : forall a b k, 0 <= k -> 0 <= a -> 0 <= b -> (Z.lor a b < 2 ^ k <-> a < 2 ^ k /\ b < 2 ^ k).
Proof.
  intros a b k Hk Ha Hb. assert (H0 : 0 <= Z.lor a b) by (apply Z.lor_nonneg; auto).
  pose proof (Z.pow_pos_nonneg 2 k ltac:(lia) Hk).
  destruct (Z.eq_dec a 0) as [->|]; [ rewrite Z.lor_0_l; lia | ].
  destruct (Z.eq_dec b 0) as [->|]; [ rewrite Z.lor_0_r; lia | ].
  assert (Z.lor a b <> 0). { intros E. apply Z.lor_eq_0_iff in E. lia. }
  rewrite !(Z.log2_lt_pow2 _ k) by lia. rewrite Z.log2_lor by lia. lia.
Qed.

Definition code_ok (c : Z) : Prop := 0 <= c <= 0x1FFFFF.

Lemma check_codes_ok : forall l m, Forall code_ok l -> 0 <= m ->
  exists m', check_codes l m = SOk m' /\ 0 <= m' /\ forall k, 0 <= k -> (m' < 2 ^ k <-> m < 2 ^ k /\ Forall (fun c => c < 2 ^ k) l).
Proof.
  induction l as [|c t IH]; intros m F Hm; cbn [check_codes].
  - exists m. split; [ reflexivity | ]. split; [ exact Hm | ]. intros. intuition constructor.
  - inversion F as [|? ? C Ct]. subst. unfold code_ok in C.
    replace ((c <? 0) || (2097151 <? c)) with false by lia.
    destruct (IH (Z.lor m (u32 c)) Ct) as [m' [R1 [R2 R3]]].
    { apply Z.lor_nonneg. split; [ exact Hm | ]. rewrite u32_small; lia. }
    exists m'. split; [ exact R1 | ]. split; [ exact R2 | ]. intros k Hk. rewrite R3 by exact Hk.
    rewrite u32_small by lia. rewrite lor_lt by lia. rewrite Forall_cons_iff. tauto.
Qed.

Lemma check_codes_exn : forall l m, ~ Forall code_ok l -> check_codes l m = SExn.
Proof.
  induction l as [|c t IH]; intros m NF; [ destruct NF; constructor | ]. cbn [check_codes].
  destruct ((c <? 0) || (2097151 <? c)) eqn:E; [ reflexivity | ]. apply IH. intros F. apply NF.
  constructor; [ unfold code_ok; lia | exact F ].
Qed.

Lemma map_id_forall : forall (f : Z -> Z) l, Forall (fun c => f c = c) l -> map f l = l.
Proof. induction 1; cbn [map]; congruence. Qed.

Lemma from_codes_ok : forall addr codes, addr mod 8 = 0 -> len codes <= 65535 -> Forall code_ok codes ->
  exists r, new_string_from_codes addr codes = SOk r /\ kwf r /\ k_codes r = codes /\
    (k_ascii r = true <-> Forall (fun c => c < 128) codes) /\
    (forall v, width_ok v -> Forall (fun c => c < emax v) codes -> k_w r <= v).
Proof.
  intros addr codes Ha L F. unfold new_string_from_codes. change @slen with @len.
  destruct (Z.ltb_spec 65535 (len codes)); [ lia | ].
  destruct codes as [|c0 t0].
  { exists str_empty. split; [ reflexivity | ]. split; [ apply str_empty_kwf | ]. split; [ reflexivity | ].
    split; [ cbn; intuition constructor | ]. intros v [->|[->| ->]] _; cbn; lia. }
  set (codes := c0 :: t0) in *. destruct (check_codes_ok codes 0 F ltac:(lia)) as [m [R1 [R2 R3]]].
  rewrite R1.
  assert (B21 : m < 2 ^ 21).
  { apply R3; [ lia | ]. split; [ lia | ]. eapply Forall_impl; [ | exact F ]. unfold code_ok. intros; lia. }
  pose proof (size_code m ltac:(lia)) as S. destruct (string_size_from_max_code m) as [w a].
  destruct S as [S1 [S2 [S3 [S4 S5]]]].
  assert (Hk : 0 <= 8 * 2 ^ w) by (destruct S1 as [->|[->| ->]]; vm_compute; discriminate).
  assert (Fw : Forall (fun c => 0 <= c < emax w) codes).
  { apply (R3 (8 * 2 ^ w) Hk) in S2. destruct S2 as [_ S2]. rewrite Forall_forall in *. intros c I.
    specialize (S2 c I). specialize (F c I). unfold code_ok in F. unfold emax. cbv beta in S2. lia. }
  assert (M : map (uwrap (8 * 2 ^ w)) codes = codes).
  { apply map_id_forall. eapply Forall_impl; [ | exact Fw ]. intros c Hc. apply uwrap_small; assumption. }
  rewrite M. eexists. split; [ reflexivity | ].
  assert (As : a = true <-> Forall (fun c => c < 128) codes).
  { rewrite S3. change 128 with (2 ^ 7). rewrite (R3 7) by lia. intuition lia. }
  split; [ | split; [ reflexivity | split; [ exact As | ] ] ].
  - repeat split; cbn [k_w k_codes k_ascii k_addr k_hash]; auto.
    + apply As. assumption.
    + apply mod8; assumption.
  - cbn [k_w]. intros v V Fv. apply S5; [ exact V | ]. unfold emax. apply R3.
    + destruct V as [->|[->| ->]]; vm_compute; discriminate.
    + split; [ | exact Fv ]. destruct V as [->|[->| ->]]; vm_compute; reflexivity.
Qed.

Lemma from_codes_exn : forall addr codes, 65535 < len codes \/ ~ Forall code_ok codes -> new_string_from_codes addr codes = SExn.
Proof.
  intros addr codes H. unfold new_string_from_codes. change @slen with @len.
  destruct (Z.ltb_spec 65535 (len codes)); [ reflexivity | ].
  destruct H as [H|H]; [ lia | ]. destruct codes; [ destruct H; constructor | ]. rewrite check_codes_exn by exact H. reflexivity.
Qed.

(* ---- hash ---- *)

Lemma djb2a_fold : forall l h, djb2a l h = fold_left (fun h c => Z.lxor (h * 33 mod 2 ^ 32) c) l h.
Proof. induction l; intros; cbn [djb2a fold_left]; [ reflexivity | ]. apply IHl. Qed.

Lemma get_hash_ok : forall s, kwf s ->
  fst (string_get_hash s) = text_hash (k_codes s) /\ kwf (snd (string_get_hash s)) /\
  k_codes (snd (string_get_hash s)) = k_codes s.
Proof.
  intros s K. unfold string_get_hash. destruct (Z.eqb_spec (k_hash s) 0) as [E|E].
  - cbn [fst snd k_codes]. split; [ apply djb2a_fold | ]. split; [ | reflexivity ].
    destruct K as [K1 [K2 [K3 [K4 [K5 K6]]]]]. repeat split; cbn [k_w k_codes k_ascii k_addr k_hash]; auto; try (apply K3; assumption).
  - cbn [fst snd]. split; [ | auto ]. destruct K as [_ [_ [_ [_ [_ [K|K]]]]]]; [ contradiction | exact K ].
Qed.

(* ---- case conversion ---- *)

Lemma conv_case_ok : forall conv addr s, addr mod 8 = 0 -> kwf s ->
  (forall c, In c (k_codes s) -> c < 0x10000 -> 0 <= conv c < emax (k_w s)) ->
  (k_ascii s = true -> forall c, In c (k_codes s) -> conv c < 128) ->
  exists r, string_conv_case conv addr s = SOk r /\ kwf r /\
    k_codes r = map (fun c => if c <? 0x10000 then conv c else c) (k_codes s).
Proof.
  intros conv addr s Ha K Hc Has. unfold string_conv_case. rewrite klen_len.
  destruct (Z.eqb_spec (len (k_codes s)) 0) as [E|E].
  { exists str_empty. rewrite (len_0_nil _ E). split; [ reflexivity | ]. split; [ apply str_empty_kwf | reflexivity ]. }
  destruct K as [K1 [K2 [K3 [K4 [K5 K6]]]]]. rewrite Forall_forall in K2.
  assert (M : forall c, In c (k_codes s) -> conv_elem conv (k_w s) c = (if c <? 0x10000 then conv c else c)).
  { intros c I. specialize (K2 c I). cbv beta in K2. specialize (Hc c I). unfold conv_elem.
    destruct K1 as [W|[W|W]]; rewrite W in *; cbn [Z.eqb Pos.eqb].
    - change (emax 0) with 256 in *. destruct (Z.ltb_spec c 65536); [ | lia ]. unfold uwrap. apply Z.mod_small. change (2 ^ 8) with 256. lia.
    - change (emax 1) with 65536 in *. destruct (Z.ltb_spec c 65536); [ | lia ]. unfold uwrap. apply Z.mod_small. change (2 ^ 16) with 65536. lia.
    - change (emax 2) with (2 ^ 32) in *. destruct (Z.ltb_spec c 65536); [ | reflexivity ].
      unfold uwrap. rewrite (Z.mod_small c) by (change (2 ^ 16) with 65536; lia). apply u32_small. lia. }
  eexists. split; [ reflexivity | ]. cbn [k_codes].
  assert (ME : map (conv_elem conv (k_w s)) (k_codes s) = map (fun c => if c <? 0x10000 then conv c else c) (k_codes s)).
  { apply map_ext_in. exact M. }
  rewrite ME. split; [ | reflexivity ].
  repeat split; cbn [k_w k_codes k_ascii k_addr k_hash]; auto.
  - rewrite Forall_forall. intros x I. apply in_map_iff in I. destruct I as [c [<- I]]. specialize (K2 c I). cbv beta in K2.
    destruct (Z.ltb_spec c 65536); [ apply Hc; assumption | exact K2 ].
  - apply K3. assumption.
  - rewrite Forall_forall. intros x I. apply in_map_iff in I. destruct I as [c [<- I]].
    destruct (K3 ltac:(assumption)) as [_ A]. rewrite Forall_forall in A. specialize (A c I). cbv beta in A.
    destruct (Z.ltb_spec c 65536); [ apply Has; assumption | lia ].
  - rewrite len_map. exact K4.
  - apply mod8; assumption.
Qed.

(* ---- order ---- *)

Section Order.
Variable ord : Z -> Z -> Z.
Hypothesis anti : forall x y, Z.sgn (ord x y) = - Z.sgn (ord y x).
Hypothesis strict : forall x y, x <> y -> ord x y <> 0.
Hypothesis trans : forall x y z, ord x y <= 0 -> ord y z <= 0 -> ord x z <= 0.

Lemma lex_refl : forall a, lex ord a a = 0.
Proof. induction a; cbn [lex]; [ reflexivity | ]. rewrite Z.eqb_refl. exact IHa. Qed.
Lemma lex_eq : forall a b, lex ord a b = 0 <-> a = b.
Proof.
  split; [ | intros ->; apply lex_refl ]. revert b. induction a as [|x a IH]; intros [|y b]; cbn [lex]; try discriminate; [ auto | ].
  destruct (Z.eqb_spec x y) as [->|N]; intros H; [ f_equal; apply IH; exact H | ]. destruct (strict x y N H).
Qed.
Lemma lex_trans : forall a b c, lex ord a b <= 0 -> lex ord b c <= 0 -> lex ord a c <= 0.
Proof.
  induction a as [|x a IH]; intros [|y b] [|z c] H1 H2; cbn [lex] in *; try lia.
  destruct (Z.eqb_spec x y) as [E|N].
  - subst y. destruct (x =? z); [ eapply IH; eassumption | exact H2 ].
  - destruct (Z.eqb_spec y z) as [E|N2].
    + subst z. destruct (Z.eqb_spec x y); [ contradiction | exact H1 ].
    + pose proof (trans x y z H1 H2). destruct (Z.eqb_spec x z) as [E|N3]; [ | assumption ].
      subst z. pose proof (anti x y). pose proof (strict x y N). pose proof (strict y x N2). lia.
Qed.
End Order.
