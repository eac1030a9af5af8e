(* Proofs about unpack: directives and whole formats. *)
From Coq Require Import ZArith List Lia Bool ZifyBool.
Import ListNotations.
From Verif Require Import Base ListZ IndexModel ArraySpec Utf8Model Utf8Spec Utf8Main BufferModel BufferSpec BufferProofs ArrayProofs
  PackModel PackSpec PackProofs PackProofs2 PackProofs3 PackProofs4.
Local Open Scope Z_scope.
Ltac Zify.zify_post_hook ::= idtac.

Lemma reads_n_len : forall fp big c n k y vs, reads_n fp big c n k y vs -> 0 <= k /\ len y = n * k.
Proof.
  intros fp big c n k y vs H. induction H as [| k x r v vs K L R H [IH0 IH]].
  - change (len (@nil Z)) with 0. lia.
  - rewrite len_app, IH. lia.
Qed.

Lemma app_split_len : forall (a b c d : list Z), a ++ b = c ++ d -> len a = len c -> a = c /\ b = d.
Proof.
  induction a as [| x a IH]; intros b c d E L.
  - destruct c; [auto |]. rewrite len_cons in L. change (len (@nil Z)) with 0 in L. pose proof (len_nonneg _ c). lia.
  - destruct c as [| y c]; [rewrite len_cons in L; change (len (@nil Z)) with 0 in L; pose proof (len_nonneg _ a); lia |].
    rewrite !len_cons in L. cbn [app] in E. inversion E; subst. destruct (IH b c d) as [-> ->]; auto. lia.
Qed.

Lemma reads_n_inv_S : forall fp big c n k y vs, reads_n fp big c n k y vs -> 0 < k ->
  exists x r v ws, y = x ++ r /\ vs = v :: ws /\ len x = n /\ reads_as fp big c x v /\ reads_n fp big c n (k - 1) r ws.
Proof.
  intros fp big c n k y vs H K. destruct H as [| k x r v vs K0 L R H]; [lia |].
  exists x, r, v, vs. replace (k + 1 - 1) with k by lia. auto.
Qed.
Lemma reads_n_inv_0 : forall fp big c n y vs, reads_n fp big c n 0 y vs -> y = [] /\ vs = [].
Proof.
  intros fp big c n y vs H. remember 0 as z eqn:E. destruct H; [auto | lia].
Qed.

Lemma reads_n_det : forall fp big c n k y vs, reads_n fp big c n k y vs -> forall vs', reads_n fp big c n k y vs' -> vs = vs'.
Proof.
  intros fp big c n k y vs H. induction H as [| k x r v vs K L R H IH]; intros vs' H'.
  - symmetry. apply (reads_n_inv_0 _ _ _ _ _ _ H').
  - destruct (reads_n_inv_S _ _ _ _ _ _ _ H' ltac:(lia)) as (x' & r' & v' & ws & E & -> & L' & R' & H2).
    destruct (app_split_len _ _ _ _ E ltac:(lia)) as [-> ->]. replace (k + 1 - 1) with k in H2 by lia.
    rewrite (reads_det _ _ _ _ _ R _ R'), (IH _ H2). reflexivity.
Qed.

Lemma unpack_loop_ok : forall fp addr big c n sz, 0 <= n -> field_ok c (Some n) = true -> sz < 2 ^ 32 - 64 ->
  forall k out pre y post, len y = n * Z.of_nat k -> Forall is_byte y -> len pre + len y <= sz ->
  match unpack_loop fp addr (Buf sz (pre ++ y ++ post) false) k big c n out (len pre) with
  | POk st => exists vs, st = mkust (out ++ vs) (len pre + len y) /\ reads_n fp big c n (Z.of_nat k) y vs
  | PExn _ => forall vs, ~ reads_n fp big c n (Z.of_nat k) y vs
  | PBad => False
  end.
Proof.
  intros fp addr big c n sz N0 FO SM. induction k as [| k IH]; intros out pre y post LY F SZ.
  - cbn [unpack_loop]. change (Z.of_nat 0) with 0 in *. assert (y = []) as ->.
    { destruct y; [reflexivity |]. rewrite len_cons in LY. pose proof (len_nonneg _ y). lia. }
    exists []. rewrite app_nil_r. change (len (@nil Z)) with 0. rewrite Z.add_0_r. split; [reflexivity | constructor].
  - cbn [unpack_loop]. assert (HM : n * Z.of_nat (Datatypes.S k) = n + n * Z.of_nat k) by lia.
    assert (0 <= n * Z.of_nat k) by nia.
    destruct (room_split [] y n N0 ltac:(cbn [app]; change (len (@nil Z)) with 0; lia)) as (x & r & -> & Lx). rewrite len_app in *.
    apply Forall_app in F. destruct F as [Fx Fr]. rewrite <- (app_assoc x r post).
    pose proof (unpack_one_ok fp addr big c n sz pre x (r ++ post) Lx Fx FO ltac:(pose proof (len_nonneg _ r); lia) SM) as P.
    destruct (unpack_one fp addr (Buf sz (pre ++ x ++ r ++ post) false) big c n (len pre)) as [v | |]; [| | exact P].
    + specialize (IH (out ++ [v]) (pre ++ x) r post ltac:(lia) Fr ltac:(rewrite len_app; lia)).
      rewrite <- app_assoc in IH. rewrite len_app, Lx in IH.
      destruct (unpack_loop fp addr (Buf sz (pre ++ x ++ r ++ post) false) k big c n (out ++ [v]) (len pre + n)) as [st | |]; [| | exact IH].
      * destruct IH as (vs & -> & R). exists (v :: vs). split; [rewrite <- app_assoc; cbn [app]; f_equal; lia |].
        replace (Z.of_nat (Datatypes.S k)) with (Z.of_nat k + 1) by lia. constructor; auto. lia.
      * intros vs R. destruct (reads_n_inv_S _ _ _ _ _ _ _ R ltac:(lia)) as (x' & r' & v' & ws & E & -> & L' & R' & H2).
        destruct (app_split_len _ _ _ _ E ltac:(lia)) as [-> ->]. apply (IH ws). replace (Z.of_nat (Datatypes.S k) - 1) with (Z.of_nat k) in H2 by lia. exact H2.
    + intros vs R. destruct (reads_n_inv_S _ _ _ _ _ _ _ R ltac:(lia)) as (x' & r' & v' & ws & E & -> & L' & R' & H2).
      destruct (app_split_len _ _ _ _ E ltac:(lia)) as [-> ->]. exact (P v' R').
Qed.

Lemma unpack_dir : forall fp addr d b pre rest out, brep b (pre ++ rest) -> dir_wf d -> Forall is_byte rest ->
  dir_room d + len (pre ++ rest) < 2 ^ 32 -> len (pre ++ rest) < 2 ^ 31 ->
  match unpack_format fp addr b (mkust out (len pre)) (d_big d) (d_chr d) (size_num d) (d_count d) with
  | POk st => exists x r vs, rest = x ++ r /\ st = mkust (out ++ vs) (len pre + len x) /\
      (forall ds ws, unpacks fp ds r ws -> unpacks fp (d :: ds) rest (vs ++ ws)) /\
      (forall ds zs, unpacks fp (d :: ds) rest zs -> exists ws, zs = vs ++ ws /\ unpacks fp ds r ws)
  | PExn _ => forall ds zs, ~ unpacks fp (d :: ds) rest zs
  | PBad => False
  end.
Proof.
  intros fp addr d b pre rest out Hr WD F RM S31. change (2 ^ 32) with 4294967296 in RM. change (2 ^ 31) with 2147483648 in S31.
  destruct Hr as (Hs & He & Hc & t & Hd). destruct b as [bs bd be]. cbn [b_size b_ext b_data] in *. subst bs be bd.
  rewrite len_app in *. pose proof (len_nonneg _ pre) as LP. pose proof (len_nonneg _ rest) as LR.
  unfold unpack_format. cbn [b_size u_idx u_out]. destruct d as [big c size count]. unfold size_num, dir_room, dir_wf in *. cbn [d_big d_chr d_size d_count] in *.
  destruct WD as [CNT WD]. destruct size as [n |].
  - destruct WD as [NB WC]. destruct (Z.eqb_spec n NOSIZE); [unfold NOSIZE in *; lia |]. cbn [andb].
    assert (0 <= n * count) by nia. rewrite (u32_small (n * count)) by lia. rewrite (u32_small (len pre + n * count)) by lia.
    destruct (Z.ltb_spec (len pre + len rest) (len pre + n * count)) as [SHORT | LONG].
    { intros ds zs U. inversion U; subst.
      - rewrite len_app in *. pose proof (len_nonneg _ l). lia.
      - lia.
      - match goal with H : reads_n _ _ _ _ _ _ _ |- _ => apply reads_n_len in H end.
        rewrite len_app in *. pose proof (len_nonneg _ l). lia. }
    destruct (Z.eqb_spec count 0) as [-> | C0].
    { exists [], rest, []. cbn [app]. change (len (@nil Z)) with 0. rewrite app_nil_r, Z.add_0_r. split; [reflexivity |]. split; [reflexivity |].
      destruct (Z.eq_dec c 120) as [-> | NX].
      - assert (n = 1) as ->. { destruct WC as [[_ ->] | WC]; [reflexivity | apply sized_in in WC; discriminate WC]. }
        split.
        + intros ds ws U. apply (U_pad fp big 0 [] ds rest ws eq_refl U).
        + intros ds zs U. exists zs. split; [reflexivity |]. inversion U; subst; try contradiction.
          assert (x = []) as ->. { destruct x; [reflexivity |]. rewrite len_cons in *. pose proof (len_nonneg _ x). lia. }
          assumption.
      - split.
        + intros ds ws U. apply U_none; assumption.
        + intros ds zs U. exists zs. split; [reflexivity |]. inversion U; subst; try contradiction; [assumption | lia]. }
    destruct (Z.eqb_spec c 120) as [-> | NX].
    { assert (n = 1) as ->. { destruct WC as [[_ ->] | WC]; [reflexivity | apply sized_in in WC; discriminate WC]. }
      destruct (room_split [] rest count ltac:(lia) ltac:(cbn [app]; change (len (@nil Z)) with 0; lia)) as (x & r & -> & Lx).
      exists x, r, []. split; [reflexivity |]. cbn [app]. rewrite app_nil_r. split; [| split].
      - f_equal. unfold s32, swrap. change (2 ^ 32) with 4294967296. change (2 ^ (32 - 1)) with 2147483648.
        rewrite len_app in *. pose proof (len_nonneg _ r). cbv zeta. rewrite Z.mod_small by lia. destruct (Z.ltb_spec (len pre + 1 * count) 2147483648); lia.
      - intros ds ws U. apply U_pad; assumption.
      - intros ds zs U. exists zs. split; [reflexivity |]. inversion U; subst; try contradiction.
        match goal with H : _ ++ _ = _ ++ _ |- _ => symmetry in H; destruct (app_split_len _ _ _ _ H ltac:(lia)) as [-> ->] end. assumption. }
    assert (FE : ((c =? 117) || (c =? 105) || (c =? 102)) && (((c =? 102) && negb (n =? 4) && negb (n =? 8)) ||
             negb ((n =? 1) || (n =? 2) || (n =? 4) || (n =? 8))) = negb (field_ok c (Some n))).
    { destruct WC as [[WC _] | WC]; [contradiction |]. apply sized_in in WC. unfold field_ok.
      destruct (Z.eqb_spec c 102) as [-> | N1]; [cbn [Z.eqb orb andb]; destruct (Z.eqb_spec n 4), (Z.eqb_spec n 8); subst; cbn [negb andb orb]; try reflexivity; rewrite ?orb_true_r; reflexivity |].
      destruct ((c =? 117) || (c =? 105)) eqn:E1; cbn [andb negb orb]; [reflexivity |]. lia. }
    rewrite FE. destruct (field_ok c (Some n)) eqn:FO; cbn [negb].
    2:{ intros ds zs U. inversion U; subst; try contradiction. congruence. }
    destruct (room_split [] rest (n * count) ltac:(lia) ltac:(cbn [app]; change (len (@nil Z)) with 0; lia)) as (y & r & -> & Ly).
    apply Forall_app in F. destruct F as [Fy Fr]. rewrite len_app in *. pose proof (len_nonneg _ r).
    pose proof (unpack_loop_ok fp addr big c n (len pre + (len y + len r)) ltac:(lia) FO ltac:(lia) (Z.to_nat count) out pre y (r ++ t)
                  ltac:(rewrite Z2Nat.id by lia; exact Ly) Fy ltac:(lia)) as P.
    rewrite Z2Nat.id in P by lia. rewrite <- !app_assoc.
    destruct (unpack_loop fp addr (Buf (len pre + (len y + len r)) (pre ++ y ++ r ++ t) false) (Z.to_nat count) big c n out (len pre)) as [st | |]; [| | exact P].
    + destruct P as (vs & -> & R). exists y, r, vs. split; [reflexivity |]. split; [reflexivity |]. split.
      * intros ds ws U. apply U_some; try assumption. lia.
      * intros ds zs U. inversion U; subst; try contradiction.
        match goal with H : reads_n _ _ _ _ _ ?x _, E : ?x ++ _ = _ ++ _ |- _ =>
          pose proof (reads_n_len _ _ _ _ _ _ _ H) as [_ LL]; destruct (app_split_len _ _ _ _ E ltac:(lia)) as [-> ->];
          rewrite (reads_n_det _ _ _ _ _ _ _ H _ R) end.
        eexists; split; [reflexivity | assumption].
    + intros ds zs U. inversion U; subst; try contradiction.
      match goal with H : reads_n _ _ _ _ _ ?x _, E : ?x ++ _ = _ ++ _ |- _ =>
          pose proof (reads_n_len _ _ _ _ _ _ _ H) as [_ LL]; destruct (app_split_len _ _ _ _ E ltac:(lia)) as [-> ->]; exact (P _ H) end.
  - subst c. change (NOSIZE =? NOSIZE) with true. cbn [andb].
    destruct (Z.eqb_spec count 1) as [-> | C1]; cbn [negb].
    2:{ intros ds zs U. inversion U; subst. lia. }
    replace (len pre + len rest - len pre) with (len rest) by lia. rewrite !(u32_small (len rest)), Z.mul_1_r by lia.
    rewrite (u32_small (len rest)), (u32_small (len pre + len rest)) by lia.
    destruct (Z.ltb_spec (len pre + len rest) (len pre + len rest)); [lia |].
    change (1 =? 0) with false. change (115 =? 120) with false. change ((115 =? 117) || (115 =? 105) || (115 =? 102)) with false. cbn [andb].
    rewrite <- app_assoc.
    pose proof (unpack_loop_ok fp addr big 115 (len rest) (len pre + len rest) ltac:(lia) eq_refl ltac:(lia) (Z.to_nat 1) out pre rest t
                  ltac:(cbn; lia) F ltac:(lia)) as P. change (Z.of_nat (Z.to_nat 1)) with 1 in P.
    destruct (unpack_loop fp addr (Buf (len pre + len rest) (pre ++ rest ++ t) false) (Z.to_nat 1) big 115 (len rest) out (len pre)) as [st | |]; [| | exact P].
    + destruct P as (vs & -> & R). destruct (reads_n_inv_S _ _ _ _ _ _ _ R ltac:(lia)) as (x & r & v & ws & E & -> & Lx & R1 & R2).
      destruct (reads_n_inv_0 _ _ _ _ _ _ R2) as [-> ->]. rewrite app_nil_r in E. subst x.
      exists rest, [], [v]. rewrite app_nil_r. split; [reflexivity |]. split; [reflexivity |].
      inversion R1; subst. split.
      * intros ds ws U. cbn [app]. apply U_rest; assumption.
      * intros ds zs U. inversion U; subst.
        match goal with H : text false rest ?a, H' : text false rest ?b |- _ => rewrite (text_det _ _ _ H _ H') end.
        eexists; split; [reflexivity | assumption].
    + intros ds zs U. inversion U; subst. apply (P [VStr cs]).
      replace 1 with (0 + 1) by lia. rewrite <- (app_nil_r rest) at 2. constructor; [lia | lia | apply R_s; assumption | constructor].
Qed.

Lemma unpack_all : forall fp addr ds b pre rest out, brep b (pre ++ rest) -> Forall dir_wf ds -> Forall is_byte rest ->
  Forall (fun d => dir_room d + len (pre ++ rest) < 2 ^ 32) ds -> len (pre ++ rest) < 2 ^ 31 ->
  match run_dirs (unpack_format fp addr b) ds (mkust out (len pre)) with
  | POk st => exists vs, u_out st = out ++ vs /\ unpacks fp ds rest vs /\ forall vs', unpacks fp ds rest vs' -> vs' = vs
  | PExn _ => forall vs, ~ unpacks fp ds rest vs
  | PBad => False
  end.
Proof.
  intros fp addr. induction ds as [| d ds IH]; intros b pre rest out Hr WD F RM S31; cbn [run_dirs].
  - exists []. cbn [u_out]. rewrite app_nil_r. split; [reflexivity |]. split; [constructor |]. intros vs' U. inversion U. reflexivity.
  - inversion WD as [| d0 ds0 W1 W2]; subst d0 ds0. inversion RM as [| d0 ds0 R1 R2]; subst d0 ds0.
    pose proof (unpack_dir fp addr d b pre rest out Hr W1 F R1 S31) as P.
    destruct (unpack_format fp addr b (mkust out (len pre)) (d_big d) (d_chr d) (size_num d) (d_count d)) as [st | |]; [| intros vs; apply P | exact P].
    destruct P as (x & r & vs & -> & -> & P1 & P2). rewrite <- len_app.
    apply Forall_app in F. destruct F as [_ F]. rewrite app_assoc in Hr, R2, S31.
    specialize (IH b (pre ++ x) r (out ++ vs) Hr W2 F R2 S31).
    destruct (run_dirs (unpack_format fp addr b) ds (mkust (out ++ vs) (len (pre ++ x)))) as [st | |]; [| | exact IH].
    + destruct IH as (ws & E & U & UN). exists (vs ++ ws). rewrite app_assoc. split; [exact E |]. split; [apply P1; exact U |].
      intros zs Z. destruct (P2 _ _ Z) as (ws' & -> & U'). rewrite (UN _ U'). reflexivity.
    + intros zs Z. destruct (P2 _ _ Z) as (ws' & -> & U'). exact (IH _ U').
Qed.
