From Coq Require Import ZArith List Lia Bool ZifyBool.
Import ListNotations.
From Verif Require Import Base ListZ IndexModel ArrayModel ArraySpec ArrayProofs BufferModel BufferSpec BufferProofs
  IterModel IterSpec IterProofs3 ParseIntModel ParseIntSpec ParseIntProofs.
Local Open Scope Z_scope.

(* ---- buffer.insert ---- *)

Lemma from_pos_id : forall n p, 0 <= p <= n -> from_pos n (Some p) = p.
Proof. intros n p H. unfold from_pos, pos_of. ztest; lia. Qed.

Lemma overwrite_mid : forall (p q r ins : list Z) pos, pos = len p -> len ins = len q ->
  overwrite (p ++ q ++ r) pos ins = p ++ ins ++ r.
Proof.
  intros p q r ins pos -> H. unfold overwrite. change @llen with @len. rewrite !len_app.
  pose proof (len_nonneg _ r). replace (Z.min (len ins) (len p + (len q + len r) - len p)) with (len ins) by lia.
  rewrite to_nat_len, firstn_all. unfold splice.
  rewrite firstn_app_len by reflexivity. rewrite (app_assoc p q r), (skipn_app_len _ (p ++ q) r) by (rewrite len_app; lia). reflexivity.
Qed.
Lemma overwrite_long : forall (p q ins : list Z) pos, pos = len p -> len q <= len ins ->
  overwrite (p ++ q) pos ins = p ++ firstn (length q) ins.
Proof.
  intros p q ins pos -> H. unfold overwrite. change @llen with @len. rewrite !len_app.
  replace (Z.min (len ins) (len p + len q - len p)) with (len q) by lia. rewrite to_nat_len. unfold splice.
  rewrite firstn_app_len by reflexivity. rewrite skipn_all2 by (rewrite app_length; unfold len; lia).
  rewrite app_nil_r. reflexivity.
Qed.

Lemma slice_tail : forall (p q : list Z) e, e = len p -> bytes_slice (p ++ q) (Some e) None = q.
Proof.
  intros p q e ->. unfold bytes_slice. change @llen with @len. rewrite len_app.
  pose proof (len_nonneg _ p). pose proof (len_nonneg _ q). rewrite from_pos_id by lia. cbn [to_pos]. unfold sub.
  rewrite skipn_app_len by reflexivity. replace (len p + len q - len p) with (len q) by lia.
  rewrite to_nat_len. apply firstn_all.
Qed.
Lemma slice_all : forall l : list Z, bytes_slice l None None = l.
Proof.
  intros l. unfold bytes_slice. change @llen with @len. cbn [from_pos to_pos]. unfold sub. cbn [Z.to_nat skipn].
  rewrite Z.sub_0_r, to_nat_len. apply firstn_all.
Qed.
Lemma resize_shrink : forall (p q : list Z) n, n = len p -> bytes_resize (p ++ q) n 0 = p.
Proof.
  intros p q n ->. unfold bytes_resize. change @llen with @len. rewrite len_app. pose proof (len_nonneg _ q).
  replace (Z.to_nat (len p - (len p + len q))) with O by lia. cbn [repeat]. rewrite app_nil_r. apply firstn_app_len. reflexivity.
Qed.
Lemma resize_grow : forall (l : list Z) n, len l <= n -> bytes_resize l n 0 = l ++ repeat 0 (Z.to_nat (n - len l)).
Proof.
  intros l n H. unfold bytes_resize. change @llen with @len. rewrite firstn_all2 by (unfold len in *; lia). reflexivity.
Qed.

Lemma len0_nil : forall A (l : list A), len l = 0 -> l = [].
Proof. intros A l H. destruct l; [ reflexivity | ]. rewrite len_cons in H. pose proof (len_nonneg _ l). lia. Qed.
Lemma split_at : forall A (l : list A) k, 0 <= k <= len l -> exists p q, l = p ++ q /\ len p = k.
Proof.
  intros A l k H. exists (firstn (Z.to_nat k) l), (skipn (Z.to_nat k) l). rewrite firstn_skipn.
  split; [ reflexivity | ]. unfold len in *. rewrite firstn_length. lia.
Qed.

Lemma buffer_insert_ok : forall b l s ls bg en, brep b l -> brep s ls ->
  bg <= len l -> len (list_insert l bg en ls) <= 2147483647 -> len l <= 2147483647 ->
  exists b', buffer_insert b bg en (Some s) = BOk b' /\ brep b' (list_insert l bg en ls).
Proof.
  intros b l s ls bg en Hr Hrs Hbg Hmax Hl. pose proof Hr as (Hs & _). pose proof Hrs as (Hss & _).
  unfold buffer_insert. rewrite Hs, Hss. set (n := len l) in *. set (m := len ls) in *.
  pose proof (len_nonneg _ l). pose proof (len_nonneg _ ls). fold n in H. fold m in H0.
  set (b1 := if (if bg <? 0 then bg + n else bg) <? 0 then 0 else if bg <? 0 then bg + n else bg).
  set (e1 := if n <? (if en <? 0 then en + n else en) then n else if en <? 0 then en + n else en).
  set (e2 := if e1 <? b1 then b1 else e1).
  assert (Hb1 : 0 <= b1 <= n /\ pos_of n bg = b1) by (unfold b1, pos_of; ztest; lia).
  clearbody b1.
  assert (He1 : e1 <= n /\ pos_of n en = Z.max 0 e1) by (unfold e1, pos_of; ztest; lia). clearbody e1.
  assert (He2 : b1 <= e2 <= n /\ Z.max b1 (pos_of n en) = e2) by (unfold e2; destruct (Z.ltb_spec e1 b1); lia).
  clearbody e2. clear He1 e1. destruct Hb1 as [Hb1 Pb]. destruct He2 as [He2 Pe].
  assert (El : list_insert l bg en ls = list_insert l b1 e2 ls).
  { apply list_insert_pos; fold n; unfold pos_of in *; ztest; lia. }
  rewrite El in *. clear El.
  assert (Esp : exists x y z, l = x ++ y ++ z /\ len x = b1 /\ len y = e2 - b1).
  { exists (firstn (Z.to_nat b1) l), (sub l b1 e2), (skipn (Z.to_nat e2) l). split; [ apply split3; lia | ].
    unfold n, len in *. split; [ rewrite firstn_length; lia | ]. unfold sub. rewrite firstn_length, skipn_length. lia. }
  destruct Esp as (x & y & z & El & Ex & Ey).
  assert (En : n = len x + len y + len z) by (unfold n; rewrite El, !len_app; lia).
  assert (Er : list_insert l b1 e2 ls = x ++ ls ++ z) by (rewrite El; apply ins_parts; lia).
  rewrite Er in *. rewrite !len_app in Hmax. fold m in Hmax.
  pose proof (len_nonneg _ x). pose proof (len_nonneg _ y). pose proof (len_nonneg _ z).
  (* before the last copy the buffer holds x, m bytes, z *)
  assert (B3 : exists b3 w, brep b3 (x ++ w ++ z) /\ len w = m /\
     (bdo b1' <- (if n <? n + m + b1 - e2 then resize_method b (n + m + b1 - e2) 0 else BOk b);
      bdo b2 <- (if e2 <? n then copy_method b1' (Some (b1 + m)) None (Some e2) None else BOk b1');
      bdo b3 <- (if n + m + b1 - e2 <? n then resize_method b2 (n + m + b1 - e2) 0 else BOk b2);
      (if m =? 0 then BOk b3 else copy_method b3 (Some b1) (Some s) None None)) =
     (if m =? 0 then BOk b3 else copy_method b3 (Some b1) (Some s) None None)).
  { destruct (Z.ltb_spec n (n + m + b1 - e2)) as [Hg|Hg].
    - (* grows *)
      destruct (resize_method_ok b l (n + m + b1 - e2) 0 Hr) as (b2 & R1 & R2); [ unfold size_ok, byte_ok; lia | ].
      rewrite R1. cbn [bbind]. rewrite resize_grow in R2 by (fold n; lia). fold n in R2.
      set (zs := repeat 0 (Z.to_nat (n + m + b1 - e2 - n))) in *.
      assert (Hz : len zs = m - len y) by (unfold zs; rewrite len_repeat; lia). clearbody zs.
      destruct (Z.ltb_spec (n + m + b1 - e2) n); [ lia | ].
      destruct (Z.ltb_spec e2 n) as [He|He].
      + destruct (copy_method_ok b2 (l ++ zs) (Some (b1 + m)) None (l ++ zs) (Some e2) None R2 eq_refl) as (b3 & C1 & C2).
        rewrite C1. cbn [bbind].
        assert (Esl : bytes_slice (l ++ zs) (Some e2) None = z ++ zs).
        { rewrite El. replace ((x ++ y ++ z) ++ zs) with ((x ++ y) ++ z ++ zs) by (rewrite <- !app_assoc; reflexivity).
          apply slice_tail. rewrite len_app. lia. }
        rewrite Esl in C2. rewrite from_pos_id in C2 by (rewrite len_app; fold n; lia).
        destruct (split_at _ (y ++ z ++ zs) m) as (w & t & Ew & Lw); [ rewrite !len_app; lia | ].
        assert (Lt : len t = len z) by (apply (f_equal len) in Ew; rewrite !len_app in Ew; lia).
        assert (E3 : l ++ zs = (x ++ w) ++ t) by (rewrite El, <- !app_assoc, Ew; reflexivity).
        rewrite E3 in C2. rewrite overwrite_long in C2 by (rewrite !len_app; lia).
        rewrite firstn_app in C2. replace (length t - length z)%nat with O in C2 by (unfold len in Lt; lia).
        cbn [firstn] in C2. rewrite app_nil_r in C2. rewrite (firstn_all2 z) in C2 by (unfold len in Lt; lia).
        exists b3, w. rewrite <- app_assoc in C2. split; [ exact C2 | split; [ exact Lw | reflexivity ] ].
      + assert (z = []) by (apply len0_nil; lia). subst z.
        exists b2, (y ++ zs). split; [ rewrite El in R2; rewrite app_nil_r in *; rewrite <- app_assoc in R2; exact R2 | ].
        split; [ rewrite len_app; lia | reflexivity ].
    - cbn [bbind]. destruct (Z.ltb_spec e2 n) as [He|He].
      + destruct (copy_method_ok b l (Some (b1 + m)) None l (Some e2) None Hr eq_refl) as (b3 & C1 & C2).
        rewrite C1. cbn [bbind].
        assert (Esl : bytes_slice l (Some e2) None = z).
        { rewrite El, app_assoc. apply slice_tail. rewrite len_app. lia. }
        fold n in C2. rewrite Esl, from_pos_id in C2 by lia.
        destruct (split_at _ (y ++ z) m) as (w & t & Ew & Lw); [ rewrite !len_app; lia | ].
        assert (Lt : len t = len y + len z - m) by (apply (f_equal len) in Ew; rewrite !len_app in Ew; lia).
        destruct (split_at _ t (len z)) as (t1 & t2 & Et & Lt1); [ lia | ].
        assert (E3 : l = (x ++ w) ++ t1 ++ t2) by (rewrite <- Et, <- app_assoc, <- Ew; exact El).
        rewrite E3 in C2. rewrite overwrite_mid in C2 by (rewrite ?len_app; lia).
        destruct (Z.ltb_spec (n + m + b1 - e2) n) as [Hk|Hk].
        * destruct (resize_method_ok b3 _ (n + m + b1 - e2) 0 C2) as (b4 & R1 & R2); [ unfold size_ok, byte_ok; lia | ].
          rewrite R1. cbn [bbind]. rewrite (app_assoc (x ++ w) z t2) in R2.
          rewrite resize_shrink in R2 by (rewrite !len_app; lia). rewrite <- app_assoc in R2.
          exists b4, w. split; [ exact R2 | split; [ exact Lw | reflexivity ] ].
        * assert (t2 = []).
          { apply (f_equal len) in Et. rewrite len_app in Et.
            apply len0_nil; lia. }
          subst t2. rewrite app_nil_r, <- app_assoc in C2. exists b3, w. split; [ exact C2 | split; [ exact Lw | reflexivity ] ].
      + assert (z = []) by (apply len0_nil; lia). subst z.
        cbn [bbind]. rewrite app_nil_r in El. rewrite len_nil in *.
        destruct (split_at _ y m) as (w & t & Ew & Lw); [ lia | ].
        destruct (Z.ltb_spec (n + m + b1 - e2) n) as [Hk|Hk].
        * destruct (resize_method_ok b l (n + m + b1 - e2) 0 Hr) as (b4 & R1 & R2); [ unfold size_ok, byte_ok; lia | ].
          rewrite R1. cbn [bbind]. rewrite El, Ew, app_assoc in R2.
          rewrite resize_shrink in R2 by (rewrite !len_app; lia).
          exists b4, w. rewrite app_nil_r. split; [ exact R2 | split; [ exact Lw | reflexivity ] ].
        * exists b, y. rewrite app_nil_r, <- El. split; [ exact Hr | split; [ lia | reflexivity ] ]. }
  destruct B3 as (b3 & w & B1 & B2 & B3).
  assert (G : exists b', (if m =? 0 then BOk b3 else copy_method b3 (Some b1) (Some s) None None) = BOk b' /\ brep b' (x ++ ls ++ z)).
  { destruct (Z.eqb_spec m 0) as [H4|H4].
    - exists b3. split; [ reflexivity | ].
      assert (w = []) by (apply len0_nil; lia).
      assert (ls = []) by (apply len0_nil; exact H4).
      subst w ls. exact B1.
    - destruct (copy_method_ok b3 _ (Some b1) (Some s) ls None None B1 Hrs) as (b' & C1 & C2).
      exists b'. split; [ exact C1 | ]. rewrite slice_all in C2. rewrite from_pos_id in C2 by (rewrite !len_app; lia).
      rewrite overwrite_mid in C2 by lia. exact C2. }
  destruct G as (b' & G1 & G2). exists b'. split; [ | exact G2 ]. rewrite <- G1, <- B3.
  reflexivity.
Qed.
