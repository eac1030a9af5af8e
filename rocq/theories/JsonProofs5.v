(* dump succeeds when the text is not too long. *)
From Coq Require Import String Ascii ZArith List Lia Bool ZifyBool.
Import ListNotations.
From Verif Require Import Base ListZ LexModel LexSpec ParseIntModel JsonModel JsonSpec JsonProofs JsonProofs4.
Local Open Scope Z_scope.
Ltac Zify.zify_post_hook ::= idtac.

Lemma dec_digits_len : forall f n acc k, 0 <= n < 10 ^ Z.of_nat (S k) -> (length (dec_digits f n acc) <= length acc + S k)%nat.
Proof.
  induction f as [| f IH]; intros n acc k N; cbn [dec_digits]; [lia |]. destruct (n / 10 =? 0) eqn:Q; [cbn [length]; lia |].
  destruct k as [| k]; [exfalso; change (10 ^ Z.of_nat 1) with 10 in N; rewrite Z.div_small in Q by lia; discriminate Q |].
  assert (D : 0 <= n / 10 < 10 ^ Z.of_nat (S k)).
  { rewrite (Nat2Z.inj_succ (S k)), Z.pow_succ_r in N by lia. split; [apply Z.div_pos; lia | apply Z.div_lt_upper_bound; lia]. }
  specialize (IH (n / 10) ((48 + n mod 10) :: acc) k D). cbn [length] in IH. lia.
Qed.
Lemma int_len : forall z, - 2 ^ 63 <= z < 2 ^ 63 -> len (int_to_str z) <= 20.
Proof.
  assert (H : forall n, 0 <= n <= 2 ^ 63 -> (length (dec_digits (S (Z.to_nat (Z.log2 n))) n []) <= 19)%nat).
  { intros n N. apply (dec_digits_len _ n [] 18). split; [lia |]. apply Z.le_lt_trans with (2 ^ 63); [lia | reflexivity]. }
  intros z B. unfold int_to_str, len. destruct (z <? 0) eqn:Q.
  - specialize (H (- z) ltac:(lia)). cbn [length]. lia.
  - specialize (H z ltac:(lia)). lia.
Qed.
Fixpoint texts_len (ts : list (list Z)) : Z := match ts with [] => 0 | t :: l => len t + 1 + texts_len l end.
Lemma join_len : forall ts, len (join ts) <= texts_len ts.
Proof.
  induction ts as [| t ts IH]; [cbn; lia |]. destruct ts as [| u ts]; [cbn [join texts_len]; pose proof (len_nonneg _ t); lia |].
  change (join (t :: u :: ts)) with (t ++ 44 :: join (u :: ts)). rewrite len_app, len_cons. change (texts_len (t :: u :: ts)) with (len t + 1 + texts_len (u :: ts)). lia.
Qed.
Lemma max_len_pos : forall v, 0 <= max_len v.
Proof.
  intros v. induction v as [| b | z | cs | l IH | l IH] using jv_induct; cbn [max_len]; try lia.
  - assert (0 <= fold_right (fun v n => max_len v + 1 + n) 0 l); [| lia]. induction IH as [| v l H _ IHl]; cbn [fold_right]; lia.
  - assert (0 <= fold_right (fun p n => Z.of_nat (length (fst p)) + 3 + max_len (snd p) + 1 + n) 0 l); [| lia]. induction IH as [| v l H _ IHl]; cbn [fold_right]; lia.
Qed.
Lemma dump_some : forall v, plain v -> no_key (bytes "map") v -> max_len v <= 0xFFFF -> exists s, dump v = Some s /\ len s <= max_len v.
Proof.
  intros v. induction v as [| b | z | cs | l IH | l IH] using jv_induct; intros PL NK ML.
  - eexists. split; [reflexivity |]. cbn. lia.
  - eexists. split; [reflexivity |]. destruct b; cbn; lia.
  - eexists. split; [reflexivity |]. inversion PL; subst. apply int_len. assumption.
  - cbn [dump max_len] in *. unfold quoted, new_string. assert (L : len (34 :: cs ++ [34]) = Z.of_nat (length cs) + 2) by (rewrite len_cons, len_app; unfold len; cbn [length]; lia). rewrite L.
    replace (Z.of_nat (length cs) + 2 <=? 0xFFFF) with true by lia. eexists. split; [reflexivity |]. lia.
  - cbn [dump max_len no_key] in *. inversion PL as [| | | | ? FP |]; subst. set (B := fold_right (fun v n => max_len v + 1 + n) 0 l) in *.
    assert (A : exists ts, all_some (map dump l) = Some ts /\ texts_len ts <= B).
    { assert (BL : B <= 0xFFFF) by lia. unfold B in *. clear PL ML B. revert IH FP NK BL. induction l as [| v l IHl]; intros IH FP NK BL; [exists []; split; [reflexivity | cbn; lia] |].
      cbn [fold_right] in *. inversion IH as [| ? ? I1 I2]; inversion FP as [| ? ? P1 P2]; subst. destruct NK as [N1 N2]. pose proof (max_len_pos v) as MV.
      assert (0 <= fold_right (fun v n => max_len v + 1 + n) 0 l) by (clear; induction l as [| v l IHl]; cbn [fold_right]; [lia | pose proof (max_len_pos v); lia]).
      destruct (I1 P1 N1 ltac:(lia)) as (t & T & LT). destruct (IHl I2 P2 N2 ltac:(lia)) as (ts & TS & LS). exists (t :: ts). cbn [map all_some]. rewrite T, TS. split; [reflexivity |]. cbn [texts_len]. lia. }
    destruct A as (ts & -> & LS). pose proof (join_len ts) as JL. unfold new_string. assert (L : len (91 :: join ts ++ [93]) = len (join ts) + 2) by (rewrite len_cons, len_app; unfold len; cbn [length]; lia). rewrite L.
    replace (len (join ts) + 2 <=? 0xFFFF) with true by lia. eexists. split; [reflexivity |]. lia.
  - cbn [dump max_len no_key] in *. inversion PL as [| | | | | ? FP ND]; subst. set (B := fold_right (fun p n => Z.of_nat (length (fst p)) + 3 + max_len (snd p) + 1 + n) 0 l) in *.
    assert (EX : existsb (fun p => zeqb (fst p) (zs "map")) l = false).
    { clear - NK. induction l as [| p l IHl]; [reflexivity |]. cbn [fold_right existsb] in *. destruct NK as (N1 & _ & N3). rewrite zeqb_neq by exact N1. apply IHl. exact N3. }
    rewrite EX.
    assert (A : exists ts, all_some (map (fun p => match quoted (fst p), dump (snd p) with Some k, Some t => new_string (k ++ 58 :: t) | _, _ => None end) l) = Some ts /\ texts_len ts <= B).
    { assert (BL : B <= 0xFFFF) by lia. unfold B in *. clear PL ML B EX ND. revert IH FP NK BL. induction l as [| [k v] l IHl]; intros IH FP NK BL; [exists []; split; [reflexivity | cbn; lia] |].
      cbn [fold_right fst snd] in *. inversion IH as [| ? ? I1 I2]; inversion FP as [| ? ? [_ P1] P2]; subst. cbn [fst snd] in *. destruct NK as (_ & N1 & N2). pose proof (max_len_pos v) as MV.
      assert (0 <= fold_right (fun p n => Z.of_nat (length (fst p)) + 3 + max_len (snd p) + 1 + n) 0 l) by (clear; induction l as [| p l IHl]; cbn [fold_right]; [lia | pose proof (max_len_pos (snd p)); lia]).
      destruct (I1 P1 N1 ltac:(lia)) as (t & T & LT). destruct (IHl I2 P2 N2 ltac:(lia)) as (ts & TS & LS). cbn [map all_some fst snd]. rewrite T, TS. unfold quoted.
      assert (LQ : len (34 :: k ++ [34]) = Z.of_nat (length k) + 2) by (rewrite len_cons, len_app; unfold len; cbn [length]; lia). assert (NQ : new_string (34 :: k ++ [34]) = Some (34 :: k ++ [34])) by (unfold new_string; rewrite LQ; replace (Z.of_nat (length k) + 2 <=? 0xFFFF) with true by lia; reflexivity). rewrite NQ.
      assert (LM : len ((34 :: k ++ [34]) ++ 58 :: t) = Z.of_nat (length k) + 3 + len t) by (rewrite len_app, LQ, len_cons; lia). unfold new_string. rewrite LM. replace (Z.of_nat (length k) + 3 + len t <=? 0xFFFF) with true by lia.
      eexists. split; [reflexivity |]. cbn [texts_len]. rewrite LM. lia. }
    destruct A as (ts & -> & LS). pose proof (join_len ts) as JL. unfold new_string. assert (L : len (123 :: join ts ++ [125]) = len (join ts) + 2) by (rewrite len_cons, len_app; unfold len; cbn [length]; lia). rewrite L.
    replace (len (join ts) + 2 <=? 0xFFFF) with true by lia. eexists. split; [reflexivity |]. lia.
Qed.
