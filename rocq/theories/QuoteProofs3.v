From Coq Require Import ZArith List Lia Bool ZifyBool.
Import ListNotations.
From Verif Require Import Base ListZ BufferProofs Utf8Model Utf8Spec Utf8Main QuoteModel QuoteSpec QuoteProofs QuoteProofs2.
Local Open Scope Z_scope.
Ltac Zify.zify_post_hook ::= idtac.

Lemma fold_u32 : forall bs n, 0 <= n -> (forall k, (k <= length bs)%nat -> 0 <= n + sum_extra (firstn k bs) < 2 ^ 32) ->
  fold_left (fun n c => u32 (n + extra_len_map c)) bs n = n + sum_extra bs.
Proof.
  induction bs as [|b bs IH]; intros n Hn H; cbn [fold_left sum_extra fold_right]; [ lia | ].
  assert (H1 : 0 <= n + extra_len_map b < 2 ^ 32).
  { pose proof (H 1%nat ltac:(cbn [length]; lia)) as H1. cbn [firstn sum_extra fold_right] in H1. lia. }
  replace (u32 (n + extra_len_map b)) with (n + extra_len_map b) by (unfold u32, uwrap; rewrite Z.mod_small; [ reflexivity | exact H1 ]).
  rewrite IH; [ fold (sum_extra bs); lia | lia | ].
  intros k Hk. pose proof (H (S k) ltac:(cbn [length]; lia)) as H2. cbn [firstn sum_extra fold_right] in H2.
  fold (sum_extra (firstn k bs)) in H2. lia.
Qed.

Lemma prefix_sum : forall cs k, Forall code_ok cs -> (k <= length (encode_32 cs))%nat -> 0 <= sum_extra (firstn k (encode_32 cs)) <= 8 * len cs.
Proof.
  induction cs as [|c cs IH]; intros k H Hk; [ cbn in Hk; destruct k; [ cbn; lia | lia ] | ].
  inversion_clear H as [|? ? Hc Hcs]. destruct (char_extra c Hc) as (A' & B' & C' & D' & F').
  unfold encode_32 in *. cbn [flat_map] in *. fold (enc c) in *. rewrite app_length in Hk. rewrite firstn_app, sum_extra_app, len_cons.
  destruct (Nat.leb_spec k (length (enc c))).
  - replace (k - length (enc c))%nat with 0%nat by lia. cbn [firstn sum_extra fold_right]. pose proof (F' k ltac:(lia)). pose proof (len_nonneg _ cs). lia.
  - rewrite firstn_all2 by lia. pose proof (IH (k - length (enc c))%nat Hcs ltac:(lia)). lia.
Qed.

Lemma extra_len_ok : forall cs, Forall code_ok cs -> len cs <= 0xFFFF -> extra_len (encode_32 cs) = sum_extra (encode_32 cs).
Proof.
  intros cs H HL. unfold extra_len. rewrite fold_u32; [ lia | lia | ].
  intros k Hk. pose proof (prefix_sum cs k H Hk). change (2 ^ 32) with 4294967296. lia.
Qed.

Lemma resize_grow : forall v n j, len v <= n -> exists g, resize v n j = v ++ g /\ len g = n - len v.
Proof.
  intros v n j H. pose proof (len_nonneg _ v). unfold resize. exists (repeat j (Z.to_nat (n - len v))). split.
  - replace (Z.to_nat n) with (length v + Z.to_nat (n - len v))%nat by (unfold len in *; lia).
    rewrite firstn_app_2. f_equal. rewrite Nat.add_comm, repeat_app, firstn_app, repeat_length, Nat.sub_diag, firstn_O, app_nil_r.
    rewrite firstn_all2 by (rewrite repeat_length; lia). reflexivity.
  - unfold len. rewrite repeat_length. unfold len in *. lia.
Qed.

Definition parts (vec base : list Z) : Prop := (vec = [] /\ base = []) \/ exists z, vec = base ++ [z].

Lemma parts_pos : forall vec base, parts vec base -> (if len vec =? 0 then 0 else len vec - 1) = len base /\ len vec <= len base + 1.
Proof.
  intros vec base [[-> ->]|[z ->]]; [ split; [ reflexivity | change (len (@nil Z)) with 0; lia ] | ].
  rewrite len_app. change (len [z]) with 1. pose proof (len_nonneg _ base). replace (len base + 1 =? 0) with false by lia. split; lia.
Qed.
Lemma resize_parts : forall vec base n j, parts vec base -> len base + 1 <= n ->
  exists g, resize vec n j = base ++ g /\ len g = n - len base.
Proof.
  intros vec base n j P H. destruct (parts_pos _ _ P) as [_ Q]. destruct (resize_grow vec n j ltac:(lia)) as (g & E & G).
  destruct P as [[-> ->]|[z ->]].
  - exists g. split; [ exact E | exact G ].
  - exists (z :: g). rewrite E, <- app_assoc. split; [ reflexivity | ]. rewrite len_cons, G, len_app. change (len [z]) with 1. lia.
Qed.

Lemma str_len_ok : forall cs, Forall code_ok cs -> len cs <= 0xFFFF ->
  (if 0 <? len cs then match calc_buf_size_32 cs 0 with Some n => AOk n | None => AInvalid end else AOk 0) = AOk (len (encode_32 cs)).
Proof.
  intros cs H HL. destruct (0 <? len cs) eqn:E.
  - rewrite calc_size_spec; [ reflexivity | | lia | ].
    + intros c Hc. rewrite Forall_forall in H. exact (H c Hc).
    + change (2 ^ 32) with 4294967296. unfold len in HL. lia.
  - destruct cs; [ reflexivity | rewrite len_cons in E; pose proof (len_nonneg _ cs); lia ].
Qed.

Lemma append_quoted : forall vec base cs junk, parts vec base -> Forall code_ok cs -> len cs <= 0xFFFF ->
  append_str vec cs true junk = AOk (base ++ quoted cs ++ [0]).
Proof.
  intros vec base cs junk HP Hcs HL. unfold append_str.
  destruct (parts_pos _ _ HP) as [-> HV]. rewrite str_len_ok by assumption. cbn [abind]. rewrite andb_false_r.
  destruct (text_extra cs Hcs) as (TA & TB & TC & TD). pose proof (len_nonneg _ (encode_32 cs)) as HE.
  set (e := encode_32 cs) in *.
  destruct (resize_parts vec base (len base + len e + 1 + 2) junk HP ltac:(lia)) as (g & -> & Hg).
  destruct g as [|g0 g]; [ change (len (@nil Z)) with 0 in Hg; lia | ]. rewrite len_cons in Hg.
  rewrite wr_mid by reflexivity. cbn [abind].
  destruct (split_tail g 2) as (ge & g2 & -> & Hg2); [ unfold len in *; lia | ].
  rewrite len_app in Hg. destruct g2 as [|x [|y [|]]]; try discriminate Hg2. change (len [x; y]) with 2 in Hg.
  assert (E1 : (if len e =? 0 then AOk (base ++ 34 :: ge ++ [x; y]) else wr_all (base ++ 34 :: ge ++ [x; y]) (len base + 1) e) =
               AOk ((base ++ [34]) ++ e ++ [x; y])).
  { destruct (len e =? 0) eqn:E0.
    - destruct e; [ | rewrite len_cons in E0; pose proof (len_nonneg _ e); lia ].
      destruct ge; [ | rewrite len_cons in Hg; pose proof (len_nonneg _ ge); change (len (@nil Z)) with 0 in Hg; lia ].
      rewrite <- app_assoc. reflexivity.
    - replace (base ++ 34 :: ge ++ [x; y]) with ((base ++ [34]) ++ ge ++ [x; y]) by (rewrite <- app_assoc; reflexivity).
      apply wr_all_mid; [ rewrite len_app; reflexivity | unfold len in *; lia ]. }
  rewrite E1. cbn [abind]. clear E1.
  assert (E2 : firstn (Z.to_nat (len e)) (skipn (Z.to_nat (len base + 1)) ((base ++ [34]) ++ e ++ [x; y])) = e).
  { rewrite skipn_app_len by (rewrite len_app; reflexivity). apply firstn_app_len. reflexivity. }
  rewrite E2. clear E2. replace (extra_len e) with (sum_extra e) by (symmetry; apply extra_len_ok; assumption).
  assert (E3 : (if sum_extra e =? 0 then AOk ((base ++ [34]) ++ e ++ [x; y])
                else quote_loop (S (Z.to_nat (len e))) (resize ((base ++ [34]) ++ e ++ [x; y]) (len ((base ++ [34]) ++ e ++ [x; y]) + sum_extra e) junk)
                       (len base + 1 + len e) (len base + 1 + len e + sum_extra e) 0) =
               AOk ((base ++ [34]) ++ qbody cs ++ [x; y]) \/
               exists p q, (if sum_extra e =? 0 then AOk ((base ++ [34]) ++ e ++ [x; y])
                else quote_loop (S (Z.to_nat (len e))) (resize ((base ++ [34]) ++ e ++ [x; y]) (len ((base ++ [34]) ++ e ++ [x; y]) + sum_extra e) junk)
                       (len base + 1 + len e) (len base + 1 + len e + sum_extra e) 0) =
               AOk ((base ++ [34]) ++ qbody cs ++ [p; q])).
  { destruct (sum_extra e =? 0) eqn:E0.
    - left. rewrite TC by lia. reflexivity.
    - right. destruct (resize_grow ((base ++ [34]) ++ e ++ [x; y]) (len ((base ++ [34]) ++ e ++ [x; y]) + sum_extra e) junk ltac:(lia)) as (j & -> & Hj).
      destruct (split_tail ([x; y] ++ j) 2) as (gap & D & Ed & HD); [ rewrite app_length; cbn [length]; lia | ].
      destruct D as [|p [|q [|]]]; try discriminate HD. exists p, q.
      assert (Hgap : len gap = sum_extra e).
      { assert (Q : len ([x; y] ++ j) = len (gap ++ [p; q])) by (rewrite Ed; reflexivity). rewrite !len_app in Q.
        change (len [x; y]) with 2 in Q. change (len [p; q]) with 2 in Q. lia. }
      rewrite <- !app_assoc. replace (base ++ [34] ++ e ++ [x; y] ++ j) with ((base ++ [34]) ++ e ++ gap ++ [p; q])
        by (rewrite <- app_assoc, Ed; reflexivity).
      unfold e. rewrite quote_loop_ok.
      + rewrite <- app_assoc. reflexivity.
      + exact Hcs.
      + exact Hgap.
      + rewrite len_app. reflexivity.
      + rewrite Hgap. reflexivity.
      + rewrite to_nat_len. lia. }
  assert (E4 : exists p q, (if sum_extra e =? 0 then AOk ((base ++ [34]) ++ e ++ [x; y])
                else quote_loop (S (Z.to_nat (len e))) (resize ((base ++ [34]) ++ e ++ [x; y]) (len ((base ++ [34]) ++ e ++ [x; y]) + sum_extra e) junk)
                       (len base + 1 + len e) (len base + 1 + len e + sum_extra e) 0) =
               AOk ((base ++ [34]) ++ qbody cs ++ [p; q])).
  { destruct E3 as [E3|E3]; [ exists x, y; exact E3 | exact E3 ]. }
  clear E3. destruct E4 as (p & q & E4). rewrite E4. cbn [abind]. clear E4.
  assert (HQ : len (qbody cs) = sum_extra e + len e) by lia.
  replace ((base ++ [34]) ++ qbody cs ++ [p; q]) with ((base ++ [34] ++ qbody cs) ++ p :: [q]) by (rewrite <- !app_assoc; reflexivity).
  rewrite wr_mid by (rewrite !len_app; change (len [34]) with 1; lia). cbn [abind].
  replace ((base ++ [34] ++ qbody cs) ++ 34 :: [q]) with ((base ++ [34] ++ qbody cs ++ [34]) ++ q :: []) by (rewrite <- !app_assoc; reflexivity).
  rewrite wr_mid by (rewrite !len_app; change (len [34]) with 1; lia).
  unfold quoted. fold (qbody cs). rewrite <- !app_assoc. cbn [app]. rewrite <- !app_assoc. reflexivity.
Qed.

Lemma append_plain : forall vec base cs junk, parts vec base -> Forall code_ok cs -> len cs <= 0xFFFF -> cs <> [] ->
  append_str vec cs false junk = AOk (base ++ encode_32 cs ++ [0]).
Proof.
  intros vec base cs junk HP Hcs HL NE. unfold append_str.
  destruct (parts_pos _ _ HP) as [-> HV]. rewrite str_len_ok by assumption. cbn [abind].
  destruct (text_extra cs Hcs) as (TA & TB & TC & TD).
  assert (1 <= len cs) by (destruct cs; [ congruence | rewrite len_cons; pose proof (len_nonneg _ cs); lia ]).
  set (e := encode_32 cs) in *. replace (len e =? 0) with false by lia. cbn [andb negb].
  destruct (resize_parts vec base (len base + len e + 1 + 0) junk HP ltac:(lia)) as (g & -> & Hg).
  cbn [abind]. destruct (split_tail g 1) as (ge & g2 & -> & Hg2); [ unfold len in *; lia | ].
  rewrite len_app in Hg. destruct g2 as [|x [|]]; try discriminate Hg2. change (len [x]) with 1 in Hg.
  rewrite (wr_all_mid e ge) by (unfold len in *; lia). cbn [abind Z.eqb].
  rewrite app_assoc. rewrite wr_mid by (rewrite len_app; lia). rewrite <- app_assoc. reflexivity.
Qed.

Lemma calc_invalid : forall cs n, (exists c, In c cs /\ 2 ^ 21 <= c) -> calc_buf_size_32 cs n = None.
Proof.
  induction cs as [|c cs IH]; intros n (x & Hin & Hx); [ destruct Hin | ]. cbn [calc_buf_size_32].
  change (2 ^ 7) with 128. change (2 ^ 11) with 2048. change (2 ^ 16) with 65536. change (2 ^ 21) with 2097152 in *.
  destruct Hin as [->|Hin].
  - replace (x <? 128) with false by lia. replace (x <? 2048) with false by lia. replace (x <? 65536) with false by lia.
    replace (x <? 2097152) with false by lia. reflexivity.
  - repeat match goal with |- context [if ?b then _ else _] => destruct b end; try reflexivity; apply IH; exists x; split; assumption.
Qed.
