From Coq Require Import ZArith List Lia Bool ZifyBool.
Import ListNotations.
From Verif Require Import Base ListZ BufferProofs Utf8Model Utf8Spec Utf8Main QuoteModel QuoteSpec QuoteProofs.
Local Open Scope Z_scope.
Ltac Zify.zify_post_hook ::= idtac.

Lemma char_step : forall c, code_ok c -> step_ok c.
Proof.
  intros c Hc f A gap D dst Hd Hg Hq.
  destruct (encode_char_layout c Hc) as [L _]. fold enc in L.
  assert (F : forall g, exists R, len R = len (enc c) + len gap - len (quote_char c) /\
    quote_loop (S g) (A ++ enc c ++ gap ++ D) (len A + 1) dst (len (enc c) - 1) =
    quote_loop g (A ++ R ++ quote_char c ++ D) (len A) (len A + len R) 0).
  { intros g. assert (1 <= len (enc c)) by (destruct L; unfold len; cbn [length]; lia).
    destruct (quote_loop_first g A c (enc c ++ gap) D dst (len (enc c) - 1) Hc) as (R & HR & E).
    - destruct L; discriminate.
    - exists gap. reflexivity.
    - reflexivity.
    - rewrite len_app. lia.
    - rewrite len_app. lia.
    - rewrite len_app. lia.
    - exists R. split; [ rewrite HR, len_app; lia | ]. rewrite <- app_assoc in E. exact E. }
  destruct (F f) as (R & HR & E). exists R. split; [ exact HR | ]. rewrite <- E. clear E HR F Hq.
  remember (enc c) as e. clear Heqe. unfold cont_byte in *.
  destruct L as [a Ha|a b Ha Hb|a b d Ha Hb Hd'|a b d e Ha Hb Hd' He]; unfold cont_byte in *; cbn [length Nat.add app].
  - reflexivity.
  - change (len [a; b]) with 2 in *.
    change (A ++ a :: b :: gap ++ D) with (A ++ [a] ++ b :: gap ++ D). rewrite (app_assoc A).
    rewrite loop_cont by (rewrite ?len_app; change (len [a]) with 1; lia).
    replace (len A + 2 - 1) with (len A + 1) by lia. rewrite <- app_assoc. reflexivity.
  - change (len [a; b; d]) with 3 in *.
    change (A ++ a :: b :: d :: gap ++ D) with (A ++ [a; b] ++ d :: gap ++ D). rewrite (app_assoc A).
    rewrite loop_cont by (rewrite ?len_app; change (len [a; b]) with 2; lia).
    replace ((A ++ [a; b]) ++ d :: gap ++ D) with ((A ++ [a]) ++ b :: d :: gap ++ D) by (rewrite <- !app_assoc; reflexivity).
    rewrite loop_cont by (rewrite ?len_app; change (len [a]) with 1; lia).
    replace (len A + 3 - 1 - 1) with (len A + 1) by lia. rewrite <- app_assoc. reflexivity.
  - change (len [a; b; d; e]) with 4 in *.
    change (A ++ a :: b :: d :: e :: gap ++ D) with (A ++ [a; b; d] ++ e :: gap ++ D). rewrite (app_assoc A).
    rewrite loop_cont by (rewrite ?len_app; change (len [a; b; d]) with 3; lia).
    replace ((A ++ [a; b; d]) ++ e :: gap ++ D) with ((A ++ [a; b]) ++ d :: e :: gap ++ D) by (rewrite <- !app_assoc; reflexivity).
    rewrite loop_cont by (rewrite ?len_app; change (len [a; b]) with 2; lia).
    replace ((A ++ [a; b]) ++ d :: e :: gap ++ D) with ((A ++ [a]) ++ b :: d :: e :: gap ++ D) by (rewrite <- !app_assoc; reflexivity).
    rewrite loop_cont by (rewrite ?len_app; change (len [a]) with 1; lia).
    replace (len A + 4 - 1 - 1 - 1) with (len A + 1) by lia. rewrite <- app_assoc. reflexivity.
Qed.

Definition qbody (cs : list Z) : list Z := flat_map quote_char cs.
Definition sum_extra (bs : list Z) : Z := fold_right (fun b n => extra_len_map b + n) 0 bs.
Lemma sum_extra_app : forall a b, sum_extra (a ++ b) = sum_extra a + sum_extra b.
Proof. induction a as [|x a IH]; intros; cbn [sum_extra fold_right app]; [ reflexivity | ]. fold (sum_extra a) (sum_extra (a ++ b)). rewrite IH. lia. Qed.

Lemma braces_len : forall n c, len (braces n c) = Z.of_nat n + 4.
Proof. intros. unfold braces. rewrite !len_app. change (len [92; 120; 123]) with 3. change (len [125]) with 1. unfold len at 1. rewrite hex_of_len. lia. Qed.

(* the map gives the difference of the lengths *)
Lemma char_extra : forall c, code_ok c ->
  sum_extra (enc c) = len (quote_char c) - len (enc c) /\ 0 <= sum_extra (enc c) <= 8 /\ (sum_extra (enc c) = 0 -> quote_char c = enc c) /\
  1 <= len (enc c) <= 4 /\ (forall k, (k <= length (enc c))%nat -> 0 <= sum_extra (firstn k (enc c)) <= 8).
Proof.
  intros c Hc. destruct (encode_char_layout c Hc) as [L (S1 & S2 & S3 & S4)]. fold enc in L, S1, S2, S3, S4.
  destruct (c <? 128) eqn:E0.
  { unfold code_ok in Hc. rewrite enc_ascii by lia. cbn [sum_extra fold_right length firstn]. change (len [c]) with 1.
    assert (M : (c = 34 \/ c = 92) /\ extra_len_map c = 1 /\ quote_char c = [92; c] \/
                extra_len_map c = 0 /\ quote_char c = [c] \/ extra_len_map c = 3 /\ quote_char c = [92; 120] ++ hex_of 2 c).
    { unfold quote_char. destruct ((c =? 34) || (c =? 92)) eqn:Q1; [ left; split; [ lia | split; [ mapz | reflexivity ] ] | right ].
      destruct ((32 <=? c) && (c <=? 126)) eqn:Q2; [ left; split; [ mapz | reflexivity ] | right ].
      replace (c <? 256) with true by lia. split; [ mapz | reflexivity ]. }
    assert (K : forall k, (k <= 1)%nat -> 0 <= extra_len_map c <= 3 -> 0 <= sum_extra (firstn k [c]) <= 8).
    { intros [|[|]] Hk H; [ cbn; lia | cbn [firstn sum_extra fold_right]; lia | lia ]. }
    destruct M as [(_ & -> & ->)|[(-> & ->)|(-> & ->)]].
    - change (len [92; c]) with 2. split; [ lia | split; [ lia | split; [ lia | split; [ lia | ] ] ] ]. intros k Hk. apply K; [ exact Hk | ]. mapz.
    - change (len [c]) with 1. split; [ lia | split; [ lia | split; [ reflexivity | split; [ lia | ] ] ] ]. intros k Hk. apply K; [ exact Hk | ]. mapz.
    - rewrite len_app. change (len [92; 120]) with 2. unfold len at 1. rewrite hex_of_len.
      split; [ lia | split; [ lia | split; [ lia | split; [ lia | ] ] ] ]. intros k Hk. apply K; [ exact Hk | ]. mapz. }
  assert (CB : forall b, cont_byte b -> extra_len_map b = -1) by (unfold cont_byte; intros; mapz).
  remember (enc c) as e. clear Heqe. revert Hc S1 S2 S3 S4 E0.
  destruct L as [a Ha|a b Ha Hb|a b d Ha Hb Hd'|a b d e Ha Hb Hd' He]; intros Hc S1 S2 S3 S4 E0; cbn [length] in *; [ lia | .. ].
  - pose proof (proj1 S2 eq_refl) as Hr. set (cc := (a - 192) * 64 + (b - 128)) in *.
    pose proof (CB b Hb). unfold cont_byte in *.
    assert (M : extra_len_map a = 3 /\ len (quote_char cc) = 4 \/ extra_len_map a = 6 /\ len (quote_char cc) = 7).
    { unfold quote_char. replace ((cc =? 34) || (cc =? 92)) with false by lia. replace ((32 <=? cc) && (cc <=? 126)) with false by lia.
      destruct (cc <? 256) eqn:Q; [ left; split; [ mapz | rewrite len_app; unfold len; rewrite hex_of_len; reflexivity ] | ].
      replace (cc <? 2048) with true by lia. right. rewrite braces_len. split; [ mapz | reflexivity ]. }
    cbn [sum_extra fold_right]. change (len [a; b]) with 2. clearbody cc.
    split; [ lia | split; [ lia | split; [ lia | split; [ lia | ] ] ] ].
    intros [|[|[|]]] Hk; cbn [firstn sum_extra fold_right]; lia.
  - pose proof (proj1 S3 eq_refl) as Hr. set (cc := (a - 224) * 4096 + (b - 128) * 64 + (d - 128)) in *.
    pose proof (CB b Hb). pose proof (CB d Hd'). unfold cont_byte in *.
    assert (M : extra_len_map a = 7 /\ len (quote_char cc) = 8).
    { unfold quote_char. replace ((cc =? 34) || (cc =? 92)) with false by lia. replace ((32 <=? cc) && (cc <=? 126)) with false by lia.
      replace (cc <? 256) with false by lia. replace (cc <? 2048) with false by lia. replace (cc <? 65536) with true by lia.
      rewrite braces_len. split; [ mapz | reflexivity ]. }
    cbn [sum_extra fold_right]. change (len [a; b; d]) with 3. clearbody cc.
    split; [ lia | split; [ lia | split; [ lia | split; [ lia | ] ] ] ].
    intros [|[|[|[|]]]] Hk; cbn [firstn sum_extra fold_right]; lia.
  - pose proof (proj1 S4 eq_refl) as Hr. set (cc := (a - 240) * 262144 + (b - 128) * 4096 + (d - 128) * 64 + (e - 128)) in *.
    pose proof (CB b Hb). pose proof (CB d Hd'). pose proof (CB e He). unfold cont_byte in *.
    assert (M : extra_len_map a = 8 /\ len (quote_char cc) = 9).
    { unfold quote_char. replace ((cc =? 34) || (cc =? 92)) with false by lia. replace ((32 <=? cc) && (cc <=? 126)) with false by lia.
      replace (cc <? 256) with false by lia. replace (cc <? 2048) with false by lia. replace (cc <? 65536) with false by lia.
      rewrite braces_len. split; [ mapz | reflexivity ]. }
    cbn [sum_extra fold_right]. change (len [a; b; d; e]) with 4. clearbody cc.
    split; [ lia | split; [ lia | split; [ lia | split; [ lia | ] ] ] ].
    intros [|[|[|[|[|]]]]] Hk; cbn [firstn sum_extra fold_right]; lia.
Qed.

Lemma encode_32_app : forall a b, encode_32 (a ++ b) = encode_32 a ++ encode_32 b.
Proof. intros. unfold encode_32. apply flat_map_app. Qed.
Lemma qbody_app : forall a b, qbody (a ++ b) = qbody a ++ qbody b.
Proof. intros. unfold qbody. apply flat_map_app. Qed.

Lemma text_extra : forall cs, Forall code_ok cs ->
  sum_extra (encode_32 cs) = len (qbody cs) - len (encode_32 cs) /\ 0 <= sum_extra (encode_32 cs) <= 8 * len cs /\
  (sum_extra (encode_32 cs) = 0 -> qbody cs = encode_32 cs) /\ len cs <= len (encode_32 cs) <= 4 * len cs.
Proof.
  induction cs as [|c cs IH]; intros H; [ cbn; repeat split; lia | ].
  inversion_clear H as [|? ? Hc Hcs]. destruct (IH Hcs) as (A & B & C & D). destruct (char_extra c Hc) as (A' & B' & C' & D' & _).
  unfold encode_32, qbody in *. cbn [flat_map]. fold (enc c) in *. rewrite sum_extra_app, !len_app, len_cons.
  split; [ lia | split; [ lia | split; [ | lia ] ] ].
  intros E. rewrite C', C by lia. reflexivity.
Qed.

Lemma quote_loop_ok : forall cs P gap D f src dst, Forall code_ok cs -> len gap = sum_extra (encode_32 cs) ->
  src = len P + len (encode_32 cs) -> dst = src + len gap -> (length (encode_32 cs) < f)%nat ->
  quote_loop f (P ++ encode_32 cs ++ gap ++ D) src dst 0 = AOk (P ++ qbody cs ++ D).
Proof.
  induction cs as [|c cs IH] using rev_ind; intros P gap D f src dst Hcs Hgap Hsrc Hdst Hf.
  - cbn [encode_32 flat_map sum_extra fold_right] in Hgap. destruct gap; [ | rewrite len_cons in Hgap; pose proof (len_nonneg _ gap); lia ].
    destruct f; [ lia | ]. cbn [quote_loop]. replace (src <? dst) with false by (change (len (@nil Z)) with 0 in Hdst; lia). reflexivity.
  - destruct (Z.eq_dec (len gap) 0) as [Z0|NZ].
    + destruct gap; [ | rewrite len_cons in Z0; pose proof (len_nonneg _ gap); lia ].
      destruct f; [ lia | ]. cbn [quote_loop]. replace (src <? dst) with false by (change (len (@nil Z)) with 0 in Hdst; lia).
      destruct (text_extra _ Hcs) as (_ & _ & C & _). rewrite C by lia. reflexivity.
    + apply Forall_app in Hcs. destruct Hcs as [Hcs Hc]. inversion_clear Hc as [|? ? Hc' _].
      destruct (char_extra c Hc') as (A' & B' & C' & D' & _). destruct (text_extra cs Hcs) as (A & B & C & D1).
      assert (E1 : encode_32 (cs ++ [c]) = encode_32 cs ++ enc c).
      { rewrite encode_32_app. f_equal. cbn [encode_32 flat_map]. rewrite app_nil_r. reflexivity. }
      rewrite E1 in *. rewrite sum_extra_app in Hgap. rewrite len_app in Hsrc. rewrite app_length in Hf.
      assert (Hfe : f = (length (enc c) + (f - length (enc c)))%nat) by lia. rewrite Hfe.
      destruct (char_step c Hc' (f - length (enc c))%nat (P ++ encode_32 cs) gap D dst) as (R & HR & E);
        [ rewrite len_app; lia | pose proof (len_nonneg _ gap); lia | lia | ].
      replace (P ++ (encode_32 cs ++ enc c) ++ gap ++ D) with ((P ++ encode_32 cs) ++ enc c ++ gap ++ D) by (rewrite <- !app_assoc; reflexivity).
      replace src with (len (P ++ encode_32 cs) + len (enc c)) by (rewrite len_app; lia).
      rewrite E. rewrite <- app_assoc. rewrite IH; [ | exact Hcs | lia | apply len_app | reflexivity | lia ].
      rewrite qbody_app. cbn [qbody flat_map]. rewrite app_nil_r, <- !app_assoc. reflexivity.
Qed.
