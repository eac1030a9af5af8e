(* Properties C01 and C02: UTF-8 conversion. *)
From Coq Require Import ZArith List Lia Bool ZifyBool.
From Verif Require Import Base Utf8Model Utf8Spec Utf8Proofs Utf8Main.
Import ListNotations.
Open Scope Z_scope.

(* C01.  Any sequence of code points below 2^21: the announced size is the
   size of the encoded bytes, the length query returns the number of code
   points for any memory address of the bytes, and every decoder which is wide
   enough for the reported maximum returns the original sequence. *)
Theorem utf8_roundtrip : forall cs addr,
  (forall c, In c cs -> 0 <= c < 2 ^ 21) ->
  4 * Z.of_nat (length cs) < 2 ^ 32 ->
  calc_buf_size_32 cs 0 = Some (Z.of_nat (length (encode_32 cs))) /\
  Forall is_byte (encode_32 cs) /\
  (exists m, get_len false addr (encode_32 cs) = Ok (Z.of_nat (length cs), m) /\
     (forall c, In c cs -> c < 128 \/ c <= m) /\
     forall w, (w = 8 \/ w = 16 \/ w = 32) -> m < 2 ^ w -> decode w false (encode_32 cs) = Ok cs) /\
  decode 32 false (encode_32 cs) = Ok cs.
Proof.
  intros cs addr Hc Hlen.
  assert (T : text false (encode_32 cs) cs) by (apply encode_text; assumption).
  assert (HB : Forall is_byte (encode_32 cs)) by (eapply text_bytes; eassumption).
  split; [ apply (calc_size_spec cs 0); try assumption; lia | ].
  split; [ assumption | ].
  split.
  - pose proof (get_len_loop_spec (length (encode_32 cs)) false addr (encode_32 cs) 0 0 HB ltac:(lia) ltac:(lia)) as HP.
    unfold get_len. destruct (get_len_loop (length (encode_32 cs)) false addr (encode_32 cs) 0 0) as [[n m]| |].
    + destruct HP as [cs' [T' [E1 [E2 [E3 E4]]]]].
      rewrite <- (text_det _ _ _ T _ T') in *.
      exists m. split; [ f_equal; f_equal; lia | ]. split; [ intros c Hin; apply E3; assumption | ].
      intros w Hw Hm. unfold decode. rewrite (decode_loop_spec w false (encode_32 cs) cs Hw T).
      * reflexivity.
      * intros c Hin. destruct (E3 c Hin) as [_ [K|K]]; [ | lia ].
        assert (128 <= 2 ^ w) by (destruct Hw as [->|[->| ->]]; lia). lia.
      * lia.
    + exfalso. apply HP. exists cs. assumption.
    + contradiction.
  - unfold decode. rewrite (decode_loop_spec 32 false (encode_32 cs) cs ltac:(lia) T); [ reflexivity | | lia ].
    intros c Hin. specialize (Hc c Hin). lia.
Qed.

(* The 8- and 16-bit encoders produce the same bytes as the 32-bit one. *)
Theorem utf8_encoders_agree : forall cs,
  ((forall c, In c cs -> 0 <= c < 2 ^ 8) -> encode_8 cs = encode_32 cs) /\
  ((forall c, In c cs -> 0 <= c < 2 ^ 16) -> encode_16 cs = encode_32 cs).
Proof. intros cs. split; [ apply encode_8_32 | apply encode_16_32 ]. Qed.

Example utf8_roundtrip_ex :
  let cs := [0x41; 0xE9; 0x20AC; 0x1F600; 0x10FFFF; 0x5C; 0x7F; 0x80; 0x7FF; 0x800] in
  encode_32 cs = [0x41; 0xC3; 0xA9; 0xE2; 0x82; 0xAC; 0xF0; 0x9F; 0x98; 0x80; 0xF4; 0x8F; 0xBF; 0xBF;
                  0x5C; 0x7F; 0xC2; 0x80; 0xDF; 0xBF; 0xE0; 0xA0; 0x80] /\
  get_len false 5 (encode_32 cs) = Ok (10, 0x10FFFF) /\ decode 32 false (encode_32 cs) = Ok cs.
Proof. vm_compute. repeat split. Qed.

(* C02 (first part).  For every byte string, at any address and with or
   without escape sequences, the length query never reads past the bytes; it
   accepts exactly the texts of the specification; and when it accepts, every
   wide enough decoder returns exactly the announced number of code points,
   without reading past the bytes. *)
Theorem utf8_len_decode_agree : forall esc addr l,
  Forall is_byte l ->
  match get_len esc addr l with
  | Ok (n, m) =>
      exists cs, text esc l cs /\ n = Z.of_nat (length cs) /\
        (forall c, In c cs -> 0 <= c /\ (c < 128 \/ c <= m)) /\
        forall w, (w = 8 \/ w = 16 \/ w = 32) -> m < 2 ^ w -> decode w esc l = Ok cs
  | Fail => forall cs, ~ text esc l cs
  | OverRead => False
  end.
Proof.
  intros esc addr l HB.
  pose proof (get_len_loop_spec (length l) esc addr l 0 0 HB ltac:(lia) ltac:(lia)) as HP.
  unfold get_len. destruct (get_len_loop (length l) esc addr l 0 0) as [[n m]| |].
  - destruct HP as [cs [T [E1 [E2 [E3 E4]]]]]. exists cs. split; [ assumption | ]. split; [ lia | ].
    split; [ assumption | ]. intros w Hw Hm.
    unfold decode. rewrite (decode_loop_spec w esc l cs Hw T); [ reflexivity | | lia ].
    intros c Hin. destruct (E3 c Hin) as [_ [K|K]]; [ | lia ].
    assert (128 <= 2 ^ w) by (destruct Hw as [->|[->| ->]]; lia). lia.
  - intros cs T. apply HP. exists cs. assumption.
  - exact HP.
Qed.

Example utf8_len_decode_ex :
  let l := [0x61; 0x5C; 0x78; 0x7B; 0x31; 0x46; 0x36; 0x30; 0x30; 0x7D; 0x5C; 0x6E; 0xC3; 0xA9; 0x5C; 0x28] in
  get_len true 0 l = Ok (6, 0x1F600) /\ decode 32 true l = Ok [0x61; 0x1F600; 10; 0xE9; 0x5C; 0x28] /\
  get_len false 3 [0xE2; 0x82] = Fail /\ get_len true 8 [0x61; 0x5C] = Fail.
Proof. vm_compute. repeat split. Qed.

(* Every well-formed UTF-8 text is accepted and decoded to its code points. *)
Theorem utf8_well_formed_accepted : forall addr l cs,
  Forall is_byte l -> wf_text l cs ->
  exists m, get_len false addr l = Ok (Z.of_nat (length cs), m) /\ decode 32 false l = Ok cs.
Proof.
  intros addr l cs HB W. apply wf_text_text in W.
  pose proof (utf8_len_decode_agree false addr l HB) as HP.
  destruct (get_len false addr l) as [[n m]| |].
  - destruct HP as [cs' [T [-> [H1 H2]]]]. rewrite (text_det _ _ _ W _ T) in *.
    exists m. split; [ reflexivity | ].
    unfold decode. rewrite (decode_loop_spec 32 false l cs' ltac:(lia) T); [ reflexivity | | lia ].
    intros c Hin. apply (text_max _ _ _ T) in Hin. lia.
  - exfalso. eapply HP; eassumption.
  - contradiction.
Qed.

Example utf8_well_formed_ex : wf_text [0xE2; 0x82; 0xAC; 0x41] [0x20AC; 0x41].
Proof.
  apply (WF_cons 0x20AC [0xE2; 0x82; 0xAC] [0x41] [0x41]).
  - split; [ apply (L3 0xE2 0x82 0xAC); unfold cont_byte; lia | split; cbn; lia ].
  - apply (WF_cons 0x41 [0x41] [] []); [ | constructor ].
    split; [ apply L1; lia | split; cbn; discriminate ].
Qed.

(* C02 (second part), refuted: texts which are not well-formed UTF-8 are
   accepted: an overlong form of U+0000, a surrogate and a value above
   U+10FFFF. *)
Theorem utf8_rejects_ill_formed_refuted : exists l n m,
  Forall is_byte l /\ (forall cs, ~ wf_text l cs) /\ get_len false 0 l = Ok (n, m).
Proof.
  exists [0xE0; 0x80; 0x80], 1, 0. split; [ repeat constructor; unfold is_byte; lia | ].
  split; [ | vm_compute; reflexivity ].
  intros cs W. inversion W as [E|code bs t cs' WF T E].
  destruct WF as [L [W3 W4]].
  destruct (layout_det _ _ _ _ t [] L (L3 0xE0 0x80 0x80 ltac:(lia) ltac:(unfold cont_byte; lia) ltac:(unfold cont_byte; lia)) E)
    as [-> [-> _]].
  specialize (W3 eq_refl). lia.
Qed.

Example utf8_ill_formed_more :
  get_len false 0 [0xED; 0xA0; 0x80] = Ok (1, 0xD800) /\
  get_len false 0 [0xF7; 0xBF; 0xBF; 0xBF] = Ok (1, 0x1FFFFF) /\
  get_len false 0 [0xC0; 0x80] = Fail.
Proof. vm_compute. repeat split. Qed.

Print Assumptions utf8_roundtrip.
Print Assumptions utf8_encoders_agree.
Print Assumptions utf8_len_decode_agree.
Print Assumptions utf8_well_formed_accepted.
Print Assumptions utf8_rejects_ill_formed_refuted.
