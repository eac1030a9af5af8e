(* C23: module json. *)
From Coq Require Import String Ascii ZArith List Lia Bool ZifyBool.
Import ListNotations.
From Verif Require Import Base ListZ Utf8Model LexModel LexSpec ParseIntModel JsonModel JsonSpec JsonProofs JsonProofs2 JsonProofs3 JsonProofs4 JsonProofs5.
Local Open Scope Z_scope.
Ltac Zify.zify_post_hook ::= idtac.

(* parse ends for any bytes: the recursion of the model does not run out *)
Theorem json_parse_total : forall b, (exists v, parse_bytes b = JOk v) \/ parse_bytes b = JThrow \/ parse_bytes b = JUnk.
Proof. intros b. pose proof (parse_no_fuel b). destruct (parse_bytes b) as [v | | |]; [eauto | auto | auto | contradiction]. Qed.
Example json_parse_total_ex : parse (bytes "[1, {") = JThrow /\ parse (bytes "1 2") = JThrow /\ parse (bytes "-") = JThrow /\ parse (bytes "{1:2}") = JThrow /\
  parse (bytes "1 -") = JThrow /\ parse (bytes "- 1") = JThrow.
Proof. vm_compute. repeat split. Qed.

(* every JSON text of at most 65535 bytes is parsed to its value *)
Theorem json_parse_valid : forall s v, json_text s v -> no_min v -> utf8_size s <= 0xFFFF -> parse s = JOk v.
Proof. intros s v T N L. rewrite size_encode in L. apply text_parse; assumption. Qed.
Example json_parse_valid_ex :
  json_text (bytes " [null , {""a"":-7}] ") (JArr [JVoid; JObj [([97], JInt (-7))]]) /\
  parse (bytes " [null , {""a"":-7}] ") = JOk (JArr [JVoid; JObj [([97], JInt (-7))]]).
Proof.
  split; [| vm_compute; reflexivity]. exists [32], (bytes "[null , {""a"":-7}]"), [32]. split; [reflexivity |]. split; [repeat constructor |]. split; [| repeat constructor].
  apply (jv_arr (bytes "null , {""a"":-7}")). apply (je_more [] (bytes "null") JVoid [32] (bytes " {""a"":-7}") [JObj [([97], JInt (-7))]]); [constructor | apply jv_null | repeat constructor |].
  apply (je_one [32] (bytes "{""a"":-7}") _ []); [repeat constructor | | constructor]. apply (jv_obj (bytes """a"":-7")); [| constructor; [intros [] | constructor]].
  apply jm_one. apply (jm [] (bytes """a""") [97] [] [] (bytes "-7") (JInt (-7)) []); [constructor | split; [reflexivity | apply Forall_cons; [cbn; lia | apply Forall_nil]] | constructor | constructor | | constructor].
  apply (jv_neg (bytes "7") 7); [| lia]. split; [apply Forall_cons; [cbn; lia | apply Forall_nil] |]. split; [right; exists 55, []; split; [reflexivity | lia] | reflexivity].
Qed.

(* a text has at most one value *)
Theorem json_unambiguous : forall s v1 v2, json_text s v1 -> json_text s v2 -> no_min v1 -> no_min v2 -> utf8_size s <= 0xFFFF -> v1 = v2.
Proof. intros s v1 v2 T1 T2 N1 N2 L. pose proof (json_parse_valid s v1 T1 N1 L) as E1. pose proof (json_parse_valid s v2 T2 N2 L) as E2. congruence. Qed.
Example json_unambiguous_ex : json_text (bytes "-0") (JInt 0) /\ json_text (bytes "0") (JInt 0).
Proof.
  assert (U : json_uint (bytes "0") 0) by (split; [apply Forall_cons; [cbn; lia | apply Forall_nil] |]; split; [left; reflexivity | reflexivity]).
  split; apply value_text; [apply (jv_neg (bytes "0") 0 U); lia | apply (jv_uint (bytes "0") 0 U); lia].
Qed.

(* dump writes a JSON text for the value, and parse reads it back *)
Theorem json_round_trip_partial : forall v, plain v -> no_key (bytes "map") v -> max_len v <= 0xFFFF ->
  exists s, dump v = Some s /\ json_text s v /\ (no_min v -> utf8_size s <= 0xFFFF -> parse s = JOk v).
Proof.
  intros v PL NK ML. destruct (dump_some v PL NK ML) as (s & D & _). exists s. split; [exact D |]. assert (T : json_text s v) by (apply value_text, dump_value; assumption).
  split; [exact T |]. intros NM L. apply json_parse_valid; assumption.
Qed.
Example json_round_trip_ex : let v := JObj [([97], JArr [JInt (-5); JStr [0x17C; 0x1F600]]); ([], JBool false)] in
  plain v /\ no_key (bytes "map") v /\ dump v = Some (bytes "{""a"":[-5,""" ++ [0x17C; 0x1F600] ++ bytes """],"""":false}") /\
  match dump v with Some s => parse s | None => JThrow end = JOk v.
Proof.
  cbv zeta. split; [| split; [| split]].
  - apply pl_obj; [| repeat constructor; cbn; intuition discriminate]. constructor; [split |]; [apply Forall_cons; [cbn; lia | apply Forall_nil] | | constructor; [split; constructor | constructor]].
    apply pl_arr. constructor; [apply pl_int; lia |]. constructor; [| constructor]. apply pl_str. apply Forall_cons; [cbn; lia | apply Forall_cons; [cbn; lia | apply Forall_nil]].
  - cbn. intuition discriminate.
  - vm_compute. reflexivity.
  - vm_compute. reflexivity.
Qed.
(* what dump writes for a value with plain strings is valid whenever it does not fail *)
Theorem json_dump_valid : forall v s, plain v -> dump v = Some s -> json_text s v.
Proof. intros v s PL D. apply value_text, dump_value; assumption. Qed.
Example json_dump_valid_ex : dump (JArr [JInt (- 2 ^ 63); JArr []; JObj []]) = Some (bytes "[-9223372036854775808,[],{}]").
Proof. vm_compute. reflexivity. Qed.

(* the smallest integer is a valid text, dump writes it, and parse rejects it *)
Theorem json_parse_min_refuted : exists s v, json_text s v /\ dump v = Some s /\ utf8_size s <= 0xFFFF /\ parse s = JThrow.
Proof.
  exists (bytes "-9223372036854775808"), (JInt (- 2 ^ 63)). split; [apply json_dump_valid; [apply pl_int; lia | vm_compute; reflexivity] |].
  split; [vm_compute; reflexivity |]. split; [vm_compute; discriminate |]. vm_compute. reflexivity.
Qed.

(* a valid value starts with one of these characters *)
Lemma value_first : forall s v, json_value s v -> exists c t, s = c :: t /\ (In c [110; 116; 102; 45; 34; 91; 123] \/ 48 <= c <= 57).
Proof.
  intros s v V. destruct V as [| | | s n U B | s n U B | s cs [-> _] | | | |]; try (do 2 eexists; split; [reflexivity | cbn; tauto]).
  destruct (uint_pos _ _ U) as (_ & d & t & -> & R). do 2 eexists. split; [reflexivity | right; exact R].
Qed.
(* texts which are not JSON are accepted: extra commas, invalid characters, an unfinished string at the end, comments *)
Theorem json_reject_refuted : ~ (forall s v, parse s = JOk v -> json_text s v).
Proof.
  intros H. specialize (H (bytes "[,]") (JArr []) ltac:(vm_compute; reflexivity)). destruct H as (w1 & t & w2 & E & W1 & V & W2).
  destruct w1 as [| c w1]; [| inversion W1 as [| ? ? A _]; subst; cbn in E; injection E as <- _; lia]. cbn [app] in E.
  change (bytes "[,]") with [91; 44; 93] in E.
  destruct V as [| | | s n U B | s n U B | s cs Q | w W | s l EL | |]; try discriminate E.
  - destruct (uint_pos _ _ U) as (_ & d & t & -> & R). injection E as <- _. lia.
  - destruct Q as [-> _]. discriminate E.
  - cbn [app] in E. injection E as E. destruct w as [| c w]; [discriminate E |]. inversion W as [| ? ? A _]; subst. cbn in E. injection E as <- _. lia.
  - cbn [app] in E. injection E as E. assert (F : exists c t, s = c :: t /\ c <> 44).
    { destruct EL as [w s v w' A B C | w s v w' t' l' A B C D]; (destruct w as [| c w];
        [destruct (value_first _ _ B) as (c & u & -> & R); do 2 eexists; (split; [reflexivity |]); cbn in R; lia | inversion A; subst; do 2 eexists; (split; [reflexivity |]); lia]). }
    destruct F as (c & u & -> & N). cbn in E. injection E as <- _. apply N. reflexivity.
Qed.
Example json_reject_refuted_ex :
  parse (bytes "[,1,,2,]") = JOk (JArr [JInt 1; JInt 2]) /\ parse (bytes "$1'@ ""abc") = JOk (JInt 1) /\ parse (bytes "{,""a"":1,}") = JOk (JObj [([97], JInt 1)]) /\
  parse (bytes "0x10 # hello") = JOk (JInt 16) /\ parse (bytes "{""a"":1,""a"":2}") = JOk (JObj [([97], JInt 2)]) /\ parse (bytes "r""a""") = JOk (JStr [34; 97]).
Proof. vm_compute. repeat split. Qed.

(* escape sequences are not decoded: the JSON string "\n" has one character *)
Theorem json_escape_refuted : exists body, In (body, 10) [([92; 110], 10)] /\ parse ([34] ++ body ++ [34]) = JOk (JStr body) /\ parse ([34] ++ body ++ [34]) <> JOk (JStr [10]).
Proof. exists [92; 110]. split; [left; reflexivity |]. split; [vm_compute; reflexivity |]. vm_compute. discriminate. Qed.
(* and not written: a string with a quote does not give a JSON text, and is not read back *)
Theorem json_dump_escape_refuted : exists cs s, dump (JStr cs) = Some s /\ parse s <> JOk (JStr cs) /\ parse s = JThrow.
Proof. exists (bytes "a""b"), (bytes """a""b"""). split; [vm_compute; reflexivity |]. split; [vm_compute; discriminate | vm_compute; reflexivity]. Qed.
Example json_dump_escape_ex : match dump (JStr [97; 10; 98]) with Some s => parse s | None => JOk JVoid end = JUnk /\
  match dump (JStr [34; 44; 34]) with Some s => parse s | None => JOk JVoid end = JThrow /\
  (* an injected element *)
  match dump (JArr [JStr (bytes """,1,""")]) with Some s => parse s | None => JThrow end = JOk (JArr [JStr []; JInt 1; JStr []]).
Proof. vm_compute. repeat split. Qed.

(* dump calls the property map of an object, if it has one *)
Theorem json_dump_map_refuted : exists v, plain v /\ max_len v <= 0xFFFF /\ dump v = None.
Proof.
  exists (JObj [(bytes "map", JInt 1)]). split; [| split; [vm_compute; discriminate | vm_compute; reflexivity]].
  apply pl_obj; [| repeat constructor; intros []]. constructor; [split; [repeat (apply Forall_cons; [cbn; lia |]); apply Forall_nil | apply pl_int; cbn [snd]; lia] | constructor].
Qed.

Print Assumptions json_parse_total.
Print Assumptions json_parse_valid.
Print Assumptions json_unambiguous.
Print Assumptions json_round_trip_partial.
Print Assumptions json_dump_valid.
Print Assumptions json_parse_min_refuted.
Print Assumptions json_reject_refuted.
Print Assumptions json_escape_refuted.
Print Assumptions json_dump_escape_refuted.
Print Assumptions json_dump_map_refuted.
