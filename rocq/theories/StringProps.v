(* Strings: properties C04, C25, C26, C27, C32, C33, C50 - C56.
   [kwf s]: invariant of string objects (StringProofs.v): the element width is 8, 16 or 32 bits,
   every element is in the range of the width, the ASCII flag implies elements below 128, the
   string has at most 65535 elements, its data is aligned to the element size and the cached hash
   is 0 or correct.  The operations below preserve it.  Addresses of new objects are multiples
   of 8. *)
From Coq Require Import ZArith List Lia Bool ZifyBool.
Import ListNotations.
From Verif Require Import Base ListZ IndexModel ArraySpec ArrayProofs StringModel StringSpec
  StringProofs StringProofs2 StringProofs3.
Local Open Scope Z_scope.

(* a string as created from literals: narrowest width *)
Definition str (l : list Z) : kstr :=
  match new_string_from_codes 64 l with SOk s => s | _ => str_empty end.
(* the same text in 16-bit and 32-bit elements *)
Definition wide (w : Z) (l : list Z) : kstr := KStr w false 64 0 l.
Definition codes_of (r : sres kstr) : option (list Z) := match r with SOk s => Some (k_codes s) | _ => None end.

(* kwf is decidable *)
Definition kwfb (s : kstr) : bool :=
  ((k_w s =? 0) || (k_w s =? 1) || (k_w s =? 2)) &&
  forallb (fun c => (0 <=? c) && (c <? emax (k_w s))) (k_codes s) &&
  (negb (k_ascii s) || ((k_w s =? 0) && forallb (fun c => c <? 128) (k_codes s))) &&
  (len (k_codes s) <=? 65535) && (k_addr s mod 2 ^ k_w s =? 0) &&
  ((k_hash s =? 0) || (k_hash s =? text_hash (k_codes s))).
Lemma kwfb_ok : forall s, kwfb s = true -> kwf s.
Proof.
  intros s H. unfold kwfb in H. rewrite !andb_true_iff, !orb_true_iff, !Z.eqb_eq, negb_true_iff, andb_true_iff in H.
  destruct H as [[[[[H1 H2] H3] H4] H5] H6]. rewrite forallb_forall in H2.
  split; [ unfold width_ok; lia | ]. split. { apply Forall_forall. intros c I. specialize (H2 c I). lia. }
  split. { intros A. destruct H3 as [H3|[H3 H3']]; [ congruence | ]. split; [ lia | ].
    rewrite forallb_forall in H3'. apply Forall_forall. intros c I. specialize (H3' c I). lia. }
  split; [ lia | ]. split; [ exact H5 | exact H6 ].
Qed.
Ltac kw := apply kwfb_ok; vm_compute; reflexivity.

Lemma kwf_klen : forall s, kwf s -> 0 <= klen s <= 65535.
Proof. intros s K. rewrite klen_len. pose proof (len_nonneg _ (k_codes s)). destruct K as [_ [_ [_ [K _]]]]. lia. Qed.

(* C04: slicing a string gives exactly the characters in [begin, end). *)
Theorem string_slice_is_list_slice : forall addr s b e, addr mod 8 = 0 -> kwf s ->
  exists r, string_slice addr s b e = SOk r /\ kwf r /\ k_codes r = list_slice (k_codes s) b e.
Proof. exact string_slice_ok. Qed.

Example string_slice_ex :
  map (fun be => codes_of (string_slice 128 (str [97; 98; 0x1F600; 100]) (fst be) (snd be)))
      [(0, INT64_MAX); (1, 3); (-2, 4); (3, 1); (INT64_MIN, -3); (2, 2)]
  = [Some [97; 98; 0x1F600; 100]; Some [98; 0x1F600]; Some [0x1F600; 100]; Some []; Some [97]; Some []].
Proof. vm_compute. reflexivity. Qed.

(* C32: indexing *)
Theorem string_index_is_nth : forall addr s i, addr mod 8 = 0 -> kwf s ->
  match elem_pos (klen s) i with
  | Some k => exists c r, nth_error (k_codes s) k = Some c /\ string_get_char_code s i = SOk c /\
                string_get_char addr s i = SOk r /\ kwf r /\ k_codes r = [c]
  | None => string_get_char_code s i = SExn /\ string_get_char addr s i = SExn
  end.
Proof.
  intros addr s i Ha K. pose proof (get_char_ok addr s i Ha K) as G. rewrite get_char_code_ok.
  destruct (elem_pos (klen s) i); [ | split; [ reflexivity | exact G ] ].
  destruct G as [c [r [G1 G2]]]. exists c, r. rewrite G1. tauto.
Qed.

Example string_index_ex :
  map (fun i => codes_of (string_get_char 128 (str [97; 0xE9; 0x1F600]) i)) [0; 2; 3; -1; -3; -4]
  = [Some [97]; Some [0x1F600]; None; Some [0x1F600]; Some [97]; None].
Proof. vm_compute. reflexivity. Qed.

(* C32: the index operator and the code method for every 64-bit index *)
Theorem string_index_any_int : forall addr s i, kwf s ->
  index_op addr s i = string_get_char addr s i /\ code_method s i = string_get_char_code s i.
Proof.
  intros addr s i K. unfold index_op, code_method. pose proof (kwf_klen s K) as L.
  change (2 ^ 31) with 2147483648. rewrite (orb_comm (2147483648 - 1 <? i)).
  destruct ((i <? Z.opp 2147483648) || (2147483648 - 1 <? i)) eqn:C.
  - assert (E : elem_pos (klen s) i = None) by (unfold elem_pos; destruct ((0 <=? i) && (i <? klen s)) eqn:?; [ lia | ]; destruct ((- klen s <=? i) && (i <? 0)) eqn:?; [ lia | reflexivity ]).
    unfold string_get_char. rewrite !(get_char_code_ok s i), E. split; reflexivity.
  - rewrite s32_small by lia. split; reflexivity.
Qed.

Example string_index_any_ex :
  (code_method (str [97; 98]) 1, code_method (str [97; 98]) (2 ^ 32 + 1), index_op 128 (str [97; 98]) (- 2 ^ 32 + 1))
  = (SOk 98, SExn, SExn).
Proof. vm_compute. reflexivity. Qed.

(* C32: concatenation of strings whose total length is below 2^32 *)
Theorem string_add_is_concat : forall addr ss, addr mod 8 = 0 -> Forall kwf ss ->
  let text := concat (map k_codes ss) in
  len text < 2 ^ 32 ->
  (len text <= 65535 -> exists r, string_add addr (map Some ss) = SOk r /\ kwf r /\ k_codes r = text) /\
  (65535 < len text -> string_add addr (map Some ss) = SExn).
Proof.
  intros addr ss Ha F text L.
  assert (E : text = texts ss). { unfold text. clear. induction ss; cbn [map concat texts]; congruence. }
  rewrite E in *. destruct (string_add_ok addr ss Ha F L) as [[H1 H2]|[H1 H2]];
    split; intros; try lia; assumption.
Qed.

(* a sufficient condition: at most 65537 strings *)
Theorem string_add_small : forall addr ss, addr mod 8 = 0 -> Forall kwf ss -> len ss <= 65537 ->
  let text := concat (map k_codes ss) in
  (len text <= 65535 -> exists r, string_add addr (map Some ss) = SOk r /\ kwf r /\ k_codes r = text) /\
  (65535 < len text -> string_add addr (map Some ss) = SExn).
Proof.
  intros addr ss Ha F L. apply string_add_is_concat; [ exact Ha | exact F | ].
  assert (B : len (concat (map k_codes ss)) <= 65535 * len ss).
  { clear L. induction F as [|s t K Kt IH]; cbn [map concat]; [ reflexivity | ]. rewrite len_app, len_cons.
    destruct K as [_ [_ [_ [K _]]]]. lia. }
  lia.
Qed.

Theorem string_add_not_string : forall addr l, In None l -> string_add addr l = SExn.
Proof. exact string_add_exn. Qed.

Example string_add_ex :
  map (fun l => codes_of (string_add 128 l))
    [[]; [Some (str [97])]; [Some (str [97]); Some (str []); Some (str [0x1F600]); Some (str [0xE9; 0x3B1])];
     [Some (str [97]); None]]
  = [Some []; Some [97]; Some [97; 0x1F600; 0xE9; 0x3B1]; None].
Proof. vm_compute. reflexivity. Qed.

(* C32: repetition and reversal *)
Theorem string_repeat_is_repeat : forall addr s n, addr mod 8 = 0 -> kwf s ->
  (0 <= n <= 65535 /\ n * klen s <= 65535 /\
     exists r, repeats addr s n = SOk r /\ kwf r /\ k_codes r = repeat_text (Z.to_nat n) (k_codes s)) \/
  ((n < 0 \/ 65535 < n \/ 65535 < n * klen s) /\ repeats addr s n = SExn).
Proof. exact repeats_ok. Qed.

(* the C function, any unsigned count *)
Theorem string_repeat_c : forall addr s n, addr mod 8 = 0 -> kwf s -> 0 <= n < 2 ^ 32 ->
  (n * klen s <= 65535 /\ exists r, string_repeat addr s n = SOk r /\ kwf r /\
     k_codes r = repeat_text (Z.to_nat n) (k_codes s)) \/
  (65535 < n * klen s /\ string_repeat addr s n = SExn).
Proof. exact string_repeat_ok. Qed.

Theorem string_reverse_is_rev : forall addr s, addr mod 8 = 0 -> kwf s ->
  exists r, string_reverse addr s = SOk r /\ kwf r /\ k_codes r = rev (k_codes s).
Proof. exact string_reverse_ok. Qed.

Example string_repeat_ex :
  map (fun n => codes_of (repeats 128 (str [97; 0x3B1]) n)) [0; 1; 3; -1; 32768]
  = [Some []; Some [97; 0x3B1]; Some [97; 0x3B1; 97; 0x3B1; 97; 0x3B1]; None; None].
Proof. vm_compute. reflexivity. Qed.
Example string_reverse_ex :
  map (fun l => codes_of (string_reverse 128 (str l))) [[]; [97]; [97; 98]; [97; 0x3B1; 0x1F600]]
  = [Some []; Some [97]; Some [98; 97]; Some [0x1F600; 0x3B1; 97]].
Proof. vm_compute. reflexivity. Qed.

(* C32: a string made from code points has these code points, in the narrowest elements *)
Theorem string_from_codes_is_list : forall addr codes, addr mod 8 = 0 ->
  (len codes <= 65535 /\ Forall (fun c => 0 <= c <= 0x1FFFFF) codes ->
   exists r, new_string_from_codes addr codes = SOk r /\ kwf r /\ k_codes r = codes /\
     (k_ascii r = true <-> Forall (fun c => c < 128) codes) /\
     (forall v, width_ok v -> Forall (fun c => c < emax v) codes -> k_w r <= v)) /\
  (65535 < len codes \/ ~ Forall (fun c => 0 <= c <= 0x1FFFFF) codes -> new_string_from_codes addr codes = SExn).
Proof.
  intros addr codes Ha. split.
  - intros [L F]. apply from_codes_ok; assumption.
  - apply from_codes_exn.
Qed.

Example string_from_codes_ex :
  map (fun l => match new_string_from_codes 64 l with SOk s => Some (k_w s, k_ascii s, k_codes s) | _ => None end)
    [[97; 98]; [97; 0xFF]; [0x100; 97]; [0x10000]; [0x200000]; [-1]]
  = [Some (0, true, [97; 98]); Some (0, false, [97; 0xFF]); Some (1, false, [0x100; 97]); Some (2, false, [0x10000]); None; None].
Proof. vm_compute. reflexivity. Qed.

(* C32: case conversion, if no converted character leaves the range of the elements *)
Theorem string_case_is_map : forall conv addr s, addr mod 8 = 0 -> kwf s ->
  (forall c, In c (k_codes s) -> c < 0x10000 -> 0 <= conv c < emax (k_w s)) ->
  (k_ascii s = true -> forall c, In c (k_codes s) -> conv c < 128) ->
  exists r, string_conv_case conv addr s = SOk r /\ kwf r /\
    k_codes r = map (fun c => if c <? 0x10000 then conv c else c) (k_codes s).
Proof. exact conv_case_ok. Qed.

Definition upper (c : Z) : Z :=
  if (97 <=? c) && (c <=? 122) then c - 32 else if c =? 0xFF then 0x178 else if c =? 0x3B1 then 0x391 else c.
Example string_case_ex :
  map (fun s => codes_of (string_conv_case upper 128 s)) [str [97; 0xFF; 0x3B1]; str [98; 49]; str [97; 0x1F600]]
  = [Some [65; 0x178; 0x391]; Some [66; 49]; Some [65; 0x1F600]].
Proof. vm_compute. reflexivity. Qed.

(* C33: the hash depends only on the characters *)
Theorem string_hash_is_text_hash : forall s, kwf s ->
  fst (string_get_hash s) = text_hash (k_codes s) /\
  kwf (snd (string_get_hash s)) /\ k_codes (snd (string_get_hash s)) = k_codes s.
Proof. exact get_hash_ok. Qed.

Theorem equal_strings_hash_equally : forall s t, kwf s -> kwf t -> k_codes s = k_codes t ->
  fst (string_get_hash s) = fst (string_get_hash t).
Proof.
  intros s t Ks Kt E. destruct (get_hash_ok s Ks) as [-> _]. destruct (get_hash_ok t Kt) as [-> _]. congruence.
Qed.

Example string_hash_ex :
  map (fun s => fst (string_get_hash s)) [str [97; 98]; wide 1 [97; 98]; wide 2 [97; 98]; snd (string_get_hash (str [97; 98])); str [98; 97]]
  = [5860902; 5860902; 5860902; 5860902; 5861062].
Proof. vm_compute. reflexivity. Qed.

(* C26: find *)
(* wcscoll of two different characters is not zero *)
Definition separates (coll : Z -> Z -> Z) : Prop := forall x y, x <> y -> coll x y <> 0.
(* the sign changes when the arguments are exchanged *)
Definition antisym (coll : Z -> Z -> Z) : Prop := forall x y, Z.sgn (coll x y) = - Z.sgn (coll y x).
Definition transitive (coll : Z -> Z -> Z) : Prop := forall x y z, coll x y <= 0 -> coll y z <= 0 -> coll x z <= 0.

Lemma code_order_ok : separates code_order /\ antisym code_order /\ transitive code_order.
Proof. unfold separates, antisym, transitive, code_order. repeat split; intros; lia. Qed.

Theorem string_find_first : forall coll text pat pos, separates coll -> kwf text -> kwf pat ->
  exists r, find_dir coll text pat false pos = SOk r /\
    is_first (occurs (k_codes text) (k_codes pat)) (match pos with None => 0 | Some p => pos_of (klen text) p end) r.
Proof. intros coll text pat pos S. apply find_dir_first. exact S. Qed.

Theorem string_find_last : forall coll text pat pos, separates coll -> kwf text -> kwf pat ->
  (match pos with None => True | Some p => 0 <= p end) ->
  exists r, find_dir coll text pat true pos = SOk r /\
    is_last (occurs (k_codes text) (k_codes pat)) (match pos with None => klen text | Some p => p end) r.
Proof. intros coll text pat pos S. apply find_dir_last. exact S. Qed.

Theorem string_starts_with : forall coll this arg, separates coll -> kwf this -> kwf arg ->
  exists r, starts_with coll this arg = SOk r /\ (r = true <-> exists rest, k_codes this = k_codes arg ++ rest).
Proof. intros coll this arg S. apply starts_with_ok. exact S. Qed.

Theorem string_ends_with : forall coll this arg, separates coll -> kwf this -> kwf arg ->
  exists r, ends_with coll this arg = SOk r /\ (r = true <-> exists rest, k_codes this = rest ++ k_codes arg).
Proof. intros coll this arg S. apply ends_with_ok. exact S. Qed.

Definition language : kstr := str [108; 97; 110; 103; 117; 97; 103; 101].
Example string_find_ex :
  map (fun x => find_dir code_order language (str (fst (fst x))) (snd (fst x)) (snd x))
    [([97; 110], false, None); ([97], false, Some 2); ([97], true, None); ([97], true, Some 4); ([103; 101], true, None);
     ([122], false, None); ([103; 101], false, Some (-2)); ([], false, Some (-3)); ([0x3B1], false, None)]
  = [SOk 1; SOk 5; SOk 5; SOk 1; SOk 6; SOk (-1); SOk 6; SOk 5; SOk (-1)].
Proof. vm_compute. reflexivity. Qed.
Example string_find_wide_ex :
  map (fun w => find_dir code_order (wide w [1; 2; 3; 2; 3; 4]) (wide 1 [2; 3; 4]) false None) [0; 1; 2] = [SOk 3; SOk 3; SOk 3].
Proof. vm_compute. reflexivity. Qed.
Example string_starts_ex :
  (starts_with code_order language (str [108; 97]), starts_with code_order language (wide 1 [108; 97]),
   starts_with code_order language (str [97]), ends_with code_order language (str [103; 101]))
  = (SOk true, SOk true, SOk false, SOk true).
Proof. vm_compute. reflexivity. Qed.

(* C52: rfind with a negative position *)
Theorem string_rfind_negative_refuted :
  kwf language /\ kwf (str [103; 101]) /\
  find_dir code_order language (str [103; 101]) true (Some (-2)) = SOk (-1) /\
  occurs (k_codes language) [103; 101] (klen language + -2).
Proof.
  split; [ kw | split; [ kw | split; [ vm_compute; reflexivity | ] ] ].
  exists [108; 97; 110; 103; 117; 97], []. split; reflexivity.
Qed.

(* C25: scan.  Characters are sought in the set, or outside of the set.  For the latter either the
   text has 8-bit elements or all its characters fit the elements of the set. *)
Theorem string_scan_first : forall text set pos inc, kwf text -> kwf set -> k_codes set <> [] ->
  (inc = true \/ k_w text = 0 \/ Forall (fun c => c < emax (k_w set)) (k_codes text)) ->
  exists r, scan_dir text set false pos inc = SOk r /\
    is_first (char_at (k_codes text) (in_set (k_codes set) inc))
      (match pos with None => 0 | Some p => pos_of (klen text) p end) r.
Proof. exact scan_dir_first. Qed.

Theorem string_scan_last : forall text set pos inc, kwf text -> kwf set -> k_codes set <> [] ->
  (inc = true \/ k_w text = 0 \/ Forall (fun c => c < emax (k_w set)) (k_codes text)) ->
  exists r, scan_dir text set true pos inc = SOk r /\
    is_last (char_at (k_codes text) (in_set (k_codes set) inc))
      (match pos with None => klen text - 1 | Some p => if p <? 0 then klen text + p else p end) r.
Proof. exact scan_dir_last. Qed.

Example string_scan_ex :
  map (fun x => scan_dir language (str (fst (fst x))) (snd (fst (fst (snd x)))) (snd (fst (snd x))) (snd (snd x)))
    [([117; 103; 97], tt, (tt, false, Some (-5), false)); ([103], tt, (tt, true, None, true));
     ([117; 103; 97], tt, (tt, true, Some (-2), false)); ([103; 0x3B1], tt, (tt, false, None, true))]
  = [SOk 7; SOk 6; SOk 2; SOk 3].
Proof. vm_compute. reflexivity. Qed.

(* C51: characters wider than the elements of the set are skipped when looking for a character
   outside of the set *)
Theorem string_scan_exclude_refuted :
  exists text set, kwf text /\ kwf set /\ scan_dir text set false None false = SOk (-1) /\
    k_codes text = [0x1F600] /\ ~ In 0x1F600 (k_codes set).
Proof.
  exists (str [0x1F600]), (str [32]). split; [ kw | split; [ kw | ] ].
  split; [ vm_compute; reflexivity | split; [ reflexivity | ] ]. vm_compute. intuition congruence.
Qed.

(* C27: comparison.  Equality for every pair of strings. *)
Theorem string_compare_equality : forall coll sa sb, separates coll -> kwf sa -> kwf sb ->
  exists r, string_compare coll sa sb = SOk r /\ (r = 0 <-> k_codes sa = k_codes sb).
Proof.
  intros coll sa sb S Ka Kb. unfold string_compare.
  destruct (compare_slice_main coll sa 0 (klen sa) sb 0 (klen sb)) as [r [R1 [R2 _]]];
    try (apply kwf_range; assumption); try (unfold klen, slen, len; lia).
  exists r. split; [ exact R1 | ]. specialize (R2 S). rewrite !klen_len, !sub_all in R2. exact R2.
Qed.

(* the same for parts of strings *)
Theorem string_compare_slice_equality : forall coll sa ab ae sb bb be, separates coll -> kwf sa -> kwf sb ->
  0 <= ab <= ae -> ae <= klen sa -> 0 <= bb <= be -> be <= klen sb ->
  exists r, string_compare_slice coll sa ab ae sb bb be = SOk r /\
    (r = 0 <-> sub (k_codes sa) ab ae = sub (k_codes sb) bb be).
Proof.
  intros coll sa ab ae sb bb be S Ka Kb H1 H2 H3 H4. unfold string_compare_slice. rewrite !cmp_pos_id by lia.
  assert (klen sa <= 65535) by apply Ka. assert (klen sb <= 65535) by apply Kb.
  rewrite !u32_small by lia.
  destruct (compare_slice_main coll sa ab ae sb bb be) as [r [R1 [R2 _]]]; try (apply kwf_range; assumption); try assumption.
  exists r. split; [ exact R1 | apply R2; exact S ].
Qed.

(* address not a multiple of 8 *)
Definition shares_misalignment (sa sb : kstr) : Prop :=
  k_w sa = k_w sb /\ k_w sa <> 0 /\ k_addr sa mod 8 = k_addr sb mod 8 /\ k_addr sa mod 8 <> 0.

(* Order, unless both strings have elements of the same width above 8 bits and their data has the
   same non-zero offset from a multiple of 8.  A string which is not a part of another one starts at
   a multiple of 8. *)
Theorem string_compare_is_lex : forall coll sa sb, antisym coll -> kwf sa -> kwf sb -> ~ shares_misalignment sa sb ->
  exists r, string_compare coll sa sb = SOk r /\ Z.sgn r = Z.sgn (lex coll (k_codes sa) (k_codes sb)).
Proof.
  intros coll sa sb A Ka Kb NM. unfold string_compare.
  destruct (compare_slice_main coll sa 0 (klen sa) sb 0 (klen sb)) as [r [R1 [_ R2]]];
    try (apply kwf_range; assumption); try (unfold klen, slen, len; lia).
  exists r. split; [ exact R1 | ]. rewrite !klen_len, !sub_all in R2. apply R2; [ exact A | ].
  unfold misaligned. rewrite !Z.mul_0_r, !Z.add_0_r. exact NM.
Qed.

(* lexicographic order by a total order of characters is a total order of texts *)
Theorem lex_is_total_order : forall coll, separates coll -> antisym coll -> transitive coll ->
  (forall a b, lex coll a b = 0 <-> a = b) /\
  (forall a b, Z.sgn (lex coll a b) = - Z.sgn (lex coll b a)) /\
  (forall a b c, lex coll a b <= 0 -> lex coll b c <= 0 -> lex coll a c <= 0).
Proof.
  intros coll S A T. split; [ apply lex_eq; exact S | ]. split.
  - intros a b. apply lex_antisym. exact A.
  - apply lex_trans; assumption.
Qed.

Example string_compare_ex :
  map (fun x => string_compare code_order (fst x) (snd x))
    [(str [97; 98], str [97; 99]); (str [97], wide 1 [97]); (wide 2 [97; 0x1F600], str [97]); (str [], str [97]);
     (str [0xFF], str [0x100])]
  = [SOk (-1); SOk 0; SOk 1; SOk (-1); SOk (-1)].
Proof. vm_compute. reflexivity. Qed.

(* C50: order of parts of strings.  Both strings below are s[1:] of a 16-bit string.  The first
   characters 0x100 and 0x200 differ in the high byte only and the comparison is made from the
   high byte on, so that the next characters decide. *)
Definition tail_of (l : list Z) : kstr :=
  match string_slice 64 (wide 1 (0 :: l)) 1 INT64_MAX with SOk s => s | _ => str_empty end.

Theorem string_compare_order_refuted :
  let a := tail_of [0x100; 5; 0; 0; 0; 0; 0; 0; 0; 0; 0; 0] in
  let b := tail_of [0x200; 4; 0; 0; 0; 0; 0; 0; 0; 0; 0; 0] in
  kwf a /\ kwf b /\
  (exists r, string_compare code_order a b = SOk r /\ 0 < r) /\ lex code_order (k_codes a) (k_codes b) < 0.
Proof.
  cbv zeta. split; [ | split; [ | split ] ].
  - kw.
  - kw.
  - eexists. split; vm_compute; reflexivity.
  - vm_compute. reflexivity.
Qed.

(* C53: the total length is computed modulo 2^32: 65538 strings of 65535 characters have
   65534 mod 2^32 characters, the copy writes outside of the new string *)
Definition big (m : nat) : kstr := KStr 0 false 64 0 (repeat 200 m).
Lemma big_kwf : forall m, Z.of_nat m <= 65535 -> kwf (big m).
Proof.
  intros m H. repeat split; cbn [big k_w k_codes k_ascii k_addr k_hash]; try discriminate; unfold width_ok; auto.
  - apply Forall_forall. intros x I. apply repeat_spec in I. subst. vm_compute. intuition congruence.
  - rewrite len_repeat. exact H.
Qed.
Lemma add_scan_repeat : forall n s a, 0 <= c_num a ->
  c_num a + Z.of_nat n < 2 ^ 32 -> klen s <> 0 ->
  add_scan (repeat (Some s) n) a =
    Some (Acc (match n with O => c_mash a | _ => Z.lor (c_mash a) (k_w s) end)
              (match n with O => c_ascii a | _ => c_ascii a && k_ascii s end)
              (match n with O => c_len a | _ => u32 (c_len a + Z.of_nat n * klen s) end) (c_num a + Z.of_nat n)
              (match n with O => c_non0 a | _ => Some s end)).
Proof.
  induction n; intros s a H0 H1 H2.
  - cbn [repeat add_scan]. rewrite Z.add_0_r. destruct a; reflexivity.
  - cbn [repeat add_scan]. destruct (Z.eqb_spec (klen s) 0); [ contradiction | ].
    rewrite IHn; cbn [c_mash c_ascii c_len c_num c_non0]; try assumption.
    + destruct n as [|n].
      * rewrite (u32_small (c_num a + 1)) by lia. do 2 f_equal; [ f_equal; lia | lia ].
      * rewrite <- Z.lor_assoc, Z.lor_diag, <- andb_assoc, andb_diag. rewrite (u32_small (c_num a + 1)) by lia.
        do 2 f_equal; [ | lia ]. unfold u32, uwrap. rewrite Zplus_mod_idemp_l. f_equal. lia.
    + rewrite u32_small; lia.
    + rewrite u32_small; lia.
Qed.
Lemma add_wrap : forall m k, Z.of_nat m = 65535 -> Z.of_nat (S (S k)) = 65538 ->
  string_add 128 (repeat (Some (big m)) (S (S k))) = SBad.
Proof.
  intros m k Hm H.
  assert (L : klen (big m) = 65535). { rewrite klen_len. cbn [big k_codes]. rewrite len_repeat. exact Hm. }
  unfold string_add. rewrite add_scan_repeat by (cbn [c_num]; try rewrite L; lia).
  cbn [repeat]. cbn [c_mash c_ascii c_len c_num c_non0]. rewrite L, H.
  change (u32 (0 + 65538 * 65535)) with 65534. change (0 + 65538) with 65538.
  cbn [Z.eqb Pos.eqb andb]. change (Z.land (Z.lor 0 (k_w (big m))) 2 =? 2) with false.
  change (Z.land (Z.lor 0 (k_w (big m))) 1 =? 1) with false. cbv iota. change (65534 <=? 65535) with true. cbv iota.
  assert (LN : forall n, 0 <= n -> slen (new_elems n) = n).
  { intros n Hn. change @slen with @len. unfold new_elems. rewrite len_repeat, Z2Nat.id; [ reflexivity | exact Hn ]. }
  specialize (LN 65534 ltac:(discriminate)). remember (new_elems 65534) as d eqn:Ed. clear Ed.
  cbn [add_copy]. unfold init_empty_string.
  change (slen (k_codes (big m))) with (klen (big m)). rewrite L. change (65535 =? 0) with false.
  change (0 <? k_w (big m)) with false. cbv iota.
  unfold wr_elems. change (slen (k_codes (big m))) with (klen (big m)). rewrite L, LN. reflexivity.
Qed.

Theorem string_add_wrap_refuted :
  exists ss, Forall kwf ss /\ 2 ^ 32 < len (concat (map k_codes ss)) /\ string_add 128 (map Some ss) = SBad.
Proof.
  assert (Q : exists m k, Z.of_nat m = 65535 /\ Z.of_nat (S (S k)) = 65538).
  { exists (Z.to_nat 65535), (Z.to_nat 65536). rewrite !Nat2Z.inj_succ.
    rewrite (Z2Nat.id 65535 ltac:(discriminate)), (Z2Nat.id 65536 ltac:(discriminate)). split; reflexivity. }
  destruct Q as [m [k [Hm Hk]]]. exists (repeat (big m) (S (S k))). split; [ | split ].
  - apply Forall_forall. intros x I. apply repeat_spec in I. subst x. apply big_kwf. lia.
  - assert (E : forall n, len (concat (map k_codes (repeat (big m) n))) = Z.of_nat n * 65535).
    { induction n; cbn [repeat map concat]; [ reflexivity | ]. rewrite len_app, IHn. cbn [big k_codes]. rewrite len_repeat. lia. }
    rewrite E. lia.
  - rewrite <- (add_wrap m k Hm Hk). f_equal. clear. induction (S (S k)); cbn [repeat map]; congruence.
Qed.

(* C54: the assertion that a computed hash is not 0 *)
Theorem string_hash_assert_refuted :
  exists c, kwf (str [c]) /\ k_codes (str [c]) = [c] /\ c < 0x110000 /\ string_hash_asserted (str [c]) = false.
Proof.
  exists 0x2B5A5. split; [ kw | repeat split; vm_compute; reflexivity ].
Qed.

(* C55: the ascii property; set implies all characters below 128, but not conversely *)
Theorem string_ascii_sound : forall s, kwf s -> get_string_ascii s = true -> Forall (fun c => 0 <= c < 128) (k_codes s).
Proof.
  intros s [_ [K2 [K3 _]]] A. destruct (K3 A) as [_ K]. rewrite Forall_forall in *. intros c I.
  specialize (K c I). specialize (K2 c I). cbv beta in *. lia.
Qed.
Theorem string_ascii_equal_refuted :
  exists s t, kwf s /\ string_slice 128 s 0 1 = SOk t /\ kwf t /\ k_codes t = [97] /\
    get_string_ascii t = false /\ get_string_ascii (str [97]) = true.
Proof.
  exists (str [97; 0xE9]). eexists. split; [ | split; [ vm_compute; reflexivity | split ] ].
  - kw.
  - kw.
  - repeat split.
Qed.
Example string_ascii_ex : (get_string_ascii (str [97; 98]), get_string_ascii (str [97; 0x80])) = (true, false).
Proof. vm_compute. reflexivity. Qed.

(* C56: case conversion cuts the result to the element width: equal strings of different widths
   give different results *)
Theorem string_case_narrow_refuted :
  exists s t, kwf s /\ kwf t /\ k_codes s = k_codes t /\
    codes_of (string_conv_case upper 128 s) = Some [0x78] /\ codes_of (string_conv_case upper 128 t) = Some [0x178].
Proof.
  exists (str [0xFF]), (wide 1 [0xFF]). split; [ kw | split; [ kw | ] ]. repeat split.
Qed.

Print Assumptions string_slice_is_list_slice.
Print Assumptions string_index_is_nth.
Print Assumptions string_index_any_int.
Print Assumptions string_add_is_concat.
Print Assumptions string_add_small.
Print Assumptions string_add_not_string.
Print Assumptions string_repeat_is_repeat.
Print Assumptions string_repeat_c.
Print Assumptions string_reverse_is_rev.
Print Assumptions string_from_codes_is_list.
Print Assumptions string_case_is_map.
Print Assumptions string_hash_is_text_hash.
Print Assumptions equal_strings_hash_equally.
Print Assumptions string_find_first.
Print Assumptions string_find_last.
Print Assumptions string_starts_with.
Print Assumptions string_ends_with.
Print Assumptions string_rfind_negative_refuted.
Print Assumptions string_scan_first.
Print Assumptions string_scan_last.
Print Assumptions string_scan_exclude_refuted.
Print Assumptions string_compare_equality.
Print Assumptions string_compare_slice_equality.
Print Assumptions string_compare_is_lex.
Print Assumptions lex_is_total_order.
Print Assumptions string_compare_order_refuted.
Print Assumptions string_add_wrap_refuted.
Print Assumptions string_hash_assert_refuted.
Print Assumptions string_ascii_sound.
Print Assumptions string_ascii_equal_refuted.
Print Assumptions string_case_narrow_refuted.
