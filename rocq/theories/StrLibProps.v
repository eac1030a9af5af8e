(* Strings, functions written in Kos: properties C25, C36, C51.  [coll] is the collation of strcoll
   used for comparing 8-bit non-ASCII strings; it separates different characters.  [scan_ok] for
   excluding scans: the text has 8-bit elements or all its characters fit the elements of the set. *)
From Coq Require Import ZArith List Lia Bool ZifyBool.
Import ListNotations.
From Verif Require Import Base ListZ ArraySpec StringModel StringSpec StringProofs StringProofs2 StringProofs3 StringProps
  StrLibModel StrLibSpec StrLibProofs.
Local Open Scope Z_scope.

Definition texts_of (r : sres (list kstr)) : option (list (list Z)) :=
  match r with SOk l => Some (map k_codes l) | _ => None end.

(* every character of the text can be represented in the elements of the set *)
Definition fits (s set : kstr) : Prop := k_w s = 0 \/ Forall (fun c => c < emax (k_w set)) (k_codes s).
Lemma fits_scan : forall s set, fits s set -> scan_ok s set false.
Proof. intros s set H. right. exact H. Qed.

(* C25: lstrip, rstrip and strip remove the longest prefix / suffix of characters of the set. *)
Theorem string_strip_spec : forall addr s set, addr mod 8 = 0 -> kwf s -> kwf set -> fits s set ->
  (exists r, lstrip addr s set = SOk r /\ kwf r /\ stripped_left (k_codes set) (k_codes s) (k_codes r)) /\
  (exists r, rstrip addr s set = SOk r /\ kwf r /\ stripped_right (k_codes set) (k_codes s) (k_codes r)) /\
  (exists r, strip addr s set = SOk r /\ kwf r /\ stripped (k_codes set) (k_codes s) (k_codes r)).
Proof.
  intros addr s set Ha K Ks F. apply fits_scan in F.
  split; [ apply lstrip_ok; assumption | ]. split; [ apply rstrip_ok; assumption | apply strip_ok; assumption ].
Qed.

(* the result is determined by the specification *)
Lemma prefix_unique : forall (set p p' r r' : list Z), p ++ r = p' ++ r' ->
  Forall (fun c => In c set) p -> Forall (fun c => In c set) p' ->
  (forall c t, r = c :: t -> ~ In c set) -> (forall c t, r' = c :: t -> ~ In c set) -> p = p' /\ r = r'.
Proof.
  induction p as [|x p IH]; intros [|y p'] r r' E F F' H H'; cbn [app] in E.
  - auto.
  - exfalso. inversion F'; subst. eapply H; [ reflexivity | assumption ].
  - exfalso. inversion F; subst. eapply H'; [ reflexivity | assumption ].
  - inversion E. inversion F. inversion F'. subst. destruct (IH p' r r') as [-> ->]; auto.
Qed.
Theorem stripped_left_unique : forall set s r r', stripped_left set s r -> stripped_left set s r' -> r = r'.
Proof. intros set s r r' [p [E [F H]]] [p' [E' [F' H']]]. rewrite E in E'. apply (prefix_unique set p p' r r' E' F F' H H'). Qed.

Example string_strip_ex :
  let s := str [32; 9; 97; 32; 0x105; 32; 0x2028] in
  (codes_of (lstrip 128 s whitespace), codes_of (rstrip 128 s whitespace), codes_of (strip 128 s whitespace),
   codes_of (strip 128 (str [97; 98; 99; 97]) (str [97; 98])), codes_of (strip 128 (str [32; 32]) whitespace),
   codes_of (strip 128 (str [97]) (str [])))
  = (Some [97; 32; 0x105; 32; 0x2028], Some [32; 9; 97; 32; 0x105], Some [97; 32; 0x105], Some [99], Some [], Some [97]).
Proof. vm_compute. reflexivity. Qed.

(* C51: a character outside of the set is removed, here by s.strip() with the default set; and
   s.split() loses the only word of the text *)
Theorem string_strip_refuted :
  exists s, kwf s /\ k_codes s = [0x1F600] /\ ~ In 0x1F600 (k_codes whitespace) /\
    codes_of (strip 128 s whitespace) = Some [] /\
    (forall coll, split coll 128 s None (-1) = SOk []).
Proof.
  exists (str [0x1F600]). split; [ kw | ]. split; [ reflexivity | ]. split; [ vm_compute; intuition congruence | ].
  split; [ vm_compute; reflexivity | intros; vm_compute; reflexivity ].
Qed.

(* C36: split at a separator: parts from left to right, at most max_split of them *)
Theorem string_split_spec : forall coll addr s sep max_split, separates coll -> addr mod 8 = 0 -> kwf s -> kwf sep ->
  k_codes sep <> [] -> max_split <> 0 ->
  exists ps, split coll addr s (Some sep) max_split = SOk ps /\ Forall kwf ps /\
    split_at (k_codes sep) (if max_split <? 0 then None else Some (Z.to_nat max_split)) (k_codes s) (map k_codes ps).
Proof. intros. apply split_sep_ok; assumption. Qed.

Theorem string_split_degenerate : forall coll addr s sep max_split,
  (k_codes sep = [] -> split coll addr s (Some sep) max_split = SExn) /\
  (k_codes sep <> [] -> split coll addr s (Some sep) 0 = SOk []) /\ split coll addr s None 0 = SOk [].
Proof.
  intros. split; [ apply split_empty_sep | ]. split; [ | reflexivity ]. intros NE. unfold split. rewrite klen_len.
  destruct (Z.eqb_spec (len (k_codes sep)) 0) as [E|_]; [ apply len_0_nil in E; contradiction | reflexivity ].
Qed.

Lemma split_at_len : forall sep n text ps, split_at sep n text ps ->
  match n with Some (S k) => (length ps <= S k)%nat | _ => True end.
Proof.
  induction 1 as [n text C|n part text parts M C H IH]; destruct n as [[|k]|]; auto; cbn [length]; [ lia | ].
  cbn [more less pred] in *. destruct k; [ lia | ]. lia.
Qed.

(* C36: joining the parts with the separator gives the original string; without a limit no part
   contains the separator; the number of parts is at most max_split *)
Theorem string_split_join : forall coll addr s sep max_split, separates coll -> addr mod 8 = 0 -> kwf s -> kwf sep ->
  k_codes sep <> [] -> max_split <> 0 ->
  exists ps r, split coll addr s (Some sep) max_split = SOk ps /\ join addr sep ps = SOk r /\ k_codes r = k_codes s /\
    (max_split < 0 -> Forall (fun part => forall p, ~ occurs (k_codes part) (k_codes sep) p) ps) /\
    (0 < max_split -> Z.of_nat (length ps) <= max_split).
Proof.
  intros coll addr s sep ms S Ha K Ks NE NZ. destruct (split_sep_ok addr Ha coll S s sep ms K Ks NE NZ) as [ps [P1 [P2 P3]]].
  pose proof (split_at_join _ _ _ _ P3) as J. pose proof (kwf_len s K) as L.
  destruct (join_ok addr Ha sep ps Ks P2) as [J1 _]; [ rewrite J; lia | ].
  rewrite J in J1. destruct J1 as [r [R1 [R2 R3]]]; [ lia | ]. exists ps, r. split; [ exact P1 | ]. split; [ exact R1 | ].
  split; [ exact R3 | ]. split.
  - intros Hm. destruct (Z.ltb_spec ms 0); [ | lia ]. apply split_at_no_sep in P3; [ | exact NE ].
    rewrite Forall_map in P3. exact P3.
  - intros Hm. destruct (Z.ltb_spec ms 0); [ lia | ]. apply split_at_len in P3. rewrite map_length in P3.
    destruct (Z.to_nat ms) eqn:?; lia.
Qed.

Example string_split_ex :
  let s := str [97; 45; 45; 45; 0x105; 45; 45] in
  (map (fun m => texts_of (split code_order 128 s (Some (str [45; 45])) m)) [-1; 0; 1; 2; 100],
   texts_of (split code_order 128 (str []) (Some (str [45])) (-1)))
  = ([Some [[97]; [45; 0x105]; []]; Some []; Some [[97; 45; 45; 45; 0x105; 45; 45]];
      Some [[97]; [45; 0x105; 45; 45]]; Some [[97]; [45; 0x105]; []]], Some [[]]).
Proof. vm_compute. reflexivity. Qed.

(* C36: join of any array of strings *)
Theorem string_join_spec : forall addr sep ps, addr mod 8 = 0 -> kwf sep -> Forall kwf ps ->
  let text := intercalate (k_codes sep) (map k_codes ps) in
  len text < 2 ^ 32 ->
  (len text <= 65535 -> exists r, join addr sep ps = SOk r /\ kwf r /\ k_codes r = text) /\
  (65535 < len text -> join addr sep ps = SExn).
Proof. intros. apply join_ok; assumption. Qed.

Example string_join_ex :
  (codes_of (join 128 (str [0x2028]) [str [97]; str []; str [98; 99]]), codes_of (join 128 (str [44]) []),
   codes_of (join 128 (str [44]) [str [97]]))
  = (Some [97; 0x2028; 0x2028; 98; 99], Some [], Some [97]).
Proof. vm_compute. reflexivity. Qed.

(* C36: split without separator gives the words of the text: runs of characters which are not
   white space *)
Theorem string_split_words : forall coll addr s max_split, addr mod 8 = 0 -> kwf s -> fits s whitespace -> max_split <> 0 ->
  exists ps, split coll addr s None max_split = SOk ps /\ Forall kwf ps /\
    split_runs (k_codes whitespace) (if max_split <? 0 then None else Some (Z.to_nat max_split)) (k_codes s) (map k_codes ps).
Proof. intros. apply split_ws_ok; [ assumption | assumption | apply fits_scan; assumption | assumption ]. Qed.

Lemma split_runs_words : forall set text ps, split_runs set None text ps ->
  Forall (fun w => w <> [] /\ Forall (fun c => ~ In c set) w) ps /\
  filter (fun c => if in_dec Z.eq_dec c set then false else true) text = concat ps.
Proof.
  intros set text ps H. remember None as o eqn:Eo. revert Eo.
  assert (FA : forall l, Forall (fun c => In c set) l -> filter (fun c => if in_dec Z.eq_dec c set then false else true) l = []).
  { induction 1; cbn [filter]; [ reflexivity | ]. destruct (in_dec Z.eq_dec x set); [ assumption | contradiction ]. }
  assert (FN : forall l, Forall (fun c => ~ In c set) l -> filter (fun c => if in_dec Z.eq_dec c set then false else true) l = l).
  { induction 1; cbn [filter]; [ reflexivity | ]. destruct (in_dec Z.eq_dec x set); [ contradiction | f_equal; assumption ]. }
  induction H as [o text F|o gap c text F NC C|o gap c word d text parts M F NC Fw Id H IH]; intros ->.
  - split; [ constructor | apply FA; exact F ].
  - destruct C as [C|C]; [ discriminate | ]. assert (A : Forall (fun c => ~ In c set) (c :: text)) by (constructor; assumption).
    split; [ constructor; [ split; [ discriminate | exact A ] | constructor ] | ].
    rewrite filter_app, (FA _ F), (FN _ A). cbn [concat app]. rewrite app_nil_r. reflexivity.
  - assert (A : Forall (fun c => ~ In c set) (c :: word)) by (constructor; assumption).
    destruct (IH eq_refl) as [I1 I2]. split; [ constructor; [ split; [ discriminate | exact A ] | exact I1 ] | ].
    rewrite !filter_app, (FA _ F), (FN _ A), I2. reflexivity.
Qed.

(* C36: no word is empty or contains white space, and the words are the text without white space *)
Theorem string_split_words_complete : forall coll addr s max_split, addr mod 8 = 0 -> kwf s -> fits s whitespace -> max_split < 0 ->
  exists ps, split coll addr s None max_split = SOk ps /\
    Forall (fun w => k_codes w <> [] /\ Forall (fun c => ~ In c (k_codes whitespace)) (k_codes w)) ps /\
    filter (fun c => if in_dec Z.eq_dec c (k_codes whitespace) then false else true) (k_codes s) = concat (map k_codes ps).
Proof.
  intros coll addr s ms Ha K F Hm. destruct (split_ws_ok addr Ha coll s ms K (fits_scan _ _ F)) as [ps [P1 [P2 P3]]]; [ lia | ].
  destruct (Z.ltb_spec ms 0); [ | lia ]. apply split_runs_words in P3. destruct P3 as [P3 P4]. rewrite Forall_map in P3.
  exists ps. auto.
Qed.

Example string_split_words_ex :
  map (fun m => texts_of (split code_order 128 (str [32; 97; 98; 32; 10; 0x105; 32]) None m)) [-1; 0; 1; 2; 3]
  = [Some [[97; 98]; [0x105]]; Some []; Some [[97; 98; 32; 10; 0x105; 32]]; Some [[97; 98]; [0x105; 32]]; Some [[97; 98]; [0x105]]].
Proof. vm_compute. reflexivity. Qed.

(* C36: split_lines, for every string *)
Theorem string_split_lines_spec : forall coll addr s keep, separates coll -> addr mod 8 = 0 -> kwf s ->
  exists ps, split_lines coll addr s keep = SOk ps /\ Forall kwf ps /\ lines (k_codes eol) keep (k_codes s) (map k_codes ps).
Proof. intros. apply split_lines_ok; assumption. Qed.

(* C36: with kept line ends the lines concatenate to the text; otherwise no line contains a line end *)
Theorem string_split_lines_complete : forall coll addr s, separates coll -> addr mod 8 = 0 -> kwf s ->
  (exists ps, split_lines coll addr s true = SOk ps /\ concat (map k_codes ps) = k_codes s) /\
  (exists ps, split_lines coll addr s false = SOk ps /\
     Forall (fun line => Forall (fun c => ~ In c (k_codes eol)) (k_codes line)) ps).
Proof.
  intros coll addr s S Ha K. split.
  - destruct (split_lines_ok addr Ha coll S s true K) as [ps [P1 [P2 P3]]]. exists ps. split; [ exact P1 | ].
    apply lines_concat in P3; exact P3.
  - destruct (split_lines_ok addr Ha coll S s false K) as [ps [P1 [P2 P3]]]. exists ps. split; [ exact P1 | ].
    apply lines_clean in P3. rewrite Forall_map in P3. exact P3.
Qed.

Example string_split_lines_ex :
  let s := str [97; 13; 10; 10; 13; 98; 0x2028; 0x1F600; 13] in
  (texts_of (split_lines code_order 128 s true), texts_of (split_lines code_order 128 s false),
   texts_of (split_lines code_order 128 (str []) false))
  = (Some [[97; 13; 10]; [10]; [13]; [98; 0x2028]; [0x1F600; 13]], Some [[97]; []; []; [98]; [0x1F600]], Some []).
Proof. vm_compute. reflexivity. Qed.

Print Assumptions string_strip_spec.
Print Assumptions stripped_left_unique.
Print Assumptions string_strip_refuted.
Print Assumptions string_split_spec.
Print Assumptions string_split_degenerate.
Print Assumptions string_split_join.
Print Assumptions string_join_spec.
Print Assumptions string_split_words.
Print Assumptions string_split_words_complete.
Print Assumptions string_split_lines_spec.
Print Assumptions string_split_lines_complete.
