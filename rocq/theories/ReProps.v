(* C21, C112, C113: regular expressions. *)
From Coq Require Import ZArith List Lia Bool ZifyBool.
Import ListNotations.
From Verif Require Import Base ListZ ReClassModel ReClassSpec ReClassProofs ReClassProps ReModel ReSpec
  ReProofs1 ReProofs2 ReProofs3 ReProofs4 ReProofs5 ReProofs6 ReProofs7 ReProofs8 ReProofs9.
Local Open Scope Z_scope.
Ltac Zify.zify_post_hook ::= idtac.

Definition none (n : Z) : list (option (Z * Z)) := repeat None (Z.to_nat n).

(* C112.  Compilation terminates; a text is accepted iff it is a regular
   expression whose code has at most 32767 words. *)
Theorem re_compile_total : forall text, chars text -> parse_re text <> RFuel.
Proof. intros text H. apply parse_re_ends. exact H. Qed.

Theorem re_compile_iff : forall text, chars text ->
  ((exists o, parse_re text = ROk o) <-> exists r n, re_text text r n /\ code_size r <= 32767).
Proof.
  intros text Hc. split.
  - intros (o & E). destruct (parse_re_sound text o Hc E) as (r & n & H). exists r, n. split; [exact H |].
    destruct (parse_re_complete text r n Hc H) as [(Sz & _) | (_ & X)]; [exact Sz | congruence].
  - intros (r & n & H & Sz). destruct (parse_re_complete text r n Hc H) as [(_ & o & d & E & _) | (Sz' & _)]; [exists o; exact E | lia].
Qed.

(* The compiled expression has the groups and the size of the text, and its
   bytecode fits in 16-bit offsets. *)
Theorem re_compile_code : forall text r n o, chars text -> re_text text r n -> parse_re text = ROk o ->
  o_groups o = n /\ len (o_code o) = code_size r /\ code_size r <= 32767 /\ 0 <= n.
Proof.
  intros text r n o Hc H E. destruct (parse_re_complete text r n Hc H) as [(Sz & o' & d & E' & Cd & G & L) | (_ & X)]; [| congruence].
  assert (o' = o) by congruence. subst o'. pose proof (proj1 text_groups _ _ _ _ H) as (G1 & _). auto.
Qed.

(* a(b|c|de)+?f *)
Definition text1 := [97; 40; 98; 124; 99; 124; 100; 101; 41; 43; 63; 102].
Example re_compile_ex :
  match parse_re text1 with ROk o => (o_groups o, o_counts o, len (o_code o)) | _ => (0, 0, 0) end = (1, 1, 33) /\
  parse_re [97; 42; 42] = RThrow /\ parse_re [40; 97] = RThrow /\ parse_re [97; 123; 51; 44; 50; 125] = RThrow.
Proof. vm_compute. auto. Qed.

(* C113 is false: the documented escape sequences \A \s \S \Z and \0 are
   rejected, so is ')' outside of a group, which the documentation lists as an
   ordinary character; a backslash followed by the character 0 is accepted. *)
Theorem re_documented_refuted :
  (forall x, In x [65; 115; 83; 90; 48] -> parse_re [92; x] = RThrow) /\ parse_re [41] = RThrow /\
  exists o, parse_re [92; 0] = ROk o.
Proof.
  split; [| split; [reflexivity | eexists; reflexivity]]. intros x H. cbn [In] in H.
  destruct H as [<- | [<- | [<- | [<- | [<- | []]]]]]; reflexivity.
Qed.

(* ---- matching ---- *)

Lemma compiled_parts : forall text r n o, chars text -> re_text text r n -> parse_re text = ROk o ->
  exists d, len (o_code o) <= 32767 /\ coded (o_classes o) 0 r (o_counts o) (o_code o) d /\ 0 <= o_groups o /\ groups_ok r 0 (o_groups o) /\ o_groups o = n /\ counts_ok r.
Proof.
  intros text r n o Hc H E. destruct (parse_re_complete text r n Hc H) as [(Sz & o' & d & E' & Cd & G & L) | (_ & X)]; [| congruence].
  assert (o' = o) by congruence. subst o'. exists d. pose proof (proj1 text_groups _ _ _ _ H) as (G1 & C1 & G2). rewrite G.
  split; [lia |]. split; [exact Cd |]. split; [exact G1 |]. split; [apply G2; lia |]. auto.
Qed.

Lemma gz_none : forall n g, 0 <= g < n -> gz (none n) g = Some None.
Proof. intros n g H. unfold none. rewrite gz_repeat. rewrite (proj2 (Z.leb_le 0 g)), (proj2 (Z.ltb_lt g (Z.of_nat (Z.to_nat n)))) by lia. reflexivity. Qed.

Lemma all_visible : forall s lo hi in_set r n b e caps, counts_ok r -> groups_ok r 0 n -> 0 <= n -> 0 <= b <= hi -> hi < 65535 ->
  In (e, caps) (all_matches s lo hi in_set 65535 r (b, none n)) -> map visible caps = caps.
Proof.
  intros s lo hi in_set r n b e caps Hc Hg Hn Hb Hhi Hin.
  assert (Ln : len (none n) = n) by (unfold none; rewrite len_repeat; lia).
  destruct (captured s lo hi in_set 65535 ltac:(lia) r 0 n (b, none n) (e, caps) Hc Hg ltac:(lia) Ln Hin) as (L & _ & C). cbn [fst snd] in *.
  pose proof (all_matches_sound s lo hi in_set 65535 ltac:(lia) r _ _ Hc Hin) as M. apply matches_le in M. cbn [fst] in M.
  apply gz_ext; [apply len_map |]. intros i Hi. rewrite len_map in Hi. rewrite gz_map. destruct (C i) as [C' | (a & b' & e' & _ & C' & _ & B1 & B2 & B3)].
  - rewrite C'. rewrite gz_none by lia. reflexivity.
  - rewrite C'. cbn [option_map visible]. rewrite (proj2 (Z.eqb_neq b' 65535)), (proj2 (Z.eqb_neq e' 65535)) by lia. reflexivity.
Qed.

Lemma all_matches_sets : forall s lo hi P Q U r, (forall l, In l (sets_of r) -> forall c, P l c = Q l c) ->
  forall m, all_matches s lo hi P U r m = all_matches s lo hi Q U r m.
Proof.
  intros s lo hi P Q U. induction r as [| a IHa b IHb | a IHa b IHb | c | | neg l | | | k | g a IHa | lz n mx a IHa]; intros H m; cbn [all_matches sets_of] in *; try reflexivity.
  - rewrite IHa by (intros; apply H; apply in_or_app; auto). apply flat_map_ext. apply IHb. intros; apply H; apply in_or_app; auto.
  - rewrite IHa, IHb by (intros; apply H; apply in_or_app; auto). reflexivity.
  - unfold step_one, next_is. destruct (gz s (fst m)) as [c|]; [| reflexivity]. rewrite (H l) by (left; reflexivity). reflexivity.
  - destruct g; rewrite (IHa H m); reflexivity.
  - specialize (IHa H). clear H. generalize (Z.to_nat (match mx with Some x => x | None => U end)). intros N. generalize 0. revert m.
    induction N as [|N IHN]; intros m k; cbn [repeated]; [reflexivity |]. cbv zeta. rewrite (IHa m).
    rewrite (flat_map_ext _ _ (fun x => IHN x (k + 1))). reflexivity.
Qed.
Lemma coded_sets : forall cl c0 r c1 l d, coded cl c0 r c1 l d -> forall x, In x (sets_of r) -> x <> [] /\ Forall valid_range x.
Proof.
  induction 1; intros y Hy; cbn [sets_of] in Hy; try contradiction; auto; try (apply in_app_or in Hy; destruct Hy; auto).
  destruct Hy as [<- | []]. auto.
Qed.
Lemma class_has_ranges : forall l c, l <> [] -> Forall valid_range l -> no_hidden [] l -> class_has l c = in_ranges l c.
Proof.
  intros l c H1 H2 H3. destruct (class_is_union l c H1 H2 H3) as (rs & b & E1 & E2 & E3). unfold class_has. rewrite E1, E2.
  assert (K : in_ranges l c = true <-> listed l c).
  { unfold in_ranges, listed. rewrite existsb_exists. split.
    - intros ([x y] & H & B). cbn [fst snd] in B. exists x, y. split; [exact H | lia].
    - intros (x & y & H & B). exists (x, y). split; [exact H |]. cbn [fst snd]. lia. }
  destruct b, (in_ranges l c); try reflexivity; [| ]; exfalso; destruct E3 as [E3 E4], K as [K1 K2];
    [specialize (K2 (E3 eq_refl)) | specialize (E4 (K1 eq_refl))]; congruence.
Qed.

(* C21.  The search terminates, without accessing anything out of bounds, with
   the preferred match at the first position where there is one. *)
Definition first_match (am : Z * list (option (Z * Z)) -> list (Z * list (option (Z * Z)))) (n lo hi : Z) (x : fres) : Prop :=
  match x with
  | FVoid => forall p, lo <= p <= hi -> am (p, none n) = []
  | FMatch b e groups => lo <= b <= hi /\ (forall p, lo <= p < b -> am (p, none n) = []) /\ hd_error (am (b, none n)) = Some (e, groups)
  | FUb | FFuel => False
  end.

Theorem re_find_first : forall text r n o s lo hi, chars text -> re_text text r n -> parse_re text = ROk o ->
  chars s -> 0 <= lo <= hi -> hi <= len s -> len s <= 65535 -> hi < 65535 ->
  exists fuel, forall f, (fuel <= f)%nat -> first_match (all_matches s lo hi class_has 65535 r) n lo hi (re_find o s lo hi f).
Proof.
  intros text r n o s lo hi Hc H E Hs Hlo Hhi Hl Hh. destruct (compiled_parts text r n o Hc H E) as (d & P1 & P2 & P3 & P4 & P5 & P6).
  destruct (find_ok o s lo hi r d P1 P2 P3 P4 ltac:(lia) Hhi Hl Hs ltac:(lia)) as (F & Hf). exists F. intros f Hle. specialize (Hf f Hle).
  unfold find_result, no_groups in Hf. rewrite P5 in *. fold (none n) in Hf. destruct (re_find o s lo hi f) as [b e gs | | |]; cbn [first_match]; try contradiction; [| exact Hf].
  destruct Hf as (B & N & caps & rest & Ea & Eg). split; [exact B |]. split; [exact N |]. rewrite Ea. cbn [hd_error]. rewrite Eg.
  rewrite (all_visible s lo hi class_has r n b e caps P6 P4 P3 ltac:(lia) Hh); [reflexivity |]. rewrite Ea. left. reflexivity.
Qed.

(* The same with classes which mean the union of their ranges (C20). *)
Theorem re_find_first_union : forall text r n o s lo hi, chars text -> re_text text r n -> parse_re text = ROk o ->
  Forall (no_hidden []) (sets_of r) -> chars s -> 0 <= lo <= hi -> hi <= len s -> len s <= 65535 -> hi < 65535 ->
  exists fuel, forall f, (fuel <= f)%nat -> first_match (all_matches s lo hi in_ranges 65535 r) n lo hi (re_find o s lo hi f).
Proof.
  intros text r n o s lo hi Hc H E Hn Hs Hlo Hhi Hl Hh. destruct (re_find_first text r n o s lo hi Hc H E Hs Hlo Hhi Hl Hh) as (F & Hf). exists F. intros f Hle.
  specialize (Hf f Hle). destruct (compiled_parts text r n o Hc H E) as (d & _ & P2 & _).
  assert (X : forall m, all_matches s lo hi class_has 65535 r m = all_matches s lo hi in_ranges 65535 r m).
  { apply all_matches_sets. intros l Hin c. destruct (coded_sets _ _ _ _ _ _ P2 l Hin) as [N1 N2]. apply class_has_ranges; [exact N1 | exact N2 |].
    rewrite Forall_forall in Hn. apply Hn. exact Hin. }
  destruct (re_find o s lo hi f) as [b e gs | | |]; cbn [first_match] in *; try contradiction.
  - destruct Hf as (B & N & Eh). split; [exact B |]. split; [intros p Hp; rewrite <- X; apply N; exact Hp |]. rewrite <- X. exact Eh.
  - intros p Hp. rewrite <- X. apply Hf. exact Hp.
Qed.

(* In terms of the language of the expression, without an order of matches and
   without a bound of repetitions: void iff nothing matches, otherwise the match
   begins at the first possible position, the characters match, and every group
   is void or a match of its own part of the expression inside of the match. *)
Theorem re_find_language : forall text r n o s lo hi, chars text -> re_text text r n -> parse_re text = ROk o ->
  Forall (no_hidden []) (sets_of r) -> chars s -> 0 <= lo <= hi -> hi <= len s -> len s <= 65535 -> hi < 65535 ->
  exists fuel, forall f, (fuel <= f)%nat ->
  match re_find o s lo hi f with
  | FVoid => forall p j, lo <= p <= hi -> ~ matches s lo hi in_ranges r p j
  | FMatch b e groups => lo <= b /\ b <= e <= hi /\ matches s lo hi in_ranges r b e /\ (forall p j, lo <= p < b -> ~ matches s lo hi in_ranges r p j) /\
      len groups = n /\ forall g, 0 <= g < n -> gz groups g = Some None \/
        exists a x y, has_group r g a /\ gz groups g = Some (Some (x, y)) /\ matches s lo hi in_ranges a x y /\ b <= x /\ x <= y /\ y <= e
  | FUb | FFuel => False
  end.
Proof.
  intros text r n o s lo hi Hc H E Hn Hs Hlo Hhi Hl Hh. destruct (re_find_first_union text r n o s lo hi Hc H E Hn Hs Hlo Hhi Hl Hh) as (F & Hf). exists F. intros f Hle.
  specialize (Hf f Hle). destruct (compiled_parts text r n o Hc H E) as (d & _ & _ & P3 & P4 & P5 & P6). rewrite P5 in *.
  assert (No : forall p, 0 <= p <= hi -> all_matches s lo hi in_ranges 65535 r (p, none n) = [] -> forall j, ~ matches s lo hi in_ranges r p j).
  { intros p Hp Ea j M. destruct (all_matches_complete s lo hi in_ranges 65535 ltac:(lia) r (p, none n) j P6 Hp ltac:(lia) M) as (m' & Hin & _). rewrite Ea in Hin. exact Hin. }
  destruct (re_find o s lo hi f) as [b e gs | | |]; cbn [first_match] in Hf; try contradiction.
  - destruct Hf as (B & N & Eh). destruct (all_matches s lo hi in_ranges 65535 r (b, none n)) as [|m' rest] eqn:Ea; cbn [hd_error] in Eh; [discriminate Eh |].
    assert (m' = (e, gs)) by congruence. subst m'. assert (Hin : In (e, gs) (all_matches s lo hi in_ranges 65535 r (b, none n))) by (rewrite Ea; left; reflexivity).
    pose proof (all_matches_sound s lo hi in_ranges 65535 ltac:(lia) r _ _ P6 Hin) as M. cbn [fst] in M. pose proof (matches_le _ _ _ _ _ _ _ M) as Le.
    assert (Ln : len (none n) = n) by (unfold none; rewrite len_repeat; lia).
    destruct (captured s lo hi in_ranges 65535 ltac:(lia) r 0 n (b, none n) (e, gs) P6 P4 ltac:(lia) Ln Hin) as (L & _ & C). cbn [fst snd] in *.
    split; [lia |]. split; [lia |]. split; [exact M |]. split; [intros p j Hp; apply No; [lia | apply N; lia] |]. split; [exact L |].
    intros g Hg. destruct (C g) as [C' | C']; [left | right; exact C']. rewrite C'. apply gz_none. exact Hg.
  - intros p j Hp. apply No; [lia | apply Hf; lia].
Qed.

(* The bound of repetitions does not matter if no expression under * or + or
   another unbounded count can match the empty text. *)
Theorem re_unbounded : forall text r n s lo hi in_set m U, re_text text r n -> loops_advance r = true -> 0 <= fst m <= hi -> hi <= 65535 -> 65535 <= U ->
  all_matches s lo hi in_set 65535 r m = all_matches s lo hi in_set U r m.
Proof.
  intros text r n s lo hi in_set m U H La Hm Hh HU. pose proof (proj1 text_groups _ _ _ _ H) as (_ & C1 & _).
  apply all_matches_bound; auto; lia.
Qed.

Definition run1 (text s : list Z) : fres := match parse_re text with ROk o => re_find o s 0 (len s) 1000 | _ => FUb end.
Example re_find_ex :
  (* a(b|c|de)+?f in xxadebcfx: from 2 to 8, the last group match is c *)
  run1 text1 [120; 120; 97; 100; 101; 98; 99; 102; 120] = FMatch 2 8 [Some (6, 7)] /\
  (* a+ and a+? in baa *)
  run1 [97; 43] [98; 97; 97] = FMatch 1 3 [] /\ run1 [97; 43; 63] [98; 97; 97] = FMatch 1 2 [] /\
  (* (a)|b in b: the group is void *)
  run1 [40; 97; 41; 124; 98] [98] = FMatch 0 1 [None] /\
  (* \bfo{2}\b|[^x-z] in xyz *)
  run1 [92; 98; 102; 111; 123; 50; 125; 92; 98; 124; 91; 94; 120; 45; 122; 93] [120; 121; 122] = FVoid.
Proof. vm_compute. auto. Qed.
Example re_find_language_ex :
  matches [98; 97; 97] 0 3 in_ranges (RRep false 1 None (RChar 97)) 1 3 /\ ~ matches [98; 97; 97] 0 3 in_ranges (RRep false 1 None (RChar 97)) 0 3.
Proof.
  split.
  - cbn [matches]. exists 2%nat. split; [lia |]. split; [exact I |]. cbn [chain]. exists 2. split; [split; reflexivity |]. exists 3. split; [split; reflexivity | reflexivity].
  - cbn [matches]. intros (k & H1 & _ & C). destruct k as [|k]; [lia |]. cbn [chain] in C. destruct C as (x & (C & _) & _). discriminate C.
Qed.

(* False at the end of the longest string: a group which begins or ends at
   65535 is shown as void, ()$ is an example. *)
Definition text2 := [40; 41; 36].
Lemma text2_re : re_text text2 (RSeq (RGroup (Some 0) REmpty) (RSeq REol REmpty)) 1.
Proof.
  apply at_one. apply (st_cons 0 [40; 41] _ 1 [36]).
  - apply it_atom. apply (tx_group 0 [] REmpty 1). apply at_one. apply st_nil.
  - apply (st_cons 1 [36] REol 1 []); [apply it_atom; apply tx_eol | apply st_nil].
Qed.
Lemma all_a : forall n, 0 <= n -> exists s, len s = n /\ Forall (fun c => c = 97) s.
Proof.
  intros n H. exists (repeat 97 (Z.to_nat n)). split; [rewrite len_repeat; lia |]. generalize (Z.to_nat n). intros k.
  induction k as [|k IH]; cbn [repeat]; [apply Forall_nil | apply Forall_cons; [reflexivity | exact IH]].
Qed.
Definition re2 := RSeq (RGroup (Some 0) REmpty) (RSeq REol REmpty).
Lemma re2_matches : forall s lo hi U p, all_matches s lo hi class_has U re2 (p, [None]) = if at_eol s hi p then [(p, [Some (p, p)])] else [].
Proof. intros s lo hi U p. unfold re2. cbn [all_matches map flat_map app fst snd]. unfold stay. cbn [fst]. destruct (at_eol s hi p); reflexivity. Qed.
Lemma no_eol : forall s hi p, Forall (fun c => c = 97) s -> hi <= len s -> 0 <= p < hi -> at_eol s hi p = false.
Proof.
  intros s hi p Ha Hl Hp. unfold at_eol, next_is. rewrite (proj2 (Z.leb_gt hi p)), (proj2 (Z.ltb_lt p hi)) by lia. destruct (gz_some _ s p ltac:(lia)) as (c & Ec). rewrite Ec.
  apply gz_in in Ec. rewrite Forall_forall in Ha. rewrite (Ha c Ec). reflexivity.
Qed.
Lemma eol_end : forall s hi, at_eol s hi hi = true.
Proof. intros s hi. unfold at_eol. rewrite Z.leb_refl. reflexivity. Qed.
Lemma find_re2 : forall o s hi, parse_re text2 = ROk o -> chars text2 -> chars s -> len s = hi -> hi = 65535 -> Forall (fun c => c = 97) s ->
  exists fuel, forall f, (fuel <= f)%nat -> re_find o s 0 hi f = FMatch hi hi [None].
Proof.
  intros o s hi E Hct Hs Hl Hh Ha. destruct (compiled_parts text2 re2 1 o Hct text2_re E) as (d & P1 & P2 & P3 & P4 & P5 & P6).
  destruct (find_ok o s 0 hi re2 d P1 P2 P3 P4 ltac:(lia) ltac:(lia) ltac:(lia) Hs ltac:(lia)) as (F & Hf). exists F. intros f Hle. specialize (Hf f Hle).
  unfold find_result, no_groups in Hf. rewrite P5 in Hf. change (repeat None (Z.to_nat 1)) with [@None (Z * Z)] in Hf.
  destruct (re_find o s 0 hi f) as [b e gs | | |]; try contradiction.
  - destruct Hf as (B & _ & caps & rest & Ea & Eg). rewrite re2_matches in Ea. destruct (Z.eq_dec b hi) as [-> | Nb].
    + rewrite eol_end in Ea. assert (e = hi /\ caps = [Some (hi, hi)]) as [-> ->] by (split; congruence). rewrite Eg. cbn [map visible]. rewrite (proj2 (Z.eqb_eq hi 65535) Hh). reflexivity.
    + rewrite (no_eol s hi b Ha) in Ea by lia. discriminate Ea.
  - specialize (Hf hi ltac:(lia)). rewrite re2_matches, eol_end in Hf. discriminate Hf.
Qed.
Theorem re_groups_refuted : exists text r n o s, chars text /\ re_text text r n /\ parse_re text = ROk o /\ chars s /\ len s = 65535 /\
  all_matches s 0 65535 class_has 65535 r (65535, none n) = [(65535, [Some (65535, 65535)])] /\
  exists fuel, forall f, (fuel <= f)%nat -> re_find o s 0 65535 f = FMatch 65535 65535 [None].
Proof.
  destruct (all_a 65535 ltac:(lia)) as (s & L & A). assert (Hct : chars text2) by (repeat (apply Forall_cons; [lia |]); apply Forall_nil).
  assert (Hs : chars s) by (eapply Forall_impl; [| exact A]; cbv beta; intros a ->; lia).
  destruct (parse_re text2) as [o | |] eqn:E; [| vm_compute in E; discriminate E | vm_compute in E; discriminate E].
  exists text2, re2, 1, o, s. split; [exact Hct |]. split; [exact text2_re |]. split; [exact E |]. split; [exact Hs |]. split; [exact L |].
  split; [exact (eq_trans (re2_matches s 0 65535 65535 65535) (f_equal (fun b : bool => if b then [(65535, [Some (65535, 65535)])] else []) (eol_end s 65535))) |].
  exact (find_re2 o s 65535 E Hct Hs L eq_refl A).
Qed.

Print Assumptions re_compile_total.
Print Assumptions re_compile_iff.
Print Assumptions re_compile_code.
Print Assumptions re_documented_refuted.
Print Assumptions re_find_first.
Print Assumptions re_find_first_union.
Print Assumptions re_find_language.
Print Assumptions re_unbounded.
Print Assumptions re_groups_refuted.
