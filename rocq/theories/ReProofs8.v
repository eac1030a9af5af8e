(* Every regular expression is compiled to its code: expressions. *)
From Coq Require Import ZArith List Lia Bool ZifyBool.
Import ListNotations.
From Verif Require Import Base ListZ ReClassModel ReClassSpec ReClassProofs ReModel ReSpec ReProofs1 ReProofs2 ReProofs5 ReProofs6 ReProofs7.
Local Open Scope Z_scope.
Ltac Zify.zify_post_hook ::= idtac.

Definition holds_class (cl : list (list range)) (o : option Z) (l : list (Z * Z)) : Prop :=
  forall id, o = Some id -> exists rs, gz cl id = Some rs /\ build_class [] l = Some rs.

Record inv (c : rctx) : Prop := Inv {
  iv_digit : holds_class (rc_classes c) (rc_digit c) digits;
  iv_word : holds_class (rc_classes c) (rc_word c) word_chars;
  iv_depth : 0 <= rc_depth c;
  iv_groups : 0 <= rc_groups c /\ 2 * rc_groups c <= len (rc_buf c);
  iv_classes : 2 * len (rc_classes c) <= len (rc_buf c);
  iv_counts : 0 <= rc_counts c /\ 9 * rc_counts c <= len (rc_buf c);
  iv_buf : len (rc_buf c) <= 32767
}.

Lemma gz_longer : forall A (l x : list A) i v, gz l i = Some v -> gz (l ++ x) i = Some v.
Proof. intros A l x i v H. rewrite gz_app. pose proof (gz_some_inv _ l i v H). rewrite (proj2 (Z.ltb_lt _ _)) by lia. exact H. Qed.
Lemma holds_class_ext : forall cl x o l, holds_class cl o l -> holds_class (cl ++ x) o l.
Proof. intros cl x o l H id E. destruct (H id E) as (rs & H1 & H2). exists rs. split; [apply gz_longer; exact H1 | exact H2]. Qed.
Lemma coded_ext : forall cl c0 r c1 l d x, coded cl c0 r c1 l d -> coded (cl ++ x) c0 r c1 l d.
Proof.
  intros cl c0 r c1 l d x H. induction H; try (econstructor; eassumption).
  eapply cd_set; [apply gz_longer; eassumption | eassumption | assumption | assumption].
Qed.

(* the state after r was compiled *)
Record compiled (c : rctx) (pre : list Z) (rest : list Z) (r : re) (g : Z) (c' : rctx) (l : list Z) (d : Z) : Prop := Compiled {
  cp_text : rc_text c' = rest;
  cp_buf : rc_buf c' = pre ++ l;
  cp_coded : coded (rc_classes c') (rc_counts c) r (rc_counts c') l d;
  cp_classes : exists x, rc_classes c' = rc_classes c ++ x;
  cp_groups : rc_groups c' = g;
  cp_depth : rc_depth c' = rc_depth c;
  cp_inv : inv c'
}.
Definition good (c : rctx) (pre : Z -> list Z) (rest : list Z) (r : re) (g : Z) (Q : rctx -> list Z -> Z -> Prop) (m : rres rctx) : Prop :=
  (len (rc_buf c) + code_size r <= 32767 /\ exists c' l d, m = ROk c' /\ compiled c (pre d) rest r g c' l d /\ Q c' l d) \/
  (32767 < len (rc_buf c) + code_size r /\ m = RThrow).

Lemma code_size_nonneg : forall r, 0 <= code_size r.
Proof. induction r; cbn [code_size]; try lia. destruct (_ <? _); lia. Qed.

Definition qfree (t : list Z) : Prop := match t with x :: _ => quant_char x = false | [] => True end.
Definition seq_end (t : list Z) : Prop := match t with x :: _ => x = 124 \/ x = 41 | [] => True end.
Definition alt_end (t : list Z) (depth : Z) : Prop := match t with x :: _ => x = 41 /\ 0 < depth | [] => True end.
Lemma seq_end_qfree : forall t, seq_end t -> qfree t.
Proof. intros [|x t] H; [exact I |]. cbn in *. destruct H as [-> | ->]; reflexivity. Qed.

Lemma atom_head : forall g w r g', atom_text g w r g' -> exists x t, w = x :: t /\ quant_char x = false /\ x <> 124 /\ x <> 41.
Proof.
  intros g w r g' H. destruct H as [g c H | | | | | | |]; try (eexists; eexists; split; [reflexivity |]; cbn; split; [reflexivity | lia]).
  exists c, []. split; [reflexivity |]. unfold special in H. cbn [In] in H. split; [| lia]. unfold quant_char. rewrite !orb_false_iff. lia.
Qed.
Lemma item_head : forall g w r g', item_text g w r g' -> exists x t, w = x :: t /\ quant_char x = false /\ x <> 124 /\ x <> 41.
Proof.
  intros g w r g' H. destruct H as [g w a g' H | g w a g' q lz n m H Hq]; apply atom_head in H; [exact H |].
  destruct H as (x & t & -> & H). exists x, (t ++ q). split; [reflexivity | exact H].
Qed.
Lemma seq_qfree : forall g w r g' rest, seq_text g w r g' -> qfree rest -> qfree (w ++ rest).
Proof.
  intros g w r g' rest H Hr. destruct H as [g | g w a g1 v b g2 H _]; [exact Hr |]. apply item_head in H. destruct H as (x & t & -> & H & _). exact H.
Qed.

(* one instruction *)
Lemma one_instr : forall c c1 rest r code args d g,
  rc_text c1 = rest -> rc_buf c1 = rc_buf c -> rc_counts c1 = rc_counts c -> rc_groups c1 = g -> rc_depth c1 = rc_depth c ->
  (exists x, rc_classes c1 = rc_classes c ++ x /\ len x <= 1) -> holds_class (rc_classes c1) (rc_digit c1) digits -> holds_class (rc_classes c1) (rc_word c1) word_chars ->
  (exists x, rc_classes c1 = rc_classes c ++ x /\ 2 * len x <= code_size r) -> rc_groups c = g ->
  inv c -> words args -> coded (rc_classes c1) (rc_counts c) r (rc_counts c) (code :: args) d ->
  good c (fun _ => rc_buf c) rest r g (fun c' _ _ => rc_mult c' = true) (emit code args c1).
Proof.
  intros c c1 rest r code args d g T B N G D _ Kd Kw (x & Ex & Lx) Gc Hi W Hc. destruct (coded_mono _ _ _ _ _ _ Hc) as (_ & _ & L).
  destruct Hi as [_ _ I3 [I4 I4'] I5 [I6 I6'] I7]. unfold good. destruct (Z.le_gt_cases (len (rc_buf c) + code_size r) 32767) as [Hs | Hs].
  - left. split; [exact Hs |]. exists (set_mult true (set_buf (rc_buf c1 ++ code :: args) c1)), (code :: args), d.
    split; [apply emit_fits; [exact W | rewrite B; lia] |]. split; [| reflexivity].
    constructor; cbn [rc_text rc_buf rc_classes rc_counts rc_groups rc_depth set_mult set_buf]; auto.
    + rewrite B. reflexivity.
    + rewrite N. exact Hc.
    + exists x. exact Ex.
    + pose proof (code_size_nonneg r). constructor; cbn [rc_text rc_buf rc_classes rc_counts rc_groups rc_depth rc_digit rc_word set_mult set_buf]; auto; rewrite ?B, ?len_app, ?L, ?Ex, ?len_app, ?N, ?D, ?G; lia.
  - right. split; [lia |]. apply emit_long; [exact W | rewrite B; lia].
Qed.
Ltac simple_instr := apply one_instr with (d := 2); cbn [rc_text rc_buf rc_classes rc_counts rc_groups rc_depth rc_digit rc_word set_text consume].

Lemma plain_instr : forall c rest r code args d, inv c -> words args -> coded (rc_classes c) (rc_counts c) r (rc_counts c) (code :: args) d ->
  good c (fun _ => rc_buf c) rest r (rc_groups c) (fun c' _ _ => rc_mult c' = true) (emit code args (set_text rest c)).
Proof.
  intros c rest r code args d Hi W Hc. apply one_instr with (d := d); cbn [rc_text rc_buf rc_classes rc_counts rc_groups rc_depth rc_digit rc_word set_text]; auto.
  - exists []. rewrite app_nil_r. split; [reflexivity | cbn; lia].
  - apply Hi.
  - apply Hi.
  - exists []. rewrite app_nil_r. split; [reflexivity |]. pose proof (code_size_nonneg r). change (len (@nil (list range))) with 0. lia.
Qed.
Lemma words1 : forall a, 0 <= a <= 65535 -> words [a].
Proof. intros. apply Forall_cons; [assumption | apply Forall_nil]. Qed.

Lemma char_instr : forall c rest x, inv c -> 0 <= x < 65536 ->
  good c (fun _ => rc_buf c) rest (RChar x) (rc_groups c) (fun c' _ _ => rc_mult c' = true) (emit I_CHAR [x] (set_text rest c)).
Proof. intros c rest x Hi Hx. apply plain_instr with (d := 2); [exact Hi | apply words1; lia | apply cd_char; exact Hx]. Qed.

Lemma class_instr : forall c rest neg l c1 id rs, inv c -> 
  rc_text c1 = rest -> rc_buf c1 = rc_buf c -> rc_counts c1 = rc_counts c -> rc_groups c1 = rc_groups c -> rc_depth c1 = rc_depth c ->
  (exists x, rc_classes c1 = rc_classes c ++ x /\ len x <= 1) -> holds_class (rc_classes c1) (rc_digit c1) digits -> holds_class (rc_classes c1) (rc_word c1) word_chars ->
  gz (rc_classes c1) id = Some rs -> build_class [] l = Some rs -> l <> [] -> Forall valid_range l ->
  good c (fun _ => rc_buf c) rest (RSet neg l) (rc_groups c) (fun c' _ _ => rc_mult c' = true) (emit (if neg then I_NOT_CLASS else I_CLASS) [id] c1).
Proof.
  intros c rest neg l c1 id rs Hi T B N G D (x & Ex & Lx) Kd Kw Hid Hb Hl Hv. apply one_instr with (d := 2); auto.
  - exists x. auto.
  - exists x. split; [exact Ex |]. cbn [code_size]. lia.
  - apply words1. pose proof (gz_some_inv _ _ _ _ Hid) as Hb'. rewrite Ex, len_app in Hb'. destruct Hi as [_ _ _ _ I5 _ I7]. lia.
  - apply cd_set with (rs := rs); assumption.
Qed.

Lemma escape_ok : forall x r c rest, escape x r -> rc_text c = x :: rest -> inv c ->
  good c (fun _ => rc_buf c) rest r (rc_groups c) (fun c' _ _ => rc_mult c' = true) (parse_escape_seq c).
Proof.
  intros x r c rest H T Hi. unfold parse_escape_seq. cbv zeta. destruct (peek_text _ _ _ T) as [-> ->].
  assert (Kd : exists id rs c1, get_digit_class_id (set_text rest c) = ROk (id, c1) /\ rc_text c1 = rest /\ rc_buf c1 = rc_buf c /\ rc_counts c1 = rc_counts c /\
    rc_groups c1 = rc_groups c /\ rc_depth c1 = rc_depth c /\ (exists x, rc_classes c1 = rc_classes c ++ x /\ len x <= 1) /\
    holds_class (rc_classes c1) (rc_digit c1) digits /\ holds_class (rc_classes c1) (rc_word c1) word_chars /\ gz (rc_classes c1) id = Some rs /\ build_class [] digits = Some rs).
  { unfold get_digit_class_id. cbn [rc_digit set_text]. destruct (rc_digit c) as [id|] eqn:Ed.
    - destruct (iv_digit c Hi id Ed) as (rs & H1 & H2). exists id, rs, (set_text rest c). cbn [rc_text rc_buf rc_classes rc_counts rc_groups rc_depth rc_digit rc_word set_text].
      repeat split; auto; [exists []; rewrite app_nil_r; split; [reflexivity | cbn; lia] | apply Hi | apply Hi].
    - cbn [generate_class]. destruct (add_ranges_ok digits (set_classes (rc_classes c ++ [[]]) (set_text rest c)) (rc_classes c) [] eq_refl I digits_valid) as (rs & E1 & E2).
      fold digits. cbn [rc_classes set_text]. rewrite E2. cbn [rbind]. eexists. exists rs. eexists. split; [reflexivity |].
      cbn [rc_text rc_buf rc_classes rc_counts rc_groups rc_depth rc_digit rc_word set_text set_classes set_digit].
      repeat split; auto; [exists [rs]; split; [reflexivity | cbn; lia] | | apply holds_class_ext; apply Hi | apply gz_last].
      intros id X. assert (id = len (rc_classes c)) by congruence. subst id. exists rs. split; [apply gz_last | exact E1]. }
  assert (Kw : exists id rs c1, get_word_class_id (set_text rest c) = ROk (id, c1) /\ rc_text c1 = rest /\ rc_buf c1 = rc_buf c /\ rc_counts c1 = rc_counts c /\
    rc_groups c1 = rc_groups c /\ rc_depth c1 = rc_depth c /\ (exists x, rc_classes c1 = rc_classes c ++ x /\ len x <= 1) /\
    holds_class (rc_classes c1) (rc_digit c1) digits /\ holds_class (rc_classes c1) (rc_word c1) word_chars /\ gz (rc_classes c1) id = Some rs /\ build_class [] word_chars = Some rs).
  { unfold get_word_class_id. cbn [rc_word set_text]. destruct (rc_word c) as [id|] eqn:Ed.
    - destruct (iv_word c Hi id Ed) as (rs & H1 & H2). exists id, rs, (set_text rest c). cbn [rc_text rc_buf rc_classes rc_counts rc_groups rc_depth rc_digit rc_word set_text].
      repeat split; auto; [exists []; rewrite app_nil_r; split; [reflexivity | cbn; lia] | apply Hi | apply Hi].
    - cbn [generate_class]. destruct (add_ranges_ok word_chars (set_classes (rc_classes c ++ [[]]) (set_text rest c)) (rc_classes c) [] eq_refl I words_valid) as (rs & E1 & E2).
      fold word_chars. cbn [rc_classes set_text]. rewrite E2. cbn [rbind]. eexists. exists rs. eexists. split; [reflexivity |].
      cbn [rc_text rc_buf rc_classes rc_counts rc_groups rc_depth rc_digit rc_word set_text set_classes set_word].
      repeat split; auto; [exists [rs]; split; [reflexivity | cbn; lia] | apply holds_class_ext; apply Hi | | apply gz_last].
      intros id X. assert (id = len (rc_classes c)) by congruence. subst id. exists rs. split; [apply gz_last | exact E1]. }
  assert (Ke : forall k, good c (fun _ => rc_buf c) rest (REdge k) (rc_groups c) (fun c' _ _ => rc_mult c' = true) (emit I_BOUNDARY [edge_code k] (set_text rest c))).
  { intros k. apply plain_instr with (d := 2); [exact Hi | apply words1; destruct k; cbn; unfold B_NONE, B_BEGIN, B_END, B_WORD; lia | apply cd_edge]. }
  fold literal_escapes.
  destruct H as [x Hx | x d Hx | | | | | | | |].
  - assert (Bx : 0 <= x < 65536 /\ x <> END_OF_STR) by (unfold literal_escapes in Hx; cbn [In] in Hx; unfold END_OF_STR; lia).
    rewrite (proj2 (Z.eqb_neq x END_OF_STR)) by apply Bx. rewrite (proj2 (existsb_in x literal_escapes) Hx). apply char_instr; [exact Hi | apply Bx].
  - destruct Hx; cbn - [emit]; apply char_instr; (exact Hi || lia).
  - exact (Ke EBegin).
  - exact (Ke EEnd).
  - exact (Ke EBoth).
  - exact (Ke ENone).
  - cbn - [emit get_digit_class_id get_word_class_id]. destruct Kd as (id & rs & c1 & -> & K1 & K2 & K3 & K4 & K5 & K6 & K7 & K8 & K9 & K10). cbn [rbind].
    apply (class_instr c rest false digits c1 id rs); auto; [discriminate | apply digits_valid].
  - cbn - [emit get_digit_class_id get_word_class_id]. destruct Kd as (id & rs & c1 & -> & K1 & K2 & K3 & K4 & K5 & K6 & K7 & K8 & K9 & K10). cbn [rbind].
    apply (class_instr c rest true digits c1 id rs); auto; [discriminate | apply digits_valid].
  - cbn - [emit get_digit_class_id get_word_class_id]. destruct Kw as (id & rs & c1 & -> & K1 & K2 & K3 & K4 & K5 & K6 & K7 & K8 & K9 & K10). cbn [rbind].
    apply (class_instr c rest false word_chars c1 id rs); auto; [discriminate | apply words_valid].
  - cbn - [emit get_digit_class_id get_word_class_id]. destruct Kw as (id & rs & c1 & -> & K1 & K2 & K3 & K4 & K5 & K6 & K7 & K8 & K9 & K10). cbn [rbind].
    apply (class_instr c rest true word_chars c1 id rs); auto; [discriminate | apply words_valid].
Qed.

Lemma class_ok : forall w neg l c rest, class_text w neg l -> rc_text c = w ++ rest -> chars (rc_text c) -> inv c ->
  good c (fun _ => rc_buf c) rest (RSet neg l) (rc_groups c) (fun c' _ _ => rc_mult c' = true) (parse_class c).
Proof.
  intros w neg l c rest H T Hc Hi. pose proof (parse_class_ends c Hc) as En. unfold parse_class in *. cbn [generate_class] in *. cbv zeta in *.
  assert (K : forall w' c2, class_items w' l -> rc_text c2 = w' ++ 93 :: rest -> chars (rc_text c2) -> rc_classes c2 = rc_classes c ++ [[]] ->
     rc_buf c2 = rc_buf c -> rc_counts c2 = rc_counts c -> rc_groups c2 = rc_groups c -> rc_depth c2 = rc_depth c -> rc_digit c2 = rc_digit c -> rc_word c2 = rc_word c ->
     ends (rdo c3 <- class_loop (S (length (rc_text c2))) (len (rc_classes c)) c2; emit (if neg then I_NOT_CLASS else I_CLASS) [len (rc_classes c)] (consume c3)) ->
     good c (fun _ => rc_buf c) rest (RSet neg l) (rc_groups c) (fun c' _ _ => rc_mult c' = true)
       (rdo c3 <- class_loop (S (length (rc_text c2))) (len (rc_classes c)) c2; emit (if neg then I_NOT_CLASS else I_CLASS) [len (rc_classes c)] (consume c3))).
  { intros w' c2 Hit T2 Hc2 C2 B2 N2 G2 D2 Dg Wd En2.
    destruct (class_items_ok w' l Hit _ c2 (rc_classes c) [] rest T2 Hc2 C2 I (ends_inv _ _ _ _ En2)) as (rs & E1 & E2 & V). rewrite E2. cbn [rbind].
    apply (class_instr c rest neg l _ (len (rc_classes c)) rs); cbn [rc_text rc_buf rc_classes rc_counts rc_groups rc_depth rc_digit rc_word set_text set_classes consume tl]; auto.
    - exists [rs]. split; [reflexivity | cbn; lia].
    - rewrite Dg. apply holds_class_ext, Hi.
    - rewrite Wd. apply holds_class_ext, Hi.
    - apply gz_last.
    - apply (class_items_some _ _ Hit). }
  destruct H as [w l Hit N | w l Hit].
  - rewrite <- app_assoc in T. cbn [app] in T. pose proof (class_items_nonempty _ _ Hit) as Ne. pose proof (not_start w 94 (93 :: rest) Ne N c T) as P.
    rewrite (proj2 (Z.eqb_neq _ _) P) in *. apply (K w); auto.
  - cbn [app] in T. rewrite <- app_assoc in T. cbn [app] in T. destruct (peek_text _ _ _ T) as [P _]. rewrite P in *. change (94 =? 94) with true in *. cbv iota in *.
    apply (K w); cbn [rc_text rc_buf rc_classes rc_counts rc_groups rc_depth rc_digit rc_word set_text set_classes consume]; auto; rewrite T; [reflexivity |].
    rewrite T in Hc. inversion Hc. assumption.
Qed.

(* repetitions *)
Lemma repeat_ok : forall (c0 c1 : rctx) rest (lz : bool) n m a g la da, inv c0 -> compiled c0 (rc_buf c0) ((if lz then [63] else []) ++ rest) a g c1 la da ->
  (lz = false -> qfree rest) -> 0 <= n <= max_of m -> 1 <= max_of m <= 65535 ->
  good c0 (fun _ => rc_buf c0) rest (RRep lz n m a) g (fun _ _ _ => True)
    (rdo c3 <- emit_multiplicity (len (rc_buf c0)) n (max_of m) c1; ROk (set_mult false c3)).
Proof.
  intros c0 c1 rest lz n m a g la da Hi [T B Cd Ex G D Hi1] Hq Hn Hm. destruct (coded_mono _ _ _ _ _ _ Cd) as (Hmono & _ & L).
  pose proof (iv_counts _ Hi) as [IC0 IC]. pose proof (iv_counts _ Hi1) as [IC1 IC1']. pose proof (iv_buf _ Hi1) as IB1. pose proof (iv_groups _ Hi1) as IG1.
  pose proof (iv_classes _ Hi1) as IK1. unfold good. cbn [code_size].
  unfold emit_multiplicity. cbv zeta.
  assert (P : (peek c1 =? 63) = lz).
  { destruct lz; cbn [app] in T; [destruct (peek_text _ _ _ T) as [-> _]; reflexivity |]. specialize (Hq eq_refl). unfold peek. rewrite T.
    destruct rest as [|x t]; [reflexivity |]. cbn [qfree] in Hq. unfold quant_char in Hq. rewrite !orb_false_iff in Hq. lia. }
  rewrite P. set (c2 := if lz then consume (set_counts (rc_counts c1 + 1) c1) else set_counts (rc_counts c1 + 1) c1).
  assert (F2 : rc_text c2 = rest /\ rc_buf c2 = rc_buf c0 ++ la /\ rc_classes c2 = rc_classes c1 /\ rc_counts c2 = rc_counts c1 + 1 /\ rc_groups c2 = g /\ rc_depth c2 = rc_depth c0 /\
    rc_digit c2 = rc_digit c1 /\ rc_word c2 = rc_word c1).
  { subst c2. destruct lz; cbn [rc_text rc_buf rc_classes rc_counts rc_groups rc_depth rc_digit rc_word set_text set_counts consume]; repeat split; auto; rewrite T; reflexivity. }
  destruct F2 as (T2 & B2 & K2 & N2 & G2 & D2 & Dg2 & Wd2). clearbody c2. clear P.
  assert (Bc : len (rc_buf c1) = len (rc_buf c0) + len la) by (rewrite B; lenz; lia).
  set (op := if lz then I_LCOUNT else I_GCOUNT). set (op2 := if lz then I_LJUMP else I_GJUMP).
  assert (W1 : words [0; rc_counts c1; n]) by (repeat (apply Forall_cons; [lia |]); apply Forall_nil).
  assert (W2 : words [0; rc_counts c1; n; max_of m]) by (repeat (apply Forall_cons; [lia |]); apply Forall_nil).
  destruct (Z.le_gt_cases (len (rc_buf c0) + len la + 4) 32767) as [S1 | S1].
  2: { right. split; [lia |]. rewrite emit_long; [reflexivity | exact W1 | rewrite B2; lenz; lia]. }
  rewrite emit_fits; [| exact W1 | rewrite B2; lenz; lia]. cbn [rbind].
  rewrite B2. cbn [rc_buf set_mult set_buf].
  replace (len ((rc_buf c0 ++ la) ++ [op; 0; rc_counts c1; n]) - len (rc_buf c1)) with 4 by (rewrite Bc; lenz; lia).
  rewrite B. rewrite (rotate_app (rc_buf c0) la [op; 0; rc_counts c1; n]) by (cbn [rc_buf set_mult set_buf]; rewrite <- app_assoc; reflexivity).
  set (c4 := set_buf (rc_buf c0 ++ [op; 0; rc_counts c1; n] ++ la) _).
  assert (B4 : rc_buf c4 = rc_buf c0 ++ op :: 0 :: rc_counts c1 :: n :: la) by reflexivity.
  destruct (Z.le_gt_cases (len (rc_buf c0) + (9 + len la)) 32767) as [S2 | S2].
  2: { right. split; [lia |]. rewrite emit_long; [reflexivity | exact W2 | rewrite B4; lenz; lia]. }
  left. split; [lia |]. rewrite emit_fits; [| exact W2 | rewrite B4; lenz; lia]. cbn [rbind].
  set (l4 := op :: 0 :: rc_counts c1 :: n :: la).
  set (c5 := set_mult true (set_buf (rc_buf c4 ++ [op2; 0; rc_counts c1; n; max_of m]) c4)).
  assert (B5 : rc_buf c5 = rc_buf c0 ++ op :: 0 :: (rc_counts c1 :: n :: la ++ [op2; 0; rc_counts c1; n; max_of m])).
  { subst c5. cbn [rc_buf set_mult set_buf]. rewrite B4. rewrite <- app_assoc. reflexivity. }
  rewrite (patch_app (rc_buf c0) _ _ _ _ c5 B5).
  assert (L5 : len (rc_buf c5) - len (rc_buf c0) = len la + 9) by (rewrite B5; lenz; lia). rewrite L5.
  set (c6 := set_buf _ c5).
  assert (B6 : rc_buf c6 = (rc_buf c0 ++ op :: u16 (len la + 9) :: rc_counts c1 :: n :: la) ++ op2 :: 0 :: [rc_counts c1; n; max_of m]).
  { subst c6. cbn [rc_buf set_buf]. rewrite <- app_assoc. reflexivity. }
  assert (L6 : len (rc_buf c4) = len (rc_buf c0 ++ op :: u16 (len la + 9) :: rc_counts c1 :: n :: la)) by (rewrite B4; lenz; lia).
  rewrite L6. rewrite (patch_app _ _ _ _ _ c6 B6). rewrite <- L6.
  replace (len (rc_buf c0) + 4 - len (rc_buf c4)) with (- len la) by (rewrite B4; lenz; lia).
  eexists. eexists. eexists. split; [reflexivity |]. split; [| exact I].
  constructor; cbn [rc_text rc_buf rc_classes rc_counts rc_groups rc_depth rc_digit rc_word set_mult set_buf c6 c5 c4].
  - exact T2.
  - rewrite <- app_assoc. cbn [app]. reflexivity.
  - rewrite K2, N2. subst op op2. apply (cd_rep (rc_classes c1) lz n m _ a _ la da Cd Hn Hm).
  - rewrite K2. exact Ex.
  - exact G2.
  - exact D2.
  - destruct Hi1 as [V1 V2 V3 V4 V5 V6 V7].
    assert (LF : len ((rc_buf c0 ++ op :: u16 (len la + 9) :: rc_counts c1 :: n :: la) ++ [op2; u16 (- len la); rc_counts c1; n; max_of m]) = len (rc_buf c0) + (9 + len la)) by (lenz; lia).
    constructor; cbn [rc_text rc_buf rc_classes rc_counts rc_groups rc_depth rc_digit rc_word set_mult set_buf c6 c5 c4]; rewrite ?LF, ?K2, ?N2, ?Dg2, ?Wd2, ?G2, ?D2; auto; try lia.
Qed.
