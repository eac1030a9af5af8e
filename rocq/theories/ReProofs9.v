(* Every regular expression is compiled to its code: induction over expressions. *)
From Coq Require Import ZArith List Lia Bool ZifyBool.
Import ListNotations.
From Verif Require Import Base ListZ ReClassModel ReClassSpec ReClassProofs ReModel ReSpec ReProofs1 ReProofs2 ReProofs5 ReProofs6 ReProofs7 ReProofs8.
Local Open Scope Z_scope.
Ltac Zify.zify_post_hook ::= idtac.

Scheme alt_text_mut := Induction for alt_text Sort Prop
with seq_text_mut := Induction for seq_text Sort Prop
with item_text_mut := Induction for item_text Sort Prop
with atom_text_mut := Induction for atom_text Sort Prop.
Combined Scheme text_ind from alt_text_mut, seq_text_mut, item_text_mut, atom_text_mut.

Ltac cb := cbn [rc_text rc_buf rc_classes rc_counts rc_groups rc_depth rc_digit rc_word rc_mult set_text set_mult set_groups set_depth set_counts set_buf consume].

Ltac cbi H := cbn [rc_text rc_buf rc_classes rc_counts rc_groups rc_depth rc_digit rc_word rc_mult set_text set_mult set_groups set_depth set_counts set_buf consume] in H.

Definition before (jp : option (list Z)) (b : list Z) (d : Z) : list Z := match jp with None => b | Some p => p ++ [I_JUMP; u16 (2 + d)] end.

Definition alt_done (g : Z) (w : list Z) (r : re) (g' : Z) (_ : alt_text g w r g') : Prop := forall f c rest jp,
  rc_text c = w ++ rest -> chars (rc_text c) -> rc_groups c = g -> inv c -> alt_end rest (rc_depth c) ->
  rc_buf c = match jp with None => rc_buf c | Some p => p ++ [I_JUMP; 0] end ->
  let m := rdo c1 <- parse_match_seq f (set_mult false c); alt_loop f (len (rc_buf c)) (option_map (fun p => len p) jp) c1 in
  ends m -> good c (before jp (rc_buf c)) rest r g' (fun _ _ _ => True) m.
Definition seq_done (g : Z) (w : list Z) (r : re) (g' : Z) (_ : seq_text g w r g') : Prop := forall f c rest,
  rc_text c = w ++ rest -> chars (rc_text c) -> rc_groups c = g -> inv c -> seq_end rest ->
  ends (parse_match_seq f c) -> good c (fun _ => rc_buf c) rest r g' (fun _ l d => d = len l) (parse_match_seq f c).
Definition item_done (g : Z) (w : list Z) (r : re) (g' : Z) (_ : item_text g w r g') : Prop := forall f c rest,
  rc_text c = w ++ rest -> chars (rc_text c) -> rc_groups c = g -> inv c -> qfree rest ->
  let m := rdo c1 <- parse_single_match f c; parse_optional_multiplicity (len (rc_buf c)) c1 in
  ends m -> good c (fun _ => rc_buf c) rest r g' (fun _ _ _ => True) m.
Definition atom_done (g : Z) (w : list Z) (r : re) (g' : Z) (_ : atom_text g w r g') : Prop := forall f c rest,
  rc_text c = w ++ rest -> chars (rc_text c) -> rc_groups c = g -> inv c ->
  ends (parse_single_match f c) -> good c (fun _ => rc_buf c) rest r g' (fun c' _ _ => rc_mult c' = true) (parse_single_match f c).

Lemma inv_mult : forall b c, inv c -> inv (set_mult b c).
Proof. intros b c [V1 V2 V3 V4 V5 V6 V7]. constructor; assumption. Qed.
Lemma inv_text : forall t c, inv c -> inv (set_text t c).
Proof. intros b c [V1 V2 V3 V4 V5 V6 V7]. constructor; assumption. Qed.
Lemma inv_buf : forall b c, inv c -> len (rc_buf c) <= len b <= 32767 -> inv (set_buf b c).
Proof. intros b c [V1 V2 V3 V4 V5 V6 V7] H. constructor; cb; auto; lia. Qed.
Lemma ends_after : forall A B (m : rres A) (f : A -> rres B) a, ends (rbind m f) -> m = ROk a -> ends (f a).
Proof. intros A B m f a H E. rewrite E in H. exact H. Qed.

Lemma good_text : forall t c pre rest r g Q m, good (set_text t c) pre rest r g Q m -> good c pre rest r g Q m.
Proof.
  intros t c pre rest r g Q m [(H1 & c' & l & d & H2 & [V1 V2 V3 V4 V5 V6 V7] & H4) | H]; [left | right; exact H].
  split; [exact H1 |]. exists c', l, d. split; [exact H2 |]. split; [constructor; assumption | exact H4].
Qed.

Lemma group_rest : forall c c1 id g1 w a g' (Ha : alt_text g1 w a g') o rest f,
  alt_done g1 w a g' Ha -> inv c -> rc_text c1 = w ++ 41 :: rest -> chars (rc_text c1) -> rc_groups c1 = g1 -> rc_buf c1 = rc_buf c -> rc_counts c1 = rc_counts c ->
  rc_classes c1 = rc_classes c -> rc_depth c1 = rc_depth c -> rc_digit c1 = rc_digit c -> rc_word c1 = rc_word c -> 0 <= id <= 65535 ->
  rc_groups c <= g1 <= rc_groups c + 1 ->
  (forall cl n0 n1 la da, coded cl n0 a n1 la da -> coded cl n0 (RGroup o a) n1 (I_BEGIN :: id :: la ++ [I_END; id]) (4 + len la)) ->
  let m := rdo c2 <- emit I_BEGIN [id] c1; rdo c3 <- parse_alternative_match_seq f (set_depth (rc_depth c2 + 1) c2);
           rdo c4 <- expect_char 41 (set_depth (rc_depth c3 - 1) c3); emit I_END [id] c4 in
  ends m -> good c (fun _ => rc_buf c) rest (RGroup o a) g' (fun c' _ _ => rc_mult c' = true) m.
Proof.
  intros c c1 id g1 w a g' Ha o rest f IH Hi T Hc G B N K D Dg Wd Hid Hg Hcd m En. subst m. unfold good. cbn [code_size].
  destruct Hi as [V1 V2 V3 V4 V5 V6 V7]. pose proof (code_size_nonneg a) as Sa. assert (W : words [id]) by (apply words1; exact Hid).
  destruct (Z.le_gt_cases (len (rc_buf c) + 2) 32767) as [S1 | S1].
  2: { right. split; [lia |]. rewrite emit_long; [reflexivity | exact W | rewrite B; lenz; lia]. }
  rewrite emit_fits in En |- *; try exact W; try (rewrite B; lenz; lia). cbn [rbind] in En |- *.
  set (c2 := set_depth _ _) in *. destruct f as [|f]; [contradiction (En eq_refl) |]. cbn [parse_alternative_match_seq] in En |- *. cbv zeta in En |- *.
  assert (B2 : rc_buf c2 = rc_buf c ++ [I_BEGIN; id]) by (subst c2; cb; rewrite B; reflexivity).
  assert (Hi2 : inv c2).
  { constructor; rewrite ?B2, ?len_app; change (len [I_BEGIN; id]) with 2; subst c2; cb; rewrite ?K, ?Dg, ?Wd, ?N, ?D, ?G; auto; lia. }
  assert (T2 : rc_text c2 = w ++ 41 :: rest) by exact T. assert (N2 : rc_counts c2 = rc_counts c) by exact N. assert (K2 : rc_classes c2 = rc_classes c) by exact K.
  assert (D2 : rc_depth c2 = rc_depth c + 1) by (subst c2; cb; rewrite D; reflexivity).
  destruct (IH f c2 (41 :: rest) None T2 Hc G Hi2 ltac:(split; [reflexivity | lia]) eq_refl (ends_inv _ _ _ _ En)) as [(Sz & c3 & la & da & E & Cp & _) | (Sz & E)].
  2: { right. rewrite B2, len_app in Sz. change (len [I_BEGIN; id]) with 2 in Sz. split; [lia |]. cbn [option_map] in E. rewrite E. reflexivity. }
  rewrite B2, len_app in Sz. change (len [I_BEGIN; id]) with 2 in Sz. cbn [option_map] in E. rewrite E in *. cbn [rbind] in En |- *. clear E En.
  destruct Cp as [T3 B3 Cd3 Ex3 G3 D3 Hi3]. cbn [before] in B3. rewrite B2 in B3. rewrite N2 in Cd3. rewrite K2 in Ex3.
  unfold expect_char. replace (peek (set_depth (rc_depth c3 - 1) c3)) with 41 by (unfold peek; cb; rewrite T3; reflexivity). change (41 =? 41) with true. cbv iota. cbn [rbind].
  destruct (coded_mono _ _ _ _ _ _ Cd3) as (Hmono & _ & L).
  destruct (Z.le_gt_cases (len (rc_buf c) + (4 + code_size a)) 32767) as [S2 | S2].
  2: { right. split; [lia |]. apply emit_long; [exact W | cb; rewrite B3; lenz; lia]. }
  left. split; [lia |]. rewrite emit_fits; [| exact W | cb; rewrite B3; lenz; lia].
  eexists. exists (I_BEGIN :: id :: la ++ [I_END; id]), (4 + len la). split; [reflexivity |]. split; [| reflexivity].
  constructor; cb; auto.
  - rewrite T3. reflexivity.
  - rewrite B3, <- !app_assoc. reflexivity.
  - apply Hcd with (da := da). exact Cd3.
  - lia.
  - destruct Hi3 as [U1 U2 U3 U4 U5 U6 U7]. rewrite B3 in *.
    assert (LF : len (((rc_buf c ++ [I_BEGIN; id]) ++ la) ++ [I_END; id]) = len ((rc_buf c ++ [I_BEGIN; id]) ++ la) + 2) by (lenz; lia).
    constructor; cb; rewrite ?B3, ?LF; auto; try lia. lenz. lia.
Qed.
Lemma alt_qfree : forall g w r g' rest, alt_text g w r g' -> qfree rest -> qfree (w ++ rest).
Proof.
  intros g w r g' rest H Hr. destruct H as [g w a g' H | g w a g1 v b g2 H _]; [apply (seq_qfree _ _ _ _ _ H Hr) |].
  rewrite <- app_assoc. apply (seq_qfree _ _ _ _ _ H). reflexivity.
Qed.

Lemma text_done :
  (forall g w r g' H, alt_done g w r g' H) /\ (forall g w r g' H, seq_done g w r g' H) /\
  (forall g w r g' H, item_done g w r g' H) /\ (forall g w r g' H, atom_done g w r g' H).
Proof.
  apply text_ind.
  - (* one sequence *)
    intros g w a g' Hs IH f c rest jp T Hc G Hi He Hb m En. subst m.
    assert (Se : seq_end rest) by (destruct rest; [exact I | destruct He as [-> _]; right; reflexivity]).
    destruct (IH f (set_mult false c) rest T Hc G (inv_mult _ _ Hi) Se (ends_inv _ _ _ _ En)) as [(Sz & c1 & l & d & E & Cp & Q) | (Sz & E)];
      [left | right; split; [exact Sz | rewrite E; reflexivity]].
    cbi Sz. split; [exact Sz |]. pose proof (ends_after _ _ _ _ _ En E) as En2. cbv beta in En2. rewrite E. cbn [rbind]. destruct Cp as [T1 B1 Cd Ex G1 D1 Hi1]. cbi B1.
    destruct f as [|f]; [contradiction (En2 eq_refl) |]. cbn [alt_loop]. cbv zeta.
    set (pc := match option_map (fun p => len p) jp with Some j => patch_jump_offs j (len (rc_buf c1)) c1 | None => c1 end).
    assert (Pk : (peek c1 = END_OF_STR \/ (peek c1 = 41 /\ rc_depth c1 <> 0))).
    { unfold peek. rewrite T1. destruct rest as [|x t]; [left; reflexivity | right]. destruct He as [-> He]. split; [reflexivity |]. rewrite D1. cb. lia. }
    assert (Em : (if peek c1 =? 124 then RFuel else if negb (peek c1 =? 41) || (rc_depth c1 =? 0) then if peek c1 =? END_OF_STR then ROk pc else RThrow else ROk pc) = ROk pc).
    { destruct Pk as [-> | [-> Dn]]; [reflexivity |]. change (41 =? 124) with false. change (41 =? 41) with true. cbn [negb orb].
      rewrite (proj2 (Z.eqb_neq _ _) Dn). reflexivity. }
    assert (N124 : (peek c1 =? 124) = false) by (destruct Pk as [-> | [-> _]]; reflexivity). rewrite N124 in *. exists pc, l, d. split; [exact Em |]. split; [| exact I].
    assert (Bp : exists p2, pc = set_buf p2 c1 /\ p2 = before jp (rc_buf c) d ++ l).
    { subst pc. destruct jp as [p|]; cbn [option_map before].
      - assert (B2 : rc_buf c1 = p ++ I_JUMP :: 0 :: l) by (rewrite B1, Hb, <- app_assoc; reflexivity).
        rewrite (patch_app _ _ _ _ _ _ B2). eexists. split; [reflexivity |]. cbv beta in Q. replace (len (rc_buf c1) - len p) with (2 + d) by (rewrite B2; lenz; lia). rewrite <- app_assoc. reflexivity.
      - exists (rc_buf c1). split; [destruct c1; reflexivity | exact B1]. }
    destruct Bp as (p2 & -> & Ep). constructor; cb; auto.
    + apply inv_buf; [exact Hi1 |]. rewrite Ep. pose proof (iv_buf _ Hi1) as Hl. rewrite B1 in Hl |- *. replace (len (before jp (rc_buf c) d ++ l)) with (len (rc_buf c ++ l)); [lia |].
      destruct jp as [p|]; cbn [before]; [rewrite Hb |]; lenz; lia.
  - (* alternatives *)
    intros g w a g1 v b g2 Hs IHs Ha IHa f c rest jp T Hc G Hi He Hb m En. subst m. rewrite <- app_assoc in T. cbn [app] in T.
    destruct (IHs f (set_mult false c) (124 :: v ++ rest) T Hc G (inv_mult _ _ Hi) (or_introl eq_refl) (ends_inv _ _ _ _ En)) as [(Sz & c1 & la & da & E & Cp & Q) | (Sz & E)].
    2: { right. pose proof (code_size_nonneg b). cbi Sz. split; [cbn [code_size]; lia | rewrite E; reflexivity]. }
    cbi Sz. pose proof (ends_after _ _ _ _ _ En E) as En2. cbv beta in En2. rewrite E. cbn [rbind]. clear En E IHs. destruct Cp as [T1 B1 Cd Ex G1 D1 Hi1]. cbi B1. cbi D1. cbi Ex. cbi Cd.
    destruct (coded_mono _ _ _ _ _ _ Cd) as (Hmono & _ & L). pose proof (len_nonneg _ la) as La0.
    destruct f as [|f]; [contradiction (En2 eq_refl) |]. cbn [alt_loop] in En2 |- *. cbv zeta in En2 |- *.
    destruct (peek_text _ _ _ T1) as [Pk Cn]. rewrite Pk, Cn in *. change (124 =? 124) with true in *. cbv iota in En2 |- *. clear Pk Cn.
    assert (W0 : words [0]) by (apply words1; lia). unfold good. cbn [code_size].
    destruct (Z.le_gt_cases (len (rc_buf c) + len la + 2) 32767) as [S1 | S1].
    2: { right. pose proof (code_size_nonneg b). split; [lia |]. rewrite emit_long; [reflexivity | exact W0 | cb; rewrite B1; lenz; lia]. }
    rewrite emit_fits in En2 |- *; try exact W0; try (cb; rewrite B1; lenz; lia). cbn [rbind] in En2 |- *. cbn [rc_buf set_text] in En2 |- *.
    rewrite B1 in En2 |- *. rewrite (rotate_app (rc_buf c) la [I_FORK; 0]) in En2 |- * by (cb; rewrite <- app_assoc; reflexivity).
    set (c2 := set_buf (rc_buf c ++ [I_FORK; 0] ++ la) _) in *.
    set (P := before jp (rc_buf c) (2 + len la)).
    assert (LP : len P = len (rc_buf c)) by (subst P; destruct jp as [p|]; cbn [before]; [rewrite Hb; lenz; lia | reflexivity]).
    assert (Bp : (match option_map (fun p => len p) jp with Some j => patch_jump_offs j (len (rc_buf c2)) c2 | None => c2 end) = set_buf (P ++ I_FORK :: 0 :: la) c2).
    { subst P. destruct jp as [p|]; cbn [option_map before].
      - assert (B2 : rc_buf c2 = p ++ I_JUMP :: 0 :: I_FORK :: 0 :: la) by (subst c2; cb; rewrite Hb, <- app_assoc; reflexivity).
        rewrite (patch_app _ _ _ _ _ _ B2). replace (len (rc_buf c2) - len p) with (2 + (2 + len la)) by (rewrite B2; lenz; lia). rewrite <- app_assoc. reflexivity.
      - subst c2. reflexivity. }
    rewrite Bp in En2 |- *. cbn [rc_buf set_buf] in En2 |- *.
    destruct (Z.le_gt_cases (len (rc_buf c) + len la + 4) 32767) as [S2 | S2].
    2: { right. pose proof (code_size_nonneg b). split; [lia |]. rewrite emit_long; [reflexivity | exact W0 | cb; lenz; lia]. }
    rewrite emit_fits in En2 |- *; try exact W0; try (cb; lenz; lia). cbn [rbind] in En2 |- *. cbn [rc_buf set_buf set_mult] in En2 |- *.
    set (c3 := set_mult true (set_buf ((P ++ I_FORK :: 0 :: la) ++ [I_JUMP; 0]) _)) in *.
    set (p4 := P ++ I_FORK :: u16 (len la + 4) :: la).
    assert (B3 : rc_buf c3 = P ++ I_FORK :: 0 :: (la ++ [I_JUMP; 0])) by (subst c3; cb; rewrite <- app_assoc; reflexivity).
    assert (E4 : patch_jump_offs (len (rc_buf c)) (len ((P ++ I_FORK :: 0 :: la) ++ [I_JUMP; 0])) c3 = set_buf (p4 ++ [I_JUMP; 0]) c3).
    { rewrite <- LP at 1. rewrite (patch_app _ _ _ _ _ _ B3). replace (len ((P ++ I_FORK :: 0 :: la) ++ [I_JUMP; 0]) - len P) with (len la + 4) by (lenz; lia). subst p4. rewrite <- app_assoc. reflexivity. }
    rewrite E4 in En2 |- *. cbn [rc_buf set_buf] in En2 |- *.
    set (c4 := set_buf (p4 ++ [I_JUMP; 0]) c3) in *.
    assert (Lp4 : len p4 = len (P ++ I_FORK :: 0 :: la)) by (subst p4; lenz; lia).
    assert (L4 : len (rc_buf c4) = len (rc_buf c) + len la + 4) by (subst c4 p4; cb; lenz; lia).
    assert (F4 : rc_text c4 = v ++ rest /\ rc_classes c4 = rc_classes c1 /\ rc_counts c4 = rc_counts c1 /\ rc_groups c4 = g1 /\ rc_depth c4 = rc_depth c /\
                 rc_digit c4 = rc_digit c1 /\ rc_word c4 = rc_word c1) by (repeat split; assumption).
    assert (B4 : rc_buf c4 = p4 ++ [I_JUMP; 0]) by reflexivity.
    assert (Hi4 : inv c4).
    { destruct Hi1 as [V1 V2 V3 V4 V5 V6 V7]. destruct F4 as (_ & F1 & F2 & F3 & F5 & F6 & F7). rewrite B1, len_app in *.
      constructor; rewrite ?F1, ?F2, ?F3, ?F5, ?F6, ?F7, ?L4; auto; try lia; rewrite <- ?G1, <- ?D1; try assumption; lia. }
    destruct F4 as (F1 & F2 & F3 & F5 & F6 & _). clearbody c4.
    change (p4 ++ [I_JUMP; 0]) with (p4 ++ [I_JUMP; 0]) in *. rewrite <- B4 in En2 |- *. rewrite <- Lp4 in En2 |- *. change (Some (len p4)) with (option_map (fun p : list Z => len p) (Some p4)) in En2 |- *.
    assert (Hc4 : chars (rc_text c4)) by (rewrite F1; rewrite T in Hc; apply chars_suffix in Hc; inversion Hc; assumption).
    destruct (IHa f c4 rest (Some p4) F1 Hc4 F5 Hi4 ltac:(rewrite F6; exact He) B4 En2) as [(Sz2 & c' & lb & db & E' & Cp2 & _) | (Sz2 & E')].
    2: { right. split; [lia | exact E']. }
    left. split; [lia |]. exists c', (I_FORK :: u16 (len la + 4) :: la ++ I_JUMP :: u16 (2 + db) :: lb), (2 + len la). split; [exact E' |]. split; [| exact I].
    destruct Cp2 as [T5 B5 Cd5 (x5 & Ex5) G5 D5 Hi5]. rewrite F3 in Cd5. rewrite F2 in Ex5. constructor; auto.
    + rewrite B5. unfold before at 1. subst p4. fold P. rewrite <- !app_assoc. reflexivity.
    + apply cd_alt with (c1 := rc_counts c1) (da := da); [rewrite Ex5; apply coded_ext; exact Cd | exact Cd5].
    + destruct Ex as (x & Ex). exists (x ++ x5). rewrite Ex5, Ex, app_assoc. reflexivity.
    + congruence.
  - (* empty sequence *)
    intros g f c rest T Hc G Hi He En. destruct f as [|f]; [contradiction (En eq_refl) |]. cbn [parse_match_seq]. cbv zeta. cbn [app] in T.
    assert (Pk : (peek c =? END_OF_STR) || (peek c =? 124) || (peek c =? 41) = true).
    { unfold peek. rewrite T. destruct rest as [|x t]; [reflexivity |]. destruct He as [-> | ->]; reflexivity. }
    rewrite Pk. left. cbn [code_size]. pose proof (iv_buf _ Hi). split; [lia |]. exists c, [], 0. split; [reflexivity |]. split; [| reflexivity].
    constructor; auto; [rewrite app_nil_r; reflexivity | apply cd_empty | exists []; rewrite app_nil_r; reflexivity].
  - (* item and sequence *)
    intros g w a g1 v b g2 Hit IHi Hs IHs f c rest T Hc G Hi He En. rewrite <- app_assoc in T. destruct f as [|f]; [contradiction (En eq_refl) |].
    cbn [parse_match_seq] in En |- *. cbv zeta in En |- *. destruct (item_head _ _ _ _ Hit) as (x & t & Ew & _ & N1 & N2).
    assert (Pk : (peek c =? END_OF_STR) || (peek c =? 124) || (peek c =? 41) = false).
    { rewrite Ew in T. cbn [app] in T. destruct (peek_text _ _ _ T) as [-> _]. rewrite T in Hc. pose proof (chars_head _ _ Hc) as [_ Ne]. lia. }
    rewrite Pk in En |- *. rewrite rbind_assoc in En |- *. cbv beta in En |- *.
    assert (Qf : qfree (v ++ rest)) by (apply (seq_qfree _ _ _ _ _ Hs); apply seq_end_qfree; exact He).
    destruct (IHi f c (v ++ rest) T Hc G Hi Qf (ends_inv _ _ _ _ En)) as [(Sz & c1 & la & da & E & Cp & _) | (Sz & E)].
    2: { right. pose proof (code_size_nonneg b). split; [cbn [code_size]; lia | match goal with |- rbind ?m _ = _ => replace m with (@RThrow rctx) by (symmetry; exact E) end; reflexivity]. }
    pose proof (ends_after _ _ _ _ _ En E) as En2. cbv beta in En2. match goal with |- good _ _ _ _ _ _ (rbind ?m _) => replace m with (@ROk rctx c1) by (symmetry; exact E) end. cbn [rbind]. destruct Cp as [T1 B1 Cd Ex G1 D1 Hi1].
    destruct (coded_mono _ _ _ _ _ _ Cd) as (Hmono & _ & L).
    assert (Hc1 : chars (rc_text c1)) by (rewrite T1; rewrite T in Hc; apply chars_suffix in Hc; exact Hc).
    unfold good. cbn [code_size].
    destruct (IHs f c1 rest T1 Hc1 G1 Hi1 He En2) as [(Sz2 & c' & lb & db & E' & Cp2 & Q) | (Sz2 & E')].
    2: { right. rewrite B1, len_app in Sz2. split; [lia | exact E']. }
    left. rewrite B1, len_app in Sz2. split; [lia |]. exists c', (la ++ lb), (len la + len lb). split; [exact E' |]. split; [| lenz; lia].
    destruct Cp2 as [T5 B5 Cd5 (x5 & Ex5) G5 D5 Hi5]. constructor; auto.
    + rewrite B5, B1, app_assoc. reflexivity.
    + apply cd_seq with (c1 := rc_counts c1) (da := da) (db := db); [rewrite Ex5; apply coded_ext; exact Cd | exact Cd5].
    + destruct Ex as (y & Ex). exists (y ++ x5). rewrite Ex5, Ex, app_assoc. reflexivity.
    + congruence.
  - (* atom *)
    intros g w a g' Ha IH f c rest T Hc G Hi Qf m En. subst m.
    destruct (IH f c rest T Hc G Hi (ends_inv _ _ _ _ En)) as [(Sz & c1 & l & d & E & Cp & _) | (Sz & E)]; [left | right; split; [exact Sz | rewrite E; reflexivity]].
    split; [exact Sz |]. exists c1, l, d. split; [| auto]. rewrite E. cbn [rbind]. unfold parse_optional_multiplicity. cbv zeta.
    fold (quant_char (peek c1)). replace (quant_char (peek c1)) with false; [reflexivity |]. symmetry. unfold peek. rewrite (cp_text _ _ _ _ _ _ _ _ Cp).
    destruct rest as [|x t]; [reflexivity | exact Qf].
  - (* repeated atom *)
    intros g w a g' q lz n m Ha IH Hq f c rest T Hc G Hi Qf M En. subst M. rewrite <- app_assoc in T.
    destruct (IH f c (q ++ rest) T Hc G Hi (ends_inv _ _ _ _ En)) as [(Sz & c1 & l & d & E & Cp & Mt) | (Sz & E)];
      [| right; split; [cbn [code_size]; lia | rewrite E; reflexivity]].
    rewrite E. cbn [rbind]. rewrite (quantifier_read q lz n m _ c1 rest Hq (cp_text _ _ _ _ _ _ _ _ Cp) Mt).
    assert (Bd : 0 <= n <= max_of m /\ 1 <= max_of m <= 65535) by (destruct Hq as [q n m Hk | q n m Hk]; apply counted_bounds in Hk; exact Hk).
    apply (repeat_ok c (set_text ((if lz then [63] else []) ++ rest) c1) rest lz n m a g' l d Hi); [| intros _; exact Qf | apply Bd | apply Bd].
    destruct Cp as [T1 B1 Cd Ex G1 D1 Hi1]. constructor; cb; auto. apply inv_text. exact Hi1.
  - (* character *)
    intros g x Hx f c rest T Hc G Hi En. cbn [app] in T. destruct (peek_text _ _ _ T) as [Pk Cn]. destruct f as [|f]; [contradiction (En eq_refl) |]. clear En.
    cbn [parse_single_match]. cbv zeta. rewrite Pk, Cn. rewrite T in Hc. destruct (chars_head _ _ Hc) as [Bx _].
    unfold special in Hx. cbn [In] in Hx.
    rewrite (proj2 (Z.eqb_neq x 46)), (proj2 (Z.eqb_neq x 94)), (proj2 (Z.eqb_neq x 36)), (proj2 (Z.eqb_neq x 92)), (proj2 (Z.eqb_neq x 91)), (proj2 (Z.eqb_neq x 40)),
      (proj2 (Z.eqb_neq x 124)), (proj2 (Z.eqb_neq x 42)), (proj2 (Z.eqb_neq x 43)), (proj2 (Z.eqb_neq x 63)), (proj2 (Z.eqb_neq x 123)), (proj2 (Z.eqb_neq x 41)) by lia.
    cbn [orb]. subst g. destruct (Z.ltb_spec x 65536) as [Hs | Hs]; [apply char_instr; [exact Hi | lia] |].
    assert (Ex : emit I_CHAR32 [Z.shiftr x 16; x] (set_text rest c) = emit I_CHAR32 [x / 65536; x mod 65536] (set_text rest c)).
    { unfold emit. cbn [map]. rewrite shiftr_div by lia. change (2 ^ 16) with 65536. replace (u16 (x mod 65536)) with (u16 x); [reflexivity |].
      unfold u16, uwrap. change (2 ^ 16) with 65536. rewrite Z.mod_mod by lia. reflexivity. }
    rewrite Ex. change (2 ^ 24) with 16777216 in Bx. apply plain_instr with (d := 3); [exact Hi | | apply cd_char32; change (2 ^ 24) with 16777216; lia].
    clear - Bx Hs. apply Forall_cons; [Z.div_mod_to_equations; lia |]. apply words1. Z.div_mod_to_equations. lia.
  - intros g f c rest T Hc G Hi En. cbn [app] in T. destruct (peek_text _ _ _ T) as [Pk Cn]. destruct f as [|f]; [contradiction (En eq_refl) |]. clear En.
    cbn [parse_single_match]. cbv zeta. rewrite Pk, Cn. subst g. apply plain_instr with (d := 1); [exact Hi | apply Forall_nil | apply cd_any].
  - intros g f c rest T Hc G Hi En. cbn [app] in T. destruct (peek_text _ _ _ T) as [Pk Cn]. destruct f as [|f]; [contradiction (En eq_refl) |]. clear En.
    cbn [parse_single_match]. cbv zeta. rewrite Pk, Cn. subst g. apply plain_instr with (d := 1); [exact Hi | apply Forall_nil | apply cd_bol].
  - intros g f c rest T Hc G Hi En. cbn [app] in T. destruct (peek_text _ _ _ T) as [Pk Cn]. destruct f as [|f]; [contradiction (En eq_refl) |]. clear En.
    cbn [parse_single_match]. cbv zeta. rewrite Pk, Cn. subst g. apply plain_instr with (d := 1); [exact Hi | apply Forall_nil | apply cd_eol].
  - (* escape *)
    intros g x r He f c rest T Hc G Hi En. cbn [app] in T. destruct (peek_text _ _ _ T) as [Pk Cn]. destruct f as [|f]; [contradiction (En eq_refl) |]. clear En.
    cbn [parse_single_match]. cbv zeta. rewrite Pk, Cn. subst g. apply (good_text (x :: rest)). exact (escape_ok x r (set_text (x :: rest) c) rest He eq_refl (inv_text _ _ Hi)).
  - (* class *)
    intros g w neg l Hw f c rest T Hc G Hi En. cbn [app] in T. destruct (peek_text _ _ _ T) as [Pk Cn]. destruct f as [|f]; [contradiction (En eq_refl) |]. clear En.
    cbn [parse_single_match]. cbv zeta. rewrite Pk, Cn. subst g. rewrite T in Hc. apply (good_text (w ++ rest)).
    exact (class_ok w neg l (set_text (w ++ rest) c) rest Hw eq_refl ltac:(inversion Hc; assumption) (inv_text _ _ Hi)).
  - (* capturing group *)
    intros g w a g' Ha IH f c rest T Hc G Hi En. cbn [app] in T. rewrite <- app_assoc in T. cbn [app] in T. destruct (peek_text _ _ _ T) as [Pk Cn].
    destruct f as [|f]; [contradiction (En eq_refl) |]. cbn [parse_single_match] in En |- *. cbv zeta in En |- *. rewrite Pk, Cn in *. change (40 =? 46) with false in *. change (40 =? 94) with false in *.
    change (40 =? 36) with false in *. change (40 =? 92) with false in *. change (40 =? 91) with false in *. change (40 =? 40) with true in *. cbv iota in *.
    assert (P63 : (peek (set_text (w ++ 41 :: rest) c) =? 63) = false).
    { pose proof (alt_qfree _ _ _ _ (41 :: rest) Ha eq_refl) as Q. unfold peek. cb. destruct (w ++ 41 :: rest); [reflexivity |]. cbn [qfree] in Q.
      unfold quant_char in Q. rewrite !orb_false_iff in Q. apply Q. }
    destruct f as [|f]; [contradiction (En eq_refl) |]. cbn [parse_group] in En |- *. rewrite P63 in En |- *. cbn [rbind] in En |- *.
    pose proof (iv_groups _ Hi) as [IG1 IG2]. pose proof (iv_buf _ Hi) as IB. rewrite T in Hc.
    apply (group_rest c (set_groups (rc_groups c + 1) (set_text (w ++ 41 :: rest) c)) (rc_groups c) (g + 1) w a g' Ha (Some g) rest f IH Hi); cb; auto; try lia.
    + inversion Hc; assumption.
    + intros cl n0 n1 la da Hcd. subst g. apply cd_group with (da := da); [lia | exact Hcd].
  - (* plain group *)
    intros g w a g' Ha IH f c rest T Hc G Hi En. cbn [app] in T. rewrite <- app_assoc in T. cbn [app] in T. destruct (peek_text _ _ _ T) as [Pk Cn].
    destruct f as [|f]; [contradiction (En eq_refl) |]. cbn [parse_single_match] in En |- *. cbv zeta in En |- *. rewrite Pk, Cn in *. change (40 =? 46) with false in *. change (40 =? 94) with false in *.
    change (40 =? 36) with false in *. change (40 =? 92) with false in *. change (40 =? 91) with false in *. change (40 =? 40) with true in *. cbv iota in *.
    destruct f as [|f]; [contradiction (En eq_refl) |]. cbn [parse_group] in En |- *.
    change (peek (set_text (63 :: 58 :: w ++ 41 :: rest) c) =? 63) with true in *. cbv iota zeta in En |- *.
    change (peek (consume (set_text (63 :: 58 :: w ++ 41 :: rest) c)) =? END_OF_STR) with false in *. change (peek (consume (set_text (63 :: 58 :: w ++ 41 :: rest) c)) =? 58) with true in *.
    cbv iota in En |- *. cbn [rbind] in En |- *. change (consume (consume (set_text (63 :: 58 :: w ++ 41 :: rest) c))) with (set_text (w ++ 41 :: rest) c) in *.
    rewrite T in Hc. apply (group_rest c (set_text (w ++ 41 :: rest) c) 65535 g w a g' Ha None rest f IH Hi); cb; auto; try lia.
    + inversion Hc as [|? ? _ H1]. inversion H1 as [|? ? _ H2]. inversion H2. assumption.
    + intros cl n0 n1 la da Hcd. apply cd_plain with (da := da). exact Hcd.
Qed.

Lemma text_groups :
  (forall g w r g', alt_text g w r g' -> g <= g' /\ counts_ok r /\ forall g0 ng, g0 <= g -> g' <= ng -> groups_ok r g0 ng) /\
  (forall g w r g', seq_text g w r g' -> g <= g' /\ counts_ok r /\ forall g0 ng, g0 <= g -> g' <= ng -> groups_ok r g0 ng) /\
  (forall g w r g', item_text g w r g' -> g <= g' /\ counts_ok r /\ forall g0 ng, g0 <= g -> g' <= ng -> groups_ok r g0 ng) /\
  (forall g w r g', atom_text g w r g' -> g <= g' /\ counts_ok r /\ forall g0 ng, g0 <= g -> g' <= ng -> groups_ok r g0 ng).
Proof.
  apply text_ind; intros; repeat match goal with H : _ /\ _ |- _ => destruct H end; cbn [counts_ok groups_ok]; auto.
  - split; [lia |]. split; [auto |]. intros g0 ng A1 A2. split; match goal with H : forall _ _, _ -> _ -> groups_ok ?x _ _ |- groups_ok ?x _ _ => apply H; lia end.
  - split; [lia |]. split; [exact I | auto].
  - split; [lia |]. split; [auto |]. intros g0 ng A1 A2. split; match goal with H : forall _ _, _ -> _ -> groups_ok ?x _ _ |- groups_ok ?x _ _ => apply H; lia end.
  - split; [lia |]. split; [| auto]. assert (Bd : 0 <= n <= max_of m /\ 1 <= max_of m <= 65535) by (destruct q0 as [q n m Hk | q n m Hk]; apply counted_bounds in Hk; exact Hk).
    split; [lia |]. split; [destruct m; cbn [max_of] in Bd; lia | auto].
  - split; [lia |]. auto.
  - split; [lia |]. auto.
  - split; [lia |]. auto.
  - split; [lia |]. auto.
  - split; [lia |]. destruct e; cbn; auto.
  - split; [lia |]. auto.
  - split; [lia |]. split; [auto |]. intros g0 ng A1 A2. split; [lia |]. match goal with H : forall _ _, _ -> _ -> groups_ok ?x _ _ |- groups_ok ?x _ _ => apply H; lia end.
Qed.

(* the whole compiler *)
Lemma parse_re_complete : forall text r n, chars text -> re_text text r n ->
  (code_size r <= 32767 /\ exists o d, parse_re text = ROk o /\ coded (o_classes o) 0 r (o_counts o) (o_code o) d /\ o_groups o = n /\ len (o_code o) = code_size r) \/
  (32767 < code_size r /\ parse_re text = RThrow).
Proof.
  intros text r n Hc H. pose proof (parse_re_ends text Hc) as En. unfold parse_re in *. set (c0 := Rctx text false 0 0 0 [] [] None None) in *.
  assert (Hi : inv c0) by (constructor; cbn; try lia; intros id X; discriminate X).
  pose proof (ends_inv _ _ _ _ En) as En2. replace (4 * length text + 4)%nat with (S (4 * length text + 3)) in * by lia.
  cbn [parse_alternative_match_seq] in *. cbv zeta in *.
  destruct (proj1 text_done 0 text r n H (4 * length text + 3)%nat c0 [] None ltac:(cbn; rewrite app_nil_r; reflexivity) Hc eq_refl Hi I eq_refl En2)
    as [(Sz & c' & l & d & E & Cp & _) | (Sz & E)].
  - left. change (len (rc_buf c0)) with 0 in Sz. split; [lia |]. cbn [option_map] in E. rewrite E. cbn [rbind]. eexists. exists d. split; [reflexivity |].
    destruct Cp as [T3 B3 Cd3 Ex3 G3 D3 Hi3]. cbn [before] in B3. change (rc_buf c0 ++ l) with l in B3. cbn [o_classes o_counts o_code o_groups].
    destruct Hi3 as [U1 U2 U3 U4 U5 U6 U7]. rewrite !u16_small by lia. rewrite B3. split; [exact Cd3 |]. split; [exact G3 |]. apply (coded_mono _ _ _ _ _ _ Cd3).
  - right. change (len (rc_buf c0)) with 0 in Sz. split; [lia |]. cbn [option_map] in E. rewrite E. reflexivity.
Qed.
