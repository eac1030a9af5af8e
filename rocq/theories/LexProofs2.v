(* Operators and keywords. *)
From Coq Require Import String Ascii ZArith List Lia Bool ZifyBool.
Import ListNotations.
From Verif Require Import Base ListZ Utf8Model LexModel LexSpec LexProofs.
Local Open Scope Z_scope.
Ltac Zify.zify_post_hook ::= idtac.

Definition opc (c : Z) : bool := one_of [33; 37; 38; 42; 43; 45; 46; 60; 61; 62; 63; 94; 124; 126] c.
Lemma opc_type : forall c, is_op (lexem_type c) = opc c.
Proof.
  intros c. unfold opc, one_of. cbn [existsb]. unfold lexem_type, in_range.
  repeat match goal with |- context [if ?b then _ else _] => let q := fresh in destruct b eqn:q; cbn [is_op]; [symmetry; try lia |] end.
  all: try lia.
Qed.

Lemma op_step : forall x c b x1, prefetch x = (c, b, x1) ->
  (is_op c = true /\ exists ch t, b = ch :: t /\ opc ch = true /\ l_rest x1 = t) \/
  (is_op c = false /\ match b with [] => True | d :: _ => opc d = false end).
Proof.
  intros x c b x1 P. destruct (prefetch_eq _ _ _ _ P) as (_ & N & _). destruct b as [| ch t].
  { cbn in N. right. split; [| exact Logic.I]. assert (c = LEof) as -> by congruence. reflexivity. }
  rewrite <- opc_type. cbn [next_char] in N. destruct (lexem_type ch) eqn:T; cbn [is_op];
    try (right; split; [| reflexivity]; assert (C : c = lexem_type ch) by congruence; rewrite C, T; reflexivity).
  - left. assert (E : c = LOp /\ l_rest x1 = t) by (split; congruence). destruct E as [-> E]. split; [reflexivity |].
    exists ch, t. split; [reflexivity |]. rewrite <- opc_type, T. auto.
  - right. split; [| reflexivity]. assert (C : c = LBadUtf8) by congruence. rewrite C. reflexivity.
  - right. split; [| reflexivity]. destruct (len (ch :: t) <? n); [assert (C : c = LBadUtf8) by congruence; rewrite C; reflexivity |].
    destruct (tails _ _ t) as [[ok code] e]. assert (C : (if is_space_code code then LWhite else if ok then LUtf n else LBadUtf8) = c) by congruence.
    rewrite <- C. destruct (is_space_code code), ok; reflexivity.
Qed.

(* the entries with the first character *)
Definition entries (c : Z) : list (list Z * Z) := filter (fun p => match fst p with d :: _ => d =? c | [] => false end) operators.
Lemma entries_spec : forall c l s op, In (s, op) operators -> prefix s (c :: l) -> In (s, op) (entries c).
Proof.
  intros c l s op I (t & E). apply filter_In. split; [exact I |]. cbn [fst]. destruct s as [| d s].
  - exfalso. revert I. clear. cbn. intuition congruence.
  - cbn in E. assert (c = d) as -> by congruence. lia.
Qed.

(* op_loop on the bytes *)
Fixpoint op_pure (g : list (list Z * Z)) (idx : nat) (l : list Z) : option (Z * list Z) :=
  match g with
  | [] => None
  | (s, op) :: _ =>
      match nth_error s idx with
      | None => None
      | Some cur =>
          match l with
          | [] => Some (op, l)
          | ch :: t =>
              if opc ch then
                match op_advance g idx ch cur with
                | LOk (g', cur') => if negb (cur' =? 0) && (ch =? cur') then op_pure g' (S idx) t else Some (op, l)
                | _ => None
                end
              else Some (op, l)
          end
      end
  end.
Lemma op_loop_pure : forall fuel g idx x op l, (length (l_rest x) < fuel)%nat -> op_pure g idx (l_rest x) = Some (op, l) ->
  exists x1, op_loop fuel g idx x = LOk (op, x1) /\ walk x x1 /\ l_rest x1 = l.
Proof.
  induction fuel as [| f IH]; intros g idx x op l L H; [lia |]. cbn [op_loop]. pf x. rewrite <- EQ in *.
  destruct g as [| [s op0] g]; [destruct b; discriminate |].
  assert (D : forall r, nth_error s idx = r -> str_at s idx = match r with Some c => LOk c | None => LOver end) by (intros r <-; reflexivity).
  destruct (nth_error s idx) as [cur |] eqn:NT; [| destruct b; cbn [op_pure] in H; rewrite NT in H; discriminate].
  rewrite (D _ eq_refl). cbn [bind].
  destruct (op_step _ _ _ _ P) as [(A & ch & t & -> & O & R) | (A & O)]; rewrite A.
  - cbn [op_pure] in H. rewrite NT, O in H. cbn [deref bind].
    destruct (op_advance ((s, op0) :: g) idx ch cur) as [[g' cur'] | | |]; try discriminate. cbn [bind].
    destruct (negb (cur' =? 0) && (ch =? cur')).
    + rewrite <- R in H. destruct (IH g' (S idx) x0 op l) as (x1 & E1 & W1 & R1); [rewrite R; cbn [length] in L; lia | exact H |].
      exists x1. split; [exact E1 |]. split; [exact (walk_trans _ _ _ WP W1) | exact R1].
    + exists (retract x0 (ch :: t)). assert (op0 = op /\ ch :: t = l) as [-> <-] by (split; congruence). auto.
  - assert (op0 = op /\ b = l) as [-> <-].
    { destruct b as [| d t]; cbn [op_pure] in H; rewrite NT in H; [split; congruence |]. rewrite O in H. split; congruence. }
    exists (retract x0 b). auto.
Qed.

Definition op_found (text : list Z) (r : option (Z * list Z)) : Prop :=
  match r with Some (op, rest) => exists s, longest_operator text s op /\ text = s ++ rest | None => False end.

Definition stops (g : list (list Z * Z)) (idx : nat) (ch : Z) : bool :=
  forallb (fun p => match nth_error (fst p) idx with Some c => negb (c =? ch) | None => false end) g.
Lemma advance_stops : forall g idx ch cur s op, g <> [] -> hd ([], 0) g = (s, op) -> nth_error s idx = Some cur -> stops g idx ch = true ->
  exists g' cur', op_advance g idx ch cur = LOk (g', cur') /\ (cur' = 0 \/ (ch =? cur') = false).
Proof.
  induction g as [| [s0 op0] g IH]; intros idx ch cur s op N H NT S; [congruence |]. cbn [hd] in H. assert (s0 = s) by congruence. subst s0.
  cbn [stops forallb fst] in S. rewrite NT in S. apply andb_prop in S. destruct S as [S1 S2]. cbn [op_advance].
  destruct (cur <? ch).
  - destruct g as [| [s1 op1] g]; [do 2 eexists; split; [reflexivity | left; reflexivity] |].
    cbn [forallb fst] in S2. destruct (nth_error s1 idx) as [c1 |] eqn:N1; [| discriminate].
    unfold str_at. rewrite N1. cbn [bind]. apply (IH idx ch c1 s1 op1); [congruence | reflexivity | exact N1 |].
    unfold stops. cbn [forallb fst]. rewrite N1. exact S2.
  - do 2 eexists; split; [reflexivity |]. right. lia.
Qed.
Lemma pure_stops : forall s op g idx ch t c, nth_error s idx = Some c -> opc ch = false \/ stops ((s, op) :: g) idx ch = true ->
  op_pure ((s, op) :: g) idx (ch :: t) = Some (op, ch :: t).
Proof.
  intros s op g idx ch t c NT H. cbn [op_pure]. rewrite NT. destruct (opc ch) eqn:O; [| reflexivity].
  destruct H as [H | H]; [discriminate |].
  destruct (advance_stops ((s, op) :: g) idx ch c s op ltac:(discriminate) eq_refl NT H) as (g' & cur' & -> & [-> | E]); [reflexivity |].
  rewrite E. rewrite andb_false_r. reflexivity.
Qed.
Lemma pure_nil : forall s op g idx c, nth_error s idx = Some c -> op_pure ((s, op) :: g) idx [] = Some (op, []).
Proof. intros s op g idx c NT. cbn [op_pure]. rewrite NT. reflexivity. Qed.
(* text is a list with some known characters, the rest is l or ch :: l where ch is not one of the characters in operators *)
Ltac opleaf first :=
  match goal with |- op_found _ (Some (?op, _)) =>
    let s := eval vm_compute in (match find (fun p => snd p =? op) operators with Some p => fst p | None => [] end) in
    exists s;
    split;
    [ split; [exact (proj1 (find_some (fun p => snd p =? op) operators eq_refl)) |]; split; [eexists; cbn [app]; reflexivity |];
      let s' := fresh "s" in let op' := fresh "op" in let I' := fresh "II" in let P' := fresh "PP" in let J := fresh "J" in
      intros s' op' I' P'; pose proof (entries_spec first _ s' op' I' P') as J; clear I';
      let l := eval vm_compute in (entries first) in
      change (entries first) with l in J; cbn [In] in J;
      repeat match type of J with _ \/ _ => destruct J as [J | J] end; try contradiction;
      injection J as <- <-; cbn [length]; first [apply Nat.leb_le; reflexivity | exfalso; destruct P' as (? & EE); cbn [app] in EE; first [discriminate EE |
        injection EE; clear EE; intros; first [discriminate | congruence]]]
    | reflexivity ]
  end.
Ltac opany leaf :=
  match goal with |- context [op_pure ?g ?idx ?l] =>
    let ch := fresh "ch" in let t := fresh "t" in destruct l as [| ch t]; [erewrite pure_nil by reflexivity; leaf () |];
    let N0 := fresh "N" in let N1 := fresh "N" in let N2 := fresh "N" in let N3 := fresh "N" in let N4 := fresh "N" in let N5 := fresh "N" in let N6 := fresh "N" in
    destruct (Z.eqb_spec ch 0) as [-> | N0]; [| destruct (Z.eqb_spec ch 61) as [-> | N1]; [| destruct (Z.eqb_spec ch 62) as [-> | N2]; [|
    destruct (Z.eqb_spec ch 60) as [-> | N3]; [| destruct (Z.eqb_spec ch 38) as [-> | N4]; [| destruct (Z.eqb_spec ch 124) as [-> | N5]; [|
    destruct (Z.eqb_spec ch 46) as [-> | N6]]]]]]];
    [.. | erewrite pure_stops; [leaf () | reflexivity | right; unfold stops; cbn [forallb fst nth_error]; clear - N0 N1 N2 N3 N4 N5 N6; lia ]];
    cbn [op_pure nth_error opc one_of existsb op_advance str_at bind Z.eqb Z.ltb Z.compare Pos.eqb Pos.compare Pos.compare_cont orb andb negb];
    first [leaf () | idtac]
  end.
Ltac opchar first := opany ltac:(fun _ => opleaf first).
Ltac opstart first := intros l; let g := eval vm_compute in (op_group first) in change (op_group first) with g.

(* three texts after > are taken for other operators *)
Ltac odd := exfalso; match goal with H : ~ odd_op _ |- _ => apply H end; unfold odd_op, prefix; cbn [app]; eauto 6.
Lemma op_gt : forall l, ~ odd_op (62 :: l) -> op_found (62 :: l) (op_pure (op_group 62) 1 l).
Proof. opstart 62. intros HO. opchar 62; opchar 62; first [solve [odd] | opchar 62]; first [solve [odd] | opchar 62]. Qed.
Lemma op_lt : forall l, op_found (60 :: l) (op_pure (op_group 60) 1 l).
Proof. opstart 60. repeat opchar 60. Qed.
Lemma op_bang : forall l, op_found (33 :: l) (op_pure (op_group 33) 1 l). Proof. opstart 33. repeat opchar 33. Qed.
Lemma op_percent : forall l, op_found (37 :: l) (op_pure (op_group 37) 1 l). Proof. opstart 37. repeat opchar 37. Qed.
Lemma op_amp : forall l, op_found (38 :: l) (op_pure (op_group 38) 1 l). Proof. opstart 38. repeat opchar 38. Qed.
Lemma op_star : forall l, op_found (42 :: l) (op_pure (op_group 42) 1 l). Proof. opstart 42. repeat opchar 42. Qed.
Lemma op_plus : forall l, op_found (43 :: l) (op_pure (op_group 43) 1 l). Proof. opstart 43. repeat opchar 43. Qed.
Lemma op_minus : forall l, op_found (45 :: l) (op_pure (op_group 45) 1 l). Proof. opstart 45. repeat opchar 45. Qed.
Lemma op_slash : forall l, op_found (47 :: l) (op_pure (op_group 47) 1 l). Proof. opstart 47. repeat opchar 47. Qed.
Lemma op_eq : forall l, op_found (61 :: l) (op_pure (op_group 61) 1 l). Proof. opstart 61. repeat opchar 61. Qed.
Lemma op_quest : forall l, op_found (63 :: l) (op_pure (op_group 63) 1 l). Proof. opstart 63. repeat opchar 63. Qed.
Lemma op_caret : forall l, op_found (94 :: l) (op_pure (op_group 94) 1 l). Proof. opstart 94. repeat opchar 94. Qed.
Lemma op_bar : forall l, op_found (124 :: l) (op_pure (op_group 124) 1 l). Proof. opstart 124. repeat opchar 124. Qed.
Lemma op_tilde : forall l, op_found (126 :: l) (op_pure (op_group 126) 1 l). Proof. opstart 126. repeat opchar 126. Qed.

(* any operator is found, also the odd ones *)
Definition op_some (r : option (Z * list Z)) : Prop := match r with Some (op, _) => op <> OT_MORE | None => False end.
Lemma op_gt_some : forall l, op_some (op_pure (op_group 62) 1 l).
Proof.
  opstart 62. opany ltac:(fun _ => solve [discriminate]); opany ltac:(fun _ => solve [discriminate]); 
    opany ltac:(fun _ => solve [discriminate]); opany ltac:(fun _ => solve [discriminate]).
Qed.
Lemma pure_suf : forall l g idx op rest, op_pure g idx l = Some (op, rest) -> suf rest l.
Proof.
  induction l as [| ch t IH]; intros g idx op rest H; destruct g as [| [s o] g]; try discriminate; cbn [op_pure] in H;
    destruct (nth_error s idx); try discriminate; [assert (rest = []) as -> by congruence; apply suf_refl |].
  destruct (opc ch); [| assert (rest = ch :: t) as -> by congruence; apply suf_refl].
  destruct (op_advance _ _ _ _) as [[g' cur'] | | |]; try discriminate.
  destruct (negb (cur' =? 0) && (ch =? cur')); [apply suf_cons; eapply IH; exact H | assert (rest = ch :: t) as -> by congruence; apply suf_refl].
Qed.
Lemma op_dot : forall l,
  match l with
  | 46 :: 46 :: t => op_pure (op_group 46) 1 l = Some (OT_MORE, t)
  | 46 :: t => op_pure (op_group 46) 1 l = Some (OT_MORE, t)
  | _ => op_pure (op_group 46) 1 l = Some (OT_DOT, l)
  end.
Proof.
  intros l. let g := eval vm_compute in (op_group 46) in change (op_group 46) with g.
  assert (N : forall ch t, ch <> 46 -> op_pure [([46; 0], 7); ([46; 46; 46; 0], 8)] 1 (ch :: t) = Some (OT_DOT, ch :: t)).
  { intros ch t N. eapply pure_stops; [reflexivity |]. destruct (Z.eqb_spec ch 0) as [-> | N0]; [left; reflexivity | right].
    unfold stops. cbn [forallb fst nth_error]. clear - N N0. lia. }
  assert (N2 : forall ch t, ch <> 46 -> op_pure [([46; 46; 46; 0], 8)] 2 (ch :: t) = Some (OT_MORE, ch :: t)).
  { clear N. intros ch t N. eapply pure_stops; [reflexivity |]. right. unfold stops. cbn [forallb fst nth_error]. clear - N. lia. }
  assert (N3 : forall t, op_pure [([46; 46; 46; 0], 8)] 3 t = Some (OT_MORE, t)).
  { intros [| ch t]; [reflexivity |]. eapply pure_stops; [reflexivity |].
    destruct (Z.eqb_spec ch 0) as [-> | N0]; [left; reflexivity | right]. unfold stops. cbn [forallb fst nth_error]. clear - N0. lia. }
  destruct l as [| ch t]; [reflexivity |]. destruct (Z.eqb_spec ch 46) as [-> | D].
  - assert (E : op_pure [([46; 0], 7); ([46; 46; 46; 0], 8)] 1 (46 :: t) = op_pure [([46; 46; 46; 0], 8)] 2 t) by reflexivity.
    rewrite E. clear E. destruct t as [| c2 t]; [reflexivity |]. destruct (Z.eqb_spec c2 46) as [-> | D2].
    + exact (N3 t).
    + rewrite (N2 c2 t D2). clear N N2 N3.
      destruct c2 as [| p | p]; try reflexivity. repeat (destruct p as [p | p |]; try reflexivity). congruence.
  - rewrite (N ch t D). clear N N2 N3. destruct ch as [| p | p]; try reflexivity. repeat (destruct p as [p | p |]; try reflexivity). congruence.
Qed.

(* collect_operator finds the longest operator, but for the odd ones *)
Definition op_good (start : list Z) (x : lex) (r : lres (Z * lex)) : Prop :=
  exists op x1, r = LOk (op, x1) /\ walk x x1 /\ (~ odd_op start -> exists s, longest_operator start s op /\ start = s ++ l_rest x1).

Lemma op_good_of : forall fuel first l x op rest, (length l < fuel)%nat -> l_rest x = l -> op_pure (op_group first) 1 l = Some (op, rest) ->
  op <> OT_MORE -> (~ odd_op (first :: l) -> op_found (first :: l) (op_pure (op_group first) 1 l)) ->
  op_good (first :: l) x (collect_operator fuel (first :: l) x).
Proof.
  intros fuel first l x op rest L E H N F. unfold collect_operator. cbn [deref bind].
  destruct (op_loop_pure fuel (op_group first) 1 x op rest) as (x1 & E1 & W1 & R1); [rewrite E; exact L | rewrite E; exact H |].
  rewrite E1. cbn [bind]. replace (op =? OT_MORE) with false by (symmetry; apply Z.eqb_neq; exact N). cbn [andb].
  exists op, x1. split; [reflexivity |]. split; [exact W1 |]. intros D. specialize (F D). rewrite H in F. destruct F as (s & F1 & F2).
  exists s. split; [exact F1 |]. rewrite R1. exact F2.
Qed.
Lemma found_some : forall text r, op_found text r -> (forall s, longest_operator text s OT_MORE -> False) ->
  exists op rest, r = Some (op, rest) /\ op <> OT_MORE.
Proof.
  intros text [[op rest] |] F N; [| contradiction]. exists op, rest. split; [reflexivity |]. intros ->. destruct F as (s & F & _). exact (N s F).
Qed.
Lemma more_dots : forall c l s, c <> 46 -> longest_operator (c :: l) s OT_MORE -> False.
Proof.
  intros c l s N (A & (t & B) & _). revert A. cbn -[bytes]. unfold OT_MORE. intros A.
  repeat (destruct A as [A | A]; [first [discriminate | injection A as <-; cbn in B; congruence] |]). contradiction.
Qed.
(* . and ..: back to after the first *)
Lemma two_dots : forall fuel t x, (S (length t) < fuel)%nat -> l_rest x = 46 :: t -> match t with 46 :: _ => False | _ => True end ->
  exists x1, op_loop fuel (op_group 46) 1 x = LOk (OT_MORE, x1) /\ l_rest x1 = t /\ l_line x1 = l_line x /\ l_col x1 = l_col x + 1.
Proof.
  intros fuel t x L E N. pose proof (op_dot (46 :: t)) as H.
  assert (H1 : op_pure (op_group 46) 1 (46 :: t) = Some (OT_MORE, t)).
  { destruct t as [| c t']; [exact H |]. destruct c as [| p | p]; try exact H. repeat (destruct p as [p | p |]; try exact H; try contradiction). }
  clear H. destruct fuel as [| [| fuel]]; [lia | lia |].
  let g := eval vm_compute in (op_group 46) in change (op_group 46) with g in *.
  pose (g2 := [([46; 46; 46; 0], 8)]).
  assert (P : prefetch x = (LOp, 46 :: t, mklex t (l_line x) (l_col x + 1) (l_line x) (l_col x))) by (unfold prefetch; rewrite E; reflexivity).
  assert (H2 : op_pure g2 2 t = Some (OT_MORE, t)) by exact H1.
  assert (E1 : op_loop (S (S fuel)) [([46; 0], 7); ([46; 46; 46; 0], 8)] 1 x = op_loop (S fuel) g2 2 (mklex t (l_line x) (l_col x + 1) (l_line x) (l_col x))).
  { cbn [op_loop str_at nth_error bind]. rewrite P. reflexivity. }
  rewrite E1. clear E1 P H1. set (y := mklex t (l_line x) (l_col x + 1) (l_line x) (l_col x)).
  assert (Y : l_rest y = t /\ l_line y = l_line x /\ l_col y = l_col x + 1) by (cbn; auto). clearbody y. destruct Y as (Y1 & Y2 & Y3).
  cbn [op_loop g2 str_at nth_error bind]. destruct (prefetch y) as [[c b] y1] eqn:P.
  destruct (prefetch_eq _ _ _ _ P) as (B1 & _ & B2 & B3). rewrite Y1 in B1. subst b.
  assert (R : l_rest (retract y1 t) = t /\ l_line (retract y1 t) = l_line x /\ l_col (retract y1 t) = l_col x + 1) by (cbn; split; [| split]; congruence).
  destruct (op_step _ _ _ _ P) as [(A & ch & t' & -> & O & R') | (A & O)]; rewrite A; cbn [deref bind]; [| exists (retract y1 t); auto].
  assert (NE : ch <> 46).
  { intros ->. contradiction. }
  destruct (advance_stops g2 2 ch 46 [46; 46; 46; 0] 8 ltac:(discriminate) eq_refl eq_refl) as (g' & cur' & AD & C).
  { unfold stops, g2. cbn [forallb fst nth_error]. lia. }
  fold g2. rewrite AD. cbn [bind]. replace (negb (cur' =? 0) && (ch =? cur')) with false; [exists (retract y1 (ch :: t')); auto |].
  destruct C as [-> | C]; [reflexivity | rewrite C, andb_false_r; reflexivity].
Qed.
Lemma dot_longest : forall s l, longest_operator (46 :: l) s OT_DOT -> s = [46].
Proof.
  intros s l (A & _). revert A. cbn -[bytes]. unfold OT_DOT. intros A.
  repeat (destruct A as [A | A]; [first [discriminate | injection A as <-; reflexivity] |]). contradiction.
Qed.
Lemma op_dot_found : forall l, match l with 46 :: 46 :: _ => longest_operator (46 :: l) [46; 46; 46] OT_MORE | _ => longest_operator (46 :: l) [46] OT_DOT end.
Proof.
  intros l.
  assert (M : forall t, longest_operator (46 :: 46 :: 46 :: t) [46; 46; 46] OT_MORE).
  { intros t. split; [exact (proj1 (find_some (fun p => snd p =? 8) operators eq_refl)) |]. split; [exists t; reflexivity |].
    intros s' op' I P. pose proof (entries_spec 46 _ s' op' I P) as J. let l := eval vm_compute in (entries 46) in change (entries 46) with l in J.
    cbn [In] in J. destruct J as [J | [J | J]]; [| | contradiction]; injection J as <- <-; apply Nat.leb_le; reflexivity. }
  assert (D : (forall t, l <> 46 :: 46 :: t) -> longest_operator (46 :: l) [46] OT_DOT).
  { intros N. split; [exact (proj1 (find_some (fun p => snd p =? 7) operators eq_refl)) |]. split; [exists l; reflexivity |].
    intros s' op' I P. pose proof (entries_spec 46 _ s' op' I P) as J. let l := eval vm_compute in (entries 46) in change (entries 46) with l in J.
    cbn [In] in J. destruct J as [J | [J | J]]; [| | contradiction]; injection J as <- <-; [apply Nat.leb_le; reflexivity |].
    exfalso. destruct P as (t & E). cbn in E. apply (N t). congruence. }
  destruct l as [| c1 l]; [apply D; intros t E; discriminate |].
  destruct (Z.eqb_spec c1 46) as [-> | N1].
  - destruct l as [| c2 l]; [apply D; intros t E; discriminate |]. destruct (Z.eqb_spec c2 46) as [-> | N2]; [apply M |].
    assert (Q : forall t, 46 :: c2 :: l <> 46 :: 46 :: t) by (intros t E; congruence). specialize (D Q).
    destruct c2 as [| p | p]; try exact D. repeat (destruct p as [p | p |]; try exact D). congruence.
  - assert (Q : forall t, c1 :: l <> 46 :: 46 :: t) by (intros t E; congruence). specialize (D Q).
    destruct c1 as [| p | p]; try exact D. repeat (destruct p as [p | p |]; try exact D). congruence.
Qed.

Definition op_start (c : Z) : bool := opc c || (c =? 47).
Lemma collect_operator_good : forall fuel first l x, (length l < fuel)%nat -> l_rest x = l -> op_start first = true ->
  op_good (first :: l) x (collect_operator fuel (first :: l) x).
Proof.
  intros fuel first l x L E O.
  assert (G : first <> 46 -> (~ odd_op (first :: l) -> op_found (first :: l) (op_pure (op_group first) 1 l)) ->
    (exists op rest, op_pure (op_group first) 1 l = Some (op, rest) /\ op <> OT_MORE) -> op_good (first :: l) x (collect_operator fuel (first :: l) x)).
  { intros N F (op & rest & H & M). eapply op_good_of; eassumption. }
  assert (G2 : first <> 46 -> op_found (first :: l) (op_pure (op_group first) 1 l) -> op_good (first :: l) x (collect_operator fuel (first :: l) x)).
  { intros N F. apply G; [exact N | auto |]. eapply found_some; [exact F |]. intros s. apply more_dots. exact N. }
  assert (D : first = 62 \/ first = 46 \/ In first [33; 37; 38; 42; 43; 45; 60; 61; 63; 94; 124; 126; 47]).
  { revert O. unfold op_start, opc, one_of. cbn [existsb In]. clear. lia. }
  destruct D as [-> | [-> | D]].
  - apply G; [discriminate | apply op_gt |]. pose proof (op_gt_some l) as S. unfold op_some in S.
    destruct (op_pure (op_group 62) 1 l) as [[op rest] |]; [eauto | contradiction].
  - clear G G2 O. pose proof (op_dot l) as H. pose proof (op_dot_found l) as F.
    assert (D1 : op_pure (op_group 46) 1 l = Some (OT_DOT, l) -> longest_operator (46 :: l) [46] OT_DOT -> op_good (46 :: l) x (collect_operator fuel (46 :: l) x)).
    { intros H1 F1. eapply op_good_of; [exact L | exact E | exact H1 | discriminate |]. intros _. rewrite H1. exists [46]. split; [exact F1 | reflexivity]. }
    destruct l as [| c1 l]; [apply D1; assumption |].
    destruct (Z.eqb_spec c1 46) as [-> | N1].
    2: { clear E L. destruct c1 as [| p | p]; try (apply D1; assumption). repeat (destruct p as [p | p |]; try (apply D1; assumption)). congruence. }
    clear D1. destruct (Z.eqb_spec (hd 0 l) 46) as [N2 | N2].
    + destruct l as [| c2 l]; [discriminate |]. cbn [hd] in N2. subst c2. unfold collect_operator. cbn [deref bind].
      destruct (op_loop_pure fuel (op_group 46) 1 x OT_MORE l) as (x1 & E1 & W1 & R1); [rewrite E; exact L | rewrite E; exact H |].
      rewrite E1. cbn [bind]. rewrite R1. replace (len (46 :: 46 :: 46 :: l) - len l =? 2) with false by (symmetry; apply Z.eqb_neq; rewrite !len_cons; lia).
      rewrite andb_false_r. exists OT_MORE, x1. split; [reflexivity |]. split; [exact W1 |]. intros _. exists [46; 46; 46].
      split; [exact F | rewrite R1; reflexivity].
    + assert (N3 : match l with 46 :: _ => False | _ => True end).
      { destruct l as [| c2 l]; [exact Logic.I |]. cbn [hd] in N2. clear - N2. destruct c2 as [| p | p]; try exact Logic.I. repeat (destruct p as [p | p |]; try exact Logic.I). congruence. }
      assert (F' : longest_operator (46 :: 46 :: l) [46] OT_DOT).
      { clear - F N3. destruct l as [| c2 l]; [exact F |]. destruct c2 as [| p | p]; try exact F. repeat (destruct p as [p | p |]; try exact F). contradiction. }
      destruct (two_dots fuel l x) as (x1 & E1 & R1 & R2 & R3); [cbn [length] in L; exact L | exact E | exact N3 |].
      unfold collect_operator. cbn [deref bind]. rewrite E1. cbn [bind]. rewrite R1.
      replace (len (46 :: 46 :: l) - len l =? 2) with true by (symmetry; apply Z.eqb_eq; rewrite !len_cons; lia). cbn [Z.eqb OT_MORE Pos.eqb andb].
      eexists OT_DOT, _. split; [reflexivity |]. split.
      * apply walk_here. unfold same. cbn [l_rest l_line l_col tl]. rewrite E, R2, R3. split; [reflexivity |]. split; [reflexivity | lia].
      * intros _. exists [46]. split; [exact F' | reflexivity].
  - cbn [In] in D. repeat (destruct D as [<- | D]; [apply G2; [discriminate |];
      first [apply op_bang | apply op_percent | apply op_amp | apply op_star | apply op_plus | apply op_minus | apply op_lt | apply op_eq | apply op_quest
            | apply op_caret | apply op_bar | apply op_tilde | apply op_slash] |]). contradiction.
Qed.

(* ---- keywords ---- *)
Lemma strncmp_zero : forall s k, strncmp s k = 0 -> (length s <? length k)%nat = false -> s = k.
Proof.
  induction s as [| c s IH]; intros [| d k] H L; cbn in H, L; try reflexivity; try discriminate.
  destruct (Z.eqb_spec c d) as [-> | N]; [rewrite (IH k H L); reflexivity |]. destruct (c <? d); discriminate.
Qed.
Lemma u8_small : forall x, 0 <= x < 256 -> uwrap 8 x = x.
Proof. intros x H. unfold uwrap. apply Z.mod_small. exact H. Qed.
Lemma keyword_loop_sound : forall fuel s low high, 1 <= low <= 47 -> 0 <= high <= 46 -> high - low + 1 < 2 ^ Z.of_nat fuel ->
  exists k, keyword_loop (S fuel) s low high = Some k /\ (k = 0 \/ (1 <= k <= 46 /\ nth_error keywords (Z.to_nat (k - 1)) = Some s)).
Proof.
  induction fuel as [| f IH]; intros s low high A B C.
  - cbn [keyword_loop]. replace (low <=? high) with false by (change (2 ^ Z.of_nat 0) with 1 in C; lia). exists 0. auto.
  - rewrite Nat2Z.inj_succ, Z.pow_succ_r in C by lia. set (p := 2 ^ Z.of_nat f) in *. clearbody p.
    remember (S f) as n. cbn [keyword_loop]. subst n. destruct (low <=? high) eqn:Q; [| exists 0; auto].
    assert (M : low <= (low + high) / 2 <= high /\ 2 * ((low + high) / 2) <= low + high < 2 * ((low + high) / 2) + 2).
    { clear - Q. pose proof (Z.div_mod (low + high) 2). pose proof (Z.mod_pos_bound (low + high) 2). lia. }
    set (mid := (low + high) / 2) in *. clearbody mid. rewrite !u8_small by lia.
    assert (LF : exists k, keyword_loop (S f) s low (mid - 1) = Some k /\ (k = 0 \/ (1 <= k <= 46 /\ nth_error keywords (Z.to_nat (k - 1)) = Some s))).
    { apply IH; lia. }
    assert (RG : exists k, keyword_loop (S f) s (mid + 1) high = Some k /\ (k = 0 \/ (1 <= k <= 46 /\ nth_error keywords (Z.to_nat (k - 1)) = Some s))).
    { apply IH; lia. }
    set (kw := nth (Z.to_nat (mid - 1)) keywords []).
    destruct (strncmp s kw =? 0) eqn:Z0.
    + destruct (length s <? length kw)%nat eqn:LT; [exact LF |]. exists mid. split; [reflexivity |]. right. split; [lia |].
      apply Z.eqb_eq in Z0. rewrite (strncmp_zero s kw Z0 LT). apply nth_error_nth'. change (length keywords) with 46%nat. lia.
    + destruct (strncmp s kw <? 0); [exact LF | exact RG].
Qed.
Lemma keywords_eq : keywords = keyword_list. Proof. reflexivity. Qed.
Lemma find_keyword_complete : forall k s, is_keyword s k -> find_keyword s = Some k.
Proof.
  assert (T : forallb (fun i => match nth_error keyword_list i with Some s => match find_keyword s with Some k => k =? Z.of_nat i + 1 | None => false end | None => true end)
    (seq 0 46) = true) by (vm_compute; reflexivity).
  intros k s (A & B). rewrite forallb_forall in T. set (i := Z.to_nat (k - 1)) in *.
  assert (L : (i < 46)%nat) by (change 46%nat with (length keyword_list); apply nth_error_Some; congruence).
  specialize (T i). rewrite B in T. destruct (find_keyword s) as [k' |].
  - f_equal. assert (E : k' =? Z.of_nat i + 1 = true) by (apply T; apply in_seq; lia). lia.
  - exfalso. assert (E : false = true) by (apply T; apply in_seq; lia). discriminate.
Qed.
Lemma find_keyword_spec : forall s, exists k, find_keyword s = Some k /\ ((k = 0 /\ ~ In s keyword_list) \/ is_keyword s k).
Proof.
  intros s. destruct (keyword_loop_sound 7 s 1 46 ltac:(lia) ltac:(lia) ltac:(reflexivity)) as (k & E & [-> | (B & N)]).
  - exists 0. split; [exact E |]. left. split; [reflexivity |]. intros I. apply In_nth_error in I. destruct I as (i & I).
    assert (K : is_keyword s (Z.of_nat i + 1)).
    { split; [lia |]. replace (Z.to_nat (Z.of_nat i + 1 - 1)) with i by lia. exact I. }
    apply find_keyword_complete in K. unfold find_keyword in K. change (len keywords) with 46 in K. rewrite E in K. injection K. lia.
  - exists k. split; [exact E |]. right. split; [lia | exact N].
Qed.
