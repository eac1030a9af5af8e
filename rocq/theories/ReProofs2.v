(* Bytecode of an expression yields the matches of the expression in their order. *)
From Coq Require Import ZArith List Lia Bool ZifyBool.
Import ListNotations.
From Verif Require Import Base ListZ ReClassModel ReClassSpec ReClassProofs ReClassProps ReModel ReSpec ReProofs1.
Local Open Scope Z_scope.
Ltac Zify.zify_post_hook ::= idtac.

Definition edge_code (k : edge) : Z := match k with ENone => B_NONE | EBegin => B_BEGIN | EEnd => B_END | EBoth => B_WORD end.
Definition max_of (m : option Z) : Z := match m with Some x => x | None => 65535 end.

(* coded cl c0 r c1 l d: l is code of r, with counters c0 .. c1-1; d is the offset of an instruction from which a chain of jumps leads
   to the end of the code *)
Inductive coded (cl : list (list range)) : Z -> re -> Z -> list Z -> Z -> Prop :=
| cd_empty : forall c, coded cl c REmpty c [] 0
| cd_seq : forall c0 a c1 la da b c2 lb db, coded cl c0 a c1 la da -> coded cl c1 b c2 lb db ->
    coded cl c0 (RSeq a b) c2 (la ++ lb) (len la + len lb)
| cd_alt : forall c0 a c1 la da b c2 lb db, coded cl c0 a c1 la da -> coded cl c1 b c2 lb db ->
    coded cl c0 (RAlt a b) c2 (I_FORK :: u16 (len la + 4) :: la ++ I_JUMP :: u16 (2 + db) :: lb) (2 + len la)
| cd_char : forall c x, 0 <= x < 65536 -> coded cl c (RChar x) c [I_CHAR; x] 2
| cd_char32 : forall c x, 65536 <= x < 2 ^ 24 -> coded cl c (RChar x) c [I_CHAR32; x / 65536; x mod 65536] 3
| cd_any : forall c, coded cl c RAny c [I_ANY] 1
| cd_set : forall c (neg : bool) l id rs, gz cl id = Some rs -> build_class [] l = Some rs -> l <> [] -> Forall valid_range l ->
    coded cl c (RSet neg l) c [if neg then I_NOT_CLASS else I_CLASS; id] 2
| cd_bol : forall c, coded cl c RBol c [I_BOL] 1
| cd_eol : forall c, coded cl c REol c [I_EOL] 1
| cd_edge : forall c k, coded cl c (REdge k) c [I_BOUNDARY; edge_code k] 2
| cd_group : forall c0 g a c1 la da, 0 <= g < 32767 -> coded cl c0 a c1 la da ->
    coded cl c0 (RGroup (Some g) a) c1 (I_BEGIN :: g :: la ++ [I_END; g]) (4 + len la)
| cd_plain : forall c0 a c1 la da, coded cl c0 a c1 la da ->
    coded cl c0 (RGroup None a) c1 (I_BEGIN :: 65535 :: la ++ [I_END; 65535]) (4 + len la)
| cd_rep : forall (lazy : bool) n m c0 a c1 la da, coded cl c0 a c1 la da -> 0 <= n <= max_of m -> 1 <= max_of m <= 65535 ->
    coded cl c0 (RRep lazy n m a) (c1 + 1)
      ((if lazy then I_LCOUNT else I_GCOUNT) :: u16 (len la + 9) :: c1 :: n :: la ++
       [if lazy then I_LJUMP else I_GJUMP; u16 (- len la); c1; n; max_of m]) (9 + len la).

Lemma coded_mono : forall cl c0 r c1 l d, coded cl c0 r c1 l d -> c0 <= c1 /\ 0 <= d <= len l /\ len l = code_size r.
Proof.
  induction 1; cbn [code_size]; repeat match goal with H : _ /\ _ |- _ => destruct H end; lenz;
    repeat match goal with |- context [len ?l] => pose proof (len_nonneg _ l); generalize dependent (len l); intros end; try lia.
  - rewrite (proj2 (Z.ltb_lt _ _)) by lia. lia.
  - rewrite (proj2 (Z.ltb_ge _ _)) by lia. lia.
Qed.

(* numbers of capturing groups, those inside of a group are higher than its own *)
Fixpoint groups_ok (r : re) (g0 ng : Z) : Prop :=
  match r with
  | RSeq a b | RAlt a b => groups_ok a g0 ng /\ groups_ok b g0 ng
  | RGroup (Some g) a => g0 <= g < ng /\ groups_ok a (g + 1) ng
  | RGroup None a => groups_ok a g0 ng
  | RRep _ _ _ a => groups_ok a g0 ng
  | _ => True
  end.

Lemma flat_map_flat_map : forall A B C (f : A -> list B) (g : B -> list C) l,
  flat_map g (flat_map f l) = flat_map (fun x => flat_map g (f x)) l.
Proof. induction l as [|x l IH]; cbn [flat_map]; [reflexivity |]. rewrite flat_map_app, IH. reflexivity. Qed.
Lemma flat_map_map : forall A B C (f : A -> B) (g : B -> list C) l, flat_map g (map f l) = flat_map (fun x => g (f x)) l.
Proof. induction l as [|x l IH]; cbn [flat_map map]; [reflexivity |]. rewrite IH. reflexivity. Qed.

Section Sim.
Variable re : robj.
Variable s : list Z.
Variables lo hi : Z.
Notation code := (o_code re).
Notation nc := (o_counts re).
Notation ng := (o_groups re).
Notation found := (Z * list (option (Z * Z)))%type.
Notation outs := (outs re s lo hi).
Notation am := (all_matches s lo hi class_has 65535).

Hypothesis Hcode : len code <= 32767.
Hypothesis Hnc : 0 <= nc.
Hypothesis Hng : 0 <= ng.
Hypothesis Hlo : 0 <= lo.
Hypothesis Hhi : hi <= len s.
Hypothesis Hlen : len s <= 65535.
Hypothesis Hchars : Forall (fun c => 0 <= c < 2 ^ 24) s.

Definition at_code (pc : Z) (l : list Z) : Prop := exists pre post, code = pre ++ l ++ post /\ pc = len pre.

Lemma at_code_app : forall pc a b, at_code pc (a ++ b) -> at_code pc a /\ at_code (pc + len a) b.
Proof.
  intros pc a b (pre & post & E & ->). split.
  - exists pre, (b ++ post). rewrite E, <- app_assoc. auto.
  - exists (pre ++ a), post. rewrite E, <- !app_assoc. lenz. auto.
Qed.
Lemma at_code_cons : forall pc x l, at_code pc (x :: l) -> gz code pc = Some x /\ at_code (pc + 1) l.
Proof.
  intros pc x l (pre & post & E & ->). split.
  - rewrite E. rewrite gz_app. rewrite Z.ltb_irrefl, Z.sub_diag. reflexivity.
  - exists (pre ++ [x]), post. rewrite E, <- !app_assoc. lenz. cbn [app]. auto.
Qed.
Lemma at_code_bounds : forall pc l, at_code pc l -> 0 <= pc /\ pc + len l <= len code.
Proof.
  intros pc l (pre & post & E & ->). rewrite E. lenz. pose proof (len_nonneg _ pre). pose proof (len_nonneg _ post). lia.
Qed.

Definition enc (o : option (Z * Z)) : Z * Z := match o with Some x => x | None => (65535, 65535) end.

(* the slots hold the groups; of the groups which were entered but not left (opened) they hold the beginning *)
Definition holds (opened : Z -> option Z) (m : found) (sl : list Z) : Prop :=
  len sl = nc + 2 * ng /\ len (snd m) = ng /\ 0 <= fst m <= hi /\
  forall g, 0 <= g < ng ->
    match opened g with
    | Some b => gz sl (nc + g * 2) = Some b
    | None => exists o, gz (snd m) g = Some o /\ gz sl (nc + g * 2) = Some (fst (enc o)) /\ gz sl (nc + g * 2 + 1) = Some (snd (enc o))
    end.

Definition same (c0 c1 : Z) (sl sl' : list Z) : Prop := forall i, 0 <= i < nc -> ~ (c0 <= i < c1) -> gz sl' i = gz sl i.

Lemma same_refl : forall c0 c1 sl, same c0 c1 sl sl.
Proof. intros c0 c1 sl i _ _. reflexivity. Qed.
Lemma same_trans : forall a b c d c0 c1 s1 s2 s3, same a b s1 s2 -> same c d s2 s3 -> c0 <= a -> b <= c1 -> c0 <= c -> d <= c1 ->
  same c0 c1 s1 s3.
Proof. intros a b c d c0 c1 s1 s2 s3 S1 S2 H1 H2 H3 H4 i Hi Hn. rewrite S2, S1 by lia. reflexivity. Qed.

Lemma holds_count : forall op m sl i v, holds op m sl -> 0 <= i < nc -> holds op m (setz sl i v).
Proof.
  intros op m sl i v (H1 & H2 & H3 & H4) Hi. split; [rewrite len_setz by lia; lia |]. split; [exact H2 |]. split; [exact H3 |].
  intros g Hg. specialize (H4 g Hg). rewrite !gz_setz by lia.
  rewrite (proj2 (Z.eqb_neq (nc + g * 2) i)) by lia. rewrite (proj2 (Z.eqb_neq (nc + g * 2 + 1) i)) by lia. exact H4.
Qed.
Lemma holds_pos : forall op m sl p, holds op m sl -> 0 <= p <= hi -> holds op (p, snd m) sl.
Proof. intros op m sl p (H1 & H2 & H3 & H4) Hp. repeat split; auto; cbn [fst]; lia. Qed.
Lemma holds_slot : forall op m sl i, holds op m sl -> 0 <= i < nc + 2 * ng -> exists v, gz sl i = Some v.
Proof. intros op m sl i (H1 & _) Hi. apply gz_some. lia. Qed.

Lemma same_set : forall c0 c1 sl sl' i v, 0 <= i < len sl' -> same c0 c1 sl sl' -> c0 <= i < c1 \/ nc <= i -> same c0 c1 sl (setz sl' i v).
Proof.
  intros c0 c1 sl sl' i v Hi H1 H2 j Hj Hn. rewrite gz_setz by lia. rewrite (proj2 (Z.eqb_neq j i)) by lia. apply H1; assumption.
Qed.

(* reading characters *)
Lemma char_at : forall p, 0 <= p <= hi ->
  (p = hi /\ peek_at s hi p = Some END_OF_STR /\ forall f, next_is s hi f p = false) \/
  (p < hi /\ exists c, peek_at s hi p = Some c /\ 0 <= c < 2 ^ 24 /\ forall f, next_is s hi f p = f c).
Proof.
  intros p Hp. unfold peek_at, next_is. destruct (Z.eq_dec p hi) as [-> | Hn].
  - left. split; [reflexivity |]. split; [rewrite (proj2 (Z.geb_le _ _)) by lia; reflexivity |]. intros f.
    rewrite Z.ltb_irrefl. reflexivity.
  - right. split; [lia |]. destruct (gz_some _ s p ltac:(lia)) as [c E]. exists c. rewrite E.
    assert (Hc : 0 <= c < 2 ^ 24) by (apply gz_in in E; rewrite Forall_forall in Hchars; auto).
    split; [destruct (Z.geb_spec p hi); [lia | reflexivity] |]. split; [exact Hc |]. intros f.
    rewrite (proj2 (Z.ltb_lt _ _)) by lia. reflexivity.
Qed.
Lemma prev_at : forall p, 0 < p <= hi -> exists c, peek_prev s p = Some c /\ 0 <= c < 2 ^ 24 /\ forall f, prev_is s f p = f c.
Proof.
  intros p Hp. unfold peek_prev, prev_is. destruct (gz_some _ s (p - 1) ltac:(lia)) as [c E]. exists c. rewrite E.
  assert (Hc : 0 <= c < 2 ^ 24) by (apply gz_in in E; rewrite Forall_forall in Hchars; auto).
  split; [reflexivity |]. split; [exact Hc |]. intros f. rewrite (proj2 (Z.ltb_lt _ _)) by lia. reflexivity.
Qed.
Lemma word_end : is_word_char END_OF_STR = false.
Proof. reflexivity. Qed.
Lemma is_word_eq : forall c, is_word_char c = is_word c.
Proof.
  intros c. unfold is_word_char, is_word. rewrite !Z.geb_leb. reflexivity.
Qed.
Lemma class_run : forall l id rs c, gz (o_classes re) id = Some rs -> build_class [] l = Some rs -> l <> [] -> Forall valid_range l ->
  forall f, with_class re id c f = f (class_has l c).
Proof.
  intros l id rs c H1 H2 H3 H4 f. unfold with_class, class_has. rewrite H1, H2.
  destruct (class_sound l c H3 H4) as (rs' & b & E1 & E2 & _). rewrite H2 in E1. injection E1 as <-. rewrite E2. reflexivity.
Qed.

Lemma sim_one : forall pc pc' m sl f (k : found -> list found) op,
  pc < len code -> holds op m sl ->
  step re s lo hi pc (fst m) sl = (if next_is s hi f (fst m) then SNext pc' (fst m + 1) sl else SFail) ->
  (forall m' sl', holds op m' sl' -> sl' = sl -> outs pc' (fst m') sl' (k m')) ->
  outs pc (fst m) sl (flat_map k (step_one s hi f m)).
Proof.
  intros pc pc' m sl f k op Hpc Hh Hs Hk. unfold step_one. destruct (next_is s hi f (fst m)) eqn:N.
  - cbn [flat_map]. rewrite app_nil_r. eapply o_next; [exact Hpc | exact Hs |].
    apply (Hk (fst m + 1, snd m) sl); [| reflexivity]. apply holds_pos; [exact Hh |].
    destruct Hh as (_ & _ & Hp & _). unfold next_is in N. apply andb_true_iff in N. destruct N as [N _]. lia.
  - cbn [flat_map]. apply o_fail; assumption.
Qed.
Lemma sim_stay : forall pc pc' m sl b (k : found -> list found) op,
  pc < len code -> holds op m sl ->
  step re s lo hi pc (fst m) sl = (if b : bool then SNext pc' (fst m) sl else SFail) ->
  (forall m' sl', holds op m' sl' -> sl' = sl -> outs pc' (fst m') sl' (k m')) ->
  outs pc (fst m) sl (flat_map k (stay b m)).
Proof.
  intros pc pc' m sl b k op Hpc Hh Hs Hk. unfold stay. destruct b.
  - cbn [flat_map]. rewrite app_nil_r. eapply o_next; [exact Hpc | exact Hs |]. apply Hk; auto.
  - cbn [flat_map]. apply o_fail; assumption.
Qed.

(* the instructions *)
Ltac stp := intros; unfold step, with_arg; repeat match goal with H : gz _ _ = Some _ |- _ => rewrite H end; reflexivity.
Lemma st_char : forall pc pos sl x, gz code pc = Some I_CHAR -> gz code (pc + 1) = Some x ->
  step re s lo hi pc pos sl = with_char (peek_at s hi pos) (fun a => if x =? a then SNext (pc + 2) (pos + 1) sl else SFail).
Proof. stp. Qed.
Lemma st_char32 : forall pc pos sl x y, gz code pc = Some I_CHAR32 -> gz code (pc + 1) = Some x -> gz code (pc + 2) = Some y ->
  step re s lo hi pc pos sl = with_char (peek_at s hi pos) (fun a => if Z.lor (Z.shiftl x 16) y =? a then SNext (pc + 3) (pos + 1) sl else SFail).
Proof. stp. Qed.
Lemma st_any : forall pc pos sl, gz code pc = Some I_ANY ->
  step re s lo hi pc pos sl = with_char (peek_at s hi pos) (fun a => if a =? END_OF_STR then SFail else SNext (pc + 1) (pos + 1) sl).
Proof. stp. Qed.
Lemma st_class : forall pc pos sl id, gz code pc = Some I_CLASS -> gz code (pc + 1) = Some id ->
  step re s lo hi pc pos sl = with_char (peek_at s hi pos) (fun ch =>
      if ch =? END_OF_STR then SFail else with_class re id ch (fun b => if b then SNext (pc + 2) (pos + 1) sl else SFail)).
Proof. stp. Qed.
Lemma st_not_class : forall pc pos sl id, gz code pc = Some I_NOT_CLASS -> gz code (pc + 1) = Some id ->
  step re s lo hi pc pos sl = with_char (peek_at s hi pos) (fun ch =>
      if ch =? END_OF_STR then SFail else with_class re id ch (fun b => if b then SFail else SNext (pc + 2) (pos + 1) sl)).
Proof. stp. Qed.
Lemma st_bol : forall pc pos sl, gz code pc = Some I_BOL ->
  step re s lo hi pc pos sl = if pos >? lo then
      with_char (peek_prev s pos) (fun prev => if (prev =? 13) || (prev =? 10) then SNext (pc + 1) pos sl else SFail)
    else SNext (pc + 1) pos sl.
Proof. stp. Qed.
Lemma st_eol : forall pc pos sl, gz code pc = Some I_EOL ->
  step re s lo hi pc pos sl = with_char (peek_at s hi pos) (fun cur =>
      if (cur =? END_OF_STR) || (cur =? 13) || (cur =? 10) then SNext (pc + 1) pos sl else SFail).
Proof. stp. Qed.
Lemma st_edge : forall pc pos sl x, gz code pc = Some I_BOUNDARY -> gz code (pc + 1) = Some x ->
  step re s lo hi pc pos sl =
    with_char (if pos >? 0 then peek_prev s pos else Some 32) (fun prev => with_char (peek_at s hi pos) (fun cur =>
      let state := if is_word_char prev then if is_word_char cur then B_NONE else B_END
                   else if is_word_char cur then B_BEGIN else B_NONE in
      if Z.land x state =? 0 then SFail else SNext (pc + 2) pos sl)).
Proof. stp. Qed.
Lemma st_begin : forall pc pos sl x, gz code pc = Some I_BEGIN -> gz code (pc + 1) = Some x ->
  step re s lo hi pc pos sl = if is_capturing_group x then
        with_slot sl (nc + x * 2) (fun _ => SNext (pc + 2) pos (setz sl (nc + x * 2) (u16 pos)))
      else SNext (pc + 2) pos sl.
Proof. stp. Qed.
Lemma st_end : forall pc pos sl x, gz code pc = Some I_END -> gz code (pc + 1) = Some x ->
  step re s lo hi pc pos sl = if is_capturing_group x then
        with_slot sl (nc + x * 2 + 1) (fun _ => SNext (pc + 2) pos (setz sl (nc + x * 2 + 1) (u16 pos)))
      else SNext (pc + 2) pos sl.
Proof. stp. Qed.
Lemma st_fork : forall pc pos sl x, gz code pc = Some I_FORK -> gz code (pc + 1) = Some x ->
  step re s lo hi pc pos sl = SFork (pc + 2) (pc + s16 x) pos sl.
Proof. stp. Qed.
Lemma st_jump : forall pc pos sl x, gz code pc = Some I_JUMP -> gz code (pc + 1) = Some x ->
  step re s lo hi pc pos sl = SNext (pc + s16 x) pos sl.
Proof. stp. Qed.
Lemma st_count : forall (lazy : bool) pc pos sl d id mn v, gz code pc = Some (if lazy then I_LCOUNT else I_GCOUNT) -> gz code (pc + 1) = Some d ->
  gz code (pc + 2) = Some id -> gz code (pc + 3) = Some mn -> gz sl id = Some v ->
  step re s lo hi pc pos sl = let sl' := setz sl id 0 in
    if mn =? 0 then (if lazy then SFork (pc + s16 d) (pc + 4) pos sl' else SFork (pc + 4) (pc + s16 d) pos sl') else SNext (pc + 4) pos sl'.
Proof. intros lazy; destruct lazy; unfold with_slot; intros; unfold step, with_arg, with_slot; repeat match goal with H : gz _ _ = Some _ |- _ => rewrite H end; reflexivity. Qed.
Lemma st_rjump : forall (lazy : bool) pc pos sl d id mn mx v, gz code pc = Some (if lazy then I_LJUMP else I_GJUMP) -> gz code (pc + 1) = Some d ->
  gz code (pc + 2) = Some id -> gz code (pc + 3) = Some mn -> gz code (pc + 4) = Some mx -> gz sl id = Some v ->
  step re s lo hi pc pos sl = let count := u16 (v + 1) in let sl' := setz sl id count in
    if count <? mn then SNext (pc + s16 d) pos sl'
    else if count <? mx then (if lazy then SFork (pc + 5) (pc + s16 d) pos sl' else SFork (pc + s16 d) (pc + 5) pos sl')
    else SNext (pc + 5) pos sl'.
Proof. intros lazy; destruct lazy; unfold with_slot; intros; unfold step, with_arg, with_slot; repeat match goal with H : gz _ _ = Some _ |- _ => rewrite H end; reflexivity. Qed.

Definition sim (c0 : Z) (r : ReSpec.re) (c1 : Z) (l : list Z) (d : Z) : Prop :=
  forall pc g0, at_code pc l -> groups_ok r g0 ng -> 0 <= c0 -> c1 <= nc -> 0 <= g0 ->
  (forall op m sl (k : found -> list found), (forall g, g0 <= g -> op g = None) -> holds op m sl ->
     (forall m' sl', holds op m' sl' -> same c0 c1 sl sl' -> outs (pc + len l) (fst m') sl' (k m')) ->
     outs pc (fst m) sl (flat_map k (am r m))) /\
  (forall pos sl l', outs (pc + len l) pos sl l' -> outs (pc + d) pos sl l').

Lemma sim_all : forall c0 r c1 l d, coded (o_classes re) c0 r c1 l d -> sim c0 r c1 l d.
Proof.
  induction 1 as [c | c0 a c1 la da b c2 lb db Ca IHa Cb IHb | c0 a c1 la da b c2 lb db Ca IHa Cb IHb | c x Hx | c x Hx | c
    | c neg l id rs H1 H2 H3 H4 | c | c | c kd | c0 g a c1 la da Hg Ca IHa | c0 a c1 la da Ca IHa | lazy n mx c0 a c1 la da Ca IHa Hn Hm ];
    intros pc g0 Hat Hgr Hc0 Hc1 Hg0; cbn [groups_ok] in Hgr; pose proof (at_code_bounds _ _ Hat) as Hb; lenz_in Hb; change (len (@nil Z)) with 0 in Hb.
  - (* empty *)
    change (len (@nil Z)) with 0. split; [| auto]. intros op m sl k Ho Hh Hk. cbn [all_matches flat_map]. rewrite app_nil_r.
    specialize (Hk m sl Hh (same_refl _ _ _)). rewrite Z.add_0_r in Hk. exact Hk.
  - (* sequence *)
    apply at_code_app in Hat. destruct Hat as [A1 A2]. destruct Hgr as [G1 G2].
    destruct (coded_mono _ _ _ _ _ _ Ca) as (M1 & _ & _). destruct (coded_mono _ _ _ _ _ _ Cb) as (M2 & _ & _). lenz. split; [| auto].
    intros op m sl k Ho Hh Hk. cbn [all_matches]. rewrite flat_map_flat_map.
    destruct (IHa pc g0 A1 G1 ltac:(lia) ltac:(lia) Hg0) as [Pa _]. apply (Pa op m sl _ Ho Hh). intros m' sl' Hh' Hs'.
    destruct (IHb (pc + len la) g0 A2 G2 ltac:(lia) ltac:(lia) Hg0) as [Pb _]. apply (Pb op m' sl' k Ho Hh'). intros m2 sl2 Hh2 Hs2.
    rewrite <- Z.add_assoc. apply Hk; [exact Hh2 |]. apply (same_trans c0 c1 c1 c2 c0 c2 sl sl' sl2); auto; lia.
  - (* alternative *)
    destruct Hgr as [G1 G2]. destruct (coded_mono _ _ _ _ _ _ Ca) as (M1 & _ & _). destruct (coded_mono _ _ _ _ _ _ Cb) as (M2 & M3 & _).
    apply at_code_cons in Hat. destruct Hat as [Z1 Hat]. apply at_code_cons in Hat. destruct Hat as [Z2 Hat].
    apply at_code_app in Hat. destruct Hat as [A1 Hat]. apply at_code_cons in Hat. destruct Hat as [Z3 Hat].
    apply at_code_cons in Hat. destruct Hat as [Z4 A2]. replace (pc + 1 + 1) with (pc + 2) in * by lia.
    replace (pc + 2 + len la + 1 + 1) with (pc + len la + 4) in * by lia.
    pose proof (len_nonneg _ la). pose proof (len_nonneg _ lb).
    destruct (IHa (pc + 2) g0 A1 G1 ltac:(lia) ltac:(lia) Hg0) as [Pa _].
    destruct (IHb (pc + len la + 4) g0 A2 G2 ltac:(lia) ltac:(lia) Hg0) as [Pb Jb].
    assert (J : forall pos sl l', outs (pc + (len la + len lb + 4)) pos sl l' -> outs (pc + 2 + len la) pos sl l').
    { intros pos sl l' O. eapply o_next; [lia | apply (st_jump _ pos sl _ Z3 Z4) |]. rewrite s16_u16 by lia.
      replace (pc + 2 + len la + (2 + db)) with (pc + len la + 4 + db) by lia. apply Jb.
      replace (pc + len la + 4 + len lb) with (pc + (len la + len lb + 4)) by lia. exact O. }
    lenz. replace (1 + (1 + (len la + (1 + (1 + len lb))))) with (len la + len lb + 4) by lia.
    replace (pc + (2 + len la)) with (pc + 2 + len la) by lia. split; [| exact J].
    intros op m sl k Ho Hh Hk. cbn [all_matches]. rewrite flat_map_app.
    assert (Hp : 0 <= fst m <= hi) by (destruct Hh as (_ & _ & Hp & _); exact Hp).
    eapply o_fork; [lia | apply (st_fork _ (fst m) sl _ Z1 Z2) | rewrite s16_u16 by lia; lia | lia | |].
    + apply (Pa op m sl k Ho Hh). intros m' sl' Hh' Hs'. apply J. apply Hk; [exact Hh' |].
      apply (same_trans c0 c1 c1 c2 c0 c2 sl sl' sl'); auto using same_refl; lia.
    + rewrite s16_u16 by lia. replace (pc + (len la + 4)) with (pc + len la + 4) by lia. apply (Pb op m sl k Ho Hh). intros m' sl' Hh' Hs'.
      replace (pc + len la + 4 + len lb) with (pc + (len la + len lb + 4)) by lia. apply Hk; [exact Hh' |].
      apply (same_trans c1 c2 c1 c2 c0 c2 sl sl' sl'); auto using same_refl; lia.
  - (* character *)
    change (len [I_CHAR; x]) with 2. split; [| auto]. apply at_code_cons in Hat. destruct Hat as [Z1 Hat]. apply at_code_cons in Hat. destruct Hat as [Z2 _].
    intros op m sl k Ho Hh Hk. cbn [all_matches]. apply (sim_one pc (pc + 2) m sl _ k op); [lia | exact Hh | | intros m' sl' H' ->; apply Hk; auto using same_refl].
    rewrite (st_char _ _ _ _ Z1 Z2). destruct (char_at (fst m) ltac:(destruct Hh as (_ & _ & Hp & _); exact Hp)) as [(E & P & N) | (E & ch & P & Hc & N)]; rewrite P, N; cbn [with_char].
    + rewrite (proj2 (Z.eqb_neq _ _)); [reflexivity |]. unfold END_OF_STR. lia.
    + reflexivity.
  - (* character above 65535 *)
    change (len [I_CHAR32; x / 65536; x mod 65536]) with 3. split; [| auto]. apply at_code_cons in Hat. destruct Hat as [Z1 Hat].
    apply at_code_cons in Hat. destruct Hat as [Z2 Hat]. apply at_code_cons in Hat. destruct Hat as [Z3 _]. replace (pc + 1 + 1) with (pc + 2) in * by lia.
    intros op m sl k Ho Hh Hk. cbn [all_matches]. apply (sim_one pc (pc + 3) m sl _ k op); [lia | exact Hh | | intros m' sl' H' ->; apply Hk; auto using same_refl].
    rewrite (st_char32 _ _ _ _ _ Z1 Z2 Z3). replace (Z.lor (Z.shiftl (x / 65536) 16) (x mod 65536)) with x.
    2: { rewrite shiftl_mul by lia. rewrite lor_add_low; [| lia |]; change (2 ^ 16) with 65536; [| apply Z.mod_pos_bound; lia].
         rewrite Z.mul_comm. apply Z.div_mod. lia. }
    destruct (char_at (fst m) ltac:(destruct Hh as (_ & _ & Hp & _); exact Hp)) as [(E & P & N) | (E & ch & P & Hc & N)]; rewrite P, N; cbn [with_char].
    + rewrite (proj2 (Z.eqb_neq _ _)); [reflexivity |]. unfold END_OF_STR. clear - Hx. change (2 ^ 24) with 16777216 in Hx. lia.
    + reflexivity.
  - (* any *)
    change (len [I_ANY]) with 1. split; [| auto]. apply at_code_cons in Hat. destruct Hat as [Z1 _].
    intros op m sl k Ho Hh Hk. cbn [all_matches]. apply (sim_one pc (pc + 1) m sl _ k op); [lia | exact Hh | | intros m' sl' H' ->; apply Hk; auto using same_refl].
    rewrite (st_any _ _ _ Z1). destruct (char_at (fst m) ltac:(destruct Hh as (_ & _ & Hp & _); exact Hp)) as [(E & P & N) | (E & ch & P & Hc & N)]; rewrite P, N; cbn [with_char].
    + reflexivity.
    + rewrite (proj2 (Z.eqb_neq _ _)); [reflexivity |]. unfold END_OF_STR. clear - Hc. change (2 ^ 24) with 16777216 in Hc. lia.
  - (* class *)
    replace (len [if neg then I_NOT_CLASS else I_CLASS; id]) with 2 by reflexivity. split; [| auto]. apply at_code_cons in Hat. destruct Hat as [Z1 Hat].
    apply at_code_cons in Hat. destruct Hat as [Z2 _].
    intros op m sl k Ho Hh Hk. cbn [all_matches]. apply (sim_one pc (pc + 2) m sl _ k op); [lia | exact Hh | | intros m' sl' H' ->; apply Hk; auto using same_refl].
    assert (NE : forall ch, 0 <= ch < 2 ^ 24 -> (ch =? END_OF_STR) = false).
    { intros ch Hc. apply Z.eqb_neq. unfold END_OF_STR. clear - Hc. change (2 ^ 24) with 16777216 in Hc. lia. }
    destruct neg; [rewrite (st_not_class _ _ _ _ Z1 Z2) | rewrite (st_class _ _ _ _ Z1 Z2)];
      (destruct (char_at (fst m) ltac:(destruct Hh as (_ & _ & Hp & _); exact Hp)) as [(E & P & N) | (E & ch & P & Hc & N)]; rewrite P, N; cbn [with_char];
       [reflexivity | rewrite (NE _ Hc), (class_run l id rs ch H1 H2 H3 H4); destruct (class_has l ch); reflexivity]).
  - (* line begin *)
    change (len [I_BOL]) with 1. split; [| auto]. apply at_code_cons in Hat. destruct Hat as [Z1 _].
    intros op m sl k Ho Hh Hk. cbn [all_matches]. apply (sim_stay pc (pc + 1) m sl _ k op); [lia | exact Hh | | intros m' sl' H' ->; apply Hk; auto using same_refl].
    rewrite (st_bol _ _ _ Z1). unfold at_bol. assert (Hp : 0 <= fst m <= hi) by (destruct Hh as (_ & _ & Hp & _); exact Hp).
    destruct (Z.gtb_spec (fst m) lo).
    + rewrite (proj2 (Z.leb_gt _ _)) by lia. cbn [orb]. destruct (prev_at (fst m) ltac:(lia)) as (ch & P & _ & N). rewrite P, N. cbn [with_char].
      unfold is_eol. rewrite orb_comm. reflexivity.
    + rewrite (proj2 (Z.leb_le _ _)) by lia. reflexivity.
  - (* line end *)
    change (len [I_EOL]) with 1. split; [| auto]. apply at_code_cons in Hat. destruct Hat as [Z1 _].
    intros op m sl k Ho Hh Hk. cbn [all_matches]. apply (sim_stay pc (pc + 1) m sl _ k op); [lia | exact Hh | | intros m' sl' H' ->; apply Hk; auto using same_refl].
    rewrite (st_eol _ _ _ Z1). unfold at_eol.
    destruct (char_at (fst m) ltac:(destruct Hh as (_ & _ & Hp & _); exact Hp)) as [(E & P & N) | (E & ch & P & Hc & N)]; rewrite P, N; cbn [with_char].
    + rewrite E, Z.leb_refl. reflexivity.
    + rewrite (proj2 (Z.leb_gt _ _)) by lia. rewrite (proj2 (Z.eqb_neq ch END_OF_STR)) by (unfold END_OF_STR; clear - Hc; change (2 ^ 24) with 16777216 in Hc; lia).
      cbn [orb]. unfold is_eol. rewrite orb_comm. reflexivity.
  - (* word edge *)
    replace (len [I_BOUNDARY; edge_code kd]) with 2 by reflexivity. split; [| auto]. apply at_code_cons in Hat. destruct Hat as [Z1 Hat]. apply at_code_cons in Hat. destruct Hat as [Z2 _].
    intros op m sl k Ho Hh Hk. cbn [all_matches]. apply (sim_stay pc (pc + 2) m sl _ k op); [lia | exact Hh | | intros m' sl' H' ->; apply Hk; auto using same_refl].
    rewrite (st_edge _ _ _ _ Z1 Z2). assert (Hp : 0 <= fst m <= hi) by (destruct Hh as (_ & _ & Hp & _); exact Hp).
    assert (EP : exists prev, (if fst m >? 0 then peek_prev s (fst m) else Some 32) = Some prev /\ is_word_char prev = prev_is s is_word (fst m)).
    { destruct (Z.gtb_spec (fst m) 0).
      - destruct (prev_at (fst m) ltac:(lia)) as (ch & P & _ & N). exists ch. rewrite N, is_word_eq. auto.
      - exists 32. split; [reflexivity |]. unfold prev_is. rewrite (proj2 (Z.ltb_ge _ _)) by lia. reflexivity. }
    assert (EN : exists cur, peek_at s hi (fst m) = Some cur /\ is_word_char cur = next_is s hi is_word (fst m)).
    { destruct (char_at (fst m) Hp) as [(E & P & N) | (E & ch & P & Hc & N)].
      - exists END_OF_STR. rewrite N. auto.
      - exists ch. rewrite N, is_word_eq. auto. }
    destruct EP as (prev & -> & EP). destruct EN as (cur & -> & EN). cbn [with_char]. cbv zeta. rewrite EP, EN. unfold at_edge.
    destruct (prev_is s is_word (fst m)), (next_is s hi is_word (fst m)), kd; reflexivity.
  - (* capturing group *)
    destruct Hgr as [G1 G2]. destruct (coded_mono _ _ _ _ _ _ Ca) as (M1 & _ & _). pose proof (len_nonneg _ la).
    apply at_code_cons in Hat. destruct Hat as [Z1 Hat]. apply at_code_cons in Hat. destruct Hat as [Z2 Hat].
    apply at_code_app in Hat. destruct Hat as [A1 Hat]. apply at_code_cons in Hat. destruct Hat as [Z3 Hat].
    apply at_code_cons in Hat. destruct Hat as [Z4 _]. replace (pc + 1 + 1) with (pc + 2) in * by lia. lenz.
    replace (pc + (1 + (1 + (len la + (1 + (1 + 0)))))) with (pc + 2 + len la + 2) by lia. split; [| intros pos sl l' O; replace (pc + (4 + len la)) with (pc + 2 + len la + 2) by lia; exact O].
    intros op m sl k Ho Hh Hk. cbn [all_matches]. rewrite flat_map_map. assert (Hh' := Hh). destruct Hh' as (L1 & L2 & Hp & L4).
    destruct (gz_some _ sl (nc + g * 2) ltac:(lia)) as [v0 V0].
    assert (IC : is_capturing_group g = true) by (unfold is_capturing_group; apply Z.ltb_lt; lia).
    eapply o_next; [lia | rewrite (st_begin _ _ _ _ Z1 Z2), IC; unfold with_slot; rewrite V0; reflexivity |].
    rewrite u16_small by lia. set (sl1 := setz sl (nc + g * 2) (fst m)). set (op1 := fun x => if x =? g then Some (fst m) else op x).
    assert (Hl1 : len sl1 = nc + 2 * ng) by (unfold sl1; rewrite len_setz by lia; exact L1).
    destruct (IHa (pc + 2) (g + 1) A1 G2 ltac:(lia) ltac:(lia) ltac:(lia)) as [Pa _].
    apply (Pa op1 m sl1).
    + intros x Hx. unfold op1. rewrite (proj2 (Z.eqb_neq x g)) by lia. apply Ho. lia.
    + split; [exact Hl1 |]. split; [exact L2 |]. split; [exact Hp |]. intros x Hx. specialize (L4 x Hx). unfold op1, sl1.
      destruct (Z.eqb_spec x g) as [-> | Hne]; [rewrite gz_setz by lia; rewrite Z.eqb_refl; reflexivity |].
      rewrite !gz_setz by lia. rewrite (proj2 (Z.eqb_neq (nc + x * 2) (nc + g * 2))) by lia.
      rewrite (proj2 (Z.eqb_neq (nc + x * 2 + 1) (nc + g * 2))) by lia. exact L4.
    + intros m' sl' (K1 & K2 & K3 & K4) Hs'. destruct (gz_some _ sl' (nc + g * 2 + 1) ltac:(lia)) as [v1 V1].
      eapply o_next; [lia | rewrite (st_end _ _ _ _ Z3 Z4), IC; unfold with_slot; rewrite V1; reflexivity |].
      rewrite u16_small by lia.
      apply (Hk (fst m', set_group (snd m') g (fst m, fst m'))).
      * change (set_group (snd m') g (fst m, fst m')) with (setz (snd m') g (Some (fst m, fst m'))).
        split; [rewrite len_setz by lia; exact K1 |]. cbn [fst snd]. split; [rewrite len_setz by lia; exact K2 |]. split; [exact K3 |].
        intros x Hx. specialize (K4 x Hx). destruct (Z.eq_dec x g) as [Ex | Hne].
        -- subst x. unfold op1 in K4. rewrite Z.eqb_refl in K4. rewrite (Ho g ltac:(lia)). exists (Some (fst m, fst m')). rewrite !gz_setz by lia. rewrite Z.eqb_refl.
           rewrite (proj2 (Z.eqb_neq (nc + g * 2) (nc + g * 2 + 1))) by lia. rewrite Z.eqb_refl. cbn [enc fst snd]. auto.
        -- unfold op1 in K4. rewrite (proj2 (Z.eqb_neq x g)) in K4 by lia. rewrite !gz_setz by lia. rewrite (proj2 (Z.eqb_neq x g)) by lia.
           rewrite (proj2 (Z.eqb_neq (nc + x * 2) (nc + g * 2 + 1))) by lia. rewrite (proj2 (Z.eqb_neq (nc + x * 2 + 1) (nc + g * 2 + 1))) by lia. exact K4.
      * apply same_set; [lia | | lia]. intros i Hi Hn. rewrite (Hs' i Hi Hn). unfold sl1. rewrite gz_setz by lia. rewrite (proj2 (Z.eqb_neq i (nc + g * 2))) by lia. reflexivity.
  - (* other group *)
    pose proof (len_nonneg _ la).
    apply at_code_cons in Hat. destruct Hat as [Z1 Hat]. apply at_code_cons in Hat. destruct Hat as [Z2 Hat].
    apply at_code_app in Hat. destruct Hat as [A1 Hat]. apply at_code_cons in Hat. destruct Hat as [Z3 Hat].
    apply at_code_cons in Hat. destruct Hat as [Z4 _]. replace (pc + 1 + 1) with (pc + 2) in * by lia. lenz.
    replace (pc + (1 + (1 + (len la + (1 + (1 + 0)))))) with (pc + 2 + len la + 2) by lia. split; [| intros pos sl l' O; replace (pc + (4 + len la)) with (pc + 2 + len la + 2) by lia; exact O].
    intros op m sl k Ho Hh Hk. cbn [all_matches].
    eapply o_next; [lia | rewrite (st_begin _ _ _ _ Z1 Z2); reflexivity |].
    destruct (IHa (pc + 2) g0 A1 Hgr ltac:(lia) ltac:(lia) Hg0) as [Pa _].
    apply (Pa op m sl k Ho Hh). intros m' sl' Hh' Hs'.
    eapply o_next; [lia | rewrite (st_end _ _ _ _ Z3 Z4); reflexivity |]. apply Hk; assumption.
  - (* repetition *)
    destruct (coded_mono _ _ _ _ _ _ Ca) as (M1 & _ & _). pose proof (len_nonneg _ la).
    apply at_code_cons in Hat. destruct Hat as [Z1 Hat]. apply at_code_cons in Hat. destruct Hat as [Z2 Hat].
    apply at_code_cons in Hat. destruct Hat as [Z3 Hat]. apply at_code_cons in Hat. destruct Hat as [Z4 Hat].
    apply at_code_app in Hat. destruct Hat as [A1 Hat]. apply at_code_cons in Hat. destruct Hat as [Y1 Hat].
    apply at_code_cons in Hat. destruct Hat as [Y2 Hat]. apply at_code_cons in Hat. destruct Hat as [Y3 Hat].
    apply at_code_cons in Hat. destruct Hat as [Y4 Hat]. apply at_code_cons in Hat. destruct Hat as [Y5 _].
    replace (pc + 1 + 1) with (pc + 2) in * by lia. replace (pc + 2 + 1) with (pc + 3) in * by lia. replace (pc + 3 + 1) with (pc + 4) in * by lia.
    set (jp := pc + 4 + len la) in *. replace (jp + 1 + 1) with (jp + 2) in * by lia. replace (jp + 2 + 1) with (jp + 3) in * by lia.
    replace (jp + 3 + 1) with (jp + 4) in * by lia.
    lenz. replace (pc + (1 + (1 + (1 + (1 + (len la + (1 + (1 + (1 + (1 + (1 + 0)))))))))) ) with (jp + 5) by lia.
    replace (pc + (9 + len la)) with (jp + 5) by lia. split; [| auto].
    destruct (IHa (pc + 4) g0 A1 Hgr ltac:(lia) ltac:(lia) Hg0) as [Pa _]. fold jp in Pa.
    intros op m0 sl0 k Ho Hh0 Hk. cbn [all_matches].
    (* the body, having done c repetitions, n more possible after it *)
    assert (L : forall nn c m sl, Z.of_nat nn = max_of mx - (c + 1) -> 0 <= c -> holds op m sl -> gz sl c1 = Some c -> same c0 (c1 + 1) sl0 sl ->
      outs (pc + 4) (fst m) sl (flat_map k (flat_map (repeated (am a) lazy n nn (c + 1)) (am a m)))).
    { induction nn as [|nn IHn]; intros c m sl Hc Hc0' Hh Hv Hs; rewrite flat_map_flat_map; apply (Pa op m sl _ Ho Hh); intros m' sl' Hh' Hs';
        assert (Hv' : gz sl' c1 = Some c) by (rewrite (Hs' c1 ltac:(lia) ltac:(lia)); exact Hv);
        pose proof (st_rjump lazy jp (fst m') sl' _ _ _ _ _ Y1 Y2 Y3 Y4 Y5 Hv') as St; cbv zeta in St; rewrite u16_small in St by lia; rewrite s16_u16 in St by lia;
        assert (Hp' : 0 <= fst m' <= hi) by (destruct Hh' as (_ & _ & Hp' & _); exact Hp');
        assert (Hl' : len sl' = nc + 2 * ng) by (destruct Hh' as (Hl' & _); exact Hl');
        assert (Hh2 : holds op m' (setz sl' c1 (c + 1))) by (apply holds_count; [exact Hh' | lia]);
        assert (Hs2 : same c0 (c1 + 1) sl0 (setz sl' c1 (c + 1))) by (apply same_set; [lia | apply (same_trans c0 (c1 + 1) c0 c1 c0 (c1 + 1) sl0 sl sl'); auto; lia | lia]).
      - cbn [repeated flat_map]. rewrite app_nil_r. rewrite (proj2 (Z.ltb_ge (c + 1) n)) in St by lia.
        rewrite (proj2 (Z.ltb_ge (c + 1) (max_of mx))) in St by lia. eapply o_next; [lia | exact St |]. apply Hk; assumption.
      - assert (Hv2 : gz (setz sl' c1 (c + 1)) c1 = Some (c + 1)) by (rewrite gz_setz by lia; rewrite Z.eqb_refl; reflexivity).
        pose proof (IHn (c + 1) m' (setz sl' c1 (c + 1)) ltac:(lia) ltac:(lia) Hh2 Hv2 Hs2) as More.
        replace (jp + - len la) with (pc + 4) in St by (unfold jp; lia). cbn [repeated]. cbv zeta.
        destruct (Z.ltb_spec (c + 1) n).
        + eapply o_next; [lia | exact St | exact More].
        + rewrite (proj2 (Z.ltb_lt (c + 1) (max_of mx))) in St by lia. destruct lazy.
          * cbn [flat_map]. eapply o_fork; [lia | exact St | lia | lia | apply Hk; assumption | exact More].
          * rewrite flat_map_app. cbn [flat_map]. rewrite app_nil_r.
            eapply o_fork; [lia | exact St | lia | lia | exact More | apply Hk; assumption]. }
    assert (Hp : 0 <= fst m0 <= hi) by (destruct Hh0 as (_ & _ & Hp & _); exact Hp).
    assert (Hl : len sl0 = nc + 2 * ng) by (destruct Hh0 as (Hl & _); exact Hl).
    destruct (gz_some _ sl0 c1 ltac:(lia)) as [v V].
    pose proof (st_count lazy pc (fst m0) sl0 _ _ _ _ Z1 Z2 Z3 Z4 V) as St. cbv zeta in St. rewrite s16_u16 in St by lia.
    replace (pc + (len la + 9)) with (jp + 5) in St by (unfold jp; lia).
    assert (Hh2 : holds op m0 (setz sl0 c1 0)) by (apply holds_count; [exact Hh0 | lia]).
    assert (Hs2 : same c0 (c1 + 1) sl0 (setz sl0 c1 0)) by (apply same_set; [lia | apply same_refl | lia]).
    assert (Hv2 : gz (setz sl0 c1 0) c1 = Some 0) by (rewrite gz_setz by lia; rewrite Z.eqb_refl; reflexivity).
    change (match mx with Some x => x | None => 65535 end) with (max_of mx).
    destruct (Z.to_nat (max_of mx)) as [|nn] eqn:En; [lia |].
    pose proof (L nn 0 m0 (setz sl0 c1 0) ltac:(lia) ltac:(lia) Hh2 Hv2 Hs2) as More.
    cbn [repeated]. cbv zeta. destruct (Z.ltb_spec 0 n).
    + rewrite (proj2 (Z.eqb_neq n 0)) in St by lia. eapply o_next; [lia | exact St | exact More].
    + rewrite (proj2 (Z.eqb_eq n 0)) in St by lia. destruct lazy.
      * cbn [flat_map]. eapply o_fork; [lia | exact St | lia | lia | apply Hk; assumption | exact More].
      * rewrite flat_map_app. cbn [flat_map]. rewrite app_nil_r. eapply o_fork; [lia | exact St | lia | lia | exact More | apply Hk; assumption].
Qed.
End Sim.
