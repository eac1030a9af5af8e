(* The parser on the tokens of a JSON text. *)
From Coq Require Import String Ascii ZArith List Lia Bool ZifyBool.
Import ListNotations.
From Verif Require Import Base ListZ Utf8Model LexModel LexSpec LexTokens LexProofs LexProofs7 ParseIntModel JsonModel JsonSpec JsonProofs JsonProofs2.
Local Open Scope Z_scope.
Ltac Zify.zify_post_hook ::= idtac.

Definition sepnext (rest : list Z) : Prop := match rest with [] => True | c :: _ => In c [44; 93; 125; 58] end.
Lemma sep_delim : forall r, sepnext r -> delim r.
Proof. intros [| c r] H; [exact I |]. cbn in H |- *. lia. Qed.
Lemma sep_clean : forall r, sepnext r -> clean r.
Proof. intros [| c r] H; [exact I |]. cbn in H |- *. lia. Qed.
Lemma ws_encode : forall w, json_ws w -> encode_32 w = w.
Proof. intros w W. apply encode_ascii. eapply Forall_impl; [| exact W]. cbn. lia. Qed.
Lemma ws_delim : forall w r, json_ws w -> delim r -> delim (w ++ r).
Proof. intros [| c w] r W D; [exact D |]. inversion W; subst. cbn. lia. Qed.

(* tokens of a value, of elements, of members *)
Definition pv (ts : list jtok) (v : jv) : Prop := forall s f, (2 * length ts <= f)%nat -> parse_value f (ts ++ s) = POk v s.
Definition starts (ts : list jtok) : Prop := match ts with KVal _ :: _ => True | KSep c :: _ => c = 91 \/ c = 123 | [] => False end.
Definition pa (ts : list jtok) (l : list jv) : Prop :=
  forall s f acc, (2 * length ts + 1 <= f)%nat -> parse_array f (ts ++ KSep 93 :: s) acc = POk (rev acc ++ l) s.
Definition po (ts : list jtok) (l : list (list Z * jv)) : Prop :=
  forall s f obj, (2 * length ts + 1 <= f)%nat -> NoDup (map fst (obj ++ l)) -> parse_object f (ts ++ KSep 125 :: s) obj = POk (obj ++ l) s.
Definition pm (ts : list jtok) (k : list Z) (v : jv) : Prop := exists t, ts = KVal (JStr k) :: KSep 58 :: t /\ pv t v.

Lemma value_pv : forall v, pv [KVal v] v.
Proof. intros v s [| f] L; [cbn in L; lia |]. reflexivity. Qed.
Lemma pa_nil : forall s f acc, (1 <= f)%nat -> parse_array f (KSep 93 :: s) acc = POk (rev acc) s.
Proof. intros s [| f] acc L; [lia |]. reflexivity. Qed.
Lemma po_nil : forall s f obj, (1 <= f)%nat -> parse_object f (KSep 125 :: s) obj = POk obj s.
Proof. intros s [| f] obj L; [lia |]. reflexivity. Qed.
Lemma array_elem : forall ts v s f acc c, starts ts -> pv ts v -> (2 * length ts <= f)%nat ->
  parse_array (S f) (ts ++ KSep c :: s) acc = if c =? 93 then POk (rev (v :: acc)) s else if c =? 44 then parse_array f s (v :: acc) else PThrow.
Proof.
  intros ts v s f acc c ST PV L. cbn [parse_array]. rewrite (PV (KSep c :: s) f L). destruct ts as [| [w | d] ts]; [contradiction | reflexivity |].
  cbn [app]. destruct ST as [-> | ->]; reflexivity.
Qed.
Lemma pa_one : forall ts v, starts ts -> pv ts v -> pa ts [v].
Proof. intros ts v ST PV s f acc L. destruct f as [| f]; [lia |]. rewrite (array_elem ts v s f acc 93 ST PV) by lia. reflexivity. Qed.
Lemma pa_more : forall ts v us l, starts ts -> pv ts v -> pa us l -> pa (ts ++ KSep 44 :: us) (v :: l).
Proof.
  intros ts v us l ST PV PA s f acc L. destruct f as [| f]; [lia |]. rewrite app_length in L. cbn [length] in L. rewrite <- app_assoc. cbn [app].
  rewrite (array_elem ts v _ f acc 44 ST PV) by lia. change (44 =? 93) with false. change (44 =? 44) with true. cbn iota. rewrite PA by lia. cbn [rev]. rewrite <- app_assoc. reflexivity.
Qed.
Lemma pv_array : forall ts l, pa ts l -> pv (KSep 91 :: ts ++ [KSep 93]) (JArr l).
Proof.
  intros ts l PA s f L. destruct f as [| f]; [cbn in L; lia |]. cbn [length] in L. rewrite app_length in L. cbn [length] in L. cbn [app parse_value]. change (91 =? 91) with true. cbn iota.
  rewrite <- app_assoc. cbn [app]. rewrite PA by lia. reflexivity.
Qed.
Lemma upsert_new : forall k v l, ~ In k (map fst l) -> upsert k v l = l ++ [(k, v)].
Proof.
  induction l as [| [k' v'] l IH]; intros N; [reflexivity |]. cbn [upsert map In fst] in *. rewrite zeqb_neq by (intros ->; apply N; left; reflexivity). rewrite IH by tauto. reflexivity.
Qed.
Lemma object_member : forall ts k v s f obj c, pm ts k v -> (2 * length ts <= f)%nat -> ~ In k (map fst obj) ->
  parse_object (S f) (ts ++ KSep c :: s) obj = if c =? 125 then POk (obj ++ [(k, v)]) s else if c =? 44 then parse_object f s (obj ++ [(k, v)]) else PThrow.
Proof.
  intros ts k v s f obj c (t & -> & PV) L N. cbn [app parse_object]. change (58 =? 58) with true. cbn iota. cbn [length] in L. rewrite PV by lia. rewrite upsert_new by exact N. reflexivity.
Qed.
Lemma nodup_mid : forall (obj l : list (list Z * jv)) k v, NoDup (map fst (obj ++ (k, v) :: l)) -> ~ In k (map fst obj) /\ NoDup (map fst ((obj ++ [(k, v)]) ++ l)).
Proof.
  intros obj l k v H. split; [| rewrite <- app_assoc; exact H]. rewrite map_app in H. cbn [map fst] in H. apply NoDup_remove_2 in H. intros I. apply H, in_or_app. left. exact I.
Qed.
Lemma po_one : forall ts k v, pm ts k v -> po ts [(k, v)].
Proof.
  intros ts k v PM s f obj L D. destruct f as [| f]; [lia |]. apply nodup_mid in D. rewrite (object_member ts k v s f obj 125 PM) by (lia || apply D). reflexivity.
Qed.
Lemma po_more : forall ts k v us l, pm ts k v -> po us l -> po (ts ++ KSep 44 :: us) ((k, v) :: l).
Proof.
  intros ts k v us l PM PO s f obj L D. destruct f as [| f]; [lia |]. rewrite app_length in L. cbn [length] in L. rewrite <- app_assoc. cbn [app]. apply nodup_mid in D. destruct D as [D1 D2].
  rewrite (object_member ts k v _ f obj 44 PM) by (lia || exact D1). change (44 =? 125) with false. change (44 =? 44) with true. cbn iota. rewrite PO by (lia || exact D2). rewrite <- app_assoc. reflexivity.
Qed.
Lemma pv_object : forall ts l, po ts l -> NoDup (map fst l) -> pv (KSep 123 :: ts ++ [KSep 125]) (JObj l).
Proof.
  intros ts l PO D s f L. destruct f as [| f]; [cbn in L; lia |]. cbn [length] in L. rewrite app_length in L. cbn [length] in L. cbn [app parse_value]. change (123 =? 91) with false. change (123 =? 123) with true. cbn iota.
  rewrite <- app_assoc. cbn [app]. rewrite PO by (lia || exact D). reflexivity.
Qed.

(* texts and their tokens *)
Definition fresh (s : list Z) : Prop := match s with [] => False | c :: _ => 33 <= c < 127 end.
Lemma fresh_clean : forall s r, fresh s -> clean (s ++ r). Proof. intros [| c s] r H; [contradiction | exact H]. Qed.
Definition vt (s : list Z) (v : jv) : Prop := exists ts, lx delim (encode_32 s) ts /\ pv ts v /\ starts ts /\ fresh (encode_32 s).
Definition et (s : list Z) (l : list jv) : Prop := exists ts, lx sepnext (encode_32 s) ts /\ pa ts l.
Definition mt (s : list Z) (k : list Z) (v : jv) : Prop := exists ts, lx sepnext (encode_32 s) ts /\ pm ts k v.
Definition ot (s : list Z) (l : list (list Z * jv)) : Prop := exists ts, lx sepnext (encode_32 s) ts /\ po ts l.

Lemma lx_value_ws : forall s v w, vt s v -> json_ws w -> exists ts, lx sepnext (encode_32 s ++ w) ts /\ pv ts v /\ starts ts /\ fresh (encode_32 s).
Proof.
  intros s v w (ts & LX & PV & ST & FR) W. exists ts. split; [| auto]. rewrite <- (app_nil_r ts).
  apply lx_app with (P := delim); [exact LX | apply (lx_weak clean); [apply lx_ws; exact W | apply sep_clean] |]. intros r S. apply ws_delim; [exact W | apply sep_delim; exact S].
Qed.
Lemma lx_ws_then : forall w s Q ts, json_ws w -> lx Q s ts -> fresh s -> lx Q (w ++ s) ts.
Proof. intros w s Q ts W LX FR. change ts with ([] ++ ts). apply lx_app with (P := clean); [apply lx_ws; exact W | exact LX |]. intros r _. apply fresh_clean. exact FR. Qed.
Lemma fresh_app : forall s t, fresh s -> fresh (s ++ t). Proof. intros [| c s] t H; [contradiction | exact H]. Qed.
Lemma et_value : forall w1 s v w2, json_ws w1 -> vt s v -> json_ws w2 -> exists ts, lx sepnext (w1 ++ encode_32 s ++ w2) ts /\ pv ts v /\ starts ts.
Proof.
  intros w1 s v w2 W1 V W2. destruct (lx_value_ws s v w2 V W2) as (ts & LX & PV & ST & FR). exists ts. split; [| auto]. apply lx_ws_then; [exact W1 | exact LX | apply fresh_app; exact FR].
Qed.
Lemma quoted_fresh : forall q k, json_quoted q k -> fresh (encode_32 q).
Proof. intros q k [-> _]. rewrite encode_app. cbn. lia. Qed.
Lemma lx_sep_any : forall Q c s ts, json_separator c = true -> lx Q s ts -> lx Q ([c] ++ s) (KSep c :: ts).
Proof. intros Q c s ts S LX. change (KSep c :: ts) with ([KSep c] ++ ts). apply lx_app with (P := any); [apply lx_sep; exact S | exact LX | intros; exact I]. Qed.

Definition all_no_min (l : list jv) : Prop := fold_right (fun v p => no_min v /\ p) True l.
Definition all_no_min2 (l : list (list Z * jv)) : Prop := fold_right (fun q p => no_min (snd q) /\ p) True l.

Scheme json_value_mind := Minimality for json_value Sort Prop
  with json_elements_mind := Minimality for json_elements Sort Prop
  with json_members_mind := Minimality for json_members Sort Prop
  with json_member_mind := Minimality for json_member Sort Prop.

Ltac word := do 2 eexists; split; [reflexivity |]; split; [left; unfold Letter; cbn; lia |]; repeat (apply Forall_cons; [unfold WordChar, Letter; cbn; lia |]); apply Forall_nil.
Lemma value_tokens : forall s v, json_value s v -> no_min v -> vt s v.
Proof.
  apply (json_value_mind (fun s v => no_min v -> vt s v) (fun s l => all_no_min l -> et s l) (fun s l => all_no_min2 l -> ot s l) (fun s k v => no_min v -> mt s k v)).
  - intros _. exists [KVal JVoid]. split; [apply lx_word; [word | cbn; lia | reflexivity | discriminate | discriminate] |].
    split; [apply value_pv | split; [exact I | cbn; lia]].
  - intros _. exists [KVal (JBool true)]. split; [apply lx_word; [word | cbn; lia | reflexivity | discriminate | discriminate] |].
    split; [apply value_pv | split; [exact I | cbn; lia]].
  - intros _. exists [KVal (JBool false)]. split; [apply lx_word; [word | cbn; lia | reflexivity | discriminate | discriminate] |].
    split; [apply value_pv | split; [exact I | cbn; lia]].
  - intros s n U B _. exists [KVal (JInt n)]. rewrite encode_ascii by (eapply Forall_impl; [| exact (proj1 U)]; cbn; lia). split; [apply lx_uint; assumption |].
    split; [apply value_pv | split; [exact I |]]. destruct (uint_pos _ _ U) as (_ & d & t & -> & R). cbn. lia.
  - intros s n U B NM. exists [KVal (JInt (- n))]. cbn in NM. rewrite encode_ascii by (constructor; [lia |]; eapply Forall_impl; [| exact (proj1 U)]; cbn; lia).
    split; [apply lx_neg; [exact U | lia] |]. split; [apply value_pv | split; [exact I | cbn; lia]].
  - intros s cs Q _. exists [KVal (JStr cs)]. split; [apply (lx_weak any); [apply lx_string; exact Q | intros; exact I] |]. split; [apply value_pv | split; [exact I | apply (quoted_fresh s cs); exact Q]].
  - intros w W _. exists [KSep 91; KSep 93]. rewrite !encode_app, (ws_encode w W). change (encode_32 [91]) with [91]. change (encode_32 [93]) with [93]. split; [| split; [| split; [left; reflexivity | cbn; lia]]].
    + apply lx_sep_any; [reflexivity |]. apply lx_ws_then; [exact W | | cbn; lia]. apply (lx_weak any); [apply lx_sep; reflexivity | intros; exact I].
    + apply (pv_array [] []). intros s f acc L. rewrite app_nil_r. apply pa_nil. lia.
  - intros s l _ IH NM. destruct (IH NM) as (ts & LX & PA). exists (KSep 91 :: ts ++ [KSep 93]). rewrite !encode_app. change (encode_32 [91]) with [91]. change (encode_32 [93]) with [93].
    split; [| split; [apply pv_array; exact PA | split; [left; reflexivity | cbn; lia]]]. apply lx_sep_any; [reflexivity |]. apply lx_app with (P := sepnext); [exact LX | | intros; cbn; tauto]. apply (lx_weak any); [apply lx_sep; reflexivity | intros; exact I].
  - intros w W _. exists [KSep 123; KSep 125]. rewrite !encode_app, (ws_encode w W). change (encode_32 [123]) with [123]. change (encode_32 [125]) with [125]. split; [| split; [| split; [right; reflexivity | cbn; lia]]].
    + apply lx_sep_any; [reflexivity |]. apply lx_ws_then; [exact W | | cbn; lia]. apply (lx_weak any); [apply lx_sep; reflexivity | intros; exact I].
    + apply (pv_object [] []); [| constructor]. intros s f obj L D. rewrite app_nil_r. apply po_nil. lia.
  - intros s l _ IH D NM. destruct (IH NM) as (ts & LX & PO). exists (KSep 123 :: ts ++ [KSep 125]). rewrite !encode_app. change (encode_32 [123]) with [123]. change (encode_32 [125]) with [125].
    split; [| split; [apply pv_object; assumption | split; [right; reflexivity | cbn; lia]]]. apply lx_sep_any; [reflexivity |]. apply lx_app with (P := sepnext); [exact LX | | intros; cbn; tauto]. apply (lx_weak any); [apply lx_sep; reflexivity | intros; exact I].
  - intros w1 s v w2 W1 _ IH W2 [NM _]. destruct (et_value w1 s v w2 W1 (IH NM) W2) as (ts & LX & PV & ST). exists ts. rewrite !encode_app, (ws_encode w1 W1), (ws_encode w2 W2). split; [exact LX | apply pa_one; assumption].
  - intros w1 s v w2 t l W1 _ IH W2 _ IHE [NM1 NM2]. destruct (et_value w1 s v w2 W1 (IH NM1) W2) as (ts & LX & PV & ST). destruct (IHE NM2) as (us & LU & PA). exists (ts ++ KSep 44 :: us).
    split; [| apply pa_more; assumption]. rewrite !encode_app, (ws_encode w1 W1), (ws_encode w2 W2). change (encode_32 [44]) with [44].
    replace (w1 ++ encode_32 s ++ w2 ++ [44] ++ encode_32 t) with ((w1 ++ encode_32 s ++ w2) ++ ([44] ++ encode_32 t)) by (rewrite <- !app_assoc; reflexivity).
    apply lx_app with (P := sepnext); [exact LX | apply lx_sep_any; [reflexivity | exact LU] | intros; cbn; tauto].
  - intros s k v _ IH [NM _]. destruct (IH NM) as (ts & LX & PM). exists ts. split; [exact LX | apply po_one; exact PM].
  - intros s k v t l _ IH _ IHM [NM1 NM2]. destruct (IH NM1) as (ts & LX & PM). destruct (IHM NM2) as (us & LU & PO). exists (ts ++ KSep 44 :: us). split; [| apply po_more; assumption].
    rewrite !encode_app. change (encode_32 [44]) with [44]. apply lx_app with (P := sepnext); [exact LX | apply lx_sep_any; [reflexivity | exact LU] | intros; cbn; tauto].
  - intros w1 q k w2 w3 s v w4 W1 Q W2 W3 _ IH W4 NM. destruct (et_value w3 s v w4 W3 (IH NM) W4) as (ts & LX & PV & ST). exists (KVal (JStr k) :: KSep 58 :: ts).
    split; [| exists ts; split; [reflexivity | exact PV]]. rewrite !encode_app, (ws_encode w1 W1), (ws_encode w2 W2), (ws_encode w3 W3), (ws_encode w4 W4). change (encode_32 [58]) with [58].
    apply lx_ws_then; [exact W1 | | apply fresh_app, (quoted_fresh q k); exact Q]. change (KVal (JStr k) :: KSep 58 :: ts) with ([KVal (JStr k)] ++ KSep 58 :: ts).
    apply lx_app with (P := any); [apply lx_string; exact Q | | intros; exact I]. apply lx_ws_then; [exact W2 | | cbn; lia]. apply lx_sep_any; [reflexivity | exact LX].
Qed.

Lemma text_parse : forall s v, json_text s v -> no_min v -> Z.of_nat (length (encode_32 s)) <= 0xFFFF -> parse s = JOk v.
Proof.
  intros s v (w1 & t & w2 & -> & W1 & V & W2) NM L. destruct (et_value w1 t v w2 W1 (value_tokens t v V NM) W2) as (ts & LX & PV & ST).
  unfold parse, parse_bytes. assert (EB : encode_32 (w1 ++ t ++ w2) = w1 ++ encode_32 t ++ w2) by (rewrite !encode_app, (ws_encode w1 W1), (ws_encode w2 W2); reflexivity).
  rewrite EB in *. set (b := w1 ++ encode_32 t ++ w2) in *.
  assert (RB : l_rest (lexer_init b) = b ++ []).
  { rewrite app_nil_r. unfold lexer_init. cbn [l_rest]. assert (N : match b with c :: _ => c < 128 | [] => True end).
    { destruct (value_tokens t v V NM) as (_ & _ & _ & _ & FR). unfold b. destruct w1 as [| c w1]; [| inversion W1; subst; cbn; lia]. cbn [app]. destruct (encode_32 t) as [| c u]; [contradiction |]. cbn in *. lia. }
    destruct b as [| c b']; [reflexivity |]. destruct (Z.eq_dec c 0xEF) as [-> | NE]; [lia |]. clear - NE. destruct c as [| p | p]; try reflexivity. repeat (destruct p; try reflexivity). exfalso. apply NE. reflexivity. }
  destruct (LX (lexer_init b) [] (S (length b)) RB I ltac:(rewrite app_nil_r; exact L) ltac:(rewrite app_nil_r; lia)) as (x1 & f1 & E1 & R1 & F1). rewrite E1.
  destruct f1 as [| f1]; [lia |]. cbn [json_tokens].
  assert (RN : exists t, raw_next x1 = RTok t x1 /\ t_type t = TEof \/ exists x2, raw_next x1 = RTok t x2 /\ t_type t = TEof).
  { destruct (prefetch x1) as [[c b1] x2] eqn:P. destruct (prefetch_eq _ _ _ _ P) as (Eb & Nc & _). rewrite R1 in Eb. subst b1. cbn in Nc. injection Nc as <- R2.
    eexists. right. exists x2. unfold raw_next, next_token, any_token. rewrite P. cbn [bind]. rewrite R1, <- R2. change (len (@nil Z)) with 0. cbn [Z.sub Z.ltb Z.compare]. split; reflexivity. }
  assert (RN2 : exists t x2, raw_next x1 = RTok t x2 /\ t_type t = TEof) by (destruct RN as (tk & [[A B] | (x2 & A & B)]); eauto). destruct RN2 as (tk & x2 & A & B). rewrite A, B.
  unfold addt. cbn [fst snd]. rewrite app_nil_r. unfold parse_tokens. rewrite <- (app_nil_r ts) at 2. rewrite PV by lia. reflexivity.
Qed.
