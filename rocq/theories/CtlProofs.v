(* Proofs about the code of statements: sizes, the machine, jumps which cannot happen *)
From Coq Require Import ZArith List Lia Bool ZifyBool.
From Verif Require Import Base ListZ DeadModel DeadSpec DeadProofs DeadProofs2 CtlModel CtlSpec.
Import ListNotations.
Local Open Scope Z_scope.
Ltac Zify.zify_post_hook ::= idtac.

(* ---- sizes ---- *)

Lemma len_cj op k r t : len (gen_cj op k r t) = cj_size op k.
Proof. destruct k as [b|b|e]; cbn [gen_cj cj_size]; try destruct (Bool.eqb b op); reflexivity. Qed.

Lemma len_ret c r : len (gen_ret c r) = ret_size (c_sh c) r.
Proof. unfold gen_ret, ret_size. destruct (h_ret (c_sh c)) as [q|]; [destruct (r =? q)|]; reflexivity. Qed.

Lemma len_break c t : len (gen_break c t) = break_size (c_sh c).
Proof. unfold gen_break, break_size. destruct (h_last (c_sh c)); reflexivity. Qed.

Lemma len_tests h cs : forall pc, len (gen_tests h cs pc) = num_tests cs.
Proof.
  induction cs as [|t s nx r IH]; intros pc; cbn [gen_tests num_tests]; [reflexivity|].
  rewrite len_app, IH. destruct t; reflexivity.
Qed.

Lemma len_map {A B} (f : A -> B) l : len (map f l) = len l.
Proof. unfold len. rewrite map_length. reflexivity. Qed.

Lemma size_c_cons h t s nx r : size_c h (CCons t s nx r) = case_size h s nx + size_c h r.
Proof. reflexivity. Qed.
Lemma size_cons h s r : size_l h (Cons s r) = size h s + size_l h r.
Proof. reflexivity. Qed.
Lemma gen_cons c pc s r : gen_l c pc (Cons s r) = gen c pc s ++ gen_l c (pc + size (c_sh c) s) r.
Proof. reflexivity. Qed.
Lemma gen_ccons c pc pe t s nx r : gen_c c pc pe (CCons t s nx r) =
  (if is_fall s then []
   else gen {| c_sh := c_sh c; c_hnd := c_hnd c; c_brk := pe; c_cont := c_cont c;
               c_fall := pc + case_size (c_sh c) s nx; c_rpc := c_rpc c |} pc s
        ++ if is_end nx then [IJump pe] else [])
  ++ gen_c c (pc + case_size (c_sh c) s nx) pe r.
Proof. reflexivity. Qed.

(* The general form of switch, and the forms of switch in the code *)
Definition plain_switch (cs : cases) : bool :=
  match cs with CNil => false | CCons None _ _ CNil => false | _ => true end.
Lemma size_switch h e cs : plain_switch cs = true ->
  size h (SSwitch e cs) = 2 + num_tests cs + size_c h cs.
Proof. destruct cs as [|[t|] s nx [|]]; intros H; try discriminate; reflexivity. Qed.
Lemma gen_switch c pc e cs : plain_switch cs = true ->
  gen c pc (SSwitch e cs) =
  [IEval (h_dep (c_sh c)) e] ++ gen_tests (c_sh c) cs (pc + 2 + num_tests cs)
  ++ [IJump (default_pc (c_sh c) cs (pc + 2 + num_tests cs) (pc + 2 + num_tests cs + size_c (c_sh c) cs))]
  ++ gen_c c (pc + 2 + num_tests cs) (pc + 2 + num_tests cs + size_c (c_sh c) cs) cs.
Proof. destruct cs as [|[t|] s nx [|]]; intros H; try discriminate; reflexivity. Qed.

Lemma len_one {A} (x : A) l : len (x :: l) = 1 + len l.
Proof. unfold len. cbn [length]. lia. Qed.
Lemma len_nil0 {A} : len (@nil A) = 0.
Proof. reflexivity. Qed.

Ltac lens := rewrite ?len_app, ?len_one, ?len_nil0, ?len_cj, ?len_ret, ?len_break, ?len_tests, ?len_map.

Lemma gen_len :
  (forall s c pc, len (gen c pc s) = size (c_sh c) s) /\
  (forall b c pc, len (gen_l c pc b) = size_l (c_sh c) b) /\
  (forall cs, (forall c pc pe, len (gen_c c pc pe cs) = size_c (c_sh c) cs) /\
     match cs with CCons _ s _ _ => forall c pc, len (gen c pc s) = size (c_sh c) s | CNil => True end).
Proof.
  apply stmt_mutind; try (intros; cbn [gen size]; lens; reflexivity).
  - intros b IH c pc. apply IH.
  - intros k s1 IH1 s2 IH2 c pc. cbn [gen size]. lens. rewrite IH1. destruct (is_empty s2); cbn [negb opt_size]; lens; [lia|].
    rewrite IH2. lia.
  - intros s IH k c pc. cbn [gen size]. lens. rewrite IH. reflexivity.
  - intros k s IH c pc. cbn [gen size]. destruct (cnd_falsy k); cbn [negb opt_size]; [reflexivity|]. lens. rewrite IH. cbn [c_sh]. lia.
  - intros e nx s IH c pc. cbn [gen size]. lens. rewrite IH. cbn [c_sh]. lia.
  - intros s IH x h IHh c pc. cbn [gen size]. lens. rewrite IH, IHh. cbn [c_sh]. lia.
  - intros s IH d IHd c pc. cbn [gen size]. lens.
    rewrite IH. rewrite !IHd. cbn [c_sh].
    assert (G : forall (q : bool) l n, (q = true -> len l = n) -> len (if q then l else @nil instr) = opt_size q n)
      by (intros [|] l n Hq; cbn [opt_size]; auto).
    rewrite (G _ _ (2 + size (deeper (c_sh c)) d)); [|intros _; lens; rewrite IHd; cbn [c_sh]; lia].
    rewrite (G _ _ (2 + size (deeper (c_sh c)) d)); [|intros _; lens; rewrite IHd; cbn [c_sh]; lia].
    rewrite (G _ _ (2 + size (deeper (c_sh c)) d)); [|intros _; lens; rewrite IHd; cbn [c_sh]; lia].
    rewrite (G _ _ (1 + size (deeper (c_sh c)) d + ret_size (c_sh c) (h_dep (c_sh c))));
      [|intros _; lens; rewrite IHd; cbn [c_sh]; lia].
    lia.
  - intros e cs [IH IHs] c pc. destruct (plain_switch cs) eqn:P.
    + rewrite gen_switch, size_switch by assumption. lens. rewrite IH. lia.
    + destruct cs as [|[t|] s nx [|]]; try discriminate; [reflexivity|].
      cbn [gen size]. destruct (is_fall s); cbn [negb opt_size]; [reflexivity|]. lens. rewrite IHs. reflexivity.
  - intros s IH r IHr c pc. rewrite gen_cons, size_cons. lens. rewrite IH, IHr. reflexivity.
  - split; [reflexivity|exact I].
  - intros t s IH nx r [IHr _]. split; [|exact IH]. intros c pc pe. rewrite gen_ccons, size_c_cons. lens. rewrite IHr.
    unfold case_size. destruct (is_fall s); cbn [negb opt_size]; lens; [reflexivity|]. rewrite IH. cbn [c_sh].
    destruct nx; cbn [is_end opt_size]; lens; reflexivity.
Qed.
Definition gen_len_s := proj1 gen_len.
Definition gen_len_l := proj1 (proj2 gen_len).
Lemma gen_len_c cs c pc pe : len (gen_c c pc pe cs) = size_c (c_sh c) cs.
Proof. apply (proj2 (proj2 gen_len) cs). Qed.

Lemma opt_size_nonneg b n : 0 <= n -> 0 <= opt_size b n.
Proof. destruct b; cbn; lia. Qed.
Lemma size_nonneg h s : 0 <= size h s.
Proof.
  pose proof (gen_len_s s {| c_sh := h; c_hnd := fun _ => 0; c_brk := 0; c_cont := 0; c_fall := 0; c_rpc := 0 |} 0) as H.
  cbn [c_sh] in H. rewrite <- H. apply len_nonneg.
Qed.

(* ---- segments of code ---- *)

Definition code_at (C : list instr) (pc : Z) (l : list instr) : Prop :=
  exists a b, C = a ++ l ++ b /\ len a = pc.

Lemma code_app C pc l1 l2 : code_at C pc (l1 ++ l2) -> code_at C pc l1 /\ code_at C (pc + len l1) l2.
Proof.
  intros (a & b & -> & <-). split.
  - exists a, (l2 ++ b). rewrite <- !app_assoc. auto.
  - exists (a ++ l1), b. rewrite len_app, <- !app_assoc. auto.
Qed.

Lemma code_fetch C pc i l : code_at C pc (i :: l) -> fetch C pc = Some i.
Proof.
  intros (a & b & -> & <-). unfold fetch. pose proof (len_nonneg _ a).
  destruct (len a <? 0) eqn:Q; [lia|]. unfold len. rewrite Nat2Z.id.
  rewrite nth_error_app2 by lia. rewrite Nat.sub_diag. reflexivity.
Qed.

Lemma code_tail C pc i l : code_at C pc (i :: l) -> code_at C (pc + 1) l.
Proof. intros H. apply (code_app C pc [i] l H). Qed.

(* ---- outcomes which cannot happen ---- *)

Section NOT.
Context {V St : Type} (L : lang V St).

Definition is_kind (k : kind) (o : outcome V) : bool :=
  match k, o with
  | KBreak, OBreak | KCont, OCont | KFall, OFall | KRet, ORet _ => true
  | _, _ => false
  end.

Lemma while_kind n c k : forall (body : St -> outcome V * St) st,
  (match k with KFall | KRet => forall st, is_kind k (fst (body st)) = false | _ => True end) ->
  is_kind k (fst (run_while L n c body st)) = false.
Proof.
  induction n as [|n IH]; intros body st H; cbn [run_while]; [destruct k; reflexivity|].
  destruct (ev_cnd L c st) as [[[|] s|? s]|[v s]]; try (destruct k; reflexivity).
  pose proof (H : match k with KFall | KRet => forall st, is_kind k (fst (body st)) = false | _ => True end) as H'.
  destruct (body s) as [o s'] eqn:B.
  assert (Hb : match k with KFall | KRet => is_kind k o = false | _ => True end)
    by (destruct k; auto; specialize (H s); rewrite B in H; exact H).
  destruct o; cbn [fst]; try (apply IH; assumption); try (destruct k; reflexivity); try (destruct k; cbn in *; congruence).
Qed.

Lemma repeat_kind n c k : forall (body : St -> outcome V * St) st,
  (match k with KFall | KRet => forall st, is_kind k (fst (body st)) = false | _ => True end) ->
  is_kind k (fst (run_repeat L n c body st)) = false.
Proof.
  induction n as [|n IH]; intros body st H; cbn [run_repeat]; [destruct k; reflexivity|].
  destruct (body st) as [o s'] eqn:B.
  assert (Hb : match k with KFall | KRet => is_kind k o = false | _ => True end)
    by (destruct k; auto; specialize (H st); rewrite B in H; exact H).
  destruct o; cbn [fst]; try (destruct k; reflexivity); try (destruct k; cbn in *; congruence);
    destruct (ev_cnd L c s') as [[[|] s|? s]|[v s]]; try (destruct k; reflexivity); apply IH; assumption.
Qed.

Lemma ev_all_kind k es : forall st, is_kind k (fst (ev_all L es st)) = false.
Proof.
  induction es as [|e r IH]; intros st; cbn [ev_all]; [destruct k; reflexivity|].
  destruct (l_ev L e st); [apply IH|destruct k; reflexivity].
Qed.

Fixpoint num_cases (cs : cases) : nat :=
  match cs with CNil => O | CCons _ _ _ r => S (num_cases r) end.

Lemma select_range v cs : forall k d (st : St) j st',
  (match d with Some i => (i < k + num_cases cs)%nat | None => True end) ->
  select L v cs k d st = (SelCase j, st') -> (j < k + num_cases cs)%nat.
Proof.
  induction cs as [|t s nx r IH]; intros k d st j st' Hd H; cbn [select num_cases] in *.
  - destruct d as [i|]; [|discriminate]. assert (i = j) as -> by congruence. exact Hd.
  - destruct t as [e|].
    + destruct (l_ev L e st) as [w s'|w s']; [|discriminate].
      destruct (l_eq L v w).
      * assert (k = j) as -> by congruence. lia.
      * apply IH in H; [lia|]. destruct d; [lia|exact I].
    + apply IH in H; [lia|]. lia.
Qed.

(* the premise makes the last cases of nested switches end *)
Definition okf (s : stmt) : Prop := exists h b cn f, fits h b cn f s = true.
Definition okf_l (l : stmts) : Prop := exists h b cn f, fits_l h b cn f l = true.
Definition okf_c (cs : cases) : Prop := exists h b cn f, fits_c h b cn f cs = true.

Lemma not_left n :
  (forall s k st, okf s -> leaves k s = false -> is_kind k (fst (exec L n s st)) = false) /\
  (forall b k st, okf_l b -> leaves_l k b = false -> is_kind k (fst (exec_l L n b st)) = false) /\
  (forall cs, okf_c cs ->
     (forall k j st, k <> KFall -> leaves_c k cs = false -> is_kind k (fst (exec_from L n cs j st)) = false) /\
     (forall j st, last_ok cs = true -> (j < num_cases cs)%nat -> is_kind KFall (fst (exec_from L n cs j st)) = false)).
Proof.
  apply stmt_mutind.
  - intros k st _ _. destruct k; reflexivity.
  - intros e k st _ _. cbn [exec]. destruct (l_ev L e st); destruct k; reflexivity.
  - intros es k st _ _. apply ev_all_kind.
  - intros e k st _ H. cbn [exec]. destruct (l_ev L e st); destruct k; try reflexivity; discriminate.
  - intros e k st _ _. cbn [exec]. destruct (l_ev L e st); destruct k; reflexivity.
  - intros k st _ H. destruct k; try reflexivity; discriminate.
  - intros k st _ H. destruct k; try reflexivity; discriminate.
  - intros k st _ H. destruct k; try reflexivity; discriminate.
  - intros b IH k st Ho H. rewrite exec_scope. apply IH, H. exact Ho.
  - intros c s1 IH1 s2 IH2 k st (h & b & cn & f & Ho) H. cbn [leaves] in H. apply orb_false_iff in H as [H1 H2]. cbn [exec].
    cbn [fits] in Ho. apply andb_prop in Ho as [O1 O2].
    destruct (ev_cnd L c st) as [[[|] s|? s]|[v s]];
      [apply IH1; [repeat eexists; eassumption|assumption]|apply IH2; [repeat eexists; eassumption|assumption]| |]; destruct k; reflexivity.
  - intros s IH c k st (h & b & cn & f & Ho) H. cbn [exec fits] in *. apply repeat_kind. cbn [leaves] in H.
    destruct k; auto; intros st0; (apply IH; [repeat eexists; eassumption|assumption]).
  - intros c s IH k st (h & b & cn & f & Ho) H. cbn [exec leaves fits] in *. destruct (cnd_falsy c) eqn:F.
    + assert (Q : run_while L n c (exec L n s) st = run_while L n c (fun s => (ONormal, s)) st)
        by (apply while_false; assumption).
      rewrite Q. apply while_kind. destruct k; auto.
    + apply while_kind. destruct k; auto; intros st0; (apply IH; [repeat eexists; eassumption|assumption]).
  - intros e nx s IH k st (h & b & cn & f & Ho) H. cbn [exec fits] in *. destruct (l_ev L e st); [|destruct k; reflexivity].
    apply while_kind. cbn [leaves] in H. destruct k; auto; intros st1; (apply IH; [repeat eexists; eassumption|assumption]).
  - intros s IH x hd IHh k st (h & b & cn & f & Ho) H. cbn [leaves fits] in *. apply orb_false_iff in H as [H1 H2]. cbn [exec].
    apply andb_prop in Ho as [O1 O2].
    assert (Q : is_kind k (fst (exec L n s st)) = false) by (apply IH; [repeat eexists; eassumption|assumption]).
    destruct (exec L n s st) as [o s']; destruct o; auto. apply IHh; [repeat eexists; eassumption|assumption].
  - intros s IH d IHd k st (h & b & cn & f & Ho) H. cbn [leaves fits] in *. apply orb_false_iff in H as [H1 H2]. cbn [exec].
    apply andb_prop in Ho as [Ho _]. apply andb_prop in Ho as [Ho _]. apply andb_prop in Ho as [Ho _]. apply andb_prop in Ho as [O1 O2].
    assert (Q : is_kind k (fst (exec L n s st)) = false) by (apply IH; [repeat eexists; eassumption|assumption]).
    destruct (exec L n s st) as [o s'].
    assert (Q' : is_kind k (fst (exec L n d s')) = false) by (apply IHd; [repeat eexists; eassumption|assumption]).
    destruct (exec L n d s') as [o' s''].
    destruct o; try (destruct k; reflexivity); destruct o'; auto.
  - intros e cs IH k st (h & b & cn & f & Ho) H. rewrite exec_switch. cbn [fits leaves] in *. apply andb_prop in Ho as [O1 O2].
    destruct IH as [IH1 IH2]; [repeat eexists; eassumption|].
    destruct (l_ev L e st) as [v s|v s]; [|destruct k; reflexivity].
    destruct (select L v cs 0 None s) as [[j| |x] s1] eqn:Q; try (destruct k; reflexivity).
    apply select_range in Q; [|exact I].
    destruct k.
    + destruct (exec_from L n cs j s1) as [o s2]; destruct o; reflexivity.
    + assert (G : is_kind KCont (fst (exec_from L n cs j s1)) = false) by (apply IH1; [discriminate|assumption]).
      destruct (exec_from L n cs j s1) as [o s2]; destruct o; auto.
    + assert (G : is_kind KFall (fst (exec_from L n cs j s1)) = false) by (apply IH2; [assumption|lia]).
      destruct (exec_from L n cs j s1) as [o s2]; destruct o; auto.
    + assert (G : is_kind KRet (fst (exec_from L n cs j s1)) = false) by (apply IH1; [discriminate|assumption]).
      destruct (exec_from L n cs j s1) as [o s2]; destruct o; auto.
  - intros k st _ _. destruct k; reflexivity.
  - intros s IH r IHr k st (h & b & cn & f & Ho) H. cbn [leaves_l fits_l] in *. apply andb_prop in Ho as [O1 O2].
    apply orb_false_iff in H as [H1 H2]. rewrite exec_cons.
    assert (Q : is_kind k (fst (exec L n s st)) = false) by (apply IH; [repeat eexists; eassumption|assumption]).
    destruct (exec L n s st) as [o s']; destruct o; auto. apply IHr; [repeat eexists; eassumption|assumption].
  - intros _. split; [intros k j st Hk _; destruct k; try reflexivity; contradiction|intros j st _ H; inversion H].
  - intros t s IH nx r IHr (h & b & cn & f & Ho). cbn [fits_c] in Ho. apply andb_prop in Ho as [O1 O2].
    destruct IHr as [IH1 IH2]; [repeat eexists; eassumption|].
    assert (IHs : forall k st, leaves k s = false -> is_kind k (fst (exec L n s st)) = false).
    { intros k st H. destruct (is_fall s) eqn:F; cbn [orb] in O1.
      - destruct s; try discriminate. destruct k; try reflexivity; discriminate.
      - apply IH; [repeat eexists; eassumption|assumption]. }
    split.
    + intros k j st Hk H. cbn [leaves_c] in H. apply orb_false_iff in H as [H1 H2]. rewrite exec_ccons.
      destruct j as [|j]; [|apply IH1; assumption].
      pose proof (IHs k st H1) as Q. destruct (exec L n s st) as [o s'].
      destruct o; auto. destruct nx; auto. 
    + intros j st Hl Hj. rewrite exec_ccons. cbn [num_cases] in Hj.
      destruct r as [|t' s' nx' r'].
      * cbn [last_ok] in Hl. apply andb_prop in Hl as [Hn Hf]. apply negb_true_iff in Hf.
        destruct j as [|j]; [|cbn in Hj; lia].
        pose proof (IHs KFall st Hf) as Q. destruct (exec L n s st) as [o s'].
        destruct nx; try discriminate. destruct o; auto.
      * assert (Hl' : last_ok (CCons t' s' nx' r') = true) by exact Hl.
        destruct j as [|j]; [|apply IH2; [assumption|lia]].
        destruct (exec L n s st) as [o s1]; destruct o; try reflexivity; [destruct nx; try reflexivity|];
          (apply IH2; [assumption|cbn; lia]).
Qed.
End NOT.
