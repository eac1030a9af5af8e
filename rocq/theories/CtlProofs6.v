(* Whole functions, and functions without try *)
From Coq Require Import ZArith List Lia Bool ZifyBool.
From Verif Require Import Base ListZ DeadModel DeadSpec DeadProofs DeadProofs2 CtlModel CtlSpec CtlProofs CtlProofs2 CtlProofs3 CtlProofs4 CtlProofs5.
Import ListNotations.
Local Open Scope Z_scope.
Ltac Zify.zify_post_hook ::= idtac.

Section FUN.
Context {V St : Type} (L : lang V St).

Lemma fun_sim n b st o st' : fun_ok b = true -> exec_l L n b st = (o, st') ->
  exists k x, run L (gen_fun b) k (start st) = Some x /\
    match o with
    | OFuel => (pred n <= k)%nat
    | _ => ends_with b o st' x
    end.
Proof.
  intros Hf H. unfold fun_ok in Hf.
  apply andb_prop in Hf as [Hf F4]. apply andb_prop in Hf as [Hf F3]. apply andb_prop in Hf as [F1 F2].
  assert (W : wf top None None None) by (unfold wf; cbn; auto 10).
  assert (Hc : code_at (gen_fun b) 0 (gen_l top 0 b)) by (exists [], []; cbn [app]; rewrite app_nil_r; split; reflexivity).
  destruct (proj1 (proj2 (sim_all L n)) b top 0 (gen_fun b) (fun _ => RVoid) st None None None W Hc F1 o st' H)
    as (k & x & Hk & Hr & P).
  exists k, x. split; [exact Hr|].
  assert (OK : okf_l b) by (repeat eexists; exact F1).
  pose proof (fun q Hq => proj1 (proj2 (not_left L n)) b q st OK Hq) as NL. rewrite H in NL. cbn [fst] in NL.
  destruct o; cbn [post ends_with] in *.
  - destruct P as (rg & -> & _). exists rg. reflexivity.
  - specialize (NL KBreak). destruct (leaves_l KBreak b); [discriminate F2|]. discriminate (NL eq_refl).
  - specialize (NL KCont). destruct (leaves_l KCont b); [discriminate F3|]. discriminate (NL eq_refl).
  - specialize (NL KFall). destruct (leaves_l KFall b); [discriminate F4|]. discriminate (NL eq_refl).
  - exact P.
  - exact P.
  - exact Hk.
Qed.

Lemma len_fun b : len (gen_fun b) = size_l top_sh b.
Proof. unfold gen_fun. rewrite gen_len_l. reflexivity. Qed.

Lemma fetch_end b : fetch (gen_fun b) (size_l top_sh b) = None.
Proof.
  rewrite <- len_fun. unfold fetch. pose proof (len_nonneg _ (gen_fun b)).
  destruct (_ <? 0) eqn:Q; [reflexivity|]. unfold len. rewrite Nat2Z.id. apply nth_error_None. lia.
Qed.

Lemma ends_final b o st' x : ends_with b o st' x -> step L (gen_fun b) x = None.
Proof.
  destruct o; cbn [ends_with]; try contradiction.
  - intros (rg & ->). cbn [step]. rewrite fetch_end. reflexivity.
  - intros ->. reflexivity.
  - intros ->. reflexivity.
Qed.

Lemma run_more C k : forall j a x, run L C k a = Some x -> step L C x = None -> (k < j)%nat -> run L C j a = None.
Proof.
  intros j a x H Hs Hj. replace j with (k + S (j - k - 1))%nat by lia. rewrite (run_app L C k _ a x H).
  cbn [run]. rewrite Hs. reflexivity.
Qed.

Lemma run_less C k : forall j a x, run L C k a = Some x -> (j <= k)%nat -> exists y, run L C j a = Some y.
Proof.
  intros j a x H Hj. destruct (run L C j a) as [y|] eqn:Q; [eauto|]. exfalso.
  revert k a x H Hj Q. induction j as [|j IH]; intros k a x H Hj Q; [discriminate|].
  destruct k as [|k]; [lia|]. cbn [run] in *. destruct (step L C a); [|discriminate]. apply (IH k _ x H); [lia|exact Q].
Qed.

(* a run which stops has the outcome of the statements *)
Lemma fun_stops b st k x : fun_ok b = true -> run L (gen_fun b) k (start st) = Some x ->
  step L (gen_fun b) x = None ->
  exists o st', exec_l L (k + 2) b st = (o, st') /\ ends_with b o st' x.
Proof.
  intros Hf Hr Hs. destruct (exec_l L (k + 2) b st) as [o st'] eqn:Q. exists o, st'. split; [reflexivity|].
  destruct (fun_sim (k + 2) b st o st' Hf Q) as (k' & x' & Hr' & P).
  assert (NF : o <> OFuel).
  { intros ->. pose proof (run_more (gen_fun b) k k' (start st) x Hr Hs ltac:(lia)). congruence. }
  assert (P' : ends_with b o st' x') by (destruct o; try exact P; contradiction).
  pose proof (ends_final _ _ _ _ P') as Hs'.
  assert (k = k') as <-.
  { destruct (Nat.lt_trichotomy k k') as [C|[C|C]]; [|exact C|].
    - pose proof (run_more (gen_fun b) k k' (start st) x Hr Hs C). congruence.
    - pose proof (run_more (gen_fun b) k' k (start st) x' Hr' Hs' C). congruence. }
  congruence.
Qed.
End FUN.

(* ---- functions without try ---- *)

Definition plain (h : shape) : Prop := h_try h = None /\ h_last h = None.
Definition anyq (q : option (option Z)) : Prop := q = None \/ q = Some None.

Lemma plain_loop h : plain h -> plain (in_loop h).
Proof. intros [H1 H2]. unfold plain, in_loop. cbn. rewrite H1. auto. Qed.

Lemma plain_left h q : plain h -> anyq q -> meets q (left_with h) = true.
Proof. intros [H1 H2] [->| ->]; [reflexivity|]. unfold left_with. rewrite H2, H1. reflexivity. Qed.

Lemma no_try_fits :
  (forall s h b cn f, plain h -> anyq b -> anyq cn -> anyq f -> no_try s = true -> fits h b cn f s = true) /\
  (forall l h b cn f, plain h -> anyq b -> anyq cn -> anyq f -> no_try_l l = true -> fits_l h b cn f l = true) /\
  (forall cs h b cn f, plain h -> anyq b -> anyq cn -> anyq f -> no_try_c cs = true -> fits_c h b cn f cs = true).
Proof.
  assert (T : forall h, plain h -> anyq (Some (h_try h))) by (intros h [-> _]; right; reflexivity).
  apply stmt_mutind; intros; cbn [fits fits_l fits_c no_try no_try_l no_try_c] in *; try discriminate; auto using plain_left.
  all: repeat match goal with H : (_ && _) = true |- _ => apply andb_prop in H as [? ?] end.
  all: rewrite ?andb_true_iff, ?orb_true_iff; auto 10 using plain_loop.
Qed.

Lemma no_try_ok b : no_try_l b = true -> leaves_l KBreak b = false -> leaves_l KCont b = false ->
  leaves_l KFall b = false -> fun_ok b = true.
Proof.
  intros H H1 H2 H3. unfold fun_ok. rewrite H1, H2, H3, !andb_true_r.
  apply (proj1 (proj2 no_try_fits)); try (left; reflexivity); [split; reflexivity|exact H].
Qed.
