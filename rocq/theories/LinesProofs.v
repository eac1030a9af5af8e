(** Proofs about reading lines. *)
From Coq Require Import ZArith List Lia Bool ZifyBool.
Import ListNotations.
From Verif Require Import Base ListZ Utf8Spec Utf8Model Utf8Main Utf8Props LinesSpec LinesModel.
Local Open Scope Z_scope.
Ltac Zify.zify_post_hook ::= idtac.

Lemma in_eol_ends : forall c, in_eol c = ends_line c.
Proof. reflexivity. Qed.

Lemma cr_in_eol : in_eol 13 = true.
Proof. reflexivity. Qed.

Lemma lines_plain : forall keep a acc t, forallb (fun c => negb (in_eol c)) a = true ->
  lines keep acc (a ++ t) = lines keep (acc ++ a) t.
Proof.
  intros keep a. induction a as [|c a IH]; intros acc t H.
  - rewrite app_nil_r. reflexivity.
  - cbn [forallb] in H. rewrite andb_true_iff, negb_true_iff in H. destruct H as [H1 H2].
    cbn [app lines].
    destruct (c =? 13) eqn:E; [ apply Z.eqb_eq in E; subst c; rewrite cr_in_eol in H1; discriminate H1 | ].
    rewrite <- in_eol_ends, H1. rewrite IH by exact H2. rewrite <- app_assoc. reflexivity.
Qed.

Lemma scan_none : forall s, scan_eol s = None -> forallb (fun c => negb (in_eol c)) s = true.
Proof.
  induction s as [|c s IH]; cbn [scan_eol forallb]; intros H; [ reflexivity | ].
  destruct (in_eol c); [ discriminate H | ].
  destruct (scan_eol s) as [[[a d] b]|]; [ discriminate H | ]. rewrite IH by reflexivity. reflexivity.
Qed.

Lemma scan_some : forall s a c r, scan_eol s = Some (a, c, r) ->
  s = a ++ c :: r /\ forallb (fun c => negb (in_eol c)) a = true /\ in_eol c = true.
Proof.
  induction s as [|x s IH]; cbn [scan_eol]; intros a c r H; [ discriminate H | ].
  destruct (in_eol x) eqn:E.
  - injection H as <- <- <-. auto.
  - destruct (scan_eol s) as [[[a' d] b]|] eqn:F; [ | discriminate H ].
    injection H as <- <- <-. destruct (IH _ _ _ eq_refl) as (-> & H1 & H2).
    split; [ reflexivity | ]. cbn [forallb]. rewrite E, H1. auto.
Qed.

(** What remains to be done with [prev] and the text [t]. *)
Definition resume (keep : bool) (prev t : list Z) : list (list Z) :=
  if last prev 0 =? 13 then lines keep (removelast prev) (13 :: t) else lines keep prev t.

Lemma last_app_plain : forall a prev, last prev 0 <> 13 ->
  forallb (fun c => negb (in_eol c)) a = true -> last (prev ++ a) 0 <> 13.
Proof.
  intros a prev H H1. destruct a as [|x a] using rev_ind.
  - rewrite app_nil_r. exact H.
  - clear IHa. rewrite app_assoc, last_last. rewrite forallb_app in H1. cbn [forallb] in H1.
    rewrite !andb_true_iff, negb_true_iff in H1. destruct H1 as (_ & H1 & _).
    intros ->. rewrite cr_in_eol in H1. discriminate H1.
Qed.

Lemma resume_ne : forall keep prev t, last prev 0 <> 13 -> resume keep prev t = lines keep prev t.
Proof. intros keep prev t H. unfold resume. apply Z.eqb_neq in H. rewrite H. reflexivity. Qed.

Lemma resume_cr : forall keep prev t, resume keep (prev ++ [13]) t = lines keep prev (13 :: t).
Proof.
  intros keep prev t. unfold resume. rewrite last_last, removelast_last. reflexivity.
Qed.

Lemma lines_cr_lf : forall keep acc t,
  lines keep acc (13 :: 10 :: t) = (if keep then acc ++ [13; 10] else acc) :: lines keep [] t.
Proof. reflexivity. Qed.

Lemma lines_cr : forall keep acc d t, d <> 10 ->
  lines keep acc (13 :: d :: t) = (if keep then acc ++ [13] else acc) :: lines keep [] (d :: t).
Proof.
  intros keep acc d t H. cbn [lines]. change (13 =? 13) with true. cbv iota.
  apply Z.eqb_neq in H. rewrite H. reflexivity.
Qed.

Lemma lines_end : forall keep acc c t, in_eol c = true -> c <> 13 ->
  lines keep acc (c :: t) = (if keep then acc ++ [c] else acc) :: lines keep [] t.
Proof.
  intros keep acc c t H H1. cbn [lines]. apply Z.eqb_neq in H1. rewrite H1, <- in_eol_ends, H. reflexivity.
Qed.

Lemma inner_spec : forall fuel keep s prev ls p, (length s <= fuel)%nat -> last prev 0 <> 13 ->
  inner fuel keep prev s = (ls, p) ->
  forall t, lines keep prev (s ++ t) = ls ++ resume keep p t.
Proof.
  induction fuel as [|k IH]; intros keep s prev ls p Hs Hp H t; cbn [inner] in H.
  - destruct s; [ | cbn [length] in Hs; lia ]. rewrite app_nil_r in H. injection H as <- <-.
    rewrite resume_ne by exact Hp. reflexivity.
  - destruct (scan_eol s) as [[[a c] r]|] eqn:F.
    + apply scan_some in F. destruct F as (-> & Ha & Hc).
      rewrite app_length in Hs. cbn [length] in Hs.
      rewrite <- app_assoc. rewrite lines_plain by exact Ha. cbn [app].
      destruct (c =? 13) eqn:E.
      * apply Z.eqb_eq in E. subst c. destruct r as [|d r].
        -- injection H as <- <-. rewrite app_assoc, resume_cr. reflexivity.
        -- cbn [app]. cbn [length] in Hs. destruct (d =? 10) eqn:E2.
           ++ apply Z.eqb_eq in E2. subst d.
              destruct (inner k keep [] r) as [ls' p'] eqn:F2. injection H as <- <-.
              rewrite lines_cr_lf.
              rewrite (IH keep r [] ls' p' ltac:(lia) ltac:(cbn; lia) F2 t).
              cbn [app]. f_equal. destruct keep; [ rewrite app_assoc | ]; reflexivity.
           ++ apply Z.eqb_neq in E2. rewrite lines_cr by exact E2.
              destruct (inner k keep [] (d :: r)) as [ls' p'] eqn:F2. injection H as <- <-.
              change (d :: r ++ t) with ((d :: r) ++ t).
              rewrite (IH keep (d :: r) [] ls' p' ltac:(cbn [length]; lia) ltac:(cbn; lia) F2 t).
              cbn [app]. f_equal. destruct keep; [ rewrite app_assoc | ]; reflexivity.
      * apply Z.eqb_neq in E. rewrite lines_end by assumption.
        destruct (inner k keep [] r) as [ls' p'] eqn:F2. injection H as <- <-.
        rewrite (IH keep r [] ls' p' ltac:(lia) ltac:(cbn; lia) F2 t).
        cbn [app]. f_equal. destruct keep; [ rewrite app_assoc | ]; reflexivity.
    + injection H as <- <-. apply scan_none in F. rewrite lines_plain by exact F.
      rewrite resume_ne by (apply last_app_plain; assumption). reflexivity.
Qed.

Lemma last_split : forall prev, last prev 0 = 13 -> prev = removelast prev ++ [13].
Proof.
  intros prev H. destruct prev as [|x p]; [ cbn in H; lia | ].
  rewrite (app_removelast_last 0) at 1 by discriminate. rewrite H. reflexivity.
Qed.

Lemma pending_spec : forall keep prev str ls prev1 rest, str <> [] ->
  pending keep prev str = (ls, prev1, rest) ->
  last prev1 0 <> 13 /\ forall t, resume keep prev (str ++ t) = ls ++ lines keep prev1 (rest ++ t).
Proof.
  intros keep prev str ls prev1 rest Hs H. unfold pending in H.
  destruct prev as [|x p] eqn:EP.
  - injection H as <- <- <-. split; [ cbn; lia | ]. intros t. rewrite resume_ne by (cbn; lia). reflexivity.
  - rewrite <- EP in *. clear EP.
    destruct (last prev 0 =? 13) eqn:E.
    + apply Z.eqb_eq in E. pose proof (last_split _ E) as Hprev.
      destruct str as [|d r]; [ congruence | ].
      destruct (d =? 10) eqn:E2.
      * apply Z.eqb_eq in E2. subst d. injection H as <- <- <-. split; [ cbn; lia | ]. intros t.
        rewrite Hprev at 1. rewrite resume_cr. cbn [app]. rewrite lines_cr_lf. f_equal.
        destruct keep; [ | reflexivity ]. rewrite Hprev at 2. rewrite <- app_assoc. reflexivity.
      * apply Z.eqb_neq in E2. injection H as <- <- <-. split; [ cbn; lia | ]. intros t.
        rewrite Hprev at 1. rewrite resume_cr. cbn [app]. rewrite lines_cr by exact E2. f_equal.
        destruct keep; [ | reflexivity ]. symmetry. exact Hprev.
    + apply Z.eqb_neq in E. injection H as <- <- <-. split; [ exact E | ]. intros t.
      rewrite resume_ne by exact E. reflexivity.
Qed.

Lemma pending_end : forall keep prev ls prev1 rest,
  pending keep prev [] = (ls, prev1, rest) ->
  resume keep prev [] = ls ++ match prev1 with [] => [] | _ => [prev1] end.
Proof.
  intros keep prev ls prev1 rest H. unfold pending in H.
  destruct prev as [|x p] eqn:EP.
  - injection H as <- <- <-. reflexivity.
  - rewrite <- EP in *. assert (NE : prev <> []) by (rewrite EP; discriminate). clear EP.
    destruct (last prev 0 =? 13) eqn:E.
    + apply Z.eqb_eq in E. pose proof (last_split _ E) as Hprev. injection H as <- <- <-.
      rewrite Hprev at 1. rewrite resume_cr. cbn [lines app]. change (13 =? 13) with true. cbv iota.
      destruct keep; [ | reflexivity ]. rewrite <- Hprev. reflexivity.
    + apply Z.eqb_neq in E. injection H as <- <- <-. rewrite resume_ne by exact E. reflexivity.
Qed.

Lemma outer_spec : forall keep strs prev, Forall (fun s => s <> []) strs ->
  outer keep prev strs = resume keep prev (concat strs).
Proof.
  intros keep strs. induction strs as [|str strs IH]; intros prev H.
  - cbn [outer concat]. destruct (pending keep prev []) as [[ls prev1] rest] eqn:P.
    symmetry. eapply pending_end. exact P.
  - inversion H as [|x y H1 H2 E1]. subst x y. cbn [outer concat].
    destruct (pending keep prev str) as [[ls prev1] rest] eqn:P.
    destruct (pending_spec _ _ _ _ _ _ H1 P) as [L1' L2'].
    destruct str as [|d r] eqn:ES; [ congruence | ]. rewrite <- ES in *.
    destruct (inner (length rest) keep prev1 rest) as [ls2 prev2] eqn:F.
    rewrite IH by exact H2. rewrite L2'.
    rewrite (inner_spec _ _ _ _ _ _ (le_n _) L1' F). reflexivity.
Qed.

(** * Lines *)

Lemma lines_concat : forall n t acc, (length t <= n)%nat -> concat (lines true acc t) = acc ++ t.
Proof.
  induction n as [|n IH]; intros t acc Hn.
  - destruct t; [ | cbn [length] in Hn; lia ]. cbn [lines]. destruct acc; cbn [concat]; rewrite ?app_nil_r; reflexivity.
  - destruct t as [|c r]; [ cbn [lines]; destruct acc; cbn [concat]; rewrite ?app_nil_r; reflexivity | ].
    cbn [length] in Hn. cbn [lines]. destruct (c =? 13) eqn:E.
    + apply Z.eqb_eq in E. subst c. destruct r as [|d r].
      * cbn [concat]. rewrite app_nil_r. reflexivity.
      * cbn [length] in Hn. destruct (d =? 10) eqn:E2.
        -- apply Z.eqb_eq in E2. subst d. cbn [concat]. rewrite IH by lia. rewrite <- app_assoc. reflexivity.
        -- cbn [concat]. rewrite IH by (cbn [length]; lia). rewrite <- app_assoc. reflexivity.
    + destruct (ends_line c).
      * cbn [concat]. rewrite IH by lia. rewrite <- app_assoc. reflexivity.
      * rewrite IH by lia. rewrite <- app_assoc. reflexivity.
Qed.

Lemma lines_no_end : forall n t acc, (length t <= n)%nat -> Forall (fun c => ends_line c = false) acc ->
  Forall (Forall (fun c => ends_line c = false)) (lines false acc t).
Proof.
  induction n as [|n IH]; intros t acc Hn HA.
  - destruct t; [ | cbn [length] in Hn; lia ]. cbn [lines]. destruct acc; auto.
  - destruct t as [|c r]; [ cbn [lines]; destruct acc; auto | ].
    cbn [length] in Hn. cbn [lines]. destruct (c =? 13) eqn:E.
    + destruct r as [|d r]; [ auto | ].
      cbn [length] in Hn. destruct (d =? 10) eqn:E2; constructor; try exact HA; apply IH; auto; cbn [length]; lia.
    + destruct (ends_line c) eqn:E2; [ constructor; [ exact HA | ] | ]; apply IH; auto; try lia.
      apply Forall_app. auto.
Qed.

(** * Files *)

Lemma to_string_wf : forall addr l cs, Forall is_byte l -> wf_text l cs -> Z.of_nat (length cs) <= 65535 ->
  to_string addr l = Some cs.
Proof.
  intros addr l cs HB W HL. destruct (utf8_well_formed_accepted addr l cs HB W) as (m & G & D).
  unfold to_string. rewrite G, D. destruct (65535 <? Z.of_nat (length cs)) eqn:E; [ lia | reflexivity ].
Qed.

Lemma Forall_firstn : forall (P : Z -> Prop) n l, Forall P l -> Forall P (firstn n l).
Proof.
  intros P n. induction n as [|n IH]; intros l H; [ constructor | ].
  destruct l; [ constructor | ]. inversion H. subst. cbn [firstn]. constructor; auto.
Qed.

Lemma Forall_skipn : forall (P : Z -> Prop) n l, Forall P l -> Forall P (skipn n l).
Proof.
  intros P n. induction n as [|n IH]; intros l H; [ exact H | ].
  destruct l; [ constructor | ]. inversion H. subst. cbn [skipn]. auto.
Qed.

Lemma wf_nil_inv : forall l, wf_text l [] -> l = [].
Proof. intros l H. inversion H. reflexivity. Qed.

Lemma file_loop_spec : forall addr keep gran bytes css,
  chunks (Z.to_nat (chunk_size gran)) bytes css -> Forall is_byte bytes ->
  forall fuel prev, (length bytes < fuel)%nat ->
  file_loop fuel addr keep gran prev bytes = (outer keep prev css, false).
Proof.
  intros addr keep gran bytes css H.
  assert (HN : (0 < Z.to_nat (chunk_size gran))%nat).
  { unfold chunk_size. destruct (gran <=? 0) eqn:E; lia. }
  induction H as [|b cs css NE W HL HC IH]; intros HB fuel prev HF.
  - destruct fuel as [|k]; [ lia | ]. cbn [file_loop]. rewrite firstn_nil.
    replace (to_string addr []) with (Some (@nil Z)) by (symmetry; apply (to_string_wf addr [] []); [ auto | constructor | cbn; lia ]).
    cbn [outer]. destruct (pending keep prev []) as [[ls prev1] rest]. reflexivity.
  - destruct fuel as [|k]; [ lia | ]. cbn [file_loop outer]. cbv zeta.
    rewrite (to_string_wf addr _ cs (Forall_firstn _ _ _ HB) W HL).
    destruct (pending keep prev cs) as [[ls prev1] rest].
    destruct cs as [|c cs'] eqn:EC.
    + apply wf_nil_inv in W. exfalso.
      destruct b; [ congruence | ]. destruct (Z.to_nat (chunk_size gran)); [ lia | discriminate W ].
    + destruct (inner (length rest) keep prev1 rest) as [ls2 prev2].
      rewrite IH; [ reflexivity | apply Forall_skipn; exact HB | ].
      rewrite skipn_length. destruct b; [ congruence | ]. cbn [length] in *. lia.
Qed.

Lemma chunks_nonempty : forall n b css, (0 < n)%nat -> chunks n b css -> Forall (fun s => s <> []) css.
Proof.
  intros n b css Hn H. induction H as [|b cs css NE W HL HC IH]; constructor; [ | exact IH ].
  intros ->. apply wf_nil_inv in W. destruct b; [ congruence | ]. destruct n; [ lia | discriminate W ].
Qed.

Lemma read_lines_chunks : forall addr keep gran bytes css,
  chunks (Z.to_nat (chunk_size gran)) bytes css -> Forall is_byte bytes ->
  read_lines addr keep gran bytes = (lines_of keep (concat css), false).
Proof.
  intros addr keep gran bytes css H HB. unfold read_lines.
  rewrite (file_loop_spec addr keep gran bytes css H HB) by lia.
  rewrite outer_spec.
  - reflexivity.
  - refine (chunks_nonempty _ _ _ _ H). unfold chunk_size. destruct (gran <=? 0) eqn:E; lia.
Qed.

Lemma ascii_wf : forall l, Forall (fun b => 0 <= b <= 127) l -> wf_text l l.
Proof.
  induction 1 as [|b l H1 H2 IH]; [ constructor | ].
  change (b :: l) with ([b] ++ l) at 1. constructor; [ | exact IH ].
  split; [ constructor; lia | ]. split; intros H; discriminate H.
Qed.

Lemma ascii_chunks : forall n, (0 < n)%nat -> Z.of_nat n <= 65535 ->
  forall k bytes, (length bytes <= k)%nat -> Forall (fun b => 0 <= b <= 127) bytes ->
  exists css, chunks n bytes css /\ concat css = bytes.
Proof.
  intros n Hn Hm. induction k as [|k IH]; intros bytes HK HB.
  - destruct bytes; [ | cbn [length] in HK; lia ]. exists []. split; [ constructor | reflexivity ].
  - destruct bytes as [|b r] eqn:EB; [ exists []; split; [ constructor | reflexivity ] | ].
    rewrite <- EB in *. destruct (IH (skipn n bytes)) as (css & C1 & C2).
    + rewrite skipn_length. rewrite EB in *. cbn [length] in *. lia.
    + apply Forall_skipn. exact HB.
    + exists (firstn n bytes :: css). split.
      * constructor; [ rewrite EB; discriminate | apply ascii_wf, Forall_firstn, HB | | exact C1 ].
        rewrite firstn_length. lia.
      * cbn [concat]. rewrite C2. apply firstn_skipn.
Qed.

(** A character which is cut. *)
Lemma text_cut : forall n cs, ~ text false (repeat 97 n ++ [195]) cs.
Proof.
  induction n as [|n IH]; intros cs T; cbn [repeat app] in T.
  - inversion T as [|code bs t cs' L HE T' E| |]; try discriminate.
    inversion L; subst; cbn [app] in E; try discriminate E. injection E. intros. lia.
  - inversion T as [|code bs t cs' L HE T' E| |]; try discriminate.
    inversion L; subst; cbn [app] in E; injection E; intros; subst; try lia.
    apply (IH cs'). congruence.
Qed.

Lemma to_string_cut : forall addr n, to_string addr (repeat 97 n ++ [195]) = None.
Proof.
  intros addr n. unfold to_string.
  assert (HB : Forall is_byte (repeat 97 n ++ [195])).
  { apply Forall_app. split; [ | repeat constructor; unfold is_byte; lia ].
    apply Forall_forall. intros x Hx. apply repeat_spec in Hx. subst x. unfold is_byte. lia. }
  pose proof (utf8_len_decode_agree false addr _ HB) as G.
  destruct (get_len false addr (repeat 97 n ++ [195])) as [[c m]| |]; [ | reflexivity | reflexivity ].
  destruct G as (cs & T & _). exfalso. exact (text_cut _ _ T).
Qed.

Lemma wf_repeat : forall n, wf_text (repeat 97 n ++ [195; 169]) (repeat 97 n ++ [233]).
Proof.
  induction n as [|n IH].
  - change (repeat 97 0 ++ [195; 169]) with ([195; 169] ++ []). constructor; [ | constructor ].
    split; [ exact (L2 195 169 ltac:(lia) ltac:(unfold cont_byte; lia)) | ].
    split; intros H; discriminate H.
  - cbn [repeat app]. change (97 :: repeat 97 n ++ [195; 169]) with ([97] ++ (repeat 97 n ++ [195; 169])).
    constructor; [ | exact IH ]. split; [ constructor; lia | ]. split; intros H; discriminate H.
Qed.

Lemma cut_fails : forall addr keep gran, 
  let n := (Z.to_nat (chunk_size gran) - 1)%nat in
  read_lines addr keep gran (repeat 97 n ++ [195; 169]) = ([], true).
Proof.
  intros addr keep gran n. unfold read_lines. cbn [file_loop]. cbv zeta.
  assert (HN : Z.to_nat (chunk_size gran) = (n + 1)%nat).
  { unfold n, chunk_size. destruct (gran <=? 0) eqn:E; lia. }
  rewrite HN. replace (firstn (n + 1) (repeat 97 n ++ [195; 169])) with (repeat 97 n ++ [195]).
  - rewrite to_string_cut. reflexivity.
  - rewrite firstn_app, repeat_length. rewrite firstn_all2 by (rewrite repeat_length; lia).
    replace (n + 1 - n)%nat with 1%nat by lia. reflexivity.
Qed.

(** * read_line *)

Lemma fgets_spec : forall n bytes got rest, fgets n bytes = (got, rest) ->
  bytes = got ++ rest /\
  ((exists g, got = g ++ [10] /\ first_line bytes = (got, rest)) \/
   (rest = [] /\ (length got < n)%nat /\ first_line bytes = (got, [])) \/
   (length got = n /\ ~ In 10 got /\
    first_line bytes = (got ++ fst (first_line rest), snd (first_line rest)))).
Proof.
  induction n as [|n IH]; intros bytes got rest H; cbn [fgets] in H.
  - injection H as <- <-. split; [ reflexivity | ]. right. right. split; [ reflexivity | ].
    split; [ auto | ]. apply surjective_pairing.
  - destruct bytes as [|b r].
    + injection H as <- <-. split; [ reflexivity | ]. right. left. split; [ reflexivity | ].
      split; [ cbn; lia | reflexivity ].
    + cbn [first_line]. destruct (b =? 10) eqn:E.
      * apply Z.eqb_eq in E. subst b. injection H as <- <-. split; [ reflexivity | ].
        left. exists []. split; reflexivity.
      * apply Z.eqb_neq in E. destruct (fgets n r) as [a q] eqn:F. injection H as <- <-.
        destruct (IH _ _ _ F) as (H1 & [(g & H2 & H3)|[(H2 & H3 & H4)|(H2 & H3 & H4)]]).
        -- split; [ cbn [app]; congruence | ]. left. exists (b :: g). rewrite H3. split; [ rewrite H2; reflexivity | reflexivity ].
        -- split; [ cbn [app]; congruence | ]. right. left. rewrite H4. split; [ exact H2 | ]. split; [ cbn [length]; lia | reflexivity ].
        -- split; [ cbn [app]; congruence | ]. right. right. rewrite H4. split; [ cbn [length]; lia | ].
           split; [ | reflexivity ]. intros [I1|I1]; [ congruence | exact (H3 I1) ].
Qed.

Lemma before_nul_id : forall l, Forall (fun b => b <> 0) l -> before_nul l = l.
Proof.
  induction 1 as [|b l H1 H2 IH]; [ reflexivity | ]. cbn [before_nul].
  apply Z.eqb_neq in H1. rewrite H1, IH. reflexivity.
Qed.

Lemma line_loop_spec : forall fuel reserved done bytes, (0 < reserved)%nat -> (length bytes < fuel)%nat ->
  Forall (fun b => b <> 0 /\ b <> 13) bytes ->
  line_loop fuel reserved done bytes = (done ++ fst (first_line bytes), snd (first_line bytes)).
Proof.
  induction fuel as [|k IH]; intros reserved done bytes HR HF HB; [ lia | ].
  cbn [line_loop]. destruct (fgets reserved bytes) as [got rest] eqn:F.
  destruct (fgets_spec _ _ _ _ F) as (H1 & H2).
  assert (HG : Forall (fun b => b <> 0) got).
  { rewrite H1 in HB. apply Forall_app in HB. destruct HB as [HB _].
    eapply Forall_impl; [ | exact HB ]. intros a [Ha _]. exact Ha. }
  destruct got as [|x got'] eqn:EG.
  - destruct H2 as [(g & H2 & _)|[(H2 & H3 & H4)|(H2 & _)]].
    + destruct g; discriminate H2.
    + rewrite H4. cbn [fst snd]. rewrite app_nil_r. congruence.
    + cbn [length] in H2. lia.
  - rewrite <- EG in *. cbv zeta. rewrite (before_nul_id got HG).
    destruct H2 as [(g & H2 & H3)|[(H2 & H3 & H4)|(H2 & H3 & H4)]].
    + assert (HL : is_eol (last (done ++ got) 0) = true).
      { rewrite H2, app_assoc, last_last. reflexivity. }
      rewrite HL. rewrite andb_false_r. rewrite H3. reflexivity.
    + assert (HL : Nat.eqb (length got) reserved = false) by (apply Nat.eqb_neq; lia).
      rewrite HL, andb_false_r. cbn [andb]. rewrite H4. cbn [fst snd]. congruence.
    + assert (HL : is_eol (last (done ++ got) 0) = false).
      { destruct (exists_last (l := got)) as (g & y & EY); [ rewrite EG; discriminate | ].
        rewrite EY, app_assoc, last_last.
        assert (I1 : In y got) by (rewrite EY; apply in_or_app; right; left; reflexivity).
        rewrite Forall_forall in HB.
        assert (I2 : In y bytes) by (rewrite H1; apply in_or_app; left; exact I1).
        destruct (HB y I2) as [_ N13]. unfold is_eol. apply orb_false_intro; apply Z.eqb_neq; [ | exact N13 ].
        intros ->. exact (H3 I1). }
      rewrite HL. replace (Nat.eqb (length got) 0) with false by (symmetry; apply Nat.eqb_neq; lia).
      replace (Nat.eqb (length got) reserved) with true by (symmetry; apply Nat.eqb_eq; exact H2).
      cbn [negb andb]. rewrite IH; [ | exact HR | | ].
      * rewrite H4. cbn [fst snd]. rewrite app_assoc. reflexivity.
      * rewrite H1, app_length in HF. lia.
      * rewrite H1 in HB. apply Forall_app in HB. apply HB.
Qed.
