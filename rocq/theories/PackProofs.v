(* pack and unpack: the format string. *)
From Coq Require Import ZArith List Lia Bool ZifyBool.
Import ListNotations.
From Verif Require Import Base ListZ BufferModel PackModel PackSpec.
Local Open Scope Z_scope.

Lemma digit_iff : forall c, is_digit c = true <-> digit c.
Proof. intros c. unfold is_digit, digit. lia. Qed.

Lemma skip_spaces_eq : forall s, skip_spaces s = match s with [] => [] | c :: t => if c =? 32 then skip_spaces t else s end.
Proof. intros [| c [| d t]]; [reflexivity | |]; cbn [skip_spaces]; destruct (c =? 32); reflexivity. Qed.

Lemma skip_spaces_split : forall s, exists sp, spaces sp /\ s = sp ++ skip_spaces s /\
  match skip_spaces s with [] => True | c :: _ => c <> 32 end.
Proof.
  induction s as [| c t IH]; [exists []; repeat split; constructor |].
  rewrite skip_spaces_eq. destruct (Z.eqb_spec c 32).
  - destruct IH as (sp & S1 & S2 & S3). exists (c :: sp). repeat split; [constructor; assumption | | exact S3].
    cbn [app]. f_equal. exact S2.
  - exists []. repeat split; [constructor | assumption].
Qed.

Lemma skip_spaces_app : forall sp s, spaces sp -> match s with [] => True | c :: _ => c <> 32 end -> skip_spaces (sp ++ s) = s.
Proof.
  intros sp s H N. induction H as [| c sp -> H IH]; cbn [app].
  - rewrite skip_spaces_eq. destruct s as [| c t]; [reflexivity |]. destruct (Z.eqb_spec c 32); [contradiction | reflexivity].
  - rewrite skip_spaces_eq. exact IH.
Qed.

(* the digits at the begin *)
Fixpoint digits (s : list Z) : list Z * list Z :=
  match s with
  | [] => ([], [])
  | c :: t => if is_digit c then let (d, r) := digits t in (c :: d, r) else ([], s)
  end.

Lemma digits_spec : forall s d r, digits s = (d, r) -> s = d ++ r /\ Forall digit d /\ no_digit r.
Proof.
  induction s as [| c t IH]; intros d r H; cbn [digits] in H.
  - apply pair_equal_spec in H. destruct H as [<- <-]. repeat split; constructor.
  - destruct (is_digit c) eqn:D.
    + destruct (digits t) as [d1 r1]. apply pair_equal_spec in H. destruct H as [<- <-].
      destruct (IH d1 r1 eq_refl) as (E & F & N). repeat split; [cbn [app]; f_equal; exact E | | exact N].
      constructor; [apply digit_iff; exact D | exact F].
    + apply pair_equal_spec in H. destruct H as [<- <-]. repeat split; [constructor |].
      cbn [no_digit]. rewrite <- digit_iff. congruence.
Qed.

Lemma digits_app : forall d r, Forall digit d -> no_digit r -> digits (d ++ r) = (d, r).
Proof.
  intros d r F N. induction F as [| c d H F IH]; cbn [app digits].
  - destruct r as [| c t]; [reflexivity |]. cbn [digits]. cbn [no_digit] in N.
    rewrite <- digit_iff in N. destruct (is_digit c); [congruence | reflexivity].
  - apply digit_iff in H. rewrite H, IH. reflexivity.
Qed.

Definition dec_from (n : Z) (s : list Z) : Z := fold_left (fun n c => n * 10 + (c - 48)) s n.

Lemma dec_from_ge : forall s n, Forall digit s -> 0 <= n -> n <= dec_from n s.
Proof.
  induction s as [| c t IH]; intros n F H; [cbn; lia |].
  inversion F as [| ? ? D F']; subst. unfold digit in D. cbn [dec_from fold_left].
  change (n <= dec_from (n * 10 + (c - 48)) t). specialize (IH (n * 10 + (c - 48)) F' ltac:(lia)). lia.
Qed.

Lemma get_count_loop_spec : forall s n d r, 0 <= n <= 4294967289 -> digits s = (d, r) ->
  if dec_from n d <=? 4294967289 then get_count_loop s n = (dec_from n d, r) else fst (get_count_loop s n) = NOSIZE.
Proof.
  induction s as [| c t IH]; intros n d r H E; cbn [digits] in E.
  - apply pair_equal_spec in E. destruct E as [<- <-]. cbn [dec_from fold_left get_count_loop].
    destruct (Z.leb_spec n 4294967289); [reflexivity | lia].
  - cbn [get_count_loop]. destruct (is_digit c) eqn:D; cbn [negb].
    + destruct (digits t) as [d1 r1] eqn:DE. apply pair_equal_spec in E. destruct E as [<- <-].
      destruct (digits_spec t d1 r1 DE) as (_ & F1 & _). cbn [dec_from fold_left]. change (fold_left _ d1 ?x) with (dec_from x d1).
      apply digit_iff in D. unfold digit in D.
      destruct (Z.leb_spec 429496729 n).
      * pose proof (dec_from_ge d1 (n * 10 + (c - 48)) F1 ltac:(lia)).
        destruct (Z.leb_spec (dec_from (n * 10 + (c - 48)) d1) 4294967289); [lia | reflexivity].
      * replace (u32 (n * 10 + (c - 48))) with (n * 10 + (c - 48)); [apply IH; [lia | reflexivity] |].
        unfold u32, uwrap. change (2 ^ 32) with 4294967296. rewrite Z.mod_small; lia.
    + apply pair_equal_spec in E. destruct E as [<- <-]. cbn [dec_from fold_left].
      destruct (Z.leb_spec n 4294967289); [reflexivity | lia].
Qed.

Lemma decimal_cons : forall c d, decimal (c :: d) = dec_from (c - 48) d.
Proof. intros. reflexivity. Qed.

Lemma get_count_number : forall ds n r, number ds n -> no_digit r -> get_count (ds ++ r) = (n, r).
Proof.
  intros ds n r (NE & F & E & L) N. destruct ds as [| c d]; [contradiction |].
  inversion F as [| ? ? D F']; subst. cbn [app get_count]. rewrite decimal_cons in L |- *.
  unfold digit in D.
  pose proof (get_count_loop_spec (d ++ r) (c - 48) d r ltac:(lia) (digits_app d r F' N)) as H.
  destruct (Z.leb_spec (dec_from (c - 48) d) 4294967289); [exact H | lia].
Qed.

Lemma get_count_inv : forall s n r, get_count s = (n, r) -> n <> NOSIZE ->
  match s with c :: _ => is_digit c = true | [] => True end ->
  exists ds, number ds n /\ s = ds ++ r /\ no_digit r.
Proof.
  intros s n r G NE D. destruct s as [| c t]; [cbn [get_count] in G; apply pair_equal_spec in G; destruct G; congruence |].
  cbn [get_count] in G. apply digit_iff in D. destruct (digits t) as [d r1] eqn:DE.
  destruct (digits_spec t d r1 DE) as (E1 & F1 & N1).
  pose proof (get_count_loop_spec t (c - 48) d r1 ltac:(unfold digit in D; lia) DE) as H.
  destruct (Z.leb_spec (dec_from (c - 48) d) 4294967289).
  - rewrite H in G. apply pair_equal_spec in G. destruct G as [<- <-].
    exists (c :: d). split; [| split; [cbn [app]; f_equal; exact E1 | exact N1]].
    split; [discriminate |]. split; [constructor; assumption |]. split; [apply decimal_cons | assumption].
  - rewrite G in H. cbn [fst] in H. congruence.
Qed.

Lemma number_bound : forall ds n, number ds n -> 0 <= n <= 4294967289.
Proof.
  intros ds n (NE & F & E & L). split; [| exact L]. subst n. unfold decimal. apply (dec_from_ge ds 0 F). lia.
Qed.

Lemma number_head : forall ds n, number ds n -> exists c t, ds = c :: t /\ digit c.
Proof.
  intros ds n (NE & F & _). destruct ds as [| c t]; [contradiction |]. inversion F; subst. eauto.
Qed.

Lemma spaces_no_digit : forall sp c r, spaces sp -> ~ digit c -> no_digit (sp ++ c :: r).
Proof.
  intros sp c r S N. destruct S as [| x sp -> S]; [exact N |]. cbn [app no_digit]. unfold digit. lia.
Qed.

Lemma read_count_prefix : forall pre n c r, count_prefix pre n -> ~ digit c -> c <> 32 ->
  read_count (pre ++ c :: r) = Some (n, c :: r).
Proof.
  intros pre n c r P N S. destruct P as [| ds n sp H SP].
  - cbn [app read_count]. rewrite <- digit_iff in N. destruct (is_digit c); [congruence | reflexivity].
  - rewrite <- app_assoc. destruct (number_head ds n H) as (x & t & E & D).
    pose proof (get_count_number ds n (sp ++ c :: r) H (spaces_no_digit sp c r SP N)) as G.
    pose proof (number_bound ds n H).
    rewrite E in *. cbn [app] in *. unfold read_count. apply digit_iff in D. rewrite D.
    change (x :: t ++ sp ++ c :: r) with (x :: (t ++ sp ++ c :: r)) in G. rewrite G.
    destruct (Z.eqb_spec n NOSIZE); [unfold NOSIZE in *; lia |].
    rewrite skip_spaces_app by assumption. reflexivity.
Qed.

Lemma read_count_inv : forall s n s2, match s with [] => False | c :: _ => c <> 32 end ->
  read_count s = Some (n, s2) ->
  exists pre, count_prefix pre n /\ s = pre ++ s2 /\ s2 <> [].
Proof.
  intros s n s2 NS H. destruct s as [| c t]; [contradiction |]. unfold read_count in H.
  destruct (is_digit c) eqn:D.
  - destruct (get_count (c :: t)) as [k r] eqn:G. destruct (Z.eqb_spec k NOSIZE); [discriminate |].
    destruct (get_count_inv (c :: t) k r G ltac:(assumption) D) as (ds & HN & E & ND).
    destruct (skip_spaces_split r) as (sp & SP & ER & NS2).
    destruct (skip_spaces r) as [| x y] eqn:SS; [discriminate |].
    assert (k = n /\ x :: y = s2) as [-> <-] by (split; congruence).
    exists (ds ++ sp). split; [constructor; assumption |]. split; [| discriminate].
    rewrite <- app_assoc, <- ER. exact E.
  - assert (1 = n /\ c :: t = s2) as [<- <-] by (split; congruence).
    exists []. repeat split; [constructor | discriminate].
Qed.

Lemma prefix_head : forall pre n c r, count_prefix pre n -> c <> 32 ->
  match pre ++ c :: r with [] => True | x :: _ => x <> 32 end.
Proof.
  intros pre n c r P N. destruct P as [| ds n sp H SP]; [exact N |].
  destruct (number_head ds n H) as (x & t & -> & D). cbn [app]. unfold digit in D. lia.
Qed.

Lemma read_size_number : forall c num n r, number num n -> no_digit r -> read_size c (num ++ r) = Some (n, r).
Proof.
  intros c num n r H N. pose proof (get_count_number num n r H N) as G. pose proof (number_bound num n H).
  destruct (number_head num n H) as (x & t & -> & D). cbn [app] in *. unfold read_size.
  apply digit_iff in D. rewrite D, G. destruct (Z.eqb_spec n NOSIZE); [unfold NOSIZE in *; lia | reflexivity].
Qed.

Lemma read_size_inv : forall c s n r, read_size c s = Some (n, r) ->
  (exists num, number num n /\ s = num ++ r /\ no_digit r) \/ (c = 115 /\ n = NOSIZE /\ s = r /\ no_digit r).
Proof.
  intros c s n r H. destruct s as [| d t]; cbn [read_size] in H.
  - destruct (Z.eqb_spec c 115); [| discriminate]. right.
    assert (NOSIZE = n /\ [] = r) as [<- <-] by (split; congruence). repeat split; assumption.
  - unfold read_size in H. destruct (is_digit d) eqn:D.
    + destruct (get_count (d :: t)) as [k r1] eqn:G. destruct (Z.eqb_spec k NOSIZE); [discriminate |].
      assert (k = n /\ r1 = r) as [-> ->] by (split; congruence).
      left. apply (get_count_inv (d :: t) n r G); assumption.
    + destruct (Z.eqb_spec c 115); [| discriminate]. right.
      assert (NOSIZE = n /\ d :: t = r) as [<- <-] by (split; congruence). repeat split; try assumption.
      cbn [no_digit]. rewrite <- digit_iff. congruence.
Qed.

Lemma read_size_none : forall r, no_digit r -> read_size 115 r = Some (NOSIZE, r).
Proof.
  intros [| d t] N; [reflexivity |]. unfold read_size. cbn [no_digit] in N. rewrite <- digit_iff in N.
  destruct (is_digit d); [congruence | reflexivity].
Qed.

(* the directives at the begin, and whether the whole string was understood *)
Fixpoint parse (fuel : nat) (big : bool) (s : list Z) : list dir * bool :=
  match s with
  | [] => ([], true)
  | _ =>
    match fuel with
    | O => ([], false)
    | Datatypes.S fuel' =>
      match skip_spaces s with
      | [] => ([], true)
      | s1 =>
        match read_count s1 with
        | None => ([], false)
        | Some (count, s2) =>
          match s2 with
          | [] => ([], false)
          | c :: t =>
            if c =? 60 then parse fuel' false t
            else if c =? 62 then parse fuel' true t
            else
              let rs := if c =? 120 then Some (1, t)
                        else if (c =? 117) || (c =? 105) || (c =? 102) || (c =? 98) || (c =? 115) then read_size c t
                        else None in
              match rs with
              | None => ([], false)
              | Some (size, r) =>
                  let (ds, ok) := parse fuel' big r in
                  (mkdir big c (if size =? NOSIZE then None else Some size) count :: ds, ok)
              end
          end
        end
      end
    end
  end.

Definition size_num (d : dir) : Z := match d_size d with Some n => n | None => NOSIZE end.

Fixpoint run_dirs {St : Type} (handler : St -> bool -> Z -> Z -> Z -> pres St St) (ds : list dir) (st : St) : pres St St :=
  match ds with
  | [] => POk st
  | d :: r =>
      match handler st (d_big d) (d_chr d) (size_num d) (d_count d) with
      | POk st' => run_dirs handler r st'
      | e => e
      end
  end.

Lemma sized_in : forall c, (c =? 117) || (c =? 105) || (c =? 102) || (c =? 98) || (c =? 115) = true <-> In c sized_chars.
Proof. intros c. unfold sized_chars. cbn [In]. lia. Qed.

Lemma shorter : forall (s sp s1 pre s2 t : list Z) (c : Z), s = sp ++ s1 -> s1 = pre ++ s2 -> s2 = c :: t -> (length t < length s)%nat.
Proof. intros; subst. rewrite !app_length. cbn [length]. lia. Qed.

Lemma parse_format : forall fuel big s, (length s <= fuel)%nat ->
  snd (parse fuel big s) = true -> format big s (fst (parse fuel big s)).
Proof.
  induction fuel as [| fuel IH]; intros big s L H.
  - destruct s; [apply F_end; constructor | cbn [length] in L; lia].
  - destruct s as [| c0 s0] eqn:ES; [apply F_end; constructor |]. rewrite <- ES in *.
    destruct (skip_spaces_split s) as (sp & SP & E1 & NS).
    assert (PE : parse (Datatypes.S fuel) big s = match skip_spaces s with
      | [] => ([], true)
      | s1 => match read_count s1 with
        | None => ([], false)
        | Some (count, s2) =>
          match s2 with
          | [] => ([], false)
          | c :: t =>
            if c =? 60 then parse fuel false t
            else if c =? 62 then parse fuel true t
            else
              match (if c =? 120 then Some (1, t)
                        else if (c =? 117) || (c =? 105) || (c =? 102) || (c =? 98) || (c =? 115) then read_size c t
                        else None) with
              | None => ([], false)
              | Some (size, r) =>
                  let (ds, ok) := parse fuel big r in
                  (mkdir big c (if size =? NOSIZE then None else Some size) count :: ds, ok)
              end
          end
        end end) by (rewrite ES; reflexivity).
    rewrite PE in *. clear PE ES c0 s0.
    destruct (skip_spaces s) as [| c1 s1'] eqn:SS; [rewrite E1, app_nil_r; apply F_end; exact SP |].
    set (s1 := c1 :: s1') in *.
    destruct (read_count s1) as [[n s2] |] eqn:RC; [| discriminate].
    destruct (read_count_inv s1 n s2 NS RC) as (pre & CP & E2 & _).
    destruct s2 as [| c t] eqn:ES2; [discriminate |].
    assert (LT : (length t <= fuel)%nat) by (pose proof (shorter s sp s1 pre (c :: t) t c E1 E2 eq_refl); lia).
    destruct (Z.eqb_spec c 60) as [-> |]; [rewrite E1, E2; eapply F_little; eauto |].
    destruct (Z.eqb_spec c 62) as [-> |]; [rewrite E1, E2; eapply F_big; eauto |].
    destruct (Z.eqb_spec c 120) as [-> |].
    + pose proof (IH big t LT) as IH1. destruct (parse fuel big t) as [ds ok].
      cbn [fst snd] in *. rewrite E1, E2. change (1 =? NOSIZE) with false. apply F_pad with (n := n); auto.
    + destruct ((c =? 117) || (c =? 105) || (c =? 102) || (c =? 98) || (c =? 115)) eqn:SC; [| discriminate].
      apply sized_in in SC.
      destruct (read_size c t) as [[size r] |] eqn:RS; [| discriminate].
      destruct (read_size_inv c t size r RS) as [(num & HN & E3 & ND) | (E3 & E4 & E5 & ND)].
      * assert (LR : (length r <= fuel)%nat) by (rewrite E3, app_length in LT; lia).
        pose proof (IH big r LR) as IH1. destruct (parse fuel big r) as [ds ok]. cbn [fst snd] in *.
        pose proof (number_bound num size HN). destruct (Z.eqb_spec size NOSIZE); [unfold NOSIZE in *; lia |].
        rewrite E1, E2, E3. apply F_sized; auto.
      * subst c size t. pose proof (IH big r LT) as IH1. destruct (parse fuel big r) as [ds ok]. cbn [fst snd] in *.
        rewrite E1, E2. rewrite Z.eqb_refl. apply F_string; auto.
Qed.

Lemma app_cons_ne : forall (sp : list Z) c r, sp ++ c :: r <> [].
Proof. intros sp c r H. destruct sp; discriminate. Qed.

Lemma format_parse : forall big s ds, format big s ds -> forall fuel, (length s <= fuel)%nat ->
  parse fuel big s = (ds, true).
Proof.
  assert (STEP : forall fuel big sp pre n c t, spaces sp -> count_prefix pre n -> ~ digit c -> c <> 32 ->
    (length (sp ++ pre ++ c :: t) <= fuel)%nat ->
    parse fuel big (sp ++ pre ++ c :: t) =
      match fuel with O => ([], false) | Datatypes.S fuel =>
            if c =? 60 then parse fuel false t
            else if c =? 62 then parse fuel true t
            else
              match (if c =? 120 then Some (1, t)
                        else if (c =? 117) || (c =? 105) || (c =? 102) || (c =? 98) || (c =? 115) then read_size c t
                        else None) with
              | None => ([], false)
              | Some (size, r) =>
                  let (ds, ok) := parse fuel big r in
                  (mkdir big c (if size =? NOSIZE then None else Some size) n :: ds, ok)
              end end).
  { intros fuel big sp pre n c t SP CP ND NS L.
    pose proof (prefix_head pre n c t CP NS) as PH.
    pose proof (skip_spaces_app sp (pre ++ c :: t) SP PH) as SS.
    pose proof (read_count_prefix pre n c t CP ND NS) as RC.
    destruct (sp ++ pre ++ c :: t) as [| x y] eqn:EX.
    - exfalso. apply (f_equal (@length Z)) in EX. rewrite !app_length in EX. cbn [length] in EX. lia.
    - destruct fuel as [| fuel]; [cbn [length] in L; lia |].
      cbn [parse]. rewrite SS. destruct (pre ++ c :: t) as [| u v] eqn:EU.
      + exfalso. apply (f_equal (@length Z)) in EU. rewrite !app_length in EU. cbn [length] in EU. lia.
      + rewrite RC. reflexivity. }
  assert (LEN : forall (sp pre : list Z) c t fuel, (length (sp ++ pre ++ c :: t) <= Datatypes.S fuel)%nat -> (length t <= fuel)%nat).
  { intros. rewrite !app_length in H. cbn [length] in H. lia. }
  intros big s ds F. induction F as [big sp SP | big sp pre n r ds SP CP F IH | big sp pre n r ds SP CP F IH
    | big sp pre n r ds SP CP F IH | big sp pre n c num size r ds SP CP IN HN ND F IH | big sp pre n r ds SP CP ND F IH]; intros fuel L.
  - destruct sp as [| c sp']; [destruct fuel; reflexivity |]. destruct fuel as [| fuel]; [cbn [length] in L; lia |].
    cbn [parse]. pose proof (skip_spaces_app (c :: sp') [] SP Logic.I) as SS. rewrite app_nil_r in SS. rewrite SS. reflexivity.
  - rewrite (STEP fuel big sp pre n 60 r); try assumption; try (unfold digit; lia).
    destruct fuel as [| fuel]; [rewrite !app_length in L; cbn [length] in L; lia |]. apply IH. eapply LEN; exact L.
  - rewrite (STEP fuel big sp pre n 62 r); try assumption; try (unfold digit; lia).
    destruct fuel as [| fuel]; [rewrite !app_length in L; cbn [length] in L; lia |]. apply IH. eapply LEN; exact L.
  - rewrite (STEP fuel big sp pre n 120 r); try assumption; try (unfold digit; lia).
    destruct fuel as [| fuel]; [rewrite !app_length in L; cbn [length] in L; lia |].
    change (120 =? 60) with false. change (120 =? 62) with false. change (120 =? 120) with true. cbv iota.
    rewrite IH by (eapply LEN; exact L). reflexivity.
  - assert (C : c = 117 \/ c = 105 \/ c = 102 \/ c = 98 \/ c = 115) by (cbn [In sized_chars] in IN; lia).
    rewrite (STEP fuel big sp pre n c (num ++ r)); try assumption; try (unfold digit; lia).
    destruct fuel as [| fuel]; [rewrite !app_length in L; cbn [length] in L; lia |].
    destruct (Z.eqb_spec c 60); [lia |]. destruct (Z.eqb_spec c 62); [lia |]. destruct (Z.eqb_spec c 120); [lia |].
    apply sized_in in IN. rewrite IN, (read_size_number c num size r HN ND).
    rewrite IH by (apply LEN in L; rewrite app_length in L; lia).
    pose proof (number_bound num size HN). destruct (Z.eqb_spec size NOSIZE); [unfold NOSIZE in *; lia | reflexivity].
  - rewrite (STEP fuel big sp pre n 115 r); try assumption; try (unfold digit; lia).
    destruct fuel as [| fuel]; [rewrite !app_length in L; cbn [length] in L; lia |].
    change (115 =? 60) with false. change (115 =? 62) with false. change (115 =? 120) with false.
    change ((115 =? 117) || (115 =? 105) || (115 =? 102) || (115 =? 98) || (115 =? 115)) with true. cbv iota.
    rewrite (read_size_none r ND). rewrite IH by (eapply LEN; exact L). reflexivity.
Qed.

Lemma process_parse : forall (St : Type) (h : St -> bool -> Z -> Z -> Z -> pres St St) fuel big s st,
  (length s <= fuel)%nat ->
  process_pack_format h fuel s big st =
  match run_dirs h (fst (parse fuel big s)) st with
  | POk st' => if snd (parse fuel big s) then POk st' else PExn st'
  | e => e
  end.
Proof.
  induction fuel as [| fuel IH]; intros big s st L.
  - destruct s; [reflexivity | cbn [length] in L; lia].
  - destruct s as [| c0 s0] eqn:ES; [reflexivity |]. cbn [process_pack_format parse]. rewrite <- ES in *.
    destruct (skip_spaces_split s) as (sp & SP & E1 & NS).
    destruct (skip_spaces s) as [| c1 s1'] eqn:SS; [reflexivity |].
    set (s1 := c1 :: s1') in *. clear ES.
    destruct (read_count s1) as [[n s2] |] eqn:RC; [| reflexivity].
    destruct (read_count_inv s1 n s2 NS RC) as (pre & CP & E2 & NE).
    destruct s2 as [| c t] eqn:ES2; [contradiction |].
    assert (LT : (length t <= fuel)%nat) by (pose proof (shorter s sp s1 pre (c :: t) t c E1 E2 eq_refl); lia).
    destruct (c =? 60); [apply IH; exact LT |]. destruct (c =? 62); [apply IH; exact LT |].
    cbv zeta.
    destruct (if c =? 120 then Some (1, t)
              else if (c =? 117) || (c =? 105) || (c =? 102) || (c =? 98) || (c =? 115) then read_size c t
              else None) as [[size r] |] eqn:RS; [| reflexivity].
    assert (LR : (length r <= fuel)%nat).
    { destruct (c =? 120); [assert (t = r) as <- by congruence; exact LT |].
      destruct ((c =? 117) || (c =? 105) || (c =? 102) || (c =? 98) || (c =? 115)); [| discriminate].
      destruct (read_size_inv c t size r RS) as [(num & _ & E3 & _) | (_ & _ & E3 & _)].
      - rewrite E3, app_length in LT. lia.
      - rewrite <- E3. exact LT. }
    specialize (IH big r). destruct (parse fuel big r) as [ds ok]. cbn [fst snd run_dirs d_big d_chr d_count size_num d_size] in *.
    assert (SZ : size_num (mkdir big c (if size =? NOSIZE then None else Some size) n) = size).
    { unfold size_num. cbn [d_size]. destruct (Z.eqb_spec size NOSIZE); congruence. }
    rewrite SZ. destruct (h st big c size n) as [st' | st' |]; [apply IH; exact LR | reflexivity | reflexivity].
Qed.

(* facts about directives of a format *)
Definition dir_wf (d : dir) : Prop :=
  0 <= d_count d <= 4294967289 /\
  match d_size d with
  | None => d_chr d = 115
  | Some n => 0 <= n <= 4294967289 /\ (d_chr d = 120 /\ n = 1 \/ In (d_chr d) sized_chars)
  end.

Lemma count_bound : forall pre n, count_prefix pre n -> 0 <= n <= 4294967289.
Proof. intros pre n [| ds k sp H _]; [lia | apply (number_bound ds k H)]. Qed.

Lemma parse_wf : forall fuel big s, (length s <= fuel)%nat -> Forall dir_wf (fst (parse fuel big s)).
Proof.
  induction fuel as [| fuel IH]; intros big s L.
  - destruct s; [constructor | cbn [length] in L; lia].
  - destruct s as [| c0 s0] eqn:ES; [constructor |]. cbn [parse]. rewrite <- ES in *.
    destruct (skip_spaces_split s) as (sp & SP & E1 & NS).
    destruct (skip_spaces s) as [| c1 s1'] eqn:SS; [constructor |].
    set (s1 := c1 :: s1') in *. clear ES.
    destruct (read_count s1) as [[n s2] |] eqn:RC; [| constructor].
    destruct (read_count_inv s1 n s2 NS RC) as (pre & CP & E2 & NE).
    destruct s2 as [| c t] eqn:ES2; [contradiction |].
    assert (LT : (length t <= fuel)%nat) by (pose proof (shorter s sp s1 pre (c :: t) t c E1 E2 eq_refl); lia).
    destruct (c =? 60); [apply IH; exact LT |]. destruct (c =? 62); [apply IH; exact LT |].
    cbv zeta. pose proof (count_bound pre n CP).
    destruct (Z.eqb_spec c 120) as [-> | N120].
    { specialize (IH big t LT). destruct (parse fuel big t) as [ds ok]. cbn [fst] in *.
      change (1 =? NOSIZE) with false. constructor; [| exact IH]. split; cbn [d_count d_size d_chr]; [lia |]. split; [lia | auto]. }
    destruct ((c =? 117) || (c =? 105) || (c =? 102) || (c =? 98) || (c =? 115)) eqn:SC; [| constructor].
    destruct (read_size c t) as [[size r] |] eqn:RS; [| constructor].
    destruct (read_size_inv c t size r RS) as [(num & HN & E3 & _) | (C & EN & E3 & _)].
    + assert (LR : (length r <= fuel)%nat) by (rewrite E3, app_length in LT; lia).
      specialize (IH big r LR). destruct (parse fuel big r) as [ds ok]. cbn [fst] in *.
      pose proof (number_bound num size HN). destruct (Z.eqb_spec size NOSIZE); [unfold NOSIZE in *; lia |].
      constructor; [| exact IH]. split; cbn [d_count d_size d_chr]; [lia |]. split; [lia |]. right. apply sized_in. exact SC.
    + subst r size. specialize (IH big t LT). destruct (parse fuel big t) as [ds ok]. cbn [fst] in *. rewrite Z.eqb_refl.
      constructor; [| exact IH]. split; cbn [d_count d_size d_chr]; [lia | exact C].
Qed.
