From Coq Require Import ZArith List Lia Bool ZifyBool.
Import ListNotations.
From Verif Require Import Base IterModel IterSpec IterProofs.
Local Open Scope Z_scope.

(* ---- iproduct ---- *)

Definition from_to (s a : Z) : list Z := map (fun i => s + Z.of_nat i) (seq 0 (Z.to_nat (a - s))).

Lemma from_to_cons : forall s a, s < a -> from_to s a = s :: from_to (s + 1) a.
Proof.
  intros s a H. unfold from_to. replace (Z.to_nat (a - s)) with (Datatypes.S (Z.to_nat (a - (s + 1)))) by lia.
  cbn [seq map]. f_equal; [ lia | ]. rewrite <- seq_shift, map_map. apply map_ext. intros. lia.
Qed.
Lemma from_to_nil : forall s a, a <= s -> from_to s a = [].
Proof. intros s a H. unfold from_to. replace (Z.to_nat (a - s)) with O by lia. reflexivity. Qed.
Lemma upto_from_to : forall a, upto a = from_to 0 a.
Proof. intros a. unfold upto, from_to. rewrite Z.sub_0_r. apply map_ext. intros. lia. Qed.

(* the tuples after [stp] *)
Fixpoint later (args stp : list Z) : list (list Z) :=
  match args, stp with
  | a :: ra, s :: rs =>
      map (fun d => d :: rs) (from_to (s + 1) a) ++ flat_map (fun t => map (fun d => d :: t) (upto a)) (later ra rs)
  | _, _ => []
  end.

Definition digits_ok (args stp : list Z) : Prop := Forall2 (fun a s => 0 <= s < a) args stp.

Lemma advance_later : forall args stp, args <> [] -> digits_ok args stp ->
  match advance args stp with
  | None => later args stp = []
  | Some stp' => later args stp = stp' :: later args stp' /\ digits_ok args stp'
  end.
Proof.
  induction args as [|a ra IH]; intros stp Hne Hok; [ congruence | ].
  inversion Hok as [|? s ? rs Hs Hr]; subst. cbn [advance].
  destruct (Z.leb_spec a (s + 1)) as [Ha|Ha].
  - assert (El : later (a :: ra) (s :: rs) = flat_map (fun t => map (fun d => d :: t) (upto a)) (later ra rs)).
    { cbn [later]. rewrite from_to_nil by lia. reflexivity. }
    destruct ra as [|b rb].
    + rewrite El. inversion Hr; subst. reflexivity.
    + specialize (IH rs ltac:(congruence) Hr). destruct (advance (b :: rb) rs) as [rs'|].
      * destruct IH as [E Hok']. split.
        -- rewrite El, E. remember (b :: rb) as ra eqn:Era. cbn [flat_map later].
           rewrite (upto_from_to a), (from_to_cons 0 a) by lia. cbn [map app]. reflexivity.
        -- constructor; [ lia | exact Hok' ].
      * rewrite El, IH. reflexivity.
  - split.
    + cbn [later]. rewrite (from_to_cons (s + 1) a) by lia. reflexivity.
    + constructor; [ lia | exact Hr ].
Qed.

Lemma tuples_later : forall args, (forall a, In a args -> 0 < a) ->
  tuples (map upto args) = repeat 0 (length args) :: later args (repeat 0 (length args)) /\
  digits_ok args (repeat 0 (length args)).
Proof.
  induction args as [|a ra IH]; intros H; [ split; [ reflexivity | constructor ] | ].
  destruct IH as [E Hok]; [ intros; apply H; right; assumption | ].
  assert (0 < a) by (apply H; left; reflexivity).
  split; [ | cbn [length repeat]; constructor; [ lia | exact Hok ] ].
  cbn [map tuples length repeat later]. rewrite E. cbn [flat_map].
  rewrite upto_from_to, (from_to_cons 0 a) by lia. cbn [map app]. f_equal.
Qed.

Definition ends {T A} (n : nat) (l : list A) (r : status T) : Prop :=
  match r with Finished _ => (length l < n)%nat | Running _ => (n <= length l)%nat | Undefined => False end.

Lemma iproduct_take : forall args, args <> [] -> forall n stp, digits_ok args stp ->
  fst (take (iproduct_next args) n (IAfter stp)) = firstn n (later args stp) /\
  ends n (later args stp) (snd (take (iproduct_next args) n (IAfter stp))).
Proof.
  intros args Hne. induction n as [|n IH]; intros stp Hok; [ split; cbn; [ reflexivity | lia ] | ].
  pose proof (advance_later args stp Hne Hok) as H. cbn [take iproduct_next].
  destruct (advance args stp) as [stp'|].
  - destruct H as [E Hok']. specialize (IH stp' Hok'). rewrite E.
    destruct (take (iproduct_next args) n (IAfter stp')) as [l r]. cbn [fst snd] in *. destruct IH as [-> IH].
    split; [ reflexivity | ]. unfold ends in *. cbn [length]. destruct r; lia.
  - rewrite H. split; [ reflexivity | ]. cbn. lia.
Qed.

Lemma flat_map_nil : forall A B (l : list A), flat_map (fun _ => @nil B) l = [].
Proof. induction l; [ reflexivity | assumption ]. Qed.

Lemma tuples_empty : forall A (ls : list (list A)), In [] ls -> tuples ls = [].
Proof.
  induction ls as [|l ls IH]; intros H; [ destruct H | ]. cbn [tuples].
  destruct H as [->|H].
  - cbn [map]. apply flat_map_nil.
  - rewrite IH by exact H. reflexivity.
Qed.

Lemma iproduct_ok : forall args n,
  (forall a, In a args -> is_int64 a) ->
  match args with
  | [] => iproduct n args = ([], true)
  | [a] => iproduct n args = (firstn n (map IInt (upto a)), Nat.ltb (length (upto a)) n)
  | _ => iproduct n args = (firstn n (map IArr (tuples (map upto args))), Nat.ltb (length (tuples (map upto args))) n)
  end.
Proof.
  intros args n Hin. destruct args as [|a [|b rest]]; [ reflexivity | | ].
  - cbn [iproduct]. assert (Ha : is_int64 a) by (apply Hin; left; reflexivity).
    assert (Hk : range_size 0 a 1 (Z.max 0 a)).
    { split; [ lia | ]. intros i Hi. unfold in_range. lia. }
    pose proof (loop_take false a 1 (range_next false a 1) (range_next_start _ _ _) (range_next_after _ _ _) n 0 (Z.max 0 a) (RStart 0) Hk) as L.
    destruct L as [L1 [L2 _]].
    { intros i Hi. unfold is_int64, INT64_MIN, INT64_MAX in *. lia. }
    { reflexivity. }
    assert (Eu : upto a = progression 0 1 (Z.max 0 a)).
    { unfold upto, progression. replace (Z.to_nat (Z.max 0 a)) with (Z.to_nat a) by lia. apply map_ext. intros; lia. }
    assert (Lu : length (upto a) = Z.to_nat a) by (unfold upto; rewrite map_length, seq_length; reflexivity).
    destruct (Z.leb_spec (Z.of_nat n) (Z.max 0 a)) as [Hn|Hn].
    + destruct (L1 Hn) as [E [s' E']]. destruct (take (range_next false a 1) n (RStart 0)) as [l r]. cbn [fst snd] in *. subst l r.
      f_equal; [ | symmetry; apply Nat.ltb_ge; rewrite Lu; lia ].
      rewrite firstn_map. f_equal. unfold upto, progression.
      rewrite firstn_map. replace (firstn n (seq 0 (Z.to_nat a))) with (seq 0 n).
      * rewrite Nat2Z.id. apply map_ext. intros. lia.
      * replace (Z.to_nat a) with (n + (Z.to_nat a - n))%nat by lia. rewrite seq_app, firstn_app, seq_length, Nat.sub_diag, firstn_O, app_nil_r.
        symmetry. rewrite <- (seq_length n 0) at 1. apply firstn_all.
    + rewrite L2; [ | exact Hn | unfold is_int64, INT64_MIN, INT64_MAX in *; lia ].
      rewrite firstn_all2 by (rewrite map_length, Lu; lia). rewrite Eu. f_equal.
      symmetry. apply Nat.ltb_lt. rewrite prog_len. lia.
  - remember (a :: b :: rest) as args eqn:Ea.
    assert (Hne : args <> []) by (subst; congruence).
    assert (E : iproduct n args = (let (l, r) := take (iproduct_next args) n IStart in (map IArr l, match r with Finished _ => true | _ => false end)))
      by (subst args; reflexivity).
    rewrite E. clear E.
    destruct n as [|n]; [ subst; reflexivity | ]. cbn [take iproduct_next].
    destruct (existsb (fun a => a <=? 0) args) eqn:Ex.
    + apply existsb_exists in Ex. destruct Ex as [x [Hx Hx0]].
      assert (Et : tuples (map upto args) = []).
      { apply tuples_empty. apply in_map_iff. exists x. split; [ | exact Hx ]. unfold upto. replace (Z.to_nat x) with O by lia. reflexivity. }
      rewrite Et. reflexivity.
    + assert (Hpos : forall a, In a args -> 0 < a).
      { intros x Hx. destruct (Z.ltb_spec 0 x); [ assumption | ]. exfalso.
        assert (existsb (fun a => a <=? 0) args = true) by (apply existsb_exists; exists x; split; [ exact Hx | lia ]). congruence. }
      destruct (tuples_later args Hpos) as [Et Hok]. rewrite Et.
      destruct (iproduct_take args Hne n _ Hok) as [T1 T2].
      destruct (take (iproduct_next args) n _) as [l r]. cbn [fst snd] in *. subst l.
      cbn [map firstn length]. rewrite firstn_map. f_equal.
      unfold ends in T2. destruct r; [ | | destruct T2 ]; symmetry; [ apply Nat.ltb_ge | apply Nat.ltb_lt ]; lia.
Qed.

(* ---- product ---- *)

Definition vals {A} (g : source A) : list A :=
  if is_function g then if initialized g then cache g else elems g else elems g.
Definition source_ok {A} (g : source A) : Prop := initialized g = false -> cache g = [].

Lemma run_source_ok : forall A (g : source A), source_ok g ->
  fst (run_source g) = vals g /\ vals (snd (run_source g)) = vals g /\ source_ok (snd (run_source g)).
Proof.
  intros A [f e i c] H. unfold run_source, vals, source_ok in *. cbn [is_function initialized cache elems] in *.
  destruct f; [ destruct i | ]; cbn; repeat split; auto; try discriminate.
  rewrite H by reflexivity. reflexivity.
Qed.

Lemma flat_map_map : forall A B C (f : A -> B) (g : B -> list C) l, flat_map g (map f l) = flat_map (fun x => g (f x)) l.
Proof. induction l; cbn; [ reflexivity | ]. rewrite IHl. reflexivity. Qed.
Lemma flat_map_flat_map : forall A B C (f : A -> list B) (g : B -> list C) l,
  flat_map g (flat_map f l) = flat_map (fun x => flat_map g (f x)) l.
Proof. induction l; cbn; [ reflexivity | ]. rewrite flat_map_app, IHl. reflexivity. Qed.
Lemma map_flat_map : forall A B C (f : A -> list B) (g : B -> C) l, map g (flat_map f l) = flat_map (fun x => map g (f x)) l.
Proof. induction l; cbn; [ reflexivity | ]. rewrite map_app, IHl. reflexivity. Qed.

Lemma tuples_last : forall A (inner : list (list A)) outer,
  tuples (inner ++ [outer]) = flat_map (fun e => map (fun t => t ++ [e]) (tuples inner)) outer.
Proof.
  induction inner as [|l inner IH]; intros outer.
  - cbn. rewrite app_nil_r. induction outer; cbn; [ reflexivity | f_equal; assumption ].
  - cbn [app tuples]. rewrite IH, flat_map_flat_map. apply flat_map_ext. intros e.
    rewrite flat_map_map, map_flat_map. apply flat_map_ext. intros t. rewrite map_map. reflexivity.
Qed.

Lemma tuples_length : forall A (ls : list (list A)) t, In t (tuples ls) -> length t = length ls.
Proof.
  induction ls as [|l ls IH]; intros t H; cbn in H; [ destruct H as [<-|[]]; reflexivity | ].
  apply in_flat_map in H. destruct H as [u [H1 H2]]. apply in_map_iff in H2. destruct H2 as [x [<- _]].
  cbn. f_equal. apply IH. exact H1.
Qed.

Lemma set_at_app : forall A (l r : list A) y x, set_at (l ++ y :: r) (length l) x = l ++ x :: r.
Proof. induction l; intros; cbn; [ reflexivity | f_equal; apply IHl ]. Qed.

Section Prod.
Context {A : Type}.
Variable void : A.
Variable dim : nat.

Definition padded (t : list A) : list A := t ++ repeat void (dim - length t).

Lemma product_gens_ok : forall fuel gens, Forall source_ok gens -> gens <> [] ->
  (length gens <= fuel)%nat -> (length gens <= dim)%nat ->
  fst (product_gens void dim fuel gens) = map padded (tuples (rev (map vals gens))) /\
  map vals (snd (product_gens void dim fuel gens)) = map vals gens /\
  Forall source_ok (snd (product_gens void dim fuel gens)).
Proof.
  induction fuel as [|fuel IH]; intros gens Hok Hne Hf Hd; [ destruct gens; cbn in *; [ congruence | lia ] | ].
  destruct gens as [|g others]; [ congruence | ].
  inversion Hok as [|? ? Hg Ho]; subst. destruct (run_source_ok _ g Hg) as [R1 [R2 R3]].
  destruct others as [|g2 others].
  - cbn [product_gens]. destruct (run_source g) as [es g']. cbn [fst snd] in *. subst es.
    split; [ | split; [ cbn [map]; rewrite R2; reflexivity | constructor; [ exact R3 | constructor ] ] ].
    cbn [map rev app tuples flat_map]. rewrite app_nil_r, map_map. apply map_ext. intros e.
    unfold padded. cbn [length]. destruct dim; [ cbn in Hd; lia | ]. cbn. rewrite Nat.sub_0_r. reflexivity.
  - remember (g2 :: others) as oths eqn:Eo.
    assert (E : product_gens void dim (Datatypes.S fuel) (g :: oths) =
      let (es, g') := run_source g in
      let (rows, others') :=
        fold_left (fun acc e =>
                     let (rows, oth) := acc : list (list A) * list (source A) in
                     let (r, oth') := product_gens void dim fuel oth in
                     (rows ++ map (fun o => set_at o (length oths) e) r, oth'))
                  es ([], oths) in
      (rows, g' :: others')) by (subst oths; reflexivity).
    rewrite E. clear E. destruct (run_source g) as [es g']. cbn [fst snd] in *. subst es.
    cbn [length] in Hf, Hd.
    assert (Hone : oths <> []) by (subst; congruence).
    set (W := map vals oths) in *.
    assert (F : forall es rows0 oth0, map vals oth0 = W -> Forall source_ok oth0 ->
      let r := fold_left (fun acc e =>
                     let (rows, oth) := acc : list (list A) * list (source A) in
                     let (r, oth') := product_gens void dim fuel oth in
                     (rows ++ map (fun o => set_at o (length oths) e) r, oth'))
                  es (rows0, oth0) in
      fst r = rows0 ++ flat_map (fun e => map (fun o => set_at o (length oths) e) (map padded (tuples (rev W)))) es /\
      map vals (snd r) = W /\ Forall source_ok (snd r)).
    { induction es as [|e es IHe]; intros rows0 oth0 HW Hs0.
      - cbn. rewrite app_nil_r. auto.
      - cbn [fold_left]. assert (Hl : length oth0 = length oths) by (rewrite <- (map_length vals oth0), HW; apply map_length).
        destruct (IH oth0 Hs0) as [P1 [P2 P3]].
        { intros ->. destruct oths; [ congruence | discriminate ]. }
        { lia. } { lia. }
        destruct (product_gens void dim fuel oth0) as [r oth']. cbn [fst snd] in *.
        specialize (IHe (rows0 ++ map (fun o => set_at o (length oths) e) r) oth' ltac:(congruence) P3).
        cbv zeta in *. destruct IHe as [Q1 Q2]. split; [ | exact Q2 ]. rewrite Q1, P1, HW.
        rewrite <- app_assoc. reflexivity. }
    specialize (F (vals g) [] oths eq_refl Ho). cbv zeta in F.
    destruct (fold_left _ (vals g) ([], oths)) as [rws oth']. cbn [fst snd] in *. destruct F as [F1 [F2 F3]].
    split; [ | split; [ cbn [map]; rewrite F2, R2; reflexivity | constructor; assumption ] ].
    rewrite F1. cbn [app map rev]. fold W. rewrite tuples_last, map_flat_map. apply flat_map_ext. intros e.
    rewrite !map_map. apply map_ext_in. intros t Ht. apply tuples_length in Ht.
    rewrite rev_length in Ht. unfold W in Ht. rewrite map_length in Ht.
    unfold padded. rewrite app_length, Ht. cbn [length].
    replace (dim - length oths)%nat with (Datatypes.S (dim - (length oths + 1)))%nat by lia. cbn [repeat].
    rewrite <- Ht, set_at_app, <- app_assoc. reflexivity.
Qed.
End Prod.

Lemma product_ok : forall A (void : A) args,
  product void args = match args with
                      | [] => inl []
                      | [x] => inl (snd x)
                      | _ => inr (tuples (map snd args))
                      end.
Proof.
  intros A void args. destruct args as [|x [|y args]]; try reflexivity.
  remember (x :: y :: args) as l eqn:El.
  assert (E : product void l = inr (fst (product_gens void (length l) (length l) (rev (map new_source l))))) by (subst; reflexivity).
  rewrite E. clear E. f_equal.
  destruct (product_gens_ok void (length l) (length l) (rev (map new_source l))) as [P _].
  - apply Forall_rev, Forall_forall. intros g Hg. apply in_map_iff in Hg. destruct Hg as [z [<- _]]. intros _. reflexivity.
  - intros H. apply (f_equal (@length _)) in H. rewrite rev_length, map_length in H. subst l. discriminate.
  - rewrite rev_length, map_length. lia.
  - rewrite rev_length, map_length. lia.
  - rewrite P. rewrite map_rev, rev_involutive, map_map.
    replace (map (fun x0 => vals (new_source x0)) l) with (map snd l)
      by (apply map_ext; intros [f e]; unfold vals, new_source; cbn; destruct f; reflexivity).
    rewrite <- (map_id (tuples (map snd l))) at 2. apply map_ext_in. intros t Ht. apply tuples_length in Ht.
    rewrite map_length in Ht. unfold padded. rewrite Ht, Nat.sub_diag. cbn [repeat]. apply app_nil_r.
Qed.

(* ---- slice ---- *)
Section SliceP.
Context {T A : Type}.
Variable next : T -> step T A.

Lemma take_app : forall n m s,
  take next (n + m) s =
  match take next n s with
  | (l, Running s') => (l ++ fst (take next m s'), snd (take next m s'))
  | r => r
  end.
Proof.
  induction n as [|n IH]; intros m s; [ cbn; destruct (take next m s); reflexivity | ].
  cbn [Nat.add take]. destruct (next s) as [a s'|s'|]; try reflexivity.
  rewrite IH. destruct (take next n s') as [l [s2|s2|]]; reflexivity.
Qed.

Lemma take_len : forall n s l s', take next n s = (l, Running s') -> length l = n.
Proof.
  induction n as [|n IH]; intros s l s' H; cbn [take] in H; [ injection H as <- _; reflexivity | ].
  destruct (next s) as [a s2|s2|]; try discriminate. destruct (take next n s2) as [l2 r] eqn:E.
  injection H as <- ->. cbn. f_equal. eapply IH. exact E.
Qed.
Lemma take_short : forall n s, (length (fst (take next n s)) <= n)%nat.
Proof.
  induction n as [|n IH]; intros s; cbn [take]; [ cbn; lia | ].
  destruct (next s) as [a s2|s2|]; cbn; try lia. specialize (IH s2). destruct (take next n s2). cbn in *. lia.
Qed.
Lemma take_fin_len : forall n s, (match snd (take next n s) with Running _ => True | _ => (length (fst (take next n s)) < n)%nat end).
Proof.
  induction n as [|n IH]; intros s; cbn [take]; [ exact I | ].
  destruct (next s) as [a s2|s2|]; cbn; try lia. specialize (IH s2). destruct (take next n s2) as [l [ | | ]]; cbn in *; lia || exact I.
Qed.

Lemma skip_take : forall n s,
  skip next n s = match snd (take next n s) with
                  | Running s' => Yield tt s' | Finished s' => Done s' | Undefined => Undef end.
Proof.
  induction n as [|n IH]; intros s; cbn [skip take]; [ reflexivity | ].
  destruct (next s) as [a s2|s2|]; try reflexivity. rewrite IH. destruct (take next n s2); reflexivity.
Qed.

Lemma slice_after : forall e b n i s,
  take (slice_next next b (Some e)) n (SAfter i s) =
  (let m := Z.to_nat (Z.max 0 (e - (i + 1))) in
   let '(l, r) := take next (Nat.min n m) s in
   (l, match r with
       | Running s' => if (n <=? m)%nat then Running (SAfter (i + Z.of_nat n) s') else Finished (SEnd s')
       | Finished s' => Finished (SEnd s')
       | Undefined => Undefined
       end)).
Proof.
  intros e b. induction n as [|n IH]; intros i s.
  - cbn. rewrite Z.add_0_r. reflexivity.
  - cbn [take slice_next]. destruct (Z.leb_spec e (i + 1)) as [H|H].
    + replace (Z.to_nat (Z.max 0 (e - (i + 1)))) with O by lia. rewrite Nat.min_0_r. reflexivity.
    + cbv zeta. replace (Z.to_nat (Z.max 0 (e - (i + 1)))) with (Datatypes.S (Z.to_nat (Z.max 0 (e - (i + 1 + 1))))) by lia.
      cbn [Nat.min take]. unfold slice_pull. destruct (next s) as [a s2|s2|]; try reflexivity.
      rewrite IH. cbv zeta. destruct (take next _ s2) as [l [s3|s3|]]; try reflexivity.
      cbn [Nat.leb]. destruct (Nat.leb n _); try reflexivity. do 3 f_equal. lia.
Qed.

Lemma slice_after_none : forall b n i s,
  fst (take (slice_next next b None) n (SAfter i s)) = fst (take next n s).
Proof.
  intros b. induction n as [|n IH]; intros i s; [ reflexivity | ].
  cbn [take slice_next]. unfold slice_pull. destruct (next s) as [a s2|s2|]; try reflexivity.
  specialize (IH i s2). destruct (take next n s2), (take _ n (SAfter i s2)). cbn in *. congruence.
Qed.

Lemma firstn_skipn_nil : forall (B : Type) (l : list B) n m, (length l <= m)%nat -> firstn n (skipn m l) = [].
Proof. intros B l n m H. rewrite skipn_all2 by exact H. apply firstn_nil. Qed.

Lemma slice_ok' : forall b e n s, 0 <= b ->
  fst (take (slice_next next b e) n (SStart s)) =
  firstn (match e with None => n | Some e => Nat.min n (Z.to_nat (e - b)) end)
         (skipn (Z.to_nat b) (fst (take next (Z.to_nat b + n) s))).
Proof.
  intros b e n s Hb. rewrite take_app. destruct n as [|n].
  - destruct e; reflexivity.
  - cbn [take slice_next]. rewrite skip_take. pose proof (take_fin_len (Z.to_nat b) s) as Hfin.
    destruct (take next (Z.to_nat b) s) as [l [s'|s'|]] eqn:Et; cbn [fst snd] in *.
    + apply take_len in Et.
      rewrite (skipn_app (Z.to_nat b)), skipn_all2 by lia. rewrite Et, Nat.sub_diag. cbn [app skipn].
      replace (Z.max 0 b) with b by lia. destruct e as [e|].
      * destruct (Z.ltb_spec b e) as [H|H].
        -- unfold slice_pull. replace (Z.to_nat (e - b)) with (Datatypes.S (Z.to_nat (Z.max 0 (e - (b + 1))))) by lia.
           cbn [Nat.min]. change (take next (Datatypes.S n) s') with
             (match next s' with Yield a s2 => let (l, r) := take next n s2 in (a :: l, r) | Done s2 => ([], Finished s2) | Undef => ([], Undefined) end).
           destruct (next s') as [a s2|s2|]; try reflexivity.
           rewrite slice_after. cbv zeta.
           set (m := Z.to_nat (Z.max 0 (e - (b + 1)))).
           assert (F : fst (take next (Nat.min n m) s2) = firstn (Nat.min n m) (fst (take next n s2))).
           { assert (En : take next n s2 = take next (Nat.min n m + (n - Nat.min n m)) s2) by (f_equal; lia). rewrite En, take_app.
             destruct (take next (Nat.min n m) s2) as [l2 r2] eqn:E2. cbn [fst].
             destruct r2 as [s3|s3|]; cbn [fst].
             - apply take_len in E2. rewrite firstn_app, E2, Nat.sub_diag, firstn_O, app_nil_r.
               rewrite <- E2 at 1. symmetry. apply firstn_all.
             - pose proof (take_short (Nat.min n m) s2) as Q. rewrite E2 in Q. cbn in Q. rewrite firstn_all2 by lia. reflexivity.
             - pose proof (take_short (Nat.min n m) s2) as Q. rewrite E2 in Q. cbn in Q. rewrite firstn_all2 by lia. reflexivity. }
           destruct (take next (Nat.min n m) s2) as [l2 r2]. destruct (take next n s2) as [l3 r3]. cbn [fst firstn] in *. rewrite F. reflexivity.
        -- replace (Z.to_nat (e - b)) with O by lia. rewrite Nat.min_0_r. reflexivity.
      * unfold slice_pull. change (take next (Datatypes.S n) s') with
             (match next s' with Yield a s2 => let (l, r) := take next n s2 in (a :: l, r) | Done s2 => ([], Finished s2) | Undef => ([], Undefined) end).
        destruct (next s') as [a s2|s2|]; try reflexivity.
        pose proof (slice_after_none b n b s2) as F. pose proof (take_short n s2) as Q.
        destruct (take next n s2) as [l3 r3], (take _ n (SAfter b s2)) as [l4 r4]. cbn [fst firstn] in *. subst l4.
        rewrite firstn_all2 by lia. reflexivity.
    + rewrite firstn_skipn_nil by lia. reflexivity.
    + rewrite firstn_skipn_nil by lia. reflexivity.
Qed.

(* the slice does not resume its source more often than needed *)
Lemma slice_consumes : forall b e s l s', 0 <= b < e -> take next (Z.to_nat e) s = (l, Running s') ->
  take (slice_next next b (Some e)) (Datatypes.S (Z.to_nat (e - b))) (SStart s) = (skipn (Z.to_nat b) l, Finished (SEnd s')).
Proof.
  intros b e s l s' H Ht. replace (Z.to_nat e) with (Z.to_nat b + Z.to_nat (e - b))%nat in Ht by lia.
  rewrite take_app in Ht. remember (Z.to_nat (e - b)) as k eqn:Ek. cbn [take slice_next]. rewrite skip_take.
  destruct (take next (Z.to_nat b) s) as [l1 [s1|s1|]] eqn:E1; [ | discriminate | discriminate ].
  cbn [snd] in *. replace (Z.max 0 b) with b by lia. destruct (Z.ltb_spec b e); [ | lia ].
  apply take_len in E1. unfold slice_pull. destruct k as [|k]; [ lia | ].
  change (take next (Datatypes.S k) s1) with
     (match next s1 with Yield a s2 => let (l, r) := take next k s2 in (a :: l, r) | Done s2 => ([], Finished s2) | Undef => ([], Undefined) end) in Ht.
  destruct (next s1) as [a s2|s2|]; try discriminate.
  rewrite slice_after. cbv zeta. replace (Z.to_nat (Z.max 0 (e - (b + 1)))) with k by lia.
  replace (Nat.min (Datatypes.S k) k) with k by lia.
  destruct (take next k s2) as [l2 r2]. cbn [fst snd] in Ht. injection Ht as <- ->.
  rewrite skipn_app, skipn_all2 by lia. rewrite E1, Nat.sub_diag. cbn [app skipn].
  replace (Datatypes.S k <=? k)%nat with false by (symmetry; apply Nat.leb_gt; lia). reflexivity.
Qed.
End SliceP.

(* ---- zip ---- *)

Lemma pull_ok : forall A (d : A) its, (forall c, In c its -> c <> []) ->
  pull its = (Some (map (fun c => nth 0 c d) its), map (@tl A) its).
Proof.
  induction its as [|c its IH]; intros H; [ reflexivity | ].
  destruct c as [|x c]; [ exfalso; apply (H []); [ left; reflexivity | reflexivity ] | ].
  cbn [pull]. rewrite IH by (intros; apply H; right; assumption). reflexivity.
Qed.
Lemma pull_end : forall A (pre post : list (list A)), (forall c, In c pre -> c <> []) ->
  pull (pre ++ [] :: post) = (None, map (@tl A) pre ++ [] :: post).
Proof.
  induction pre as [|c pre IH]; intros post H; [ reflexivity | ].
  destruct c as [|x c]; [ exfalso; apply (H []); [ left; reflexivity | reflexivity ] | ].
  cbn [pull app]. rewrite IH by (intros; apply H; right; assumption). reflexivity.
Qed.

Lemma rows_succ : forall A (d : A) m its,
  rows d (Datatypes.S m) its = map (fun c => nth 0 c d) its :: rows d m (map (@tl A) its).
Proof.
  intros A d m its. unfold rows. cbn [seq map]. f_equal. rewrite <- seq_shift, map_map. apply map_ext. intros i.
  rewrite map_map. apply map_ext. intros c. destruct c; cbn; [ destruct i; reflexivity | reflexivity ].
Qed.

(* the first shortest column is preceded by [pre] *)
Lemma zip_take : forall A (d : A) m n (pre : list (list A)) c post,
  (forall x, In x pre -> (m < length x)%nat) -> length c = m -> (forall x, In x post -> (m <= length x)%nat) ->
  fst (take zip_next n (pre ++ c :: post)) = firstn n (rows d m (pre ++ c :: post)) /\
  snd (take zip_next n (pre ++ c :: post)) =
    (if (n <=? m)%nat then Running (map (skipn n) (pre ++ c :: post))
     else Finished (map (skipn (m + 1)) pre ++ map (skipn m) (c :: post))).
Proof.
  intros A d. induction m as [|m IH]; intros n pre c post H1 H2 H3.
  - destruct c; [ | discriminate ]. destruct n as [|n].
    + cbn [take fst snd firstn Nat.leb]. split; [ reflexivity | ]. f_equal. symmetry.
      transitivity (map (fun x : list A => x) (pre ++ [] :: post)); [ apply map_ext; reflexivity | apply map_id ].
    + cbn [take]. unfold zip_next. rewrite pull_end by (intros x Hx ->; specialize (H1 [] Hx); cbn in H1; lia).
      split; [ reflexivity | ]. cbn [snd Nat.leb]. f_equal.
      replace (map (skipn (0 + 1)) pre) with (map (@tl A) pre) by (apply map_ext; intros [|? ?]; reflexivity).
      f_equal. symmetry. transitivity (map (fun x : list A => x) ([] :: post)); [ apply map_ext; reflexivity | apply map_id ].
  - destruct n as [|n].
    + cbn [take fst snd firstn Nat.leb]. split; [ reflexivity | ]. f_equal. symmetry.
      transitivity (map (fun x : list A => x) (pre ++ c :: post)); [ apply map_ext; reflexivity | apply map_id ].
    + cbn [take]. unfold zip_next at 1 3. rewrite (pull_ok _ d).
      2:{ intros x Hx ->. apply in_app_or in Hx. destruct Hx as [Hx|[->|Hx]];
          [ specialize (H1 [] Hx); cbn in H1; lia | discriminate | specialize (H3 [] Hx); cbn in H3; lia ]. }
      rewrite rows_succ. cbn [firstn].
      assert (Em : map (@tl A) (pre ++ c :: post) = map (@tl A) pre ++ tl c :: map (@tl A) post) by (rewrite map_app; reflexivity).
      rewrite Em. specialize (IH n (map (@tl A) pre) (tl c) (map (@tl A) post)).
      destruct IH as [I1 I2].
      { intros x Hx. apply in_map_iff in Hx. destruct Hx as [y [<- Hy]]. specialize (H1 y Hy). destruct y; cbn in *; lia. }
      { destruct c; cbn in *; lia. }
      { intros x Hx. apply in_map_iff in Hx. destruct Hx as [y [<- Hy]]. specialize (H3 y Hy). destruct y; cbn in *; lia. }
      destruct (take zip_next n _) as [l r]. cbn [fst snd] in *. split; [ congruence | ].
      rewrite I2. cbn [Nat.leb]. rewrite <- Em, !map_map.
      assert (Et : forall k (x : list A), skipn k (tl x) = skipn (Datatypes.S k) x) by (intros k [|? ?]; [ rewrite !skipn_nil; reflexivity | reflexivity ]).
      destruct (n <=? m)%nat.
      * f_equal. apply map_ext. intros x. apply Et.
      * f_equal. f_equal; [ apply map_ext; intros x; apply Et | ].
        cbn [map]. rewrite map_map. f_equal; [ apply Et | apply map_ext; intros x; apply Et ].
Qed.
