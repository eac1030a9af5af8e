(* Shared arrays: lists with replaced elements, counting, the invariant. *)
From Coq Require Import ZArith List Lia Bool ZifyBool.
Import ListNotations.
From Verif Require Import Base ListZ ArrayModel ArrayConcSpec ArrayConcModel.
Local Open Scope Z_scope.
Ltac Zify.zify_post_hook ::= idtac.

(* ---- put ---- *)
Lemma len_put : forall A (l : list A) i x, 0 <= i < len l -> len (put l i x) = len l.
Proof. intros A l i x H. unfold put. rewrite len_app, len_cons, len_firstn, len_skipn. lia. Qed.
Lemma gz_put : forall A (l : list A) i x j, 0 <= i < len l -> gz (put l i x) j = if j =? i then Some x else gz l j.
Proof.
  intros A l i x j H. destruct (Z_lt_dec j 0) as [Hj | Hj].
  { rewrite !gz_neg by lia. destruct (Z.eqb_spec j i); [lia | reflexivity]. }
  unfold put. rewrite gz_app, len_firstn. destruct (Z.eqb_spec j i) as [-> | N].
  - destruct (Z.ltb_spec i (Z.min (Z.of_nat (Z.to_nat i)) (len l))); [lia |]. rewrite gz_cons. destruct (Z.eqb_spec (i - Z.min (Z.of_nat (Z.to_nat i)) (len l)) 0); [reflexivity | lia].
  - destruct (Z.ltb_spec j (Z.min (Z.of_nat (Z.to_nat i)) (len l))).
    + rewrite gz_firstn. destruct (Z.ltb_spec j (Z.of_nat (Z.to_nat i))); [reflexivity | lia].
    + rewrite gz_cons. destruct (Z.eqb_spec (j - Z.min (Z.of_nat (Z.to_nat i)) (len l)) 0); [lia |]. rewrite gz_skipn. destruct (Z.ltb_spec (j - Z.min (Z.of_nat (Z.to_nat i)) (len l) - 1) 0); [lia |]. f_equal. lia.
Qed.

Fixpoint total {A} (f : A -> Z) (l : list A) : Z := match l with [] => 0 | x :: t => f x + total f t end.
Lemma total_app : forall A (f : A -> Z) l m, total f (l ++ m) = total f l + total f m.
Proof. induction l as [|x l IH]; intros m; cbn [total app]; [lia | rewrite IH; lia]. Qed.
Lemma total_put : forall A (f : A -> Z) l i x y, gz l i = Some x -> total f (put l i y) = total f l - f x + f y.
Proof. intros A f l i x y H. rewrite (gz_split _ _ _ _ H) at 2. unfold put. rewrite !total_app. cbn [total]. lia. Qed.
Lemma total_nonneg : forall A (f : A -> Z) l, (forall x, 0 <= f x) -> 0 <= total f l.
Proof. induction l as [|x l IH]; intros Hf; cbn [total]; [lia | pose proof (Hf x); specialize (IH Hf); lia]. Qed.
Lemma total_le : forall A (f : A -> Z) l, (forall x, f x <= 1) -> total f l <= len l.
Proof. induction l as [|x l IH]; intros Hf; cbn [total]; [rewrite len_nil; lia | pose proof (Hf x); specialize (IH Hf); rewrite len_cons; lia]. Qed.
Lemma total_pos : forall A (f : A -> Z) l i x, (forall x, 0 <= f x) -> gz l i = Some x -> f x <= total f l.
Proof.
  intros A f l i x Hf H. rewrite (gz_split _ _ _ _ H). rewrite total_app. cbn [total].
  pose proof (total_nonneg _ f (firstn (Z.to_nat i) l) Hf). pose proof (total_nonneg _ f (skipn (Z.to_nat i + 1) l) Hf). lia.
Qed.

Definition is_open (s : slot) : Z := match s with Closed => 0 | _ => 1 end.
Lemma is_open_range : forall s, 0 <= is_open s <= 1.
Proof. intros []; cbn; lia. Qed.
Lemma slot_eqb_eq : forall a b, slot_eqb a b = true -> a = b.
Proof. intros [| | x] [| | y] H; try discriminate H; try reflexivity. cbn [slot_eqb] in H. f_equal. lia. Qed.
Lemma slot_eqb_refl : forall a, slot_eqb a a = true.
Proof. intros [| | x]; cbn [slot_eqb]; [reflexivity | reflexivity | lia]. Qed.

(* ---- memory ---- *)
Definition sl (m : mem) (b i : Z) : option slot := match gz (m_bufs m) b with Some x => gz (b_slots x) i | None => None end.
Definition cp (m : mem) (b : Z) : Z := match gz (m_bufs m) b with Some x => cap x | None => 0 end.
Definition nx (m : mem) (b : Z) : option Z := match gz (m_bufs m) b with Some x => b_next x | None => None end.
Definition opn (m : mem) (b : Z) : Z := match gz (m_bufs m) b with Some x => b_open x | None => 0 end.
Definition cnt (m : mem) (b : Z) : Z := match gz (m_bufs m) b with Some x => total is_open (b_slots x) | None => 0 end.
Definition alive (m : mem) (b : Z) : Prop := 0 <= b < len (m_bufs m).

Lemma sl_range : forall m b i v, sl m b i = Some v -> alive m b /\ 0 <= i < cp m b.
Proof.
  intros m b i v H. unfold sl in H. unfold alive, cp. destruct (gz (m_bufs m) b) as [x|] eqn:E; [| discriminate H].
  split; [apply gz_some_inv in E; exact E | apply gz_some_inv in H; exact H].
Qed.
Lemma sl_some : forall m b i, 0 <= i < cp m b -> exists v, sl m b i = Some v.
Proof.
  intros m b i H. unfold sl, cp in *. destruct (gz (m_bufs m) b) as [x|]; [apply gz_some; exact H | lia].
Qed.
Lemma alive_some : forall m b, alive m b -> exists x, gz (m_bufs m) b = Some x.
Proof. intros m b H. apply gz_some. exact H. Qed.

(* m' is m with slot (b, i) = v *)
Lemma slot_write : forall m b x i v, gz (m_bufs m) b = Some x -> 0 <= i < cap x -> let m' := set_slot m b x i v in
  (forall c j, sl m' c j = if (c =? b) && (j =? i) then Some v else sl m c j) /\ (forall c, cp m' c = cp m c) /\ (forall c, nx m' c = nx m c) /\
  (forall c, opn m' c = opn m c) /\ len (m_bufs m') = len (m_bufs m) /\ m_data m' = m_data m /\ m_size m' = m_size m /\
  (forall w, gz (b_slots x) i = Some w -> forall c, cnt m' c = cnt m c + if c =? b then is_open v - is_open w else 0).
Proof.
  intros m b x i v Hx Hi m'. pose proof (gz_some_inv _ _ _ _ Hx) as B. subst m'. unfold set_slot, set_buf, sl, cp, nx, opn, cnt. cbn [m_bufs m_data m_size].
  assert (G : forall c, gz (put (m_bufs m) b (Buf (put (b_slots x) i v) (b_open x) (b_next x))) c = if c =? b then Some (Buf (put (b_slots x) i v) (b_open x) (b_next x)) else gz (m_bufs m) c) by (intros c; apply gz_put; exact B).
  repeat split.
  - intros c j. rewrite G. destruct (Z.eqb_spec c b) as [-> | N]; cbn [andb b_slots]; [| reflexivity]. rewrite Hx. rewrite gz_put by exact Hi. reflexivity.
  - intros c. rewrite G. destruct (Z.eqb_spec c b) as [-> | N]; [| reflexivity]. rewrite Hx. unfold cap. cbn [b_slots]. apply len_put. exact Hi.
  - intros c. rewrite G. destruct (Z.eqb_spec c b) as [-> | N]; [| reflexivity]. rewrite Hx. reflexivity.
  - intros c. rewrite G. destruct (Z.eqb_spec c b) as [-> | N]; [| reflexivity]. rewrite Hx. reflexivity.
  - apply len_put. exact B.
  - intros w Hw c. rewrite G. destruct (Z.eqb_spec c b) as [-> | N]; [| lia]. rewrite Hx. cbn [b_slots]. rewrite (total_put _ _ _ _ w) by exact Hw. lia.
Qed.
Lemma open_write : forall m b x n, gz (m_bufs m) b = Some x -> let m' := set_buf m b (Buf (b_slots x) n (b_next x)) in
  (forall c j, sl m' c j = sl m c j) /\ (forall c, cp m' c = cp m c) /\ (forall c, nx m' c = nx m c) /\
  (forall c, opn m' c = if c =? b then n else opn m c) /\ len (m_bufs m') = len (m_bufs m) /\ m_data m' = m_data m /\ m_size m' = m_size m /\ (forall c, cnt m' c = cnt m c).
Proof.
  intros m b x n Hx m'. pose proof (gz_some_inv _ _ _ _ Hx) as B. subst m'. unfold set_buf, sl, cp, nx, opn, cnt. cbn [m_bufs m_data m_size].
  assert (G : forall c, gz (put (m_bufs m) b (Buf (b_slots x) n (b_next x))) c = if c =? b then Some (Buf (b_slots x) n (b_next x)) else gz (m_bufs m) c) by (intros c; apply gz_put; exact B).
  repeat split; try (intros c; rewrite G; destruct (Z.eqb_spec c b) as [-> | N]; [rewrite Hx |]; reflexivity).
  - intros c. rewrite G. destruct (Z.eqb_spec c b) as [-> | N]; reflexivity.
  - apply len_put. exact B.
Qed.
Lemma link_write : forall m b x n, gz (m_bufs m) b = Some x -> let m' := set_buf m b (Buf (b_slots x) (b_open x) n) in
  (forall c j, sl m' c j = sl m c j) /\ (forall c, cp m' c = cp m c) /\ (forall c, nx m' c = if c =? b then n else nx m c) /\
  (forall c, opn m' c = opn m c) /\ len (m_bufs m') = len (m_bufs m) /\ m_data m' = m_data m /\ m_size m' = m_size m /\ (forall c, cnt m' c = cnt m c).
Proof.
  intros m b x n Hx m'. pose proof (gz_some_inv _ _ _ _ Hx) as B. subst m'. unfold set_buf, sl, cp, nx, opn, cnt. cbn [m_bufs m_data m_size].
  assert (G : forall c, gz (put (m_bufs m) b (Buf (b_slots x) (b_open x) n)) c = if c =? b then Some (Buf (b_slots x) (b_open x) n) else gz (m_bufs m) c) by (intros c; apply gz_put; exact B).
  repeat split; try (intros c; rewrite G; destruct (Z.eqb_spec c b) as [-> | N]; [rewrite Hx |]; reflexivity).
  - intros c. rewrite G. destruct (Z.eqb_spec c b) as [-> | N]; reflexivity.
  - apply len_put. exact B.
Qed.
