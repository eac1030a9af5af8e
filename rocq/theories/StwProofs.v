(** Proofs about the way in which threads stop for a collection. *)
From Coq Require Import ZArith List Lia Bool ZifyBool.
Import ListNotations.
From Verif Require Import Base StwSpec StwModel.
Local Open Scope Z_scope.
Ltac Zify.zify_post_hook ::= idtac.

Definition st_of (p : pc) : cst :=
  match p with Run => CINACTIVE | Susp => SUSPENDED | _ => ENGAGED end.
Definition okp (g : gcs) (p : pc) : Prop :=
  match p with
  | Run => g = INACTIVE \/ g = INIT
  | Susp | HWoken => True
  | HSleep => g <> INACTIVE
  | HWalk g' | CWalk g' | CWSleep g' | CWWoken g' => g' = g /\ (g = MARK \/ g = UPDATE)
  | CSleep | CWoken => g = INIT
  | CEvac => g = EVACUATE
  end.
Definition okt (g : gcs) (x : thread) : Prop := tst x = st_of (tpc x) /\ okp g (tpc x).
Definition col (x : thread) : Z :=
  match tpc x with CSleep | CWoken | CWalk _ | CWSleep _ | CWWoken _ | CEvac => 1 | _ => 0 end.
Definition wal (x : thread) : Z := match tpc x with HWalk _ | CWalk _ => 1 | _ => 0 end.
Definition one (g : gcs) : Z := if is_inactive g then 0 else 1.
Definition stop_asleep (p : pc) : bool := match p with CSleep => true | _ => false end.
Definition walk_asleep (p : pc) : bool := match p with CWSleep _ => true | _ => false end.
Definition BOUND : Z := 4294967296.

Record Inv (h : heap) : Prop := mkInv {
  i_ok : forall t x, nth_error (ths h) t = Some x -> okt (gc h) x;
  i_col : sum col (ths h) = one (gc h);
  i_wal : walk h = sum wal (ths h);
  i_tts : gc h <> INIT -> tts h = 0;
  i_stop : forall t x, nth_error (ths h) t = Some x -> stop_asleep (tpc x) = true -> 1 <= tts h <= sum running (ths h);
  i_walk : forall t x, nth_error (ths h) t = Some x -> walk_asleep (tpc x) = true -> 1 <= walk h;
  i_ev : ev h = negb (is_inactive (gc h));
  i_len : Z.of_nat (length (ths h)) < BOUND
}.

Lemma put_same : forall l t p, (exists q, nth_error l t = Some q) -> nth_error (put l t p) t = Some p.
Proof.
  induction l as [|x l IH]; intros [|t] p [q H]; cbn [nth_error] in H; try discriminate H; [ reflexivity | ].
  cbn [put nth_error]. apply IH. exists q. exact H.
Qed.
Lemma put_other : forall l t t' p, t <> t' -> nth_error (put l t p) t' = nth_error l t'.
Proof.
  induction l as [|x l IH]; intros [|t] [|t'] p H; cbn [put nth_error]; try reflexivity; try congruence.
  apply IH. congruence.
Qed.
Lemma put_length : forall l t p, length (put l t p) = length l.
Proof. induction l as [|x l IH]; intros [|t] p; cbn [put length]; congruence. Qed.
Lemma put_sum : forall f l t p q, nth_error l t = Some q -> sum f (put l t p) = sum f l - f q + f p.
Proof.
  unfold sum. induction l as [|x l IH]; intros [|t] p q H; cbn [nth_error] in H; try discriminate H.
  - injection H as ->. cbn [put fold_right]. lia.
  - cbn [put fold_right]. rewrite (IH _ _ _ H). lia.
Qed.
Lemma sum_map : forall f w l, (forall x, f (w x) = f x) -> sum f (map w l) = sum f l.
Proof.
  unfold sum. intros f w l H. induction l as [|x l IH]; [ reflexivity | ].
  cbn [map fold_right]. rewrite IH, H. reflexivity.
Qed.
Lemma sum_nonneg : forall f l, (forall x, 0 <= f x) -> 0 <= sum f l.
Proof.
  unfold sum. intros f l H. induction l as [|x l IH]; cbn [fold_right]; [ lia | ]. pose proof (H x). lia.
Qed.
Lemma sum_le_length : forall f l, (forall x, f x <= 1) -> sum f l <= Z.of_nat (length l).
Proof.
  unfold sum. intros f l H. induction l as [|x l IH]; cbn [fold_right length]; [ lia | ]. pose proof (H x). lia.
Qed.
Lemma sum_ge : forall f l t x, (forall x, 0 <= f x) -> nth_error l t = Some x -> f x <= sum f l.
Proof.
  intros f l t x H N. pose proof (put_sum f l t (mkth Susp SUSPENDED) x N) as E.
  assert (0 <= sum f l - f x).
  { revert t N E. induction l as [|y l IH]; intros [|t] N E; cbn [nth_error] in N; try discriminate N.
    - injection N as ->. unfold sum. cbn [fold_right]. pose proof (sum_nonneg f l H). unfold sum in *. lia.
    - pose proof (H y). pose proof (IH t N (put_sum f l t _ x N)). unfold sum in *. cbn [fold_right]. lia. }
  lia.
Qed.
Lemma sum_ge2 : forall f l t t' x y, (forall x, 0 <= f x) -> t <> t' ->
  nth_error l t = Some x -> nth_error l t' = Some y -> f x + f y <= sum f l.
Proof.
  intros f l t t' x y H NE N N'. pose proof (put_sum f l t (mkth Susp SUSPENDED) x N) as E.
  assert (N2 : nth_error (put l t (mkth Susp SUSPENDED)) t' = Some y) by (rewrite put_other by exact NE; exact N').
  pose proof (put_sum f _ t' (mkth Susp SUSPENDED) y N2) as E2.
  clear E E2 N2. revert t t' NE N N'. induction l as [|z l IH]; intros [|t] [|t'] NE N N'; cbn [nth_error] in N, N'; try discriminate; try congruence.
  - injection N as ->. pose proof (sum_ge f l t' y H N'). unfold sum in *. cbn [fold_right]. lia.
  - injection N' as ->. pose proof (sum_ge f l t x H N). unfold sum in *. cbn [fold_right]. lia.
  - pose proof (H z). assert (f x + f y <= sum f l) by (apply (IH t t'); congruence). unfold sum in *. cbn [fold_right]. lia.
Qed.
Lemma sum_pos : forall f l, (forall x, 0 <= f x <= 1) -> 1 <= sum f l -> exists t x, nth_error l t = Some x /\ f x = 1.
Proof.
  intros f l H. induction l as [|y l IH]; intros P.
  - unfold sum in P. cbn [fold_right] in P. lia.
  - destruct (Z.eq_dec (f y) 1) as [E|E].
    + exists O, y. split; [ reflexivity | exact E ].
    + unfold sum in P, IH. cbn [fold_right] in P. pose proof (H y). destruct IH as (t & x & N & F); [ lia | ].
      exists (S t), x. split; [ exact N | exact F ].
Qed.

Lemma col_range : forall x, 0 <= col x <= 1.
Proof. intros [p s]. unfold col. cbn [tpc]. destruct p; lia. Qed.
Lemma wal_range : forall x, 0 <= wal x <= 1.
Proof. intros [p s]. unfold wal. cbn [tpc]. destruct p; lia. Qed.
Lemma run_range : forall x, 0 <= running x <= 1.
Proof. intros [p s]. unfold running. cbn [tst]. destruct s; lia. Qed.
Lemma col_nn : forall x, 0 <= col x. Proof. intros x. pose proof (col_range x). lia. Qed.
Lemma wal_nn : forall x, 0 <= wal x. Proof. intros x. pose proof (wal_range x). lia. Qed.
Lemma run_nn : forall x, 0 <= running x. Proof. intros x. pose proof (run_range x). lia. Qed.

(** Ways of waking threads up. *)
Record waker (w : thread -> thread) : Prop := mkw {
  w_col : forall x, col (w x) = col x;
  w_wal : forall x, wal (w x) = wal x;
  w_run : forall x, running (w x) = running x;
  w_stop : forall x, stop_asleep (tpc (w x)) = true -> w x = x;
  w_walk : forall x, walk_asleep (tpc (w x)) = true -> w x = x;
  w_ok : forall g x, okt g x -> okt g (w x)
}.
Ltac waker := constructor; [ intros [[] s] .. | intros g [[] s] [Hs Hp]; cbn [tpc tst st_of okp] in *;
    (split; [ exact Hs | try exact Logic.I; exact Hp ]) ]; try reflexivity; intros Hx; try discriminate Hx; reflexivity.
Lemma w_id : waker (fun x => x).
Proof. constructor; intros; auto. Qed.
Lemma w_helpers : waker wake_helpers. Proof. waker. Qed.
Lemma w_stopper : waker wake_stopper. Proof. waker. Qed.
Lemma w_walker : waker wake_walker. Proof. waker. Qed.

Lemma frame : forall h t x w g' n' k' e' x', waker w ->
  (forall t' x, nth_error (ths h) t' = Some x -> okt (gc h) x) ->
  Z.of_nat (length (ths h)) < BOUND ->
  nth_error (ths h) t = Some x ->
  okt g' x' ->
  (forall t' y, t' <> t -> nth_error (ths h) t' = Some y -> okt (gc h) y -> okt g' (w y)) ->
  sum col (ths h) - col x + col x' = one g' ->
  k' = sum wal (ths h) - wal x + wal x' ->
  (g' <> INIT -> n' = 0) ->
  ((stop_asleep (tpc x') = true \/ exists t' y, t' <> t /\ nth_error (ths h) t' = Some y /\ stop_asleep (tpc (w y)) = true) ->
     1 <= n' <= sum running (ths h) - running x + running x') ->
  ((walk_asleep (tpc x') = true \/ exists t' y, t' <> t /\ nth_error (ths h) t' = Some y /\ walk_asleep (tpc (w y)) = true) ->
     1 <= k') ->
  e' = negb (is_inactive g') ->
  Inv (mkheap g' n' k' e' (put (map w (ths h)) t x')).
Proof.
  intros h t x w g' n' k' e' x' W I L N O OO C K T SA WA EV.
  assert (NM : nth_error (map w (ths h)) t = Some (w x)) by (rewrite nth_error_map, N; reflexivity).
  pose proof (put_same (map w (ths h)) t x' (ex_intro _ _ NM)) as NS.
  assert (NO : forall t' y', t' <> t -> nth_error (put (map w (ths h)) t x') t' = Some y' ->
    exists y, nth_error (ths h) t' = Some y /\ y' = w y).
  { intros t' y' NE H. rewrite put_other in H by congruence. rewrite nth_error_map in H.
    destruct (nth_error (ths h) t') as [y|]; [ | discriminate H ]. injection H as <-. exists y. auto. }
  assert (SM : forall f, (forall x, f (w x) = f x) ->
    sum f (put (map w (ths h)) t x') = sum f (ths h) - f x + f x').
  { intros f F. rewrite (put_sum f _ _ _ _ NM), sum_map, F by exact F. reflexivity. }
  constructor; cbn [gc tts walk ev ths].
  - intros t' y' H. destruct (Nat.eq_dec t' t) as [->|NE].
    + rewrite NS in H. injection H as <-. exact O.
    + destruct (NO _ _ NE H) as (y & Hy & ->). apply (OO t'); auto. exact (I _ _ Hy).
  - rewrite SM by exact (w_col w W). exact C.
  - rewrite SM by exact (w_wal w W). exact K.
  - exact T.
  - intros t' y' H A. rewrite SM by exact (w_run w W). apply SA. destruct (Nat.eq_dec t' t) as [->|NE].
    + rewrite NS in H. injection H as <-. left. exact A.
    + right. destruct (NO _ _ NE H) as (y & Hy & ->). exists t', y. auto.
  - intros t' y' H A. apply WA. destruct (Nat.eq_dec t' t) as [->|NE].
    + rewrite NS in H. injection H as <-. left. exact A.
    + right. destruct (NO _ _ NE H) as (y & Hy & ->). exists t', y. auto.
  - exact EV.
  - rewrite put_length, map_length. exact L.
Qed.

Lemma u32_small : forall x, 0 <= x < BOUND -> u32 x = x.
Proof. intros x H. unfold u32, uwrap. apply Z.mod_small. unfold BOUND in H. lia. Qed.

Lemma run_bound : forall h, Inv h -> 0 <= sum running (ths h) < BOUND.
Proof.
  intros h I. pose proof (sum_nonneg running (ths h) run_nn). pose proof (i_len h I).
  pose proof (sum_le_length running (ths h) (fun x => proj2 (run_range x))). lia.
Qed.

(** The thread at [t] is the collector: no other is. *)
Lemma other_col : forall h t x t' y, Inv h -> nth_error (ths h) t = Some x -> col x = 1 ->
  t' <> t -> nth_error (ths h) t' = Some y -> col y = 0.
Proof.
  intros h t x t' y I N C NE N'. pose proof (sum_ge2 col (ths h) t' t y x col_nn NE N' N) as H.
  rewrite (i_col h I) in H. pose proof (col_range y). unfold one in H. destruct (is_inactive (gc h)); lia.
Qed.

Lemma active_col : forall h t x, Inv h -> nth_error (ths h) t = Some x -> col x = 1 ->
  sum col (ths h) = 1 /\ gc h <> INACTIVE.
Proof.
  intros h t x I N C. pose proof (sum_ge col (ths h) t x col_nn N) as H.
  rewrite (i_col h I) in *. unfold one in *. destruct (gc h); cbn [is_inactive] in *; split; try lia; discriminate.
Qed.

(** Threads other than the collector when the collector acts. *)
Lemma no_sleeper : forall h t x w, Inv h -> waker w -> nth_error (ths h) t = Some x -> col x = 1 ->
  (~ exists t' y, t' <> t /\ nth_error (ths h) t' = Some y /\ stop_asleep (tpc (w y)) = true) /\
  (~ exists t' y, t' <> t /\ nth_error (ths h) t' = Some y /\ walk_asleep (tpc (w y)) = true).
Proof.
  intros h t x w I W N C. split; intros (t' & y & NE & N' & A); pose proof (other_col h t x t' y I N C NE N') as Z0.
  - rewrite (w_stop w W y A) in A. unfold col in Z0. destruct (tpc y); try discriminate A; discriminate Z0.
  - rewrite (w_walk w W y A) in A. unfold col in Z0. destruct (tpc y); try discriminate A; discriminate Z0.
Qed.

(** A step of the collector at [t], after which it is still the collector in an
    active phase, or has finished. *)
Lemma collector_frame : forall h t x w g' n' k' e' x', Inv h -> waker w ->
  nth_error (ths h) t = Some x -> col x = 1 -> okt g' x' ->
  (forall t' y, t' <> t -> nth_error (ths h) t' = Some y -> col y = 0 -> okt (gc h) y -> okt g' (w y)) ->
  col x' = one g' ->
  k' = sum wal (ths h) - wal x + wal x' ->
  (g' <> INIT -> n' = 0) ->
  (stop_asleep (tpc x') = true -> 1 <= n' <= sum running (ths h) - running x + running x') ->
  (walk_asleep (tpc x') = true -> 1 <= k') ->
  e' = negb (is_inactive g') ->
  Inv (mkheap g' n' k' e' (put (map w (ths h)) t x')).
Proof.
  intros h t x w g' n' k' e' x' I W N C O OO CC K T SA WA EV.
  destruct (no_sleeper h t x w I W N C) as [S1 S2]. destruct (active_col h t x I N C) as [C1 _].
  apply (frame h t x); auto.
  - exact (i_ok h I).
  - exact (i_len h I).
  - intros t' y NE N' Oy. apply (OO t'); auto. exact (other_col h t x t' y I N C NE N').
  - lia.
  - intros [A|A]; [ exact (SA A) | contradiction ].
  - intros [A|A]; [ exact (WA A) | contradiction ].
Qed.

(** A step of another thread, which changes neither the phase nor wakes the collector. *)
Lemma okt_intro : forall g p s, s = st_of p -> okp g p -> okt g (mkth p s).
Proof. intros g p s H H'. split; assumption. Qed.

Lemma inv_engage : forall h t x c p, Inv h -> nth_error (ths h) t = Some x ->
  (tpc x = Run \/ tpc x = Susp) -> ((c = SUSPENDED /\ p = Susp /\ tpc x = Run) \/ (c = ENGAGED /\ p = HWoken)) ->
  Inv (engage c p t h).
Proof.
  intros h t x c p I N P CP.
  destruct (i_ok h I t x N) as [OS OP].
  assert (X : col x = 0 /\ wal x = 0 /\ running x <= 1) by (pose proof (run_range x); unfold col, wal; destruct P as [-> | ->]; lia).
  destruct X as (X1 & X2 & X3).
  assert (Y : forall g, okt g (mkth p c) /\ col (mkth p c) = 0 /\ wal (mkth p c) = 0 /\ running (mkth p c) = 0 /\
     stop_asleep p = false /\ walk_asleep p = false).
  { intros g. destruct CP as [(-> & -> & _)|(-> & ->)]; repeat split. }
  assert (F : forall n w, waker w -> (gc h <> INIT -> n = 0) ->
    ((exists t' y, t' <> t /\ nth_error (ths h) t' = Some y /\ stop_asleep (tpc (w y)) = true) -> 1 <= n <= sum running (ths h) - running x) ->
    Inv (mkheap (gc h) n (walk h) (ev h) (put (map w (ths h)) t (mkth p c)))).
  { intros n w W T SA. destruct (Y (gc h)) as (Y1 & Y2 & Y3 & Y4 & Y5 & Y6).
    apply (frame h t x); auto.
    - exact (i_ok h I).
    - exact (i_len h I).
    - intros t' y _ _ Oy. exact (w_ok w W _ _ Oy).
    - rewrite (i_col h I). lia.
    - rewrite (i_wal h I). lia.
    - cbn [tpc]. intros [A|A]; [ congruence | ]. specialize (SA A). lia.
    - cbn [tpc]. intros [A|(t' & y & NE & N' & A)]; [ congruence | ].
      apply (i_walk h I t' y N'). rewrite <- (w_walk w W y A). exact A.
    - exact (i_ev h I). }
  unfold engage. destruct (is_init (gc h)) eqn:G.
  - assert (GI : gc h = INIT) by (destruct (gc h); try discriminate G; reflexivity).
    destruct (u32 (tts h - 1) =? 0) eqn:Z0.
    + apply F; [ exact w_stopper | intros H; congruence | ].
      intros (t' & y & NE & N' & A). unfold wake_stopper in A. exfalso.
      destruct (tpc y) eqn:Ey; try discriminate A; rewrite ?Ey in A; discriminate A.
    + apply F; [ exact w_id | intros H; congruence | ].
      intros (t' & y & NE & N' & A). pose proof (i_stop h I t' y N' A) as B. pose proof (run_bound h I) as RB.
      revert Z0. rewrite u32_small by lia. intros Z0. lia.
  - apply F; [ exact w_id | exact (i_tts h I) | ].
    intros (t' & y & NE & N' & A). exfalso. destruct (i_ok h I t' y N') as [_ OY].
    destruct (tpc y); try discriminate A. cbn [okp] in OY. rewrite OY in G. discriminate G.
Qed.

Lemma inv_helper_loop : forall h t x more, Inv h -> nth_error (ths h) t = Some x -> tpc x = HWoken ->
  Inv (helper_loop more t h).
Proof.
  intros h t x more I N P.
  assert (X : col x = 0 /\ wal x = 0 /\ running x = 0).
  { destruct (i_ok h I t x N) as [OS _]. rewrite P in OS. unfold col, wal, running. rewrite P, OS. auto. }
  destruct X as (X1 & X2 & X3).
  assert (F : forall x', okt (gc h) x' -> col x' = 0 -> stop_asleep (tpc x') = false -> walk_asleep (tpc x') = false ->
    Inv (mkheap (gc h) (tts h) (walk h + wal x') (ev h) (put (map (fun x => x) (ths h)) t x'))).
  { intros x' O C S1 S2. apply (frame h t x); auto.
    - exact w_id.
    - exact (i_ok h I).
    - exact (i_len h I).
    - rewrite (i_col h I). lia.
    - rewrite (i_wal h I). lia.
    - exact (i_tts h I).
    - intros [A|(t' & y & NE & N' & A)]; [ congruence | ]. pose proof (i_stop h I t' y N' A) as B.
      pose proof (run_range x'). lia.
    - intros [A|(t' & y & NE & N' & A)]; [ congruence | ]. pose proof (i_walk h I t' y N' A) as B.
      pose proof (wal_range x'). lia.
    - exact (i_ev h I). }
  assert (F0 : forall x', okt (gc h) x' -> col x' = 0 -> wal x' = 0 -> stop_asleep (tpc x') = false -> walk_asleep (tpc x') = false ->
    Inv (mkheap (gc h) (tts h) (walk h) (ev h) (put (map (fun x => x) (ths h)) t x'))).
  { intros x' O C W S1 S2. pose proof (F x' O C S1 S2) as K. rewrite W, Z.add_0_r in K. exact K. }
  unfold helper_loop. destruct (gc h) eqn:G; rewrite ?G in F, F0.
  - apply (F0 (mkth Run CINACTIVE)); [ apply okt_intro; [ reflexivity | left; reflexivity ] | reflexivity .. ].
  - apply (F0 (mkth HSleep ENGAGED)); [ apply okt_intro; [ reflexivity | discriminate ] | reflexivity .. ].
  - apply (F (mkth (HWalk MARK) ENGAGED)); [ apply okt_intro; [ reflexivity | cbn [okp]; auto ] | reflexivity .. ].
  - apply (F0 (mkth HSleep ENGAGED)); [ apply okt_intro; [ reflexivity | discriminate ] | reflexivity .. ].
  - destruct more.
    + apply (F (mkth (HWalk UPDATE) ENGAGED)); [ apply okt_intro; [ reflexivity | cbn [okp]; auto ] | reflexivity .. ].
    + apply (F0 (mkth HSleep ENGAGED)); [ apply okt_intro; [ reflexivity | discriminate ] | reflexivity .. ].
Qed.

Lemma engage_nth : forall c p t h x, nth_error (ths h) t = Some x -> nth_error (ths (engage c p t h)) t = Some (mkth p c).
Proof.
  intros c p t h x N. unfold engage. destruct (is_init (gc h)); [ destruct (_ =? 0) | ]; cbn [ths]; apply put_same;
    eexists; rewrite nth_error_map, N; reflexivity.
Qed.

Lemma inv_help : forall h t x more, Inv h -> nth_error (ths h) t = Some x -> (tpc x = Run \/ tpc x = Susp) ->
  Inv (help more t h).
Proof.
  intros h t x more I N P. unfold help. apply inv_helper_loop with (x := mkth HWoken ENGAGED).
  - apply (inv_engage h t x); auto.
  - exact (engage_nth _ _ _ _ _ N).
  - reflexivity.
Qed.

Lemma walkers : forall h t x, Inv h -> nth_error (ths h) t = Some x -> wal x = 1 -> 1 <= walk h.
Proof. intros h t x I N W. rewrite (i_wal h I), <- W. exact (sum_ge wal _ _ _ wal_nn N). Qed.

Lemma inv_helper_end : forall h t x g, Inv h -> nth_error (ths h) t = Some x -> tpc x = HWalk g -> Inv (helper_end t h).
Proof.
  intros h t x g I N P. destruct (i_ok h I t x N) as [OS OP]. rewrite P in OS, OP. cbn [okp st_of] in OS, OP.
  assert (X : col x = 0 /\ wal x = 1 /\ running x = 0) by (unfold col, wal, running; rewrite P, OS; auto).
  destruct X as (X1 & X2 & X3). pose proof (walkers h t x I N X2) as PW.
  assert (F : forall w, waker w ->
    ((exists t' y, t' <> t /\ nth_error (ths h) t' = Some y /\ walk_asleep (tpc (w y)) = true) -> 1 <= walk h - 1) ->
    Inv (mkheap (gc h) (tts h) (walk h - 1) (ev h) (put (map w (ths h)) t (mkth HSleep ENGAGED)))).
  { intros w W WA. apply (frame h t x); auto.
    - exact (i_ok h I).
    - exact (i_len h I).
    - apply okt_intro; [ reflexivity | ]. cbn [okp]. destruct OP as [_ [-> | ->]]; discriminate.
    - intros t' y _ _ Oy. exact (w_ok w W _ _ Oy).
    - rewrite (i_col h I), X1. unfold col, one. cbn [tpc]. lia.
    - rewrite (i_wal h I), X2. unfold wal. cbn [tpc]. lia.
    - exact (i_tts h I).
    - cbn [tpc stop_asleep]. intros [A|(t' & y & NE & N' & A)]; [ discriminate A | ].
      rewrite (w_stop w W y A) in A. pose proof (i_stop h I t' y N' A) as B. change (running (mkth HSleep ENGAGED)) with 0. lia.
    - cbn [tpc walk_asleep]. intros [A|A]; [ discriminate A | exact (WA A) ].
    - exact (i_ev h I). }
  unfold helper_end. destruct (walk h - 1 =? 0) eqn:Z0.
  - apply (F wake_walker w_walker).
    intros (t' & y & NE & N' & A). exfalso. unfold wake_walker in A.
    destruct (tpc y) eqn:Ey; try discriminate A; rewrite ?Ey in A; discriminate A.
  - apply (F (fun x => x) w_id). intros _. lia.
Qed.

Lemma no_walker : forall l t y, sum wal l = 0 -> nth_error l t = Some y -> wal y = 0.
Proof. intros l t y H N. pose proof (sum_ge wal l t y wal_nn N). pose proof (wal_range y). lia. Qed.
Lemma no_walker2 : forall l t x t' y, sum wal l - wal x = 0 -> nth_error l t = Some x -> t' <> t ->
  nth_error l t' = Some y -> wal y = 0.
Proof.
  intros l t x t' y H N NE N'. pose proof (sum_ge2 wal l t' t y x wal_nn NE N' N). pose proof (wal_range y). lia.
Qed.

(** A helper or a parked thread which does not walk may see any active phase. *)
Lemma ok_quiet : forall g g' y, okt g y -> col y = 0 -> wal y = 0 -> running y = 0 -> g' <> INACTIVE -> okt g' y.
Proof.
  intros g g' [p s] [OS OP] C W R NI. cbn [tpc tst] in *. unfold col, wal, running in *. cbn [tpc tst] in *. subst s.
  split; [ reflexivity | ]. destruct p; cbn [tpc tst okp st_of] in *; try discriminate; auto.
Qed.
Lemma ok_quiet_wake : forall g g' y, okt g y -> col y = 0 -> wal y = 0 -> (running y = 0 \/ g' = INACTIVE) -> okt g' (wake_helpers y).
Proof.
  intros g g' [p s] [OS OP] C W R. cbn [tpc tst] in *. unfold col, wal, running in *. cbn [tpc tst] in *. subst s.
  destruct p; unfold wake_helpers, okt; cbn [tpc tst okp st_of] in *; try discriminate; auto.
  split; [ reflexivity | ]. destruct R as [R|R]; [ discriminate R | left; exact R ].
Qed.
Lemma active_run : forall g y, okt g y -> g <> INACTIVE -> g <> INIT -> running y = 0.
Proof.
  intros g [p s] [OS OP] N1 N2. cbn [tpc tst] in *. subst s. unfold running. cbn [tst].
  destruct p; cbn [okp st_of] in *; try reflexivity. destruct OP; contradiction.
Qed.

(** The collector, in state [h], where only [walk] or [tts] may have to be replaced,
    goes on to another phase. *)
Lemma inv_finish : forall h t x k, Inv h -> nth_error (ths h) t = Some x -> col x = 1 ->
  sum wal (ths h) - wal x = 0 -> k = 0 ->
  Inv (finish t (mkheap (gc h) 0 k (ev h) (ths h))).
Proof.
  intros h t x k I N C W ->. unfold finish. cbn [gc tts walk ev ths].
  apply (collector_frame h t x); auto.
  - exact w_helpers.
  - apply okt_intro; [ reflexivity | cbn [okp]; auto ].
  - intros t' y NE N' Cy Oy. apply (ok_quiet_wake (gc h)); auto. exact (no_walker2 _ _ _ _ _ W N NE N').
  - rewrite W. reflexivity.
  - cbn [tpc stop_asleep]. discriminate.
  - cbn [tpc walk_asleep]. discriminate.
Qed.

Lemma inv_start_walk : forall h t x g n e0 g0, Inv h -> nth_error (ths h) t = Some x -> col x = 1 ->
  sum wal (ths h) - wal x = 0 -> sum running (ths h) = 0 -> (g = MARK \/ g = UPDATE) -> n = 0 -> e0 = true ->
  Inv (start_walk g t (mkheap g0 n (sum wal (ths h) - wal x) e0 (ths h))).
Proof.
  intros h t x g n e0 g0 I N C W R G -> ->. unfold start_walk. cbn [gc tts walk ev ths].
  apply (collector_frame h t x); auto.
  - exact w_helpers.
  - apply okt_intro; [ reflexivity | cbn [okp]; auto ].
  - intros t' y NE N' Cy Oy. apply (ok_quiet_wake (gc h)); auto; [ exact (no_walker2 _ _ _ _ _ W N NE N') | left ].
    pose proof (sum_ge running _ _ _ run_nn N'). pose proof (run_range y). lia.
  - destruct G as [-> | ->]; reflexivity.
  - cbn [tpc stop_asleep]. discriminate.
  - cbn [tpc walk_asleep]. discriminate.
  - destruct G as [-> | ->]; reflexivity.
Qed.

Lemma inv_start_evac : forall h t x k n g0 e0, Inv h -> nth_error (ths h) t = Some x -> col x = 1 ->
  sum wal (ths h) - wal x = 0 -> sum running (ths h) = 0 -> k = 0 -> n = 0 -> e0 = true ->
  Inv (start_evac t (mkheap g0 n k e0 (ths h))).
Proof.
  intros h t x k n g0 e0 I N C W R -> -> ->. unfold start_evac. cbn [gc tts walk ev ths].
  apply (collector_frame h t x); auto.
  - exact w_id.
  - apply okt_intro; reflexivity.
  - intros t' y NE N' Cy Oy. apply (ok_quiet (gc h)); auto; [ exact (no_walker2 _ _ _ _ _ W N NE N') | | discriminate ].
    pose proof (sum_ge running _ _ _ run_nn N'). pose proof (run_range y). lia.
  - rewrite W. reflexivity.
  - cbn [tpc stop_asleep]. discriminate.
  - cbn [tpc walk_asleep]. discriminate.
Qed.

Lemma sum_zero : forall f l, (forall x, 0 <= f x) -> (forall t x, nth_error l t = Some x -> f x = 0) -> sum f l = 0.
Proof.
  unfold sum. intros f l H. induction l as [|x l IH]; intros A; [ reflexivity | ]. cbn [fold_right].
  rewrite (A O x eq_refl), IH; [ reflexivity | ]. intros t y N. exact (A (S t) y N).
Qed.

Lemma stopped_run : forall h, Inv h -> gc h <> INACTIVE -> gc h <> INIT -> sum running (ths h) = 0.
Proof.
  intros h I N1 N2. apply sum_zero; [ exact run_nn | ]. intros t x N. exact (active_run _ _ (i_ok h I t x N) N1 N2).
Qed.

Lemma inv_after_walk : forall h t x again k e0 g0, Inv h -> nth_error (ths h) t = Some x -> col x = 1 ->
  sum wal (ths h) - wal x = 0 -> gc h <> INIT -> k = 0 -> e0 = ev h ->
  Inv (after_walk again t (mkheap g0 (tts h) k e0 (ths h))).
Proof.
  intros h t x again k e0 g0 I N C W G -> ->. destruct (active_col h t x I N C) as [_ NI].
  rewrite (i_tts h I G). unfold after_walk. destruct again.
  - apply (inv_start_evac h t x); auto; [ exact (stopped_run h I NI G) | ].
    rewrite (i_ev h I). destruct (gc h); try reflexivity. congruence.
  - exact (inv_finish h t x 0 I N C W eq_refl).
Qed.

Lemma inv_collector_end : forall h t x again g, Inv h -> nth_error (ths h) t = Some x -> tpc x = CWalk g ->
  Inv (collector_end again g t h).
Proof.
  intros h t x again g I N P. destruct (i_ok h I t x N) as [OS OP]. rewrite P in OS, OP. cbn [okp st_of] in OS, OP.
  assert (X : col x = 1 /\ wal x = 1 /\ running x = 0) by (unfold col, wal, running; rewrite P, OS; auto).
  destruct X as (X1 & X2 & X3). pose proof (walkers h t x I N X2) as PW.
  unfold collector_end. destruct (walk h - 1 =? 0) eqn:Z0.
  - apply (inv_after_walk h t x); auto; try lia.
    + rewrite <- (i_wal h I). lia.
    + destruct OP as [_ [-> | ->]]; discriminate.
  - apply (collector_frame h t x); auto.
    + exact w_id.
    + apply okt_intro; [ reflexivity | exact OP ].
    + destruct OP as [_ [-> | ->]]; reflexivity.
    + rewrite (i_wal h I), X2. unfold wal. cbn [tpc]. lia.
    + exact (i_tts h I).
    + cbn [tpc stop_asleep]. discriminate.
    + intros _. lia.
    + exact (i_ev h I).
Qed.

Lemma inv_collector_woken : forall h t x again g, Inv h -> nth_error (ths h) t = Some x -> tpc x = CWWoken g ->
  Inv (collector_woken again g t h).
Proof.
  intros h t x again g I N P. destruct (i_ok h I t x N) as [OS OP]. rewrite P in OS, OP. cbn [okp st_of] in OS, OP.
  assert (X : col x = 1 /\ wal x = 0 /\ running x = 0) by (unfold col, wal, running; rewrite P, OS; auto).
  destruct X as (X1 & X2 & X3).
  assert (WN : 0 <= walk h) by (rewrite (i_wal h I); exact (sum_nonneg wal _ wal_nn)).
  unfold collector_woken. destruct (walk h =? 0) eqn:Z0.
  - replace h with (mkheap (gc h) (tts h) (walk h) (ev h) (ths h)) at 1 by (destruct h; reflexivity).
    apply (inv_after_walk h t x); auto; try lia.
    + rewrite <- (i_wal h I). lia.
    + destruct OP as [_ [-> | ->]]; discriminate.
  - apply (collector_frame h t x); auto.
    + exact w_id.
    + apply okt_intro; [ reflexivity | exact OP ].
    + destruct OP as [_ [-> | ->]]; reflexivity.
    + rewrite (i_wal h I), X2. unfold wal. cbn [tpc]. lia.
    + exact (i_tts h I).
    + cbn [tpc stop_asleep]. discriminate.
    + intros _. lia.
    + exact (i_ev h I).
Qed.

Lemma inv_evac_end : forall h t x more again, Inv h -> nth_error (ths h) t = Some x -> tpc x = CEvac ->
  Inv (evac_end more again t h).
Proof.
  intros h t x more again I N P. destruct (i_ok h I t x N) as [OS OP]. rewrite P in OS, OP. cbn [okp st_of] in OS, OP.
  assert (X : col x = 1 /\ wal x = 0 /\ running x = 0) by (unfold col, wal, running; rewrite P, OS; auto).
  destruct X as (X1 & X2 & X3).
  assert (W0 : sum wal (ths h) = 0).
  { apply sum_zero; [ exact wal_nn | ]. intros t' y N'. destruct (i_ok h I t' y N') as [_ OY]. rewrite OP in OY.
    unfold wal. destruct (tpc y); try reflexivity; cbn [okp] in OY; destruct OY as [_ [OY|OY]]; discriminate OY. }
  unfold evac_end. destruct more.
  - replace (walk h) with (sum wal (ths h) - wal x) by (rewrite (i_wal h I); lia).
    apply (inv_start_walk h t x); auto.
    + lia.
    + apply (stopped_run h I); rewrite OP; discriminate.
    + apply (i_tts h I). rewrite OP. discriminate.
    + rewrite (i_ev h I), OP. reflexivity.
  - apply (inv_after_walk h t x); auto; try lia.
    + rewrite OP. discriminate.
    + rewrite (i_wal h I). exact W0.
Qed.

Lemma inv_begin : forall h t x, Inv h -> nth_error (ths h) t = Some x -> tpc x = Run -> gc h = INACTIVE ->
  Inv (begin_collect t h).
Proof.
  intros h t x I N P G. destruct (i_ok h I t x N) as [OS OP]. rewrite P in OS.
  assert (X : col x = 0 /\ wal x = 0 /\ running x = 1) by (unfold col, wal, running; rewrite P, OS; auto).
  destruct X as (X1 & X2 & X3). unfold begin_collect.
  assert (NC : forall t' y, nth_error (ths h) t' = Some y -> col y = 0).
  { intros t' y N'. pose proof (sum_ge col _ _ _ col_nn N') as H. rewrite (i_col h I), G in H.
    pose proof (col_range y). unfold one in H. cbn [is_inactive] in H. lia. }
  apply (frame h t x); auto.
  - exact w_id.
  - exact (i_ok h I).
  - exact (i_len h I).
  - apply okt_intro; reflexivity.
  - intros t' y NE N' [Os Op]. split; [ exact Os | ]. rewrite G in Op.
    destruct (tpc y); cbn [okp] in *; auto; try discriminate Op; try congruence;
      destruct Op as [_ [Op|Op]]; discriminate Op.
  - rewrite (i_col h I), G, X1. reflexivity.
  - rewrite (i_wal h I), X2. change (wal (mkth CWoken ENGAGED)) with 0. lia.
  - intros H. congruence.
  - cbn [tpc stop_asleep]. intros [A|(t' & y & NE & N' & A)]; [ discriminate A | ].
    pose proof (NC _ _ N') as Z0. unfold col in Z0. destruct (tpc y); try discriminate A; discriminate Z0.
  - cbn [tpc walk_asleep]. intros [A|(t' & y & NE & N' & A)]; [ discriminate A | ].
    pose proof (NC _ _ N') as Z0. unfold col in Z0. destruct (tpc y); try discriminate A; discriminate Z0.
Qed.

Lemma inv_stop_world : forall h t x ok, Inv h -> nth_error (ths h) t = Some x -> tpc x = CWoken ->
  Inv (stop_world ok t h).
Proof.
  intros h t x ok I N P. destruct (i_ok h I t x N) as [OS OP]. rewrite P in OS, OP. cbn [okp st_of] in OS, OP.
  assert (X : col x = 1 /\ wal x = 0 /\ running x = 0) by (unfold col, wal, running; rewrite P, OS; auto).
  destruct X as (X1 & X2 & X3).
  assert (W0 : sum wal (ths h) = 0).
  { apply sum_zero; [ exact wal_nn | ]. intros t' y N'. destruct (i_ok h I t' y N') as [_ OY]. rewrite OP in OY.
    unfold wal. destruct (tpc y); try reflexivity; cbn [okp] in OY; destruct OY as [_ [OY|OY]]; discriminate OY. }
  pose proof (run_bound h I) as RB. unfold stop_world. rewrite u32_small by exact RB.
  destruct (sum running (ths h) =? 0) eqn:Z0.
  - assert (R0 : sum running (ths h) = 0) by lia. rewrite R0. destruct ok.
    + replace (walk h) with (sum wal (ths h) - wal x) by (rewrite (i_wal h I); lia).
      apply (inv_start_walk h t x); auto; [ lia | ]. rewrite (i_ev h I), OP. reflexivity.
    + apply (inv_finish h t x); auto; [ lia | ]. rewrite (i_wal h I). exact W0.
  - apply (collector_frame h t x); auto.
    + exact w_id.
    + apply okt_intro; [ reflexivity | exact OP ].
    + rewrite OP. reflexivity.
    + rewrite (i_wal h I), X2. unfold wal. cbn [tpc]. lia.
    + intros H. congruence.
    + intros _. rewrite X3. change (running (mkth CSleep ENGAGED)) with 0. lia.
    + cbn [tpc walk_asleep]. discriminate.
    + exact (i_ev h I).
Qed.

(** A thread which wakes up for no reason. *)
Lemma inv_spurious : forall h t x p, Inv h -> nth_error (ths h) t = Some x ->
  (tpc x = HSleep /\ p = HWoken) \/ (tpc x = CSleep /\ p = CWoken) \/ (exists g, tpc x = CWSleep g /\ p = CWWoken g) ->
  Inv (mkheap (gc h) (tts h) (walk h) (ev h) (put (map (fun x => x) (ths h)) t (mkth p (tst x)))).
Proof.
  intros h t x p I N P. destruct (i_ok h I t x N) as [OS OP].
  assert (X : okt (gc h) (mkth p (tst x)) /\ col (mkth p (tst x)) = col x /\ wal (mkth p (tst x)) = wal x /\
    running (mkth p (tst x)) = running x /\ stop_asleep p = false /\ walk_asleep p = false).
  { rewrite OS. unfold okt, col, wal, running. cbn [tpc tst]. rewrite OS.
    destruct P as [(E1 & ->)|[(E1 & ->)|(g & E1 & ->)]]; rewrite E1 in *; cbn [okp st_of stop_asleep walk_asleep] in *; auto 10. }
  destruct X as (X0 & X1 & X2 & X3 & X4 & X5).
  apply (frame h t x); auto.
  - exact w_id.
  - exact (i_ok h I).
  - exact (i_len h I).
  - rewrite (i_col h I). lia.
  - rewrite (i_wal h I). lia.
  - exact (i_tts h I).
  - cbn [tpc]. intros [A|(t' & y & NE & N' & A)]; [ congruence | ]. pose proof (i_stop h I t' y N' A). lia.
  - cbn [tpc]. intros [A|(t' & y & NE & N' & A)]; [ congruence | ]. exact (i_walk h I t' y N' A).
  - exact (i_ev h I).
Qed.

Lemma inv_resume : forall h t x, Inv h -> nth_error (ths h) t = Some x -> tpc x = Susp -> gc h = INACTIVE ->
  Inv (mkheap (gc h) (tts h) (walk h) (ev h) (put (map (fun x => x) (ths h)) t (mkth Run CINACTIVE))).
Proof.
  intros h t x I N P G. destruct (i_ok h I t x N) as [OS OP]. rewrite P in OS.
  assert (X : col x = 0 /\ wal x = 0 /\ running x = 0) by (unfold col, wal, running; rewrite P, OS; auto).
  destruct X as (X1 & X2 & X3).
  apply (frame h t x); auto.
  - exact w_id.
  - exact (i_ok h I).
  - exact (i_len h I).
  - apply okt_intro; [ reflexivity | cbn [okp]; auto ].
  - rewrite (i_col h I), X1. unfold col, one. cbn [tpc]. lia.
  - rewrite (i_wal h I), X2. unfold wal. cbn [tpc]. lia.
  - exact (i_tts h I).
  - cbn [tpc stop_asleep]. intros [A|(t' & y & NE & N' & A)]; [ discriminate A | ].
    pose proof (i_stop h I t' y N' A) as B. change (running (mkth Run CINACTIVE)) with 1. lia.
  - cbn [tpc walk_asleep]. intros [A|(t' & y & NE & N' & A)]; [ discriminate A | ]. exact (i_walk h I t' y N' A).
  - exact (i_ev h I).
Qed.

Lemma begin_nth : forall t h x, nth_error (ths h) t = Some x ->
  nth_error (ths (begin_collect t h)) t = Some (mkth CWoken ENGAGED).
Proof.
  intros t h x N. unfold begin_collect. cbn [ths]. apply put_same. eexists. rewrite nth_error_map, N. reflexivity.
Qed.

Lemma inactive_eq : forall g, is_inactive g = true -> g = INACTIVE.
Proof. intros []; intros H; try discriminate H; reflexivity. Qed.

Lemma inv_step : forall h t a h', Inv h -> step t a h = Some h' -> Inv h'.
Proof.
  intros h t a h' I H. unfold step in H. destruct (nth_error (ths h) t) as [x|] eqn:N; [ | discriminate H ].
  destruct (tpc x) eqn:P; destruct a; try discriminate H;
    match type of H with Some ?u = Some ?v => assert (v = u) as -> by congruence; clear H end.
  - apply (inv_engage h t x); auto.
  - destruct (is_inactive (gc h)); [ exact I | ]. apply (inv_help h t x); auto.
  - destruct (is_inactive (gc h)) eqn:G; [ | apply (inv_help h t x); auto ].
    apply inactive_eq in G. apply inv_stop_world with (x := mkth CWoken ENGAGED); [ | exact (begin_nth _ _ _ N) | reflexivity ].
    apply (inv_begin h t x); auto.
  - destruct (is_inactive (gc h)) eqn:G; [ | apply (inv_help h t x); auto ].
    apply inactive_eq in G. apply (inv_resume h t x); auto.
  - apply (inv_spurious h t x); auto.
  - apply (inv_helper_loop h t x); auto.
  - apply (inv_helper_end h t x g); auto.
  - apply (inv_spurious h t x); auto.
  - apply (inv_stop_world h t x); auto.
  - apply (inv_collector_end h t x); auto.
  - apply (inv_spurious h t x); eauto.
  - apply (inv_collector_woken h t x); auto.
  - apply (inv_evac_end h t x); auto.
Qed.

Lemma inv_init : forall n, Z.of_nat n < BOUND -> Inv (init n).
Proof.
  intros n L.
  assert (HN : forall t x, nth_error (repeat (mkth Susp SUSPENDED) n) t = Some x -> x = mkth Susp SUSPENDED).
  { intros t x Hx. apply nth_error_In in Hx. apply repeat_spec in Hx. exact Hx. }
  constructor; cbn [init gc tts walk ev ths].
  - intros t x Hx. rewrite (HN _ _ Hx). split; [ reflexivity | exact Logic.I ].
  - apply sum_zero; [ exact col_nn | ]. intros t x Hx. rewrite (HN _ _ Hx). reflexivity.
  - symmetry. apply sum_zero; [ exact wal_nn | ]. intros t x Hx. rewrite (HN _ _ Hx). reflexivity.
  - reflexivity.
  - intros t x Hx A. rewrite (HN _ _ Hx) in A. discriminate A.
  - intros t x Hx A. rewrite (HN _ _ Hx) in A. discriminate A.
  - reflexivity.
  - rewrite repeat_length. exact L.
Qed.

Lemma inv_reachable : forall n h, Z.of_nat n < BOUND -> reachable n h -> Inv h.
Proof.
  intros n h L R. induction R as [|h t a h' R IH ST]; [ exact (inv_init n L) | exact (inv_step h t a h' IH ST) ].
Qed.
