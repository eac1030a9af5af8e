(* C19, C88-C91: buffer.pack and buffer.unpack. *)
From Coq Require Import ZArith List Lia Bool ZifyBool.
Import ListNotations.
From Verif Require Import Base ListZ IndexModel ArraySpec Utf8Model Utf8Spec BufferModel BufferSpec BufferProofs ArrayProofs StringProofs2
  PackModel PackSpec PackProofs PackProofs2 PackProofs3 PackProofs4 PackProofs5 PackProofs6.
Local Open Scope Z_scope.
Ltac Zify.zify_post_hook ::= idtac.

(* the values fit in a buffer holding [old], see C88 and C90 for the others *)
Definition fits (b : buf) (old : list Z) (ds : list dir) (vs : list pv) : Prop :=
  len old + total_room ds + string_room vs <= 4294967232 /\ len vs + 1 < 2 ^ 32 /\
  (In VSelf vs -> old <> []) /\ (0 < len (b_data b) \/ ~ In (VStr []) vs) /\ Forall wf_pv vs.

(* a format has at most one reading *)
Theorem format_unambiguous : forall big s ds ds', format big s ds -> format big s ds' -> ds = ds'.
Proof.
  intros big s ds ds' F F'. pose proof (format_parse big s ds F (length s) ltac:(lia)).
  pose proof (format_parse big s ds' F' (length s) ltac:(lia)). congruence.
Qed.

Lemma format_wf : forall big s ds, format big s ds -> Forall dir_wf ds.
Proof.
  intros big s ds F. pose proof (format_parse big s ds F (length s) ltac:(lia)) as P.
  pose proof (parse_wf (length s) big s ltac:(lia)) as W. rewrite P in W. exact W.
Qed.

(* pack appends to the buffer exactly the bytes described by the format, or raises an exception
   if a value is missing or has a wrong type or a field has a wrong size *)
Theorem pack_writes_layout : forall fp b old s ds args, brep b old -> format false s ds -> fits b old ds (values_of args) ->
  match layout_of fp old ds (values_of args) with
  | Some x => exists st, pack fp b s args = POk st /\ brep (p_buf st) (old ++ x)
  | None => exists st, pack fp b s args = PExn st
  end.
Proof.
  intros fp b old s ds args Hr F (RM & LN & SELF & ST & WF). unfold pack. rewrite process_parse by lia.
  rewrite (format_parse false s ds F (length s) ltac:(lia)). cbn [fst snd].
  pose proof (pack_all fp ds b old s args Hr (format_wf _ _ _ F) WF RM LN SELF ST) as P.
  destruct (layout_of fp old ds (values_of args)) as [x |].
  - destruct P as (st & -> & Hr'). eauto.
  - destruct P as (st & ->). eauto.
Qed.

(* a string which is not a format is never accepted; if what precedes the error fits, an exception is raised *)
Theorem pack_bad_format : forall fp b old s args, brep b old -> (forall ds, ~ format false s ds) ->
  (forall st, pack fp b s args <> POk st) /\
  ((forall s1 s2 ds, s = s1 ++ s2 -> format false s1 ds -> fits b old ds (values_of args)) -> exists st, pack fp b s args = PExn st).
Proof.
  intros fp b old s args Hr NF.
  assert (NP : snd (parse (length s) false s) = false).
  { destruct (snd (parse (length s) false s)) eqn:E; [| reflexivity]. exfalso.
    apply (NF (fst (parse (length s) false s))). apply parse_format; [lia | exact E]. }
  unfold pack. rewrite process_parse by lia. rewrite NP. split.
  - intros st. destruct (run_dirs _ _ _); discriminate.
  - intros FT. destruct (parse_prefix (length s) false s ltac:(lia)) as (s1 & s2 & E & F).
    destruct (FT s1 s2 _ E F) as (RM & LN & SELF & ST & WF).
    pose proof (pack_all fp _ b old s args Hr (parse_wf (length s) false s ltac:(lia)) WF RM LN SELF ST) as P.
    destruct (layout_of fp old (fst (parse (length s) false s)) (values_of args)) as [x |].
    + destruct P as (st & -> & _). eauto.
    + destruct P as (st & ->). eauto.
Qed.

(* where unpack begins *)
Definition start (pos : option Z) (n : Z) : Z :=
  match pos with None => 0 | Some p => if p <? 0 then Z.max 0 (p + n) else Z.min p n end.

Lemma start_ok : forall pos n, 0 <= n -> get_index_arg pos 0 n VoidIsBegin = start pos n /\ 0 <= start pos n <= n.
Proof.
  intros [p |] n N; unfold get_index_arg, start; [| lia].
  destruct (Z.ltb_spec p 0).
  - destruct (Z.ltb_spec (p + n) 0); [lia |]. destruct (Z.ltb_spec n (p + n)); lia.
  - destruct (Z.ltb_spec p 0); [lia |]. destruct (Z.ltb_spec n p); lia.
Qed.

Definition readable (l : list Z) (ds : list dir) : Prop :=
  Forall (fun d => dir_room d + len l < 2 ^ 32) ds /\ len l < 2 ^ 31.

(* unpack returns exactly the values described by the format, or raises an exception if there are none,
   and never touches anything outside of the buffer *)
Theorem unpack_reads_layout : forall fp addr b l s ds pos, brep b l -> Forall is_byte l -> format false s ds -> readable l ds ->
  match unpack fp addr b s pos with
  | POk st => forall vs, unpacks fp ds (skipn (Z.to_nat (start pos (len l))) l) vs <-> vs = u_out st
  | PExn _ => forall vs, ~ unpacks fp ds (skipn (Z.to_nat (start pos (len l))) l) vs
  | PBad => False
  end.
Proof.
  intros fp addr b l s ds pos Hr FB F [RM S31]. pose proof Hr as (Hs & _). unfold unpack. rewrite process_parse by lia.
  rewrite (format_parse false s ds F (length s) ltac:(lia)). cbn [fst snd].
  destruct (start_ok pos (len l) (len_nonneg _ l)) as [GE SB]. rewrite Hs, GE.
  set (k := start pos (len l)) in *. clearbody k.
  assert (LP : len (firstn (Z.to_nat k) l) = k) by (rewrite len_firstn; lia).
  assert (FB' : Forall is_byte (skipn (Z.to_nat k) l)) by (rewrite <- (firstn_skipn (Z.to_nat k) l) in FB; apply Forall_app in FB; apply FB).
  pose proof (unpack_all fp addr ds b (firstn (Z.to_nat k) l) (skipn (Z.to_nat k) l) []) as P.
  rewrite firstn_skipn, LP in P. specialize (P Hr (format_wf _ _ _ F) FB' RM S31). cbn [app] in P.
  destruct (run_dirs (unpack_format fp addr b) ds (mkust [] k)) as [st | |]; [| exact P | exact P].
  destruct P as (vs & -> & U & UN). intros vs'. split; [apply UN | intros ->; exact U].
Qed.

Theorem unpack_bad_format : forall fp addr b l s pos, brep b l -> Forall is_byte l -> (forall ds, ~ format false s ds) ->
  (forall st, unpack fp addr b s pos <> POk st) /\
  ((forall s1 s2 ds, s = s1 ++ s2 -> format false s1 ds -> readable l ds) -> exists st, unpack fp addr b s pos = PExn st).
Proof.
  intros fp addr b l s pos Hr FB NF. pose proof Hr as (Hs & _).
  assert (NP : snd (parse (length s) false s) = false).
  { destruct (snd (parse (length s) false s)) eqn:E; [| reflexivity]. exfalso.
    apply (NF (fst (parse (length s) false s))). apply parse_format; [lia | exact E]. }
  unfold unpack. rewrite process_parse by lia. rewrite NP. split.
  - intros st. destruct (run_dirs _ _ _); discriminate.
  - intros FT. destruct (parse_prefix (length s) false s ltac:(lia)) as (s1 & s2 & E & F).
    destruct (FT s1 s2 _ E F) as (RM & S31).
    destruct (start_ok pos (len l) (len_nonneg _ l)) as [GE SB]. rewrite Hs, GE.
    set (k := start pos (len l)) in *. clearbody k.
    assert (LP : len (firstn (Z.to_nat k) l) = k) by (rewrite len_firstn; lia).
    assert (FB' : Forall is_byte (skipn (Z.to_nat k) l)) by (rewrite <- (firstn_skipn (Z.to_nat k) l) in FB; apply Forall_app in FB; apply FB).
    pose proof (unpack_all fp addr (fst (parse (length s) false s)) b (firstn (Z.to_nat k) l) (skipn (Z.to_nat k) l) []) as P.
    rewrite firstn_skipn, LP in P. specialize (P Hr (parse_wf (length s) false s ltac:(lia)) FB' RM S31).
    destruct (run_dirs (unpack_format fp addr b) (fst (parse (length s) false s)) (mkust [] k)) as [st | |]; [eauto | eauto | contradiction].
Qed.

(* unpack after pack returns the packed values *)
Theorem pack_unpack : forall fp addr b old s ds args, brep b old -> Forall is_byte old -> format false s ds ->
  fits b old ds (values_of args) -> exact_all fp ds (values_of args) ->
  forall st, pack fp b s args = POk st ->
  exists x, brep (p_buf st) (old ++ x) /\
  (readable (old ++ x) ds -> exists i, unpack fp addr (p_buf st) s (Some (len old)) = POk (mkust (used ds (values_of args)) i)).
Proof.
  intros fp addr b old s ds args Hr FB F FT EX st PK. pose proof (pack_writes_layout fp b old s ds args Hr F FT) as P.
  destruct (layout_of fp old ds (values_of args)) as [x |] eqn:LO; [| destruct P as [st' P]; congruence].
  destruct P as (st' & P & Hr'). assert (st' = st) by congruence. subst st'. exists x. split; [exact Hr' |]. intros RD.
  destruct (layout_unpacks fp ds (values_of args) old x (format_wf _ _ _ F) EX LO) as [Fx U].
  pose proof (unpack_reads_layout fp addr (p_buf st) (old ++ x) s ds (Some (len old)) Hr' ltac:(apply Forall_app; auto) F RD) as Q.
  assert (ST : start (Some (len old)) (len (old ++ x)) = len old).
  { unfold start. rewrite len_app. pose proof (len_nonneg _ old). pose proof (len_nonneg _ x). destruct (Z.ltb_spec (len old) 0); lia. }
  rewrite ST, skipn_app_len in Q by reflexivity.
  destruct (unpack fp addr (p_buf st) s (Some (len old))) as [[out i] | |]; [| exfalso; exact (Q _ U) | contradiction].
  apply Q in U. cbn [u_out] in U. exists i. rewrite U. reflexivity.
Qed.

(* a string made from any range of a buffer: the range is checked, the bytes must be UTF-8 *)
Theorem string_from_range : forall addr b l from to_, brep b l -> Forall is_byte l -> 0 <= from -> 0 <= to_ ->
  match string_from_buffer addr b from to_ with
  | POk cs => from <= to_ <= len l /\ text false (firstn (Z.to_nat (to_ - from)) (skipn (Z.to_nat from) l)) cs /\ len cs <= 65535
  | PExn _ => to_ < from \/ len l < to_ \/
      forall cs, text false (firstn (Z.to_nat (to_ - from)) (skipn (Z.to_nat from) l)) cs -> 65535 < len cs
  | PBad => False
  end.
Proof.
  intros addr b l from to_ (Hs & He & _ & t & Hd) FB F0 T0. destruct b as [bs bd be]. cbn [b_size b_ext b_data] in *. subst bs be bd.
  destruct (Z.lt_ge_cases to_ from) as [LT | GE].
  { unfold string_from_buffer. cbn [b_size]. destruct (Z.ltb_spec to_ from); [| lia]. cbn [orb]. left; exact LT. }
  destruct (Z.lt_ge_cases (len l) to_) as [LT | GE2].
  { unfold string_from_buffer. cbn [b_size]. destruct (Z.ltb_spec to_ from); [lia |]. destruct (Z.ltb_spec (len l) to_); [| lia]. cbn [orb]. right; left; exact LT. }
  set (x := firstn (Z.to_nat (to_ - from)) (skipn (Z.to_nat from) l)).
  assert (LF : len (firstn (Z.to_nat from) l) = from) by (rewrite len_firstn; lia).
  assert (LS : len (skipn (Z.to_nat from) l) = len l - from).
  { pose proof (firstn_skipn (Z.to_nat from) l) as FS. apply (f_equal len) in FS. rewrite len_app in FS. lia. }
  assert (LX : len x = to_ - from) by (unfold x; rewrite len_firstn; lia).
  assert (EL : l ++ t = firstn (Z.to_nat from) l ++ x ++ skipn (Z.to_nat (to_ - from)) (skipn (Z.to_nat from) l) ++ t).
  { unfold x. rewrite (app_assoc (firstn (Z.to_nat (to_ - from)) _)), firstn_skipn, app_assoc, firstn_skipn. reflexivity. }
  assert (FX : Forall is_byte x).
  { rewrite <- (firstn_skipn (Z.to_nat from) l) in FB. apply Forall_app in FB. destruct FB as [_ FB].
    rewrite <- (firstn_skipn (Z.to_nat (to_ - from)) (skipn (Z.to_nat from) l)) in FB. apply Forall_app in FB. apply FB. }
  rewrite EL. pose proof (string_from_ok addr (firstn (Z.to_nat from) l) x (skipn (Z.to_nat (to_ - from)) (skipn (Z.to_nat from) l) ++ t) (len l) FX ltac:(lia)) as P.
  rewrite LF, LX in P. replace (from + (to_ - from)) with to_ in P by lia.
  destruct (string_from_buffer addr _ from to_) as [cs | |]; [split; [lia | exact P] | | exact P].
  right; right. intros cs T. destruct (Z.lt_ge_cases 65535 (len cs)); [assumption | exfalso; apply (P cs T); lia].
Qed.

Example demo_string_from_range :
  string_from_buffer 0 (buf_of [65; 195; 169; 66]) 1 3 = POk [233] /\ string_from_buffer 0 (buf_of [65; 195; 169; 66]) 1 2 = PExn tt /\ string_from_buffer 0 (buf_of [65; 195; 169; 66]) 2 5 = PExn tt.
Proof. vm_compute. repeat split. Qed.

(* examples; the floating-point conversions are not used by them *)
Definition demo_fp : fpops := {| f_int := fun _ => None; f_of_int := fun _ => 0; f_to32 := fun _ => 0; f_of32 := fun _ => 0 |}.

Example demo_format : format false [62; 117; 50; 32; 51; 120; 60; 105; 49] [mkdir true 117 (Some 2) 1; mkdir true 120 (Some 1) 3; mkdir false 105 (Some 1) 1].
Proof. apply (parse_format 9 false [62; 117; 50; 32; 51; 120; 60; 105; 49]); [cbn; lia | reflexivity]. Qed.

(* ">u2 3x<i1 s" of 258, -1 and "h" and U+00E9 *)
Definition demo_fmt := [62; 117; 50; 32; 51; 120; 60; 105; 49; 32; 115].
Example demo_pack :
  match pack demo_fp (buf_of [9]) demo_fmt [VInt 258; VInt (-1); VStr [104; 233]] with
  | POk st => bytes_of (p_buf st) = [9; 1; 2; 0; 0; 0; 255; 104; 195; 169] /\
              unpack demo_fp 0 (p_buf st) demo_fmt (Some 1) = POk (mkust [VInt 258; VInt (-1); VStr [104; 233]] 10)
  | _ => False
  end.
Proof. vm_compute. split; reflexivity. Qed.

Example demo_pack_error :
  match pack demo_fp (buf_of [9]) [117; 51] [VInt 258] with PExn _ => True | _ => False end /\
  match pack demo_fp (buf_of [9]) [117; 50] [VStr [65]] with PExn _ => True | _ => False end /\
  match unpack demo_fp 0 (buf_of [9]) [117; 50] None with PExn _ => True | _ => False end.
Proof. vm_compute. repeat split. Qed.

(* C88: neither function touches memory outside of the storage.  Refuted: size * count is computed with
   32 bits; "2s2147483648" writes and "65536b65536" reads outside. *)
Theorem pack_in_bounds_refuted : ~ (forall fp b old s args, brep b old -> Forall is_byte old -> Forall wf_pv args -> pack fp b s args <> PBad).
Proof.
  intros H. specialize (H demo_fp (buf_of [65]) [65] [50; 115; 50; 49; 52; 55; 52; 56; 51; 54; 52; 56] [VStr [66]; VStr [67]]).
  apply H; [apply buf_of_rep; unfold len; cbn; lia | repeat constructor; unfold is_byte; lia | repeat constructor; lia | vm_compute; reflexivity].
Qed.

Theorem unpack_in_bounds_refuted : ~ (forall fp addr b l s pos, brep b l -> Forall is_byte l -> unpack fp addr b s pos <> PBad).
Proof.
  intros H. specialize (H demo_fp 0 (buf_of [65]) [65] [54; 53; 53; 51; 54; 98; 54; 53; 53; 51; 54] None).
  apply H; [apply buf_of_rep; unfold len; cbn; lia | repeat constructor; unfold is_byte; lia | vm_compute; reflexivity].
Qed.

Theorem pack_in_bounds : forall fp b old s args, brep b old ->
  (forall s1 s2 ds, s = s1 ++ s2 -> format false s1 ds -> fits b old ds (values_of args)) -> pack fp b s args <> PBad.
Proof.
  intros fp b old s args Hr FT. unfold pack. rewrite process_parse by lia.
  destruct (parse_prefix (length s) false s ltac:(lia)) as (s1 & s2 & E & F).
  destruct (FT s1 s2 _ E F) as (RM & LN & SELF & ST & WF).
  pose proof (pack_all fp _ b old s args Hr (parse_wf (length s) false s ltac:(lia)) WF RM LN SELF ST) as P.
  destruct (layout_of fp old (fst (parse (length s) false s)) (values_of args)) as [x |].
  - destruct P as (st & -> & _). destruct (snd (parse (length s) false s)); discriminate.
  - destruct P as (st & ->). discriminate.
Qed.

Example demo_in_bounds : pack demo_fp (buf_of [65]) [50; 115; 51] [VStr [66]; VStr [67]] <> PBad /\
  pack demo_fp (buf_of [65]) [50; 115; 50; 49; 52; 55; 52; 56; 51; 54; 52; 56] [VStr [66]; VStr [67]] = PBad.
Proof. split; vm_compute; [discriminate | reflexivity]. Qed.

(* C89: a pack which fails leaves the buffer as it was.  Refuted: the room has been added already, and its bytes are not set. *)
Theorem failed_pack_refuted : ~ (forall fp b old s args st, brep b old -> Forall is_byte old -> pack fp b s args = PExn st ->
  brep (p_buf st) old \/ exists x, Forall is_byte x /\ brep (p_buf st) (old ++ x)).
Proof.
  intros H.
  destruct (pack demo_fp (buf_of [65]) [117; 52] []) as [st | st |] eqn:P; [vm_compute in P; discriminate P | | vm_compute in P; discriminate P].
  assert (BO : bytes_of (p_buf st) = [65; junk; junk; junk; junk]) by (vm_compute in P; injection P as <-; reflexivity).
  specialize (H demo_fp (buf_of [65]) [65] [117; 52] [] st ltac:(apply buf_of_rep; unfold len; cbn; lia) ltac:(repeat constructor; unfold is_byte; lia) P).
  destruct H as [Hr | (x & Fx & Hr)]; apply brep_bytes in Hr; rewrite BO in Hr; [discriminate Hr |].
  injection Hr as Hx. subst x. inversion Fx as [| a l B _]; subst. unfold is_byte, junk in B. lia.
Qed.

Example demo_failed_pack :
  match pack demo_fp (buf_of [65]) [117; 52] [] with PExn st => bytes_of (p_buf st) = [65; junk; junk; junk; junk] | _ => False end.
Proof. vm_compute. reflexivity. Qed.

(* C90: a buffer packed into itself contributes its previous bytes, and an empty string contributes nothing.
   Refuted for empty buffers: the bytes are not set, and packing the empty string raises an exception.
   (With a buffer which is not empty this is part of pack_writes_layout.) *)
Theorem pack_self_refuted : exists st, pack demo_fp (new_buffer 0) [98; 52] [VSelf] = POk st /\
  layout_of demo_fp [] [mkdir false 98 (Some 4) 1] [VSelf] = Some [0; 0; 0; 0] /\
  bytes_of (p_buf st) = [junk; junk; junk; junk].
Proof. eexists. split; [vm_compute; reflexivity |]. split; vm_compute; reflexivity. Qed.

Theorem pack_empty_string_refuted : layout_of demo_fp [] [mkdir false 115 None 1] [VStr []] = Some [] /\
  exists st, pack demo_fp (new_buffer 0) [115] [VStr []] = PExn st.
Proof. split; [reflexivity |]. eexists. vm_compute. reflexivity. Qed.

Theorem pack_self : forall fp b old n s, brep b old -> old <> [] -> 0 <= n -> len old + n <= 4294967232 ->
  format false s [mkdir false 98 (Some n) 1] ->
  exists st, pack fp b s [VSelf] = POk st /\ brep (p_buf st) (old ++ fit n old).
Proof.
  intros fp b old n s Hr NE N0 LE F.
  assert (FT : fits b old [mkdir false 98 (Some n) 1] (values_of [VSelf])).
  { unfold fits. cbn [values_of total_room fold_right dir_room d_size d_count string_room].
    split; [lia |]. split; [reflexivity |]. split; [auto |]. split; [right; intros [E | []]; discriminate E | repeat constructor]. }
  pose proof (pack_writes_layout fp b old s _ [VSelf] Hr F FT) as P. cbn [values_of layout_of] in P.
  unfold dir_bytes in P. cbn [d_chr d_size d_count d_big] in P. change (98 =? 120) with false in P. cbv iota in P.
  change (field_ok 98 (Some n) && (1 <=? len [VSelf])) with true in P. cbv iota in P.
  change (Z.to_nat 1) with 1%nat in P. cbn [firstn fields field] in P.
  change ((98 =? 117) || (98 =? 105)) with false in P. change (98 =? 102) with false in P. change (98 =? 98) with true in P. cbv iota in P.
  cbn [option_map] in P. rewrite !app_nil_r in P. exact P.
Qed.

Example demo_pack_self :
  match pack demo_fp (buf_of [7; 8]) [98; 51] [VSelf] with POk st => bytes_of (p_buf st) = [7; 8; 7; 8; 0] | _ => False end.
Proof. vm_compute. reflexivity. Qed.

Definition pads (ds : list dir) : Z := fold_right (fun d n => (if d_chr d =? 120 then d_count d else 0) + n) 0 ds.
Lemma pads_fit : forall fp ds l vs, unpacks fp ds l vs -> pads ds <= len l.
Proof.
  intros fp ds l vs U. induction U as [l | big n x ds l vs L U IH | big c n ds l vs U IH NX | big c n k x ds l vs ws NX K FO R U IH | big ds l cs ws T LC U IH];
    unfold pads in *; cbn [fold_right d_chr d_count] in *.
  - apply len_nonneg.
  - change (120 =? 120) with true. cbv iota. rewrite len_app. lia.
  - destruct (Z.eqb_spec c 120); lia.
  - destruct (Z.eqb_spec c 120); [contradiction |]. rewrite len_app. pose proof (len_nonneg _ x). lia.
  - change (115 =? 120) with false. cbv iota. change (len (@nil Z)) with 0 in IH. pose proof (len_nonneg _ l). lia.
Qed.

(* C91: unpack reads from left to right, each byte at most once.  Refuted: the position wraps at 2^32. *)
Theorem unpack_forward_refuted : exists s st, unpack demo_fp 0 (buf_of [65; 66; 67; 68; 69; 70; 71; 72]) s None = POk st /\
  u_out st = [VInt 65; VInt 65] /\ (forall ds vs, format false s ds -> ~ unpacks demo_fp ds [65; 66; 67; 68; 69; 70; 71; 72] vs).
Proof.
  (* "u1 7x 4294967288x u1" *)
  exists [117; 49; 32; 55; 120; 32; 52; 50; 57; 52; 57; 54; 55; 50; 56; 56; 120; 32; 117; 49].
  eexists. split; [vm_compute; reflexivity |]. split; [reflexivity |]. intros ds vs F U.
  pose proof (format_parse _ _ _ F _ (le_n _)) as P. vm_compute in P. injection P as <-.
  apply pads_fit in U. vm_compute in U. apply U. reflexivity.
Qed.

Print Assumptions format_unambiguous.
Print Assumptions pack_writes_layout.
Print Assumptions pack_bad_format.
Print Assumptions unpack_reads_layout.
Print Assumptions unpack_bad_format.
Print Assumptions pack_unpack.
Print Assumptions string_from_range.
Print Assumptions pack_in_bounds_refuted.
Print Assumptions unpack_in_bounds_refuted.
Print Assumptions pack_in_bounds.
Print Assumptions failed_pack_refuted.
Print Assumptions pack_self_refuted.
Print Assumptions pack_empty_string_refuted.
Print Assumptions pack_self.
Print Assumptions unpack_forward_refuted.
