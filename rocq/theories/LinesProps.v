(** Properties C126 to C128: reading lines of files. *)
From Coq Require Import ZArith List Lia Bool ZifyBool.
Import ListNotations.
From Verif Require Import Base ListZ Utf8Spec Utf8Model LinesSpec LinesModel LinesProofs.
Local Open Scope Z_scope.
Ltac Zify.zify_post_hook ::= idtac.

(** C126: the lines do not depend on how the text is cut into parts. *)
Theorem read_lines_chunk_independent : forall keep strs,
  Forall (fun s => s <> []) strs ->
  outer keep [] strs = lines_of keep (concat strs).
Proof. intros keep strs H. exact (outer_spec keep strs [] H). Qed.

(** The specification: lines with their ends are the text, and lines without
    have no character which ends a line. *)
Theorem read_lines_lossless : forall strs,
  Forall (fun s => s <> []) strs ->
  concat (outer true [] strs) = concat strs /\
  Forall (Forall (fun c => ends_line c = false)) (outer false [] strs).
Proof.
  intros strs H. rewrite !outer_spec by exact H.
  split; [ exact (lines_concat _ _ [] (le_n _)) | exact (lines_no_end _ _ [] (le_n _) (Forall_nil _)) ].
Qed.

Example read_lines_ex :
  outer false [] [[97; 13]; [10; 98; 8232]; [13]; [13; 99]] = [[97]; [98]; []; []; [99]] /\
  outer true [] [[97; 13]; [10; 98; 8232]; [13]; [13; 99]] = [[97; 13; 10]; [98; 8232]; [13]; [13]; [99]] /\
  lines_of true [97; 13; 10; 98; 8232; 13; 13; 99] = [[97; 13; 10]; [98; 8232]; [13]; [13]; [99]].
Proof. repeat split. Qed.

(** C127: read_lines of a file.  When no part begins or ends within a character
    the lines are the ones of the text; this is always so for ASCII. *)
Theorem read_lines_file_partial : forall addr keep gran bytes css,
  Forall is_byte bytes ->
  chunks (Z.to_nat (if gran <=? 0 then 4096 else gran)) bytes css ->
  read_lines addr keep gran bytes = (lines_of keep (concat css), false).
Proof. intros addr keep gran bytes css HB H. exact (read_lines_chunks addr keep gran bytes css H HB). Qed.

Theorem read_lines_ascii_partial : forall addr keep gran bytes,
  Forall (fun b => 0 <= b <= 127) bytes -> gran <= 65535 ->
  read_lines addr keep gran bytes = (lines_of keep bytes, false).
Proof.
  intros addr keep gran bytes HB HG.
  destruct (ascii_chunks (Z.to_nat (chunk_size gran))
              ltac:(unfold chunk_size; destruct (gran <=? 0) eqn:E; lia)
              ltac:(unfold chunk_size; destruct (gran <=? 0) eqn:E; lia)
              (length bytes) bytes (le_n _) HB) as (css & C1 & C2).
  rewrite (read_lines_chunks addr keep gran bytes css C1).
  - rewrite C2. reflexivity.
  - eapply Forall_impl; [ | exact HB ]. unfold is_byte. intros a Ha. cbn beta in Ha. lia.
Qed.

(** For each granularity, there is a file with valid UTF-8 text, one line without
    an end, for which read_lines throws before it yields anything. *)
Theorem read_lines_utf8_refuted : forall gran, exists bytes text,
  Forall is_byte bytes /\ wf_text bytes text /\
  forall addr keep, lines_of keep text = [text] /\ read_lines addr keep gran bytes = ([], true).
Proof.
  intros gran. set (n := (Z.to_nat (chunk_size gran) - 1)%nat).
  exists (repeat 97 n ++ [195; 169]), (repeat 97 n ++ [233]). split; [ | split ].
  - apply Forall_app. split; [ | repeat constructor; unfold is_byte; lia ].
    apply Forall_forall. intros x Hx. apply repeat_spec in Hx. subst x. unfold is_byte. lia.
  - apply wf_repeat.
  - intros addr keep. split; [ | exact (cut_fails addr keep gran) ].
    unfold lines_of. rewrite <- (app_nil_r (repeat 97 n ++ [233])) at 1. rewrite lines_plain.
    + cbn [app lines]. destruct (repeat 97 n ++ [233]) eqn:E; [ destruct n; discriminate E | reflexivity ].
    + rewrite forallb_app. apply andb_true_intro. split; [ | reflexivity ].
      apply forallb_forall. intros x Hx. apply repeat_spec in Hx. subst x. reflexivity.
Qed.

Example read_lines_file_ex :
  read_lines 0 false 3 [97; 98; 13; 10; 99; 10; 195; 169; 10] = ([[97; 98]; [99]; [233]], false) /\
  read_lines 0 false 2 [97; 98; 13; 10; 99; 10; 195; 169; 10] = ([[97; 98]; [99]; [233]], false) /\
  read_lines 0 false 7 [97; 98; 13; 10; 99; 10; 195; 169; 10] = ([], true) /\
  read_lines 0 false 0 [97; 98; 13; 10; 99] = ([[97; 98]; [99]], false).
Proof. repeat split; vm_compute; reflexivity. Qed.

(** C128: read_line.  The line and the rest, for text without NUL and CR, for any
    size of the buffer. *)
Theorem read_line_partial : forall reserved bytes,
  1 <= reserved -> Forall (fun b => b <> 0 /\ b <> 13) bytes ->
  read_line reserved bytes = first_line bytes.
Proof.
  intros reserved bytes HR HB. unfold read_line. rewrite line_loop_spec by (try lia; exact HB).
  cbn [app]. symmetry. apply surjective_pairing.
Qed.

(** With NUL, the rest of the line is lost: [a NUL b LF c LF]. *)
Theorem read_line_nul_refuted : forall reserved, 4 <= reserved ->
  read_line reserved [97; 0; 98; 10; 99; 10] = ([97], [99; 10]) /\
  first_line [97; 0; 98; 10; 99; 10] = ([97; 0; 98; 10], [99; 10]).
Proof.
  intros reserved H. split; [ | reflexivity ]. unfold read_line.
  assert (exists k, Z.to_nat reserved = S (S (S (S k)))) as [k ->].
  { exists (Z.to_nat (reserved - 4)). lia. }
  reflexivity.
Qed.

(** With CR, the line depends on the size of the buffer. *)
Theorem read_line_cr_refuted :
  read_line 2 [97; 13; 10; 98] = ([97; 13], [10; 98]) /\
  read_line 3 [97; 13; 10; 98] = ([97; 13; 10], [98]) /\
  read_line 2 [97; 13; 98; 10] = ([97; 13], [98; 10]) /\
  read_line 4 [97; 13; 98; 10] = ([97; 13; 98; 10], []).
Proof. repeat split; vm_compute; reflexivity. Qed.

Example read_line_ex :
  read_line 1 [97; 98; 99; 10; 100] = ([97; 98; 99; 10], [100]) /\
  read_line 3 [97; 98; 99; 10; 100] = ([97; 98; 99; 10], [100]) /\
  read_line 2 [97; 98] = ([97; 98], []).
Proof. repeat split; vm_compute; reflexivity. Qed.

Print Assumptions read_lines_chunk_independent.
Print Assumptions read_lines_lossless.
Print Assumptions read_lines_file_partial.
Print Assumptions read_lines_ascii_partial.
Print Assumptions read_lines_utf8_refuted.
Print Assumptions read_line_partial.
Print Assumptions read_line_nul_refuted.
Print Assumptions read_line_cr_refuted.
