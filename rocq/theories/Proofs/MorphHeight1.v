From Verif Require Export Proofs.MorphTheorems2.

(** ** Images of height 1 *)
Section H1.
Variables (op : Z -> Z -> Z) (bv : Z) (im : img).
Hypothesis Hw : wf_dims (sz im).
Hypothesis Hh : dh (sz im) = 1.
Hypothesis Hd : 0 < dd (sz im).

Lemma no_second_line px : getLine (sz im) px 1 (dd (sz im) - 1) = None.
Proof.
  unfold getLine, slice_access, restruct_slices. rewrite rd_map, rd_zseq by lia. cbn [option_map option_bind].
  assert (rd (restruct_lines (sz im)) ((dd (sz im) - 1) * dh (sz im) + 1) = None) as ->; [|reflexivity].
  apply rd_out. unfold restruct_lines. rewrite (flat_map_const_length _ _ 1%nat).
  - rewrite zseq_length, Hh. lia.
  - intros a _. rewrite map_length, zseq_length, Hh. reflexivity.
Qed.

Lemma fold_last {S} (f : S -> Z -> option S) st : (forall st, f st (dd (sz im) - 1) = None) -> fold_opt f (zseq (dd (sz im))) st = None.
Proof.
  intros H. replace (dd (sz im)) with (dd (sz im) - 1 + 1) by lia. rewrite zseq_succ by lia. rewrite fold_opt_app. destruct (fold_opt f _ st); [|reflexivity].
  cbn. rewrite H. reflexivity.
Qed.

Lemma threads1 c : block_threads c 1 = 1.
Proof. unfold block_threads. change (1 / 4) with 0. lia. Qed.

Lemma vertical1 c alias out : exec_vertical c op bv alias im out = None.
Proof.
  unfold exec_vertical, depth. rewrite fold_last; [reflexivity|]. intros px. unfold vert_slice, height. rewrite Hh, threads1. change (zseq 1) with [0]. cbn [all_opt].
  assert (vert_init c op bv im (src_of alias im px) (dd (sz im) - 1) 0 = None) as ->; [|reflexivity].
  unfold vert_init. cbn zeta. unfold height. rewrite Hh. change (block_first c 1 0) with 0. change (0 + 1) with 1. cbn [Z.eqb].
  rewrite no_second_line. destruct (getLine (sz im) _ 0 _); reflexivity.
Qed.

Lemma cross1 c alias out : exec_cross c op bv alias im out = None.
Proof.
  unfold exec_cross, depth. rewrite fold_last; [reflexivity|]. intros px. unfold cross_slice, height. rewrite Hh, threads1. change (zseq 1) with [0]. cbn [all_opt].
  assert (cross_init c op bv im (src_of alias im px) (dd (sz im) - 1) 0 = None) as ->; [|reflexivity].
  unfold cross_init. cbn zeta. unfold height. rewrite Hh. change (block_first c 1 0) with 0. change (0 + 1) with 1. cbn [Z.eqb].
  rewrite no_second_line. destruct (getLine (sz im) _ 0 _) as [l|]; [|reflexivity]. cbn [option_bind]. destruct (shifted_line_2ways op bv l 1); reflexivity.
Qed.

Lemma hex1 alias out : exec_hex op bv alias im out = None.
Proof.
  unfold exec_hex, depth. rewrite fold_last; [reflexivity|]. intros px. unfold hex_slice. cbn zeta.
  rewrite no_second_line. destruct (getLine (sz im) _ 0 _) as [l|]; [|reflexivity]. cbn [option_bind]. destruct (shifted_line op bv l (-1)) as [b|]; [|reflexivity]. cbn [option_bind].
  destruct (shifted_line op bv b 1); reflexivity.
Qed.

Lemma single1 c se alias out : In (se_type se) [SE_Squ; SE_Vert; SE_Cross; SE_Hex; SE_Cube] -> exec_single c op bv se alias im out = None.
Proof.
  intros H. unfold exec_single. destruct H as [<-|[<-|[<-|[<-|[<-|[]]]]]].
  - unfold exec_square. rewrite vertical1. reflexivity.
  - apply vertical1.
  - apply cross1.
  - apply hex1.
  - unfold exec_cube. rewrite vertical1. reflexivity.
Qed.

Lemma morph1 junk cs se alias out : In (se_type se) [SE_Squ; SE_Vert; SE_Cross; SE_Hex; SE_Cube] -> 1 <= se_size se -> morph_exec junk cs op bv se alias im out = None.
Proof.
  intros H Hs. unfold morph_exec. replace (se_size se =? 0) with false by lia.
  assert (isInplaceSafe se = true /\ match se_type se with SE_Rhombicuboctahedron => true | _ => false end = false) as (E1 & E2).
  { unfold isInplaceSafe. destruct H as [<-|[<-|[<-|[<-|[<-|[]]]]]]; auto. }
  rewrite E1, E2. cbn [orb]. rewrite single1 by exact H. reflexivity.
Qed.
End H1.

Lemma dilate1 junk cs bv se alias im out : wf_dims (sz im) -> dh (sz im) = 1 -> 0 < dd (sz im) -> sz out = sz im ->
  In (se_type se) [SE_Squ; SE_Vert; SE_Cross; SE_Hex; SE_Cube] -> 1 <= se_size se ->
  dilate junk cs bv se alias im out = None /\ erode junk cs bv se alias im out = None.
Proof.
  intros Hw Hh Hd Hs H Hz. unfold dilate, erode. rewrite !same_size_true by auto. cbn [negb]. rewrite !morph1; auto.
Qed.
