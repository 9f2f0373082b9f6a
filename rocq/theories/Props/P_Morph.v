(** Theorems for C20 to C25 and C47: dilation, erosion and the operators built on them. *)
From Verif Require Import Proofs.MorphHeight1 Proofs.PixelProofs.

(** Two legal executions used in the examples: one thread, and two threads that take turns, loops reversed. *)
Definition one_thread : nat -> conf := fun _ => Conf 1 (fun l => l) (fun l => l) (fun _ => repeat 0 40) (fun _ l => l).
Definition two_threads : nat -> conf := fun _ => Conf 2 (@rev _) (@rev _) (fun _ => flat_map (fun _ => [1; 0]) (seq 0 20)) (fun _ l => rev l).

Lemma one_thread_legal h k : 0 <= h < 40 -> legal_conf h (one_thread k).
Proof.
  intros H. assert (block_threads (one_thread k) h = 1) as E by (unfold block_threads; cbn; lia).
  split; [cbn; lia|]. split; [intros l; apply Permutation_refl|]. split; [intros l; apply Permutation_refl|]. split; [intros z l; apply Permutation_refl|].
  rewrite E. split.
  - intros z t Ht. apply repeat_spec in Ht. lia.
  - intros z t Ht. replace t with 0 by lia. change (Z.of_nat (count_occ Z.eq_dec (midSched (one_thread k) z) 0)) with 40. lia.
Qed.

Lemma two_threads_legal k : legal_conf 8 (two_threads k).
Proof.
  assert (block_threads (two_threads k) 8 = 2) as E by reflexivity.
  split; [cbn; lia|]. split; [intros l; symmetry; apply Permutation_rev|]. split; [intros l; symmetry; apply Permutation_rev|]. split; [intros z l; symmetry; apply Permutation_rev|].
  rewrite E. split.
  - intros z t Ht. apply in_flat_map in Ht as (n & _ & [<-|[<-|[]]]); lia.
  - intros z t Ht. assert (t = 0 \/ t = 1) as [-> | ->] by lia.
    + change (Z.of_nat (count_occ Z.eq_dec (midSched (two_threads k) z) 0)) with 20. lia.
    + change (Z.of_nat (count_occ Z.eq_dec (midSched (two_threads k) z) 1)) with 20. lia.
Qed.

Lemma good_ex s l : wf_img (Img s l) -> 0 < dw s < 2 ^ 63 -> 0 < dh s -> 0 < dd s -> good_img (Img s l).
Proof. intros W A B C. split; [exact W|]. split; [repeat split; cbn; lia|]. cbn. lia. Qed.

(** ** C20.  One dilation (erosion) gives, at every pixel, the greatest value covered by the element placed there
    (the least value at the places whose element covers it); outside the image the border value is read.  For any
    number of threads and any schedule, in place or not, fast path or not. *)
Theorem C20_dilate : forall junk cs bv se alias im out,
  call_ok cs alias im out -> typed_se se -> se_size se = 1 -> fits se (sz im) ->
  exists D, dilate junk cs bv se alias im out = Some (1, D) /\ dilated se bv im D.
Proof.
  intros junk cs bv se alias im out (A & B & C & D & E) HT Hs HF.
  destruct (dilate_ok junk cs bv se alias im out A B C D E HT) as (R & H & P); [lia|exact HF|]. exists R. split; [exact H|]. rewrite Hs in P. change (Z.to_nat 1) with 1%nat in P. apply (proj1 (passes_one _ _ _) P).
Qed.
Print Assumptions C20_dilate.

Theorem C20_erode : forall junk cs bv se alias im out,
  call_ok cs alias im out -> typed_se se -> se_size se = 1 -> fits (transpose se) (sz im) -> planar se (sz im) ->
  exists E, erode junk cs bv se alias im out = Some (1, E) /\ eroded se bv im E.
Proof.
  intros junk cs bv se alias im out (A & B & C & D & E) HT Hs HF HP.
  destruct (erode_ok junk cs bv se alias im out A B C D E HT) as (R & H & P); [lia|exact HF|exact HP|]. exists R. split; [exact H|]. rewrite Hs in P. change (Z.to_nat 1) with 1%nat in P. apply (proj1 (passes_one _ _ _) P).
Qed.
Print Assumptions C20_erode.

(** C20.  The specification leaves no choice: the result is determined by the image, the points and the border. *)
Theorem C20_unique : forall se bv im A B, wf_img im ->
  (dilated se bv im A -> dilated se bv im B -> A = B) /\ (eroded se bv im A -> eroded se bv im B -> A = B).
Proof. intros se bv im A B W. split; [apply dilated_fun; exact W|apply eroded_fun; exact W]. Qed.
Print Assumptions C20_unique.

(** C20.  Images of different sizes are rejected, imOut is unchanged. *)
Theorem C20_reject : forall junk cs bv se alias im out, sz im <> sz out ->
  dilate junk cs bv se alias im out = Some (-98, out) /\ erode junk cs bv se alias im out = Some (-98, out).
Proof.
  intros junk cs bv se alias im out H. unfold dilate, erode. assert (same_size im out = false) as ->; [|auto].
  unfold same_size, width, height, depth. destruct (sz im) as [a b c], (sz out) as [a' b' c']. cbn. destruct (a =? a') eqn:E1, (b =? b') eqn:E2, (c =? c') eqn:E3; auto.
  exfalso. apply H. f_equal; lia.
Qed.
Print Assumptions C20_reject.

(** C20 is false for RhombicuboctahedronSE: size 1 runs one Cross3D pass, the points of the element are not used. *)
Theorem C20_rhombicuboctahedron_refuted : exists junk cs im out D,
  call_ok cs false im out /\ se_size (RhombicuboctahedronSE 1) = 1 /\
  dilate junk cs 0 (RhombicuboctahedronSE 1) false im out = Some (1, D) /\ ~ dilated (RhombicuboctahedronSE 1) 0 im D.
Proof.
  set (im := Img (Dims 3 3 3) (upd (repeat 0 27) 13 5)). eexists (fun _ => 0), one_thread, im, im, _. split.
  { split; [apply good_ex; [split; [repeat split; cbn; lia|reflexivity]|cbn; lia|cbn; lia|cbn; lia]|]. split; [split; [repeat split; cbn; lia|reflexivity]|]. split; [reflexivity|].
    split; [discriminate|]. intros k. apply one_thread_legal. cbn. lia. }
  split; [reflexivity|]. split; [vm_compute; reflexivity|]. intros (_ & _ & H).
  destruct (H 0 0 1 0) as (_ & HU); [split; [unfold inside; cbn; lia|reflexivity]|].
  assert (5 <= 0); [|lia]. apply HU. exists 1, 1, 1. split.
  - exists (-1, -1, 0). split; [vm_compute; tauto|]. repeat split.
  - left. split; [unfold inside; cbn; lia|reflexivity].
Qed.
Print Assumptions C20_rhombicuboctahedron_refuted.

Definition im8 : img := Img (Dims 3 8 1) (upd (upd (repeat 0 24) 10 7) 23 9).
Example C20_case : call_ok two_threads true im8 im8 /\ typed_se (SquSE 1) /\ fits (SquSE 1) (sz im8) /\ planar (SquSE 1) (sz im8) /\ fits (transpose (SquSE 1)) (sz im8) /\
  dilate (fun _ => 0) two_threads 0 (SquSE 1) true im8 im8 = Some (1, Img (Dims 3 8 1) [0;0;0;0;0;0;7;7;7;7;7;7;7;7;7;0;0;0;0;9;9;0;9;9]).
Proof.
  split.
  { split; [apply good_ex; [split; [repeat split; cbn; lia|reflexivity]|cbn; lia|cbn; lia|cbn; lia]|]. split; [split; [repeat split; cbn; lia|reflexivity]|]. split; [reflexivity|].
    split; [reflexivity|]. intros k. apply two_threads_legal. }
  split; [split; [reflexivity|tauto]|]. split; [cbn; lia|]. split; [discriminate|]. split; [cbn; lia|]. vm_compute. reflexivity.
Qed.

(** ** C21.  The fast paths and the generic path give the same image, for sup and for inf. *)
Theorem C21_fast_is_generic : forall c c' bv se alias im out out',
  good_img im -> wf_img out -> wf_img out' -> sz out = sz im -> sz out' = sz im -> (alias = true -> out = im) ->
  legal_conf (dh (sz im)) c -> legal_conf (dh (sz im)) c' -> typed_se se -> fits se (sz im) ->
  (forall p, In p (se_points se) -> - dw (sz im) <= px_ p /\ px_ p + bit (se_odd se) <= dw (sz im)) ->
  exists S I, exec_single c px_sup bv se alias im out = Some S /\ exec_generic c' px_sup bv se im out' = Some S /\
              exec_single c px_inf bv se alias im out = Some I /\ exec_generic c' px_inf bv se im out' = Some I.
Proof.
  intros c c' bv se alias im out out' H1 H2 H3 H4 H5 H6 H7 H8 H9 H10 H11.
  destruct (fast_generic px_sup Z.le bv c c' se alias im out out' sup_lub le_eq H1 H2 H3 H4 H5 H6 H7 H8 H9 H10 H11) as (S & A & B).
  destruct (fast_generic px_inf Z.ge bv c c' se alias im out out' inf_lub ge_eq H1 H2 H3 H4 H5 H6 H7 H8 H9 H10 H11) as (I & C & D). eauto 10.
Qed.
Print Assumptions C21_fast_is_generic.

(** C21 is false for HexSE on images of several slices: the two paths use different rows as the shifted ones. *)
Theorem C21_hex_3d_refuted : exists c im A B, good_img im /\ legal_conf (dh (sz im)) c /\ typed_se (HexSE 1) /\ 2 <= dh (sz im) /\
  exec_single c px_sup 0 (HexSE 1) false im im = Some A /\ exec_generic c px_sup 0 (HexSE 1) im im = Some B /\ A <> B.
Proof.
  set (im := Img (Dims 3 3 2) (upd (repeat 0 18) 13 5)). eexists (one_thread 0), im, _, _.
  split; [apply good_ex; [split; [repeat split; cbn; lia|reflexivity]|cbn; lia|cbn; lia|cbn; lia]|]. split; [apply one_thread_legal; cbn; lia|].
  split; [split; [reflexivity|tauto]|]. split; [cbn; lia|]. split; [vm_compute; reflexivity|]. split; [vm_compute; reflexivity|]. discriminate.
Qed.
Print Assumptions C21_hex_3d_refuted.

Example C21_case : forall p, In p (se_points (HexSE 1)) -> - dw (sz im8) <= px_ p /\ px_ p + bit (se_odd (HexSE 1)) <= dw (sz im8).
Proof. intros p Hp. vm_compute in Hp. repeat (destruct Hp as [<-|Hp]; [vm_compute; split; discriminate|]). destruct Hp. Qed.

(** ** C22 is false: on an image of height 1, the passes that work on pairs of lines read past the last line, for every
    number of threads and every schedule. *)
Theorem C22_height_1_refuted : forall junk cs bv se alias im out,
  wf_img im -> dh (sz im) = 1 -> 0 < dd (sz im) -> sz out = sz im ->
  In (se_type se) [SE_Squ; SE_Vert; SE_Cross; SE_Hex; SE_Cube] -> 1 <= se_size se ->
  dilate junk cs bv se alias im out = None /\ erode junk cs bv se alias im out = None.
Proof. intros junk cs bv se alias im out (W & _). apply dilate1. exact W. Qed.
Print Assumptions C22_height_1_refuted.

(** C22 on images of height at least 2: no access outside the arrays, at any size. *)
Theorem C22_height_2_partial : forall junk cs bv se alias im out,
  call_ok cs alias im out -> typed_se se -> 0 <= se_size se -> fits se (sz im) -> fits (transpose se) (sz im) ->
  dilate junk cs bv se alias im out <> None /\ erode junk cs bv se alias im out <> None.
Proof.
  intros junk cs bv se alias im out (A & B & C & D & E) HT Hs HF HF'.
  destruct (dilate_fun junk cs bv se alias im out A B C D E HT Hs HF) as (R & H & _). destruct (erode_fun junk cs bv se alias im out A B C D E HT Hs HF') as (R' & H' & _).
  rewrite H, H'. split; discriminate.
Qed.
Print Assumptions C22_height_2_partial.

Example C22_case : wf_img (Img (Dims 4 1 1) [1;2;3;4]) /\ In (se_type (SquSE 2)) [SE_Squ; SE_Vert; SE_Cross; SE_Hex; SE_Cube] /\
  dilate (fun _ => 0) one_thread 0 (HorizSE 1) false (Img (Dims 4 1 1) [1;2;3;4]) (Img (Dims 4 1 1) [0;0;0;0]) = Some (1, Img (Dims 4 1 1) [2;3;4;4]) /\
  dilate (fun _ => 0) one_thread 0 (SquSE 1) false (Img (Dims 4 1 1) [1;2;3;4]) (Img (Dims 4 1 1) [0;0;0;0]) = None.
Proof. split; [split; [repeat split; cbn; lia|reflexivity]|]. split; [cbn; auto|]. split; vm_compute; reflexivity. Qed.

(** ** C23.  Dilation and erosion (default borders) by the same element form an adjunction. *)
Theorem C23_adjunction : forall t junk junk' cs cs' se alias alias' A B oa ob ra rb D E,
  call_ok cs alias A oa -> call_ok cs' alias' B ob -> sz B = sz A -> typed_img t A -> typed_img t B -> good_se se (sz A) ->
  dilate junk cs (tmin t) se alias A oa = Some (ra, D) -> erode junk' cs' (tmax t) se alias' B ob = Some (rb, E) ->
  (le_img D B <-> le_img A E).
Proof. exact adjunction. Qed.
Print Assumptions C23_adjunction.

Theorem C23_dilate_increasing : forall t junk junk' cs cs' se alias alias' A B oa ob ra rb D E,
  call_ok cs alias A oa -> call_ok cs' alias' B ob -> sz B = sz A -> typed_img t A -> typed_img t B -> good_se se (sz A) ->
  dilate junk cs (tmin t) se alias A oa = Some (ra, D) -> dilate junk' cs' (tmin t) se alias' B ob = Some (rb, E) -> le_img A B -> le_img D E.
Proof. exact dilate_incr. Qed.
Print Assumptions C23_dilate_increasing.

Theorem C23_erode_increasing : forall t junk junk' cs cs' se alias alias' A B oa ob ra rb D E,
  call_ok cs alias A oa -> call_ok cs' alias' B ob -> sz B = sz A -> typed_img t A -> typed_img t B -> good_se se (sz A) ->
  erode junk cs (tmax t) se alias A oa = Some (ra, D) -> erode junk' cs' (tmax t) se alias' B ob = Some (rb, E) -> le_img A B -> le_img D E.
Proof. exact erode_incr. Qed.
Print Assumptions C23_erode_increasing.

(** C23.  Dilation commutes with the pixelwise maximum, erosion with the minimum. *)
Theorem C23_dilate_sup : forall t junk ja jb cs ca cb se al al1 al2 A B M oa ob om ra rb rm DA DB DM,
  call_ok ca al1 A oa -> call_ok cb al2 B ob -> call_ok cs al M om -> pointwise2 Z.max A B M -> good_se se (sz A) ->
  dilate ja ca (tmin t) se al1 A oa = Some (ra, DA) -> dilate jb cb (tmin t) se al2 B ob = Some (rb, DB) -> dilate junk cs (tmin t) se al M om = Some (rm, DM) ->
  pointwise2 Z.max DA DB DM.
Proof. exact dilate_sup. Qed.
Print Assumptions C23_dilate_sup.

Theorem C23_erode_inf : forall t junk ja jb cs ca cb se al al1 al2 A B M oa ob om ra rb rm DA DB DM,
  call_ok ca al1 A oa -> call_ok cb al2 B ob -> call_ok cs al M om -> pointwise2 Z.min A B M -> good_se se (sz A) ->
  erode ja ca (tmax t) se al1 A oa = Some (ra, DA) -> erode jb cb (tmax t) se al2 B ob = Some (rb, DB) -> erode junk cs (tmax t) se al M om = Some (rm, DM) ->
  pointwise2 Z.min DA DB DM.
Proof. exact erode_inf. Qed.
Print Assumptions C23_erode_inf.

(** C23.  Duality: the negative of the dilation is the erosion of the negative by the reflected element. *)
Theorem C23_duality : forall t junk junk' cs cs' se se' alias alias' A B oa ob ra rb D E,
  call_ok cs alias A oa -> call_ok cs' alias' B ob -> negative t A B -> good_se se (sz A) -> good_se se' (sz A) -> mirrored se se' ->
  dilate junk cs (tmin t) se alias A oa = Some (ra, D) -> erode junk' cs' (tmax t) se' alias' B ob = Some (rb, E) -> negative t D E.
Proof. exact duality. Qed.
Print Assumptions C23_duality.

Definition L2 : strelt := SE false SE_Generic 2 [(0, 0, 0); (1, 0, 0); (0, 2, 0)].
Example C23_case : good_se L2 (sz im8) /\ good_se (transpose L2) (sz im8) /\ mirrored L2 (transpose L2) /\ good_se (HexSE 3) (sz im8) /\ typed_img UINT8 im8 /\
  dilate (fun _ => 0) two_threads 0 L2 false im8 im8 = Some (1, Img (Dims 3 8 1) [0;0;0;0;0;0;0;0;0;0;7;7;0;0;0;0;7;7;0;0;0;0;7;9]).
Proof.
  split. { split; [discriminate|]. split; [cbn; lia|]. split; [|split; [|discriminate]]; intros p Hp; vm_compute in Hp; repeat (destruct Hp as [<-|Hp]; [vm_compute; split; discriminate|]); destruct Hp. }
  split. { split; [discriminate|]. split; [cbn; lia|]. split; [|split; [|discriminate]]; intros p Hp; vm_compute in Hp; repeat (destruct Hp as [<-|Hp]; [vm_compute; split; discriminate|]); destruct Hp. }
  split; [split; [reflexivity|]; split; [reflexivity|]; intros p; reflexivity|].
  split. { split; [split; [reflexivity|tauto]|]. split; [cbn; lia|]. split; [cbn; lia|]. split; [cbn; lia|]. intros _. split; [reflexivity|].
    intros p Hp. vm_compute in Hp. repeat (destruct Hp as [<-|Hp]; [reflexivity|]). destruct Hp. }
  split; [|vm_compute; reflexivity]. apply Forall_forall. intros v Hv. vm_compute in Hv. repeat (destruct Hv as [<-|Hv]; [vm_compute; split; discriminate|]). destruct Hv.
Qed.

(** ** C24.  Opening and closing always succeed; they are increasing, idempotent, anti-extensive (extensive). *)
Theorem C24_open_filter : forall t se junk junk' c1 c2 c1' c2' al al' A oa ob ra D,
  call_ok c1 al A oa -> (forall k, legal_conf (dh (sz A)) (c2 k)) -> call_ok c1' al' D ob -> (forall k, legal_conf (dh (sz A)) (c2' k)) ->
  typed_img t A -> good_se se (sz A) -> open_im t junk c1 c2 se al A oa = Some (ra, D) ->
  typed_img t D /\ le_img D A /\ open_im t junk' c1' c2' se al' D ob = Some (1, D).
Proof. exact open_filter. Qed.
Print Assumptions C24_open_filter.

Theorem C24_close_filter : forall t se junk junk' c1 c2 c1' c2' al al' A oa ob ra D,
  call_ok c1 al A oa -> (forall k, legal_conf (dh (sz A)) (c2 k)) -> call_ok c1' al' D ob -> (forall k, legal_conf (dh (sz A)) (c2' k)) ->
  typed_img t A -> good_se se (sz A) -> close_im t junk c1 c2 se al A oa = Some (ra, D) ->
  typed_img t D /\ le_img A D /\ close_im t junk' c1' c2' se al' D ob = Some (1, D).
Proof. exact close_filter. Qed.
Print Assumptions C24_close_filter.

Theorem C24_open_increasing : forall t se junk junk' c1 c2 c1' c2' al al' A B oa ob ra rb D E,
  call_ok c1 al A oa -> (forall k, legal_conf (dh (sz A)) (c2 k)) -> call_ok c1' al' B ob -> (forall k, legal_conf (dh (sz A)) (c2' k)) -> sz B = sz A ->
  typed_img t A -> typed_img t B -> good_se se (sz A) ->
  open_im t junk c1 c2 se al A oa = Some (ra, D) -> open_im t junk' c1' c2' se al' B ob = Some (rb, E) -> le_img A B -> le_img D E.
Proof. exact open_incr. Qed.
Print Assumptions C24_open_increasing.

Theorem C24_close_increasing : forall t se junk junk' c1 c2 c1' c2' al al' A B oa ob ra rb D E,
  call_ok c1 al A oa -> (forall k, legal_conf (dh (sz A)) (c2 k)) -> call_ok c1' al' B ob -> (forall k, legal_conf (dh (sz A)) (c2' k)) -> sz B = sz A ->
  typed_img t A -> typed_img t B -> good_se se (sz A) ->
  close_im t junk c1 c2 se al A oa = Some (ra, D) -> close_im t junk' c1' c2' se al' B ob = Some (rb, E) -> le_img A B -> le_img D E.
Proof. exact close_incr. Qed.
Print Assumptions C24_close_increasing.

(** C24.  They succeed, and are the erosion followed by the dilation (the dilation followed by the erosion). *)
Theorem C24_open_is_erode_dilate : forall t junk c1 c2 se alias im out,
  call_ok c1 alias im out -> (forall k, legal_conf (dh (sz im)) (c2 k)) -> good_se se (sz im) ->
  exists E D, passes (Z.to_nat (se_size se)) (eroded se (tmax t)) im E /\ passes (Z.to_nat (se_size se)) (dilated se (tmin t)) E D /\
    open_im t junk c1 c2 se alias im out = Some (1, D).
Proof.
  intros t junk c1 c2 se alias im out (A & B & C & D & E) L2 HG. pose proof HG as (HT & Hn & HF & HF' & HP).
  destruct (erode_ok junk c1 (tmax t) se alias im out A B C D E HT Hn HF' HP) as (M & EM & PM).
  rewrite (erode_eq t junk se im A HG c1 alias out E B C D) in EM. injection EM as <-.
  set (M := mk_img (sz im) (En t (sz im) se (pxv im))) in *.
  destruct (dilate_ok junk c2 (tmin t) se true M M (good_mk im _ A) (mk_img_wf _ _ (proj1 (proj1 A))) eq_refl (fun _ => eq_refl) L2 HT Hn HF) as (R & ER & PR).
  rewrite (dilate_eq t junk se M (good_mk im _ A) HG c2 true M L2 (mk_img_wf _ _ (proj1 (proj1 A))) eq_refl (fun _ => eq_refl)) in ER. injection ER as <-.
  eexists _, _. split; [exact PM|]. split; [exact PR|]. rewrite (open_eq t junk se im A HG c1 c2 alias out E L2 B C D). do 2 f_equal. apply mk_img_ext.
  intros x y z Hi. apply cann_ext; [|exact Hi]. intros x1 y1 z1 Hi1. symmetry. apply pxv_mk; [apply A|exact Hi1].
Qed.
Print Assumptions C24_open_is_erode_dilate.

Theorem C24_close_is_dilate_erode : forall t junk c1 c2 se alias im out,
  call_ok c1 alias im out -> (forall k, legal_conf (dh (sz im)) (c2 k)) -> good_se se (sz im) ->
  exists D E, passes (Z.to_nat (se_size se)) (dilated se (tmin t)) im D /\ passes (Z.to_nat (se_size se)) (eroded se (tmax t)) D E /\
    close_im t junk c1 c2 se alias im out = Some (1, E).
Proof.
  intros t junk c1 c2 se alias im out (A & B & C & D & E) L2 HG. pose proof HG as (HT & Hn & HF & HF' & HP).
  destruct (dilate_ok junk c1 (tmin t) se alias im out A B C D E HT Hn HF) as (M & EM & PM).
  rewrite (dilate_eq t junk se im A HG c1 alias out E B C D) in EM. injection EM as <-.
  set (M := mk_img (sz im) (Dn t (sz im) se (pxv im))) in *.
  destruct (erode_ok junk c2 (tmax t) se true M M (good_mk im _ A) (mk_img_wf _ _ (proj1 (proj1 A))) eq_refl (fun _ => eq_refl) L2 HT Hn HF' HP) as (R & ER & PR).
  rewrite (erode_eq t junk se M (good_mk im _ A) HG c2 true M L2 (mk_img_wf _ _ (proj1 (proj1 A))) eq_refl (fun _ => eq_refl)) in ER. injection ER as <-.
  eexists _, _. split; [exact PM|]. split; [exact PR|]. rewrite (close_eq t junk se im A HG c1 c2 alias out E L2 B C D). do 2 f_equal. apply mk_img_ext.
  intros x y z Hi. apply cann_ext; [|exact Hi]. intros x1 y1 z1 Hi1. symmetry. apply pxv_mk; [apply A|exact Hi1].
Qed.
Print Assumptions C24_close_is_dilate_erode.

(** C24.  The negative of an opening is the closing of the negative (reflected element). *)
Theorem C24_open_close_dual : forall t se se' junk junk' c1 c2 c1' c2' al al' A B oa ob ra rb D E,
  call_ok c1 al A oa -> (forall k, legal_conf (dh (sz A)) (c2 k)) -> call_ok c1' al' B ob -> (forall k, legal_conf (dh (sz A)) (c2' k)) ->
  negative t A B -> good_se se (sz A) -> good_se se' (sz A) -> mirrored se se' ->
  open_im t junk c1 c2 se al A oa = Some (ra, D) -> close_im t junk' c1' c2' se' al' B ob = Some (rb, E) -> negative t D E.
Proof. exact open_close_dual. Qed.
Print Assumptions C24_open_close_dual.

(** C24.  For the unsigned types, the top hats are the exact differences, and the gradient is the exact difference when
    it is not negative. *)
Theorem C24_topHat_partial : forall t junk c1 c2 se im, is_signed t = false -> good_img im -> typed_img t im ->
  (forall k, legal_conf (dh (sz im)) (c1 k)) -> (forall k, legal_conf (dh (sz im)) (c2 k)) -> good_se se (sz im) ->
  exists O R, open_im t junk c1 c2 se false im (new_img junk im) = Some (1, O) /\ topHat t junk c1 c2 se im = Some (1, R) /\ pointwise2 Z.sub im O R.
Proof. exact topHat_exact. Qed.
Print Assumptions C24_topHat_partial.

Theorem C24_dualTopHat_partial : forall t junk c1 c2 se im, is_signed t = false -> good_img im -> typed_img t im ->
  (forall k, legal_conf (dh (sz im)) (c1 k)) -> (forall k, legal_conf (dh (sz im)) (c2 k)) -> good_se se (sz im) ->
  exists C R, close_im t junk c1 c2 se false im (new_img junk im) = Some (1, C) /\ dualTopHat t junk c1 c2 se im = Some (1, R) /\ pointwise2 Z.sub C im R.
Proof. exact dualTopHat_exact. Qed.
Print Assumptions C24_dualTopHat_partial.

Theorem C24_gradient_partial : forall t junk c1 c2 se1 se2 im, is_signed t = false -> good_img im -> typed_img t im ->
  (forall k, legal_conf (dh (sz im)) (c1 k)) -> (forall k, legal_conf (dh (sz im)) (c2 k)) -> good_se se1 (sz im) -> good_se se2 (sz im) ->
  exists D E R, dilate junk c1 (tmin t) se1 false im (new_img junk im) = Some (1, D) /\ erode junk c2 (tmax t) se2 false im (new_img junk im) = Some (1, E) /\
    gradient t junk c1 c2 se1 se2 im = Some (1, R) /\ pointwise2 (fun d e => Z.max 0 (d - e)) D E R.
Proof. exact gradient_exact. Qed.
Print Assumptions C24_gradient_partial.

(** C24 is false for signed types: the saturation test of sub wraps. *)
Theorem C24_topHat_signed_refuted : exists junk cs im O R, good_img im /\ typed_img INT8 im /\ (forall k, legal_conf (dh (sz im)) (cs k)) /\ good_se (SquSE 1) (sz im) /\
  open_im INT8 junk cs cs (SquSE 1) false im (new_img junk im) = Some (1, O) /\ topHat INT8 junk cs cs (SquSE 1) im = Some (1, R) /\
  pixel_is im 0 0 0 (-80) /\ pixel_is O 0 0 0 (-128) /\ pixel_is R 0 0 0 (-128).
Proof.
  set (im := Img (Dims 3 2 1) [-80; -128; -120; -120; -110; -110]). eexists (fun _ => 0), one_thread, im, _, _.
  split; [apply good_ex; [split; [repeat split; cbn; lia|reflexivity]|cbn; lia|cbn; lia|cbn; lia]|].
  split. { apply Forall_forall. intros v Hv. vm_compute in Hv. repeat (destruct Hv as [<-|Hv]; [vm_compute; split; discriminate|]). destruct Hv. }
  split; [intros k; apply one_thread_legal; cbn; lia|].
  split; [split; [split; [reflexivity|tauto]|]; split; [cbn; lia|]; split; [cbn; lia|]; split; [cbn; lia|discriminate]|].
  split; [vm_compute; reflexivity|]. split; [vm_compute; reflexivity|]. repeat split; cbn; lia.
Qed.
Print Assumptions C24_topHat_signed_refuted.

(** C24 is false for hexagonal elements on images of several slices: the closing can lower pixels. *)
Theorem C24_hex_3d_refuted : exists junk cs im C, good_img im /\ typed_img UINT8 im /\ (forall k, legal_conf (dh (sz im)) (cs k)) /\
  close_im UINT8 junk cs cs (HexSE 1) false im im = Some (1, C) /\ pixel_is im 1 1 1 5 /\ pixel_is C 1 1 1 0.
Proof.
  set (im := Img (Dims 3 3 2) (upd (repeat 0 18) 13 5)). eexists (fun _ => 0), one_thread, im, _.
  split; [apply good_ex; [split; [repeat split; cbn; lia|reflexivity]|cbn; lia|cbn; lia|cbn; lia]|].
  split. { apply Forall_forall. intros v Hv. vm_compute in Hv. repeat (destruct Hv as [<-|Hv]; [vm_compute; split; discriminate|]). destruct Hv. }
  split; [intros k; apply one_thread_legal; cbn; lia|]. split; [vm_compute; reflexivity|]. split; (split; [unfold inside; cbn; lia|reflexivity]).
Qed.
Print Assumptions C24_hex_3d_refuted.

(** ** C25.  Size n means n passes of the elementary element, also in place; size 0 copies. *)
Theorem C25_dilate_passes : forall junk cs bv se alias im out,
  call_ok cs alias im out -> typed_se se -> 0 <= se_size se -> fits se (sz im) ->
  exists D, dilate junk cs bv se alias im out = Some (1, D) /\ passes (Z.to_nat (se_size se)) (dilated se bv) im D.
Proof. intros junk cs bv se alias im out (A & B & C & D & E) HT Hs HF. apply dilate_ok; assumption. Qed.
Print Assumptions C25_dilate_passes.

Theorem C25_erode_passes : forall junk cs bv se alias im out,
  call_ok cs alias im out -> typed_se se -> 0 <= se_size se -> fits (transpose se) (sz im) -> planar se (sz im) ->
  exists E, erode junk cs bv se alias im out = Some (1, E) /\ passes (Z.to_nat (se_size se)) (eroded se bv) im E.
Proof. intros junk cs bv se alias im out (A & B & C & D & E) HT Hs HF HP. apply erode_ok; assumption. Qed.
Print Assumptions C25_erode_passes.

Theorem C25_size_0 : forall junk cs bv se alias im out, se_size se = 0 -> sz out = sz im ->
  dilate junk cs bv se alias im out = Some (1, im) /\ erode junk cs bv se alias im out = Some (1, im).
Proof.
  intros junk cs bv se alias im out Hs HS. unfold dilate, erode. rewrite !same_size_true by auto. cbn [negb]. unfold morph_exec. cbn [transpose se_size]. rewrite Hs, HS.
  destruct im as [s l]. split; reflexivity.
Qed.
Print Assumptions C25_size_0.

(** C25.  Sizes add: a dilation of size a followed by one of size b is the dilation of size a + b. *)
Theorem C25_sizes_add : forall junk ja jb cs ca cb bv se a b alias al1 al2 im oa ob out,
  let sized n := SE (se_odd se) (se_type se) n (se_points se) in
  0 <= a -> 0 <= b -> typed_se se -> fits se (sz im) -> call_ok ca al1 im oa -> call_ok cs alias im out ->
  exists A, dilate ja ca bv (sized a) al1 im oa = Some (1, A) /\
    (call_ok cb al2 A ob -> exists B, dilate jb cb bv (sized b) al2 A ob = Some (1, B) /\ dilate junk cs bv (sized (a + b)) alias im out = Some (1, B)).
Proof.
  intros junk ja jb cs ca cb bv se a b alias al1 al2 im oa ob out sized Ha Hb HT HF (GA & WA & SA & AA & LA) (GI & WI & SI & AI & LI).
  assert (forall n, typed_se (sized n)) as HT' by (intros n; exact HT). assert (forall n s, fits se s -> fits (sized n) s) as HF' by (intros n s H; exact H).
  assert (forall n, dilated (sized n) bv = dilated se bv) as HD by (intros n; reflexivity).
  destruct (dilate_ok ja ca bv (sized a) al1 im oa GA WA SA AA LA (HT' a) Ha (HF' a _ HF)) as (A & EA & PA). exists A. split; [exact EA|]. intros (GB & WB & SB & AB & LB).
  assert (forall n D, passes n (dilated se bv) im D -> sz D = sz im) as HS. { induction n as [|n IH]; [intros D ->; reflexivity|]. intros D (M & PM & (S & _)). rewrite S. apply IH. exact PM. }
  assert (sz A = sz im) as SzA by (apply (HS (Z.to_nat a)); exact PA).
  destruct (dilate_ok jb cb bv (sized b) al2 A ob GB WB SB AB LB (HT' b) Hb) as (B & EB & PB); [apply HF'; rewrite SzA; exact HF|]. exists B. split; [exact EB|].
  destruct (dilate_ok junk cs bv (sized (a + b)) alias im out GI WI SI AI LI (HT' _) ltac:(cbn; lia) (HF' _ _ HF)) as (C & EC & PC). rewrite EC. do 2 f_equal.
  apply (passes_fun (dilated se bv) (Z.to_nat (a + b)) im); [intros x y z; apply dilated_fun|intros x y H; apply H|apply GI|exact PC|].
  assert (forall n m im0 A0 B0, passes n (dilated se bv) im0 A0 -> passes m (dilated se bv) A0 B0 -> passes (m + n) (dilated se bv) im0 B0) as HP.
  { clear. intros n m. induction m as [|m IH]; intros im0 A0 B0 H1 H2; [cbn in H2; subst; exact H1|]. destruct H2 as (M & H2 & H3). exists M. split; [apply (IH _ A0); assumption|exact H3]. }
  rewrite Z2Nat.inj_add, Nat.add_comm by lia. apply (HP _ _ _ A); assumption.
Qed.
Print Assumptions C25_sizes_add.

(** C25.  SquSE(n), HorizSE(n), VertSE(n) and CubeSE(n): maximum (minimum) over the box of side 2n+1 in the directions
    of the element, the border value being read outside the image. *)
Definition box_se (ty : seType) : option (Z * Z * Z) :=
  match ty with SE_Squ => Some (1, 1, 0) | SE_Horiz => Some (1, 0, 0) | SE_Vert => Some (0, 1, 0) | SE_Cube => Some (1, 1, 1) | _ => None end.

Lemma box_points a b c l : l = flat_map (fun i => flat_map (fun j => map (fun k => (i, j, k)) (zrange (- c) (2 * c + 1))) (zrange (- b) (2 * b + 1))) (zrange (- a) (2 * a + 1)) ->
  forall p, In p l <-> Z.abs (px_ p) <= a /\ Z.abs (py_ p) <= b /\ Z.abs (pz_ p) <= c.
Proof.
  intros -> [[i j] k]. rewrite in_flat_map. unfold px_, py_, pz_. cbn [fst snd]. split.
  - intros (i' & Hi & H). apply in_flat_map in H as (j' & Hj & H). apply in_map_iff in H as (k' & E & Hk). injection E as -> -> ->. apply zrange_In in Hi, Hj, Hk. lia.
  - intros (A & B & C). exists i. split; [apply zrange_In; lia|]. apply in_flat_map. exists j. split; [apply zrange_In; lia|]. apply in_map. apply zrange_In. lia.
Qed.

Lemma In_incl_iff {A} (l l' : list A) : incl l l' -> incl l' l -> forall p, In p l <-> In p l'.
Proof. intros H H' p. split; auto. Qed.

Lemma incl_dec3 (l l' : list point) : forallb (fun p => existsb (fun q => (px_ p =? px_ q) && (py_ p =? py_ q) && (pz_ p =? pz_ q)) l') l = true -> incl l l'.
Proof.
  intros H p Hp. rewrite forallb_forall in H. specialize (H p Hp). apply existsb_exists in H as (q & Hq & E). destruct p as [[a b] c], q as [[a' b'] c']. unfold px_, py_, pz_ in E. cbn in E.
  replace (a, b, c) with (a', b', c'); [exact Hq|]. repeat f_equal; lia.
Qed.

Lemma box_typed se a b c : typed_se se -> box_se (se_type se) = Some (a, b, c) ->
  se_odd se = false /\ forall p, In p (se_points se) <-> Z.abs (px_ p) <= a /\ Z.abs (py_ p) <= b /\ Z.abs (pz_ p) <= c.
Proof.
  intros HT HB. unfold typed_se in HT. destruct (se_type se); try discriminate HB; injection HB as <- <- <-; destruct HT as (Ho & HT); (split; [exact Ho|]); intros p; rewrite HT;
    (eapply iff_trans; [apply In_incl_iff; apply incl_dec3; [|]|apply box_points; reflexivity]); vm_compute; reflexivity.
Qed.

Theorem C25_dilate_box : forall junk cs bv se alias im out a b c,
  call_ok cs alias im out -> typed_se se -> 0 <= se_size se -> fits se (sz im) -> box_se (se_type se) = Some (a, b, c) ->
  exists D, dilate junk cs bv se alias im out = Some (1, D) /\ sz D = sz im /\ wf_img D /\
    forall x y z v, pixel_is D x y z v -> greatest (box_values (se_size se * a) (se_size se * b) (se_size se * c) bv im x y z) v.
Proof.
  intros junk cs bv se alias im out a b c HC HT Hn HF HB. destruct (box_typed se a b c HT HB) as (Ho & Hp).
  assert (0 <= a /\ 0 <= b /\ 0 <= c) as (Ha & Hb & Hc) by (destruct (se_type se); try discriminate HB; injection HB as <- <- <-; lia).
  apply dilate_box; assumption.
Qed.
Print Assumptions C25_dilate_box.

Theorem C25_erode_box : forall junk cs bv se alias im out a b c,
  call_ok cs alias im out -> typed_se se -> 0 <= se_size se -> fits (transpose se) (sz im) -> box_se (se_type se) = Some (a, b, c) ->
  exists D, erode junk cs bv se alias im out = Some (1, D) /\ sz D = sz im /\ wf_img D /\
    forall x y z v, pixel_is D x y z v -> least (box_values (se_size se * a) (se_size se * b) (se_size se * c) bv im x y z) v.
Proof.
  intros junk cs bv se alias im out a b c HC HT Hn HF HB. destruct (box_typed se a b c HT HB) as (Ho & Hp).
  assert (0 <= a /\ 0 <= b /\ 0 <= c) as (Ha & Hb & Hc) by (destruct (se_type se); try discriminate HB; injection HB as <- <- <-; lia).
  apply erode_box; assumption.
Qed.
Print Assumptions C25_erode_box.

(** C25.  CrossSE(n) and Cross3DSE(n): maximum (minimum) over the city block ball of radius n. *)
Lemma ball_points k l l' : (k = 0 \/ k = 1) -> l' = filter (fun p => Z.abs (px_ p) + Z.abs (py_ p) + Z.abs (pz_ p) <=? 1)
    (flat_map (fun i => flat_map (fun j => map (fun m => (i, j, m)) (zrange (- k) (2 * k + 1))) (zrange (- 1) 3)) (zrange (- 1) 3)) ->
  incl l l' -> incl l' l ->
  forall p, In p l <-> Z.abs (px_ p) + Z.abs (py_ p) + Z.abs (pz_ p) <= 1 /\ (k = 0 -> pz_ p = 0).
Proof.
  intros Hk -> H1 H2 p. rewrite (In_incl_iff _ _ H1 H2). rewrite filter_In. destruct p as [[i j] m]. unfold px_, py_, pz_. cbn [fst snd]. rewrite in_flat_map. split.
  - intros ((i' & Hi & H) & HE). apply in_flat_map in H as (j' & Hj & H). apply in_map_iff in H as (k' & E & Hm). injection E as -> -> ->. apply zrange_In in Hi, Hj, Hm. split; lia.
  - intros (A & B). split; [|lia]. exists i. split; [apply zrange_In; lia|]. apply in_flat_map. exists j. split; [apply zrange_In; lia|]. apply in_map. apply zrange_In.
    destruct Hk as [-> | ->]; [rewrite B by reflexivity; lia|lia].
Qed.

Lemma cross_points p : In p (se_points (CrossSE 1)) <-> Z.abs (px_ p) + Z.abs (py_ p) + Z.abs (pz_ p) <= 1 /\ (0 = 0 -> pz_ p = 0).
Proof. revert p. eapply ball_points; [auto|reflexivity|apply incl_dec3; vm_compute; reflexivity|apply incl_dec3; vm_compute; reflexivity]. Qed.
Lemma cross3d_points p : In p (se_points (Cross3DSE 1)) <-> Z.abs (px_ p) + Z.abs (py_ p) + Z.abs (pz_ p) <= 1 /\ (1 = 0 -> pz_ p = 0).
Proof. revert p. eapply ball_points; [auto|reflexivity|apply incl_dec3; vm_compute; reflexivity|apply incl_dec3; vm_compute; reflexivity]. Qed.

Theorem C25_cross_ball : forall junk cs bv n alias im out,
  call_ok cs alias im out -> 0 <= n -> 2 <= dh (sz im) ->
  (exists D, dilate junk cs bv (CrossSE n) alias im out = Some (1, D) /\ sz D = sz im /\ wf_img D /\
    forall x y z v, pixel_is D x y z v -> greatest (ball_values 0 n bv im x y z) v) /\
  (exists E, erode junk cs bv (CrossSE n) alias im out = Some (1, E) /\ sz E = sz im /\ wf_img E /\
    forall x y z v, pixel_is E x y z v -> least (ball_values 0 n bv im x y z) v).
Proof.
  intros junk cs bv n alias im out HC Hn Hh. assert (typed_se (CrossSE n)) as HT by (split; [reflexivity|tauto]). split.
  - apply (dilate_ball junk cs bv (CrossSE n) alias im out HC HT Hn eq_refl 0); [auto|exact Hh|exact cross_points].
  - apply (erode_ball junk cs bv (CrossSE n) alias im out HC HT Hn eq_refl 0); [auto|exact Hh|exact cross_points].
Qed.
Print Assumptions C25_cross_ball.

Theorem C25_cross3d_ball : forall junk cs bv n alias im out,
  call_ok cs alias im out -> 0 <= n ->
  (exists D, dilate junk cs bv (Cross3DSE n) alias im out = Some (1, D) /\ sz D = sz im /\ wf_img D /\
    forall x y z v, pixel_is D x y z v -> greatest (ball_values 1 n bv im x y z) v) /\
  (exists E, erode junk cs bv (Cross3DSE n) alias im out = Some (1, E) /\ sz E = sz im /\ wf_img E /\
    forall x y z v, pixel_is E x y z v -> least (ball_values 1 n bv im x y z) v).
Proof.
  intros junk cs bv n alias im out HC Hn. assert (typed_se (Cross3DSE n)) as HT by discriminate.
  assert (0 < dw (sz im)) as Hw by (destruct HC as ((_ & (N & _) & _) & _); exact N).
  assert (fits (Cross3DSE n) (sz im) /\ fits (transpose (Cross3DSE n)) (sz im)) as (F1 & F2).
  { split; intros p Hp; cbn [transpose se_odd Cross3DSE bit]; change (bit false) with 0; vm_compute in Hp; repeat (destruct Hp as [<-|Hp]; [unfold px_; cbn; lia|]); destruct Hp. }
  split.
  - apply (dilate_ball junk cs bv (Cross3DSE n) alias im out HC HT Hn eq_refl 1); [auto|exact F1|exact cross3d_points].
  - apply (erode_ball junk cs bv (Cross3DSE n) alias im out HC HT Hn eq_refl 1); [auto|exact F2|exact cross3d_points].
Qed.
Print Assumptions C25_cross3d_ball.

(** C25.  Any element: the dilation of size n reads what is reached by n steps inside the image, and the border value as
    soon as a path of at most n steps leaves it. *)
Theorem C25_dilate_paths : forall junk cs bv se alias im out,
  call_ok cs alias im out -> typed_se se -> 0 <= se_size se -> fits se (sz im) ->
  exists D, dilate junk cs bv se alias im out = Some (1, D) /\ sz D = sz im /\ wf_img D /\
    forall x y z v q, pixel_is D x y z v ->
      (v <= q <-> (forall x' y' z' u, path se (sz im) (Z.to_nat (se_size se)) x y z x' y' z' -> pixel_is im x' y' z' u -> u <= q) /\
                  (exits se (sz im) (Z.to_nat (se_size se)) x y z -> bv <= q)).
Proof.
  intros junk cs bv se alias im out (A & B & C & D & E) HT Hs HF. destruct (dilate_fun junk cs bv se alias im out A B C D E HT Hs HF) as (R & H & P).
  eexists. split; [exact H|]. split; [reflexivity|]. split; [apply mk_img_wf; apply A|]. intros x y z v q Hv. apply mk_img_is in Hv as (Hi & ->); [|apply A].
  rewrite (passn_paths px_sup Z.le bv (sz im) sup_lub le_eq _ _ _ _ P x y z q Hi).
  assert (forall n x y z x' y' z', inside (sz im) x y z -> path se (sz im) n x y z x' y' z' -> inside (sz im) x' y' z') as HI.
  { clear. induction n as [|n IH]; intros x y z x' y' z' Hi; [intros (-> & -> & ->); exact Hi|]. intros (x1 & y1 & z1 & _ & H1 & H2). apply (IH _ _ _ _ _ _ H1 H2). }
  split; intros (H1 & H2); (split; [|exact H2]).
  - intros x' y' z' u Hp Hu. rewrite <- (pxv_is _ _ _ _ _ Hu). apply H1. exact Hp.
  - intros x' y' z' Hp. destruct (pixel_exists im x' y' z' (proj1 A) (HI _ _ _ _ _ _ _ Hi Hp)) as (u & Hu). rewrite (pxv_is _ _ _ _ _ Hu). apply (H1 x' y' z' u Hp Hu).
Qed.
Print Assumptions C25_dilate_paths.

Example C25_case : call_ok two_threads false im8 im8 /\
  dilate (fun _ => 0) two_threads 0 (CrossSE 2) false im8 im8 = dilate (fun _ => 0) one_thread 0 (SE false SE_Generic 2 (se_points (CrossSE 1))) true im8 im8 /\
  dilate (fun _ => 0) two_threads 0 (CrossSE 2) false im8 im8 = Some (1, Img (Dims 3 8 1) [0;0;0;0;7;0;7;7;7;7;7;7;7;7;7;0;7;9;0;9;9;9;9;9]).
Proof.
  split. { destruct C20_case as ((A & B & C & _ & D) & _). split; [exact A|]. split; [exact B|]. split; [exact C|]. split; [discriminate|exact D]. }
  split; vm_compute; reflexivity.
Qed.

(** ** C47.  The result depends only on the points and the grid of the element, not on its type tag, when the tag
    announces the points. *)
Theorem C47_points_partial : forall junk junk' cs cs' bv se se' alias alias' im out out',
  call_ok cs alias im out -> call_ok cs' alias' im out' -> typed_se se -> typed_se se' -> fits se (sz im) -> fits se' (sz im) ->
  0 <= se_size se -> se_size se' = se_size se -> se_odd se' = se_odd se -> (forall p, In p (se_points se') <-> In p (se_points se)) ->
  dilate junk' cs' bv se' alias' im out' = dilate junk cs bv se alias im out.
Proof.
  intros junk junk' cs cs' bv se se' alias alias' im out out' (A & B & C & D & E) (A' & B' & C' & D' & E') HT HT' HF HF' Hn Hs Ho Hp.
  destruct (dilate_ok junk cs bv se alias im out A B C D E HT Hn HF) as (R & ER & PR).
  destruct (dilate_ok junk' cs' bv se' alias' im out' A' B' C' D' E' HT' ltac:(lia) HF') as (R' & ER' & PR'). rewrite ER, ER'. do 2 f_equal.
  apply (passes_fun (dilated se bv) (Z.to_nat (se_size se)) im); [intros x y z; apply dilated_fun|intros x y H; apply H|apply A| |exact PR].
  rewrite Hs in PR'. revert PR'. generalize (Z.to_nat (se_size se)). intros n. clear ER'. revert R'. induction n as [|n IH]; intros R'; [auto|].
  intros (M & H1 & H2). exists M. split; [apply IH; exact H1|]. destruct H2 as (S & W & H2). split; [exact S|]. split; [exact W|]. intros x y z v Hv.
  destruct (H2 x y z v Hv) as (K1 & K2).
  assert (forall u, dil_values se' bv M x y z u <-> dil_values se bv M x y z u) as HV.
  { intros u. split; intros (x' & y' & z' & (p & Hq & -> & -> & ->) & Hr); do 3 eexists; (split; [exists p; split; [apply Hp; exact Hq|]; repeat split; rewrite ?Ho; reflexivity|]); rewrite ?Ho in *; exact Hr. }
  split; [apply HV; exact K1|]. intros u Hu. apply K2. apply HV. exact Hu.
Qed.
Print Assumptions C47_points_partial.

(** C47 is false for elements obtained with noCenter(): the type tag is kept, and the fast path uses the centre. *)
Theorem C47_noCenter_refuted : exists junk cs im A B, call_ok cs false im im /\
  let se := noCenter (SquSE 1) in let se' := SE (se_odd se) SE_Generic (se_size se) (se_points se) in
  dilate junk cs 0 se false im im = Some (1, A) /\ dilate junk cs 0 se' false im im = Some (1, B) /\ pixel_is A 1 1 0 5 /\ pixel_is B 1 1 0 0.
Proof.
  set (im := Img (Dims 3 3 1) (upd (repeat 0 9) 4 5)). eexists (fun _ => 0), one_thread, im, _, _. split.
  { split; [apply good_ex; [split; [repeat split; cbn; lia|reflexivity]|cbn; lia|cbn; lia|cbn; lia]|]. split; [split; [repeat split; cbn; lia|reflexivity]|]. split; [reflexivity|].
    split; [discriminate|]. intros k. apply one_thread_legal. cbn. lia. }
  split; [vm_compute; reflexivity|]. split; [vm_compute; reflexivity|]. split; (split; [unfold inside; cbn; lia|reflexivity]).
Qed.
Print Assumptions C47_noCenter_refuted.
