(** C04 - C11: pixelwise operations, arithmetic, comparison, threshold. *)
From Verif Require Import Spec.PixelSpec Proofs.ExecFacts Proofs.PixelProofs.
From Coq Require Import String List.
Import ListNotations.
Open Scope list_scope. Open Scope Z_scope.

(** C04. *)
Theorem C04_pixelwise : forall f srcs out sched h, ready h srcs out sched ->
  exists h', exec_pixelwise f srcs out sched h = Some h' /\
    pixelwise_result (fun vs v => v = f vs) srcs out h h'.
Proof. exact exec_pixelwise_ready. Qed.
Print Assumptions C04_pixelwise.

Theorem C04_schedule_independent : forall f srcs out sched1 sched2 h,
  ready h srcs out sched1 -> ready h srcs out sched2 ->
  exec_pixelwise f srcs out sched1 h = exec_pixelwise f srcs out sched2 h.
Proof. exact exec_schedule_independent. Qed.
Print Assumptions C04_schedule_independent.

(** The sequential schedule and a schedule that runs the lines backwards, all loads of a line first
    (a vectorised line), are both legal; the output image is also the first input. *)
Definition ex_out := IDesc 2 (Dims 2 2 1).
Definition ex_in := IDesc 6 (Dims 2 2 1).
Definition ex_heap : heap := [77; 78; 200; 3; 4; 5; 100; 7; 8; 9; 79].
Definition ex_sched1 := [Ld 0 0; St 0 0; Ld 0 1; St 0 1; Ld 1 0; St 1 0; Ld 1 1; St 1 1].
Definition ex_sched2 := [Ld 1 0; Ld 1 1; Ld 0 1; St 1 1; St 1 0; St 0 1; Ld 0 0; St 0 0].
Example C04_case : ready ex_heap [OImg ex_out; OImg ex_in] ex_out ex_sched1 /\
  ready ex_heap [OImg ex_out; OImg ex_in] ex_out ex_sched2 /\
  api_add UINT8 (OImg ex_out) (OImg ex_in) ex_out ex_sched2 ex_heap
    = Some [77; 78; 255; 10; 12; 14; 100; 7; 8; 9; 79].
Proof. exact ex_ready. Qed.

(** C05.  The property is false of the code ... *)
Theorem C05_inplace_refuted : exists f a b tmp sched h h',
  ready h [OImg a; OImg b] b sched /\
  0 <= tmp /\ tmp + dw (idims b) <= Z.of_nat (length h) /\ (forall x, tmp <= x < tmp + dw (idims b) -> ~ owns a x /\ ~ owns b x) /\
  exec_binary_inplace f a b tmp sched h = Some h' /\
  ~ pixelwise_result (fun vs v => v = f vs) [OImg a; OImg b] b h h'.
Proof. exact inplace_refuted. Qed.
Print Assumptions C05_inplace_refuted.

(** ... because nothing is ever stored in the image: for every call both images keep their pixels. *)
Theorem C05_inplace_partial : forall f a b tmp sched h,
  ready h [OImg a; OImg b] b sched ->
  0 <= tmp -> tmp + dw (idims b) <= Z.of_nat (length h) ->
  (forall x, tmp <= x < tmp + dw (idims b) -> ~ owns a x /\ ~ owns b x) ->
  exists h', exec_binary_inplace f a b tmp sched h = Some h' /\
    (forall x, owns a x \/ owns b x -> rd h' x = rd h x).
Proof. exact inplace_frame. Qed.
Print Assumptions C05_inplace_partial.

(** C06. *)
Theorem C06_add : forall t a b out sched h, is_signed t = false ->
  ready h [a; b] out sched -> typed t h out a -> typed t h out b ->
  exists h', api_add t a b out sched h = Some h' /\
    pixelwise_result (R2 (fun x y v => v = Z.min (tmax t) (x + y))) [a; b] out h h'.
Proof.
  intros t a b out sched h Ht HR Ha Hb. apply (exec_bin _ _ t); auto.
  intros x y Hx Hy. exact (px_add_unsigned t x y Ht Hx Hy).
Qed.
Print Assumptions C06_add.

Theorem C06_sub : forall t a b out sched h, is_signed t = false ->
  ready h [a; b] out sched -> typed t h out a -> typed t h out b ->
  exists h', api_sub t a b out sched h = Some h' /\
    pixelwise_result (R2 (fun x y v => v = Z.max (tmin t) (x - y))) [a; b] out h h'.
Proof.
  intros t a b out sched h Ht HR Ha Hb. apply (exec_bin _ _ t); auto.
  intros x y Hx Hy. exact (px_sub_unsigned t x y Ht Hx Hy).
Qed.
Print Assumptions C06_sub.

Theorem C06_noSat : forall t a b out sched h, ready h [a; b] out sched ->
  (exists h', api_addNoSat t a b out sched h = Some h' /\
    pixelwise_result (R2 (fun x y v => wraps_to t (x + y) v)) [a; b] out h h') /\
  (exists h', api_subNoSat t a b out sched h = Some h' /\
    pixelwise_result (R2 (fun x y v => wraps_to t (x - y) v)) [a; b] out h h').
Proof.
  intros t a b out sched h HR. split; (apply exec_bin_any; [exact HR|]); intros x y; apply wrap_wraps.
Qed.
Print Assumptions C06_noSat.

(** Signed types: saturation is right when the second operand is not negative and wrong whenever it
    is negative. *)
Theorem C06_signed_partial : forall t a b out sched h,
  ready h [a; b] out sched -> typed t h out a -> typed t h out b ->
  (exists h', api_add t a b out sched h = Some h' /\
    pixelwise_result (R2 (fun x y v => (0 <= y -> v = Z.min (tmax t) (x + y)) /\
       (y < 0 -> v <> Z.max (tmin t) (Z.min (tmax t) (x + y))))) [a; b] out h h') /\
  (exists h', api_sub t a b out sched h = Some h' /\
    pixelwise_result (R2 (fun x y v => (0 <= y -> v = Z.max (tmin t) (x - y)) /\
       (y < 0 -> v <> Z.max (tmin t) (Z.min (tmax t) (x - y))))) [a; b] out h h').
Proof.
  intros t a b out sched h HR Ha Hb. split; apply (exec_bin _ _ t); auto; intros x y Hx Hy; split; intros Hn.
  - exact (px_add_nonneg t x y Hx Hy Hn).
  - exact (px_add_neg_wrong t x y Hx Hy Hn).
  - exact (px_sub_nonneg t x y Hx Hy Hn).
  - exact (px_sub_neg_wrong t x y Hx Hy Hn).
Qed.
Print Assumptions C06_signed_partial.

Theorem C06_signed_refuted : exists t x y, inty t x /\ inty t y /\
  px_add t x y <> Z.max (tmin t) (Z.min (tmax t) (x + y)).
Proof. exists INT8, 5, (-1). vm_compute. repeat split; congruence. Qed.
Print Assumptions C06_signed_refuted.

Example C06_case : typed UINT8 ex_heap ex_out (OImg ex_in) /\ px_add UINT8 200 100 = 255 /\ px_sub UINT8 3 7 = 0
  /\ px_addNoSat UINT8 200 100 = 44.
Proof. split; [exact ex_typed|]. vm_compute. repeat split. Qed.

(** C07. *)
Theorem C07_mul : forall t a b out sched h, is_signed t = false ->
  ready h [a; b] out sched -> typed t h out a -> typed t h out b ->
  exists h', api_mul t a b out sched h = Some h' /\
    pixelwise_result (R2 (fun x y v => v = Z.min (tmax t) (x * y))) [a; b] out h h'.
Proof.
  intros t a b out sched h Ht HR Ha Hb. apply (exec_bin _ _ t); auto.
  intros x y Hx Hy. exact (px_mul_unsigned t x y Ht Hx Hy).
Qed.
Print Assumptions C07_mul.

Theorem C07_div : forall t a b out sched h, is_signed t = false ->
  ready h [a; b] out sched -> typed t h out a -> typed t h out b ->
  exists h', api_div t a b out sched h = Some h' /\
    pixelwise_result (R2 (fun x y v => (y = 0 -> v = tmax t) /\ (y <> 0 -> v = x / y))) [a; b] out h h'.
Proof.
  intros t a b out sched h Ht HR Ha Hb. apply (exec_bin _ _ t); auto.
  intros x y Hx Hy. exact (px_div_unsigned t x y Ht Hx Hy).
Qed.
Print Assumptions C07_div.

Theorem C07_absDiff : forall t a b out sched h, is_signed t = false ->
  ready h [a; b] out sched -> typed t h out a -> typed t h out b ->
  exists h', api_absDiff t a b out sched h = Some h' /\
    pixelwise_result (R2 (fun x y v => v = Z.abs (x - y))) [a; b] out h h'.
Proof.
  intros t a b out sched h Ht HR Ha Hb. apply (exec_bin _ _ t); auto.
  intros x y Hx Hy. exact (px_absDiff_unsigned t x y Ht Hx Hy).
Qed.
Print Assumptions C07_absDiff.

Example C07_case : px_mul UINT16 300 300 = 65535 /\ px_mul UINT16 200 300 = 60000 /\ px_div UINT8 7 2 = 3
  /\ px_div UINT8 7 0 = 255 /\ px_absDiff UINT8 3 9 = 6.
Proof. vm_compute. repeat split. Qed.

(** C08.  False: mulNoSat saturates. *)
Theorem C08_mulNoSat_refuted : exists t x y h' out sched,
  inty t x /\ inty t y /\ ready [0] [OVal x; OVal y] out sched /\
  api_mulNoSat t (OVal x) (OVal y) out sched [0] = Some h' /\
  ~ pixelwise_result (R2 (fun x y v => wraps_to t (x * y) v)) [OVal x; OVal y] out [0] h'.
Proof. exact mulNoSat_refuted. Qed.
Print Assumptions C08_mulNoSat_refuted.

Theorem C08_mulNoSat_partial : forall t a b out sched h, is_signed t = false ->
  ready h [a; b] out sched -> typed t h out a -> typed t h out b ->
  exists h', api_mulNoSat t a b out sched h = Some h' /\
    pixelwise_result (R2 (fun x y v => v = Z.min (tmax t) (x * y))) [a; b] out h h'.
Proof. exact C07_mul. Qed.
Print Assumptions C08_mulNoSat_partial.

(** C09. *)
Theorem C09_inv : forall t a out sched h, ready h [a] out sched -> typed t h out a ->
  exists h', api_inv t a out sched h = Some h' /\
    pixelwise_result (R1 (fun x v => v = tmax t + tmin t - x)) [a] out h h'.
Proof.
  intros t a out sched h HR Ha. apply (exec_un _ _ t); auto. intros x Hx. exact (px_inv_eq t x Hx).
Qed.
Print Assumptions C09_inv.

(** Applying inv twice, in two runs with any schedules and through any intermediate image, restores
    the pixels. *)
Theorem C09_involution : forall t a b c sched1 sched2 h,
  ready h [OImg a] b sched1 -> typed t h b (OImg a) ->
  placed h c -> idims c = idims b -> same_or_disjoint b c ->
  valid_schedule (dw (idims c)) (dd (idims c) * dh (idims c)) sched2 ->
  exists h1 h2, api_inv t (OImg a) b sched1 h = Some h1 /\ api_inv t (OImg b) c sched2 h1 = Some h2 /\
    forall k, 0 <= k < dw (idims c) * dh (idims c) * dd (idims c) -> rd h2 (ibase c + k) = rd h (ibase a + k).
Proof. exact inv_involution. Qed.
Print Assumptions C09_involution.

Theorem C09_inv_order : forall t x y, inty t x -> inty t y ->
  inty t (px_inv t x) /\ px_inv t (px_inv t x) = x /\
  px_inv t (tmin t) = tmax t /\ px_inv t (tmax t) = tmin t /\
  (x <= y <-> px_inv t y <= px_inv t x) /\
  px_inv t (px_sup x y) = px_inf (px_inv t x) (px_inv t y) /\
  px_inv t (px_inf x y) = px_sup (px_inv t x) (px_inv t y).
Proof. exact inv_order. Qed.
Print Assumptions C09_inv_order.

Example C09_case : px_inv INT8 (-128) = 127 /\ px_inv INT8 5 = -6 /\ px_inv UINT16 1 = 65534.
Proof. vm_compute. repeat split. Qed.

(** C10. *)
Theorem C10_comparisons : forall t a b out sched h, ready h [a; b] out sched ->
  let post api (r : Z -> Z -> Prop) := exists h', api t a b out sched h = Some h' /\
    pixelwise_result (R2 (fun x y v => picks (r x y) (tmax t) 0 v)) [a; b] out h h' in
  post api_grt (fun x y => x > y) /\ post api_grtOrEqu (fun x y => x >= y) /\
  post api_low (fun x y => x < y) /\ post api_lowOrEqu (fun x y => x <= y) /\
  post api_equ (fun x y => x = y) /\ post api_diff (fun x y => x <> y).
Proof. exact comparisons_ok. Qed.
Print Assumptions C10_comparisons.

Theorem C10_test : forall c a b out sched h, ready h [c; a; b] out sched ->
  exists h', api_test c a b out sched h = Some h' /\
    pixelwise_result (R3 (fun x y z v => picks (x <> 0) y z v)) [c; a; b] out h h'.
Proof. exact test_ok. Qed.
Print Assumptions C10_test.

Theorem C10_mask : forall imIn imMask out sched h, ready h [imMask; imIn; OVal 0] out sched ->
  exists h', api_mask imIn imMask out sched h = Some h' /\
    pixelwise_result (R3 (fun m x _ v => picks (m <> 0) x 0 v)) [imMask; imIn; OVal 0] out h h'.
Proof. exact mask_ok. Qed.
Print Assumptions C10_mask.

(** compare: known operator.  [tmp] is the internal temporary image, sharing no pixel with the
    arguments. *)
Theorem C10_compare : forall t op r imIn iv tv fv out tmp sched1 sched2 h,
  rel_of op = Some r ->
  ready h [OImg imIn; iv] tmp sched1 -> ready h [OImg tmp; tv; fv] out sched2 ->
  (forall a, owns tmp a -> ~ owns out a) ->
  (forall d, In (OImg d) [OImg imIn; iv; tv; fv] -> forall a, owns tmp a -> ~ owns d a) ->
  exists h', api_compare t op imIn iv tv fv out tmp sched1 sched2 h = Some (1, h') /\
    length h' = length h /\
    (forall a, ~ owns out a -> ~ owns tmp a -> rd h' a = rd h a) /\
    (forall k, 0 <= k < dw (idims out) * dh (idims out) * dd (idims out) ->
       exists x y a b v, operand_value h (OImg imIn) k x /\ operand_value h iv k y /\
         operand_value h tv k a /\ operand_value h fv k b /\
         rd h' (ibase out + k) = Some v /\ picks (r x y) a b v).
Proof. exact compare_ok. Qed.
Print Assumptions C10_compare.

(** compare: unknown operator is refused and changes nothing. *)
Theorem C10_compare_unknown : forall t op imIn iv tv fv out tmp sched1 sched2 h,
  rel_of op = None -> api_compare t op imIn iv tv fv out tmp sched1 sched2 h = Some (-100, h).
Proof. exact compare_unknown. Qed.
Print Assumptions C10_compare_unknown.

(** equ(im1, im2) as a boolean. *)
Theorem C10_equ_bool : forall h a b, idims a = idims b -> placed h a -> placed h b ->
  exists r, api_equ_bool h a b = Some r /\
    (r = true <-> forall k, 0 <= k < dw (idims a) * dh (idims a) * dd (idims a) -> rd h (ibase a + k) = rd h (ibase b + k)).
Proof. exact equ_bool_ok. Qed.
Print Assumptions C10_equ_bool.

Definition ex_tmp := IDesc 10 (Dims 2 2 1).
Definition ex_heap10 : heap := [77; 78; 200; 3; 4; 5; 100; 7; 8; 9; 0; 0; 0; 0; 79].
Example C10_case : rel_of ">=" = Some (fun a b => a >= b) /\
  ready ex_heap10 [OImg ex_in; OVal 8] ex_tmp ex_sched1 /\
  ready ex_heap10 [OImg ex_tmp; OVal 1; OImg ex_out] ex_out ex_sched2 /\
  (forall a, owns ex_tmp a -> ~ owns ex_out a /\ ~ owns ex_in a) /\
  api_compare UINT8 ">=" ex_in (OVal 8) (OVal 1) (OImg ex_out) ex_out ex_tmp ex_sched1 ex_sched2 ex_heap10
    = Some (1, [77; 78; 1; 3; 1; 1; 100; 7; 8; 9; 255; 0; 255; 255; 79]).
Proof.
  split; [reflexivity|]. split; [apply readyb_ok; reflexivity|]. split; [apply readyb_ok; reflexivity|].
  split; [unfold owns; cbn; intros; Lia.lia|]. vm_compute. reflexivity.
Qed.

(** C11. *)
Theorem C11_threshold : forall minVal maxVal tv fv imIn out sched h, ready h [OImg imIn] out sched ->
  exists h', api_threshold minVal maxVal tv fv imIn out sched h = Some h' /\
    pixelwise_result (R1 (fun x v =>
      (minVal <= maxVal -> picks (minVal <= x <= maxVal) tv fv v) /\
      (minVal > maxVal -> picks (maxVal <= x <= minVal) fv tv v))) [OImg imIn] out h h'.
Proof. exact threshold_ok. Qed.
Print Assumptions C11_threshold.

Theorem C11_threshold_short : forall t t_out minVal maxVal imIn out sched h, ready h [OImg imIn] out sched ->
  typed t h out (OImg imIn) -> inty t minVal ->
  (exists h', api_threshold2 t_out minVal maxVal imIn out sched h = Some h' /\
    pixelwise_result (R1 (fun x v =>
      (minVal <= maxVal -> picks (minVal <= x <= maxVal) (tmax t_out) (tmin t_out) v) /\
      (minVal > maxVal -> picks (maxVal <= x <= minVal) (tmin t_out) (tmax t_out) v))) [OImg imIn] out h h') /\
  (exists h', api_threshold1 t t_out minVal imIn out sched h = Some h' /\
    pixelwise_result (R1 (fun x v => picks (minVal <= x) (tmax t_out) (tmin t_out) v)) [OImg imIn] out h h').
Proof. exact threshold_short_ok. Qed.
Print Assumptions C11_threshold_short.

Example C11_case : api_threshold 5 8 1 0 ex_in ex_out ex_sched2 ex_heap
  = Some [77; 78; 0; 1; 1; 0; 100; 7; 8; 9; 79] /\
  api_threshold 8 5 1 0 ex_in ex_out ex_sched1 ex_heap = Some [77; 78; 1; 0; 0; 1; 100; 7; 8; 9; 79].
Proof. vm_compute. split; reflexivity. Qed.
