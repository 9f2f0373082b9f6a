(** Comparison of two images: Base/include/private/DImageCompare.hpp.

    The images are read only and the temporaries are distinct from them, so the pixelwise operations are those of
    [pw2]; their executions are in Model/Pixel.v.  The numbers are exact rationals: the rounding of the divisions is
    not modelled; [None] stands for an access outside an array or for an area or a volume that is not exact in a
    [double].  The class ContingencyTable (181-235), whose constructor is private, is not modelled. *)
From Coq Require Export QArith.
From Verif Require Export Model.Geodesic Model.Measures Model.Morph Model.Geometry.
Local Open Scope Z_scope.

(** DXM, 45: both sides of the quotients are moved by one half. *)
Definition ratio (a b : Z) : Q := Qdiv (inject_Z a + (1 # 2)) (inject_Z b + (1 # 2)).

(** [ASSERT_SAME_SIZE] returns RES_ERR_BAD_SIZE = -98, converted to a [double]. *)
Definition on_same_size (a b : img) (r : option Q) : option Q := if negb (same_size a b) then Some (inject_Z (-98)) else r.
(** The test of 309-312 and the same lines in the other functions. *)
Definition on_binary (a b : img) (r : option Q) : option Q :=
  on_same_size a b (if negb (isBinary a) || negb (isBinary b) then Some 0%Q else r).

(** [indexRuzicka], 143-156. *)
Definition indexRuzicka (gt im : img) : option Q :=
  on_same_size gt im (
  option_bind (volume (pw2 px_inf gt im)) (fun vmin =>
  option_bind (volume (pw2 px_sup gt im)) (fun vmax => Some (ratio vmin vmax)))).

(** [indexJaccard], 106-121. *)
Definition indexJaccard (gt im : img) : option Q :=
  on_same_size gt im (
  if isBinary gt && isBinary im then
    option_bind (area (pw2 px_logicAnd gt im)) (fun a =>
    option_bind (area (pw2 px_logicOr gt im)) (fun o => Some (ratio a o)))
  else indexRuzicka gt im).

(** [indexAccuracy], 262-285: a plain quotient.  The values of the second [compare] are 0 and 1. *)
Definition indexAccuracy (t : ity) (threshold : Z) (gt im : img) : option Q :=
  on_same_size gt im (
  let imOut := if isBinary gt && isBinary im then pw2 (px_equ t) gt im
               else pw1 (fun v => px_test (px_grt t v threshold) 0 1) (pw2 (px_absDiff t) gt im) in
  option_bind (area imOut) (fun dp => Some (Qdiv (inject_Z dp) (inject_Z (pixelCount (sz gt)))))).

(** [indexPrecision], 303-318; [indexSensitivity], 404-419; [indexRecall], 337-343. *)
Definition indexPrecision (gt im : img) : option Q :=
  on_binary gt im (
  option_bind (area (pw2 px_inf gt im)) (fun a => option_bind (area im) (fun b => Some (ratio a b)))).
Definition indexSensitivity (gt im : img) : option Q :=
  on_binary gt im (
  option_bind (area (pw2 px_inf gt im)) (fun a => option_bind (area gt) (fun b => Some (ratio a b)))).
Definition indexRecall (gt im : img) : option Q := on_same_size gt im (indexSensitivity gt im).

(** [indexFScore], 366-382. *)
Definition indexFScore (gt im : img) (beta : Q) : option Q :=
  on_binary gt im (
  option_bind (indexPrecision gt im) (fun p =>
  option_bind (indexRecall gt im) (fun r =>
  let b2 := (beta * beta)%Q in Some (((1 + b2) * (p * r)) / (b2 * p + r))%Q))).

(** [indexSpecificity], 440-460: the differences are in size_t. *)
Definition indexSpecificity (gt im : img) : option Q :=
  on_binary gt im (
  let n := pixelCount (sz gt) in
  option_bind (area (pw2 px_sup gt im)) (fun a =>
  option_bind (area gt) (fun b => Some (ratio ((n - a) mod 2 ^ 64) ((n - b) mod 2 ^ 64))))).

(** [indexFallOut], 479-500. *)
Definition indexFallOut (gt im : img) : option Q :=
  on_binary gt im (
  let n := pixelCount (sz gt) in
  option_bind (area (pw2 px_sup gt im)) (fun a =>
  let tn := (n - a) mod 2 ^ 64 in
  option_bind (area im) (fun b =>
  option_bind (area (pw2 px_inf gt im)) (fun c =>
  let fp := (b - c) mod 2 ^ 64 in Some (ratio fp ((tn + fp) mod 2 ^ 64)))))).

(** [indexMissRate], 520-538. *)
Definition indexMissRate (gt im : img) : option Q :=
  on_binary gt im (
  option_bind (area (pw2 px_inf gt im)) (fun tp =>
  option_bind (area gt) (fun b =>
  let fn := (b - tp) mod 2 ^ 64 in Some (ratio fn ((tp + fn) mod 2 ^ 64))))).

(** [indexOverlap], 560-575. *)
Definition indexOverlap (gt im : img) : option Q :=
  on_binary gt im (
  option_bind (area (pw2 px_inf gt im)) (fun a =>
  option_bind (area gt) (fun b =>
  option_bind (area im) (fun c => Some (ratio a (Z.min b c)))))).

(** [distanceHamming], 589-600; the error code is converted to a size_t. *)
Definition distanceHamming (t : ity) (gt im : img) : option Z :=
  if negb (same_size gt im) then Some ((-98) mod 2 ^ 64) else area (pw2 (px_diff t) gt im).

(** ImageBox::getDistance, Core/include/DCommon.h:516-522 and 552-555: [rt s] is the [double] that [sqrt] gives for the
    sum of squares [s]; doubles are represented by the integers of an order isomorphic to theirs. *)
Definition getDistance (rt : Z -> Z) (s : dims) (pa pb : Z) : Z :=
  let '(x, y, z) := box_getCoords (box_new s) pa in
  let '(x', y', z') := box_getCoords (box_new s) pb in
  rt ((x - x') ^ 2 + (y - y') ^ 2 + (z - z') ^ 2).

(** The two nested loops, 651-659, on the vectors distGt and distIn. *)
Definition dist_step (rt : Z -> Z) (s : dims) (pixGt pixIn : list Z) (i : Z) (st : list Z * list Z) (j : Z) : option (list Z * list Z) :=
  let '(dg, di) := st in
  option_bind (rd pixGt i) (fun p => option_bind (rd pixIn j) (fun q =>
  let d := getDistance rt s p q in
  option_bind (rd dg i) (fun a => option_bind (if d <? a then wr dg i d else Some dg) (fun dg =>
  option_bind (rd di j) (fun b => option_bind (if d <? b then wr di j d else Some di) (fun di =>
  Some (dg, di))))))).
Definition dist_loops (rt : Z -> Z) (s : dims) (dmax : Z) (pixGt pixIn : list Z) : option (list Z * list Z) :=
  fold_opt (fun st i => fold_opt (fun st j => dist_step rt s pixGt pixIn i st j) (zseq (Z.of_nat (length pixIn))) st)
    (zseq (Z.of_nat (length pixGt))) (map (fun _ => dmax) pixGt, map (fun _ => dmax) pixIn).

(** 661-669. *)
Definition sup_of (zero : Z) (l : list Z) : Z := fold_left (fun m d => if d >? m then d else m) l zero.

(** The pixels of 634-636 and 638-640: the image and its gradient. *)
Definition border_pixels (t : ity) junk cs1 cs2 (im : img) : option (list Z) :=
  option_bind (gradient t junk cs1 cs2 (SquSE 1) (SquSE 1) im) (fun r => nonZeroOffsets (pw2 px_inf im (snd r))).

(** [distanceHausdorff], 621-672.  [zero] is the [double] 0. and [dmax] the greatest [double]. *)
Definition distanceHausdorff (rt : Z -> Z) (zero dmax bad : Z) (t : ity) junk (cs : nat -> nat -> conf) (gt im : img) : option Z :=
  if negb (same_size gt im) then Some bad else
  if negb (isBinary gt) || negb (isBinary im) then Some zero else
  option_bind (border_pixels t junk (cs 0%nat) (cs 1%nat) gt) (fun pixGt =>
  option_bind (border_pixels t junk (cs 2%nat) (cs 3%nat) im) (fun pixIn =>
  option_bind (dist_loops rt (sz gt) dmax pixGt pixIn) (fun '(dg, di) =>
  Some (Z.max (sup_of zero dg) (sup_of zero di))))).
