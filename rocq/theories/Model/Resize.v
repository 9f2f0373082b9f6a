(** Resizing images: Base/include/private/DImageTransform.hpp:830-1153 (class ImageResizeFunc) and isBinary,
    Base/include/private/DMeasures.hpp:1386-1400.

    The positions and the weights are computed in [double] by the code and exactly here.  Images have at least one pixel
    (ASSERT_ALLOCATED).  [sched] orders the iterations of the loops, [junk] is the contents of new images. *)
From Coq Require Import String.
From Verif Require Export Model.Loops Model.Transform.
Local Open Scope Z_scope.

(** [round(cx * i)] with [cx = (w - 1) / (s - 1)] and [min(xo, w - 1)], 954-972: for [s = 1] the product is not a number, and
    its conversion to an integer is undefined. *)
Definition nearest_axis (w s i : Z) : option Z :=
  if s =? 1 then None else Some (Z.min ((2 * (i * (w - 1)) + (s - 1)) / (2 * (s - 1))) (w - 1)).
(** 1059-1067: [xl], [xh] and [cxl], in units of [1 / (s - 1)]. *)
Definition linear_axis (w s i : Z) : option (Z * Z * Z) :=
  if s =? 1 then None else
  let p := i * (w - 1) in
  let l := p / (s - 1) in
  let h := if l + 1 <? w then l + 1 else l in
  Some (l, h, if h >? l then p - l * (s - 1) else s - 1).

(** The loops of [resize2DClosest], 949-978. *)
Definition closest_loop (junk : Z -> Z) (sched : sched3) (im : img) (sx sy : Z) (imOut : img) : option (Z * img) :=
  let out := setSize junk imOut (Dims sx sy 1) in
  option_bind (scatter (fun '(i, j, _) =>
      option_bind (nearest_axis (width im) sx i) (fun xo => option_bind (nearest_axis (height im) sy j) (fun yo =>
      option_map (fun v => (j * sx + i, v)) (rd (pixs im) (yo * width im + xo)))))
    (sched (grid sx sy 1)) (pixs out)) (fun px => Some (1, Img (sz out) px)).
(** [resize2DClosest], 940-978 ([flat = true]), and [resize3DClosest], 982-1024: for volumes they call each other; the recursion is
    cut after [fuel] calls.  The loops of [resize3DClosest] are never reached: it is called for volumes only. *)
Fixpoint closest_call (fuel : nat) (flat : bool) (junk : Z -> Z) (sched : sched3) (im : img) (sx sy : Z) (imOut : img) : option (Z * img) :=
  match fuel with
  | O => None
  | S fuel =>
      if depth im >? 1 then closest_call fuel (negb flat) junk sched im sx sy imOut
      else if flat then closest_loop junk sched im sx sy imOut else None
  end.

(** The conversion of a non-integral [double], [n / d], to [T]: truncation, undefined out of the range of [T]. *)
Definition to_pixel (t : ity) (n d : Z) : option Z := if intyb t (Z.quot n d) then Some (Z.quot n d) else None.
(** [resizeBilinear], 1037-1084, for images. *)
Definition bilinear (t : ity) (junk : Z -> Z) (sched : sched3) (im : img) (sx sy : Z) (imOut : img) : option (Z * img) :=
  let out := setSize junk imOut (Dims sx sy 1) in
  let dy := width im in
  option_bind (scatter (fun '(i, j, _) =>
      option_bind (linear_axis (width im) sx i) (fun '(xl, xh, cxl) => option_bind (linear_axis (height im) sy j) (fun '(yl, yh, cyl) =>
      let cxh := sx - 1 - cxl in let cyh := sy - 1 - cyl in
      option_bind (rd (pixs im) (yl * dy + xl)) (fun v1 => option_bind (rd (pixs im) (yl * dy + xh)) (fun v2 =>
      option_bind (rd (pixs im) (yh * dy + xl)) (fun v3 => option_bind (rd (pixs im) (yh * dy + xh)) (fun v4 =>
      option_map (fun v => (j * sx + i, v))
        (to_pixel t (v1 * cxh * cyh + v2 * cxl * cyh + v3 * cxh * cyl + v4 * cxl * cyl) ((sx - 1) * (sy - 1))))))))))
    (sched (grid sx sy 1)) (pixs out)) (fun px => Some (1, Img (sz out) px)).
(** [resizeTrilinear], 1089-1149, for volumes. *)
Definition trilinear (t : ity) (junk : Z -> Z) (sched : sched3) (im : img) (sx sy sz' : Z) (imOut : img) : option (Z * img) :=
  let out := setSize junk imOut (Dims sx sy sz') in
  let dy := width im in
  let dz := width im * height im in
  option_bind (scatter (fun '(i, j, k) =>
      option_bind (linear_axis (width im) sx i) (fun '(xl, xh, cxl) => option_bind (linear_axis (height im) sy j) (fun '(yl, yh, cyl) =>
      option_bind (linear_axis (depth im) sz' k) (fun '(zl, zh, czl) =>
      let cxh := sx - 1 - cxl in let cyh := sy - 1 - cyl in let czh := sz' - 1 - czl in
      option_bind (rd (pixs im) (zl * dz + yl * dy + xl)) (fun v1 => option_bind (rd (pixs im) (zl * dz + yl * dy + xh)) (fun v2 =>
      option_bind (rd (pixs im) (zl * dz + yh * dy + xl)) (fun v3 => option_bind (rd (pixs im) (zl * dz + yh * dy + xh)) (fun v4 =>
      option_bind (rd (pixs im) (zh * dz + yl * dy + xl)) (fun v5 => option_bind (rd (pixs im) (zh * dz + yl * dy + xh)) (fun v6 =>
      option_bind (rd (pixs im) (zh * dz + yh * dy + xl)) (fun v7 => option_bind (rd (pixs im) (zh * dz + yh * dy + xh)) (fun v8 =>
      option_map (fun v => ((k * sy + j) * sx + i, v))
        (to_pixel t (v1 * cxh * cyh * czh + v2 * cxl * cyh * czh + v3 * cxh * cyl * czh + v4 * cxl * cyl * czh +
                     v5 * cxh * cyh * czl + v6 * cxl * cyh * czl + v7 * cxh * cyl * czl + v8 * cxl * cyl * czl) ((sx - 1) * (sy - 1) * (sz' - 1)))))))))))))))
    (sched (grid sx sy sz')) (pixs out)) (fun px => Some (1, Img (sz out) px)).

(** [isBinary]: the keys of the map [h] grow with the pixels read; the test stops at three keys. *)
Fixpoint binary_scan (keys : list Z) (px : list Z) : option (list Z) :=
  match px with
  | [] => Some keys
  | v :: px =>
      let keys := if existsb (Z.eqb v) keys then keys else v :: keys in
      if Z.of_nat (List.length keys) >? 2 then None else binary_scan keys px
  end.
Definition isBinary (im : img) : bool :=
  match binary_scan [] (pixs im) with
  | Some keys => existsb (Z.eqb 0) keys && (Z.of_nat (List.length keys) =? 2)
  | None => false
  end.

(** [resize], 852-884, when the output is not the input; [fuel] bounds the calls of the closest method. *)
Definition resize (t : ity) (fuel : nat) (junk : Z -> Z) (sched : sched3) (im : img) (sx sy sz' : Z) (imOut : img) (method : string) : option (Z * img) :=
  let method := if String.eqb method "auto" then
      if isBinary im then "closest"%string else if depth im >? 1 then "trilinear"%string else "bilinear"%string else method in
  if String.eqb method "closest" then closest_call fuel (negb (depth im >? 1)) junk sched im sx sy imOut
  else if String.eqb method "bilinear" || String.eqb method "trilinear" then
    if depth im >? 1 then trilinear t junk sched im sx sy sz' imOut else bilinear t junk sched im sx sy imOut
  else Some (-100, imOut).
(** When the output is the input, 856-859: a copy is resized, by the default method. *)
Definition resize_inplace (t : ity) (fuel : nat) (junk : Z -> Z) (sched : sched3) (im : img) (sx sy sz' : Z) (method : string) : option (Z * img) :=
  resize t fuel junk sched im sx sy sz' im "trilinear".
