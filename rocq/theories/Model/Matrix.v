(** Matrix product of images: Base/include/private/DImageMatrix.hpp:208-266. *)
From Coq Require Import String.
From Verif Require Export Model.Transform Model.Moments.
Local Open Scope Z_scope.

(** [outVal += line[i] * col[i]], 258: in [int] (overflow is undefined: [None]) or in UINT32, then converted to [T]. *)
Definition mac (t : ity) (acc a b : Z) : option Z :=
  option_bind (px_product t a b) (fun p =>
  match t with
  | UINT32 => Some ((acc + p) mod 2 ^ 32)
  | _ => if (- 2 ^ 31 <=? acc + p) && (acc + p <? 2 ^ 31) then Some (wrap t (acc + p)) else None
  end).

(** The innermost loop, 256-258, on [line = lines[y]] of [im1] and [col = cols[x]] of [tr]; the images have one slice. *)
Definition dot (t : ity) (im1 tr : img) (n x y : Z) : option Z :=
  fold_opt (fun acc i =>
      option_bind (option_bind (slice_access (sz im1) i y 0) (rd (pixs im1))) (fun a =>
      option_bind (option_bind (slice_access (sz tr) i x 0) (rd (pixs tr))) (fun b => mac t acc a b)))
    (zseq n) 0.

(** [matMultiply], 208-266, when the output is neither of the inputs.  [sched] and [sched'] order the iterations of the
    transposition and of the product; [junk] is the contents of new images. *)
Definition matMultiply (t : ity) (junk : Z -> Z) (sched sched' : sched3) (im1 im2 imOut : img) : option (Z * img) :=
  if negb (depth im1 =? 1) || negb (depth im2 =? 1) then Some (-96, imOut)
  else if negb (width im1 =? height im2) then Some (-100, imOut)
  else
    let out := setSize junk imOut (Dims (width im2) (height im1) 1) in
    let new := Img (Dims (height im2) (width im2) 1) (map junk (zseq (pixelCount (Dims (height im2) (width im2) 1)))) in
    option_bind (matTranspose junk sched im2 "yxz" new) (fun rt =>
    if negb (fst rt =? 1) then Some (-100, out) else
    option_bind (scatter (fun '(x, y, _) =>
        option_bind (slice_access (sz out) x y 0) (fun a =>
        option_map (fun v => (a, v)) (dot t im1 (snd rt) (width im1) x y)))
      (sched' (grid (width im2) (height im1) 1)) (pixs out)) (fun px =>
    Some (1, Img (sz out) px))).

(** [matMultiply(im, im2, im)] for square matrices of the same size, one thread: the lines read are the lines written. *)
Definition matMultiply_inplace (t : ity) (junk : Z -> Z) (im im2 : img) : option (Z * img) :=
  let new := Img (Dims (height im2) (width im2) 1) (map junk (zseq (pixelCount (Dims (height im2) (width im2) 1)))) in
  option_bind (matTranspose junk (fun l => l) im2 "yxz" new) (fun rt =>
  option_bind (fold_opt (fun px '(x, y, _) =>
      option_bind (slice_access (sz im) x y 0) (fun a =>
      option_bind (dot t (Img (sz im) px) (snd rt) (width im) x y) (fun v => wr px a v)))
    (flat_map (fun y => map (fun x => (x, y, 0)) (zseq (width im2))) (zseq (height im))) (pixs im)) (fun px =>
  Some (1, Img (sz im) px))).
