(** Convolutions by one-dimensional kernels: Base/include/private/DImageConvolution.hpp:50-250, 276-465.

    The [double]s are exact rationals: rounding is not modelled.  The exponentials of the Gaussian kernel are not computed:
    the kernel is any list of rationals.  [None] stands for undefined behaviour: an access outside an array, the conversion
    to a pixel of a NaN, of an infinity or of a value whose integer part is outside the type. *)
From Coq Require Export QArith Qround.
From Verif Require Export Model.Loops.
Local Open Scope Z_scope.

(** The conversion [T(d)]: the integer part. *)
Definition qtrunc (q : Q) : Z := if Qle_bool 0 q then Qfloor q else - Qfloor (- q).
Definition to_pixel (t : ity) (q : Q) : option Z := if intyb t (qtrunc q) then Some (qtrunc q) else None.
Definition qdiv (a b : Q) : option Q := if Qeq_bool b 0 then None else Some (a / b)%Q.

(** The radius, 291 and 377: [(kernel.size() - 1) / 2] as an [int]; for an empty kernel it is -1 and the allocation of 294
    throws. *)
Definition kernel_radius (kernel : list Q) : Z := if Z.of_nat (length kernel) =? 0 then -1 else (Z.of_nat (length kernel) - 1) / 2.

(** partialKernWeights, 294-301 and 379-386: [is] is the second loop, [s] is pkwSum. *)
Fixpoint pkw_loop (kernel : list Q) (r : Z) (is : list Z) (s : Q) : option (list Q) :=
  match is with
  | [] => Some []
  | i :: is => option_bind (rd kernel (i + r)) (fun k => option_map (cons (s + k)%Q) (pkw_loop kernel r is (s + k)%Q))
  end.
Definition pkw (kernel : list Q) (r : Z) : option (list Q) :=
  option_bind (fold_opt (fun s i => option_map (fun k => s + k)%Q (rd kernel i)) (zseq r) 0%Q) (pkw_loop kernel r (zseq r)).

(** One sum: the loops 324-325, 332-333, 340-341, 408-409, 416-417, 424-425, for [i] from [lo] to [hi]; [get] reads the line or the column. *)
Definition conv_sum (kernel : list Q) (r : Z) (get : Z -> option Z) (x lo hi : Z) : option Q :=
  fold_opt (fun s i => option_bind (rd kernel (i + r)) (fun k => option_map (fun v => s + k * inject_Z v)%Q (get (x + i)))) (zrange lo (hi - lo + 1)) 0%Q.

(** The iterations of the three loops, 321-343 and 405-427: the position, the bounds of [i], and the index of the partial weight by which
    the sum is divided (none for the central pixels). *)
Definition tap : Type := Z * Z * Z * option Z.
Definition taps (n r : Z) : list tap :=
  map (fun x => (x, - x, r, Some x)) (zseq r) ++
  map (fun x => (x, - r, r, None)) (zrange r (n - 2 * r)) ++
  map (fun x => (x, - r, n - x - 1, Some (n - 1 - x))) (zrange (n - r) r).
Definition tap_value (t : ity) (kernel : list Q) (r : Z) (w : list Q) (get : Z -> option Z) (p : tap) : option Z :=
  let '(x, lo, hi, j) := p in
  option_bind (conv_sum kernel r get x lo hi) (fun s =>
  match j with
  | None => to_pixel t s
  | Some j => option_bind (option_bind (rd w j) (qdiv s)) (to_pixel t)
  end).
Definition tap_pos (p : tap) : Z := fst (fst (fst p)).

(** One line of [horizConvolve], 318-343: the line is first copied to a buffer. *)
Definition horiz_line (t : ity) (kernel : list Q) (r : Z) (w : list Q) (width : Z) (lIn px : list Z) (b : Z) : option (list Z) :=
  fold_opt (fun px p => option_bind (tap_value t kernel r w (rd lIn) p) (wr px (b + tap_pos p))) (taps width r) px.
Definition copy_line (px : list Z) (a n : Z) : option (list Z) := all_some (map (rd px) (zrange a n)).

(** [horizConvolve], 277-348.  [CHECK_SAME_SIZE] is not an assertion: the output is resized if the option is set ([auto]) and
    nothing else is done.  [sched] orders the lines; [alias]: the output is the input. *)
Definition horizConvolve (t : ity) (junk : Z -> Z) (sched : list Z -> list Z) (auto alias : bool) (im : img) (kernel : list Q) (imOut : img) : option (Z * img) :=
  let out := if alias then im else if auto then setSize junk imOut (sz im) else imOut in
  let r := kernel_radius kernel in
  if r <? 0 then None else
  option_bind (pkw kernel r) (fun w =>
  option_bind (fold_opt (fun px y =>
      option_bind (rd (restruct_lines (sz im)) y) (fun a =>
      option_bind (copy_line (if alias then px else pixs im) a (dw (sz im))) (fun lIn =>
      option_bind (rd (restruct_lines (sz out)) y) (fun b =>
      horiz_line t kernel r w (dw (sz im)) lIn px b))))
    (sched (zseq (lineCount (sz im)))) (pixs out)) (fun px =>
  Some (1, Img (sz out) px))).

(** [vertConvolve], 361-433.  [sched] orders the columns of a slice. *)
Definition vertConvolve (t : ity) (junk : Z -> Z) (sched : list Z -> list Z) (auto alias : bool) (im : img) (kernel : list Q) (imOut : img) : option (Z * img) :=
  let out := if alias then im else if auto then setSize junk imOut (sz im) else imOut in
  let r := kernel_radius kernel in
  if r <? 0 then None else
  option_bind (pkw kernel r) (fun w =>
  option_bind (fold_opt (fun px '(x, p, z) =>
      let get y := option_bind (slice_access (sz im) x y z) (rd (if alias then px else pixs im)) in
      option_bind (tap_value t kernel r w get p) (fun v =>
      option_bind (slice_access (sz out) x (tap_pos p) z) (fun a => wr px a v)))
    (flat_map (fun z => flat_map (fun x => map (fun p => (x, p, z)) (taps (dh (sz im)) r)) (sched (zseq (dw (sz im))))) (zseq (dd (sz im)))) (pixs out)) (fun px =>
  Some (1, Img (sz out) px))).

(** [convolve], 447-465, the output not being the input (a copy is made otherwise). *)
Definition convolve (t : ity) (junk : Z -> Z) (schedV schedH : list Z -> list Z) (auto : bool) (im : img) (kernel : list Q) (imOut : img) : option (Z * img) :=
  option_bind (vertConvolve t junk schedV auto false im kernel imOut) (fun o =>
  option_bind (horizConvolve t junk schedH auto true (snd o) kernel (snd o)) (fun o => Some (1, snd o))).

(** ** The Gaussian filter *)
(** One pixel of one direction, 134-144 (and 167-177, 198-208): position [c] of [n] along the direction. *)
Definition gauss_px (t : ity) (kernel : list Q) (r : Z) (get : Z -> option Z) (c n : Z) : option Z :=
  option_bind (fold_opt (fun (s : Q * Q) i =>
      if (c + i <? 0) || (c + i >? n - 1) then Some s else
      option_bind (rd kernel (i + r)) (fun k => option_map (fun v => (fst s + k * inject_Z v, snd s + k)%Q) (get i)))
    (zrange (- r) (2 * r + 1)) (0, 0)%Q) (fun s =>
  option_bind (qdiv (fst s) (snd s)) (to_pixel t)).
(** One direction, 122-148, 153-181, 186-212: pixels of [src] at distance [stride]; the array written is not the array read. *)
Definition gauss_dir (t : ity) (sched : sched3) (kernel : list Q) (r : Z) (s : dims) (stride : Z) (pos : Z * Z * Z -> Z) (n : Z) (src dst : list Z) : option (list Z) :=
  scatter (fun '(x, y, z) =>
      let i0 := (z * dh s + y) * dw s + x in
      option_map (fun v => (i0, v)) (gauss_px t kernel r (fun i => rd src (i0 + i * stride)) (pos (x, y, z)) n))
    (sched (grid (dw s) (dh s) (dd s))) dst.
(** [gaussianFilter], 235-250, and [Convolve], 104-214, for images of the same size, the output not being the input (a copy is made otherwise); the kernel has [2 * r + 1] values. *)
Definition gaussianFilter (t : ity) (s1 s2 s3 : sched3) (im : img) (kernel : list Q) (r : Z) (imOut : img) : option (Z * img) :=
  let s := sz im in
  let zeros := repeat 0 (length (pixs im)) in
  option_bind (gauss_dir t s1 kernel r s 1 (fun '(x, _, _) => x) (dw s) (pixs im) zeros) (fun outX =>
  option_bind (gauss_dir t s2 kernel r s (dw s) (fun '(_, y, _) => y) (dh s) outX zeros) (fun outY =>
  option_bind (gauss_dir t s3 kernel r s (dw s * dh s) (fun '(_, _, z) => z) (dd s) outY (pixs imOut)) (fun out =>
  Some (1, Img s out)))).
