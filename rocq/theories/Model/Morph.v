(** Dilation, erosion and the operators built on them: Morpho/include/private/DMorphImageOperations.hpp,
    DMorphImageOperations.hxx, DMorphoBase.hpp, DMorphoFilter.hpp, DMorphoResidues.hpp.

    A line buffer is the list of its pixels.  [op] is the line functor ([supLine] or [infLine]) on one
    pixel, [bv] the border value.  [alias] tells that imIn and imOut are the same image: the passes then
    read what they have already written.  [None]: access outside an array.  [int seSize = se.size] is
    the identity (sizes below 2^31). *)
From Verif Require Export Model.Transform Model.StrElt Model.Pixel.

(** The line [getSlices()[z][y]] of an image of size [s] stored in [px]. *)
Definition getLine (s : dims) (px : list Z) (y z : Z) : option (list Z) :=
  option_bind (slice_access s 0 y z) (fun a => subarray px a (dw s)).

(** Writing a whole line. *)
Definition putLine (s : dims) (px : list Z) (y z : Z) (l : list Z) : option (list Z) :=
  option_bind (slice_access s 0 y z) (fun b => blit px b l).

(** [lineFunction(in1, in2, len, out)], Core/include/private/DBaseLineOperations.hpp; the lines have the same length. *)
Definition lineFn (op : Z -> Z -> Z) (a b : list Z) : list Z := map2 op a b.

(** [shiftLine<T>(line, dx, lineLen, buf, borderValue)] into a buffer of the same length (the previous
    contents of the buffer, here [line], do not matter: Proofs/TransformProofs3.v, shiftLine_ok). *)
Definition shl (line : list Z) (dx bv : Z) : option (list Z) :=
  shiftLine line line 0 dx (Z.of_nat (length line)) 0 bv.

(** [borderBuf], DMorphImageOperations.hxx:290-299. *)
Definition borderBuf (w bv : Z) : list Z := map (fun _ => bv) (zseq w).

(** The choices of the OpenMP runtime during one pass. *)
Record conf := Conf {
  nThreads : Z;                                  (* Core::getNumberOfThreads() *)
  lineSched : list (Z * Z) -> list (Z * Z);      (* order of the lines in "omp for" loops over lines *)
  ySched : list Z -> list Z;                     (* order of the iterations of the depth pass *)
  midSched : Z -> list Z;                        (* slice -> interleaving of the threads between the barriers *)
  lastSched : Z -> list Z -> list Z              (* slice -> order of the threads after the second barrier *)
}.

Definition all_lines (h d : Z) : list (Z * Z) := flat_map (fun k => map (fun j => (j, k)) (zseq h)) (zseq d).

(** [_extract_translated_line], DMorphImageOperations.hpp:171-178. *)
Definition extract_translated_line (im : img) (bv x y z : Z) : option (list Z) :=
  if (z <? 0) || (z >=? depth im) || (y <? 0) || (y >=? height im) then Some (borderBuf (width im) bv)
  else option_bind (getLine (sz im) (pixs im) y z) (fun l => shl l x bv).

(** The line of point [p] used for output line [l] of slice [s], DMorphImageOperations.hxx:503-520. *)
Definition generic_line (se_odd : bool) (im : img) (bv l s : Z) (p : point) : option (list Z) :=
  let oddLine := if se_odd then oddb (l + 1) && oddb (s + 1) else false in
  let z := s - pz_ p in
  let y := l - py_ p in
  extract_translated_line im bv (px_ p + bit (oddLine && oddb y)) y z.

(** [_exec_single_generic], DMorphImageOperations.hxx:447-532.  In the in-place case the source is a
    clone, so the source is [imIn] in both cases. *)
Definition exec_generic (c : conf) (op : Z -> Z -> Z) (bv : Z) (se : strelt) (imIn imOut : img) : option img :=
  match se_points se with
  | [] => Some imOut
  | p0 :: pts =>
      option_bind
        (fold_opt (fun px '(l, s) =>
           option_bind (generic_line (se_odd se) imIn bv l s p0) (fun buf0 =>
           option_bind (fold_opt (fun buf p => option_bind (generic_line (se_odd se) imIn bv l s p)
                                                 (fun b2 => Some (lineFn op buf b2))) pts buf0) (fun buf =>
           putLine (sz imOut) px l s buf)))
          (lineSched c (all_lines (height imIn) (depth imIn))) (pixs imOut))
        (fun px => Some (Img (sz imOut) px))
  end.

(** The array read by a pass. *)
Definition src_of (alias : bool) (imIn : img) (px : list Z) : list Z := if alias then px else pixs imIn.

(** [_exec_single_horizontal_segment] with xsize = 1, DMorphImageOperations.hxx:710-752
    ([getLines()[y + height * z]] is [getSlices()[z][y]]). *)
Definition exec_horizontal (c : conf) (op : Z -> Z -> Z) (bv : Z) (alias : bool) (imIn imOut : img) : option img :=
  option_bind
    (fold_opt (fun px '(l, s) =>
       option_bind (getLine (sz imIn) (src_of alias imIn px) l s) (fun lineIn =>
       option_bind (shl lineIn 1 bv) (fun buf1 =>
       let buf2 := lineFn op buf1 lineIn in
       option_bind (shl lineIn (-1) bv) (fun buf1 =>
       putLine (sz imOut) px l s (lineFn op buf1 buf2)))))
      (lineSched c (all_lines (height imIn) (depth imIn))) (pixs imOut))
    (fun px => Some (Img (sz imOut) px)).

(** [_exec_single_depth_segment], DMorphImageOperations.hxx:755-801: the body of the loop over [y]. *)
Definition depth_column (op : Z -> Z -> Z) (bv : Z) (alias : bool) (imIn : img) (so : dims) (px : list Z) (y : Z)
  : option (list Z) :=
  let w := width imIn in let d := depth imIn in
  let get px z := getLine (sz imIn) (src_of alias imIn px) y z in
  option_bind (get px 0) (fun l0 =>
  option_bind
    (fold_opt (fun '(px, buf1) z =>
       option_bind (get px z) (fun lz =>
       option_bind (get px (z - 1)) (fun lz1 =>
       let buf2 := lineFn op lz lz1 in
       option_bind (putLine so px y (z - 1) (lineFn op buf1 buf2)) (fun px => Some (px, buf2)))))
      (zrange 1 (d - 1)) (px, lineFn op (borderBuf w bv) l0)) (fun st =>
  putLine so (fst st) y (d - 1) (lineFn op (borderBuf w bv) (snd st)))).

Definition exec_depth (c : conf) (op : Z -> Z -> Z) (bv : Z) (alias : bool) (imIn imOut : img) : option img :=
  option_bind
    (fold_opt (fun px y => depth_column op bv alias imIn (sz imOut) px y) (ySched c (zseq (height imIn))) (pixs imOut))
    (fun px => Some (Img (sz imOut) px)).

(** Number of threads of the vertical and cross passes, DMorphImageOperations.hxx:813-814 and 892-893. *)
Definition block_threads (c : conf) (h : Z) : Z := Z.max (Z.min (nThreads c) (h / 4)) 1.

(** [firstLine] and [blockSize] of thread [tid], 834-837 and 917-920. *)
Definition block_first (c : conf) (h tid : Z) : Z := tid * (h / block_threads c h).
Definition block_size (c : conf) (h tid : Z) : Z :=
  if tid =? block_threads c h - 1 then h - h / block_threads c h * tid else h / block_threads c h.

(** A thread between the two barriers: about to test the loop condition with counter [i], or done. *)
Inductive vthread := VRun (i : Z) (buf1 : list Z) | VDone.

(** [_exec_single_vertical_segment], 804-880.  Before the first barrier (840-847): the buffers [buf1] and
    [firstLineBuf]. *)
Definition vert_init (c : conf) (op : Z -> Z -> Z) (bv : Z) (imIn : img) (src : list Z) (s tid : Z)
  : option (list Z * list Z) :=
  let h := height imIn in
  let first := block_first c h tid in
  let get y := getLine (sz imIn) src y s in
  option_bind (get first) (fun buf1 =>
  option_bind (if first =? 0 then Some (borderBuf (width imIn) bv) else get (first - 1)) (fun up =>
  let buf2 := lineFn op buf1 up in
  option_bind (get first) (fun l0 =>
  option_bind (get (first + 1)) (fun l1 =>
  let buf1 := lineFn op l0 l1 in
  Some (buf1, lineFn op buf1 buf2))))).

(** One step of a thread between the barriers: one iteration of the loop 853-859, or the last line 861-865. *)
Definition vert_step (c : conf) (op : Z -> Z -> Z) (bv : Z) (alias : bool) (imIn : img) (so : dims) (s tid : Z)
  (st : vthread) (px : list Z) : option (vthread * list Z) :=
  let h := height imIn in
  let first := block_first c h tid in
  let size := block_size c h tid in
  let get y := getLine (sz imIn) (src_of alias imIn px) y s in
  match st with
  | VDone => Some (VDone, px)
  | VRun i buf1 =>
      if i <? first + size - 1 then
        option_bind (get i) (fun li =>
        option_bind (get (i + 1)) (fun li1 =>
        let buf2 := lineFn op li li1 in
        option_bind (putLine so px i s (lineFn op buf1 buf2)) (fun px => Some (VRun (i + 1) buf2, px))))
      else
        option_bind (get (first + size - 1)) (fun ll =>
        option_bind (if first + size =? h then Some (borderBuf (width imIn) bv) else get (first + size)) (fun next =>
        option_bind (putLine so px (first + size - 1) s (lineFn op buf1 (lineFn op ll next))) (fun px =>
        Some (VDone, px))))
  end.

(** The threads of one slice, each step executed atomically, interleaved as [order]. *)
Definition run_threads {S} (step : Z -> S -> list Z -> option (S * list Z)) (order : list Z) (sts : list S) (px : list Z)
  : option (list S * list Z) :=
  fold_opt (fun '(sts, px) tid =>
    option_bind (rd sts tid) (fun st =>
    option_bind (step tid st px) (fun r => Some (upd sts tid (fst r), snd r)))) order (sts, px).

(** Collecting the results of independent computations; [None] if one fails. *)
Fixpoint all_opt {A B} (f : A -> option B) (l : list A) : option (list B) :=
  match l with
  | [] => Some []
  | a :: l => option_bind (f a) (fun b => option_bind (all_opt f l) (fun bs => Some (b :: bs)))
  end.

Definition is_vdone (t : vthread) : bool := match t with VDone => true | _ => false end.

(** Writing the first lines after the second barrier, 872. *)
Definition put_firsts (c : conf) (so : dims) (h s : Z) (firsts : list (list Z)) (order : list Z) (px : list Z)
  : option (list Z) :=
  fold_opt (fun px tid => option_bind (rd firsts tid) (fun l => putLine so px (block_first c h tid) s l)) order px.

Definition vert_slice (c : conf) (op : Z -> Z -> Z) (bv : Z) (alias : bool) (imIn : img) (so : dims) (px : list Z) (s : Z)
  : option (list Z) :=
  let h := height imIn in
  let tids := zseq (block_threads c h) in
  option_bind (all_opt (vert_init c op bv imIn (src_of alias imIn px) s) tids) (fun inits =>
  let sts := map (fun '(tid, (buf1, _)) => VRun (block_first c h tid + 1) buf1) (combine tids inits) in
  option_bind (run_threads (vert_step c op bv alias imIn so s) (midSched c s) sts px) (fun r =>
  put_firsts c so h s (map snd inits) (lastSched c s tids) (snd r))).

Definition exec_vertical (c : conf) (op : Z -> Z -> Z) (bv : Z) (alias : bool) (imIn imOut : img) : option img :=
  option_bind (fold_opt (vert_slice c op bv alias imIn (sz imOut)) (zseq (depth imIn)) (pixs imOut))
    (fun px => Some (Img (sz imOut) px)).

(** [_exec_shifted_line], DMorphImageOperations.hpp:186-192, with both inputs equal. *)
Definition shifted_line (op : Z -> Z -> Z) (bv : Z) (l : list Z) (dx : Z) : option (list Z) :=
  option_bind (shl l dx bv) (fun t => Some (lineFn op l t)).

(** [_exec_shifted_line_2ways], DMorphImageOperations.hpp:212-224. *)
Definition shifted_line_2ways (op : Z -> Z -> Z) (bv : Z) (l : list Z) (dx : Z) : option (list Z) :=
  option_bind (shl l dx bv) (fun t1 =>
  option_bind (shl l (- dx) bv) (fun t2 =>
  Some (lineFn op (lineFn op l t1) t2))).

(** [_exec_single_cross], 883-973. *)
Inductive cthread := CRun (i : Z) (buf1 buf2 : list Z) | CDone.

(** Before the first barrier, 924-934. *)
Definition cross_init (c : conf) (op : Z -> Z -> Z) (bv : Z) (imIn : img) (src : list Z) (s tid : Z)
  : option ((list Z * list Z) * list Z) :=
  let h := height imIn in
  let first := block_first c h tid in
  let get y := getLine (sz imIn) src y s in
  option_bind (get first) (fun buf1 =>
  option_bind (shifted_line_2ways op bv buf1 1) (fun buf4 =>
  option_bind (get (first + 1)) (fun buf2 =>
  let tmpBuf := lineFn op buf4 buf2 in
  option_bind (if first =? 0 then Some (borderBuf (width imIn) bv) else get (first - 1)) (fun up =>
  Some ((buf1, buf2), lineFn op up tmpBuf))))).

(** One iteration of the loop 940-952, or the last line 954-959. *)
Definition cross_step (c : conf) (op : Z -> Z -> Z) (bv : Z) (alias : bool) (imIn : img) (so : dims) (s tid : Z)
  (st : cthread) (px : list Z) : option (cthread * list Z) :=
  let h := height imIn in
  let first := block_first c h tid in
  let size := block_size c h tid in
  let get y := getLine (sz imIn) (src_of alias imIn px) y s in
  match st with
  | CDone => Some (CDone, px)
  | CRun i buf1 buf2 =>
      if i <? first + size then
        option_bind (get i) (fun buf3 =>
        option_bind (shifted_line_2ways op bv buf2 1) (fun buf4 =>
        option_bind (putLine so px (i - 1) s (lineFn op buf4 (lineFn op buf1 buf3))) (fun px =>
        Some (CRun (i + 1) buf2 buf3, px))))
      else
        option_bind (shifted_line_2ways op bv buf2 1) (fun buf4 =>
        let buf4 := lineFn op buf1 buf4 in
        option_bind (if first + size =? h then Some (borderBuf (width imIn) bv) else get (first + size)) (fun next =>
        option_bind (putLine so px (first + size - 1) s (lineFn op buf4 next)) (fun px => Some (CDone, px))))
  end.

Definition cross_slice (c : conf) (op : Z -> Z -> Z) (bv : Z) (alias : bool) (imIn : img) (so : dims) (px : list Z) (s : Z)
  : option (list Z) :=
  let h := height imIn in
  let tids := zseq (block_threads c h) in
  option_bind (all_opt (cross_init c op bv imIn (src_of alias imIn px) s) tids) (fun inits =>
  let sts := map (fun '(tid, ((buf1, buf2), _)) => CRun (block_first c h tid + 2) buf1 buf2) (combine tids inits) in
  option_bind (run_threads (cross_step c op bv alias imIn so s) (midSched c s) sts px) (fun r =>
  put_firsts c so h s (map snd inits) (lastSched c s tids) (snd r))).

Definition exec_cross (c : conf) (op : Z -> Z -> Z) (bv : Z) (alias : bool) (imIn imOut : img) : option img :=
  option_bind (fold_opt (cross_slice c op bv alias imIn (sz imOut)) (zseq (depth imIn)) (pixs imOut))
    (fun px => Some (Img (sz imOut) px)).

(** [_exec_single_hexagonal_SE], 536-618: one slice, sequential. *)
Definition hex_slice (op : Z -> Z -> Z) (bv : Z) (alias : bool) (imIn : img) (so : dims) (px : list Z) (s : Z)
  : option (list Z) :=
  let w := width imIn in let h := height imIn in
  let get px y := getLine (sz imIn) (src_of alias imIn px) y s in
  let border := borderBuf w bv in
  option_bind (get px 0) (fun l0 =>
  option_bind (shifted_line op bv l0 (-1)) (fun buf0 =>
  option_bind (shifted_line op bv buf0 1) (fun buf3 =>
  option_bind (get px 1) (fun l1 =>
  option_bind (shifted_line op bv l1 1) (fun buf1 =>
  let buf4 := lineFn op buf3 buf1 in
  option_bind (putLine so px 0 s (lineFn op border buf4)) (fun px =>
  option_bind
    (fold_opt (fun '(px, buf0, buf1) l =>
       let even := negb (xorb (negb (oddb l)) (negb (oddb s))) in
       let dx := if even then -1 else 1 in
       option_bind (get px l) (fun cur =>
       option_bind (shifted_line op bv cur dx) (fun buf2 =>
       option_bind (shifted_line op bv buf1 dx) (fun buf3 =>
       let buf4 := lineFn op buf0 buf2 in
       option_bind (putLine so px (l - 1) s (lineFn op buf3 buf4)) (fun px => Some (px, buf1, buf2))))))
      (zrange 2 (h - 2)) (px, buf0, buf1)) (fun '(px, buf0, buf1) =>
  let even := negb (xorb (negb (oddb h)) (negb (oddb s))) in
  option_bind (shifted_line op bv buf1 (if even then -1 else 1)) (fun buf3 =>
  let buf4 := lineFn op buf3 buf0 in
  putLine so px (h - 1) s (lineFn op border buf4))))))))).

Definition exec_hex (op : Z -> Z -> Z) (bv : Z) (alias : bool) (imIn imOut : img) : option img :=
  option_bind (fold_opt (hex_slice op bv alias imIn (sz imOut)) (zseq (depth imIn)) (pixs imOut))
    (fun px => Some (Img (sz imOut) px)).

(** [_exec_single_square_SE], 621-627, and [_exec_single_cube_SE], 630-637. *)
Definition exec_square c op bv alias imIn imOut : option img :=
  option_bind (exec_vertical c op bv alias imIn imOut) (fun out => exec_horizontal c op bv true out out).
Definition exec_cube c op bv alias imIn imOut : option img :=
  option_bind (exec_vertical c op bv alias imIn imOut) (fun out =>
  option_bind (exec_horizontal c op bv true out out) (fun out => exec_depth c op bv true out out)).

(** [_exec_single], 417-443. *)
Definition exec_single c op bv (se : strelt) (alias : bool) (imIn imOut : img) : option img :=
  match se_type se with
  | SE_Hex => exec_hex op bv alias imIn imOut
  | SE_Squ => exec_square c op bv alias imIn imOut
  | SE_Horiz => exec_horizontal c op bv alias imIn imOut
  | SE_Cross => exec_cross c op bv alias imIn imOut
  | SE_Vert => exec_vertical c op bv alias imIn imOut
  | SE_Cube => exec_cube c op bv alias imIn imOut
  | _ => exec_generic c op bv se imIn imOut
  end.

(** [isInplaceSafe], 262-285. *)
Definition isInplaceSafe (se : strelt) : bool :=
  match se_type se with
  | SE_Horiz | SE_Vert | SE_Hex | SE_Squ | SE_Cube | SE_Cross => true
  | _ => false
  end.

(** Passes repeated in place. *)
Fixpoint exec_inplace (n k : nat) (cs : nat -> conf) op bv se (im : img) : option img :=
  match n with
  | O => Some im
  | S n' => option_bind (exec_single (cs k) op bv se true im im) (exec_inplace n' (S k) cs op bv se)
  end.

(** The loop 385-391 between two images [inI] and [outI], swapped after each pass but the last; the result
    is the image written last ([copy] to imOut, 395-396, if it is not imOut). *)
Fixpoint exec_pingpong (n k : nat) (cs : nat -> conf) op bv se (inI outI : img) : option img :=
  match n with
  | O => Some inI
  | S n' => option_bind (exec_single (cs k) op bv se false inI outI) (fun out => exec_pingpong n' (S k) cs op bv se out inI)
  end.

(** [_exec_rhombicuboctahedron], 1179-1194.  [nbSquare] is size/(1+sqrt 2) rounded to the nearest integer: the
    largest n with 2n - 1 <= 2 size (sqrt 2 - 1), computed here without floating point. *)
Definition nbSquare (size : Z) : Z := (Z.sqrt (8 * size * size) - 2 * size + 1) / 2.
Definition exec_rco (cs : nat -> conf) op bv (size : Z) (alias : bool) (imIn imOut : img) : option img :=
  let nb := nbSquare size in
  option_bind (exec_single (cs O) op bv (Cross3DSE 1) alias imIn imOut) (fun out =>
  option_bind (exec_inplace (Z.to_nat (size - nb - 1)) 1 cs op bv (Cross3DSE 1) out)
    (exec_inplace (Z.to_nat nb) (Z.to_nat (size - nb)) cs op bv (CubeSE 1))).

(** [MorphImageFunction<T, F, T, true>::_exec], 344-403.  [junk] is the content of the new image tmpImage. *)
Definition morph_exec (junk : Z -> Z) (cs : nat -> conf) op bv (se : strelt) (alias : bool) (imIn imOut : img) : option img :=
  if se_size se =? 0 then Some (Img (sz imOut) (pixs imIn))
  else if match se_type se with SE_Rhombicuboctahedron => true | _ => false end
  then exec_rco cs op bv (se_size se) alias imIn imOut
  else if isInplaceSafe se || (negb alias && (se_size se =? 1))
  then option_bind (exec_single (cs O) op bv se alias imIn imOut)
         (exec_inplace (Z.to_nat (se_size se - 1)) 1 cs op bv se)
  else
    let tmp := Img (sz imOut) (map junk (zseq (pixelCount (sz imOut)))) in
    option_bind (exec_single (cs O) op bv se false imIn tmp) (fun tmp =>
    exec_pingpong (Z.to_nat (se_size se - 1)) 1 cs op bv se tmp imOut).

(** [dilate], DMorphoBase.hpp:65-73; [erode], 112-120. *)
Definition dilate junk cs (bv : Z) (se : strelt) (alias : bool) (imIn imOut : img) : option (Z * img) :=
  if negb (same_size imIn imOut) then Some (-98, imOut)
  else option_bind (morph_exec junk cs px_sup bv se alias imIn imOut) (fun out => Some (1, out)).
Definition erode junk cs (bv : Z) (se : strelt) (alias : bool) (imIn imOut : img) : option (Z * img) :=
  if negb (same_size imIn imOut) then Some (-98, imOut)
  else option_bind (morph_exec junk cs px_inf bv (transpose se) alias imIn imOut) (fun out => Some (1, out)).

(** [close], DMorphoFilter.hpp:70-93; [open], 123-146, default border values.  imTmp is imOut itself or a new
    image with unspecified contents. *)
Definition close_im (t : ity) junk cs1 cs2 (se : strelt) (alias : bool) (imIn imOut : img) : option (Z * img) :=
  if negb (same_size imIn imOut) then Some (-98, imOut)
  else if isInplaceSafe se then
    option_bind (dilate junk cs1 (tmin t) se alias imIn imOut) (fun r =>
    erode junk cs2 (tmax t) se true (snd r) (snd r))
  else
    option_bind (dilate junk cs1 (tmin t) se false imIn (Img (sz imIn) (map junk (zseq (pixelCount (sz imIn)))))) (fun r =>
    erode junk cs2 (tmax t) se false (snd r) imOut).
Definition open_im (t : ity) junk cs1 cs2 (se : strelt) (alias : bool) (imIn imOut : img) : option (Z * img) :=
  if negb (same_size imIn imOut) then Some (-98, imOut)
  else if isInplaceSafe se then
    option_bind (erode junk cs1 (tmax t) se alias imIn imOut) (fun r =>
    dilate junk cs2 (tmin t) se true (snd r) (snd r))
  else
    option_bind (erode junk cs1 (tmax t) se false imIn (Img (sz imIn) (map junk (zseq (pixelCount (sz imIn)))))) (fun r =>
    dilate junk cs2 (tmin t) se false (snd r) imOut).

(** [gradient], DMorphoResidues.hpp:86-99; [topHat], 115-125; [dualTopHat], 140-150; [sub] is applied pixel by
    pixel (Model/Pixel.v). *)
Definition sub_im (t : ity) (a b : img) : img := Img (sz a) (map2 (px_sub t) (pixs a) (pixs b)).
Definition new_img (junk : Z -> Z) (im : img) : img := Img (sz im) (map junk (zseq (pixelCount (sz im)))).
Definition gradient (t : ity) junk cs1 cs2 (dilSe eroSe : strelt) (imIn : img) : option (Z * img) :=
  option_bind (dilate junk cs1 (tmin t) dilSe false imIn (new_img junk imIn)) (fun r1 =>
  option_bind (erode junk cs2 (tmax t) eroSe false imIn (new_img junk imIn)) (fun r2 =>
  Some (1, sub_im t (snd r1) (snd r2)))).
Definition topHat (t : ity) junk cs1 cs2 (se : strelt) (imIn : img) : option (Z * img) :=
  option_bind (open_im t junk cs1 cs2 se false imIn (new_img junk imIn)) (fun r => Some (1, sub_im t imIn (snd r))).
Definition dualTopHat (t : ity) junk cs1 cs2 (se : strelt) (imIn : img) : option (Z * img) :=
  option_bind (close_im t junk cs1 cs2 se false imIn (new_img junk imIn)) (fun r => Some (1, sub_im t (snd r) imIn)).

(** [asfClose], DMorphoFilter.hpp:181-196, and [asfOpen], 211-226. *)
Fixpoint asf (first second : Z -> img -> img -> option (Z * img)) (n : nat) (i : Z) (tmp out : img) : option img :=
  match n with
  | O => Some tmp
  | S n' =>
      option_bind (first i tmp out) (fun r1 =>
      option_bind (second i (snd r1) tmp) (fun r2 => asf first second n' (i + 1) (snd r2) (snd r1)))
  end.
Definition asfClose (t : ity) junk (cs : Z -> nat -> nat -> conf) (se : strelt) (imIn imOut : img) : option (Z * img) :=
  if negb (same_size imIn imOut) then Some (-98, imOut)
  else option_bind (asf (fun i a b => close_im t junk (cs i 0%nat) (cs i 1%nat) (with_size se i) false a b)
                        (fun i a b => open_im t junk (cs i 2%nat) (cs i 3%nat) (with_size se i) false a b)
                        (Z.to_nat (se_size se)) 1 imIn imOut) (fun out => Some (1, out)).
Definition asfOpen (t : ity) junk (cs : Z -> nat -> nat -> conf) (se : strelt) (imIn imOut : img) : option (Z * img) :=
  if negb (same_size imIn imOut) then Some (-98, imOut)
  else option_bind (asf (fun i a b => open_im t junk (cs i 0%nat) (cs i 1%nat) (with_size se i) false a b)
                        (fun i a b => close_im t junk (cs i 2%nat) (cs i 3%nat) (with_size se i) false a b)
                        (Z.to_nat (se_size se)) 1 imIn imOut) (fun out => Some (1, out)).
