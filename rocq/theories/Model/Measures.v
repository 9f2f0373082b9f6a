(** Histograms and measures.

    Models: Base/include/private/DImageHistogram.hpp, DMeasures.hpp, DBaseMeasureOperations.hpp,
    DBlob.hpp and applyLookup of DImageArith.hpp. *)
From Verif Require Export Model.Image.

(** Addition of an integer to a [double] accumulator.  Exact while the result is an integer of
    magnitude at most 2^53; beyond that rounding is not modelled ([None]). *)
Definition dadd (a b : Z) : option Z := if Z.abs (a + b) <=? 2 ^ 53 then Some (a + b) else None.

(** MeasureFunctionBase::processImage, DBaseMeasureOperations.hpp:84-103: the loop over all pixels
    that splits them into runs of nonzero pixels.  State: next index, curStart, curSize, runs found
    (most recent first). *)
Fixpoint runs_base (l : list Z) (i curStart curSize : Z) (acc : list (Z * Z)) : list (Z * Z) :=
  match l with
  | [] => if curSize >? 0 then (curStart, curSize) :: acc else acc
  | p :: r =>
      if negb (p =? 0) then
        let curStart := if (curSize =? 0) && (curStart =? 0) then i else curStart in
        runs_base r (i + 1) curStart (curSize + 1) acc
      else if curSize >? 0 then runs_base r (i + 1) 0 0 ((curStart, curSize) :: acc)
      else runs_base r (i + 1) curStart curSize acc
  end.

(** MeasureFunctionWithPos::processImage, DBaseMeasureOperations.hpp:201-216: the loop over one line. *)
Fixpoint runs_line (l : list Z) (x curStart curSize : Z) (acc : list (Z * Z)) : list (Z * Z) :=
  match l with
  | [] => if curSize >? 0 then (curStart, curSize) :: acc else acc
  | p :: r =>
      if negb (p =? 0) then
        let curStart := if curSize =? 0 then x else curStart in
        runs_line r (x + 1) curStart (curSize + 1) acc
      else if curSize >? 0 then runs_line r (x + 1) curStart 0 ((curStart, curSize) :: acc)
      else runs_line r (x + 1) curStart curSize acc
  end.

(** MeasureFunctionBase::processImage(imIn, onlyNonZero), DBaseMeasureOperations.hpp:76-105.
    [proc] is processSequence. *)
Definition process_image {S} (proc : S -> list Z -> option S) (s0 : S) (onlyNonZero : bool) (im : img) : option S :=
  if onlyNonZero then
    fold_opt (fun s (r : Z * Z) => option_bind (subarray (pixs im) (fst r) (snd r)) (proc s))
      (rev (runs_base (pixs im) 0 0 0 [])) s0
  else option_bind (subarray (pixs im) 0 (pixelCount (sz im))) (proc s0).

(** MeasureFunctionWithPos::processImage(imIn, onlyNonZero), DBaseMeasureOperations.hpp:186-222. *)
Definition process_line_pos {S} (proc : S -> list Z -> Z -> Z -> Z -> option S) (onlyNonZero : bool)
  (line : list Z) (y z : Z) (s : S) : option S :=
  if onlyNonZero then
    fold_opt (fun s (r : Z * Z) =>
        option_bind (subarray line (fst r) (snd r)) (fun l => proc s l (fst r) y z))
      (rev (runs_line line 0 0 0 [])) s
  else proc s line 0 y z.

Definition process_image_pos {S} (proc : S -> list Z -> Z -> Z -> Z -> option S) (s0 : S)
  (onlyNonZero : bool) (im : img) : option S :=
  fold_opt (fun s z =>
    fold_opt (fun s y =>
        option_bind (slice_access (sz im) 0 y z) (fun start =>
        option_bind (subarray (pixs im) start (width im)) (fun line =>
        process_line_pos proc onlyNonZero line y z s)))
      (zseq (height im)) s)
    (zseq (depth im)) s0.

(** area, DMeasures.hpp:57-64, 91-95. *)
Definition area (im : img) : option Z :=
  process_image (fun s l => dadd s (Z.of_nat (length l))) 0 true im.

(** volume (and vol), DMeasures.hpp:98-107, 128-137, 153-157. *)
Definition volume (im : img) : option Z :=
  process_image (fun s l => fold_opt dadd l s) 0 false im.

(** minVal, DMeasures.hpp:222-234, 265-269. *)
Definition minVal (t : ity) (onlyNonZero : bool) (im : img) : option Z :=
  process_image (fun s l => Some (fold_left (fun m v => if v <? m then v else m) l s)) (tmax t) onlyNonZero im.

(** maxVal, DMeasures.hpp:297-309, 340-344. *)
Definition maxVal (t : ity) (onlyNonZero : bool) (im : img) : option Z :=
  process_image (fun s l => Some (fold_left (fun m v => if v >? m then v else m) l s)) (tmin t) onlyNonZero im.

(** rangeVal, DMeasures.hpp:373-413: the pair (min, max). *)
Definition rangeVal (t : ity) (onlyNonZero : bool) (im : img) : option (Z * Z) :=
  process_image (fun s l => Some (fold_left (fun (s : Z * Z) v =>
      let mx := if v >? snd s then v else snd s in
      let mn := if v <? fst s then v else fst s in (mn, mx)) l s)) (tmax t, tmin t) onlyNonZero im.

(** State of measMinValPosFunc / measMaxValPosFunc: value and point. *)
Definition posst : Type := Z * (Z * Z * Z).

(** processSequence of measMinValPosFunc, DMeasures.hpp:245-255 (and 305-315 for the maximum):
    [better v best] is the comparison. *)
Fixpoint proc_best (better : Z -> Z -> bool) (s : posst) (l : list Z) (x y z : Z) : posst :=
  match l with
  | [] => s
  | v :: r => proc_best better (if better v (fst s) then (v, (x, y, z)) else s) r (x + 1) y z
  end.

(** minVal with point, DMeasures.hpp:236-256, 280-287 (Point's constructor sets 0,0,0). *)
Definition minVal_pt (t : ity) (onlyNonZero : bool) (im : img) : option posst :=
  process_image_pos (fun s l x y z => Some (proc_best Z.ltb s l x y z)) (tmax t, (0, 0, 0)) onlyNonZero im.

(** maxVal with point, DMeasures.hpp:311-331, 355-362. *)
Definition maxVal_pt (t : ity) (onlyNonZero : bool) (im : img) : option posst :=
  process_image_pos (fun s l x y z => Some (proc_best Z.gtb s l x y z)) (tmin t, (0, 0, 0)) onlyNonZero im.

(** valueList, DMeasures.hpp:424-447, 460-464; [std::set] as a map to unit. *)
Definition valueList (onlyNonZero : bool) (im : img) : option (list Z) :=
  option_map mkeys
    (process_image (fun (s : zmap unit) l => Some (fold_left (fun s v => minsert v tt s) l s)) [] onlyNonZero im).

(** Conversion to [int] of a pixel value used as key of [map<int,int>]. *)
Definition to_int (z : Z) : Z := (z + 2 ^ 31) mod 2 ^ 32 - 2 ^ 31.

(** State of measModeValFunc: nbList, maxNb, mode. *)
Definition modest : Type := zmap Z * Z * Z.

(** One pixel in measModeValFunc::processSequence, DMeasures.hpp:493-508 ([int] counters, overflow not
    modelled). *)
Definition mode_step (s : modest) (v : Z) : modest :=
  let '(nb, maxNb, mode) := s in
  if v >? 0 then
    let nb := match mfind (to_int v) nb with
              | None => minsert (to_int v) 1 nb
              | Some c => mput (to_int v) (c + 1) nb
              end in
    if mget 0 (to_int v) nb >? maxNb then (nb, mget 0 (to_int v) nb, v) else (nb, maxNb, mode)
  else s.

(** modeVal, DMeasures.hpp:475-512, 524-528.  retVal is assigned from mode at the end of each
    sequence; when no sequence is processed it keeps its initial indeterminate value, which is modelled by
    [None] inside. *)
Definition modeVal (onlyNonZero : bool) (im : img) : option (option Z) :=
  option_map snd
    (process_image (fun (s : modest * option Z) l =>
        let s' := fold_left mode_step l (fst s) in Some (s', Some (snd s')))
      (([], 0, 0), None) onlyNonZero im).

(** One pixel in measMedianValFunc::processSequence, DMeasures.hpp:556-570: nbList and total_elems. *)
Definition median_step (s : zmap Z * Z) (v : Z) : zmap Z * Z :=
  let '(nb, total) := s in
  if v >? 0 then
    (match mfind (to_int v) nb with
     | None => minsert (to_int v) 1 nb
     | Some c => mput (to_int v) (c + 1) nb
     end, total + 1)
  else s.

(** measMedianValFunc::finalize, DMeasures.hpp:575-591: [acc > total / 2.0]. *)
Fixpoint median_scan (nb : zmap Z) (acc total : Z) : Z :=
  match nb with
  | [] => 0
  | (k, c) :: r => if 2 * (acc + c) >? total then k else median_scan r (acc + c) total
  end.

(** medianVal, DMeasures.hpp:540-603; the key is converted back to the pixel type. *)
Definition medianVal (t : ity) (onlyNonZero : bool) (im : img) : option Z :=
  option_map (fun s : zmap Z * Z => wrap t (median_scan (fst s) 0 (snd s)))
    (process_image (fun s l => Some (fold_left median_step l s)) ([], 0) onlyNonZero im).

(** State of measBoundBoxFunc: xMin, xMax, yMin, yMax, zMin, zMax (doubles holding coordinates). *)
Record bbst := BB { xMin : Z; xMax : Z; yMin : Z; yMax : Z; zMin : Z; zMax : Z }.

(** measBoundBoxFunc::processSequence, DMeasures.hpp:728-746. *)
Definition bb_step (im3d : bool) (s : bbst) (l : list Z) (x y z : Z) : bbst :=
  let size := Z.of_nat (length l) in
  BB (if x <? xMin s then x else xMin s)
     (if x + size - 1 >? xMax s then x + size - 1 else xMax s)
     (if y <? yMin s then y else yMin s)
     (if y >? yMax s then y else yMax s)
     (if im3d then (if z <? zMin s then z else zMin s) else zMin s)
     (if im3d then (if z >? zMax s then z else zMax s) else zMax s).

(** measBoundBox, DMeasures.hpp:709-775; the vector holds 4 (2D) or 6 (3D) values, cast to UINT. *)
Definition measBoundBox (im : img) : option (list Z) :=
  let im3d := depth im >? 1 in
  option_map (fun s =>
      map (fun v => v mod 2 ^ 32)
        ([xMin s; yMin s] ++ (if im3d then [zMin s] else []) ++ [xMax s; yMax s] ++ (if im3d then [zMax s] else [])))
    (process_image_pos (fun s l x y z => Some (bb_step im3d s l x y z))
       (BB (width im) 0 (height im) 0 (depth im) 0) true im).

(** nonZeroOffsets, DMeasures.hpp:1364-1378. *)
Definition nonZeroOffsets (im : img) : option (list Z) :=
  fold_opt (fun acc i => option_bind (rd (pixs im) i) (fun v =>
      Some (if v =? 0 then acc else acc ++ [i]))) (zseq (pixelCount (sz im))) [].

(** histogram(imIn, h), DImageHistogram.hpp:64-76.  The caller's array is assumed to have
    [cardinal()] cells. *)
Definition histogram_array (t : ity) (im : img) : option (list Z) :=
  fold_opt (fun h i => option_bind (rd (pixs im) i) (fun v =>
      option_bind (rd h (v - tmin t)) (fun c => wr h (v - tmin t) (c + 1))))
    (zseq (pixelCount (sz im))) (repeat 0 (Z.to_nat (tcard t))).

(** histogram(imIn, imMask, h), DImageHistogram.hpp:95-112. *)
Definition histogram_array_mask (t : ity) (im mask : img) : option (list Z) :=
  fold_opt (fun h i => option_bind (rd (pixs mask) i) (fun m =>
      if m =? 0 then Some h else
      option_bind (rd (pixs im) i) (fun v =>
      option_bind (rd h (v - tmin t)) (fun c => wr h (v - tmin t) (c + 1)))))
    (zseq (pixelCount (sz im))) (repeat 0 (Z.to_nat (tcard t))).

(** [for (T i = rVals[1]; i <= max() && i != min(); i++) h.insert(i, 0)], DImageHistogram.hpp:147-150:
    [i++] wraps around at the maximum.  [None]: the loop ran out of fuel. *)
Fixpoint fill_above (t : ity) (fuel : nat) (i : Z) (h : zmap Z) : option (zmap Z) :=
  match fuel with
  | O => None
  | S n => if (i <=? tmax t) && negb (i =? tmin t)
           then fill_above t n (wrap t (i + 1)) (minsert i 0 h) else Some h
  end.

(** histogram(imIn, fullRange), DImageHistogram.hpp:122-156, and with a mask, 167-205 ([mask] =
    [None]: no mask).  An empty image gives a negative array size: [None]. *)
Definition histogram_map (t : ity) (im : img) (mask : option img) (fullRange : bool) : option (zmap Z) :=
  option_bind (rangeVal t false im) (fun r =>
  let card := snd r - fst r + 1 in
  if card <=? 0 then None else
  option_bind
    (fold_opt (fun buf i =>
        option_bind (match mask with None => Some 1 | Some m => rd (pixs m) i end) (fun mv =>
        if mv =? 0 then Some buf else
        option_bind (rd (pixs im) i) (fun v =>
        option_bind (rd buf (v - fst r)) (fun c => wr buf (v - fst r) (c + 1)))))
      (zseq (pixelCount (sz im))) (repeat 0 (Z.to_nat card))) (fun buf =>
  let h := if fullRange
           then fold_left (fun h i => minsert i 0 h) (zrange (tmin t) (fst r - tmin t)) [] else [] in
  let h := fold_left (fun h i => minsert (wrap t (i + fst r)) (wrap UINT32 (znth 0 buf i)) h) (zseq card) h in
  if fullRange then fill_above t (S (Z.to_nat (2 ^ nbits t))) (snd r) h else Some h)).

(** Blobs: a map from label to the list of its pixel sequences (offset, size), DBlob.hpp:63-88. *)
Definition blobs : Type := zmap (list (Z * Z)).

(** [blobs[curVal].sequences.push_back(...)]. *)
Definition push_seq (b : blobs) (v : Z) (s : Z * Z) : blobs := mput v (mget [] v b ++ [s]) b.

(** Inner loop of computeBlobs, DBlob.hpp:123-135. *)
Fixpoint blob_line (onlyNonZero : bool) (l : list Z) (off : Z) (curStart curSize curVal : Z) (b : blobs) : blobs :=
  let emit := if negb (curVal =? 0) || negb onlyNonZero then push_seq b curVal (curStart, curSize) else b in
  match l with
  | [] => emit
  | p :: r =>
      if p =? curVal then blob_line onlyNonZero r (off + 1) curStart (curSize + 1) curVal b
      else blob_line onlyNonZero r (off + 1) off 1 p emit
  end.

(** computeBlobs, DBlob.hpp:98-138.  [None]: read outside the line (width 0). *)
Definition computeBlobs (onlyNonZero : bool) (im : img) : option blobs :=
  fold_opt (fun b l =>
      option_bind (rd (restruct_lines (sz im)) l) (fun start =>
      option_bind (subarray (pixs im) start (width im)) (fun line =>
      match line with
      | [] => None
      | p :: r => Some (blob_line onlyNonZero r (l * width im + 1) (l * width im)
                          (if negb (p =? 0) || negb onlyNonZero then 1 else 0) p b)
      end)))
    (zseq (lineCount (sz im))) [].

(** One blob of drawBlobs, DBlob.hpp:170-190 and 222-243 ([outVal] computed by the caller).  The test
    on the last sequence comes first; a blob without sequence would dereference [rbegin()] of an
    empty vector ([None]). *)
Definition draw_blob (outVal : Z) (seqs : list (Z * Z)) (st : bool * list Z) : option (bool * list Z) :=
  match rev seqs with
  | [] => None
  | last :: _ =>
      if fst last + snd last >=? Z.of_nat (length (snd st)) then Some (false, snd st)
      else option_map (fun px => (fst st, px))
        (fold_opt (fun px (s : Z * Z) => fold_opt (fun px i => wr px i outVal) (zrange (fst s) (snd s)) px)
           seqs (snd st))
  end.

(** drawBlobs with a value, DBlob.hpp:151-194: the return code is RES_ERR (-100) when a blob was
    skipped.  [T outVal = blobsValue != defaultValue ? blobsValue : label]. *)
Definition drawBlobs (t : ity) (b : blobs) (blobsValue : Z) (fillFirst : bool) (defaultValue : Z) (imOut : img)
  : option (Z * img) :=
  let px := if fillFirst then repeat defaultValue (length (pixs imOut)) else pixs imOut in
  option_map (fun st : bool * list Z => (if fst st then 1 else -100, Img (sz imOut) (snd st)))
    (fold_opt (fun st (e : Z * list (Z * Z)) =>
        draw_blob (if negb (blobsValue =? defaultValue) then blobsValue else wrap t (fst e)) (snd e) st)
      b (true, px)).

(** drawBlobs with a lookup table, DBlob.hpp:203-247. *)
Definition drawBlobs_lut (b : blobs) (lut : zmap Z) (fillFirst : bool) (defaultValue : Z) (imOut : img)
  : option (Z * img) :=
  let px := if fillFirst then repeat defaultValue (length (pixs imOut)) else pixs imOut in
  option_map (fun st : bool * list Z => (if fst st then 1 else -100, Img (sz imOut) (snd st)))
    (fold_opt (fun st (e : Z * list (Z * Z)) => draw_blob (mget defaultValue (fst e) lut) (snd e) st)
      b (true, px)).

(** applyLookup, general version (any key type but UINT8/UINT16), DImageArith.hpp:1949-1979: result
    code and output pixels.  RES_ERR (-100) when the map is empty or its largest value exceeds the
    maximum of the output type. *)
Definition applyLookup_gen (t2 : ity) (lut : zmap Z) (def : Z) (im out : img) : option (Z * img) :=
  match lut with
  | [] => Some (-100, out)
  | e :: r =>
      let mx := fold_left (fun m (p : Z * Z) => if m <? snd p then snd p else m) r (snd e) in
      if mx >? tmax t2 then Some (-100, out)
      else option_map (fun px => (1, Img (sz out) px))
        (fold_opt (fun px i => option_bind (rd (pixs im) i) (fun v =>
            wr px i (match mfind v lut with Some w => wrap t2 w | None => def end)))
          (zseq (pixelCount (sz im))) (pixs out))
  end.

(** applyLookup, version for UINT8/UINT16 keys, DImageArith.hpp:1996-2023.  The table [outVals] is
    uninitialised memory: its cells are [option]; the initialisation loop runs to [i < max()].
    Reading an uninitialised cell gives [None] for the whole call. *)
Definition applyLookup_small (t1 : ity) (lut : zmap Z) (def : Z) (im out : img) : option (Z * img) :=
  match lut with
  | [] => Some (-100, out)
  | _ =>
      let tab := repeat (@None Z) (Z.to_nat (tcard t1)) in
      option_bind (fold_opt (fun tab i => wr tab i (Some def)) (zseq (tmax t1)) tab) (fun tab =>
      option_bind (fold_opt (fun tab (e : Z * Z) => wr tab (fst e) (Some (snd e))) lut tab) (fun tab =>
      option_map (fun px => (1, Img (sz out) px))
        (fold_opt (fun px i => option_bind (rd (pixs im) i) (fun v =>
            option_bind (rd tab v) (fun c => option_bind c (fun w => wr px i w))))
          (zseq (pixelCount (sz im))) (pixs out))))
  end.

(** histogramMap(imIn, binSize), DImageHistogram.hpp:211-225 ([binSize] already at least 1; the division
    is done in [int], truncated). *)
Definition histogramMap (t : ity) (binSize : Z) (im : img) : option (zmap Z) :=
  let binSize := Z.max binSize 1 in
  fold_opt (fun h i => option_bind (rd (pixs im) i) (fun v =>
      let k := wrap t (Z.quot v binSize) in
      Some (mput k (wrap UINT32 (mget 0 k h + 1)) h)))
    (zseq (pixelCount (sz im))) [].

(** histogramMap(imIn, imMask, binSize), DImageHistogram.hpp:234-250: the mask is only checked for
    allocation and size. *)
Definition histogramMap_mask (t : ity) (binSize : Z) (im mask : img) : option (zmap Z) :=
  histogramMap t binSize im.

(** MeasureFunctionBase::processImage(imIn, blob), DBaseMeasureOperations.hpp:132-146. *)
Definition process_blob {S} (proc : S -> list Z -> option S) (s0 : S) (seqs : list (Z * Z)) (im : img) : option S :=
  fold_opt (fun s (r : Z * Z) => option_bind (subarray (pixs im) (fst r) (snd r)) (proc s)) seqs s0.

(** processBlobMeasure(imIn, blobs), DBaseMeasureOperations.hpp:260-297: every blob is measured by its
    own functor, so the order in which the threads take them is irrelevant; the results are keyed by
    label. *)
Definition process_blobs {R} (measure : list (Z * Z) -> img -> option R) (b : blobs) (im : img) : option (zmap R) :=
  fold_opt (fun res (e : Z * list (Z * Z)) =>
      option_bind (measure (snd e) im) (fun r => Some (mput (fst e) r res))) b [].

(** The measures of one blob: area and volume, DMeasures.hpp:57-64, 98-107; range, 373-395. *)
Definition blob_area (seqs : list (Z * Z)) (im : img) : option Z :=
  process_blob (fun s l => dadd s (Z.of_nat (length l))) 0 seqs im.
Definition blob_volume (seqs : list (Z * Z)) (im : img) : option Z :=
  process_blob (fun s l => fold_opt dadd l s) 0 seqs im.
Definition blob_range (t : ity) (seqs : list (Z * Z)) (im : img) : option (Z * Z) :=
  process_blob (fun s l => Some (fold_left (fun (s : Z * Z) v =>
      let mx := if v >? snd s then v else snd s in
      let mn := if v <? fst s then v else fst s in (mn, mx)) l s)) (tmax t, tmin t) seqs im.
