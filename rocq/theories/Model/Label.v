(** Labelling of connected components: Morpho/include/private/DMorphoLabel.hpp.

    Images are allocated.  The result of a function with a while loop is [Some None] when the number of turns [fuel] is
    exhausted; [None]: access outside an array, or division by zero. *)
From Verif Require Export Model.Geodesic.

(** The element given to initialize, DMorphImageOperations.hxx:103-106; its points become [sePoints], its parity [oddSe]
    (54-58). *)
Definition label_se (se : strelt) : strelt := if se_size se >? 1 then homothety se (se_size se) else se.

(** Coordinates of the current pixel, 141-145: [int] variables, computed in [size_t]. *)
Definition label_coords (s : dims) (cur : Z) : option (Z * Z * Z) :=
  let hw := to_size (dh s * dw s) in
  if (hw =? 0) || (dw s =? 0) then None else
  let z := to_int (cur / hw) in
  let y := to_int (to_size (cur - z * hw) / dw s) in
  let x := to_int (to_size (cur - y * dw s - z * hw)) in
  Some (x, y, z).

(** The neighbour in the direction of a point, 147-163: [Some] when it is inside and is not the current pixel. *)
Definition label_nb (se : strelt) (s : dims) (cur : Z) (xyz : Z * Z * Z) (p : point) : option Z :=
  let '(x, y, z) := xyz in
  let oddLine := se_odd se && negb (y mod 2 =? 0) in
  let n_y := to_int (y + py_ p) in
  let n_x := to_int (x + px_ p) + bit (oddLine && oddb (n_y + 1)) in
  let n_z := to_int (z + pz_ p) in
  let nb := to_size (n_x + n_y * dw s + n_z * dh s * dw s) in
  if negb (nb =? cur) && in_bounds s n_x n_y n_z then Some nb else None.

(** One point, 147-167.  The state: the labels [pixelsOut] and the queue. *)
Definition label_point (cmp : Z -> Z -> bool) (se : strelt) (s : dims) (px : list Z) (lab cur : Z) (xyz : Z * Z * Z) (pVal : Z)
    (st : list Z * list Z) (p : point) : option (list Z * list Z) :=
  match label_nb se s cur xyz p with
  | None => Some st
  | Some nb =>
      option_bind (rd (fst st) nb) (fun o =>
      if o =? lab then Some st else
      option_bind (rd px nb) (fun v =>
      if cmp v pVal then option_bind (wr (fst st) nb lab) (fun out => Some (out, snd st ++ [nb])) else Some st))
  end.

(** The while loop, 137-169 ([queue<size_t>] is the list of its elements, front first). *)
Fixpoint label_loop (fuel : nat) (cmp : Z -> Z -> bool) (se : strelt) (s : dims) (px : list Z) (lab : Z) (out queue : list Z) : option (option (list Z)) :=
  match queue with
  | [] => Some (Some out)
  | cur :: _ =>
      match fuel with
      | O => Some None
      | S fuel' =>
          option_bind (rd px cur) (fun pVal =>
          option_bind (label_coords s cur) (fun xyz =>
          option_bind (fold_opt (label_point cmp se s px lab cur xyz pVal) (se_points se) (out, queue)) (fun st =>
          label_loop fuel' cmp se s px lab (fst st) (tl (snd st)))))
      end
  end.

(** The members of labelFunctGeneric, 171-176. *)
Record lstate := LS { ls_out : list Z; ls_labels : Z; ls_real : Z }.

(** [processPixel], 115-170. *)
Definition label_pixel (fuel : nat) (t2 : ity) (cmp : Z -> Z -> bool) (se : strelt) (s : dims) (px : list Z) (st : lstate) (off : Z) : option (option lstate) :=
  option_bind (rd px off) (fun pVal =>
  option_bind (rd (ls_out st) off) (fun o =>
  if (pVal =? 0) || negb (o =? 0) then Some (Some st) else
  let real := to_size (ls_real st + 1) in
  let labels := wrap t2 (ls_labels st + 1) in
  let labels := if labels =? tmax t2 then 1 else labels in
  option_bind (wr (ls_out st) off labels) (fun out =>
  fuel_bind (label_loop fuel cmp se s px labels out [off]) (fun out => Some (Some (LS out labels real)))))).

(** [processImage], 101-113. *)
Definition label_image (fuel : nat) (t2 : ity) (cmp : Z -> Z -> bool) (se : strelt) (s : dims) (px : list Z) (st : lstate) : option (option lstate) :=
  fold_left (fun o i => fuel_bind o (fun st => option_bind (rd (ls_out st) i) (fun v =>
     if v =? 0 then label_pixel fuel t2 cmp se s px st i else Some (Some st))))
   (zseq (to_size (dd s * dh s * dw s))) (Some (Some st)).

(** [_exec], DMorphImageOperations.hxx:90-116, for labelFunctGeneric ([initialize], 90-100).  The result: the number of
    labels and the label image. *)
Definition label_exec (fuel : nat) (t2 : ity) (cmp : Z -> Z -> bool) (se : strelt) (imIn : img) : option (option (Z * img)) :=
  fuel_bind (label_image fuel t2 cmp (label_se se) (sz imIn) (pixs imIn) (LS (map (fun _ => 0) (pixs imIn)) 0 0)) (fun st =>
  Some (Some (ls_real st, Img (sz imIn) (ls_out st)))).

(** Result of the labelling functions: returned number (a [size_t]; the codes of errors are converted), whether the warning
    "Label number exceeds data type max!" is written, image. *)
Definition label_result (t2 : ity) (r : Z * img) : Z * bool * img := (fst r, fst r >? tmax t2, snd r).

(** [label], 554-577; [inplace]: imIn and imOut are the same image; [default_se] is DEFAULT_SE, used by the recursive call
    of 557-561. *)
Definition label (fuel : nat) (t2 : ity) (default_se se : strelt) (inplace : bool) (imIn imOut : img) : option (option (Z * bool * img)) :=
  let se := if inplace then default_se else se in
  if negb (same_size imIn imOut) then Some (Some (to_size (-98), false, imOut)) else
  fuel_bind (label_exec fuel t2 Z.eqb se imIn) (fun r => Some (Some (label_result t2 r))).

(** [lambdaEqualOperator], 358-364: the differences are computed in [int] or in [unsigned]. *)
Definition lambda_cmp (lambda : Z) (a b : Z) : bool := if a >? b then a - b <=? lambda else b - a <=? lambda.

(** [lambdaLabel], 596-614. *)
Definition lambdaLabel (fuel : nat) (t2 : ity) (lambda : Z) (se : strelt) (imIn imOut : img) : option (option (Z * bool * img)) :=
  if negb (same_size imIn imOut) then Some (Some (to_size (-98), false, imOut)) else
  fuel_bind (label_exec fuel t2 (lambda_cmp lambda) se imIn) (fun r => Some (Some (label_result t2 r))).

(** The largest value of a map, as in std::max_element. *)
Definition map_max (m : zmap Z) : option Z :=
  match m with [] => None | e :: r => Some (fold_left (fun m (p : Z * Z) => if m <? snd p then snd p else m) r (snd e)) end.

(** The end of labelWithArea (701-710) and labelWithVolume (744-757): table of a measure drawn on the labels. *)
Definition label_lookup (t2 : ity) (m : zmap Z) (imLabel imOut : img) : option (option (Z * img)) :=
  match map_max m with
  | None => Some (Some (to_size (-100), imOut))
  | Some maxV =>
      if negb (maxV <? tmax t2) then Some (Some (0, imOut)) else
      option_bind (applyLookup_gen t2 m 0 imLabel imOut) (fun r =>
      Some (Some (if fst r =? 1 then 1 else to_size (-100), snd r)))
  end.

(** [labelWithArea], 690-713; blobsArea: Base/include/private/DBlobMeasures.hpp:60-63. *)
Definition labelWithArea (fuel : nat) (t2 : ity) junk (default_se se : strelt) (imIn imOut : img) : option (option (Z * img)) :=
  if negb (same_size imIn imOut) then Some (Some (to_size (-98), imOut)) else
  fuel_bind (label fuel t2 default_se se false imIn (new_img junk imIn)) (fun '(n, _, imLabel) =>
  if n =? 0 then Some (Some (to_size (-100), imOut)) else
  option_bind (computeBlobs true imLabel) (fun b =>
  option_bind (process_blobs blob_area b imLabel) (fun areas => label_lookup t2 areas imLabel imOut))).

(** [labelWithVolume], 733-760 (the second labelling repeats the first). *)
Definition labelWithVolume (fuel : nat) (t2 : ity) junk (default_se se : strelt) (imIn imLabelIn imOut : img) : option (option (Z * img)) :=
  if negb (same_size imIn imOut) then Some (Some (to_size (-98), imOut)) else
  fuel_bind (label fuel t2 default_se se false imLabelIn (new_img junk imIn)) (fun '(n, _, imLabel) =>
  if n =? 0 then Some (Some (to_size (-100), imOut)) else
  option_bind (computeBlobs true imLabel) (fun b =>
  option_bind (process_blobs blob_volume b imIn) (fun vols => label_lookup t2 vols imLabel imOut))).

(** [minimaLabeled], DMorphoExtrema.hpp:110-123; [maximaLabeled], 133-146; [hMinimaLabeled], 181-195; [hMaximaLabeled],
    230-244.  [t] is the type of imIn, [t2] that of imOut; the result of label is not returned. *)
Definition labelled_after (fuel : nat) (t2 : ity) (default_se se : strelt) (imOut : img) (r : option (option (Z * img))) : option (option (Z * img)) :=
  fuel_bind r (fun r => fuel_bind (label fuel t2 default_se se false (snd r) imOut) (fun '(_, _, out) => Some (Some (1, out)))).
Definition minimaLabeled fuel t t2 junk default_se se (imIn imOut : img) : option (option (Z * img)) :=
  if negb (same_size imIn imOut) then Some (Some (-98, imOut)) else
  labelled_after fuel t2 default_se se imOut (minima fuel t junk se false imIn (new_img junk imIn)).
Definition maximaLabeled fuel t t2 junk default_se se (imIn imOut : img) : option (option (Z * img)) :=
  if negb (same_size imIn imOut) then Some (Some (-98, imOut)) else
  labelled_after fuel t2 default_se se imOut (maxima fuel t junk se false imIn (new_img junk imIn)).
Definition hMinimaLabeled fuel t t2 junk default_se se height (imIn imOut : img) : option (option (Z * img)) :=
  if negb (same_size imIn imOut) then Some (Some (-98, imOut)) else
  labelled_after fuel t2 default_se se imOut (hMinima fuel t junk se height imIn (new_img junk imIn)).
Definition hMaximaLabeled fuel t t2 junk default_se se height (imIn imOut : img) : option (option (Z * img)) :=
  if negb (same_size imIn imOut) then Some (Some (-98, imOut)) else
  labelled_after fuel t2 default_se se imOut (hMaxima fuel t junk se height imIn (new_img junk imIn)).

(** A parallel loop that reads a [std::map] with [operator[]], as DBlobOperations.hpp:117-122: iteration [i] is executed by the
    thread [sched i] and looks up [l[i]].  A key not in the map is inserted; no lock is taken: the behaviour is undefined
    when another thread uses the map. *)
Definition map_race {A} (sched : Z -> Z) (m : zmap A) (l : list Z) : bool :=
  let n := Z.of_nat (length l) in
  existsb (fun i => match mfind (znth 0 l i) m with Some _ => false | None => existsb (fun j => negb (sched i =? sched j)) (zseq n) end) (zseq n).

(** The table of areaThreshold, Base/include/private/DBlobOperations.hpp:94-108. *)
Definition area_lut (t2 : ity) (binary gt : bool) (threshold : Z) (areas : zmap Z) : zmap Z :=
  fold_left (fun lut (e : Z * Z) =>
     mput (fst e) (if (gt && (snd e <? threshold)) || (negb gt && (snd e >? threshold)) then 0 else if binary then tmax t2 else fst e) lut) areas [].

(** [areaThreshold], 73-125; [copy] converts the values to T2.  [blobsArea(blobs)] (DBlobMeasures.hpp:75) gives [processBlobs] an image of one pixel that the area functor never reads; the model gives it the label image. *)
Definition areaThreshold (fuel : nat) (t2 : ity) junk (default_se : strelt) (sched : Z -> Z) (threshold : Z) (gt : bool) (imIn imOut : img) : option (option (Z * img)) :=
  if negb (same_size imIn imOut) then Some (Some (-98, imOut)) else
  let binary := isBinary imIn in
  fuel_bind (if binary then fuel_bind (label fuel t2 default_se default_se false imIn (new_img junk imOut)) (fun '(_, _, l) => Some (Some l))
             else Some (Some (Img (sz imOut) (map (wrap t2) (pixs imIn))))) (fun imLabel =>
  option_bind (computeBlobs true imLabel) (fun b =>
  option_bind (process_blobs blob_area b imLabel) (fun areas =>
  let lut := area_lut t2 binary gt threshold areas in
  if map_race sched lut (pixs imLabel) then None else
  Some (Some (1, Img (sz imOut) (map (fun v => mget 0 v lut) (pixs imLabel))))))).
