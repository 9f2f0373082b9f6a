(** Flooding from markers: Morpho/include/private/DMorphoWatershed.hpp.

    The images imIn, imMarkers (or its copy) and the outputs are distinct.  [T] is the type [t] of imIn, [labelT] the type
    [t2] of the labels.  [Some None]: the number of turns [fuel] is exhausted; [None]: access outside an array. *)
From Verif Require Export Model.Geodesic Model.Label.

(** [getCoordsFromOffset], 82-88, with [pixPerSlice], 134.  [None]: division by zero. *)
Definition flood_coords (s : dims) (off : Z) : option (Z * Z * Z) :=
  let pixPerSlice := to_size (dw s * dh s) in
  if (pixPerSlice =? 0) || (dw s =? 0) then None
  else Some (off mod dw s, (off mod pixPerSlice) / dw s, off / pixPerSlice).

(** ** BaseFlooding *)

(** The first loop of [processImage], 170-173. *)
Definition flood_init (t : ity) (px lbl : list Z) : option hqueue :=
  fold_opt (fun q i => option_bind (rd lbl i) (fun l =>
     if negb (l =? 0) then option_bind (rd px i) (fun v => hq_push t false q v i) else Some q))
   (zseq (Z.of_nat (length lbl))) (hq_init t false).

Record flstate := FL { fl_lbl : list Z; fl_q : hqueue }.

(** [processNeighbor], 216-228. *)
Definition flood_neighbor (t : ity) (px : list Z) (cur : Z) (st : flstate) (nb : Z) : option flstate :=
  option_bind (rd (fl_lbl st) nb) (fun nbLbl =>
  option_bind (rd (fl_lbl st) cur) (fun curLbl =>
  if nbLbl =? 0 then
    option_bind (rd px nb) (fun v =>
    option_bind (hq_push t false (fl_q st) v nb) (fun q =>
    option_bind (wr (fl_lbl st) nb curLbl) (fun lbl => Some (FL lbl q))))
  else Some st)).

(** [processPixel], 184-214. *)
Definition flood_pixel {A} (f : Z -> A -> Z -> option A) (se : strelt) (s : dims) (cur : Z) (st : A) : option A :=
  option_bind (flood_coords s cur) (fun xyz =>
  fold_opt (fun st p => if not_origin p then match nb_offset se s cur xyz p with None => Some st | Some nb => f cur st nb end else Some st)
    (se_points se) st).

(** The second loop of [processImage], 177-179. *)
Fixpoint flood_loop (fuel : nat) (t : ity) (se : strelt) (s : dims) (px : list Z) (st : flstate) : option (option flstate) :=
  if hq_isEmpty (fl_q st) then Some (Some st) else
  match fuel with
  | O => Some None
  | S fuel' =>
      option_bind (hq_pop t false (fl_q st)) (fun '(cur, q) =>
      option_bind (flood_pixel (flood_neighbor t px) se s cur (FL (fl_lbl st) q)) (fun st' =>
      flood_loop fuel' t se s px st'))
  end.

(** [BaseFlooding::flood], 101-118, called by [basins], 364-369. *)
Definition basins (fuel : nat) (t t2 : ity) (se : strelt) (imIn imMarkers imBasins : img) : option (option (Z * img)) :=
  if negb (same_size imIn imMarkers && same_size imIn imBasins) then Some (Some (-98, imBasins)) else
  option_bind (maxVal t2 false imMarkers) (fun m =>
  if negb (m <? tmax t2) then Some (Some (-100, imBasins)) else
  option_bind (flood_init t (pixs imIn) (pixs imMarkers)) (fun q =>
  fuel_bind (flood_loop fuel t se (sz imIn) (pixs imIn) (FL (pixs imMarkers) q)) (fun st =>
  Some (Some (1, Img (sz imIn) (fl_lbl st)))))).

(** [basins] without markers, 371-382: the element [se] is used for the minima, the default element for the flooding. *)
Definition basins_minima (fuel : nat) (t t2 : ity) junk (default_se se : strelt) (imIn imBasins : img) : option (option (Z * img)) :=
  if negb (same_size imIn imBasins) then Some (Some (-98, imBasins)) else
  fuel_bind (minimaLabeled fuel t t2 junk default_se se imIn (new_img junk imIn)) (fun r =>
  basins fuel t t2 default_se imIn (snd r) imBasins).

(** ** WatershedFlooding *)
Definition STAT_LABELED := 1.
Definition STAT_QUEUED := 2.
Definition STAT_CANDIDATE (t : ity) := tmax t - 1.
Definition STAT_WS_LINE (t : ity) := tmax t.

Record wstate := WS { ws_lbl : list Z; ws_px : list Z; ws_q : hqueue }.

(** [processNeighbor], 327-342, with the vector [tmpOffsets]. *)
Definition ws_neighbor (t : ity) (cur : Z) (st : list Z * list Z * list Z) (nb : Z) : option (list Z * list Z * list Z) :=
  let '(lbl, ws, tmp) := st in
  option_bind (rd ws nb) (fun nbStat =>
  if nbStat =? STAT_CANDIDATE t then Some (lbl, ws, tmp ++ [nb])
  else if nbStat =? STAT_LABELED then
    option_bind (rd lbl cur) (fun c =>
    option_bind (rd lbl nb) (fun n =>
    if c =? 0 then option_bind (wr lbl cur n) (fun lbl => Some (lbl, ws, tmp))
    else if negb (c =? n) then option_bind (wr ws cur (STAT_WS_LINE t)) (fun ws => Some (lbl, ws, tmp))
    else Some (lbl, ws, tmp)))
  else Some (lbl, ws, tmp)).

(** The pushes at the end of [processPixel], 315-321. *)
Definition ws_push (t : ity) (px : list Z) (st : list Z * hqueue) (o : Z) : option (list Z * hqueue) :=
  option_bind (rd px o) (fun v =>
  option_bind (hq_push t false (snd st) v o) (fun q =>
  option_bind (wr (fst st) o STAT_QUEUED) (fun ws => Some (ws, q)))).

(** [processPixel], 307-325. *)
Definition ws_pixel (t : ity) (se : strelt) (s : dims) (px : list Z) (cur : Z) (st : wstate) : option wstate :=
  option_bind (wr (ws_px st) cur STAT_LABELED) (fun ws =>
  option_bind (flood_pixel (ws_neighbor t) se s cur (ws_lbl st, ws, [])) (fun '(lbl, ws, tmp) =>
  option_bind (rd ws cur) (fun c =>
  if negb (c =? STAT_WS_LINE t) then
    option_bind (fold_opt (ws_push t px) tmp (ws, ws_q st)) (fun '(ws, q) => Some (WS lbl ws q))
  else Some (WS lbl ws (ws_q st))))).

Fixpoint ws_loop (fuel : nat) (t : ity) (se : strelt) (s : dims) (px : list Z) (st : wstate) : option (option wstate) :=
  if hq_isEmpty (ws_q st) then Some (Some st) else
  match fuel with
  | O => Some None
  | S fuel' =>
      option_bind (hq_pop t false (ws_q st)) (fun '(cur, q) =>
      option_bind (ws_pixel t se s px cur (WS (ws_lbl st) (ws_px st) q)) (fun st' =>
      ws_loop fuel' t se s px st'))
  end.

(** [WatershedFlooding::flood] and [initialize], 265-305, called by [watershed], 402-411.  The result is the pair of the
    images imOut and imBasinsOut. *)
Definition watershed (fuel : nat) (t : ity) (se : strelt) (imIn imMarkers imOut imBasins : img) : option (option (Z * (img * img))) :=
  if negb (same_size imIn imMarkers && same_size imIn imOut && same_size imIn imBasins) then Some (Some (-98, (imOut, imBasins))) else
  option_bind (flood_init t (pixs imIn) (pixs imMarkers)) (fun q =>
  fuel_bind (ws_loop fuel t se (sz imIn) (pixs imIn)
     (WS (pixs imMarkers) (map (fun l => px_test l STAT_LABELED (STAT_CANDIDATE t)) (pixs imMarkers)) q)) (fun st =>
  Some (Some (1, (Img (sz imIn) (map (fun w => if w >=? STAT_CANDIDATE t then STAT_WS_LINE t else 0) (ws_px st)),
                  Img (sz imIn) (ws_lbl st)))))).

(** [watershed] without markers, 424-434 and 413-422; the labels are [UINT]s. *)
Definition watershed_minima (fuel : nat) (t : ity) junk (default_se se : strelt) (imIn imOut : img) : option (option (Z * img)) :=
  if negb (same_size imIn imOut) then Some (Some (-98, imOut)) else
  fuel_bind (minimaLabeled fuel t UINT32 junk default_se se imIn (new_img junk imIn)) (fun r =>
  fuel_bind (watershed fuel t se imIn (snd r) imOut (new_img junk imIn)) (fun w => Some (Some (fst w, fst (snd w))))).
