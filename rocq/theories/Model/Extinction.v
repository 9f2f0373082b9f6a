(** Flooding with extinction values: Morpho/include/private/DMorphoWatershedExtinction.hpp.

    The images are distinct.  [t] is the type of imIn (UINT8 or UINT16, as the queue needs), [t2] the type of the labels,
    [te] the type extValType, [t3] the type of the image of values.  A vector of one of the derived classes is kept in
    [basin_data] whatever the class: the vectors of the other classes are not read.  pendingMerges is not in the state:
    a merge is processed as soon as it is pushed (339-340), so that the vector is empty elsewhere and the calls of
    processMerges of 234 and 299 return at once.  [Some None]: the number of turns [fuel] is exhausted; [None]: access
    outside an array or to a variable that has no value. *)
From Verif Require Export Model.Watershed Model.Graph.

(** HQ_CANDIDATE, HQ_QUEUED and HQ_DONE, 36-38. *)
Definition XQ_CANDIDATE := 0.
Definition XQ_QUEUED := 1.
Definition XQ_DONE := 2.

(** The classes VolumeExtinctionFlooding, AreaExtinctionFlooding and DynamicExtinctionFlooding. *)
Inductive criterion := ByVolume | ByArea | ByDynamic.

(** equivalentLabels, extinctionValues, 84-85; areas, minValues, 356-357; areas, volumes, floodLevels, 415-416. *)
Record basin_data := BD { bd_equ : list Z; bd_ext : list Z; bd_areas : list Z; bd_min : list Z; bd_vol : list Z; bd_flood : list Z }.

Definition all_of (n v : Z) : list Z := map (fun _ => v) (zseq n).

(** [createBasins], 94-103, 359-365 and 418-425. *)
Definition createBasins (t : ity) (nbr : Z) : basin_data :=
  BD (zseq nbr) (all_of nbr 0) (all_of nbr 0) (all_of nbr (tmax t)) (all_of nbr 0) (all_of nbr 0).

(** [insertPixel] for a pixel of value [v]: 375-382 (area and dynamic), 437-442 (volume). *)
Definition insertPixel (k : criterion) (level v lbl : Z) (b : basin_data) : option basin_data :=
  option_bind (rd (bd_areas b) lbl) (fun a =>
  option_bind (wr (bd_areas b) lbl (wrap UINT32 (a + 1))) (fun areas =>
  match k with
  | ByVolume =>
      option_bind (rd (bd_flood b) lbl) (fun f =>
      option_bind (wr (bd_flood b) lbl (Z.max level f)) (fun fl =>
      option_bind (rd (bd_vol b) lbl) (fun w =>
      option_bind (wr (bd_vol b) lbl (wrap UINT32 (w + (level - v)))) (fun vol =>
      Some (BD (bd_equ b) (bd_ext b) areas (bd_min b) vol fl)))))
  | _ =>
      option_bind (rd (bd_min b) lbl) (fun m =>
      option_bind (if v <? m then wr (bd_min b) lbl v else Some (bd_min b)) (fun mi =>
      Some (BD (bd_equ b) (bd_ext b) areas mi (bd_vol b) (bd_flood b))))
  end)).

(** [raiseLevel]: 113 (area and dynamic), 443-450 (volume). *)
Definition raiseLevel (k : criterion) (level lbl : Z) (b : basin_data) : option basin_data :=
  match k with
  | ByVolume =>
      option_bind (rd (bd_flood b) lbl) (fun f =>
      if f <? level then
        option_bind (rd (bd_areas b) lbl) (fun a =>
        option_bind (rd (bd_vol b) lbl) (fun w =>
        option_bind (wr (bd_vol b) lbl (wrap UINT32 (w + a * (level - f)))) (fun vol =>
        option_bind (wr (bd_flood b) lbl level) (fun fl =>
        Some (BD (bd_equ b) (bd_ext b) (bd_areas b) (bd_min b) vol fl)))))
      else Some b)
  | _ => Some b
  end.

(** The condition of [mergeBasins]: 387, 455 and 487; [true]: the first label is the eater. *)
Definition first_wins (k : criterion) (l1 l2 : Z) (b : basin_data) : option bool :=
  option_bind (rd (bd_areas b) l1) (fun a1 =>
  option_bind (rd (bd_areas b) l2) (fun a2 =>
  match k with
  | ByVolume =>
      option_bind (rd (bd_vol b) l1) (fun v1 => option_bind (rd (bd_vol b) l2) (fun v2 =>
      option_bind (rd (bd_flood b) l1) (fun f1 => option_bind (rd (bd_flood b) l2) (fun f2 =>
      Some ((v1 >? v2) || ((v1 =? v2) && (f1 <? f2)))))))
  | ByArea =>
      option_bind (rd (bd_min b) l1) (fun m1 => option_bind (rd (bd_min b) l2) (fun m2 =>
      Some ((a1 >? a2) || ((a1 =? a2) && (m1 <? m2)))))
  | ByDynamic =>
      option_bind (rd (bd_min b) l1) (fun m1 => option_bind (rd (bd_min b) l2) (fun m2 =>
      Some ((m1 <? m2) || ((m1 =? m2) && (a1 >? a2)))))
  end)).

(** [mergeBasins], 383-405, 451-471 and 483-502: the eater and the new data. *)
Definition mergeBasins (k : criterion) (te : ity) (level l1 l2 : Z) (b : basin_data) : option (Z * basin_data) :=
  option_bind (first_wins k l1 l2 b) (fun w =>
  let eater := if w then l1 else l2 in
  let eaten := if w then l2 else l1 in
  option_bind (rd (bd_areas b) eater) (fun a1 =>
  option_bind (rd (bd_areas b) eaten) (fun a2 =>
  option_bind (wr (bd_areas b) eater (wrap UINT32 (a1 + a2))) (fun areas =>
  match k with
  | ByVolume =>
      option_bind (rd (bd_vol b) eater) (fun v1 =>
      option_bind (rd (bd_vol b) eaten) (fun v2 =>
      option_bind (wr (bd_ext b) eaten (wrap te v2)) (fun ext =>
      option_bind (wr (bd_vol b) eater (wrap UINT32 (v1 + v2))) (fun vol =>
      Some (eater, BD (bd_equ b) ext areas (bd_min b) vol (bd_flood b))))))
  | ByArea =>
      option_bind (wr (bd_ext b) eaten (wrap te a2)) (fun ext =>
      Some (eater, BD (bd_equ b) ext areas (bd_min b) (bd_vol b) (bd_flood b)))
  | ByDynamic =>
      option_bind (rd (bd_min b) eaten) (fun m =>
      option_bind (wr (bd_ext b) eaten (wrap te (level - m))) (fun ext =>
      Some (eater, BD (bd_equ b) ext areas (bd_min b) (bd_vol b) (bd_flood b))))
  end)))).

(** [finalize], 406-409, 472-476 and 503-506. *)
Definition finalize (k : criterion) (te : ity) (level lbl : Z) (b : basin_data) : option basin_data :=
  option_bind (rd (bd_ext b) lbl) (fun e =>
  match k with
  | ByVolume =>
      option_bind (rd (bd_areas b) lbl) (fun a =>
      option_bind (rd (bd_vol b) lbl) (fun w =>
      let w := wrap UINT32 (w + a) in
      option_bind (wr (bd_vol b) lbl w) (fun vol =>
      option_bind (wr (bd_ext b) lbl (wrap te (e + w))) (fun ext =>
      Some (BD (bd_equ b) ext (bd_areas b) (bd_min b) vol (bd_flood b))))))
  | ByArea =>
      option_bind (rd (bd_areas b) lbl) (fun a =>
      option_bind (wr (bd_ext b) lbl (wrap te (e + a))) (fun ext =>
      Some (BD (bd_equ b) ext (bd_areas b) (bd_min b) (bd_vol b) (bd_flood b))))
  | ByDynamic =>
      option_bind (rd (bd_min b) lbl) (fun m =>
      option_bind (wr (bd_ext b) lbl (wrap te (level - m))) (fun ext =>
      Some (BD (bd_equ b) ext (bd_areas b) (bd_min b) (bd_vol b) (bd_flood b))))
  end).

(** [updateEquTable], 117-122. *)
Definition updateEquTable (labelNbr lbl1 lbl2 : Z) (equ : list Z) : option (list Z) :=
  fold_opt (fun equ i => option_bind (rd equ i) (fun e => if e =? lbl1 then wr equ i lbl2 else Some equ)) (map (Z.add 1) (zseq labelNbr)) equ.

(** One turn of the loop of [processMerges], 256-283. *)
Definition processMerge (k : criterion) (te : ity) (labelNbr level : Z) (o1 o2 : Z) (b : basin_data) (g : option graph)
    : option (basin_data * option graph) :=
  option_bind (rd (bd_equ b) o1) (fun l1 =>
  option_bind (rd (bd_equ b) o2) (fun l2 =>
  if l1 =? l2 then Some (b, g) else
  option_bind (mergeBasins k te level l1 l2 b) (fun '(eater, b) =>
  let eater_orig := if eater =? l1 then o1 else o2 in
  let eaten := if eater =? l1 then l2 else l1 in
  let eaten_orig := if eater =? l1 then o2 else o1 in
  option_bind (rd (bd_ext b) eaten) (fun w =>
  option_bind (updateEquTable labelNbr eaten eater (bd_equ b)) (fun equ =>
  Some (BD equ (bd_ext b) (bd_areas b) (bd_min b) (bd_vol b) (bd_flood b),
        match g with None => None | Some g => Some (addEdge g (Edge eater_orig eaten_orig w) true) end)))))).

Record exstate := EX { ex_fl : flstate; ex_b : basin_data; ex_g : option graph; ex_stat : list Z; ex_level : Z; ex_last : option Z }.

(** [processNeighbor], 317-346. *)
Definition ext_neighbor (k : criterion) (t te : ity) (labelNbr : Z) (px : list Z) (cur : Z) (st : exstate) (nb : Z) : option exstate :=
  let lbl := fl_lbl (ex_fl st) in
  option_bind (rd lbl nb) (fun nbLbl =>
  option_bind (rd lbl cur) (fun curLbl =>
  if nbLbl =? 0 then
    option_bind (rd px nb) (fun v =>
    option_bind (hq_push t false (fl_q (ex_fl st)) v nb) (fun q =>
    option_bind (wr lbl nb curLbl) (fun lbl =>
    option_bind (wr (ex_stat st) nb XQ_QUEUED) (fun stat =>
    Some (EX (FL lbl q) (ex_b st) (ex_g st) stat (ex_level st) (ex_last st))))))
  else
    option_bind (rd (ex_stat st) nb) (fun s =>
    if s =? XQ_DONE then
      option_bind (rd (bd_equ (ex_b st)) nbLbl) (fun en =>
      option_bind (rd (bd_equ (ex_b st)) curLbl) (fun ec =>
      if negb (en =? ec) then
        option_bind (processMerge k te labelNbr (ex_level st) (Z.min curLbl nbLbl) (Z.max curLbl nbLbl) (ex_b st) (ex_g st)) (fun '(b, g) =>
        Some (EX (ex_fl st) b g (ex_stat st) (ex_level st) (ex_last st)))
      else Some st))
    else Some st))).

(** The loop of 302-304: the counter has type labelT. *)
Fixpoint raise_loop (fuel : nat) (k : criterion) (t2 : ity) (labelNbr level i : Z) (b : basin_data) : option (option basin_data) :=
  if negb (i <? wrap UINT32 (labelNbr + 1)) then Some (Some b) else
  match fuel with
  | O => Some None
  | S fuel' =>
      option_bind (rd (bd_equ b) i) (fun e =>
      option_bind (if e =? i then raiseLevel k level i b else Some b) (fun b =>
      raise_loop fuel' k t2 labelNbr level (wrap t2 (i + 1)) b))
  end.

(** [processPixel], 294-315. *)
Definition ext_pixel (fuel : nat) (k : criterion) (t t2 te : ity) (labelNbr : Z) (se : strelt) (s : dims) (px : list Z) (cur : Z) (st : exstate)
    : option (option exstate) :=
  option_bind (rd px cur) (fun v =>
  fuel_bind (if v >? ex_level st then
               fuel_bind (raise_loop fuel k t2 labelNbr v 1 (ex_b st)) (fun b => Some (Some (EX (ex_fl st) b (ex_g st) (ex_stat st) v (ex_last st))))
             else Some (Some st)) (fun st =>
  option_bind (flood_pixel (ext_neighbor k t te labelNbr px) se s cur st) (fun st =>
  option_bind (rd (fl_lbl (ex_fl st)) cur) (fun l1 =>
  option_bind (rd (bd_equ (ex_b st)) l1) (fun e1 =>
  option_bind (insertPixel k (ex_level st) v e1 (ex_b st)) (fun b =>
  option_bind (wr (ex_stat st) cur XQ_DONE) (fun stat =>
  Some (Some (EX (ex_fl st) b (ex_g st) stat (ex_level st) (Some cur)))))))))).

Fixpoint ext_loop (fuel : nat) (k : criterion) (t t2 te : ity) (n : nat) (labelNbr : Z) (se : strelt) (s : dims) (px : list Z) (st : exstate)
    : option (option exstate) :=
  if hq_isEmpty (fl_q (ex_fl st)) then Some (Some st) else
  match n with
  | O => Some None
  | S n' =>
      option_bind (hq_pop t false (fl_q (ex_fl st))) (fun '(cur, q) =>
      fuel_bind (ext_pixel fuel k t t2 te labelNbr se s px cur (EX (FL (fl_lbl (ex_fl st)) q) (ex_b st) (ex_g st) (ex_stat st) (ex_level st) (ex_last st))) (fun st' =>
      ext_loop fuel k t t2 te n' labelNbr se s px st'))
  end.

(** [initialize], 217-228, and [processImage], 230-241, on the copy [lbl] of the markers; the labels, the data and the
    graph at the end. *)
Definition ext_process (fuel : nat) (k : criterion) (t t2 te : ity) (se : strelt) (imIn imLbl : img) (g : option graph)
    : option (option (list Z * basin_data * option graph)) :=
  option_bind (maxVal t2 false imLbl) (fun m =>
  let labelNbr := wrap UINT32 m in
  option_bind (flood_init t (pixs imIn) (pixs imLbl)) (fun q =>
  fuel_bind (ext_loop fuel k t t2 te fuel labelNbr se (sz imIn) (pixs imIn)
      (EX (FL (pixs imLbl) q) (createBasins t (wrap UINT32 (labelNbr + 1))) g (map (fun _ => XQ_CANDIDATE) (pixs imIn)) (tmin t) None)) (fun st =>
  option_bind (ex_last st) (fun last =>
  option_bind (rd (fl_lbl (ex_fl st)) last) (fun l2 =>
  option_bind (rd (bd_equ (ex_b st)) l2) (fun e2 =>
  option_bind (finalize k te (ex_level st) e2 (ex_b st)) (fun b =>
  Some (Some (fl_lbl (ex_fl st), b, ex_g st))))))))).

(** [flood] without a graph, 124-127, which is BaseFlooding::flood, DMorphoWatershed.hpp:101-118. *)
Definition ext_flood (fuel : nat) (k : criterion) (t t2 te : ity) (se : strelt) (imIn imMarkers imBasins : img)
    : option (option (Z * img * basin_data)) :=
  let none := BD [] [] [] [] [] [] in
  if negb (same_size imIn imMarkers && same_size imIn imBasins) then Some (Some (-98, imBasins, none)) else
  option_bind (maxVal t2 false imMarkers) (fun m =>
  if negb (m <? tmax t2) then Some (Some (-100, imBasins, none)) else
  fuel_bind (ext_process fuel k t t2 te se imIn imMarkers None) (fun '(lbl, b, _) => Some (Some (1, Img (sz imIn) lbl, b)))).

(** [flood] with a graph, 129-144: the labels are not tested. *)
Definition ext_flood_graph (fuel : nat) (k : criterion) (t t2 te : ity) (se : strelt) (imIn imMarkers imBasins : img) (g : graph)
    : option (option (Z * img * graph)) :=
  if negb (same_size imIn imMarkers && same_size imIn imBasins) then Some (Some (-98, imBasins, g)) else
  fuel_bind (ext_process fuel k t t2 te se imIn imMarkers (Some (clear g))) (fun '(lbl, _, g') =>
  Some (Some (1, Img (sz imIn) lbl, match g' with Some g' => g' | None => g end))).

(** The loop of 159-165 and 199-205. *)
Definition write_values (t3 : ity) (ext : list Z) (imMarkers : img) : option (list Z) :=
  all_some (map (fun l => if negb (l =? 0) then option_bind (rd ext l) (fun e => Some (wrap t3 e)) else Some 0) (pixs imMarkers)).

(** [floodWithExtValues], 147-168: the result, the values and the basins; extValType is the type [t3] of imExtValOut. *)
Definition floodWithExtValues (fuel : nat) (k : criterion) (t t2 t3 : ity) (se : strelt) (imIn imMarkers imExtValOut imBasins : img)
    : option (option (Z * (img * img))) :=
  if negb (same_size imIn imExtValOut) then Some (Some (-98, (imExtValOut, imBasins))) else
  fuel_bind (ext_flood fuel k t t2 t3 se imIn imMarkers imBasins) (fun '(r, bas, b) =>
  if negb (r =? 1) then Some (Some (-100, (imExtValOut, bas))) else
  option_bind (write_values t3 (bd_ext b) imMarkers) (fun px => Some (Some (1, (Img (sz imIn) px, bas))))).

(** The ranks of [floodWithExtRank], 190-197.  [sort] is what std::sort does with the comparison of 53-66; the ranks have
    type outT = [t3], the values type UINT. *)
Definition ranks (sort : (Z -> Z -> bool) -> list Z -> list Z) (t3 : ity) (labelNbr : Z) (ext : list Z) : option (list Z) :=
  let comp i j := znth 0 ext i >? znth 0 ext j in
  let rank := map (fun i => wrap t3 (i + 1)) (zseq labelNbr) in
  if existsb (fun i => (i <? 0) || (Z.of_nat (length ext) <=? i)) rank then None else
  let sorted := sort comp rank in
  fold_opt (fun e i => option_bind (rd sorted i) (fun r => wr e r (i + 1))) (zseq labelNbr) ext.

(** [floodWithExtRank], 177-208. *)
Definition floodWithExtRank (sort : (Z -> Z -> bool) -> list Z -> list Z) (fuel : nat) (k : criterion) (t t2 t3 : ity) (se : strelt)
    (imIn imMarkers imExtRankOut imBasins : img) : option (option (Z * (img * img))) :=
  if negb (same_size imIn imExtRankOut) then Some (Some (-98, (imExtRankOut, imBasins))) else
  fuel_bind (ext_flood fuel k t t2 UINT32 se imIn imMarkers imBasins) (fun '(r, bas, b) =>
  if negb (r =? 1) then Some (Some (-100, (imExtRankOut, bas))) else
  option_bind (maxVal t2 false imMarkers) (fun m =>
  option_bind (ranks sort t3 (wrap UINT32 m) (bd_ext b)) (fun ext =>
  option_bind (write_values t3 ext imMarkers) (fun px => Some (Some (1, (Img (sz imIn) px, bas))))))).

(** [watershedExtinction], 517-564: whatever happens, the result is RES_ERR. *)
Definition watershedExtinction sort (fuel : nat) (k : criterion) (t t2 t3 : ity) (se : strelt) (rankOutput : bool)
    (imIn imMarkers imOut imBasins : img) : option (option (Z * (img * img))) :=
  fuel_bind (if rankOutput then floodWithExtRank sort fuel k t t2 t3 se imIn imMarkers imOut imBasins
             else floodWithExtValues fuel k t t2 t3 se imIn imMarkers imOut imBasins) (fun '(_, r) => Some (Some (-100, r))).

(** Without basins, 567-578, and without markers, 581-594: the labels are [UINT]s. *)
Definition watershedExtinction_markers sort (fuel : nat) (k : criterion) (t t2 t3 : ity) junk (se : strelt) (rankOutput : bool)
    (imIn imMarkers imOut : img) : option (option (Z * img)) :=
  if negb (same_size imIn imMarkers && same_size imIn imOut) then Some (Some (-98, imOut)) else
  fuel_bind (watershedExtinction sort fuel k t t2 t3 se rankOutput imIn imMarkers imOut (new_img junk imMarkers)) (fun '(r, (o, _)) => Some (Some (r, o))).
Definition watershedExtinction_minima sort (fuel : nat) (k : criterion) (t t3 : ity) junk (default_se se : strelt) (rankOutput : bool)
    (imIn imOut : img) : option (option (Z * img)) :=
  if negb (same_size imIn imOut) then Some (Some (-98, imOut)) else
  fuel_bind (minima fuel t junk se false imIn (new_img junk imIn)) (fun r =>
  fuel_bind (label fuel UINT32 default_se se false (snd r) (new_img junk imIn)) (fun '(_, _, lbl) =>
  watershedExtinction_markers sort fuel k t UINT32 t3 junk se rankOutput imIn lbl imOut)).

(** [watershedExtinctionGraph], 602-625. *)
Definition watershedExtinctionGraph (fuel : nat) (k : criterion) (t t2 te : ity) (se : strelt) (imIn imMarkers imBasins : img) (g : graph)
    : option (option (Z * img * graph)) := ext_flood_graph fuel k t t2 te se imIn imMarkers imBasins g.
