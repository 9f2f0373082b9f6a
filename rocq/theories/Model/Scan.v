(** The scan of the neighbourhoods of all the pixels: class MorphImageFunctionBase, Morpho/include/private/
    DMorphImageOperations.hxx:42-263, and the functions built on it: mean, median, rank (DMorphoFilter.hpp:230-368), neighbors
    (DMorphoLabel.hpp:866-921), mosaicToGraph and graphToMosaic (DMorphoGraph.hpp:46-363).

    Images are allocated.  The macro of the critical section (236-241) plays no part: nothing runs in parallel here.
    [None]: access outside an array, division by zero, conversion of a NaN. *)
From Verif Require Export Model.Graph Model.Label.

(** The counter values a .. b-1. *)
Definition zbetween (a b : Z) : list Z := map (fun i => a + i) (zseq (b - a)).

(** [se_xmin], [se_xmax], 61-73. *)
Definition se_xmin (se : strelt) : Z := fold_left (fun m p => if px_ p <? m then px_ p else m) (se_points se) (2 ^ 31 - 1).
Definition se_xmax (se : strelt) : Z := fold_left (fun m p => if px_ p >? m then px_ p else m) (se_points se) (- 2 ^ 31).

(** [ptList] and [relOffsetList], 180-197, for line [curLine] of slice [curSlice]: the abscissa and the offset (76) of the
    points that are on a line of the image. *)
Definition line_points (se : strelt) (s : dims) (curLine curSlice : Z) : list (Z * Z) :=
  let oddLine := se_odd se && negb (curLine mod 2 =? 0) in
  flat_map (fun p =>
    let y := to_int (curLine + py_ p) in
    let z := to_int (curSlice + pz_ p) in
    if (y >=? 0) && (y <? to_int (dh s)) && (z >=? 0) && (z <? to_int (dd s)) then
      let shift := bit (oddLine && oddb (y + 1)) in
      [(px_ p + shift, dOffset s p + shift)]
    else []) (se_points se).

(** The offsets given to [processPixel] near the borders, 204-211 and 227-234. *)
Definition border_offsets (s : dims) (pts : list (Z * Z)) (curPixel : Z) : list Z :=
  map snd (filter (fun q => let x := to_int (curPixel + fst q) in (x >=? 0) && (x <? to_int (dw s))) pts).

(** The calls of [processPixel] by [processLine], 164-247: the pixel and the list of the offsets.  [offset]: the first pixel of
    the line. *)
Definition line_visits (se : strelt) (s : dims) (offset : Z) : option (list (Z * list Z)) :=
  if (dw s =? 0) || (dh s =? 0) then None else
  let curSlice := offset / (dw s * dh s) in
  let curLine := (offset / dw s) mod dh s in
  let pts := line_points se s curLine curSlice in
  let c1 := Z.max 0 (- se_xmin se) in
  let last := to_size (dw s - se_xmax se) in
  let c2 := Z.max c1 last in
  Some (map (fun c => (offset + c, border_offsets s pts c)) (zseq c1)
     ++ map (fun c => (offset + c, map snd pts)) (zbetween c1 last)
     ++ map (fun c => (offset + c, border_offsets s pts c)) (zbetween c2 (dw s))).

(** [processImage], [processSlice] and [processLine], 141-247; [f] is [processPixel]. *)
Definition scan_line {S} (f : S -> Z -> list Z -> option S) (se : strelt) (s : dims) (st : S) (offset : Z) : option S :=
  option_bind (line_visits se s offset) (fun l => fold_opt (fun st (v : Z * list Z) => f st (fst v) (snd v)) l st).
Definition scan_image {S} (f : S -> Z -> list Z -> option S) (se : strelt) (s : dims) (st : S) : option S :=
  fold_opt (fun st z => fold_opt (fun st y => scan_line f se s st ((z * dh s + y) * dw s)) (zseq (dh s)) st) (zseq (dd s)) st.

(** [_exec] with an output image, 89-116.  Called with the same image as input and output it calls itself again with the same
    arguments: [Some None] when [fuel] calls are not enough. *)
Fixpoint exec_inout {X} (fuel : nat) (inplace : bool) (run : option X) : option (option X) :=
  if inplace then match fuel with O => Some None | S fuel' => exec_inout fuel' inplace run end else option_map Some run.

(** ** Filters *)

(** The values of the neighbours. *)
Definition nb_values (px : list Z) (off : Z) (offs : list Z) : option (list Z) := all_some (map (fun d => rd px (to_size (off + d))) offs).
(** A pixel of the output computed from the values of the neighbours. *)
Definition local_pixel (f : list Z -> option Z) (px out : list Z) (off : Z) (offs : list Z) : option (list Z) :=
  option_bind (nb_values px off offs) (fun vals => option_bind (f vals) (fun v => wr out off v)).
Definition local_filter (fuel : nat) (inplace : bool) (f : list Z -> option Z) (se : strelt) (imIn imOut : img) : option (option (Z * img)) :=
  if negb (same_size imIn imOut) then Some (Some (-98, imOut)) else
  exec_inout fuel inplace (option_map (fun px => (1, Img (sz imOut) px)) (scan_image (local_pixel f (pixs imIn)) (label_se se) (sz imIn) (pixs imOut))).

(** The quotient of two integers held by doubles, rounded to the nearest double (ties to even), then truncated by the conversion
    to an integer.  Quotients below 1/2 are rounded to fewer bits than a double has: they are truncated to 0 in any case. *)
Definition div_even (n d : Z) : Z := let q := n / d in let r := n mod d in if (2 * r >? d) || ((2 * r =? d) && Z.odd q) then q + 1 else q.
Definition dquot (a b : Z) : Z :=
  let k := 52 - (if Z.abs a <? b then -1 else Z.log2 (Z.abs a / b)) in
  Z.sgn a * (div_even (Z.abs a * 2 ^ k) b / 2 ^ k).
(** [meanFunct::processPixel], DMorphoFilter.hpp:235-246. *)
Definition mean_of (t : ity) (vals : list Z) : option Z :=
  option_bind (fold_opt dadd vals 0) (fun sum => if Z.of_nat (length vals) =? 0 then None else Some (wrap t (dquot sum (Z.of_nat (length vals))))).
(** [mean], 256-269. *)
Definition mean fuel inplace t se imIn imOut := local_filter fuel inplace (mean_of t) se imIn imOut.

(** std::sort on integers. *)
Fixpoint insert (v : Z) (l : list Z) : list Z := match l with [] => [v] | u :: l' => if u <? v then u :: insert v l' else v :: l end.
Definition zsort (l : list Z) : list Z := fold_right insert [] l.
(** [medianFunct::processPixel], 277-288; [median], 298-311. *)
Definition median_of (vals : list Z) : option Z := rd (zsort vals) (Z.of_nat (length vals) / 2).
Definition median fuel inplace se imIn imOut := local_filter fuel inplace median_of se imIn imOut.
(** [rankFunct::processPixel], 322-334; [rank], 350-363.  [ix n] is [static_cast<int>(n * percentile)]. *)
Definition rank_of (ix : Z -> Z) (vals : list Z) : option Z := rd (zsort vals) (ix (Z.of_nat (length vals))).
Definition rank fuel inplace ix se imIn imOut := local_filter fuel inplace (rank_of ix) se imIn imOut.

(** [neighborsFunct::processPixel], DMorphoLabel.hpp:873-887; [neighbors], 905-917. *)
Definition memb (v : Z) (l : list Z) : bool := existsb (Z.eqb v) l.
Definition count_values (t2 : ity) (vals : list Z) : option Z :=
  Some (wrap t2 (Z.of_nat (length (fold_left (fun l v => if memb v l then l else l ++ [v]) vals [])))).
Definition neighbors fuel inplace t2 se imIn imOut := local_filter fuel inplace (count_values t2) se imIn imOut.

(** ** Mosaics *)

(** [processPixel], DMorphoGraph.hpp:166-199.  [ev]: pixels of imEdgeValues, [nv]: pixels of imNodeValues, if given.
    Simplification: values keep their value when converted to the types of the graph. *)
Definition mosaic_neighbor (ev nv : option (list Z)) (px : list Z) (off cur : Z) (g : graph) (d : Z) : option graph :=
  option_bind (rd px (to_size (off + d))) (fun val =>
  if val =? cur then Some g else
  let i := findEdge g (Edge cur val 1) in
  let add w :=
    option_bind (match nv with
      | None => Some g
      | Some nv => option_bind (rd nv off) (fun a => option_bind (rd nv (to_size (off + d))) (fun b => Some (addNode_val (addNode_val g cur a) val b)))
      end) (fun g => Some (addEdge g (Edge cur val w) false)) in
  match ev with
  | None => add 0
  | Some ev =>
      option_bind (rd ev off) (fun w =>
      if negb (i =? -1) then option_bind (rd (edges g) i) (fun e => Some (with_edges g (upd (edges g) i (Edge (src e) (tgt e) (Z.min (wt e) w))) (nodeEdges g)))
      else add w)
  end).
Definition mosaic_pixel (ev nv : option (list Z)) (px : list Z) (g : graph) (off : Z) (offs : list Z) : option graph :=
  option_bind (rd px off) (fun cur => fold_opt (mosaic_neighbor ev nv px off cur) offs g).
(** [mosaicToGraph], 72-83, 97-106, 116-124 (the operators with a graph argument), 138-159 and [_exec] without output image,
    DMorphImageOperations.hxx:118-139.  The graph is cleared. *)
Definition mosaicToGraph (ev nv : option img) (se : strelt) (imMosaic : img) (g : graph) : option (Z * graph) :=
  if forallb (fun o => match o with Some im => same_size imMosaic im | None => true end) [ev; nv] then
    option_map (fun g => (1, g)) (scan_image (mosaic_pixel (option_map pixs ev) (option_map pixs nv) (pixs imMosaic)) (label_se se) (sz imMosaic) (clear g))
  else Some (-98, g).

(** [graphToMosaic], 352-363, with the general version of applyLookup (labels of more than 16 bits). *)
Definition graphToMosaic (turns fuel : nat) (t : ity) (imMosRef : img) (g : graph) (imOut : img) : option (option (Z * img)) :=
  fuel_bind (labelizeNodes turns fuel g) (fun lut => option_map Some (applyLookup_gen t lut 0 imMosRef imOut)).
