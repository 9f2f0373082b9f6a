(** Geodesic transformations: Morpho/include/private/DMorphoGeodesic.hpp and DMorphoExtrema.hpp.

    [alias] tells that imMask and imOut are the same image.  (imIn and imOut may be the same image as well: imIn is read
    by the first pixelwise operation only, which supports it, C05.)  The result of a function with a while loop is
    [Some None] when the number of turns [fuel] is exhausted; [None]: access outside an array.  Images are
    allocated. *)
From Verif Require Export Model.Morph Model.Queues Model.Neighbors.

(** [enum HQ_STATUS], DMorphoHierarQ.hpp:47. *)
Definition HQ_CANDIDATE := 0.
Definition HQ_QUEUED := 1.
Definition HQ_LABELED := 2.
Definition HQ_WS_LINE := 3.
Definition HQ_FINAL := 4.

(** Sequencing of steps that may fault or exhaust the fuel. *)
Definition fuel_bind {A B} (o : option (option A)) (f : A -> option (option B)) : option (option B) :=
  match o with Some (Some a) => f a | Some None => Some None | None => None end.

(** ** Geodesic dilations repeated *)

(** The pixelwise functions used here, DImageArith.hpp; the images have the same size. *)
Definition pw2 (f : Z -> Z -> Z) (a b : img) : img := Img (sz a) (map2 f (pixs a) (pixs b)).
Definition pw1 (f : Z -> Z) (a : img) : img := Img (sz a) (map f (pixs a)).

(** The mask image when it may be imOut itself. *)
Definition mask_of (alias : bool) (mask out : img) : img := if alias then out else mask.

(** One turn of the loops of geoDilate (83-86), geoErode, geoBuild and geoDualBuild. *)
Definition geo_step_dil (t : ity) junk cs (se : strelt) (alias : bool) (mask out : img) : option img :=
  option_bind (dilate junk cs (tmin t) se true out out) (fun r =>
  Some (pw2 px_inf (snd r) (mask_of alias mask (snd r)))).
Definition geo_step_ero (t : ity) junk cs (se : strelt) (alias : bool) (mask out : img) : option img :=
  option_bind (erode junk cs (tmax t) se true out out) (fun r =>
  Some (pw2 px_sup (snd r) (mask_of alias mask (snd r)))).

Fixpoint geo_iter (step : nat -> img -> option img) (n k : nat) (out : img) : option img :=
  match n with
  | O => Some out
  | S n' => option_bind (step k out) (geo_iter step n' (S k))
  end.

(** [geoDilate], 72-88; [geoErode], 108-124. *)
Definition geoDilate t junk (cs : nat -> nat -> conf) se (alias : bool) (imIn imMask imOut : img) : option (Z * img) :=
  if negb (same_size imIn imMask && same_size imIn imOut) then Some (-98, imOut) else
  option_bind (geo_iter (fun k => geo_step_dil t junk (cs k) (with_size se 1) alias imMask)
     (Z.to_nat (se_size se)) 0 (pw2 px_inf imIn imMask)) (fun out => Some (1, out)).
Definition geoErode t junk (cs : nat -> nat -> conf) se (alias : bool) (imIn imMask imOut : img) : option (Z * img) :=
  if negb (same_size imIn imMask && same_size imIn imOut) then Some (-98, imOut) else
  option_bind (geo_iter (fun k => geo_step_ero t junk (cs k) (with_size se 1) alias imMask)
     (Z.to_nat (se_size se)) 0 (pw2 px_sup imIn imMask)) (fun out => Some (1, out)).

(** The loop of [geoBuild], 155-162: until the volume does not change. *)
Fixpoint geo_loop (step : nat -> img -> option img) (fuel k : nat) (vol1 : Z) (out : img) : option (option img) :=
  match fuel with
  | O => Some None
  | S fuel' =>
      option_bind (step k out) (fun out' =>
      option_bind (volume out') (fun vol2 =>
      if vol2 =? vol1 then Some (Some out') else geo_loop step fuel' (S k) vol2 out'))
  end.

(** [geoBuild], 144-164; [geoDualBuild], 175-196. *)
Definition geoBuild t junk (cs : nat -> nat -> conf) fuel se (alias : bool) (imIn imMask imOut : img) : option (option (Z * img)) :=
  if negb (same_size imIn imMask && same_size imIn imOut) then Some (Some (-98, imOut)) else
  let out := pw2 px_inf imIn imMask in
  option_bind (volume out) (fun vol1 =>
  fuel_bind (geo_loop (fun k => geo_step_dil t junk (cs k) se alias imMask) fuel 0 vol1 out) (fun out => Some (Some (1, out)))).
Definition geoDualBuild t junk (cs : nat -> nat -> conf) fuel se (alias : bool) (imIn imMask imOut : img) : option (option (Z * img)) :=
  if negb (same_size imIn imMask && same_size imIn imOut) then Some (Some (-98, imOut)) else
  let out := pw2 px_sup imIn imMask in
  option_bind (volume out) (fun vol1 =>
  fuel_bind (geo_loop (fun k => geo_step_ero t junk (cs k) se alias imMask) fuel 0 vol1 out) (fun out => Some (Some (1, out)))).

(** ** Reconstruction with a hierarchical queue *)

(** [initBuildHierarchicalQueue], 208-230 ([noPush] = None) and 232-256. *)
Definition initBuildHierarchicalQueue (t : ity) (rev : bool) (noPush : option Z) (px : list Z) : option hqueue :=
  fold_opt (fun q i => option_bind (rd px i) (fun v =>
     if match noPush with Some n => v =? n | None => false end then Some q else hq_push t rev q v i))
   (zseq (Z.of_nat (length px))) (hq_init t rev).

Record bstate := BS { bs_in : list Z; bs_stat : list Z; bs_q : hqueue }.

(** One neighbour, 305-332. *)
Definition build_point (t : ity) (rev : bool) (oper : Z -> Z -> Z) (se : strelt) (s : dims) (alias : bool) (mask : list Z)
    (cur : Z) (xyz : Z * Z * Z) (st : bstate) (p : point) : option bstate :=
  if not_origin p then
    match nb_offset se s cur xyz p with
    | None => Some st
    | Some nb =>
        option_bind (rd (bs_stat st) nb) (fun nbStat =>
        if nbStat =? HQ_CANDIDATE then
          option_bind (rd (bs_in st) cur) (fun a =>
          option_bind (rd (if alias then bs_in st else mask) nb) (fun b =>
          option_bind (wr (bs_in st) nb (oper a b)) (fun px =>
          option_bind (wr (bs_stat st) nb HQ_QUEUED) (fun stat =>
          option_bind (rd px nb) (fun v =>
          option_bind (hq_push t rev (bs_q st) v nb) (fun q => Some (BS px stat q)))))))
        else Some st)
    end
  else Some st.

(** [processBuildHierarchicalQueue], 259-335. *)
Fixpoint build_loop (fuel : nat) (t : ity) (rev : bool) (oper : Z -> Z -> Z) (se : strelt) (s : dims) (alias : bool)
    (mask : list Z) (st : bstate) : option (option bstate) :=
  if hq_isEmpty (bs_q st) then Some (Some st) else
  match fuel with
  | O => Some None
  | S fuel' =>
      option_bind (hq_pop t rev (bs_q st)) (fun '(cur, q) =>
      option_bind (wr (bs_stat st) cur HQ_FINAL) (fun stat =>
      option_bind (getCoordsFromOffset s cur) (fun xyz =>
      option_bind (fold_opt (build_point t rev oper se s alias mask cur xyz) (se_points se) (BS (bs_in st) stat q)) (fun st' =>
      build_loop fuel' t rev oper se s alias mask st'))))
  end.

(** Initialisation of the queue, then flooding. *)
Definition run_build (fuel : nat) (t : ity) (rev : bool) (noPush : option Z) (oper : Z -> Z -> Z) (se : strelt)
    (alias : bool) (mask : list Z) (out : img) (stat : list Z) : option (option (Z * img)) :=
  option_bind (initBuildHierarchicalQueue t rev noPush (pixs out)) (fun q =>
  fuel_bind (build_loop fuel t rev oper se (sz out) alias mask (BS (pixs out) stat q)) (fun st =>
  Some (Some (1, Img (sz out) (bs_in st))))).

(** [dualBuild], 361-386; [maxFunctor], 345-350. *)
Definition dualBuild (fuel : nat) (t : ity) (se : strelt) (alias : bool) (imIn imMask imOut : img) : option (option (Z * img)) :=
  if negb (same_size imIn imMask && same_size imIn imOut) then Some (Some (-98, imOut)) else
  let out := pw2 px_sup imIn imMask in
  run_build fuel t false None Z.max se alias (pixs imMask) out (map (fun _ => HQ_CANDIDATE) (pixs imIn)).

(** [isBinary], Base/include/private/DMeasures.hpp:1386-1400: the map [h] of the values met, until there are more than
    two. *)
Fixpoint binary_scan (l : list Z) (h : zmap Z) : option (zmap Z) :=
  match l with
  | [] => Some h
  | v :: r => let h' := mput v (mget 0 v h + 1) h in
              if Z.of_nat (length h') >? 2 then None else binary_scan r h'
  end.
Definition isBinary (im : img) : bool :=
  match binary_scan (pixs im) [] with
  | None => false
  | Some h => (mget 0 0 h >? 0) && (Z.of_nat (length h) =? 2)
  end.

(** [binBuild], 438-466; [minFunctor], 338-343. *)
Definition binBuild (fuel : nat) (t : ity) (se : strelt) (alias : bool) (imIn imMask imOut : img) : option (option (Z * img)) :=
  if negb (same_size imIn imMask && same_size imIn imOut) then Some (Some (-98, imOut)) else
  let out := pw2 px_inf imIn imMask in
  let mask := mask_of alias imMask out in
  run_build fuel t true (Some (tmin t)) Z.min se alias (pixs mask) out
    (map (fun m => px_test m HQ_CANDIDATE HQ_FINAL) (pixs mask)).

(** [build], 398-427. *)
Definition build (fuel : nat) (t : ity) (se : strelt) (alias : bool) (imIn imMask imOut : img) : option (option (Z * img)) :=
  if isBinary imIn && isBinary imMask then binBuild fuel t se alias imIn imMask imOut else
  if negb (same_size imIn imMask && same_size imIn imOut) then Some (Some (-98, imOut)) else
  let out := pw2 px_inf imIn imMask in
  run_build fuel t true None Z.min se alias (pixs imMask) out (map (fun _ => HQ_CANDIDATE) (pixs imIn)).

(** [hBuild], 512-530, and [hDualBuild], 542-560.  With imIn = imOut they are run on [Image<T> tmpIm = imIn], the copy
    constructor with cloneData = false (Core/include/private/DImage.hpp:72, DImage.hxx:67-74): an image of the same size
    with unspecified contents [junk]. *)
Definition h_source (junk : Z -> Z) (inplace : bool) (imIn : img) : img := if inplace then new_img junk imIn else imIn.
Definition hBuild fuel t junk se (height : Z) (inplace : bool) (imIn imOut : img) : option (option (Z * img)) :=
  if negb (same_size imIn imOut) then Some (Some (-98, imOut)) else
  let imIn := h_source junk inplace imIn in
  let out := pw1 (fun v => px_sub t v height) imIn in
  fuel_bind (build fuel t se false out imIn out) (fun r => Some (Some (1, snd r))).
Definition hDualBuild fuel t junk se (height : Z) (inplace : bool) (imIn imOut : img) : option (option (Z * img)) :=
  if negb (same_size imIn imOut) then Some (Some (-98, imOut)) else
  let imIn := h_source junk inplace imIn in
  let out := pw1 (fun v => px_add t v height) imIn in
  fuel_bind (dualBuild fuel t se false out imIn out) (fun r => Some (Some (1, snd r))).

(** [buildOpen], 571-585; [buildClose], 596-610; [alias]: imIn and imOut are the same image. *)
Definition buildOpen fuel t junk cs se (alias : bool) (imIn imOut : img) : option (option (Z * img)) :=
  if negb (same_size imIn imOut) then Some (Some (-98, imOut)) else
  option_bind (erode junk cs (tmax t) se false imIn (new_img junk imIn)) (fun r =>
  fuel_bind (build fuel t se alias (snd r) imIn imOut) (fun r => Some (Some (1, snd r)))).
Definition buildClose fuel t junk cs se (alias : bool) (imIn imOut : img) : option (option (Z * img)) :=
  if negb (same_size imIn imOut) then Some (Some (-98, imOut)) else
  option_bind (dilate junk cs (tmin t) se false imIn (new_img junk imIn)) (fun r =>
  fuel_bind (dualBuild fuel t se alias (snd r) imIn imOut) (fun r => Some (Some (1, snd r)))).

(** The marker of [fillHoles], 695-725: [setPixel] on the faces of the image. *)
Definition hole_faces (s : dims) : list (Z * Z * Z) :=
  (if dd s >? 2 then flat_map (fun j => flat_map (fun i => [(i, j, 0); (i, j, dd s - 1)]) (zseq (dw s))) (zseq (dh s)) else []) ++
  (if dh s >? 2 then flat_map (fun k => flat_map (fun i => [(i, 0, k); (i, dh s - 1, k)]) (zseq (dw s))) (zseq (dd s)) else []) ++
  (if dw s >? 2 then flat_map (fun k => flat_map (fun j => [(0, j, k); (dw s - 1, j, k)]) (zseq (dh s))) (zseq (dd s)) else []).
Definition hole_marker (t : ity) (im : img) : option img :=
  option_bind (fold_opt (fun px '(x, y, z) => option_map snd (setPixel_xyz (sz im) px x y z (tmin t))) (hole_faces (sz im))
     (map (fun _ => tmax t) (pixs im)))
    (fun px => Some (Img (sz im) px)).

(** [fillHoles], 683-732; [levelPics], 742-757. *)
Definition fillHoles fuel t se (alias : bool) (imIn imOut : img) : option (option (Z * img)) :=
  if negb (same_size imIn imOut) then Some (Some (-98, imOut)) else
  option_bind (hole_marker t imIn) (fun tmp =>
  fuel_bind (dualBuild fuel t se alias tmp imIn imOut) (fun r => Some (Some (1, snd r)))).
Definition levelPics fuel t se (imIn imOut : img) : option (option (Z * img)) :=
  if negb (same_size imIn imOut) then Some (Some (-98, imOut)) else
  fuel_bind (fillHoles fuel t se false (pw1 (px_inv t) imIn) imOut) (fun r => Some (Some (1, pw1 (px_inv t) (snd r)))).

(** [minima], DMorphoExtrema.hpp:54-73; [maxima], 82-101; in place as for hBuild. *)
Definition minima fuel t junk se (inplace : bool) (imIn imOut : img) : option (option (Z * img)) :=
  if negb (same_size imIn imOut) then Some (Some (-98, imOut)) else
  let imIn := h_source junk inplace imIn in
  let out := pw1 (fun v => px_add t v 1) imIn in
  fuel_bind (dualBuild fuel t se false out imIn out) (fun r => Some (Some (1, pw2 (px_low t) imIn (snd r)))).
Definition maxima fuel t junk se (inplace : bool) (imIn imOut : img) : option (option (Z * img)) :=
  if negb (same_size imIn imOut) then Some (Some (-98, imOut)) else
  let imIn := h_source junk inplace imIn in
  let out := pw1 (fun v => px_sub t v 1) imIn in
  fuel_bind (build fuel t se false out imIn out) (fun r => Some (Some (1, pw2 (px_grt t) imIn (snd r)))).

(** [hMinima], 157-171; [hMaxima], 206-220. *)
Definition hMinima fuel t junk se height (imIn imOut : img) : option (option (Z * img)) :=
  if negb (same_size imIn imOut) then Some (Some (-98, imOut)) else
  fuel_bind (hDualBuild fuel t junk se height false imIn (new_img junk imIn)) (fun r => minima fuel t junk se false (snd r) imOut).
Definition hMaxima fuel t junk se height (imIn imOut : img) : option (option (Z * img)) :=
  if negb (same_size imIn imOut) then Some (Some (-98, imOut)) else
  fuel_bind (hBuild fuel t junk se height false imIn (new_img junk imIn)) (fun r => maxima fuel t junk se false (snd r) imOut).
