(** Distance functions: Morpho/include/private/DMorphoDistance.hpp.

    The images are allocated.  The [omp for] directives (in distCross, distCross3d, distSquare, distanceEuclidean) are not inside
    a parallel region, so the loops are run by one thread.  Index arithmetic (off_t, size_t, long) does not overflow: the
    indices are at most the number of pixels.  [None]: access outside an array or a vector, or overflow of a signed int. *)
From Verif Require Export Model.Geodesic Model.StrElt.

(** [1 + v] for a pixel value [v]: computed in [int] for the types narrower than [int], modulo 2^32 for UINT32. *)
Definition plus1 (t : ity) (v : Z) : Z := match t with UINT32 => (v + 1) mod 2 ^ 32 | _ => v + 1 end.

(** ** Passes along lines *)

(** The two loops along the line of cells [pos 0], ..., [pos (n-1)]: each cell is updated from the previous one, then each cell
    from the next one.  A cell that is left alone is written with its own value. *)
Definition update (step : Z -> Z -> Z) (p q : Z) (out : list Z) : option (list Z) :=
  option_bind (rd out p) (fun a => option_bind (rd out q) (fun b => wr out p (step a b))).
Definition sweep_back (step : Z -> Z -> Z) (pos : Z -> Z) (n : Z) (out : list Z) : option (list Z) :=
  fold_opt (fun out i => update step (pos i) (pos (i + 1)) out) (rev (zseq (n - 1))) out.
Definition sweep (step : Z -> Z -> Z) (pos : Z -> Z) (n : Z) (out : list Z) : option (list Z) :=
  option_bind (fold_opt (fun out i => update step (pos i) (pos (i - 1)) out) (zrange 1 (n - 1)) out) (sweep_back step pos n).

(** The loops on the column at [offset], 251-277 (distCross3d), 350-386 (distCross), 457-495 (distSquare, where the output array
    is [pixelsTmp]), 850-882 (distanceEuclidean): [next] gives the value below value [b], [back] the new value of a cell of value
    [a] above [b].  [alias]: the input array is the output array. *)
Definition column_down (t : ity) (next : Z -> Z) (alias : bool) (px : list Z) (w h offset : Z) (out : list Z) : option (list Z) :=
  let input out := if alias then out else px in
  option_bind (option_bind (rd (input out) offset) (fun v => wr out offset (if v =? 0 then 0 else tmax t)))
    (fold_opt (fun out y =>
       option_bind (rd (input out) (offset + y * w)) (fun v =>
       if v =? 0 then wr out (offset + y * w) 0
       else option_bind (rd out (offset + (y - 1) * w)) (fun b => wr out (offset + y * w) (next b)))) (zrange 1 (h - 1))).
Definition column (t : ity) (next : Z -> Z) (back : Z -> Z -> Z) (alias : bool) (px : list Z) (w h offset : Z) (out : list Z)
    : option (list Z) :=
  option_bind (column_down t next alias px w h offset out) (sweep_back back (fun y => offset + y * w) h).

(** distCross: 362-372 and 375-385; distSquare: the same, 470-494. *)
Definition cross_next (t : ity) (b : Z) : Z := if b <? tmax t then wrap t (plus1 t b) else tmax t.
Definition cross_back (t : ity) (a b : Z) : Z :=
  let minVal := if b <? tmax t then wrap t (plus1 t b) else b in
  if minVal <? a then wrap t (plus1 t b) else a.
(** distCross3d: 262-265 and 269-276. *)
Definition cross3d_next (t : ity) (b : Z) : Z := wrap t (if plus1 t b >? tmax t then tmax t else plus1 t b).
Definition cross3d_back (t : ity) (a b : Z) : Z :=
  let min := if plus1 t b >? tmax t then tmax t else plus1 t b in
  if min <? a then wrap t (plus1 t b) else a.
(** The update along the rows, 287-297 (distCross3d), 393-403 (distCross), and across the slices, 306-321. *)
Definition row_step (t : ity) (a b : Z) : Z := if negb (a =? 0) && (a >? b) then wrap t (plus1 t b) else a.

(** [distCross], 322-409. *)
Definition distCross_slice (t2 : ity) (s : dims) (px : list Z) (out : list Z) (z : Z) : option (list Z) :=
  option_bind
    (fold_opt (fun out x => column t2 (cross_next t2) (cross_back t2) false px (dw s) (dh s) (z * dh s * dw s + x) out) (zseq (dw s)) out)
    (fold_opt (fun out y => sweep (row_step t2) (fun x => z * dh s * dw s + y * dw s + x) (dw s) out) (zseq (dh s))).
Definition distCross (t2 : ity) (imIn imOut : img) : option (Z * img) :=
  if negb (same_size imIn imOut) then Some (-98, imOut)
  else
    let s := sz imIn in
    let tmp := pw1 (fun v => px_inf v 1) imIn in
    option_bind (fold_opt (distCross_slice t2 s (pixs tmp)) (zseq (dd s)) (pixs imOut)) (fun out => Some (1, Img (sz imOut) out)).

(** [distCross3d], 215-316. *)
Definition distCross3d_slice (t2 : ity) (s : dims) (px : list Z) (out : list Z) (z : Z) : option (list Z) :=
  option_bind
    (fold_opt (fun out x => column t2 (cross3d_next t2) (cross3d_back t2) false px (dw s) (dh s) (z * dh s * dw s + x) out) (zseq (dw s)) out)
    (fold_opt (fun out y => sweep (row_step t2) (fun x => z * dh s * dw s + y * dw s + x) (dw s) out) (zseq (dh s))).
Definition distCross3d (t2 : ity) (imIn imOut : img) : option (Z * img) :=
  if negb (same_size imIn imOut) then Some (-98, imOut)
  else
    let s := sz imIn in
    let tmp := pw1 (fun v => px_inf v 1) imIn in
    option_bind (fold_opt (distCross3d_slice t2 s (pixs tmp)) (zseq (dd s)) (pixs imOut)) (fun out =>
    option_bind (fold_opt (fun out y => fold_opt (fun out x =>
        sweep (row_step t2) (fun z => y * dw s + x + z * dh s * dw s) (dd s) out) (zseq (dw s)) out) (zseq (dh s)) out) (fun out =>
    Some (1, Img (sz imOut) out))).

(** ** Lower envelopes *)

(** The loops called SCAN 3 and SCAN 4: 503-572 and 575-593 (distSquare), 905-923 and 925-929, 944-961 and 962-967
    (distanceEuclidean).  The vectors [s] and [t] hold the minimizers and the places from which they are so, up to index [q].
    [f x i] is the value at place [x] of the curve of cell [i]; [sep i u] the last place where the curve of [i] is not above
    that of [u]. *)
Fixpoint pop (f : Z -> Z -> option Z) (s t : list Z) (u : Z) (n : nat) : option Z :=      (* n = q + 1 *)
  match n with
  | O => Some (-1)
  | S n' =>
    let q := Z.of_nat n' in
    option_bind (rd t q) (fun tq => option_bind (rd s q) (fun sq =>
    option_bind (f tq sq) (fun a => option_bind (f tq u) (fun b =>
    if a >? b then pop f s t u n' else Some q))))
  end.
Definition scan3_step (f sep : Z -> Z -> option Z) (n : Z) (st : list Z * list Z * Z) (u : Z) : option (list Z * list Z * Z) :=
  let '(s, t, q) := st in
  option_bind (pop f s t u (Z.to_nat (q + 1))) (fun q =>
  if q <? 0 then option_bind (wr s 0 u) (fun s => Some (s, t, 0))
  else
    option_bind (rd s q) (fun sq => option_bind (sep sq u) (fun w0 =>
    let w := 1 + w0 in
    if w <? n then
      option_bind (wr s (q + 1) u) (fun s => option_bind (wr t (q + 1) w) (fun t => Some (s, t, q + 1)))
    else Some (s, t, q)))).
Definition scan4_step (val : Z -> Z -> option Z) (pos : Z -> Z) (s t : list Z) (st : list Z * Z) (u : Z) : option (list Z * Z) :=
  let '(out, q) := st in
  option_bind (rd s q) (fun sq => option_bind (val u sq) (fun v =>
  option_bind (wr out (pos u) v) (fun out => option_bind (rd t q) (fun tq =>
  Some (out, if u =? tq then q - 1 else q))))).
(** One line of [n] cells; the vectors are shared by all the lines. *)
Definition envelope (f sep val : Z -> Z -> option Z) (pos : Z -> Z) (n : Z) (st : list Z * list Z * list Z)
    : option (list Z * list Z * list Z) :=
  let '(out, s, t) := st in
  option_bind (wr t 0 0) (fun t => option_bind (wr s 0 0) (fun s =>
  option_bind (fold_opt (scan3_step f sep n) (zrange 1 (n - 1)) (s, t, 0)) (fun st =>
  let '(s, t, q) := st in
  option_bind (fold_opt (scan4_step val pos s t) (rev (zseq n)) (out, q)) (fun r =>
  Some (fst r, s, t))))).

(** [distSquare], 415-606.  [alias]: imOut is imIn. *)
Definition square_f (tmp : list Z) (offset x i : Z) : option Z :=
  option_bind (rd tmp (offset + i)) (fun g => Some (if Z.abs (x - i) <? g then g else Z.abs (x - i))).
Definition square_sep (tmp : list Z) (offset i u : Z) : option Z :=
  option_bind (rd tmp (offset + i)) (fun gi => option_bind (rd tmp (offset + u)) (fun gu =>
  let m := (i + u) ÷ 2 in
  Some (if gi <=? gu then (if i + gu <? m then m else i + gu) else (if u - gi >=? m then m else u - gi)))).
Definition square_val (t2 : ity) (tmp : list Z) (offset u i : Z) : option Z :=
  option_bind (rd tmp (offset + i)) (fun g => let d := wrap t2 (Z.abs (u - i)) in Some (if d <? g then g else d)).
Definition distSquare_slice (t2 : ity) (s : dims) (alias : bool) (px : list Z) (st : list Z * list Z * list Z * list Z) (z : Z)
    : option (list Z * list Z * list Z * list Z) :=
  let '(tmp, out, sv, tv) := st in
  let input := if alias then out else px in
  option_bind (fold_opt (fun tmp x => column t2 (cross_next t2) (cross_back t2) false input (dw s) (dh s) (z * dh s * dw s + x) tmp) (zseq (dw s)) tmp) (fun tmp =>
  option_bind (fold_opt (fun st y =>
      let offset := z * dh s * dw s + y * dw s in
      envelope (square_f tmp offset) (square_sep tmp offset) (square_val t2 tmp offset) (fun u => offset + u) (dw s) st) (zseq (dh s)) (out, sv, tv)) (fun st =>
  let '(out, sv, tv) := st in
  Some (tmp, out, sv, tv))).
Definition distSquare (junk : Z -> Z) (t2 : ity) (alias : bool) (imIn imOut : img) : option (Z * img) :=
  if negb (same_size imIn imOut) then Some (-98, imOut)
  else
    let s := sz imIn in
    let v := repeat 0 (Z.to_nat (Z.max (dw s) (dh s))) in                       (* vectors s and t *)
    option_bind (wr v 0 0) (fun v =>                                            (* s[0] = 0; t[0] = 0 *)
    option_bind (fold_opt (distSquare_slice t2 s alias (pixs imIn)) (zseq (dd s)) (pixs (new_img junk imIn), pixs imOut, v, v)) (fun st =>
    let '(_, out, _, _) := st in
    Some (1, Img (sz imOut) out))).

(** [distanceEuclidean], 814-976. *)
(** Product of two pixel values: in [int] (overflow: None) for the narrow types, modulo 2^32 for UINT32. *)
Definition int_prod (a b : Z) : option Z := if (a * b <? 2 ^ 31) && (- 2 ^ 31 <=? a * b) then Some (a * b) else None.
Definition pix_prod (t : ity) (a b : Z) : option Z := match t with UINT32 => Some ((a * b) mod 2 ^ 32) | _ => int_prod a b end.
(** 866-868 (as in distCross3d) and 874-881. *)
Definition euclid_back (t : ity) (a b : Z) : Z :=
  if b <? a then wrap t (if plus1 t b <? tmax t then plus1 t b else tmax t) else a.
(** __f_euclidean and __sep, 888-893: cell [i] holds [g]; the squares of the values are [sq]. *)
Definition euclid_f (sq : Z -> option Z) (x i : Z) : option Z :=
  option_bind (sq i) (fun g => Some ((x - i) * (x - i) + g)).
Definition euclid_sep (sq : Z -> option Z) (a b : Z) : option Z :=
  option_bind (int_prod b b) (fun bb => option_bind (sq b) (fun gb => option_bind (sq a) (fun ga =>
  Some ((bb - a * a + gb - ga) ÷ (2 * (b - a)))))).
Definition row_square (t2 : ity) (tmp : list Z) (offset i : Z) : option Z :=
  option_bind (rd tmp (offset + i)) (fun g => pix_prod t2 g g).
(** The same macros, 935-940: the values are squares already. *)
Definition depth_square (tmp : list Z) (offset n i : Z) : option Z := rd tmp (offset + i * n).
Definition euclid_val (t2 : ity) (sq : Z -> option Z) (x i : Z) : option Z :=
  option_bind (euclid_f sq x i) (fun v => Some (wrap t2 v)).
Definition distanceEuclidean (t2 : ity) (alias : bool) (imIn imOut : img) : option (Z * img) :=
  if negb (same_size imIn imOut) then Some (-98, imOut)
  else
    let s := sz imIn in
    let n := dw s * dh s in                                                     (* nbrPixelsPerSlice *)
    let v := repeat 0 (Z.to_nat (dw s)) in                                      (* vectors s and t *)
    option_bind (fold_opt (fun out z => fold_opt (fun out x =>
        column t2 (cross3d_next t2) (euclid_back t2) alias (pixs imIn) (dw s) (dh s) (z * n + x) out) (zseq (dw s)) out) (zseq (dd s)) (pixs imOut)) (fun tmp =>
    option_bind (fold_opt (fun st z => fold_opt (fun st y =>
        let offset := z * n + y * dw s in
        let sq := row_square t2 tmp offset in
        envelope (euclid_f sq) (euclid_sep sq) (euclid_val t2 sq) (fun x => offset + x) (dw s) st) (zseq (dh s)) st) (zseq (dd s)) (tmp, v, v)) (fun st =>
    let '(tmp, sv, tv) := st in
    option_bind (fold_opt (fun st y => fold_opt (fun st x =>
        let offset := y * dw s + x in
        let sq := depth_square tmp offset n in
        envelope (euclid_f sq) (euclid_sep sq) (euclid_val t2 sq) (fun z => offset + z * n) (dd s) st) (zseq (dw s)) st) (zseq (dh s)) (tmp, sv, tv)) (fun st =>
    let '(out, _, _) := st in
    Some (1, Img (sz imOut) out)))).

(** ** Propagation *)

(** [distGeneric], 111-209, after the sources are marked; [alias]: imOut is imIn.  The two queues are lists; the level value is
    of type T2. *)
Definition generic_visit (s : dims) (se : strelt) (alias : bool) (px : list Z) (lvl : Z) (cur : Z) (st : list Z * list Z) (p : point)
    : option (list Z * list Z) :=
  let '(out, next) := st in
  let ppLine := dw s in
  let ppSlice := dw s * dh s in
  let z := cur / ppSlice in
  let y := (cur - z * ppSlice) / ppLine in
  let x := cur - y * ppLine - z * ppSlice in
  let oddLine := se_odd se && negb (y mod 2 =? 0) in
  let n_y := y + py_ p in
  let n_x := x + px_ p + bit (oddLine && oddb (n_y + 1)) in
  let n_z := z + pz_ p in
  let offset := n_x + n_y * ppLine + n_z * ppSlice in
  if (0 <=? n_x) && (n_x <? dw s) && (0 <=? n_y) && (n_y <? dh s) && (0 <=? n_z) && (n_z <? dd s) then
    option_bind (rd out offset) (fun o =>
    if o =? 0 then
      option_bind (rd (if alias then out else px) offset) (fun v =>
      if v >? 0 then option_bind (wr out offset lvl) (fun out => Some (out, next ++ [offset])) else Some (out, next))
    else Some (out, next))
  else Some (out, next).
Fixpoint generic_levels (s : dims) (se : strelt) (alias : bool) (t2 : ity) (px : list Z) (fuel : nat) (lvl : Z) (level : list Z) (out : list Z)
    : option (option (list Z)) :=
  match fuel with
  | O => Some None
  | S fuel =>
    option_bind (fold_opt (fun st cur => fold_opt (generic_visit s se alias px lvl cur) (se_points se) st) level (out, [])) (fun r =>
    let '(out, next) := r in
    match next with
    | [] => Some (Some out)
    | _ => generic_levels s se alias t2 px fuel (wrap t2 (lvl + 1)) next out
    end)
  end.
(** The sources, 131-161: the pixels removed by the erosion.  [copy] from T1 to T2 keeps 0 and 1. *)
Definition generic_sources (t1 t2 : ity) junk cs (se : strelt) (imIn : img) : option (list Z) :=
  let tmp := pw1 (fun v => px_inf v 1) imIn in
  option_bind (erode junk cs (tmax t1) se false tmp (new_img junk imIn)) (fun r =>
  Some (map (fun v => if wrap t2 v >? 0 then 1 else wrap t2 v) (pixs (sub_im t1 tmp (snd r))))).
Definition distGeneric (t1 t2 : ity) junk cs (fuel : nat) (se : strelt) (alias : bool) (imIn imOut : img) : option (option (Z * img)) :=
  if negb (same_size imIn imOut) then Some (Some (-98, imOut))
  else
    option_bind (generic_sources t1 t2 junk cs se imIn) (fun out =>
    let level := filter (fun i => znth 0 out i >? 0) (zseq (Z.of_nat (length out))) in
    fuel_bind (generic_levels (sz imIn) se alias t2 (pixs imIn) fuel 2 level out) (fun out => Some (Some (1, Img (sz imOut) out)))).

(** [DistanceFunctor::distance], 70-88, and the function [distance], 613-618. *)
Definition distance (t1 t2 : ity) junk cs (fuel : nat) (se : strelt) (alias : bool) (imIn imOut : img) : option (option (Z * img)) :=
  if se_size se >? 1 then distGeneric t1 t2 junk cs fuel se alias imIn imOut
  else match se_type se with
       | SE_Cross => option_map Some (distCross t2 imIn imOut)
       | SE_Cross3D => option_map Some (distCross3d t2 imIn imOut)
       | SE_Squ => option_map Some (distSquare junk t2 alias imIn imOut)
       | _ => distGeneric t1 t2 junk cs fuel se alias imIn imOut
       end.
