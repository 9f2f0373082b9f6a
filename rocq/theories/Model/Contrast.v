(** Contrast and automatic thresholds: Base/include/private/DImageHistogram.hpp:353-871, DLineHistogram.hpp:57-81.

    The [double]s are exact rationals: their rounding is not modelled, nor the pixels of float images.  The images of
    the pixelwise functions are computed pixel by pixel; the executions of such functions are in Model/Pixel.v.
    [None] stands for undefined behaviour: an access outside an array, the conversion of a NaN to an integer. *)
From Coq Require Export QArith Qround.
From Verif Require Export Model.Measures Model.Pixel.
Local Open Scope Z_scope.

(** [round] of the C library: to the nearest, halves away from 0. *)
Definition qround (q : Q) : Z := if Qle_bool 0 q then Qfloor (q + (1 # 2)) else - Qfloor (- q + (1 # 2)).

(** The difference of two pixels, in [int] or in UINT32. *)
Definition promoted_sub (t : ity) (a b : Z) : Z := match t with UINT32 => (a - b) mod 2 ^ 32 | _ => a - b end.

(** One pixel of [stretchHistLine], DLineHistogram.hpp:57-81, with coeff = num/den.  When den = 0 the coefficient is
    infinite or a NaN: its product with 0, and all the products when num = 0, are NaN. *)
Definition px_stretch (t2 : ity) (inOrig outOrig num den v : Z) : option Z :=
  if den =? 0 then
    if (v =? inOrig) || (num =? 0) then None
    else Some (if 0 <? (v - inOrig) * num then tmax t2 else tmin t2)
  else
    let newVal := (inject_Z outOrig + inject_Z (v - inOrig) * (inject_Z num / inject_Z den))%Q in
    let newVal := if negb (Qle_bool newVal (inject_Z (tmax t2))) then inject_Z (tmax t2)
                  else if negb (Qle_bool (inject_Z (tmin t2)) newVal) then inject_Z (tmin t2) else newVal in
    Some (wrap t2 (qround newVal)).

(** [stretchHist], DImageHistogram.hpp:373-388; from the range of the image, 411-426; to the range of the type, 448-452. *)
Definition stretchHist (t1 t2 : ity) (inMin inMax outMin outMax : Z) (im out : img) : option (Z * img) :=
  if negb ((dw (sz im) =? dw (sz out)) && (dh (sz im) =? dh (sz out)) && (dd (sz im) =? dd (sz out))) then Some (-98, out) else
  option_bind (all_some (map (px_stretch t2 inMin outMin (promoted_sub t2 outMax outMin) (promoted_sub t1 inMax inMin)) (pixs im)))
    (fun l => Some (1, Img (sz out) l)).
Definition stretchHist_range (t1 t2 : ity) (outMin outMax : Z) (im out : img) : option (Z * img) :=
  option_bind (rangeVal t1 false im) (fun r => stretchHist t1 t2 (fst r) (snd r) outMin outMax im out).
Definition stretchHist_full (t1 t2 : ity) (im out : img) : option (Z * img) := stretchHist_range t1 t2 (tmin t2) (tmax t2) im out.

(** The two loops of [histogramRange], 496-508 and 511-523, on the values [is] of the index: [th] is the threshold. *)
Fixpoint range_loop (t : ity) (cumulative : bool) (h : list Z) (satVol : Q) (is : list Z) (curVol th : Z) : option Z :=
  match is with
  | [] => Some th
  | i :: is =>
      option_bind (rd h i) (fun c =>
      let curVol := if cumulative then curVol + c else c in
      if negb (Qle_bool (inject_Z curVol) satVol) then Some th
      else range_loop t cumulative h satVol is curVol (wrap t i))
  end.

(** [histogramRange], 469-525.  The indices are of type size_t, not moved by the least value of the type. *)
Definition histogramRange (t : ity) (im : img) (ignorePercent : Q) (cumulative : bool) : option (Z * Z) :=
  option_bind (histogram_array t im) (fun h =>
  let imVol := if cumulative then pixelCount (sz im) else fold_left Z.max h 0 in
  option_bind (rangeVal t false im) (fun r =>
  let satVol := (inject_Z imVol * ignorePercent / inject_Z 100)%Q in
  let a := fst r mod 2 ^ 64 in
  let b := snd r mod 2 ^ 64 in
  option_bind (range_loop t cumulative h satVol (map (fun k => a + k) (zseq (b - a))) 0 (fst r)) (fun left =>
  option_bind (range_loop t cumulative h satVol (map (fun k => b - k) (zseq (b - a))) 0 (snd r)) (fun right =>
  Some (left, right))))).

(** [enhanceContrast], 535-546: the result of stretchHist is ignored. *)
Definition enhanceContrast (t : ity) (saturation : Q) (im out : img) : option (Z * img) :=
  option_bind (histogramRange t im saturation true) (fun r =>
  option_bind (stretchHist t t (fst r) (snd r) (tmin t) (tmax t) im out) (fun o => Some (1, snd o))).

(** ** Otsu *)

(** The variables of the search: thresholdIndexes, classMean, classFrequency and the map, in which [hist[k]] creates the
    missing keys. *)
Record otsu : Type := Otsu { o_idx : list Z; o_mean : list Q; o_freq : list Z; o_hist : zmap Z }.

(** [hist[k]]: the map afterwards; the value is [mget 0 k]. *)
Definition touch (k : Z) (h : zmap Z) : zmap Z := minsert k 0 h.

(** The threshold to increment, 569-573, from the last: [None] when there is none. *)
Fixpoint to_increment (m n : Z) (idx : list Z) (j : nat) : option Z :=
  match j with
  | O => None
  | S j' => if znth 0 idx (Z.of_nat j') <? (n - 2 - (m - 1 - Z.of_nat j')) mod 2 ^ 64 then Some (Z.of_nat j') else to_increment m n idx j'
  end.

(** The higher thresholds, 595-603. *)
Definition next_threshold (t : ity) (s : otsu) (k : Z) : otsu :=
  let i := znth 0 (o_idx s) (k - 1) + 1 in
  let f := mget 0 (wrap t i) (o_hist s) in
  Otsu (upd (o_idx s) k i) (upd (o_mean s) k (if f >? 0 then inject_Z i else 0%Q)) (upd (o_freq s) k f) (touch (wrap t i) (o_hist s)).

(** The highest class, 606-620: from the sums of the others. *)
Definition last_class (m total : Z) (globalMean : Q) (mean : list Q) (freq : list Z) : Q * Z :=
  let f := fold_left (fun a k => a - znth 0 freq k) (zseq m) total in
  let s := fold_left (fun a k => a - znth 0 mean k * inject_Z (znth 0%Z freq k))%Q (zseq m) (globalMean * inject_Z total)%Q in
  ((if f >? 0 then (s / inject_Z f)%Q else 0%Q), f).

(** [IncrementThresholds], 550-634, for [m] thresholds: [None] when it answers false.  With [m] = 0 the loop of 569 does
    nothing and the answer is true. *)
Definition incrementThresholds (t : ity) (m total : Z) (globalMean : Q) (s : otsu) : option otsu :=
  if m <=? 0 then Some s else
  match to_increment m (Z.of_nat (length (o_hist s))) (o_idx s) (Z.to_nat m) with
  | None => None
  | Some j =>
      let i := znth 0 (o_idx s) j + 1 in
      let c := mget 0 (wrap t i) (o_hist s) in
      let freqOld := znth 0 (o_freq s) j in
      let f := freqOld + c in
      let mn := if f >? 0 then ((znth 0%Q (o_mean s) j * inject_Z freqOld + inject_Z i * inject_Z c) / inject_Z f)%Q else 0%Q in
      let s := Otsu (upd (o_idx s) j i) (upd (o_mean s) j mn) (upd (o_freq s) j f) (touch (wrap t i) (o_hist s)) in
      let s := fold_left (next_threshold t) (map (fun k => j + 1 + k) (zseq (m - 1 - j))) s in
      let l := last_class m total globalMean (o_mean s) (o_freq s) in
      Some (Otsu (o_idx s) (upd (o_mean s) m (fst l)) (upd (o_freq s) m (snd l)) (o_hist s))
  end.

(** The variance between the classes, 700-703 and 711-715. *)
Definition varBetween (globalMean : Q) (mean : list Q) (freq : list Z) (m : Z) : Q :=
  fold_left (fun a j => a + inject_Z (znth 0%Z freq j) * (globalMean - znth 0 mean j) * (globalMean - znth 0 mean j))%Q (zseq (m + 1)) 0%Q.

(** The loop, 707-721; [None]: out of fuel. *)
Fixpoint otsu_loop (fuel : nat) (t : ity) (m total : Z) (globalMean : Q) (s : otsu) (best : list Z) (maxVar : Q) : option (list Z * Q) :=
  match fuel with
  | O => None
  | S n =>
      match incrementThresholds t m total globalMean s with
      | None => Some (best, maxVar)
      | Some s =>
          let v := varBetween globalMean (o_mean s) (o_freq s) m in
          if negb (Qle_bool v maxVar) then otsu_loop n t m total globalMean s (o_idx s) v
          else otsu_loop n t m total globalMean s best maxVar
      end
  end.

(** The start, 652-698. *)
Definition otsu_start (t : ity) (m : Z) (h : zmap Z) : Z * Q * otsu :=
  let total := fold_left (fun a (e : Z * Z) => a + snd e) h 0 in
  let globalMean := (fold_left (fun a (e : Z * Z) => a + inject_Z (fst e) * inject_Z (snd e)) h 0 / inject_Z total)%Q in
  let idx := zseq m in
  let freq := map (fun j => mget 0 (wrap t j) h) idx in
  let h := fold_left (fun h j => touch (wrap t j) h) idx h in
  let mean := map (fun j => if mget 0 (wrap t j) h >? 0 then inject_Z j else 0%Q) idx in
  let l := last_class m total globalMean (mean ++ [0%Q]) (freq ++ [0]) in
  (total, globalMean, Otsu idx (mean ++ [fst l]) (freq ++ [snd l]) h).

(** [otsuThresholdValues], 647-734: the thresholds, then the variance converted to a pixel.  This conversion is undefined
    when the variance exceeds the type: [conv] is what the machine makes of it. *)
Definition otsuThresholdValues (fuel : nat) (t : ity) (conv : Q -> Z) (m : Z) (h : zmap Z) : option (list Z) :=
  let '(total, globalMean, s) := otsu_start t m h in
  option_bind (otsu_loop fuel t m total globalMean s (o_idx s) (varBetween globalMean (o_mean s) (o_freq s) m)) (fun r =>
  Some (map (wrap t) (fst r) ++ [conv (snd r)])).

(** On an image, 745-749, with a mask, 762-767.  [Some None]: out of fuel. *)
Definition otsuValues_image (fuel : nat) (t : ity) (conv : Q -> Z) (m : Z) (im : img) (mask : option img) : option (option (list Z)) :=
  option_bind (histogram_map t im mask false) (fun h => Some (otsuThresholdValues fuel t conv m h)).

(** [otsuThreshold] with one threshold, 827-835, and with a mask, 855-865 (any number of thresholds, the first is used):
    [threshold(imIn, tVals[0], imOut)], 326-329. *)
Definition otsuThreshold (fuel : nat) (t t2 : ity) (conv : Q -> Z) (m : Z) (im : img) (mask : option img) : option (option (Z * img)) :=
  option_bind (otsuValues_image fuel t conv m im mask) (fun o =>
  match o with
  | None => Some None
  | Some l => option_bind (rd l 0) (fun k => Some (Some (k, Img (sz im) (map (px_thresh k (tmax t) (tmax t2) (tmin t2)) (pixs im)))))
  end).

(** The table of [otsuThreshold] with several thresholds, 792-805: [lut[i] = lbl] for [i] below each value in turn, then
    to the end of the type; [i] starts at the least value. *)
Definition fill_lut (a b lbl : Z) (lut : zmap Z) : zmap Z := fold_left (fun lut k => mput (a + k) lbl lut) (zseq (b - a)) lut.
Definition otsu_lut (t t2 : ity) (tVals : list Z) : zmap Z :=
  let '(i, lbl, lut) := fold_left (fun '(i, lbl, lut) v => (Z.max i v, wrap t2 (lbl + 1), fill_lut i v lbl lut)) tVals (tmin t, 0, []) in
  if i >? tmin t then fill_lut i (tmax t + 1) lbl lut else lut.

(** [otsuThreshold] with several thresholds, 785-810, for UINT8 and UINT16. *)
Definition otsuThreshold_classes (fuel : nat) (t t2 : ity) (conv : Q -> Z) (m : Z) (im out : img) : option (option (list Z * (Z * img))) :=
  option_bind (otsuValues_image fuel t conv m im None) (fun o =>
  match o with
  | None => Some None
  | Some l => option_bind (applyLookup_small t (otsu_lut t t2 l) 0 im out) (fun r => Some (Some (l, r)))
  end).

(** [threshold(imIn, imOut)], 344-351: the code, and the image. *)
Definition threshold_otsu (fuel : nat) (t t2 : ity) (conv : Q -> Z) (im : img) : option (option (Z * img)) :=
  option_bind (otsuThreshold fuel t t2 conv 1 im None) (fun o =>
  match o with None => Some None | Some (k, r) => Some (Some ((if k =? tmin t then -100 else 1), r)) end).
