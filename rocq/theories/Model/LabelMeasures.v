(** Labels replaced by the greatest value or the mean of the component: Morpho/include/private/DMorphoLabel.hpp:779-869.

    Images are allocated.  The sums are [double]s, exact within 2^53 ([None] beyond); the mean is the exact quotient.  As the
    sum and the number of pixels are at most 2^53, the rounding of the quotient does not reach the next integer, so that it has
    no effect on the value truncated at the end.  The sum of the squares and the deviation (DMeasures.hpp:179, 186-187) are not
    used by labelWithMean and not modelled. *)
From Verif Require Export Model.Label Model.Moments.
Local Open Scope Z_scope.

(** [measMaxValFunc] on a blob, Base/include/private/DMeasures.hpp:297-309; blobsMaxVal: DBlobMeasures.hpp:119-123. *)
Definition blob_max (t : ity) (seqs : list (Z * Z)) (im : img) : option Z :=
  process_blob (fun s l => Some (fold_left (fun s v => if v >? s then v else s) l s)) (tmin t) seqs im.

(** [measMeanValFunc] on a blob: the number of pixels, their sum (DMeasures.hpp:176-180), and their quotient (185);
    blobsMeanVal: DBlobMeasures.hpp:149-154. *)
Definition mean_step (s : Z * Z) (v : Z) : option (Z * Z) :=
  option_bind (dadd (fst s) 1) (fun n => option_bind (dadd (snd s) v) (fun a => Some (n, a))).
Definition blob_mean (seqs : list (Z * Z)) (im : img) : option Q :=
  option_map (fun s => if fst s =? 0 then 0%Q else (inject_Z (snd s) / inject_Z (fst s))%Q)
    (process_blob (fun s l => fold_opt mean_step l s) (0, 0) seqs im).

(** The call of applyLookup in labelWithMaxima (805): the map goes from T2 to T1, so the version for UINT8 and UINT16
    (DImageArith.hpp:1996-2023) is selected when both types are UINT8 or both UINT16, the general one otherwise. *)
Definition maxima_lookup (t1 t2 : ity) (m : zmap Z) (imLabel imOut : img) : option (Z * img) :=
  match t1, t2 with
  | UINT8, UINT8 | UINT16, UINT16 => applyLookup_small t2 m 0 imLabel imOut
  | _, _ => applyLookup_gen t2 m 0 imLabel imOut
  end.

(** [labelWithMaxima], 779-808 (the second labelling repeats the first; 801: a message). *)
Definition labelWithMaxima (fuel : nat) (t1 t2 : ity) junk (default_se se : strelt) (imIn imLabelIn imOut : img) : option (option (Z * img)) :=
  if negb (same_size imIn imOut) then Some (Some (to_size (-98), imOut)) else
  fuel_bind (label fuel t2 default_se se false imLabelIn (new_img junk imIn)) (fun '(n, _, imLabel) =>
  if n =? 0 then Some (Some (to_size (-100), imOut)) else
  option_bind (computeBlobs true imLabel) (fun b =>
  option_bind (process_blobs (blob_max t1) b imIn) (fun markers =>
  match map_max markers with
  | None => Some (Some (to_size (-100), imOut))
  | Some maxV =>
      if negb (maxV <? tmax t2) then Some (Some (0, imOut)) else
      option_bind (maxima_lookup t1 t2 markers imLabel imOut) (fun r =>
      Some (Some (if fst r =? 1 then 1 else to_size (-100), snd r)))
  end))).

(** The largest mean of a map, as in std::max_element. *)
Definition Qless (a b : Q) : bool := negb (Qle_bool b a).
Definition qmap_max (m : zmap Q) : option Q :=
  match m with [] => None | e :: r => Some (fold_left (fun m (p : Z * Q) => if Qless m (snd p) then snd p else m) r (snd e)) end.

(** Conversion of a [double] to an integer type: towards zero. *)
Definition Qtrunc (q : Q) : Z := Z.quot (Qnum q) (QDen q).

(** applyLookup with a map of [double]s, general version, DImageArith.hpp:1949-1979. *)
Definition applyLookup_mean (t1 : ity) (m : zmap Q) (imLabel imOut : img) : option (Z * img) :=
  match qmap_max m with
  | None => Some (-100, imOut)
  | Some mx =>
      if Qless (inject_Z (tmax t1)) mx then Some (-100, imOut)
      else option_map (fun px => (1, Img (sz imOut) px))
        (fold_opt (fun px i => option_bind (rd (pixs imLabel) i) (fun v =>
            wr px i (match mfind v m with Some q => wrap t1 (Qtrunc q) | None => 0 end)))
          (zseq (pixelCount (sz imLabel))) (pixs imOut))
  end.

(** [labelWithMean], 826-869; T2 is the type of imLabelIn, T1 that of imIn and of imOut. *)
Definition labelWithMean (fuel : nat) (t1 t2 : ity) junk (default_se se : strelt) (imIn imLabelIn imOut : img) : option (option (Z * img)) :=
  if negb (same_size imIn imOut) then Some (Some (to_size (-98), imOut)) else
  fuel_bind (label fuel t2 default_se se false imLabelIn (new_img junk imIn)) (fun '(n, _, imLabel) =>
  if n =? 0 then Some (Some (to_size (-100), imOut)) else
  option_bind (computeBlobs true imLabel) (fun b =>
  option_bind (process_blobs blob_mean b imIn) (fun markers =>
  match qmap_max markers with
  | None => Some (Some (to_size (-100), imOut))
  | Some maxV =>
      if negb (Qless maxV (inject_Z (tmax t2))) then Some (Some (0, imOut)) else
      option_bind (applyLookup_mean t1 markers imLabel imOut) (fun r =>
      Some (Some (if fst r =? 1 then 1 else to_size (-100), snd r)))
  end))).
