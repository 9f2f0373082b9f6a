(** Model of blobsMedianVal, Base/include/private/DBlobMeasures.hpp:193-197. *)
From Verif Require Export Model.Measures.
Local Open Scope Z_scope.

(** [measMedianValFunc] on a blob, Base/include/private/DMeasures.hpp:540-592. *)
Definition blob_median (t : ity) (seqs : list (Z * Z)) (im : img) : option Z :=
  option_map (fun s : zmap Z * Z => wrap t (median_scan (fst s) 0 (snd s)))
    (process_blob (fun s l => Some (fold_left median_step l s)) ([], 0) seqs im).
