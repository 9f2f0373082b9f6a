(** Model of blobsMoments, Base/include/private/DBlobMeasures.hpp:279-326, over measMomentsFunc and centerMoments,
    Base/include/private/DMeasures.hpp:781-872. *)
From Coq Require Import QArith.
From Verif Require Export Model.BlobPositions.
Local Open Scope Z_scope.

(** [measMomentsFunc] on one blob, DMeasures.hpp:781-829. *)
Definition blob_moments (seqs : list (Z * Z)) (im : img) : option (list Z) :=
  let im3d := depth im >? 1 in
  option_map (fun s =>
      let m k := znth 0 s k in
      [m 0; m 1; m 2] ++ (if im3d then [m 6] else []) ++ [m 3] ++ (if im3d then [m 7; m 8] else []) ++ [m 4; m 5] ++ (if im3d then [m 9] else []))
    (process_blob_pos (proc_terms (moment_terms im3d)) (repeat 0 10) seqs im).

(** blobsMoments(imIn, blobs, central), DBlobMeasures.hpp:279-294. *)
Definition blobsMoments (im : img) (b : blobs) (central : bool) : option (zmap (list Q)) :=
  option_map (map (fun e : Z * list Z => (fst e, if central then centerMoments (snd e) else map inject_Z (snd e))))
    (process_blobs blob_moments b im).

(** blobsMoments(imLbl, onlyNonZero, central), DBlobMeasures.hpp:312-326. *)
Definition blobsMoments_labels (onlyNonZero central : bool) (lab : img) : option (zmap (list Q)) :=
  option_bind (computeBlobs onlyNonZero lab) (fun b => blobsMoments lab b central).
