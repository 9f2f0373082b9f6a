(** Model of blobsBarycenter, Base/include/private/DBlobMeasures.hpp:209-228, over measBarycenterFunc,
    Base/include/private/DMeasures.hpp:658-685. *)
From Coq Require Import QArith.
From Verif Require Export Model.Measures Model.Moments.
Local Open Scope Z_scope.

(** [MeasureFunctionWithPos::processImage] on one blob, Base/include/private/DBaseMeasureOperations.hpp:224-241:
    the coordinates of the first pixel of each sequence come from its offset. *)
Definition process_blob_pos {S} (proc : S -> list Z -> Z -> Z -> Z -> option S) (s0 : S) (seqs : list (Z * Z)) (im : img) : option S :=
  fold_opt (fun s (r : Z * Z) =>
      option_bind (getCoordsFromOffset (sz im) (fst r)) (fun '(x, y, z) =>
      option_bind (subarray (pixs im) (fst r) (snd r)) (fun l => proc s l x y z))) seqs s0.

(** [measBarycenterFunc] on one blob, DMeasures.hpp:658-685; a [None] in the list is a division by 0. *)
Definition blob_bary (seqs : list (Z * Z)) (im : img) : option (list (option Q)) :=
  option_map (fun s =>
      let t := znth 0 s 3 in
      [ratio (znth 0 s 0) t; ratio (znth 0 s 1) t] ++ (if depth im >? 1 then [ratio (znth 0 s 2) t] else []))
    (process_blob_pos (proc_terms bary_terms) [0; 0; 0; 0] seqs im).

(** blobsBarycenter(imIn, blobs), DBlobMeasures.hpp:223-228. *)
Definition blobsBarycenter (im : img) (b : blobs) : option (zmap (list (option Q))) := process_blobs blob_bary b im.

(** blobsBarycenter(imLbl, onlyNonZero), DBlobMeasures.hpp:209-213: the labels are the weights. *)
Definition blobsBarycenter_labels (onlyNonZero : bool) (lab : img) : option (zmap (list (option Q))) :=
  option_bind (computeBlobs onlyNonZero lab) (blobsBarycenter lab).
