(** Model of blobsBoundBox, Base/include/private/DBlobMeasures.hpp:238-261, over measBoundBoxFunc,
    Base/include/private/DMeasures.hpp:709-756.  The functor does not read the pixels; here a run outside
    the image is an error, although the code only forms the pointer. *)
From Verif Require Export Model.BlobPositions.
Local Open Scope Z_scope.

(** [measBoundBoxFunc] on one blob. *)
Definition blob_box (seqs : list (Z * Z)) (im : img) : option (list Z) :=
  let im3d := depth im >? 1 in
  option_map (fun s =>
      map (fun v => v mod 2 ^ 32)
        ([xMin s; yMin s] ++ (if im3d then [zMin s] else []) ++ [xMax s; yMax s] ++ (if im3d then [zMax s] else [])))
    (process_blob_pos (fun s l x y z => Some (bb_step im3d s l x y z))
       (BB (width im) 0 (height im) 0 (depth im) 0) seqs im).

(** blobsBoundBox(imIn, blobs), DBlobMeasures.hpp:256-261. *)
Definition blobsBoundBox (im : img) (b : blobs) : option (zmap (list Z)) := process_blobs blob_box b im.

(** blobsBoundBox(imLbl, onlyNonZero), DBlobMeasures.hpp:238-243. *)
Definition blobsBoundBox_labels (onlyNonZero : bool) (lab : img) : option (zmap (list Z)) :=
  option_bind (computeBlobs onlyNonZero lab) (blobsBoundBox lab).
