(** Model of blobsMinVal, blobsMaxVal, blobsValueList and blobsModeVal, Base/include/private/DBlobMeasures.hpp:105-184.
    [blob_max] is in [LabelMeasures]. *)
From Verif Require Export Model.LabelMeasures.
Local Open Scope Z_scope.

(** [measMinValFunc] on a blob, Base/include/private/DMeasures.hpp:222-234; blobsMinVal: DBlobMeasures.hpp:105-109. *)
Definition blob_min (t : ity) (seqs : list (Z * Z)) (im : img) : option Z :=
  process_blob (fun s l => Some (fold_left (fun s v => if v <? s then v else s) l s)) (tmax t) seqs im.

(** [valueListFunc] on a blob, DMeasures.hpp:424-446; blobsValueList: DBlobMeasures.hpp:164-169. *)
Definition blob_values (seqs : list (Z * Z)) (im : img) : option (list Z) :=
  option_map mkeys (process_blob (fun (s : zmap unit) l => Some (fold_left (fun s v => minsert v tt s) l s)) [] seqs im).

(** [measModeValFunc] on a blob, DMeasures.hpp:475-509; blobsModeVal: DBlobMeasures.hpp:180-184.  [None] inside: the
    value returned was never assigned. *)
Definition blob_mode (seqs : list (Z * Z)) (im : img) : option (option Z) :=
  option_map snd
    (process_blob (fun (s : modest * option Z) l => let s' := fold_left mode_step l (fst s) in Some (s', Some (snd s')))
      (([], 0, 0), None) seqs im).
