(** The part of an image under a label. *)
From Verif Require Export Spec.BlobPositionSpec.
Local Open Scope Z_scope.

(** [im] where [lab] is [v], and 0 elsewhere. *)
Definition under_label (im lab : img) (v : Z) : img := Img (sz im) (map (fun p => if snd p =? v then fst p else 0) (combine (pixs im) (pixs lab))).
