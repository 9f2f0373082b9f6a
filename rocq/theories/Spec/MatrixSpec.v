(** Specification vocabulary for products of matrices. *)
From Verif Require Export Spec.MomentsSpec Spec.TransformSpec Model.Matrix.
Local Open Scope Z_scope.

(** The entry of column [x] and row [y] of the product. *)
Definition entry (a b : img) (x y : Z) : Z := Zsum (map (fun i => value a i y 0 * value b x i 0) (zseq (dw (sz a)))).
(** [o] is the product of [a] and [b] in the arithmetic of [t]. *)
Definition product_of (t : ity) (a b o : img) : Prop :=
  wf_img o /\ sz o = Dims (dw (sz b)) (dh (sz a)) 1 /\
  forall x y, 0 <= x < dw (sz b) -> 0 <= y < dh (sz a) -> pixel_is o x y 0 (wrap t (entry a b x y)).
(** The images are matrices that can be multiplied. *)
Definition composable (a b : img) : Prop := wf_img a /\ wf_img b /\ dd (sz a) = 1 /\ dd (sz b) = 1 /\ dw (sz a) = dh (sz b).
(** The identity matrix. *)
Definition identity (n : Z) (im : img) : Prop :=
  wf_img im /\ sz im = Dims n n 1 /\ forall x y, 0 <= x < n -> 0 <= y < n -> value im x y 0 = if x =? y then 1 else 0.
