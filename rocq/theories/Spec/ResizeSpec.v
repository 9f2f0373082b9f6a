(** Specification vocabulary for resizing. *)
From Verif Require Export Spec.MomentsSpec Model.Resize.
Local Open Scope Z_scope.

(** The points [0 .. s-1] of the output are spread evenly over [0 .. w-1]: [x] is a nearest point to the position of [i]. *)
Definition nearest_to (w s i x : Z) : Prop := 0 <= x < w /\ 2 * Z.abs (x * (s - 1) - i * (w - 1)) <= s - 1.
(** [x] is at less than one pixel of the position of [i]. *)
Definition next_to (w s i x : Z) : Prop := 0 <= x < w /\ Z.abs (x * (s - 1) - i * (w - 1)) < s - 1.
(** Linear interpolation of [f] at [p / d], multiplied by [d]. *)
Definition lin (d p : Z) (f : Z -> Z) : Z := (d - p mod d) * f (p / d) + (p mod d) * f (p / d + 1).
(** [f] interpolated along the three axes, multiplied by the product of the denominators. *)
Definition lin2 (s : dims) (sx sy i j : Z) (f : Z -> Z -> Z) : Z :=
  lin (sx - 1) (i * (dw s - 1)) (fun x => lin (sy - 1) (j * (dh s - 1)) (fun y => f x y)).
Definition lin3 (s : dims) (sx sy sz' i j k : Z) (f : Z -> Z -> Z -> Z) : Z :=
  lin (sx - 1) (i * (dw s - 1)) (fun x => lin (sy - 1) (j * (dh s - 1)) (fun y => lin (sz' - 1) (k * (dd s - 1)) (fun z => f x y z))).
(** Nonempty images. *)
Definition solid_dims (s : dims) : Prop := 1 <= dw s /\ 1 <= dh s /\ 1 <= dd s.
Definition map_img (f : Z -> Z) (im : img) : img := Img (sz im) (map f (pixs im)).
(** Images whose pixels take exactly the values 0 and [c], nonzero. *)
Definition two_valued (im : img) : Prop :=
  exists c, c <> 0 /\ In 0 (pixs im) /\ In c (pixs im) /\ forall v, In v (pixs im) -> v = 0 \/ v = c.
