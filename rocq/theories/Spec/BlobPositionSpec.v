(** Sums over the pixels of one label. *)
From Verif Require Export Spec.MomentsSpec.
Local Open Scope Z_scope.

(** The coordinates of the pixels of label [v]. *)
Definition label_grid (lab : img) (v : Z) : list (Z * Z * Z) := filter (fun '(x, y, z) => value lab x y z =? v) (grid (sz lab)).
(** The sum over these pixels of the value in [im] times f (x, y, z), and of f (x, y, z). *)
Definition weighted_on (im lab : img) (v : Z) (f : Z -> Z -> Z -> Z) : Z := Zsum (map (fun '(x, y, z) => value im x y z * f x y z) (label_grid lab v)).
Definition total_on (lab : img) (v : Z) (f : Z -> Z -> Z -> Z) : Z := Zsum (map (fun '(x, y, z) => f x y z) (label_grid lab v)).
