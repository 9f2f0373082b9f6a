(** Specification vocabulary for contrast and automatic thresholds. *)
From Verif Require Export Spec.ImageSpec Model.Contrast.
Local Open Scope Z_scope.

(** [w] is the quotient e/d (d > 0) rounded to the nearest integer, halves away from 0, then bounded by the type. *)
Definition rounded (t : ity) (e d w : Z) : Prop :=
  (tmax t * d <= e -> w = tmax t) /\ (e <= tmin t * d -> w = tmin t) /\
  (tmin t * d <= e <= tmax t * d -> (0 <= e -> - d < 2 * (w * d - e) <= d) /\ (e < 0 -> - d <= 2 * (w * d - e) < d)).

(** [R] is the linear transformation of [im] that takes a to a' and b to b'. *)
Definition stretched (t2 : ity) (a b a' b' : Z) (im R : img) : Prop :=
  sz R = sz im /\ wf_img R /\
  forall x y z v w, pixel_is im x y z v -> pixel_is R x y z w -> rounded t2 (a' * (b - a) + (v - a) * (b' - a')) (b - a) w.

(** The numbers of pixels at most (at least, exactly) [v]. *)
Definition n_le (im : img) (v : Z) : Z := Z.of_nat (length (filter (fun u => u <=? v) (pixs im))).
Definition n_ge (im : img) (v : Z) : Z := Z.of_nat (length (filter (fun u => v <=? u) (pixs im))).
Definition n_eq (im : img) (v : Z) : Z := Z.of_nat (length (filter (fun u => u =? v) (pixs im))).

(** The least and the greatest values. *)
Definition spans (im : img) (lo hi : Z) : Prop := In lo (pixs im) /\ In hi (pixs im) /\ forall v, In v (pixs im) -> lo <= v <= hi.

(** ** Otsu *)
Definition avg (l : list Z) : Q := (inject_Z (Zsum l) / inject_Z (Z.of_nat (length l)))%Q.
Definition spread_to (m : Q) (l : list Z) : Q := (inject_Z (Z.of_nat (length l)) * ((m - avg l) * (m - avg l)))%Q.

(** The variance between the values at most [k] and the others. *)
Definition separation (l : list Z) (k : Z) : Q :=
  (spread_to (avg l) (filter (fun v => v <=? k) l) + spread_to (avg l) (filter (fun v => negb (v <=? k)) l))%Q.

(** [k] is the least of the best thresholds. *)
Definition best_threshold (l : list Z) (k : Z) : Prop :=
  0 <= k /\ (forall j, 0 <= j -> (separation l j <= separation l k)%Q) /\ (forall j, 0 <= j < k -> (separation l j < separation l k)%Q).
