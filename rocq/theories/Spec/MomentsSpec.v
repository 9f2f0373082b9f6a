(** Specification vocabulary for moments and covariances: sums over the positions of an image. *)
From Verif Require Export Spec.ImageSpec Model.Moments.
Local Open Scope Z_scope.

(** All the positions, and the value at a position. *)
Definition grid (s : dims) : list (Z * Z * Z) :=
  flat_map (fun z => flat_map (fun y => map (fun x => (x, y, z)) (zseq (dw s))) (zseq (dh s))) (zseq (dd s)).
Definition value (im : img) (x y z : Z) : Z := znth 0 (pixs im) (voxel_offset (dw (sz im)) (dh (sz im)) x y z).

(** The sum of v * f (x, y, z), and the sum of its magnitudes. *)
Definition weighted (im : img) (f : Z -> Z -> Z -> Z) : Z := Zsum (map (fun '(x, y, z) => value im x y z * f x y z) (grid (sz im))).
Definition weight_bound (im : img) (f : Z -> Z -> Z -> Z) : Prop := Zsum (map (fun '(x, y, z) => Z.abs (value im x y z * f x y z)) (grid (sz im))) <= 2 ^ 53.

(** Sums of rationals. *)
Definition qsum (l : list Q) : Q := fold_right Qplus 0%Q l.
Definition qweighted (im : img) (f : Z -> Z -> Z -> Q) : Q := qsum (map (fun '(x, y, z) => (inject_Z (value im x y z) * f x y z)%Q) (grid (sz im))).

(** The positions that a displacement keeps in the image. *)
Definition kept (s : dims) (hx hy hz : Z) : list (Z * Z * Z) := filter (fun '(x, y, z) => (x + hx <? dw s) && (y + hy <? dh s) && (z + hz <? dd s)) (grid s).
(** The mean of the products of the pixels with the displaced pixels. *)
Definition covar (im1 im2 : img) (hx hy hz : Z) : Q :=
  (inject_Z (Zsum (map (fun '(x, y, z) => (value im1 x y z * value im2 (x + hx) (y + hy) (z + hz))%Z) (kept (sz im1) hx hy hz))) / inject_Z (Z.of_nat (length (kept (sz im1) hx hy hz))))%Q.

(** The summands of the barycentre and of the moments. *)
Definition one3 (x y z : Z) : Z := 1.
Definition px_x (x y z : Z) : Z := x.
Definition px_y (x y z : Z) : Z := y.
Definition px_z (x y z : Z) : Z := z.
Definition times (f g : Z -> Z -> Z -> Z) (x y z : Z) : Z := f x y z * g x y z.
(** All the sums of values times coordinates are exactly representable. *)
Definition exact_order1 (im : img) : Prop := weight_bound im one3 /\ weight_bound im px_x /\ weight_bound im px_y /\ weight_bound im px_z.
Definition exact_order2 (im : img) : Prop :=
  exact_order1 im /\ weight_bound im (times px_x px_y) /\ weight_bound im (times px_x px_z) /\ weight_bound im (times px_y px_z) /\
  weight_bound im (times px_x px_x) /\ weight_bound im (times px_y px_y) /\ weight_bound im (times px_z px_z).
(** The mean of a function of the position, and a second moment about the means. *)
Definition centre (im : img) (f : Z -> Z -> Z -> Z) : Q := (inject_Z (weighted im f) / inject_Z (weighted im one3))%Q.
Definition second (im : img) (f g : Z -> Z -> Z -> Z) : Q :=
  qweighted im (fun x y z => ((inject_Z (f x y z) - centre im f) * (inject_Z (g x y z) - centre im g))%Q).

(** A product fits in the type in which the code computes it. *)
Definition product_fits (t : ity) (p : Z) : Prop := match t with UINT32 => 0 <= p < 2 ^ 32 | _ => - 2 ^ 31 <= p < 2 ^ 31 end.

(** The moments, in the order of the documentation. *)
Definition moment_values (im : img) : list Z :=
  let w f := weighted im f in
  if dd (sz im) >? 1 then [w one3; w px_x; w px_y; w px_z; w (times px_x px_y); w (times px_x px_z); w (times px_y px_z); w (times px_x px_x); w (times px_y px_y); w (times px_z px_z)]
  else [w one3; w px_x; w px_y; w (times px_x px_y); w (times px_x px_x); w (times px_y px_y)].
Definition centred_values (im : img) : list Q :=
  let m := inject_Z (weighted im one3) in
  if dd (sz im) >? 1 then [m; 0; 0; 0; second im px_x px_y; second im px_x px_z; second im px_y px_z; second im px_x px_x; second im px_y px_y; second im px_z px_z]%Q
  else [m; 0; 0; second im px_x px_y; second im px_x px_x; second im px_y px_y]%Q.

(** The product at a position, for a displacement. *)
Definition cov_product (im1 im2 : img) (hx hy hz : Z) (p : Z * Z * Z) : Z := let '(x, y, z) := p in value im1 x y z * value im2 (x + hx) (y + hy) (z + hz).
(** The products fit, and their sum is exact. *)
Definition cov_exact (t : ity) (im1 im2 : img) (hx hy hz : Z) : Prop :=
  (forall x y z u v, pixel_is im1 x y z u -> pixel_is im2 (x + hx) (y + hy) (z + hz) v -> product_fits t (u * v)) /\
  Zsum (map (fun p => Z.abs (cov_product im1 im2 hx hy hz p)) (kept (sz im1) hx hy hz)) <= 2 ^ 53.
