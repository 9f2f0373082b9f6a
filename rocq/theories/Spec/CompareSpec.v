(** Specification vocabulary for the comparison of two images. *)
From Verif Require Export Spec.LabelSpec Spec.MorphSpec Spec.ImageSpec Model.Compare.
Local Open Scope Z_scope.

(** The number of positions where the pair of values satisfies [p]. *)
Definition count_where (p : Z -> Z -> bool) (gt im : img) : Z :=
  Z.of_nat (length (filter (fun '(u, v) => p u v) (combine (pixs gt) (pixs im)))).

(** True and false positives and negatives, DImageCompare.hpp:56-79. *)
Definition TP := count_where (fun u v => negb (u =? 0) && negb (v =? 0)).
Definition FP := count_where (fun u v => (u =? 0) && negb (v =? 0)).
Definition FN := count_where (fun u v => negb (u =? 0) && (v =? 0)).
Definition TN := count_where (fun u v => (u =? 0) && (v =? 0)).

(** Two images to compare: unsigned pixels, the same size, counts that a [double] holds. *)
Definition cmp_call (t : ity) (gt im : img) : Prop :=
  is_signed t = false /\ wf_img gt /\ wf_img im /\ sz gt = sz im /\ typed_img t gt /\ typed_img t im /\ Z.of_nat (length (pixs gt)) <= 2 ^ 53.
Definition binary (im : img) : Prop := exists c, two_valued im c.

(** The quotient of two counts, both moved by one half. *)
Definition share (a b : Z) : Q := (inject_Z a + (1 # 2)) / (inject_Z b + (1 # 2)).

(** The pixels of the object that have a neighbour out of it. *)
Definition edge_of (im : img) (p : Z * Z * Z) : Prop :=
  let '(x, y, z) := p in exists v x' y' z', pixel_is im x y z v /\ v <> 0 /\ sees (SquSE 1) x y z x' y' z' /\ pixel_is im x' y' z' 0.

Definition sq_dist (p q : Z * Z * Z) : Z :=
  let '(x, y, z) := p in let '(x', y', z') := q in (x - x') * (x - x') + (y - y') * (y - y') + (z - z') * (z - z').

(** [h] is the square of the Hausdorff distance between the sets [A] and [B]. *)
Definition hausdorff_sq (A B : Z * Z * Z -> Prop) (h : Z) : Prop :=
  (forall p, A p -> exists q, B q /\ sq_dist p q <= h) /\ (forall q, B q -> exists p, A p /\ sq_dist p q <= h) /\
  ((exists p, A p /\ forall q, B q -> h <= sq_dist p q) \/ (exists q, B q /\ forall p, A p -> h <= sq_dist p q)).
