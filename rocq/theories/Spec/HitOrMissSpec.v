(** Specification vocabulary for hit-or-miss transforms. *)
From Verif Require Export Spec.GeodesicSpec Model.HitOrMiss.

(** The hit-or-miss transform of [im] by the composite element [c]: the minimum of the erosion of [im] by the foreground
    element and of the erosion of its negative by the background element, with the border value [bv]. *)
Definition hit_by (t : ity) (bv : Z) (c : compse) (im H : img) : Prop :=
  exists N A B, negative t im N /\ passes (Z.to_nat (se_size (snd c))) (eroded (snd c) bv) N A /\
    passes (Z.to_nat (se_size (fst c))) (eroded (fst c) bv) im B /\ pointwise2 Z.min B A H.

(** Images with two values. *)
Definition binary (t : ity) (im : img) : Prop := forall x y z v, pixel_is im x y z v -> v = tmin t \/ v = tmax t.

(** At (x,y,z) the places of the foreground element are pixels of the foreground, the places of the background element
    pixels of the background. *)
Definition matches (t : ity) (c : compse) (im : img) (x y z : Z) : Prop :=
  (forall x' y' z', sees (fst c) x' y' z' x y z -> pixel_is im x' y' z' (tmax t)) /\
  (forall x' y' z', sees (snd c) x' y' z' x y z -> pixel_is im x' y' z' (tmin t)).

(** Images that hold the foreground value where [P] holds, the background value elsewhere. *)
Definition drawn (t : ity) (P : Z -> Z -> Z -> Prop) (s : dims) (im : img) : Prop :=
  sz im = s /\ wf_img im /\ forall x y z, inside s x y z -> (P x y z /\ pixel_is im x y z (tmax t)) \/ (~ P x y z /\ pixel_is im x y z (tmin t)).

(** The thinning and the thickening by [c]: the hits are removed, or added. *)
Definition thinned (t : ity) (c : compse) (im out : img) : Prop :=
  exists H, hit_by t (tmin t) c im H /\ pointwise2 (fun v h => Z.min v (tmin t + tmax t - h)) im H out.
Definition thickened (t : ity) (c : compse) (im out : img) : Prop :=
  exists H, hit_by t (tmin t) c im H /\ pointwise2 Z.max im H out.

(** By the elements of a list, one after the other. *)
Fixpoint chained (R : compse -> img -> img -> Prop) (l : list compse) (im out : img) : Prop :=
  match l with [] => out = im | c :: l' => exists m, R c im m /\ chained R l' m out end.

(** Elements usable on images of size [s]. *)
Definition good_comp (s : dims) (c : compse) : Prop := good_se (fst c) s /\ good_se (snd c) s.

(** A call: images of the same size and of type [t], usable elements. *)
Definition hom_call (t : ity) (l : list compse) (im out : img) : Prop :=
  good_img im /\ typed_img t im /\ wf_img out /\ sz out = sz im /\ Forall (good_comp (sz im)) l.

(** The volumes of the images of size [s] are exact in a [double]. *)
Definition exact_volumes (t : ity) (s : dims) : Prop := (tmax t - tmin t) * (dw s * dh s * dd s) <= 2 ^ 53.

(** Turns enough for the volume to stop changing. *)
Definition vol_enough (t : ity) (s : dims) (fuel : nat) : Prop := (tmax t - tmin t) * (dw s * dh s * dd s) < Z.of_nat fuel.

(** The highest of the type minimum and of the hits of the elements of the list. *)
Definition hits_any (t : ity) (bv : Z) (l : list compse) (im out : img) : Prop :=
  sz out = sz im /\ wf_img out /\ forall x y z v, pixel_is out x y z v ->
    greatest (fun u => u = tmin t \/ exists c H, In c l /\ hit_by t bv c im H /\ pixel_is H x y z u) v.

(** ** Rotations *)

(** One step around the centre, counterclockwise when y goes down: 45 degrees on the square grid, 60 degrees on the
    hexagonal one.  On the hexagonal grid the lines of odd height are half a pixel to the right: in half pixels the point is
    (2x + y mod 2, y), and a rotation of 60 degrees is (X, Y) -> ((X + 3Y) / 2, (Y - X) / 2), heights being multiples of
    the square root of 3. *)
Definition turn (odd : bool) (p : point) : point :=
  let x := px_ p in let y := py_ p in
  if odd then
    let X := 2 * x + y mod 2 in
    let X' := (X + 3 * y) / 2 in let Y' := (y - X) / 2 in ((X' - Y' mod 2) / 2, Y', 0)
  else (Z.sgn (x + y), Z.sgn (y - x), 0).

(** The points the rotations know: the centre and its neighbours in the plane. *)
Definition near (odd : bool) (p : point) : Prop :=
  pz_ p = 0 /\ -1 <= py_ p <= 1 /\ (if odd then -1 <= px_ p <= (if py_ p =? 0 then 1 else 0) else -1 <= px_ p <= 1).
Definition turned (k : nat) (se : strelt) : strelt := SE (se_odd se) (se_type se) (se_size se) (map (Nat.iter k (turn (se_odd se))) (se_points se)).

(** ** Skeleton *)

(** The [i]-th erosion, and the residue of the opening. *)
Definition shrunk (t : ity) (se : strelt) (i : nat) (im E : img) : Prop := passes i (passes (Z.to_nat (se_size se)) (eroded se (tmax t))) im E.
Definition residue (t : ity) (se : strelt) (E D : img) : Prop :=
  exists A B, passes (Z.to_nat (se_size se)) (eroded se (tmax t)) E A /\ passes (Z.to_nat (se_size se)) (dilated se (tmin t)) A B /\ pointwise2 Z.sub E B D.

(** The value at (x,y,z) of the residue of the [i]-th erosion. *)
Definition residue_at (t : ity) (se : strelt) (im : img) (i : nat) (x y z u : Z) : Prop :=
  exists E D, shrunk t se i im E /\ residue t se E D /\ pixel_is D x y z u.

(** The skeleton (Lantuejoul's formula): the highest residue, of the image itself and of all its erosions. *)
Definition skeleton_of (t : ity) (se : strelt) (im out : img) : Prop :=
  sz out = sz im /\ wf_img out /\ forall x y z v, pixel_is out x y z v -> greatest (fun u => exists i, residue_at t se im i x y z u) v.

(** The highest residue of the erosions 1 to n. *)
Definition residues_to (t : ity) (se : strelt) (n : nat) (im out : img) : Prop :=
  sz out = sz im /\ wf_img out /\ forall x y z v, pixel_is out x y z v -> greatest (fun u => u = tmin t \/ exists i, (1 <= i <= n)%nat /\ residue_at t se im i x y z u) v.
