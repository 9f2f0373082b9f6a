(** Specification vocabulary for alternate sequential reconstructions. *)
From Verif Require Export Spec.GeodesicSpec Spec.GranulometrySpec Model.AsBuild.
Local Open Scope Z_scope.

(** [B] is the opening (closing) by reconstruction of size [n] of [A]: [A] rebuilt from [n] elementary erosions (dilations). *)
Definition open_rec (t : ity) (se : strelt) (n : nat) (A B : img) : Prop :=
  exists E, passes n (eroded se (tmax t)) A E /\ rebuilt se E A B.
Definition close_rec (t : ity) (se : strelt) (n : nat) (A B : img) : Prop :=
  exists D, passes n (dilated se (tmin t)) A D /\ dual_rebuilt se D A B.

(** A call under a legal execution. *)
Definition as_ok (t : ity) (cs : Z -> nat -> nat -> conf) (se : strelt) (im out : img) : Prop :=
  geo1_ok t se im out /\ good_img im /\ good_se se (sz im) /\ se_size se < 2 ^ 32 - 1 /\ forall i j k, legal_conf (dh (sz im)) (cs i j k).

(** Where [im] is flat, so is [R]: neighbours of the same value keep a common value. *)
Definition keeps_zones (se : strelt) (im R : img) : Prop :=
  forall x y z x' y' z' v u u', sees se x y z x' y' z' -> pixel_is im x y z v -> pixel_is im x' y' z' v ->
    pixel_is R x y z u -> pixel_is R x' y' z' u' -> u = u'.
