(** Specification vocabulary for the measures drawn on labels. *)
From Verif Require Export Spec.LabelSpec Model.LabelMeasures.
Local Open Scope Z_scope.

(** The greatest value of [im] on the pixels linked to (x,y,z). *)
Definition component_max (se : strelt) (labin im : img) (x y z a : Z) : Prop :=
  (exists x' y' z', linked se eq labin x y z x' y' z' /\ pixel_is im x' y' z' a) /\
  forall x' y' z' u, linked se eq labin x y z x' y' z' -> pixel_is im x' y' z' u -> u <= a.

