(** Axis names of a transposition order. *)
From Verif Require Export Spec.ImageSpec.
From Coq Require Import Ascii String.
Open Scope string_scope.

(** The coordinate named by a letter. *)
Definition axis (c : ascii) (x y z : Z) : Z :=
  if Ascii.eqb c "x" then x else if Ascii.eqb c "y" then y else z.

(** The order strings that name the three axes in some order: first, second and third letter. *)
Definition names_axes (order : string) (a b c : ascii) : Prop :=
  order = String a (String b (String c EmptyString)) /\
  In order ["xyz"; "xzy"; "yxz"; "yzx"; "zxy"; "zyx"]%list.

Definition known_order (order : string) : Prop :=
  In order ["xyz"; "xzy"; "yxz"; "yzx"; "zxy"; "zyx"; "xy"; "yx"; ""]%list.

(** Input coordinates (x,y,z) go to the output coordinates whose axes are named by the letters. *)
Definition transposed (a b c : ascii) (im out : img) : Prop :=
  let w := dw (sz im) in let h := dh (sz im) in let d := dd (sz im) in
  wf_img out /\ sz out = Dims (axis a w h d) (axis b w h d) (axis c w h d) /\
  forall x y z v, inside (sz im) x y z ->
    (pixel_is out (axis a x y z) (axis b x y z) (axis c x y z) v <-> pixel_is im x y z v).
