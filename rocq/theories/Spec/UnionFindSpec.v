(** Specification vocabulary for area openings on images that need not be connected. *)
From Verif Require Export Spec.MaxTreeSpec.

(** The pixels that can be reached from (x,y,z). *)
Definition reach (se : strelt) (im : img) (x y z : Z) : Z -> Z -> Z -> Prop :=
  joined se (fun _ => True) (fun a b c => a = x /\ b = y /\ c = z) im.

(** Every pixel gets the highest level, not above its value, whose component around it has [n] pixels or more; the least value
    of what can be reached if there is none. *)
Definition area_opened (n : Z) (se : strelt) (im out : img) : Prop :=
  sz out = sz im /\ wf_img out /\
  forall x y z v o, pixel_is im x y z v -> pixel_is out x y z o ->
    o <= v /\ (exists a b c, reach se im x y z a b c /\ pixel_is im a b c o) /\
    (zone_has CArea n (upper_zone se im o x y z) \/ forall a b c w, reach se im x y z a b c -> pixel_is im a b c w -> o <= w) /\
    forall h, o < h <= v -> ~ zone_has CArea n (upper_zone se im h x y z).

(** Every pixel gets the lowest level, not below its value, whose component around it has [n] pixels or more; the greatest value
    of what can be reached if there is none. *)
Definition area_closed (n : Z) (se : strelt) (im out : img) : Prop :=
  sz out = sz im /\ wf_img out /\
  forall x y z v o, pixel_is im x y z v -> pixel_is out x y z o ->
    v <= o /\ (exists a b c, reach se im x y z a b c /\ pixel_is im a b c o) /\
    (zone_has CArea n (lower_zone se im o x y z) \/ forall a b c w, reach se im x y z a b c -> pixel_is im a b c w -> w <= o) /\
    forall h, v <= h < o -> ~ zone_has CArea n (lower_zone se im h x y z).
