(** Specification vocabulary for colour images. *)
From Verif Require Export Spec.ImageSpec Model.Color.
Local Open Scope Z_scope.

(** The order of the colours, channel by channel. *)
Definition cle (a b : list Z) : Prop := Forall2 Z.le a b.
Definition clt (a b : list Z) : Prop := Forall2 Z.lt a b.
Definition supremum (a b m : list Z) : Prop := cle a m /\ cle b m /\ forall u, cle a u -> cle b u -> cle m u.
Definition infimum (a b m : list Z) : Prop := cle m a /\ cle m b /\ forall u, cle u a -> cle u b -> cle u m.

(** The uses of a colour line: [p + dp], [p++], a copy. *)
Inductive cop : Type := Advance (dp : Z) | Step | Dup.
Definition run_cop (a : carr) (o : cop) : carr :=
  match o with Advance dp => carr_plus a dp | Step => carr_incr a | Dup => carr_copy a end.
(** The displacement a user of pointers expects. *)
Definition travel (o : cop) : Z := match o with Advance dp => dp | Step => 1 | Dup => 0 end.
Definition journey (os : list cop) : Z := fold_right (fun o s => travel o + s) 0 os.
(** No displacement is negative, and none follows [++] before a copy. *)
Fixpoint careful (stepped : bool) (os : list cop) : Prop :=
  match os with
  | [] => True
  | Advance dp :: os => stepped = false /\ 0 <= dp /\ careful false os
  | Step :: os => careful true os
  | Dup :: os => careful false os
  end.

(** Channel [k] of a colour image, as an image. *)
Definition channel (im : cimg) (k : Z) : option img := option_map (Img (csz im)) (rd (chans im) k).
Definition chan_is (im : cimg) (k x y z v : Z) : Prop := exists c, channel im k = Some c /\ pixel_is c x y z v.
Definition wf_cimg (n : nat) (im : cimg) : Prop :=
  length (chans im) = n /\ wf_dims (csz im) /\ forall c, In c (chans im) -> wf_img (Img (csz im) c).
Definition typed_cimg (t : ity) (im : cimg) : Prop := forall c, In c (chans im) -> Forall (inty t) c.
(** The planes fit in a UINT. *)
Definition plane_fits (s : dims) : Prop := dw s < 2 ^ 32 /\ dh s < 2 ^ 32 /\ dw s * dh s < 2 ^ 32.

(** The colour at offset [i] of a line. *)
Definition colour_at (l : list (list Z)) (i : Z) : list Z := map (fun c => znth 0 c i) l.
(** Three channels of at least [size] items. *)
Definition rgb_has (size : Z) (l : list (list Z)) : Prop := length l = 3%nat /\ forall c, In c l -> size <= Z.of_nat (length c).
