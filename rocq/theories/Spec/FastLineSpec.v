(** What line operators compute, in coordinates. *)
From Verif Require Export Model.FastLine Spec.MorphSpec.

(** The height of a digital line of slope n/d above [a]: n * a / d rounded up. *)
Definition rise (n d a : Z) : Z := - (- (n * a) / d).

(** Two pixels on the same translate of the digital line of direction (dx, dy), at most [r] steps apart: a step moves one
    column if the line is rather horizontal, one row if it is rather vertical. *)
Definition along (dx dy r x y x' y' : Z) : Prop :=
  let s := Z.sgn dx * Z.sgn dy in
  if Z.abs dy <=? Z.abs dx then
    y - s * rise (Z.abs dy) (Z.abs dx) x = y' - s * rise (Z.abs dy) (Z.abs dx) x' /\ Z.abs (x' - x) <= r
  else
    x - s * rise (Z.abs dx) (Z.abs dy) y = x' - s * rise (Z.abs dx) (Z.abs dy) y' /\ Z.abs (y' - y) <= r.

Definition line_values (dx dy r : Z) (im : img) (x y v : Z) : Prop :=
  exists x' y', along dx dy r x y x' y' /\ pixel_is im x' y' 0 v.
Definition dilated_along (dx dy r : Z) (im out : img) : Prop :=
  sz out = sz im /\ wf_img out /\ forall x y z v, pixel_is out x y z v -> greatest (line_values dx dy r im x y) v.
Definition eroded_along (dx dy r : Z) (im out : img) : Prop :=
  sz out = sz im /\ wf_img out /\ forall x y z v, pixel_is out x y z v -> least (line_values dx dy r im x y) v.

(** The directions whose lines are all walked to their ends. *)
Definition good_dir (dx dy : Z) : Prop :=
  (dy = 0 /\ dx <> 0) \/ (dx = 0 /\ dy <> 0) \/ (dx = - dy /\ dx <> 0) \/ (0 < dx * dy /\ Z.abs dx <> Z.abs dy).

(** ** Openings by length on one line *)

(** The pixels [a] .. [a + L - 1] of a row of values are all at least [v], and [i] is one of them. *)
Definition run_at (f : Z -> Z) (n L i v : Z) : Prop :=
  exists a, 0 <= a <= i /\ i < a + L <= n /\ forall j, a <= j < a + L -> v <= f j.
Definition length_opened (f : Z -> Z) (n L i v : Z) : Prop := greatest (run_at f n L i) v.

(** A non-empty image of one slice, whose sizes and those of the buffers are machine integers. *)
Definition line_image (im : img) : Prop := wf_img im /\ 1 <= dw (sz im) < 2 ^ 31 /\ 1 <= dh (sz im) < 2 ^ 31 /\ dd (sz im) = 1.
(** [DilateHorLine] and [DilateVerLine] run off the buffers for lines of one pixel and for lines as long as the segment. *)
Definition length_ok (r n : Z) : Prop := n <> 1 /\ n <> 2 * r + 1.
Definition fuel_ok (fuel : nat) (im : img) (dx dy : Z) : Prop := dw (sz im) + dh (sz im) + Z.abs dx + Z.abs dy + 3 < Z.of_nat fuel.
Definition line_call (fuel : nat) (alias : bool) (im : img) (dx dy r : Z) (out : img) : Prop :=
  line_image im /\ wf_img out /\ sz out = sz im /\ (alias = true -> out = im) /\ 0 <= r < 2 ^ 30 /\ good_dir dx dy /\
  (dy = 0 -> length_ok r (dw (sz im))) /\ (dx = 0 -> length_ok r (dh (sz im))) /\ fuel_ok fuel im dx dy.
(** The same for the operators by squares, which go along the rows, then along the columns. *)
Definition square_call (fuel : nat) (im : img) (r : Z) (out : img) : Prop :=
  line_image im /\ wf_img out /\ sz out = sz im /\ 0 <= r < 2 ^ 30 /\ length_ok r (dw (sz im)) /\ length_ok r (dh (sz im)) /\ 3 * (dw (sz im) + dh (sz im)) + 3 < Z.of_nat fuel.

(** ** Openings by length on an image *)

(** Two pixels on the same translate of the digital line, and the place of a pixel along its line. *)
Definition same_line (dx dy x y x' y' : Z) : Prop :=
  let s := Z.sgn dx * Z.sgn dy in
  if Z.abs dy <=? Z.abs dx then y - s * rise (Z.abs dy) (Z.abs dx) x = y' - s * rise (Z.abs dy) (Z.abs dx) x'
  else x - s * rise (Z.abs dx) (Z.abs dy) y = x' - s * rise (Z.abs dx) (Z.abs dy) y'.
Definition line_place (dx dy x y : Z) : Z := if Z.abs dy <=? Z.abs dx then x else y.

(** Consecutive pixels of the line through (x, y), this one among them, are all at least [v]; they are at least [L], or the whole line. *)
Definition run_through (dx dy L : Z) (im : img) (x y v : Z) : Prop :=
  exists a b, a <= line_place dx dy x y < b /\
    (L <= b - a \/ forall x' y', 0 <= x' < dw (sz im) -> 0 <= y' < dh (sz im) -> same_line dx dy x y x' y' -> a <= line_place dx dy x' y' < b) /\
    forall i, a <= i < b -> exists x' y' u, same_line dx dy x y x' y' /\ line_place dx dy x' y' = i /\ pixel_is im x' y' 0 u /\ v <= u.
Definition opened_along (dx dy L : Z) (im out : img) : Prop :=
  sz out = sz im /\ wf_img out /\ forall x y z v, pixel_is out x y z v -> greatest (run_through dx dy L im x y) v.
(** The same with [>=] the other way round. *)
Definition dark_run_through (dx dy L : Z) (im : img) (x y v : Z) : Prop :=
  exists a b, a <= line_place dx dy x y < b /\
    (L <= b - a \/ forall x' y', 0 <= x' < dw (sz im) -> 0 <= y' < dh (sz im) -> same_line dx dy x y x' y' -> a <= line_place dx dy x' y' < b) /\
    forall i, a <= i < b -> exists x' y' u, same_line dx dy x y x' y' /\ line_place dx dy x' y' = i /\ pixel_is im x' y' 0 u /\ u <= v.
Definition closed_along (dx dy L : Z) (im out : img) : Prop :=
  sz out = sz im /\ wf_img out /\ forall x y z v, pixel_is out x y z v -> least (dark_run_through dx dy L im x y) v.

(** A direction whose lines Morard's opening walks well, values of 8 bits. *)
Definition open_dir (dx dy : Z) : Prop := (dy = 0 /\ dx <> 0) \/ (dx = 0 /\ dy <> 0) \/ (dx = - dy /\ dx <> 0).
Definition opening_call (fuel : nat) (alias : bool) (t : ity) (im : img) (dx dy r : Z) (out : img) : Prop :=
  line_image im /\ wf_img out /\ sz out = sz im /\ (alias = true -> out = im) /\ 0 <= r < 2 ^ 30 /\ open_dir dx dy /\ (t = UINT8 \/ t = INT8) /\ typed_img t im /\ fuel_ok fuel im dx dy.
