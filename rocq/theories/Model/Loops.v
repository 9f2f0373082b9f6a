(** Loops that write an output image whose array is not read by the loop.

    [body i] is one iteration: it computes the address and the value written ([None]: an access
    outside an array).  [order] is the order in which the iterations are executed; OpenMP loops are
    run with an arbitrary permutation of the iteration space, pixel by pixel, which covers every
    distribution of the lines over threads. *)
From Verif Require Export Model.Image.

Definition scatter {I} (body : I -> option (Z * Z)) (order : list I) (px : list Z) : option (list Z) :=
  fold_opt (fun px i => option_bind (body i) (fun av => wr px (fst av) (snd av))) order px.

(** The iteration space of three nested loops (z outermost, x innermost). *)
Definition grid (nx ny nz : Z) : list (Z * Z * Z) :=
  flat_map (fun z => flat_map (fun y => map (fun x => (x, y, z)) (zseq nx)) (zseq ny)) (zseq nz).

(** A schedule rearranges the iteration space of a parallel loop. *)
Definition sched3 := list (Z * Z * Z) -> list (Z * Z * Z).

(** A newly allocated image: the contents are unspecified ([junk]); [setSize] keeps the array when
    the size does not change (Core/include/private/DImage.hxx:287-332). *)
Definition setSize (junk : Z -> Z) (im : img) (s : dims) : img :=
  if (dw s =? width im) && (dh s =? height im) && (dd s =? depth im) then im
  else Img s (map junk (zseq (pixelCount s))).
