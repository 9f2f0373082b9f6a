(** Alternate sequential reconstructions.

    Models: Morpho/include/private/DMorphoGeodesic.hpp:625-673.  [buildOpen] and [buildClose] are in Model/Geodesic.v. *)
From Verif Require Export Model.Geodesic.
Local Open Scope Z_scope.

(** The loops of [asBuildOpen], DMorphoGeodesic.hpp:633-637, and of [asBuildClose], 666-670, from the turn [i], [n] turns being
    left, followed by the copy of 638 and 671.  [tmp] is tmpIm and [out] is imOut; the two calls of a turn are
    [first i] and [second i].  A call that does not return RES_OK ends the function with RES_ERR (the macro ASSERT,
    Core/include/DErrors.h). *)
Fixpoint as_loop (first second : Z -> img -> img -> option (option (Z * img))) (n : nat) (i : Z) (tmp out : img) : option (option (Z * img)) :=
  match n with
  | O => Some (Some (1, tmp))
  | S n' =>
      fuel_bind (first i tmp out) (fun '(r1, out') =>
      if negb (r1 =? 1) then Some (Some (-100, out')) else
      fuel_bind (second i out' tmp) (fun '(r2, tmp') =>
      if negb (r2 =? 1) then Some (Some (-100, out')) else
      as_loop first second n' (i + 1) tmp' out'))
  end.

(** [asBuildOpen], 625-641, and [asBuildClose], 658-673.  tmpIm is a clone of imIn, so that imIn is not read any more and may
    be imOut.  [cs i j] are the choices of the runtime in the call [j] of the turn [i].  The counter is a UINT: with a size of
    2^32 - 1 the loop has no end. *)
Definition asBuildOpen (fuel : nat) (t : ity) (junk : Z -> Z) (cs : Z -> nat -> nat -> conf) (se : strelt) (imIn imOut : img) : option (option (Z * img)) :=
  if negb (same_size imIn imOut) then Some (Some (-98, imOut)) else
  if 2 ^ 32 - 1 <=? se_size se then Some None else
  as_loop (fun i a b => buildOpen fuel t junk (cs i 0%nat) (with_size se i) false a b)
          (fun i a b => buildClose fuel t junk (cs i 1%nat) (with_size se i) false a b) (Z.to_nat (se_size se)) 1 imIn imOut.
Definition asBuildClose (fuel : nat) (t : ity) (junk : Z -> Z) (cs : Z -> nat -> nat -> conf) (se : strelt) (imIn imOut : img) : option (option (Z * img)) :=
  if negb (same_size imIn imOut) then Some (Some (-98, imOut)) else
  if 2 ^ 32 - 1 <=? se_size se then Some None else
  as_loop (fun i a b => buildClose fuel t junk (cs i 0%nat) (with_size se i) false a b)
          (fun i a b => buildOpen fuel t junk (cs i 1%nat) (with_size se i) false a b) (Z.to_nat (se_size se)) 1 imIn imOut.
