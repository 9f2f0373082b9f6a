(** Specification of the pixelwise operations: the preconditions of a call and the documented value
    of each operation. *)
From Verif Require Export Spec.ExecSpec.
From Coq Require Import String.

(** Every value of operand [o] is a value of pixel type [t]. *)
Definition typed (t : ity) (h : heap) (out : idesc) (o : operand) : Prop :=
  forall k v, 0 <= k < dw (idims out) * dh (idims out) * dd (idims out) ->
    operand_value h o k v -> tmin t <= v <= tmax t.

(** A call that meets the documented requirements: all images allocated, of the same size, each
    input equal to or disjoint from the output, a legal thread schedule. *)
Definition ready (h : heap) (srcs : list operand) (out : idesc) (sched : list event) : Prop :=
  placed h out /\ Forall (operand_ok h out) srcs /\
  valid_schedule (dw (idims out)) (dd (idims out) * dh (idims out)) sched.

(** The offset of voxel (x,y,z) in an image of width [w] and height [h]. *)
Definition voxel_offset (w h x y z : Z) : Z := x + w * (y + h * z).

(** Dimensions are non-negative and the whole image is addressable. *)
Definition small (s : dims) : Prop :=
  0 <= dw s < 2 ^ 63 /\ 0 <= dh s < 2 ^ 63 /\ 0 <= dd s < 2 ^ 63 /\ dw s * dh s * dd s < 2 ^ 63.

(** The voxel lies in the image. *)
Definition inside (s : dims) (x y z : Z) : Prop := 0 <= x < dw s /\ 0 <= y < dh s /\ 0 <= z < dd s.

(** The relation named by a comparison operator string. *)
Definition rel_of (op : string) : option (Z -> Z -> Prop) :=
  if String.eqb op "==" then Some (fun a b => a = b)
  else if String.eqb op "!=" then Some (fun a b => a <> b)
  else if String.eqb op ">" then Some (fun a b => a > b)
  else if String.eqb op "<" then Some (fun a b => a < b)
  else if String.eqb op ">=" then Some (fun a b => a >= b)
  else if String.eqb op "<=" then Some (fun a b => a <= b)
  else None.

(** Result relations for one, two and three operands. *)
Definition R1 (P : Z -> Z -> Prop) (vs : list Z) (v : Z) : Prop :=
  match vs with [a] => P a v | _ => False end.
Definition R2 (P : Z -> Z -> Z -> Prop) (vs : list Z) (v : Z) : Prop :=
  match vs with [a; b] => P a b v | _ => False end.
Definition R3 (P : Z -> Z -> Z -> Z -> Prop) (vs : list Z) (v : Z) : Prop :=
  match vs with [a; b; c] => P a b c v | _ => False end.

(** "v is hi where Q holds and lo elsewhere". *)
Definition picks (Q : Prop) (hi lo v : Z) : Prop := (Q -> v = hi) /\ (~ Q -> v = lo).

(** The value congruent to [z] modulo 2^n that is representable in type [t]. *)
Definition wraps_to (t : ity) (z v : Z) : Prop :=
  tmin t <= v <= tmax t /\ exists k, v = z + k * 2 ^ nbits t.
