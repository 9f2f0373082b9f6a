(** Pixel types of SMIL and the C++ conversions to them.

    Models: /repo/Core/include/private/DTypes.hpp:54-114 (typedefs UINT8 .. INT16 and
    [ImDtTypes<T>::min/max/cardinal]).

    Simplification: [INT32]/[int], [float], [double] and the multichannel types are not in
    [ity]; signed 32-bit overflow is undefined behaviour in C++ and floats are not modelled. *)
From Coq Require Export ZArith List Bool.
Export ListNotations.
Open Scope Z_scope.

(** The integer pixel types (DTypes.hpp:63-79). *)
Inductive ity := UINT8 | UINT16 | UINT32 | INT8 | INT16.

(** Width in bits of each type (DTypes.hpp:63-79). *)
Definition nbits (t : ity) : Z :=
  match t with UINT8 => 8 | UINT16 => 16 | UINT32 => 32 | INT8 => 8 | INT16 => 16 end.

(** Signedness of each type (DTypes.hpp:63-79). *)
Definition is_signed (t : ity) : bool :=
  match t with INT8 => true | INT16 => true | _ => false end.

(** [ImDtTypes<T>::min()], DTypes.hpp:104-107 ([numeric_limits<T>::min()]). *)
Definition tmin (t : ity) : Z := if is_signed t then - 2 ^ (nbits t - 1) else 0.

(** [ImDtTypes<T>::max()], DTypes.hpp:108-111. *)
Definition tmax (t : ity) : Z :=
  if is_signed t then 2 ^ (nbits t - 1) - 1 else 2 ^ nbits t - 1.

(** Conversion of an integer value to type [t] (two's complement, as every supported
    compiler does for narrowing conversions). *)
Definition wrap (t : ity) (z : Z) : Z :=
  if is_signed t
  then (z + 2 ^ (nbits t - 1)) mod 2 ^ nbits t - 2 ^ (nbits t - 1)
  else z mod 2 ^ nbits t.

(** [ImDtTypes<T>::cardinal()], DTypes.hpp:112-115: [max() - min() + 1] is computed in [int]
    for 8/16-bit types and in 32-bit unsigned arithmetic for UINT32, before the conversion to
    [size_t]. *)
Definition tcard (t : ity) : Z :=
  match t with
  | UINT32 => (tmax t - tmin t + 1) mod 2 ^ 32
  | _ => tmax t - tmin t + 1
  end.

(** A value representable in type [t]. *)
Definition inty (t : ity) (z : Z) : Prop := tmin t <= z <= tmax t.
Definition intyb (t : ity) (z : Z) : bool := (tmin t <=? z) && (z <=? tmax t).

(** Conversion to [size_t] (64-bit). *)
Definition to_size (z : Z) : Z := z mod 2 ^ 64.
