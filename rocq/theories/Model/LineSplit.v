(** How the line functors split a line at the alignment of its buffers:
    Base/include/private/DBaseLineOperations.hpp, and the SSE functors on UINT8 of
    Base/include/DLineArith_SSE.h.

    A functor is run on the elements of its buffers; [None] is an access outside a buffer.  The addresses of the
    buffers and SIMD_VEC_SIZE (Core/include/private/DMemory.hpp:33-37, 16 or 32) are parameters. *)
From Verif Require Export Model.Bits.

(** Core/include/private/DTypes.hpp:124-127, ptrOffset. *)
Definition ptrOffset (vec addr : Z) : Z := Z.land addr (vec - 1).

(** The calls of [_exec] or [_exec_aligned]: first index and number of elements (a [size_t]). *)
Definition unary_calls (vec a1 a2 size : Z) : list (Z * Z) :=        (* lines 68-90 *)
  let o1 := ptrOffset vec a1 in
  let o2 := ptrOffset vec a2 in
  if (o1 =? 0) && (o2 =? 0) then [(0, size)]
  else if o1 =? o2 then
    let mis := vec - o1 in [(0, mis); (mis, to_size (size - mis))]
  else [(0, size)].

Definition value_calls (vec a size : Z) : list (Z * Z) :=            (* lines 91-103 *)
  if size <? vec then [(0, size)]
  else
    let o := ptrOffset vec a in
    let mis := if o =? 0 then 0 else vec - o in
    (if mis =? 0 then [] else [(0, mis)]) ++ [(mis, to_size (size - mis))].

Definition binary_calls (vec a1 a2 a3 size : Z) : list (Z * Z) :=    (* lines 121-124: the rest is not reached *)
  [(0, size)].

Definition binary_value_calls (vec a1 a2 size : Z) : list (Z * Z) := (* lines 152-181 *)
  if size <? vec then [(0, size)]
  else
    let o1 := ptrOffset vec a1 in
    let o2 := ptrOffset vec a2 in
    if (o1 =? 0) && (o2 =? 0) then [(0, size)]
    else if o1 =? o2 then
      let mis := vec - o1 in [(0, mis); (mis, to_size (size - mis))]
    else [(0, size)].

Definition tertiary_calls (vec a1 a2 a3 a4 size : Z) : list (Z * Z) := (* lines 197-226 *)
  if size <? vec then [(0, size)]
  else
    let o1 := ptrOffset vec a1 in
    let o2 := ptrOffset vec a2 in
    let o3 := ptrOffset vec a3 in
    let o4 := ptrOffset vec a4 in
    if (o1 =? 0) && (o2 =? 0) && (o3 =? 0) && (o4 =? 0) then [(0, size)]
    else if (o1 =? o2) && (o2 =? o3) then
      let mis := vec - o1 in [(0, mis); (mis, to_size (size - mis))]
    else [(0, size)].

(** The loop of a pointwise functor, [for (i=0;i<n;i++) lOut[i] = f(lIn[i])], from element [start] of the
    buffers; [g i] is the value computed from the inputs at [i], [None] outside them. *)
Definition exec_range (g : Z -> option Z) (out : list Z) (c : Z * Z) : option (list Z) :=
  fold_opt (fun out i => wr_word out (fst c + i) (g (fst c + i))) (zseq (snd c)) out.

Definition exec_calls (g : Z -> option Z) (calls : list (Z * Z)) (out : list Z) : option (list Z) :=
  fold_opt (exec_range g) calls out.

(** The value computed at an index from one, two or three input lines. *)
Definition in1 (f : Z -> Z) (l1 : list Z) (i : Z) : option Z := option_map f (rd l1 i).
Definition in2 (f : Z -> Z -> Z) (l1 l2 : list Z) (i : Z) : option Z :=
  match rd l1 i, rd l2 i with Some a, Some b => Some (f a b) | _, _ => None end.
Definition in3 (f : Z -> Z -> Z -> Z) (l1 l2 l3 : list Z) (i : Z) : option Z :=
  match rd l1 i, rd l2 i, rd l3 i with Some a, Some b, Some c => Some (f a b c) | _, _, _ => None end.

(** [operator()] of the functors on lines of [size] elements. *)
Definition run_unary vec a1 a2 f l1 size out := exec_calls (in1 f l1) (unary_calls vec a1 a2 size) out.
Definition run_value vec a (v : Z) size out := exec_calls (fun _ => Some v) (value_calls vec a size) out.
Definition run_binary vec a1 a2 a3 f l1 l2 size out := exec_calls (in2 f l1 l2) (binary_calls vec a1 a2 a3 size) out.
Definition run_binary_value vec a1 a2 f l1 (v : Z) size out :=
  exec_calls (in1 (fun a => f a v) l1) (binary_value_calls vec a1 a2 size) out.
Definition run_tertiary vec a1 a2 a3 a4 f l1 l2 l3 size out :=
  exec_calls (in3 f l1 l2 l3) (tertiary_calls vec a1 a2 a3 a4 size) out.

(** Lines 197-226 on bit lines: [lIn+misAlignSize] moves the index of the bit array, which
    testLine<Bit, Bit>::_exec does not look at (NSTypes/Bit/include/DLineArith_Bit.h:407-415).  The addresses are
    those of the words, 8 bytes each, the memory starting at the address [base]. *)
Definition run_test_bit (vec base : Z) (m : list Z) (l1 l2 l3 : bitarr) (size : Z) (lo : bitarr) : option (list Z) :=
  let addr l := base + 8 * ba_int l in
  fold_opt (fun m c => testLine_bit m (ba_at l1 (fst c)) (ba_at l2 (fst c)) (ba_at l3 (fst c)) (snd c) (ba_at lo (fst c)))
    (tertiary_calls vec (addr l1) (addr l2) (addr l3) (addr lo) size) m.

(** *** DLineArith_SSE.h: vector functors on UINT8 *)

Inductive sse_functor := sAdd | sAddNoSat | sSub | sSubNoSat | sSup | sInf.

(** [_exec], the loop on elements: lines 47-49, 78, 106-108, 137, 165, 193. *)
Definition sse_scalar (f : sse_functor) (a b : Z) : Z :=
  match f with
  | sAdd => if a >? (255 - b) mod 256 then 255 else (a + b) mod 256
  | sAddNoSat => (a + b) mod 256
  | sSub => if a <? (255 + b) mod 256 then 0 else (a - b) mod 256
  | sSubNoSat => (a - b) mod 256
  | sSup => if a >? b then a else b
  | sInf => if a <? b then a else b
  end.

(** One lane of the instruction used by [_exec_aligned]: adds_epu8, add_epi8, subs_epu8, sub_epi8, max_epu8,
    min_epu8 (lines 64, 93, 123, 152, 180 and 208). *)
Definition sse_lane (f : sse_functor) (a b : Z) : Z :=
  match f with
  | sAdd => Z.min 255 (a + b)
  | sAddNoSat => (a + b) mod 256
  | sSub => Z.max 0 (a - b)
  | sSubNoSat => (a - b) mod 256
  | sSup => Z.max a b
  | sInf => Z.min a b
  end.

(** [_exec_aligned]: vectors of 16 elements up to [alignLen], then [_exec] on the rest.  The lanes of a vector are
    written together; the loads of a vector precede its store. *)
Definition sse_vector (f : sse_functor) (l1 l2 : list Z) (out : list Z) (i : Z) : option (list Z) :=
  match all_some (map (fun j => in2 (sse_lane f) l1 l2 (i + j)) (zseq 16)) with
  | None => None
  | Some vs => fold_opt (fun out j => wr_word out (i + j) (rd vs j)) (zseq 16) out
  end.
Definition sse_exec_aligned (vec : Z) (f : sse_functor) (l1 l2 : list Z) (size : Z) (out : list Z) : option (list Z) :=
  let alignLen := size - size mod vec in
  match fold_opt (fun out k => sse_vector f l1 l2 out (16 * k)) (zseq ((alignLen + 15) / 16)) out with
  | None => None
  | Some out1 => exec_range (in2 (sse_scalar f) l1 l2) out1 (alignLen, size mod vec)
  end.
