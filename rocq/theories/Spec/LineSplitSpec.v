(** Splitting a line into calls. *)
From Verif Require Export Model.LineSplit Model.Pixel.

(** The indices handled by a list of calls, in order. *)
Definition indices (calls : list (Z * Z)) : list Z :=
  flat_map (fun c => map (fun i => fst c + i) (zseq (snd c))) calls.

(** What a pointwise functor is expected to do to a line of [size] elements: the values of [g] on it, nothing
    elsewhere. *)
Definition pointwise (g : Z -> option Z) (size : Z) (out out' : list Z) : Prop :=
  length out' = length out /\
  (forall i, 0 <= i < size -> rd out' i = g i /\ g i <> None) /\
  (forall i, ~ (0 <= i < size) -> rd out' i = rd out i).

(** SIMD_VEC_SIZE. *)
Definition vec_size (vec : Z) : Prop := vec = 16 \/ vec = 32.

(** The generic functors that the SSE functors specialize (Model/Pixel.v), on UINT8. *)
Definition sse_generic (f : sse_functor) : Z -> Z -> Z :=
  match f with
  | sAdd => px_add UINT8
  | sAddNoSat => px_addNoSat UINT8
  | sSub => px_sub UINT8
  | sSubNoSat => px_subNoSat UINT8
  | sSup => px_sup
  | sInf => px_inf
  end.

Definition bytes (l : list Z) : Prop := forall i v, rd l i = Some v -> 0 <= v < 256.
