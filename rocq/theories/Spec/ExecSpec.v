(** Specification vocabulary for the pixelwise operations (independent of how they are executed). *)
From Verif Require Export Model.Exec.

(** Image dimensions that can exist. *)
Definition wf_dims (s : dims) : Prop := 0 <= dw s /\ 0 <= dh s /\ 0 <= dd s.

(** The image lies inside the memory. *)
Definition placed (h : heap) (d : idesc) : Prop :=
  wf_dims (idims d) /\ 0 <= ibase d /\
  ibase d + dw (idims d) * dh (idims d) * dd (idims d) <= Z.of_nat (length h).

(** Address [a] belongs to the pixels of [d]. *)
Definition owns (d : idesc) (a : Z) : Prop :=
  ibase d <= a < ibase d + dw (idims d) * dh (idims d) * dd (idims d).

(** Two images that are the same pixels or share none. *)
Definition same_or_disjoint (d1 d2 : idesc) : Prop :=
  ibase d1 = ibase d2 \/ forall a, ~ (owns d1 a /\ owns d2 a).

(** An operand that may be combined with output image [out] in memory [h]: constants always; images
    of the same size placed in memory, equal to the output or disjoint from it. *)
Definition operand_ok (h : heap) (out : idesc) (o : operand) : Prop :=
  match o with
  | OVal _ => True
  | OImg d => idims d = idims out /\ placed h d /\ same_or_disjoint d out
  end.

(** The value of operand [o] at pixel number [k] (raster order) in memory [h]. *)
Definition operand_value (h : heap) (o : operand) (k : Z) (v : Z) : Prop :=
  match o with
  | OVal c => v = c
  | OImg d => rd h (ibase d + k) = Some v
  end.

(** All loads and stores of a loop over [n] lines of [w] pixels. *)
Definition all_events (w n : Z) : list event :=
  flat_map (fun i => flat_map (fun p => [Ld i p; St i p]) (zseq w)) (zseq n).

(** A legal schedule: every event once, every store after the load that computed its value. *)
Definition valid_schedule (w n : Z) (sched : list event) : Prop :=
  Permutation sched (all_events w n) /\
  forall e1 i p e2, sched = e1 ++ St i p :: e2 -> In (Ld i p) e1.

(** "In memory [h'] the output image holds, at every pixel, a value related by [R] to the operand
    values found in memory [h]; everything else in memory is unchanged." *)
Definition pixelwise_result (R : list Z -> Z -> Prop) (srcs : list operand) (out : idesc)
  (h h' : heap) : Prop :=
  length h' = length h /\
  (forall k, 0 <= k < dw (idims out) * dh (idims out) * dd (idims out) ->
     exists vs v, Forall2 (fun o v => operand_value h o k v) srcs vs /\
                  rd h' (ibase out + k) = Some v /\ R vs v) /\
  (forall a, ~ owns out a -> rd h' a = rd h a).
