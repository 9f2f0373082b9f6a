(** C26 and C27: the queues behind the flooding algorithms. *)
From Verif Require Import Proofs.QueueProofs.

(** ** C27 *)
(** Any sequence of operations that never holds more than the [n] elements the queue was initialised for, and asks
    elements only of a non-empty queue, gives the outputs of a list. *)
Theorem C27_fifo_queue n ops outs :
  0 <= n -> n + 1 < 2 ^ 64 -> peak ops 0 <= n -> ref_fifo ops [] = Some outs ->
  run_fifo ops (fq_init n) = Some outs.
Proof. intros H1 H2 H3 H4. exact (fifo_refines n ops _ [] outs (fq_init_ok n H1 H2) H3 H4). Qed.
Print Assumptions C27_fifo_queue.

Definition fifo_ops := concat (repeat [Push 5; Push 7; Front; Pop; Push 9; Size; Front; Pop; Front; Pop] 6).
Example C27_case : peak fifo_ops 0 <= 3 /\ ref_fifo fifo_ops [] = Some (concat (repeat [5; 2; 7; 9] 6)).
Proof. vm_compute. split; [discriminate|reflexivity]. Qed.

(** Beyond its capacity it writes outside its buffer. *)
Theorem C27_overflow_refuted : ~ (forall n ops outs, 0 <= n -> n + 1 < 2 ^ 64 -> ref_fifo ops [] = Some outs ->
  run_fifo ops (fq_init n) = Some outs).
Proof.
  intros H. specialize (H 1 (repeat (Push 1) 9) []). cbn in H. discriminate H; try lia; reflexivity.
Qed.
Print Assumptions C27_overflow_refuted.

(** ** C26 *)
(** On [UINT8] and [UINT16], in either order, any sequence of operations that pops a non-empty queue only: no access
    falls outside the arrays, and the outputs are those of the reference queue, which serves the smallest (reverse:
    largest) priority, and the earliest token among equals; the reference is deterministic. *)
Theorem C26_hierarchical_queue_partial t rev ops :
  t = UINT8 \/ t = UINT16 -> Forall (push_typed t) ops -> pops_ok ops 0 -> Z.of_nat (length ops) < 2 ^ 64 ->
  exists outs, run_hq t rev ops (hq_init t rev) = Some outs /\ hruns rev ops [] outs /\
    forall outs', hruns rev ops [] outs' -> outs' = outs.
Proof.
  intros H1 H2 H3 H4. destruct (hq_refines t rev ops _ [] (hq_init_ok t rev H1) H2 H3) as [outs [A B]]; [cbn; lia|].
  exists outs. split; [exact A|]. split; [exact B|]. intros o' C. exact (hruns_det _ _ _ _ _ C B).
Qed.
Print Assumptions C26_hierarchical_queue_partial.

Definition hq_ops := [HEmpty; HPush 9 100; HPush 3 101; HPush 9 102; HPop; HPush 200 103; HPush 0 104; HSize; HPop; HPop; HPop; HPop; HEmpty; HPush 4 105; HPop].
Example C26_case :
  Forall (push_typed UINT8) hq_ops /\ pops_ok hq_ops 0 /\
  run_hq UINT8 false hq_ops (hq_init UINT8 false) = Some [1; 101; 4; 104; 100; 102; 103; 1; 105] /\
  run_hq UINT8 true hq_ops (hq_init UINT8 true) = Some [1; 100; 4; 103; 102; 101; 104; 1; 105].
Proof.
  split; [|split; [|split; vm_compute; reflexivity]].
  - unfold hq_ops, push_typed, inty. repeat constructor; cbn; lia.
  - cbn. lia.
Qed.

(** On signed types: in direct order a pixel value above -1 pushed alone is missed (its stack is not the reference
    level, and the pop takes from an empty stack); in reverse order the search for the next level stops at 127. *)
Theorem C26_signed_refuted rev :
  ~ (forall ops, Forall (push_typed INT8) ops -> pops_ok ops 0 -> Z.of_nat (length ops) < 2 ^ 64 ->
     exists outs, run_hq INT8 rev ops (hq_init INT8 rev) = Some outs /\ hruns rev ops [] outs).
Proof.
  intros H. destruct rev.
  - destruct (H [HPush 1 10; HPush (-1) 11; HPop; HPop]) as [o [A B]].
    + repeat constructor; cbn; lia.
    + cbn; lia.
    + cbn; lia.
    + vm_compute in A. discriminate.
  - destruct (H [HPush 1 10; HPop]) as [o [A B]].
    + repeat constructor; cbn; lia.
    + cbn; lia.
    + cbn; lia.
    + vm_compute in A. discriminate.
Qed.
Print Assumptions C26_signed_refuted.

(** On [UINT32] the number of levels wraps to 0 and the first push is outside the arrays. *)
Theorem C26_uint32_refuted rev v tok : hq_push UINT32 rev (hq_init UINT32 rev) v tok = None.
Proof. unfold hq_push, hq_init. cbn [tcard hq_stacks]. unfold rd. destruct (0 <=? _); [|reflexivity]. destruct (Z.to_nat _); reflexivity. Qed.
Print Assumptions C26_uint32_refuted.
