(** Pools of line buffers: Core/include/private/DBufferPool.hpp.

    A buffer is known by its address.  [heap]: the addresses allocated and not freed, by the pool or by the rest of the program.
    [createLine] may return any address not in the heap.  [None]: an address that is not allocated is freed.
    The calls are made by one thread: [releaseBuffer] is not protected against a concurrent [getBuffer].
    [getBuffers] and [releaseBuffers] (110-130) repeat [getBuffer] and [releaseBuffer]. *)
From Verif Require Export Model.Prelude.

(** 149-153; the top of the stack is the head of the list. *)
Record pool := Pool { availableBuffers : list Z; buffers : list Z; maxNumberOfBuffers : Z; heap : list Z }.

(** The constructor, 47-51. *)
Definition new_pool (h : list Z) : pool := Pool [] [] (2 ^ 64 - 1) h.

(** deleteLine, DTypes.hpp:120-123. *)
Fixpoint heap_free (a : Z) (h : list Z) : option (list Z) :=
  match h with [] => None | b :: r => if b =? a then Some r else option_map (cons b) (heap_free a r) end.

(** [clear], 69-81. *)
Definition pool_clear (p : pool) : option pool :=
  option_map (fun h => Pool [] (buffers p) (maxNumberOfBuffers p) h) (fold_opt (fun h a => heap_free a h) (availableBuffers p) (heap p)).
(** [initialize], 62-68. *)
Definition pool_initialize (p : pool) : option pool :=
  if negb (Z.of_nat (length (buffers p)) =? 0) then pool_clear p else Some p.
(** [setMaxNumberOfBuffers], 82-85. *)
Definition pool_setMax (n : Z) (p : pool) : pool := Pool (availableBuffers p) (buffers p) n (heap p).
(** [createBuffer], 139-148; [a]: the address returned by createLine. *)
Definition createBuffer (a : Z) (p : pool) : bool * pool :=
  if Z.of_nat (length (buffers p)) >=? maxNumberOfBuffers p then (false, p)
  else (true, Pool (a :: availableBuffers p) (buffers p ++ [a]) (maxNumberOfBuffers p) (a :: heap p)).
(** [getBuffer], 90-109. *)
Inductive answer := Handed (a : Z) (p : pool) | Waits.
Definition pool_top (p : pool) : answer :=
  match availableBuffers p with [] => Waits | a :: r => Handed a (Pool r (buffers p) (maxNumberOfBuffers p) (heap p)) end.
Definition getBuffer (a : Z) (p : pool) : answer :=
  match availableBuffers p with
  | [] => let '(created, p) := createBuffer a p in if created then pool_top p else Waits      (* while (availableBuffers.empty()); *)
  | _ => pool_top p
  end.
(** [releaseBuffer], 120-124. *)
Definition releaseBuffer (a : Z) (p : pool) : pool := Pool (a :: availableBuffers p) (buffers p) (maxNumberOfBuffers p) (heap p).
(** [releaseAllBuffers], 131-137. *)
Definition releaseAllBuffers (p : pool) : pool := Pool (rev (buffers p)) (buffers p) (maxNumberOfBuffers p) (heap p).
(** The destructor, 52-58: the heap that is left. *)
Definition pool_delete (p : pool) : option (list Z) := fold_opt (fun h a => heap_free a h) (buffers p) (heap p).
