(** Specification of the pools of buffers. *)
From Coq Require Export Permutation.
From Verif Require Export Model.BufferPool.

(** The states of a pool, with the buffers in the hands of its users, who give back only what they hold, give back everything when they call
    [releaseAllBuffers], and do not initialize again a pool that has buffers.  [h]: the rest of the heap, which does not change. *)
Inductive used (h : list Z) : pool -> list Z -> Prop :=
| used_new : used h (new_pool h) []
| used_get p held a b p' : used h p held -> ~ In a (heap p) -> getBuffer a p = Handed b p' -> used h p' (b :: held)
| used_release p held1 held2 b : used h p (held1 ++ b :: held2) -> used h (releaseBuffer b p) (held1 ++ held2)
| used_releaseAll p held : used h p held -> used h (releaseAllBuffers p) []
| used_initialize p held p' : used h p held -> buffers p = [] -> pool_initialize p = Some p' -> used h p' held
| used_setMax p held n : used h p held -> used h (pool_setMax n p) held.
