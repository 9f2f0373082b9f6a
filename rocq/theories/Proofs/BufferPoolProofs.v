(** Proofs on the pools of buffers. *)
From Verif Require Export Proofs.PreludeFacts Spec.BufferPoolSpec.

Lemma heap_free_perm a h : In a h -> exists h', heap_free a h = Some h' /\ Permutation h (a :: h').
Proof.
  induction h as [|b h IH]; intros H; [destruct H|]. cbn. destruct (Z.eqb_spec b a) as [->|N]; [exists h; split; reflexivity|].
  destruct H as [->|H]; [congruence|]. destruct (IH H) as (h' & E & P). rewrite E. exists (b :: h'). split; [reflexivity|].
  rewrite P. apply perm_swap.
Qed.
Lemma free_all l : forall h0 h, Permutation h0 (l ++ h) -> exists h', fold_opt (fun h a => heap_free a h) l h0 = Some h' /\ Permutation h' h.
Proof.
  induction l as [|a l IH]; intros h0 h P; [exists h0; split; [reflexivity|exact P]|]. cbn [fold_opt].
  destruct (heap_free_perm a h0) as (h1 & E & P1); [apply (Permutation_in a (Permutation_sym P)); left; reflexivity|]. rewrite E. cbn [option_bind]. apply IH.
  apply (Permutation_cons_inv (a := a)). rewrite <- P1. exact P.
Qed.

Record pool_inv (h : list Z) (p : pool) (held : list Z) : Prop := {
  pi_all : Permutation (held ++ availableBuffers p) (buffers p);
  pi_heap : Permutation (heap p) (buffers p ++ h);
  pi_nodup : NoDup (buffers p);
}.

Lemma used_inv h p held : used h p held -> pool_inv h p held.
Proof.
  intros U. induction U as [|p held a b p' U IH Fresh E|p held1 held2 b U IH|p held U IH|p held p' U IH E0 E|p held n U IH].
  - split; cbn; [constructor|reflexivity|constructor].
  - destruct IH as [I1 I2 I3]. destruct p as [av bu mx hp]. unfold getBuffer, createBuffer, pool_top in E. cbn [availableBuffers buffers maxNumberOfBuffers heap] in *. destruct av as [|c av].
    + destruct (_ >=? _); [discriminate E|]. injection E as <- <-. cbn [availableBuffers buffers heap] in *. rewrite app_nil_r in *. split; cbn [availableBuffers buffers heap].
      * rewrite app_nil_r. rewrite I1. apply Permutation_cons_append.
      * rewrite I2. rewrite <- app_assoc. cbn. apply Permutation_middle.
      * apply (Permutation_NoDup (Permutation_cons_append bu a)). constructor; [|exact I3]. intros H. apply Fresh. apply (Permutation_in a (Permutation_sym I2)). apply in_app_iff. left. exact H.
    + injection E as <- <-. split; cbn [availableBuffers buffers heap]; [|exact I2|exact I3]. rewrite <- I1. cbn. apply Permutation_middle.
  - destruct IH as [I1 I2 I3]. split; cbn [availableBuffers buffers heap releaseBuffer]; [|exact I2|exact I3]. rewrite <- I1. rewrite <- app_assoc. cbn. rewrite <- !app_assoc. apply Permutation_app_head. symmetry. apply Permutation_middle.
  - destruct IH as [I1 I2 I3]. split; cbn [availableBuffers buffers heap releaseAllBuffers]; [|exact I2|exact I3]. cbn. symmetry. apply Permutation_rev.
  - unfold pool_initialize in E. rewrite E0 in E. cbn in E. injection E as <-. exact IH.
  - destruct IH as [I1 I2 I3]. split; assumption.
Qed.
