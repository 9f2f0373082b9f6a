(** C39 and C40: pools of buffers, signals and slots. *)
From Verif Require Export Proofs.BufferPoolProofs Proofs.SignalsProofs.

(** ** C39 *)

(** Whatever the calls, a buffer is handed to one user at a time and is allocated; the destructor frees every buffer once and nothing else; [getBuffer]
    waits only when as many buffers as allowed are in use.  Missing for the full claim: a pool initialized again after it was used. *)
Theorem C39_pool_partial : forall h p held, NoDup h -> used h p held ->
  NoDup held /\ (forall b, In b held -> In b (heap p) /\ ~ In b (availableBuffers p) /\ ~ In b h) /\
  (exists h', pool_delete p = Some h' /\ Permutation h' h) /\
  (forall a b p', ~ In a (heap p) -> getBuffer a p = Handed b p' -> ~ In b held) /\
  (forall a, getBuffer a p = Waits -> maxNumberOfBuffers p <= Z.of_nat (length held)).
Proof.
  intros h p held Nh U. destruct (used_inv h p held U) as [I1 I2 I3]. assert (ND : NoDup (held ++ availableBuffers p)) by (apply (Permutation_NoDup (Permutation_sym I1)); exact I3).
  split; [clear - ND; induction held as [|c held IH]; [constructor|]; inversion ND; subst; constructor; [intros Hc; apply H1, in_app_iff; left; exact Hc|apply IH; exact H2]|]. split; [|split; [|split]].
  - intros b Hb. split; [|split].
    + apply (Permutation_in b (Permutation_sym I2)), in_app_iff. left. apply (Permutation_in b I1), in_app_iff. left. exact Hb.
    + intros Ha. clear - ND Hb Ha. induction held as [|c held IH]; [destruct Hb|]. inversion ND; subst. destruct Hb as [->|Hb]; [apply H1, in_app_iff; right; exact Ha|apply IH; assumption].
    + intros Hh. assert (Hbu : In b (buffers p)) by (apply (Permutation_in b I1), in_app_iff; left; exact Hb).
      clear - U Hbu Hh. revert b Hbu Hh. induction U; intros c Hbu Hh; cbn [buffers new_pool releaseBuffer releaseAllBuffers pool_setMax] in *; eauto.
      * destruct p as [[|d av] bu mx hp]; unfold getBuffer, createBuffer, pool_top in H0; cbn [availableBuffers buffers maxNumberOfBuffers heap] in *.
        -- destruct (_ >=? _); [discriminate H0|]. injection H0 as <- <-. cbn [buffers] in Hbu. apply in_app_iff in Hbu as [Hbu|[<-|[]]]; [eauto|]. apply H.
           destruct (used_inv _ _ _ U) as [_ J _]. cbn [heap buffers] in J. apply (Permutation_in a (Permutation_sym J)), in_app_iff. right. exact Hh.
        -- injection H0 as <- <-. eauto.
      * unfold pool_initialize in H0. rewrite H in H0. cbn in H0. injection H0 as <-. eauto.
  - apply free_all. exact I2.
  - intros a b p' Fr E Hb. assert (U' : used h p' (b :: held)) by (eapply used_get; eassumption). destruct (used_inv _ _ _ U') as [J1 _ J3].
    apply (Permutation_NoDup (Permutation_sym J1)) in J3. inversion J3; subst. apply H1, in_app_iff. left. exact Hb.
  - intros a E. destruct p as [[|d av] bu mx hp]; unfold getBuffer, createBuffer, pool_top in E; cbn [availableBuffers buffers maxNumberOfBuffers heap] in *; [|discriminate E].
    destruct (Z.geb_spec (Z.of_nat (length bu)) mx) as [G|G]; [|discriminate E]. apply Permutation_length in I1. rewrite app_nil_r in I1. lia.
Qed.
Print Assumptions C39_pool_partial.

(** [initialize] on a pool that was used frees the free buffers but keeps them in the list of the buffers: the destructor frees them again. *)
Theorem C39_initialize_refuted : exists p1 p2, getBuffer 1 (new_pool []) = Handed 1 p1 /\ pool_initialize (releaseBuffer 1 p1) = Some p2 /\ pool_delete p2 = None.
Proof. do 2 eexists. split; [reflexivity|]. split; reflexivity. Qed.
Print Assumptions C39_initialize_refuted.

(** And if the allocator gives the same address again, two users get the same buffer. *)
Theorem C39_twice_refuted : exists p1 p2 p3 p4 p5, getBuffer 1 (new_pool []) = Handed 1 p1 /\ pool_initialize (releaseBuffer 1 p1) = Some p2 /\
  ~ In 1 (heap p2) /\ getBuffer 1 p2 = Handed 1 p3 /\ getBuffer 2 (releaseAllBuffers (releaseBuffer 1 p3)) = Handed 1 p4 /\ getBuffer 2 p4 = Handed 1 p5.
Proof. do 5 eexists. split; [reflexivity|]. split; [reflexivity|]. split; [intros []|]. repeat split; reflexivity. Qed.
Print Assumptions C39_twice_refuted.

Example C39_case : exists p, used [9] p [2; 1] /\ p = Pool [] [1; 2] (2 ^ 64 - 1) [2; 1; 9] /\ pool_delete p = Some [9].
Proof.
  eexists. split; [|split; reflexivity]. eapply used_get with (a := 2); [eapply used_get with (a := 1); [apply used_new| |reflexivity]| |reflexivity]; cbn; intuition discriminate.
Qed.
Example C39_case2 : exists p, used [] p [1] /\ getBuffer 3 p = Handed 2 (Pool [] [1; 2] (2 ^ 64 - 1) [2; 1]).
Proof.
  eexists. split.
  - apply (used_release [] (Pool [] [1; 2] (2 ^ 64 - 1) [2; 1]) [] [1] 2). eapply used_get with (a := 2); [eapply used_get with (a := 1); [apply used_new| |reflexivity]| |reflexivity]; cbn; intuition discriminate.
  - reflexivity.
Qed.

(** ** C40 *)

(** Any program that only uses objects that live, and does not call [disconnectAll]: no access to a destroyed object, a trigger runs exactly the
    connected slots in the order of connection, and the lists of the two sides agree. *)
Theorem C40_signals_partial : forall ops, Forall plain_op ops -> legal_ops net_start ops ->
  exists st, sig_run sig_start ops = Some (st, snd (net_trace net_start ops)) /\ agrees st (fst (net_trace net_start ops)).
Proof. intros ops. apply sig_run_ok, agrees_start. Qed.
Print Assumptions C40_signals_partial.

(** So a slot is in the list of a signal exactly when the signal is in the list of the slot, without repetition, and only live objects are listed. *)
Theorem C40_mutual : forall st n, agrees st n -> forall g k b ks,
  (sig_at st g = Some (b, ks) -> NoDup ks /\ (In k ks -> exists gs, slot_at st k = Some gs /\ In g gs)) /\
  (forall gs, slot_at st k = Some gs -> NoDup gs /\ (In g gs -> exists b ks, sig_at st g = Some (b, ks) /\ In k ks)).
Proof.
  intros st n (A1 & A2 & A3 & A4) g k b ks. split.
  - rewrite A1. destruct (alive_sig n g) as [b'|] eqn:G; [|discriminate]. intros E. injection E as <- <-. split; [apply slots_of_nodup; exact A3|]. intros H. apply slots_of_In in H.
    destruct (A4 _ _ H) as (_ & Hk). exists (signals_of k (links n)). split; [rewrite A2, Hk; reflexivity|apply signals_of_In; exact H].
  - intros gs. rewrite A2. destruct (alive_slot n k) eqn:K; [|discriminate]. intros E. injection E as <-. split; [apply signals_of_nodup; exact A3|]. intros H. apply signals_of_In in H.
    destruct (A4 _ _ H) as (Hg & _). destruct (alive_sig n g) as [b'|] eqn:G; [|congruence]. exists b', (slots_of g (links n)). split; [rewrite A1, G; reflexivity|apply slots_of_In; exact H].
Qed.
Print Assumptions C40_mutual.

(** [disconnectAll] does not empty the list of the signal: the slots still run, even after their destruction. *)
Definition cut_ops := [NewSignal 1; NewSlot 2; Connect 1 2; DisconnectAll 1; Trigger 1].
Theorem C40_disconnectAll_refuted : legal_ops net_start cut_ops /\ option_map snd (sig_run sig_start cut_ops) = Some [[]; []; []; []; [2]] /\ snd (net_trace net_start cut_ops) = [[]; []; []; []; []].
Proof. split; [repeat split; discriminate|]. split; reflexivity. Qed.
Print Assumptions C40_disconnectAll_refuted.
Definition dead_ops := [NewSignal 1; NewSlot 2; Connect 1 2; DisconnectAll 1; DeleteSlot 2; Trigger 1].
Theorem C40_dangling_refuted : legal_ops net_start dead_ops /\ sig_run sig_start dead_ops = None.
Proof. split; [repeat split; discriminate|reflexivity]. Qed.
Print Assumptions C40_dangling_refuted.

Definition live_ops := [NewSignal 1; NewSignal 5; NewSlot 2; NewSlot 3; NewSlot 4; Connect 1 3; Connect 1 2; Connect 5 2; Connect 1 4; Connect 1 3; Trigger 1; Disconnect 1 2; DeleteSlot 3; Trigger 1; DeleteSignal 1; Trigger 5].
Example C40_case : Forall plain_op live_ops /\ legal_ops net_start live_ops /\ snd (net_trace net_start live_ops) = [[]; []; []; []; []; []; []; []; []; []; [3; 2; 4]; []; []; [4]; []; [2]].
Proof. split; [repeat constructor|]. split; [repeat split; discriminate|reflexivity]. Qed.
