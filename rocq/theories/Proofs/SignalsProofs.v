(** Proofs on signals and slots. *)
From Verif Require Export Proofs.PreludeFacts Spec.SignalsSpec.

Lemma pair_eqb_spec a b : pair_eqb a b = true <-> a = b.
Proof. unfold pair_eqb. destruct a, b. cbn. rewrite andb_true_iff, !Z.eqb_eq. split; [intros (-> & ->); reflexivity|intros E; injection E; auto]. Qed.
Lemma found_In k l : found k l = true <-> In k l.
Proof. unfold found. rewrite existsb_exists. split; [intros (x & Hx & E); apply Z.eqb_eq in E as ->; exact Hx|intros H; exists k; split; [exact H|apply Z.eqb_refl]]. Qed.
Lemma found_out k l : found k l = false <-> ~ In k l.
Proof. rewrite <- found_In. destruct (found k l); split; congruence. Qed.
Lemma slots_of_In g k l : In k (slots_of g l) <-> In (g, k) l.
Proof.
  unfold slots_of. rewrite in_map_iff. split.
  - intros ((a & b) & E & H). apply filter_In in H as (H & Eg). cbn in *. apply Z.eqb_eq in Eg. subst. exact H.
  - intros H. exists (g, k). split; [reflexivity|]. apply filter_In. split; [exact H|apply Z.eqb_refl].
Qed.
Lemma signals_of_In g k l : In g (signals_of k l) <-> In (g, k) l.
Proof.
  unfold signals_of. rewrite in_map_iff. split.
  - intros ((a & b) & E & H). apply filter_In in H as (H & Eg). cbn in *. apply Z.eqb_eq in Eg. subst. exact H.
  - intros H. exists (g, k). split; [reflexivity|]. apply filter_In. split; [exact H|apply Z.eqb_refl].
Qed.
Lemma slots_of_nodup g l : NoDup l -> NoDup (slots_of g l).
Proof.
  intros H. induction H as [|(a & b) l Ha H IH]; [constructor|]. unfold slots_of. cbn [filter fst]. destruct (Z.eqb_spec a g) as [->|N]; [|exact IH].
  cbn [map snd]. constructor; [|exact IH]. rewrite (slots_of_In g b l). exact Ha.
Qed.
Lemma signals_of_nodup k l : NoDup l -> NoDup (signals_of k l).
Proof.
  intros H. induction H as [|(a & b) l Ha H IH]; [constructor|]. unfold signals_of. cbn [filter snd]. destruct (Z.eqb_spec b k) as [->|N]; [|exact IH].
  cbn [map fst]. constructor; [|exact IH]. rewrite (signals_of_In a k l). exact Ha.
Qed.
Lemma drop_In P l c : In c (drop P l) <-> In c l /\ P c = false.
Proof. unfold drop. rewrite filter_In, negb_true_iff. reflexivity. Qed.
Lemma drop_nodup P l : NoDup l -> NoDup (drop P l).
Proof. apply NoDup_filter. Qed.
Lemma slots_of_app g l l' : slots_of g (l ++ l') = slots_of g l ++ slots_of g l'.
Proof. unfold slots_of. rewrite filter_app, map_app. reflexivity. Qed.
Lemma signals_of_app k l l' : signals_of k (l ++ l') = signals_of k l ++ signals_of k l'.
Proof. unfold signals_of. rewrite filter_app, map_app. reflexivity. Qed.

(** Erasing one occurrence from lists without repetition. *)
Lemma erase_first_out k l : ~ In k l -> erase_first k l = l.
Proof. induction l as [|a l IH]; intros H; [reflexivity|]. cbn. destruct (Z.eqb_spec a k) as [->|]; [exfalso; apply H; left; reflexivity|]. f_equal. apply IH. intros Hk. apply H. right. exact Hk. Qed.
Lemma erase_slots g k l : NoDup l -> erase_first k (slots_of g l) = slots_of g (drop (pair_eqb (g, k)) l).
Proof.
  intros H. induction H as [|(a & b) l Ha H IH]; [reflexivity|]. unfold slots_of, drop in *. cbn [filter fst]. unfold pair_eqb at 1. cbn [fst snd]. rewrite (Z.eqb_sym g a).
  destruct (Z.eqb_spec a g) as [->|N]; cbn [andb].
  - cbn [map snd erase_first]. rewrite (Z.eqb_sym k b). destruct (Z.eqb_spec b k) as [->|Nb]; cbn [negb].
    + rewrite <- IH. symmetry. apply erase_first_out. change (~ In k (slots_of g l)). rewrite slots_of_In. exact Ha.
    + cbn [filter fst]. rewrite Z.eqb_refl. cbn [map snd]. f_equal. exact IH.
  - cbn [negb filter fst]. destruct (Z.eqb_spec a g); [contradiction|]. exact IH.
Qed.
Lemma erase_signals g k l : NoDup l -> erase_first g (signals_of k l) = signals_of k (drop (pair_eqb (g, k)) l).
Proof.
  intros H. induction H as [|(a & b) l Ha H IH]; [reflexivity|]. unfold signals_of, drop in *. cbn [filter snd]. unfold pair_eqb at 1. cbn [fst snd]. rewrite (Z.eqb_sym k b), andb_comm.
  destruct (Z.eqb_spec b k) as [->|N]; cbn [andb].
  - cbn [map fst erase_first]. rewrite (Z.eqb_sym g a). destruct (Z.eqb_spec a g) as [->|Nb]; cbn [negb].
    + rewrite <- IH. symmetry. apply erase_first_out. change (~ In g (signals_of k l)). rewrite signals_of_In. exact Ha.
    + cbn [filter snd]. rewrite Z.eqb_refl. cbn [map fst]. f_equal. exact IH.
  - cbn [negb filter snd]. destruct (Z.eqb_spec b k); [contradiction|]. exact IH.
Qed.
Lemma filter_filter_out {A} (P Q : A -> bool) l : (forall c, P c = true -> Q c = true) -> filter P (filter Q l) = filter P l.
Proof. intros H. induction l as [|a l IH]; [reflexivity|]. cbn. destruct (Q a) eqn:E; cbn; destruct (P a) eqn:E'; try (rewrite IH; reflexivity); apply H in E'; congruence. Qed.
Lemma filter_filter {A} (P Q : A -> bool) l : filter P (filter Q l) = filter (fun c => P c && Q c) l.
Proof. induction l as [|a l IH]; [reflexivity|]. cbn. destruct (Q a); cbn; destruct (P a); cbn; rewrite IH; reflexivity. Qed.
Lemma slots_drop_other g P l : (forall c, fst c = g -> P c = false) -> slots_of g (drop P l) = slots_of g l.
Proof. intros H. unfold slots_of, drop. f_equal. apply filter_filter_out. intros c E. apply Z.eqb_eq in E. rewrite (H c E). reflexivity. Qed.
Lemma signals_drop_other k P l : (forall c, snd c = k -> P c = false) -> signals_of k (drop P l) = signals_of k l.
Proof. intros H. unfold signals_of, drop. f_equal. apply filter_filter_out. intros c E. apply Z.eqb_eq in E. rewrite (H c E). reflexivity. Qed.
Lemma drop_drop P Q l : drop P (drop Q l) = drop (fun c => P c || Q c) l.
Proof. unfold drop. induction l as [|a l IH]; [reflexivity|]. cbn. destruct (Q a) eqn:E; cbn; rewrite ?orb_true_r, ?orb_false_r; [exact IH|]. destruct (P a); cbn; rewrite IH; reflexivity. Qed.
Lemma drop_ext P Q l : (forall c, In c l -> P c = Q c) -> drop P l = drop Q l.
Proof. intros H. apply filter_ext_in. intros c Hc. rewrite (H c Hc). reflexivity. Qed.
Lemma drop_none P l : (forall c, In c l -> P c = false) -> drop P l = l.
Proof. intros H. induction l as [|a l IH]; [reflexivity|]. unfold drop in *. cbn. rewrite (H a (or_introl eq_refl)). cbn. f_equal. apply IH. intros c Hc. apply H. right. exact Hc. Qed.

(** ** One operation *)

Section Steps.
  Variables (st : sigstate) (n : net).
  Hypothesis A : agrees st n.

  Lemma step_new_signal g : alive_sig n g = None -> agrees (SigState (set_at (sig_at st) g (Some (true, []))) (slot_at st)) (net_step n (NewSignal g)).
  Proof.
    intros D. destruct A as (A1 & A2 & A3 & A4). split; [|split; [exact A2|split; [exact A3|]]]; cbn [sig_at slot_at net_step links alive_sig alive_slot].
    - intros i. unfold set_at. destruct (Z.eqb_spec i g) as [->|]; [|apply A1]. do 2 f_equal. symmetry. destruct (slots_of g (links n)) as [|k r] eqn:E; [reflexivity|]. exfalso.
      assert (H : In k (slots_of g (links n))) by (rewrite E; left; reflexivity). apply slots_of_In, A4 in H. tauto.
    - intros g' k H. apply A4 in H as (H1 & H2). split; [|exact H2]. destruct (g' =? g); [discriminate|exact H1].
  Qed.
  Lemma step_new_slot k : alive_slot n k = false -> agrees (SigState (sig_at st) (set_at (slot_at st) k (Some []))) (net_step n (NewSlot k)).
  Proof.
    intros D. destruct A as (A1 & A2 & A3 & A4). split; [exact A1|split; [|split; [exact A3|]]]; cbn [sig_at slot_at net_step links alive_sig alive_slot].
    - intros i. unfold set_at. destruct (Z.eqb_spec i k) as [->|]; [|apply A2]. f_equal. symmetry. destruct (signals_of k (links n)) as [|g r] eqn:E; [reflexivity|]. exfalso.
      assert (H : In g (signals_of k (links n))) by (rewrite E; left; reflexivity). apply signals_of_In, A4 in H. destruct H. congruence.
    - intros g k' H. apply A4 in H as (H1 & H2). split; [exact H1|]. destruct (k' =? k); [reflexivity|exact H2].
  Qed.
  Lemma step_connect g k : alive_sig n g <> None -> alive_slot n k = true -> exists st', connect g k true st = Some st' /\ agrees st' (net_step n (Connect g k)).
  Proof.
    intros Hg Hk. destruct A as (A1 & A2 & A3 & A4). unfold connect. rewrite A1. destruct (alive_sig n g) as [b|] eqn:G; [|congruence]. cbn [option_bind fst snd].
    cbn [net_step]. destruct (existsb (pair_eqb (g, k)) (links n)) eqn:X.
    - assert (I : In (g, k) (links n)). { apply existsb_exists in X as (c & Hc & E). apply pair_eqb_spec in E as <-. exact Hc. }
      rewrite (proj2 (found_In k _) (proj2 (slots_of_In g k _) I)). exists st. split; [reflexivity|]. destruct n. exact A.
    - assert (I : ~ In (g, k) (links n)). { intros H. assert (existsb (pair_eqb (g, k)) (links n) = true); [|congruence]. apply existsb_exists. exists (g, k). split; [exact H|]. apply pair_eqb_spec. reflexivity. }
      rewrite (proj2 (found_out k _)) by (rewrite slots_of_In; exact I). unfold registerSignal. cbn [slot_at]. rewrite A2, Hk. cbn [option_bind].
      rewrite (proj2 (found_out g _)) by (rewrite signals_of_In; exact I). eexists. split; [reflexivity|]. split; [|split; [|split]]; cbn [sig_at slot_at links alive_sig alive_slot].
      + intros i. unfold set_at. rewrite slots_of_app. unfold slots_of at 3. cbn [filter fst]. rewrite (Z.eqb_sym g i). destruct (Z.eqb_spec i g) as [->|]; [rewrite G; reflexivity|]. cbn [map]. rewrite app_nil_r. apply A1.
      + intros i. unfold set_at. rewrite signals_of_app. unfold signals_of at 3. cbn [filter snd]. rewrite (Z.eqb_sym k i). destruct (Z.eqb_spec i k) as [->|]; [rewrite Hk; reflexivity|]. cbn [map]. rewrite app_nil_r. apply A2.
      + apply NoDup_app_iff || idtac. clear - A3 I. induction A3 as [|c l Hc A3 IH]; cbn; [constructor; [intros []|constructor]|]. constructor.
        * rewrite in_app_iff. cbn. intros [H|[H|[]]]; [exact (Hc H)|]. apply I. left. symmetry. exact H.
        * apply IH. intros H. apply I. right. exact H.
      + intros g' k' H. apply in_app_iff in H as [H|[E|[]]]; [apply A4; exact H|]. injection E as <- <-. split; [congruence|exact Hk].
  Qed.
  Lemma step_disconnect g k : alive_sig n g <> None -> alive_slot n k = true -> exists st', disconnect g k st = Some st' /\ agrees st' (net_step n (Disconnect g k)).
  Proof.
    intros Hg Hk. destruct A as (A1 & A2 & A3 & A4). unfold disconnect, disconnect_only. rewrite A1. destruct (alive_sig n g) as [b|] eqn:G; [|congruence]. cbn [option_bind fst snd].
    destruct (found k (slots_of g (links n))) eqn:F.
    - cbn [option_bind]. unfold unregisterSignal. cbn [slot_at]. rewrite A2, Hk. cbn [option_bind]. apply found_In, slots_of_In in F.
      rewrite (proj2 (found_In g _) (proj2 (signals_of_In g k _) F)). cbn [option_bind]. eexists. split; [reflexivity|]. split; [|split; [|split]]; cbn [sig_at slot_at net_step links alive_sig alive_slot].
      + intros i. unfold set_at. destruct (Z.eqb_spec i g) as [->|N]; [rewrite G, erase_slots by exact A3; reflexivity|]. rewrite slots_drop_other; [apply A1|].
        intros c <-. unfold pair_eqb. cbn [fst]. destruct (Z.eqb_spec g (fst c)); [congruence|reflexivity].
      + intros i. unfold set_at. destruct (Z.eqb_spec i k) as [->|N]; [rewrite Hk, erase_signals by exact A3; reflexivity|]. rewrite signals_drop_other; [apply A2|].
        intros c <-. unfold pair_eqb. cbn [fst snd]. destruct (Z.eqb_spec k (snd c)); [congruence|apply andb_false_r].
      + apply drop_nodup. exact A3.
      + intros g' k' H. apply drop_In in H as (H & _). apply A4. exact H.
    - exists st. split; [reflexivity|]. cbn [net_step]. rewrite drop_none; [destruct n; exact A|]. intros c Hc. destruct (pair_eqb (g, k) c) eqn:E; [|reflexivity]. apply pair_eqb_spec in E as <-.
      apply found_out in F. exfalso. apply F. apply slots_of_In. exact Hc.
  Qed.

  (** The lists of the slots while a signal is destroyed. *)
  Lemma disconnect_all g b : alive_sig n g = Some b -> exists st', disconnectAll g st = Some st' /\ sig_at st' = sig_at st /\
    forall k, slot_at st' k = if alive_slot n k then Some (signals_of k (drop (fun c => fst c =? g) (links n))) else None.
  Proof.
    intros G. destruct A as (A1 & A2 & A3 & A4). unfold disconnectAll. rewrite A1, G. cbn [option_bind snd].
    assert (K : forall l done, NoDup (done ++ l) -> (forall k, In k (done ++ l) <-> In (g, k) (links n)) -> forall s0,
      sig_at s0 = sig_at st -> (forall k, slot_at s0 k = if alive_slot n k then Some (signals_of k (drop (fun c => (fst c =? g) && found (snd c) done) (links n))) else None) ->
      exists st', fold_opt (fun st k => unregisterSignal k g false st) l s0 = Some st' /\ sig_at st' = sig_at st /\
        forall k, slot_at st' k = if alive_slot n k then Some (signals_of k (drop (fun c => (fst c =? g) && found (snd c) (done ++ l)) (links n))) else None).
    { induction l as [|k l IH]; intros done ND HI s0 E1 E2.
      - exists s0. rewrite app_nil_r. auto.
      - cbn [fold_opt]. assert (I : In (g, k) (links n)) by (apply HI, in_elt). destruct (A4 _ _ I) as (_ & Hk).
        assert (Nk : ~ In k done). { apply NoDup_remove_2 in ND. intros H. apply ND. apply in_app_iff. left. exact H. }
        unfold unregisterSignal at 1. rewrite E2, Hk. cbn [option_bind].
        rewrite (proj2 (found_In g _)). 2:{ apply signals_of_In, drop_In. split; [exact I|]. cbn [fst snd]. rewrite (proj2 (found_out k done) Nk). apply andb_false_r. }
        cbn [option_bind]. replace (done ++ k :: l) with ((done ++ [k]) ++ l) in * by (rewrite <- app_assoc; reflexivity). apply IH; [exact ND|exact HI|exact E1|].
        intros j. cbn [slot_at]. unfold set_at. destruct (Z.eqb_spec j k) as [->|Nj].
        + rewrite Hk, erase_signals by (apply drop_nodup; exact A3). rewrite drop_drop. do 2 f_equal. apply drop_ext. intros (a & c) _. unfold pair_eqb. cbn [fst snd]. unfold found. rewrite existsb_app. cbn [existsb].
          rewrite (Z.eqb_sym g a), (Z.eqb_sym k c). destruct (a =? g), (existsb (Z.eqb c) done), (c =? k); reflexivity.
        + rewrite E2. destruct (alive_slot n j); [|reflexivity]. f_equal. unfold signals_of, drop. f_equal. rewrite !filter_filter. 
          apply filter_ext_in. intros (a & c) _. cbn [fst snd]. unfold found. rewrite existsb_app. cbn [existsb]. destruct (Z.eqb_spec c j) as [->|]; [|reflexivity]. cbn [andb]. destruct (Z.eqb_spec j k); [contradiction|]. rewrite orb_false_r. reflexivity. }
    destruct (K (slots_of g (links n)) []) with (s0 := st) as (st' & E & E1 & E2).
    - apply slots_of_nodup. exact A3.
    - intros k. apply slots_of_In.
    - reflexivity.
    - intros k. rewrite A2. destruct (alive_slot n k); [|reflexivity]. rewrite drop_none; [reflexivity|]. intros c _. cbn. apply andb_false_r.
    - exists st'. split; [exact E|]. split; [exact E1|]. intros k. rewrite E2. destruct (alive_slot n k); [|reflexivity]. do 2 f_equal. apply drop_ext. intros (a & c) Hc. cbn [fst snd app].
      destruct (Z.eqb_spec a g) as [->|]; [|reflexivity]. cbn [andb]. apply found_In, slots_of_In. exact Hc.
  Qed.
  Lemma step_delete_signal g : alive_sig n g <> None -> exists st', option_bind (disconnectAll g st) (fun st => Some (SigState (set_at (sig_at st) g None) (slot_at st))) = Some st' /\ agrees st' (net_step n (DeleteSignal g)).
  Proof.
    intros Hg. destruct (alive_sig n g) as [b|] eqn:G; [|congruence]. destruct (disconnect_all g b G) as (st' & E & E1 & E2). destruct A as (A1 & A2 & A3 & A4). rewrite E. cbn [option_bind].
    eexists. split; [reflexivity|]. split; [|split; [|split]]; cbn [sig_at slot_at net_step links alive_sig alive_slot].
    - intros i. unfold set_at. destruct (Z.eqb_spec i g) as [->|N]; [reflexivity|]. rewrite E1, A1. rewrite slots_drop_other; [reflexivity|]. intros c <-. destruct (Z.eqb_spec (fst c) g); [contradiction|reflexivity].
    - exact E2.
    - apply drop_nodup. exact A3.
    - intros g' k H. apply drop_In in H as (H & N). cbn [fst] in N. rewrite N. apply A4. exact H.
  Qed.
  Lemma step_delete_slot k : alive_slot n k = true -> exists st', option_bind (unregisterAll k st) (fun st => Some (SigState (sig_at st) (set_at (slot_at st) k None))) = Some st' /\ agrees st' (net_step n (DeleteSlot k)).
  Proof.
    intros Hk. destruct A as (A1 & A2 & A3 & A4). unfold unregisterAll. rewrite A2, Hk. cbn [option_bind].
    assert (K : forall l done, NoDup (done ++ l) -> (forall g, In g (done ++ l) <-> In (g, k) (links n)) -> forall s0,
      slot_at s0 = slot_at st -> (forall g, sig_at s0 g = match alive_sig n g with Some b => Some (b, slots_of g (drop (fun c => (snd c =? k) && found (fst c) done) (links n))) | None => None end) ->
      exists st', fold_opt (fun st g => disconnect_only g k st) l s0 = Some st' /\ slot_at st' = slot_at st /\
        forall g, sig_at st' g = match alive_sig n g with Some b => Some (b, slots_of g (drop (fun c => (snd c =? k) && found (fst c) (done ++ l)) (links n))) | None => None end).
    { induction l as [|g l IH]; intros done ND HI s0 E1 E2.
      - exists s0. rewrite app_nil_r. auto.
      - cbn [fold_opt]. assert (I : In (g, k) (links n)) by (apply HI, in_elt). destruct (A4 _ _ I) as (Hg & _). destruct (alive_sig n g) as [b|] eqn:G; [|congruence].
        assert (Nk : ~ In g done). { apply NoDup_remove_2 in ND. intros H. apply ND. apply in_app_iff. left. exact H. }
        unfold disconnect_only at 1. rewrite E2, G. cbn [option_bind fst snd].
        rewrite (proj2 (found_In k _)). 2:{ apply slots_of_In, drop_In. split; [exact I|]. cbn [fst snd]. rewrite (proj2 (found_out g done) Nk). apply andb_false_r. }
        cbn [option_bind]. replace (done ++ g :: l) with ((done ++ [g]) ++ l) in * by (rewrite <- app_assoc; reflexivity). apply IH; [exact ND|exact HI|exact E1|].
        intros j. cbn [sig_at]. unfold set_at. destruct (Z.eqb_spec j g) as [->|Nj].
        + rewrite G, erase_slots by (apply drop_nodup; exact A3). rewrite drop_drop. do 3 f_equal. apply drop_ext. intros (a & c) _. unfold pair_eqb. cbn [fst snd]. unfold found. rewrite existsb_app. cbn [existsb].
          rewrite (Z.eqb_sym g a), (Z.eqb_sym k c). destruct (a =? g), (existsb (Z.eqb a) done), (c =? k); reflexivity.
        + rewrite E2. destruct (alive_sig n j); [|reflexivity]. do 2 f_equal. unfold slots_of, drop. f_equal. rewrite !filter_filter.
          apply filter_ext_in. intros (a & c) _. cbn [fst snd]. unfold found. rewrite existsb_app. cbn [existsb]. destruct (Z.eqb_spec a j) as [->|]; [|reflexivity]. cbn [andb]. destruct (Z.eqb_spec j g); [contradiction|]. rewrite orb_false_r. reflexivity. }
    destruct (K (signals_of k (links n)) []) with (s0 := st) as (st' & E & E1 & E2).
    - apply signals_of_nodup. exact A3.
    - intros g. apply signals_of_In.
    - reflexivity.
    - intros g. rewrite A1. destruct (alive_sig n g); [|reflexivity]. rewrite drop_none; [reflexivity|]. intros c _. cbn. apply andb_false_r.
    - rewrite E. cbn [option_bind]. eexists. split; [reflexivity|]. split; [|split; [|split]]; cbn [sig_at slot_at net_step links alive_sig alive_slot].
      + intros g. rewrite E2. destruct (alive_sig n g); [|reflexivity]. do 3 f_equal. apply drop_ext. intros (a & c) Hc. cbn [fst snd app].
        destruct (Z.eqb_spec c k) as [->|]; [|reflexivity]. cbn [andb]. apply found_In, signals_of_In. exact Hc.
      + intros i. unfold set_at. destruct (Z.eqb_spec i k) as [->|N]; [reflexivity|]. rewrite E1, A2. rewrite signals_drop_other; [reflexivity|]. intros c <-. destruct (Z.eqb_spec (snd c) k); [contradiction|reflexivity].
      + apply drop_nodup. exact A3.
      + intros g k' H. apply drop_In in H as (H & N). cbn [snd] in N. rewrite N. apply A4. exact H.
  Qed.
  Lemma step_trigger g : alive_sig n g <> None -> trigger g st = Some (net_runs n (Trigger g)).
  Proof.
    intros Hg. destruct A as (A1 & A2 & A3 & A4). unfold trigger. rewrite A1. cbn [net_runs]. destruct (alive_sig n g) as [[]|] eqn:G; [|reflexivity|congruence]. cbn [option_bind fst snd].
    assert (K : forall l run, (forall k, In k l -> In (g, k) (links n)) -> fold_opt (fun run k => option_bind (slot_at st k) (fun _ => Some (run ++ [k]))) l run = Some (run ++ l)).
    { induction l as [|k l IH]; intros run H; [rewrite app_nil_r; reflexivity|]. cbn [fold_opt]. rewrite A2. destruct (A4 g k (H k (or_introl eq_refl))) as (_ & Hk). rewrite Hk. cbn [option_bind].
      rewrite IH by (intros j Hj; apply H; right; exact Hj). rewrite <- app_assoc. reflexivity. }
    apply (K _ []). intros k Hk. apply slots_of_In. exact Hk.
  Qed.
End Steps.

Definition plain_op (op : sig_op) : Prop := match op with DisconnectAll _ => False | _ => True end.

Lemma sig_step_ok st n op : agrees st n -> plain_op op -> legal_op n op -> exists st', sig_step st op = Some (st', net_runs n op) /\ agrees st' (net_step n op).
Proof.
  intros A Hp L. destruct op as [g|k|g k|g k|g|g|k|g b|g]; cbn [sig_step legal_op] in *.
  - eexists. split; [reflexivity|]. apply step_new_signal; assumption.
  - eexists. split; [reflexivity|]. apply step_new_slot; assumption.
  - destruct (step_connect st n A g k (proj1 L) (proj2 L)) as (st' & E & A'). exists st'. rewrite E. split; [reflexivity|exact A'].
  - destruct (step_disconnect st n A g k (proj1 L) (proj2 L)) as (st' & E & A'). exists st'. rewrite E. split; [reflexivity|exact A'].
  - destruct Hp.
  - destruct (step_delete_signal st n A g L) as (st' & E & A'). exists st'. rewrite E. split; [reflexivity|exact A'].
  - destruct (step_delete_slot st n A k L) as (st' & E & A'). exists st'. rewrite E. split; [reflexivity|exact A'].
  - destruct A as (A1 & A2 & A3 & A4). rewrite A1. destruct (alive_sig n g) as [b'|] eqn:G; [|congruence]. cbn. eexists. split; [reflexivity|]. split; [|split; [exact A2|split; [exact A3|]]]; cbn [sig_at slot_at net_step links alive_sig alive_slot].
    + intros i. unfold set_at. destruct (Z.eqb_spec i g) as [->|]; [reflexivity|apply A1].
    + intros g' k H. apply A4 in H as (H1 & H2). split; [|exact H2]. destruct (g' =? g); [discriminate|exact H1].
  - rewrite (step_trigger st n A g L). exists st. split; [reflexivity|exact A].
Qed.

Theorem sig_run_ok ops : forall st n, agrees st n -> Forall plain_op ops -> legal_ops n ops ->
  exists st', sig_run st ops = Some (st', snd (net_trace n ops)) /\ agrees st' (fst (net_trace n ops)).
Proof.
  induction ops as [|op ops IH]; intros st n A Hp L; [exists st; split; [reflexivity|exact A]|]. inversion Hp; subst. destruct L as (L1 & L2).
  destruct (sig_step_ok st n op A H1 L1) as (st1 & E1 & A1). destruct (IH st1 _ A1 H2 L2) as (st' & E & A'). exists st'. cbn [sig_run net_trace]. rewrite E1. cbn [option_bind fst snd]. rewrite E. split; [reflexivity|exact A'].
Qed.
Lemma agrees_start : agrees sig_start net_start.
Proof. split; [reflexivity|]. split; [reflexivity|]. split; [constructor|intros g k []]. Qed.
