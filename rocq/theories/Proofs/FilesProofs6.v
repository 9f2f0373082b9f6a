(** Stacks of files. *)
From Verif Require Export Proofs.FilesProofs5 Proofs.TransformProofs.

Definition slice_of (image : img) (z : Z) (s : img) : Prop :=
  wf_img s /\ sz s = Dims (width image) (height image) 1 /\ forall x y v, pixel_is image x y z v -> pixel_is s x y 0 v.
Definition flat_size (image : img) (s : img) : Prop := wf_img s /\ sz s = Dims (width image) (height image) 1.

Lemma bytes_eqb_spec a b : reflect (a = b) (bytes_eqb a b).
Proof. unfold bytes_eqb. destruct (list_eq_dec Z.eq_dec a b); constructor; assumption. Qed.

Section Stack.
  Variables (sched : sched3) (image : img).
  Hypothesis HS : legal_sched sched.
  Hypothesis W : wf_img image.
  Hypothesis Ne : nonempty image.
  Hypothesis Sm : small (sz image).
  Notation w := (width image).
  Notation h := (height image).
  Notation d := (depth image).

  Lemma flat_small s : flat_size image s -> small (sz s) /\ inside (sz s) 0 0 0.
  Proof using Ne Sm.
    intros (Ws & ->). unfold nonempty, small, inside, width, height, depth in *. cbn [dw dh dd]. destruct Sm as (S1 & S2 & S3 & S4). assert (dw (sz image) * dh (sz image) * 1 <= dw (sz image) * dh (sz image) * dd (sz image)) by nia. lia.
  Qed.

  Lemma copy_slice z tmp : 0 <= z < d -> flat_size image tmp -> exists s, copy_range (fun v => v) sched image 0 0 z w h d tmp 0 0 0 = Some (1, s) /\ slice_of image z s.
  Proof using HS W Ne Sm.
    intros Hz Ft. destruct (flat_small tmp Ft) as (St & It). destruct Ft as (Wt & Et). unfold width, height, depth in *. assert (Ne2 := Ne). destruct Ne2 as (N1 & N2 & N3).
    destruct (copy_range_ok (fun v => v) sched image 0 0 z (dw (sz image)) (dh (sz image)) (dd (sz image)) tmp 0 0 0 HS W Wt Sm St ltac:(unfold inside; lia) It ltac:(lia) ltac:(lia) ltac:(lia)) as (out & E & Wo & So & P & _).
    exists out. split; [exact E|]. split; [exact Wo|]. split; [rewrite So; exact Et|]. intros x y v Px. assert (Hin := proj1 Px). destruct Hin as (H1 & H2 & H3).
    specialize (P x y 0 v ltac:(lia) ltac:(lia) ltac:(lia)). rewrite !Z.add_0_l, Z.add_0_r in P. apply P; [exact Px|]. rewrite Et. unfold inside. cbn. lia.
  Qed.

  (** [out] has the first [n] slices of the image. *)
  Definition upto (n : Z) (out : img) : Prop := wf_img out /\ sz out = sz image /\ forall x y z v, z < n -> pixel_is image x y z v -> pixel_is out x y z v.

  Lemma copy_back n s out : 0 <= n < d -> slice_of image n s -> upto n out -> exists out', copy_range (fun v => v) sched s 0 0 0 (width s) (height s) (depth s) out 0 0 n = Some (1, out') /\ upto (n + 1) out'.
  Proof using HS W Ne Sm.
    intros Hn (Ws & Es & Ps) (Wo & Eo & Po). destruct (flat_small s (conj Ws Es)) as (Ss & Is). unfold width, height, depth in *. rewrite Es. cbn [dw dh dd]. assert (Ne2 := Ne). destruct Ne2 as (N1 & N2 & N3).
    destruct (copy_range_ok (fun v => v) sched s 0 0 0 (dw (sz image)) (dh (sz image)) 1 out 0 0 n HS Ws Wo Ss ltac:(rewrite Eo; exact Sm) Is ltac:(rewrite Eo; unfold inside; lia) ltac:(lia) ltac:(lia) ltac:(lia)) as (out' & E & W' & S' & P & Q).
    exists out'. split; [exact E|]. split; [exact W'|]. split; [congruence|]. intros x y z v Hz Px. assert (Hin := proj1 Px). destruct Hin as (H1 & H2 & H3). destruct (Z.eq_dec z n) as [->|Nz].
    - specialize (P x y 0 v ltac:(lia) ltac:(lia) ltac:(lia)). rewrite !Z.add_0_l, Z.add_0_r in P. apply P; [apply Ps; exact Px|]. rewrite Eo. unfold inside. lia.
    - apply Q; [|apply Po; [lia|exact Px]]. intros (i & j & k & A). lia.
  Qed.

  Variable wrf : list Z -> img -> list Z.
  Lemma stack_files_ok : forall names z tmp fs, 0 <= z -> z + Z.of_nat (length names) <= d -> NoDup names -> flat_size image tmp ->
    exists fs', stack_files wrf sched image z names tmp fs = Some (1, fs') /\ (forall n, ~ In n names -> fs' n = fs n) /\
      forall k name, rd names k = Some name -> exists s, slice_of image (z + k) s /\ fs' name = Some (wrf name s).
  Proof using HS W Ne Sm.
    induction names as [|name names IH]; intros z tmp fs Hz Hl ND Ft.
    - exists fs. split; [reflexivity|]. split; [reflexivity|]. intros k name R. pose proof (rd_Some_range _ _ _ R). cbn in *. lia.
    - cbn [stack_files length] in *. inversion ND as [|? ? N1 N2]; subst. destruct (copy_slice z tmp ltac:(lia) Ft) as (s & -> & Ss). cbn [option_bind Z.eqb Pos.eqb negb].
      destruct (IH (z + 1) s (fs_put fs name (wrf name s)) ltac:(lia) ltac:(lia) N2) as (fs' & E & O & R); [split; apply Ss|]. exists fs'. split; [exact E|]. split.
      + intros n Hn. rewrite O by (intros Q; apply Hn; right; exact Q). unfold fs_put. destruct (bytes_eqb_spec n name) as [->|]; [exfalso; apply Hn; left; reflexivity|reflexivity].
      + intros k nm Rk. pose proof (rd_Some_range _ _ _ Rk). destruct (Z.eq_dec k 0) as [->|Nk].
        * injection Rk as <-. exists s. rewrite Z.add_0_r. split; [exact Ss|]. rewrite O by exact N1. unfold fs_put. destruct (bytes_eqb_spec name name); [reflexivity|congruence].
        * destruct (R (k - 1) nm) as (s' & A & B); [|exists s'; split; [replace (z + k) with (z + 1 + (k - 1)) by lia; exact A|exact B]].
          rewrite <- Rk. unfold rd. replace (0 <=? k) with true by lia. replace (0 <=? k - 1) with true by lia. replace (Z.to_nat k) with (S (Z.to_nat (k - 1))) by lia. reflexivity.
  Qed.

  Variables (rf : list Z -> img -> option (option (Z * img))).
  Variable names : list (list Z).
  Hypothesis Hn : Z.of_nat (length names) = d.
  Hypothesis Hn2 : d < 2 ^ 32.
  Hypothesis ND : NoDup names.
  Hypothesis RT : forall k name s old, rd names k = Some name -> slice_of image k s -> wf_img old -> rf (wrf name s) old = Some (Some (1, s)).

  Lemma stack_rest_ok fs : (forall k name, rd names k = Some name -> exists s, slice_of image k s /\ fs name = Some (wrf name s)) ->
    forall rest z tmp out, 0 <= z -> (forall k, 0 <= k < Z.of_nat (length rest) -> rd rest k = rd names (z + k)) -> z + Z.of_nat (length rest) = d -> wf_img tmp -> upto z out ->
    exists out', stack_rest rf sched fs z rest tmp out = Some (Some (1, out')) /\ upto d out'.
  Proof using HS W Ne Sm Hn RT.
    intros F. induction rest as [|name rest IH]; intros z tmp out Hz Hr Hl Wt U.
    - cbn in *. exists out. split; [reflexivity|]. replace d with z by lia. exact U.
    - cbn [stack_rest length] in *. assert (R0 : rd names z = Some name) by (specialize (Hr 0 ltac:(lia)); rewrite Z.add_0_r in Hr; rewrite <- Hr; reflexivity).
      destruct (F z name R0) as (s & Ss & Fs). unfold read_name. rewrite Fs, (RT z name s tmp R0 Ss Wt). cbn [fuel_bind Z.eqb Pos.eqb negb]. destruct (copy_back z s out ltac:(lia) Ss U) as (out' & E & U'). rewrite E. cbn [option_bind Z.eqb Pos.eqb negb].
      apply IH; [lia| |lia|apply Ss|exact U']. intros k Hk. replace (z + 1 + k) with (z + (k + 1)) by lia. rewrite <- Hr by lia. unfold rd. replace (0 <=? k) with true by lia. replace (0 <=? k + 1) with true by lia. replace (Z.to_nat (k + 1)) with (S (Z.to_nat k)) by lia. reflexivity.
  Qed.

  Theorem stack_roundtrip mem fs0 out : wf_img out -> exists fs, stack_write wrf mem sched fs0 image names = Some (1, fs) /\ (forall n, ~ In n names -> fs n = fs0 n) /\ stack_read rf mem sched fs names out = Some (Some (1, image)).
  Proof using HS W Ne Sm Hn Hn2 ND RT.
    intros Wo. assert (Ne2 := Ne). destruct Ne2 as (N1 & N2 & N3). assert (N3' : 0 < d) by exact N3. unfold stack_write. rewrite Hn, to_uint_id by lia. rewrite Z.eqb_refl. cbn [negb].
    set (tmp := Img (Dims w h 1) _). assert (Ft : flat_size image tmp) by (unfold flat_size, tmp; split; [split; [unfold wf_dims, width, height; cbn; lia|cbn [pixs sz dw dh dd]; rewrite map_length, zseq_length; unfold width, height; nia]|reflexivity]).
    destruct (stack_files_ok names 0 tmp fs0 ltac:(lia) ltac:(lia) ND Ft) as (fs & E & O & F). exists fs. split; [exact E|]. split; [exact O|]. cbn [Z.add] in F. unfold stack_read. destruct names as [|name rest] eqn:En; [cbn in Hn; lia|]. rewrite <- En in *.
    assert (R0 : rd names 0 = Some name) by (rewrite En; reflexivity). destruct (F 0 name R0) as (s & Ss & Fs). unfold read_name. rewrite Fs. rewrite (RT 0 name s _ R0 Ss) by (split; [unfold wf_dims; cbn; lia|reflexivity]). cbn [fuel_bind Z.eqb Pos.eqb negb].
    assert (Ld : Z.of_nat (length rest) + 1 = d) by (rewrite En in Hn; cbn [length] in Hn; lia). assert (Es := proj1 (proj2 Ss)). assert (ES : Dims (width s) (height s) (Z.of_nat (length rest) + 1) = sz image) by (rewrite Ld; unfold width, height, depth in *; rewrite Es; cbn; destruct (sz image); reflexivity). rewrite ES.
    destruct (setSize_wf mem out (sz image) Wo ltac:(apply W)) as (W1 & S1). rewrite S1. set (im0 := Img (sz image) _). assert (U0 : upto 0 im0).
    { unfold upto, im0. split; [split; [apply W|cbn [pixs sz]; rewrite map_length; destruct W1 as (_ & W1); rewrite S1 in W1; exact W1]|]. split; [reflexivity|]. intros x y z v Hz Px. destruct Px as ((_ & _ & H3) & _). lia. }
    destruct (copy_back 0 s im0 ltac:(lia) Ss U0) as (im1 & E1 & U1). rewrite E1. cbn [option_bind Z.eqb Pos.eqb negb].
    destruct (stack_rest_ok fs F rest 1 s im1 ltac:(lia)) as (im2 & E2 & (W2 & S2 & P2)); [|lia|apply Ss|exact U1|].
    { intros k Hk. rewrite En. unfold rd. replace (0 <=? k) with true by lia. replace (0 <=? 1 + k) with true by lia. replace (Z.to_nat (1 + k)) with (S (Z.to_nat k)) by lia. reflexivity. }
    rewrite E2. f_equal. f_equal. f_equal. symmetry. apply img_ext; [exact W|exact W2|congruence|]. intros x y z v Px. apply P2; [destruct Px as ((_ & _ & H3) & _); unfold depth; lia|exact Px].
  Qed.
End Stack.

(** The slices of an image of a type have that type. *)
Lemma slice_typed t image z s : wf_img image -> 0 <= z < depth image -> typed_img t image -> slice_of image z s -> typed_img t s.
Proof.
  intros W Hz T (Ws & Es & P). apply Forall_forall. intros v Hv. apply In_rd in Hv as (o & Ho & Ro). unfold width, height, depth in *. destruct Ws as ((D1 & D2 & D3) & Lw). rewrite Es in *. cbn [dw dh dd] in *.
  assert (0 < dw (sz image)) by nia. assert (Hv : voxel_offset (dw (sz image)) (dh (sz image)) (o mod dw (sz image)) (o / dw (sz image)) 0 = o) by (unfold voxel_offset; pose proof (Z.div_mod o (dw (sz image)) ltac:(lia)); lia).
  pose proof (Z.mod_pos_bound o (dw (sz image)) ltac:(lia)). assert (0 <= o / dw (sz image) < dh (sz image)) by (split; [apply Z.div_pos; lia|apply Z.div_lt_upper_bound; nia]).
  destruct (pixel_exists image (o mod dw (sz image)) (o / dw (sz image)) z W ltac:(unfold inside; lia)) as (u & Pu). pose proof (P _ _ _ Pu) as (_ & Q). rewrite Es in Q. cbn [dw dh dd] in Q. rewrite Hv, Ro in Q. injection Q as ->.
  destruct Pu as (_ & Pu). unfold typed_img in T. rewrite Forall_forall in T. apply T. eapply rd_In. exact Pu.
Qed.
