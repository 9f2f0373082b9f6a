From Verif Require Export Proofs.MorphPasses4.

Lemma sup_lub a b c : px_sup a b <= c <-> a <= c /\ b <= c.
Proof. unfold px_sup. destruct (Z.gtb_spec a b); lia. Qed.
Lemma inf_lub a b c : px_inf a b >= c <-> a >= c /\ b >= c.
Proof. unfold px_inf. destruct (Z.ltb_spec a b); lia. Qed.
Lemma le_eq a b : (forall c, a <= c <-> b <= c) -> a = b.
Proof. intros H. pose proof (H a). pose proof (H b). lia. Qed.
Lemma ge_eq a b : (forall c, a >= c <-> b >= c) -> a = b.
Proof. intros H. pose proof (H a). pose proof (H b). lia. Qed.

Section Iter.
Variables (op : Z -> Z -> Z) (Rel : Z -> Z -> Prop) (bv : Z) (s : dims).
Hypothesis op_lub : forall a b c, Rel (op a b) c <-> Rel a c /\ Rel b c.
Hypothesis Rel_eq : forall a b, (forall c, Rel a c <-> Rel b c) -> a = b.
Hypothesis Hw : wf_dims s.
Hypothesis H0 : 0 < dw s < 2 ^ 63.
Hypothesis Hd : 0 < dd s.

(** One pass, and [n] passes, on images given by functions. *)
Definition pass1 (se : strelt) (F R : Z -> Z -> Z -> Z) : Prop := forall x y z, inside s x y z ->
  lub_of Rel (fun p => In p (se_points se)) (fun p => gval bv s (se_odd se) F p x y z) (R x y z).
Fixpoint passn (n : nat) (se : strelt) (F R : Z -> Z -> Z -> Z) : Prop :=
  match n with
  | O => forall x y z, inside s x y z -> R x y z = F x y z
  | S n' => exists M, passn n' se F M /\ pass1 se M R
  end.

Lemma gval_ext odd F G p x y z : (forall x y z, inside s x y z -> F x y z = G x y z) -> gval bv s odd F p x y z = gval bv s odd G p x y z.
Proof. intros H. unfold gval, bo. destruct (insideb s _ _ _) eqn:E; [|reflexivity]. apply H. apply insideb_spec. exact E. Qed.

Lemma pass1_ext se F G R : (forall x y z, inside s x y z -> F x y z = G x y z) -> pass1 se F R -> pass1 se G R.
Proof.
  intros H HP x y z Hi c. rewrite (HP x y z Hi c). split; intros K p Hp; specialize (K p Hp); [rewrite <- (gval_ext _ F G) by exact H|rewrite (gval_ext _ F G) by exact H]; exact K.
Qed.

Lemma passn_front n se F M R : pass1 se F M -> passn n se M R -> passn (S n) se F R.
Proof.
  revert R. induction n as [|n IH]; intros R H1 H2.
  - cbn in *. exists F. split; [auto|]. intros x y z Hi c. rewrite H2 by exact Hi. apply (H1 x y z Hi c).
  - destruct H2 as (M' & H2 & H3). exists M'. split; [|exact H3]. apply IH; assumption.
Qed.

Section Exec.
Variable cs : nat -> conf.
Hypothesis HL : forall k, legal_conf (dh s) (cs k).
Variable se : strelt.
Hypothesis HT : typed_se se.
Hypothesis HF : fits se s.

Lemma exec_inplace_ok n k F : exists R, exec_inplace n k cs op bv se (mk_img s F) = Some (mk_img s R) /\ passn n se F R.
Proof.
  revert k F. induction n as [|n IH]; intros k F; [exists F; split; [reflexivity|cbn; auto]|].
  cbn [exec_inplace]. destruct (exec_single_ok op Rel bv s op_lub Rel_eq Hw H0 (cs k) se true F F (HL k) HT HF Hd) as (M & E & HM); [auto|].
  rewrite E. cbn [option_bind]. destruct (IH (S k) M) as (R & E' & HR). exists R. split; [exact E'|]. eapply passn_front; eauto.
Qed.

Lemma exec_pingpong_ok n k F G : exists R, exec_pingpong n k cs op bv se (mk_img s F) (mk_img s G) = Some (mk_img s R) /\ passn n se F R.
Proof.
  revert k F G. induction n as [|n IH]; intros k F G; [exists F; split; [reflexivity|cbn; auto]|].
  cbn [exec_pingpong]. destruct (exec_single_ok op Rel bv s op_lub Rel_eq Hw H0 (cs k) se false F G (HL k) HT HF Hd) as (M & E & HM); [discriminate|].
  rewrite E. cbn [option_bind]. destruct (IH (S k) M F) as (R & E' & HR). exists R. split; [exact E'|]. eapply passn_front; eauto.
Qed.

Lemma junk_mk junk : exists J, Img s (map junk (zseq (pixelCount s))) = mk_img s J.
Proof.
  assert (wf_img (Img s (map junk (zseq (pixelCount s))))) as Hj.
  { split; [exact Hw|]. cbn. rewrite map_length, zseq_length. destruct Hw as (A & B & C).
    replace (pixelCount s) with (dw s * dh s * dd s) by (unfold pixelCount, lineCount; ring).
    rewrite Z2Nat.id; [reflexivity|]. apply Z.mul_nonneg_nonneg; [apply Z.mul_nonneg_nonneg|]; assumption. }
  eexists. apply (img_mk _ Hj).
Qed.

Lemma morph_exec_ok junk alias F G : 0 <= se_size se -> (alias = true -> G = F) ->
  exists R, morph_exec junk cs op bv se alias (mk_img s F) (mk_img s G) = Some (mk_img s R) /\ passn (Z.to_nat (se_size se)) se F R.
Proof.
  intros Hs HA. unfold morph_exec. destruct (Z.eqb_spec (se_size se) 0) as [E0|N0].
  - rewrite E0. exists F. split; [reflexivity|cbn; auto].
  - assert (match se_type se with SE_Rhombicuboctahedron => true | _ => false end = false) as ->.
    { unfold typed_se in HT. destruct (se_type se); try reflexivity. destruct HT. }
    replace (Z.to_nat (se_size se)) with (S (Z.to_nat (se_size se - 1))) by lia.
    destruct (isInplaceSafe se || _).
    + destruct (exec_single_ok op Rel bv s op_lub Rel_eq Hw H0 (cs O) se alias F G (HL O) HT HF Hd) as (M & E & HM); [auto|].
      rewrite E. cbn [option_bind]. destruct (exec_inplace_ok (Z.to_nat (se_size se - 1)) 1 M) as (R & E' & HR). exists R. split; [exact E'|].
      eapply passn_front; eauto.
    + cbv zeta. cbn [sz mk_img]. change (Img s (map _ (grid (dw s) (dh s) (dd s)))) with (mk_img s F).
      destruct (junk_mk junk) as (J & ->).
      destruct (exec_single_ok op Rel bv s op_lub Rel_eq Hw H0 (cs O) se false F J (HL O) HT HF Hd) as (M & E & HM); [discriminate|].
      rewrite E. cbn [option_bind]. change (Img s (map _ (grid (dw s) (dh s) (dd s)))) with (mk_img s G).
      destruct (exec_pingpong_ok (Z.to_nat (se_size se - 1)) 1 M G) as (R & E' & HR). exists R. split; [exact E'|].
      eapply passn_front; eauto.
Qed.
End Exec.

Lemma passn_fun n se F R R' : passn n se F R -> passn n se F R' -> forall x y z, inside s x y z -> R x y z = R' x y z.
Proof.
  revert R R'. induction n as [|n IH]; intros R R' H H' x y z Hi.
  - cbn in *. rewrite H, H' by exact Hi. reflexivity.
  - destruct H as (M & HM & HR), H' as (M' & HM' & HR'). pose proof (IH _ _ HM HM') as EM.
    apply (lub_fun Rel Rel_eq _ _ _ _ (HR x y z Hi)). apply (pass1_ext se M' M R'); [intros; symmetry; apply EM; assumption|exact HR'|exact Hi].
Qed.

(** Characterisation by paths. *)
Lemma passn_paths n se F R : passn n se F R -> forall x y z c, inside s x y z ->
  (Rel (R x y z) c <-> (forall x' y' z', path se s n x y z x' y' z' -> Rel (F x' y' z') c) /\ (exits se s n x y z -> Rel bv c)).
Proof.
  revert R. induction n as [|n IH]; intros R H x y z c Hi.
  - cbn in *. rewrite H by exact Hi. split.
    + intros K. split; [intros x' y' z' (-> & -> & ->); exact K|]. intros (k & ? & ? & ? & ? & ? & ? & L & _). lia.
    + intros (K & _). apply K. auto.
  - destruct H as (M & HM & HR). rewrite (HR x y z Hi c). split.
    + intros K. split.
      * intros x' y' z' (x1 & y1 & z1 & (p & Hp & -> & -> & ->) & H1 & H2). specialize (K p Hp). unfold gval in K. rewrite bo_in in K by exact H1.
        apply (IH M HM _ _ _ c H1) in K. apply K. exact H2.
      * intros (k & x1 & y1 & z1 & x2 & y2 & z2 & L & HP & HS & HN). destruct k as [|k].
        -- destruct HP as (-> & -> & ->). destruct HS as (p & Hp & -> & -> & ->). specialize (K p Hp). unfold gval in K. rewrite bo_out in K by exact HN. exact K.
        -- destruct HP as (x0 & y0 & z0 & (p & Hp & -> & -> & ->) & H1 & H2). specialize (K p Hp). unfold gval in K. rewrite bo_in in K by exact H1.
           apply (IH M HM _ _ _ c H1) in K. apply K. exists k, x1, y1, z1, x2, y2, z2. repeat split; auto. lia.
    + intros (K1 & K2) p Hp. unfold gval, bo. destruct (insideb s _ _ _) eqn:E.
      * apply insideb_spec in E. apply (IH M HM _ _ _ c E). split.
        -- intros x' y' z' HP. apply K1. cbn. eexists _, _, _. split; [exists p; repeat split; auto|]. split; assumption.
        -- intros (k & x1 & y1 & z1 & x2 & y2 & z2 & L & HP & HS & HN). apply K2. exists (S k), x1, y1, z1, x2, y2, z2. split; [lia|]. split; [|split; assumption].
           cbn. eexists _, _, _. split; [exists p; repeat split; auto|]. split; assumption.
      * apply K2. eexists O, _, _, _, _, _, _. split; [lia|]. split; [cbn; auto|]. split; [exists p; repeat split; auto|].
        rewrite <- insideb_spec, E. discriminate.
Qed.
End Iter.
