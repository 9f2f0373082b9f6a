From Verif Require Export Proofs.TransformProofs4 Spec.TransformSpec.
From Coq Require Import Ascii String.
Open Scope Z_scope.

Lemma transpose_case junk sched imIn imOut order l0 l1 l2 :
  legal_sched sched -> wf_img imIn -> wf_img imOut -> small (sz imIn) ->
  order <> "xyz"%string -> order <> "xy"%string -> order <> ""%string -> setOrder order = Some (l0, l1, l2) -> is_lut l0 l1 l2 ->
  exists out, matTranspose junk sched imIn order imOut = Some (1, out) /\ wf_img out /\
    sz out = Dims (pick l0 (dw (sz imIn)) (dh (sz imIn)) (dd (sz imIn))) (pick l1 (dw (sz imIn)) (dh (sz imIn)) (dd (sz imIn)))
               (pick l2 (dw (sz imIn)) (dh (sz imIn)) (dd (sz imIn))) /\
    forall x y z v, inside (sz imIn) x y z -> (pixel_is out (pick l0 x y z) (pick l1 x y z) (pick l2 x y z) v <-> pixel_is imIn x y z v).
Proof.
  intros HS Wi Wo Sm N1 N2 N3 Eo HL. unfold matTranspose.
  destruct (String.eqb_spec order "xyz"); [contradiction|]. destruct (String.eqb_spec order "xy"); [contradiction|].
  destruct (String.eqb_spec order ""); [contradiction|]. cbn [orb]. rewrite Eo. unfold width, height, depth.
  destruct (transpose_loop_ok junk sched imIn imOut l0 l1 l2 HS Wi Wo Sm HL) as (px & E & W & Es & H).
  rewrite E. cbn [option_bind]. rewrite Es. eexists. split; [reflexivity|]. split; [exact W|]. split; [reflexivity|].
  intros x y z v Hi. apply H. exact Hi.
Qed.

Lemma transpose_ok junk sched imIn imOut order a b c :
  legal_sched sched -> wf_img imIn -> wf_img imOut -> small (sz imIn) -> names_axes order a b c ->
  exists out, matTranspose junk sched imIn order imOut = Some (1, out) /\ transposed a b c imIn out.
Proof.
  intros HS Wi Wo Sm (Eo & Hin).
  destruct Hin as [E|[E|[E|[E|[E|[E|[]]]]]]]; rewrite Eo in E; injection E as <- <- <-; cbn [axis].
  { exists imIn. rewrite Eo. split; [reflexivity|]. split; [exact Wi|]. split; [cbn; destruct (sz imIn); reflexivity|]. cbn. tauto. }
  all: match goal with Eo : ?o = ?s, HS : legal_sched ?sched, Wi : wf_img ?imIn, Wo : wf_img ?imOut |- context [matTranspose ?junk] =>
    let v := eval vm_compute in (setOrder s) in match v with Some (?l0, ?l1, ?l2) =>
    destruct (transpose_case junk sched imIn imOut o l0 l1 l2) as (out & E & W & Es & H); auto;
     [rewrite Eo; discriminate..|rewrite Eo; reflexivity|unfold is_lut; cbn; tauto|];
     exists out; split; [exact E|]; split; [exact W|]; split; [exact Es|exact H] end end.
Qed.

Lemma transpose_short junk sched imIn imOut :
  matTranspose junk sched imIn "xy" imOut = matTranspose junk sched imIn "xyz" imOut /\
  matTranspose junk sched imIn "yx" imOut = matTranspose junk sched imIn "yxz" imOut /\
  matTranspose junk sched imIn "" imOut = matTranspose junk sched imIn "yxz" imOut.
Proof. repeat split; reflexivity. Qed.

Lemma transpose_unknown junk sched imIn imOut order : ~ known_order order ->
  matTranspose junk sched imIn order imOut = Some (-100, imOut).
Proof.
  intros H. unfold known_order in H. cbn in H. unfold matTranspose, setOrder.
  repeat match goal with |- context [String.eqb order ?s] => destruct (String.eqb_spec order s); [subst; exfalso; apply H; tauto|] end.
  cbn [orb]. repeat match goal with |- context [String.eqb order ?s] => destruct (String.eqb_spec order s); [subst; exfalso; apply H; tauto|] end.
  reflexivity.
Qed.
