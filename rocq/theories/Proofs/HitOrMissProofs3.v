(** The skeleton. *)
From Verif Require Export Proofs.HitOrMissProofs2.

Lemma open_passes t junk c1 c2 se alias im out : call_ok c1 alias im out -> (forall k, legal_conf (dh (sz im)) (c2 k)) -> good_se se (sz im) ->
  exists E D, passes (Z.to_nat (se_size se)) (eroded se (tmax t)) im E /\ passes (Z.to_nat (se_size se)) (dilated se (tmin t)) E D /\
    open_im t junk c1 c2 se alias im out = Some (1, D).
Proof.
  intros (A & B & C & D & E) L2 HG. pose proof HG as (HT & Hn & HF & HF' & HP).
  destruct (erode_ok junk c1 (tmax t) se alias im out A B C D E HT Hn HF' HP) as (M & EM & PM).
  rewrite (erode_eq t junk se im A HG c1 alias out E B C D) in EM. injection EM as <-.
  set (M := mk_img (sz im) (En t (sz im) se (pxv im))) in *.
  destruct (dilate_ok junk c2 (tmin t) se true M M (good_mk im _ A) (mk_img_wf _ _ (proj1 (proj1 A))) eq_refl (fun _ => eq_refl) L2 HT Hn HF) as (R & ER & PR).
  rewrite (dilate_eq t junk se M (good_mk im _ A) HG c2 true M L2 (mk_img_wf _ _ (proj1 (proj1 A))) eq_refl (fun _ => eq_refl)) in ER. injection ER as <-.
  eexists _, _. split; [exact PM|]. split; [exact PR|]. rewrite (open_eq t junk se im A HG c1 c2 alias out E L2 B C D). do 2 f_equal. apply mk_img_ext.
  intros x y z Hi. apply cann_ext; [|exact Hi]. intros x1 y1 z1 Hi1. symmetry. apply pxv_mk; [apply A|exact Hi1].
Qed.

Lemma passes_eroded_typed t n se bv a b : inty t bv -> typed_img t a -> passes n (eroded se bv) a b -> typed_img t b.
Proof.
  intros Tb Ta. revert b. induction n as [|n IH]; intros b Hb; cbn in Hb; [subst; exact Ta|]. destruct Hb as (m & Hm & (S & Wb & Hl)).
  apply typed_pix; [exact Wb|]. intros x y z v Hv. destruct (Hl _ _ _ _ Hv) as ((x' & y' & z' & _ & [R|(_ & ->)]) & _); [|exact Tb]. eapply typed_is; [apply IH; exact Hm|exact R].
Qed.

Lemma dilated_sz se bv a b : dilated se bv a b -> sz b = sz a /\ wf_img b.
Proof. intros (S & W & _). auto. Qed.
Lemma passes_dilated n se bv a b : wf_img a -> passes n (dilated se bv) a b -> sz b = sz a /\ wf_img b.
Proof.
  intros W. revert b. induction n as [|n IH]; intros b H; cbn in H; [subst; auto|]. destruct H as (m & Hm & H). destruct (IH m Hm) as (S & _).
  apply dilated_sz in H as (S' & W'). split; [congruence|exact W'].
Qed.
Lemma residue_shape t se E D : residue t se E D -> sz D = sz E /\ wf_img D.
Proof. intros (A & B & _ & _ & (S & _ & W & _)). auto. Qed.
Lemma residue_fun t se E D D' : wf_img E -> residue t se E D -> residue t se E D' -> D = D'.
Proof.
  intros W (A & B & HA & HB & HP) (A' & B' & HA' & HB' & HP'). assert (A' = A) by (eapply passes_eroded_fun; [exact W|eassumption..]). subst A'.
  destruct (passes_eroded _ _ _ _ _ W HA) as (_ & WA).
  assert (B' = B) by (eapply (passes_fun (dilated se (tmin t))); [intros ? ? ?; apply dilated_fun|intros; eapply dilated_sz; eassumption|exact WA|eassumption..]). subst B'.
  destruct (passes_dilated _ _ _ _ _ WA HB) as (_ & WB). eapply pointwise2_fun; [exact W|exact WB|eassumption..].
Qed.
Lemma shrunk_shape t se i : forall im E, wf_img im -> shrunk t se i im E -> sz E = sz im /\ wf_img E.
Proof.
  unfold shrunk. induction i as [|i IH]; intros im E W H; cbn in H; [subst; auto|]. destruct H as (m & Hm & H). destruct (IH im m W Hm) as (Sm & Wm).
  destruct (passes_eroded _ _ _ _ _ Wm H). split; [congruence|assumption].
Qed.
Lemma shrunk_fun t se i im E E' : wf_img im -> shrunk t se i im E -> shrunk t se i im E' -> E = E'.
Proof.
  unfold shrunk. revert E E'. induction i as [|i IH]; intros E E' W H H'; cbn in H, H'; [congruence|]. destruct H as (m & Hm & H), H' as (m' & Hm' & H').
  assert (m' = m) by (symmetry; apply IH; assumption). subst m'. destruct (shrunk_shape t se i im m W Hm) as (_ & Wm). eapply passes_eroded_fun; [exact Wm|eassumption..].
Qed.

Lemma residues_fun t se n im a b : residues_to t se n im a -> residues_to t se n im b -> a = b.
Proof.
  intros (S & W & H) (S' & W' & H'). apply img_ext; [assumption..|congruence|]. intros x y z v Hv. destruct (pixel_exists b x y z W') as (v' & Hv'); [rewrite S', <- S; apply Hv|].
  destruct (H _ _ _ _ Hv) as (A & B), (H' _ _ _ _ Hv') as (A' & B'). pose proof (B _ A'). pose proof (B' _ A). replace v with v' by lia. exact Hv'.
Qed.

Lemma passes_dilated_typed t n se bv a b : inty t bv -> typed_img t a -> passes n (dilated se bv) a b -> typed_img t b.
Proof.
  intros Tb Ta. revert b. induction n as [|n IH]; intros b Hb; cbn in Hb; [subst; exact Ta|]. destruct Hb as (m & Hm & (S & Wb & Hl)).
  apply typed_pix; [exact Wb|]. intros x y z v Hv. destruct (Hl _ _ _ _ Hv) as ((x' & y' & z' & _ & [R|(_ & ->)]) & _); [|exact Tb]. eapply typed_is; [apply IH; exact Hm|exact R].
Qed.
Lemma shrunk_typed t se i im E : typed_img t im -> shrunk t se i im E -> typed_img t E.
Proof.
  intros T. revert E. induction i as [|i IH]; intros E H; cbn in H; [subst; exact T|]. destruct H as (m & Hm & H). eapply passes_eroded_typed; [apply inty_max|apply IH; exact Hm|exact H].
Qed.

Section Skeleton.
Context (t : ity) (junk : Z -> Z) (cs : nat -> nat -> nat -> conf) (se : strelt) (im : img).
Context (HU : is_signed t = false) (Gi : good_img im) (Ti : typed_img t im) (HG : good_se se (sz im)) (HL : forall i j k, legal_conf (dh (sz im)) (cs i j k)).

Lemma residues_0 out : wf_img out -> sz out = sz im -> residues_to t se 0 im (pw1 (fun _ => tmin t) out).
Proof.
  intros Wo So. destruct (pw1_spec (fun _ => tmin t) out Wo) as (S1 & W1 & H1). split; [congruence|]. split; [exact W1|]. intros x y z v Hv. destruct (pixel_exists out x y z Wo) as (o & Ho); [rewrite <- S1; apply Hv|].
  rewrite (pixel_is_fun _ _ _ _ _ _ Hv (H1 _ _ _ _ Ho)). split; [left; reflexivity|]. intros u [->|(i & Hi & _)]; lia.
Qed.

Lemma residues_step k E D out : shrunk t se (S k) im E -> residue t se E D -> residues_to t se k im out -> residues_to t se (S k) im (pw2 px_sup out D).
Proof.
  intros HE HD (So & Wo & HO). destruct (shrunk_shape t se (S k) im E (proj1 Gi) HE) as (SE & WE). destruct (residue_shape _ _ _ _ HD) as (SD & WD).
  split; [exact So|]. split; [apply pw2_wf; [assumption..|congruence]|]. intros x y z v Hv. assert (Hi : inside (sz im) x y z) by (rewrite <- So; exact (proj1 Hv)).
  destruct (pixel_exists out x y z Wo) as (o & Ho); [rewrite So; exact Hi|]. destruct (pixel_exists D x y z WD) as (d & Hd); [rewrite SD, SE; exact Hi|].
  assert (v = Z.max o d) as -> by (rewrite <- px_sup_max; eapply pixel_is_fun; [exact Hv|apply pw2_is; [exact Ho|exact Hd|congruence]]).
  destruct (HO _ _ _ _ Ho) as (G1 & G2). split.
  - destruct (Z.max_spec o d) as [(_ & ->)|(_ & ->)].
    + right. exists (S k). split; [lia|]. exists E, D. auto.
    + destruct G1 as [G1|(i & Hk & G1)]; [left; exact G1|]. right. exists i. split; [lia|exact G1].
  - intros u [->|(i & Hk & HR)]; [specialize (G2 (tmin t) (or_introl eq_refl)); lia|]. assert (Hc : (i <= k)%nat \/ i = S k) by lia. destruct Hc as [Hc| ->].
    + assert (u <= o) by (apply G2; right; exists i; split; [lia|exact HR]). lia.
    + destruct HR as (E' & D' & HE' & HD' & Hu). assert (E' = E) by exact (shrunk_fun t se (S k) im E' E (proj1 Gi) HE' HE). subst E'.
      assert (D' = D) by exact (residue_fun t se E D' D WE HD' HD). subst D'. rewrite (pixel_is_fun _ _ _ _ _ _ Hu Hd). lia.
Qed.

Lemma turn_ok k E out : good_img E -> sz E = sz im -> typed_img t E -> exists E' D, skeleton_turn t junk (cs k) se E out =
    Some (if list_eq_dec Z.eq_dec (pixs (pw2 px_sup out D)) (pixs out) then true else false, (E', pw2 px_sup out D)) /\
  passes (Z.to_nat (se_size se)) (eroded se (tmax t)) E E' /\ residue t se E' D /\ typed_img t E' /\ typed_img t D.
Proof.
  intros GE SE TE. pose proof HG as (HT & Hn & HF & HF' & HP). unfold skeleton_turn.
  destruct (erode_ok junk (cs k 0%nat) (tmax t) se true E E) as (E' & EE & PE); auto; try (rewrite SE; auto; fail); [apply GE|]. rewrite EE. cbn [option_bind fst snd].
  destruct (passes_eroded _ _ _ _ _ (proj1 GE) PE) as (SE' & WE'). assert (GE' : good_img E') by (eapply good_sz; eassumption).
  assert (TE' : typed_img t E') by (eapply passes_eroded_typed; [apply inty_max|exact TE|exact PE]).
  assert (Eq : new_img junk E = new_img junk E') by (unfold new_img; rewrite SE'; reflexivity). rewrite Eq.
  assert (L1 : forall j, legal_conf (dh (sz E')) (cs k 1%nat j)) by (intros; rewrite SE', SE; auto). assert (L2 : forall j, legal_conf (dh (sz E')) (cs k 2%nat j)) by (intros; rewrite SE', SE; auto).
  assert (HG' : good_se se (sz E')) by (rewrite SE', SE; exact HG).
  destruct (open_passes t junk (cs k 1%nat) (cs k 2%nat) se false E' (new_img junk E') (new_call junk _ E' GE' L1) L2 HG') as (A & B & PA & PB & EO).
  destruct (topHat_exact t junk (cs k 1%nat) (cs k 2%nat) se E' HU GE' TE' L1 L2 HG') as (O & R & EO' & ER & PR). rewrite EO in EO'. injection EO' as <-.
  unfold topHat in ER. rewrite EO in ER. cbn [option_bind snd] in ER. injection ER as <-. rewrite EO. cbn [option_bind snd]. exists E', (sub_im t E' B). split; [reflexivity|].
  split; [exact PE|]. split; [exists A, B; auto|]. split; [exact TE'|].
  pose proof (passes_eroded _ _ _ _ _ WE' PA) as (SA & WA). destruct (passes_dilated _ _ _ _ _ WA PB) as (SB & WB).
  assert (GB : good_img B) by (eapply good_sz; [exact GE'|exact WB|congruence]).
  assert (LB1 : forall j, legal_conf (dh (sz B)) (cs k 1%nat j)) by (intros; rewrite SB, SA; auto).
  destruct (open_filter t se junk junk (cs k 1%nat) (cs k 2%nat) (cs k 1%nat) (cs k 2%nat) false false E' (new_img junk E') (new_img junk B) 1 B (new_call junk _ E' GE' L1) L2 (new_call junk _ B GB LB1) L2 TE' HG' EO) as (TB & LB & _).
  destruct PR as (S1 & S2 & WD & PR). apply typed_pix; [exact WD|]. intros x y z v Hv. pose proof (proj1 Hv) as Hi. destruct (pixel_exists E' x y z WE') as (e & He); [rewrite <- S1; exact Hi|].
  destruct (pixel_exists B x y z WB) as (b & Hb); [rewrite <- S2; exact Hi|]. pose proof (pixel_is_fun _ _ _ _ _ _ Hv (PR _ _ _ _ _ He Hb)). pose proof (LB _ _ _ _ _ Hb He).
  pose proof (typed_is _ _ _ _ _ _ TE' He). pose proof (typed_is _ _ _ _ _ _ TB Hb). pose proof (tmin_unsigned t HU). unfold inty in *. lia.
Qed.

Lemma skeleton_loop_ok fuel : forall k E out, shrunk t se k im E -> typed_img t E -> residues_to t se k im out -> typed_img t out -> tmax t * (dw (sz im) * dh (sz im) * dd (sz im)) - Zsum (pixs out) < Z.of_nat fuel ->
  (forall i R, (i < k)%nat -> residues_to t se i im R -> ~ residues_to t se (S i) im R) ->
  exists n R, skeleton_loop t junk cs se fuel k E out = Some (Some R) /\ residues_to t se n im R /\ residues_to t se (S n) im R /\ forall i R, (i < n)%nat -> residues_to t se i im R -> ~ residues_to t se (S i) im R.
Proof.
  induction fuel as [|fuel IH]; intros k E out HE TE HO TO Hf Hb.
  { exfalso. pose proof HO as (SO & WO & _). pose proof (Zsum_typed t out WO TO). rewrite SO in *. lia. }
  pose proof HO as (SO & WO & _). destruct (shrunk_shape t se k im E (proj1 Gi) HE) as (SE & WE). assert (GE : good_img E) by (eapply good_sz; eassumption).
  cbn [skeleton_loop]. destruct (turn_ok k E out GE SE TE) as (E' & D & ET & PE & HD & TE' & TD). rewrite ET. cbn [option_bind].
  assert (HE' : shrunk t se (S k) im E') by (exists E; split; [exact HE|exact PE]). pose proof (residues_step k E' D out HE' HD HO) as HO'. pose proof HO' as (SO' & WO' & _).
  destruct (shrunk_shape t se (S k) im E' (proj1 Gi) HE') as (SE' & WE'). destruct (residue_shape _ _ _ _ HD) as (SD & WD).
  destruct (list_eq_dec Z.eq_dec (pixs (pw2 px_sup out D)) (pixs out)) as [Eq|Ne].
  - assert (EO : pw2 px_sup out D = out) by (destruct out; unfold pw2 in *; cbn in *; congruence). rewrite EO in *. exists k, out. auto.
  - assert (L : le_img out (pw2 px_sup out D)).
    { intros x y z u v Hu Hv. destruct (pixel_exists D x y z WD) as (d & Hd); [rewrite SD, SE', <- SO; apply Hu|].
      assert (S2 : sz out = sz D) by congruence. rewrite (pixel_is_fun _ _ _ _ _ _ Hv (pw2_is px_sup _ _ _ _ _ _ _ Hu Hd S2)), px_sup_max. lia. }
    assert (TO' : typed_img t (pw2 px_sup out D)).
    { apply typed_pix; [exact WO'|]. intros x y z v Hv. destruct (pixel_exists out x y z WO) as (o & Ho); [apply Hv|]. destruct (pixel_exists D x y z WD) as (d & Hd); [rewrite SD, SE', <- SO; apply Hv|].
      assert (S2 : sz out = sz D) by congruence. rewrite (pixel_is_fun _ _ _ _ _ _ Hv (pw2_is px_sup _ _ _ _ _ _ _ Ho Hd S2)), px_sup_max.
      pose proof (typed_is _ _ _ _ _ _ TO Ho). pose proof (typed_is _ _ _ _ _ _ TD Hd). unfold inty in *. lia. }
    destruct (le_img_sum out (pw2 px_sup out D) WO WO' eq_refl L) as (L1 & L2).
    assert (Zsum (pixs out) <> Zsum (pixs (pw2 px_sup out D))) by (intros Eq; apply Ne; f_equal; apply L2; exact Eq).
    apply (IH (S k) E' _ HE' TE' HO' TO'); [lia|]. intros i R Hi HR. assert (Hc : (i < k)%nat \/ i = k) by lia. destruct Hc as [Hc| ->]; [apply Hb; assumption|].
    intros HR'. apply Ne. pose proof (residues_fun _ _ _ _ _ _ HO HR). subst R. f_equal. apply (residues_fun t se (S k) im); [exact HO'|exact HR'].
Qed.

Lemma skeleton_ok fuel out : wf_img out -> sz out = sz im -> vol_enough t (sz im) fuel ->
  exists n R, skeleton t junk cs fuel se im out = Some (Some (1, R)) /\ residues_to t se n im R /\ residues_to t se (S n) im R /\ forall i R, (i < n)%nat -> residues_to t se i im R -> ~ residues_to t se (S i) im R.
Proof.
  intros Wo So Hf. unfold skeleton. rewrite same_size_true by congruence. cbn [negb].
  destruct (skeleton_loop_ok fuel 0 im (pw1 (fun _ => tmin t) out)) as (n & R & E & H); [reflexivity|exact Ti|apply residues_0; assumption| | |intros; lia|].
  - apply typed_pix; [apply pw1_spec; exact Wo|]. intros x y z v Hv. destruct (pw1_spec (fun _ => tmin t) out Wo) as (S1 & W1 & H1). destruct (pixel_exists out x y z Wo) as (o & Ho); [rewrite <- S1; apply Hv|].
    rewrite (pixel_is_fun _ _ _ _ _ _ Hv (H1 _ _ _ _ Ho)). apply inty_min.
  - unfold vol_enough in Hf. pose proof (tmin_unsigned t HU) as Z0. rewrite Z0, Z.sub_0_r in Hf.
    assert (0 <= Zsum (pixs (pw1 (fun _ => tmin t) out))); [|lia]. unfold pw1. cbn [pixs]. rewrite Z0. clear. induction (pixs out) as [|a l IHl]; [cbn; lia|]. change (0 <= 0 + Zsum (map (fun _ => 0) l)). lia.
  - exists n, R. rewrite E. cbn [fuel_bind]. auto.
Qed.

(** Below the image when the element contains the origin. *)
Lemma passes_eroded_le n (Ho : In (0, 0, 0) (se_points se)) : forall a b, wf_img a -> passes n (eroded se (tmax t)) a b -> le_img b a.
Proof.
  induction n as [|n IH]; intros a b W H; cbn in H; [subst; apply le_img_refl|]. destruct H as (m & Hm & H). destruct (passes_eroded _ _ _ _ _ W Hm) as (Sm & Wm). destruct (eroded_sz _ _ _ _ H) as (Sb & Wb).
  apply (le_img_trans b m a); [exact Wm|congruence| |apply IH; assumption]. intros x y z u v Hu Hv. destruct H as (_ & _ & H). apply (H _ _ _ _ Hu). exists x, y, z. split; [apply sees_self; exact Ho|left; exact Hv].
Qed.
Lemma shrunk_le i (Ho : In (0, 0, 0) (se_points se)) : forall E, shrunk t se i im E -> le_img E im.
Proof.
  induction i as [|i IHi]; intros E HE; [cbn in HE; subst; apply le_img_refl|]. destruct HE as (m & Hm & HE). destruct (shrunk_shape t se i im m (proj1 Gi) Hm) as (Sm & Wm).
  destruct (passes_eroded _ _ _ _ _ Wm HE) as (SE & WE). apply (le_img_trans E m im); [exact Wm|congruence| |apply IHi; exact Hm]. exact (passes_eroded_le _ Ho m E Wm HE).
Qed.
Lemma residues_le n R (Ho : In (0, 0, 0) (se_points se)) : residues_to t se n im R -> le_img R im.
Proof.
  intros (SR & WR & H) x y z u v Hu Hv. destruct (H _ _ _ _ Hu) as ([->|(i & _ & (E & D & HE & HD & Hd))] & _); [pose proof (typed_is _ _ _ _ _ _ Ti Hv); unfold inty in *; lia|].
  destruct (shrunk_shape t se i im E (proj1 Gi) HE) as (SE & WE). destruct (pixel_exists E x y z WE) as (e & He); [rewrite SE; apply Hv|].
  pose proof (shrunk_le i Ho E HE _ _ _ _ _ He Hv) as LE. destruct HD as (A & B & HA & HB & (S1 & S2 & _ & HP)). destruct (passes_eroded _ _ _ _ _ WE HA) as (SA & WA). destruct (passes_dilated _ _ _ _ _ WA HB) as (SB & WB).
  destruct (pixel_exists B x y z WB) as (b & Hb); [rewrite SB, SA; apply He|]. rewrite (pixel_is_fun _ _ _ _ _ _ Hd (HP _ _ _ _ _ He Hb)).
  assert (TB : typed_img t B).
  { eapply passes_dilated_typed; [apply inty_min| |exact HB]. eapply passes_eroded_typed; [apply inty_max| |exact HA]. eapply shrunk_typed; [exact Ti|exact HE]. }
  pose proof (typed_is _ _ _ _ _ _ TB Hb). pose proof (tmin_unsigned t HU). unfold inty in *. lia.
Qed.
End Skeleton.
