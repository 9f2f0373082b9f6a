(** Theorems for C95 and C96: alternating sequential filters and granulometries. *)
From Verif Require Import Proofs.GranProofs2 Props.P_Morph.
Local Open Scope Z_scope.

(** ** C95.  asfClose: closings and openings of sizes 1, 2, ..., n in turn, for any execution. *)
Theorem C95_asfClose : forall t se junk cs im out, asf_ok cs im out -> good_se se (sz im) ->
  exists R, asfClose t junk cs se im out = Some (1, R) /\ alternating (closing t se) (opening t se) (Z.to_nat (se_size se)) im R.
Proof. exact asfClose_chain. Qed.
Print Assumptions C95_asfClose.

Theorem C95_asfOpen : forall t se junk cs im out, asf_ok cs im out -> good_se se (sz im) ->
  exists R, asfOpen t junk cs se im out = Some (1, R) /\ alternating (opening t se) (closing t se) (Z.to_nat (se_size se)) im R.
Proof. exact asfOpen_chain. Qed.
Print Assumptions C95_asfOpen.

(** They are increasing. *)
Theorem C95_asfClose_increasing : forall t se junk junk' cs cs' A B oa ob ra rb D E,
  asf_ok cs A oa -> asf_ok cs' B ob -> sz B = sz A -> typed_img t A -> typed_img t B -> good_se se (sz A) ->
  asfClose t junk cs se A oa = Some (ra, D) -> asfClose t junk' cs' se B ob = Some (rb, E) -> le_img A B -> le_img D E.
Proof. exact asfClose_incr. Qed.
Print Assumptions C95_asfClose_increasing.

Theorem C95_asfOpen_increasing : forall t se junk junk' cs cs' A B oa ob ra rb D E,
  asf_ok cs A oa -> asf_ok cs' B ob -> sz B = sz A -> typed_img t A -> typed_img t B -> good_se se (sz A) ->
  asfOpen t junk cs se A oa = Some (ra, D) -> asfOpen t junk' cs' se B ob = Some (rb, E) -> le_img A B -> le_img D E.
Proof. exact asfOpen_incr. Qed.
Print Assumptions C95_asfOpen_increasing.

(** A filter of size p followed by one of size n >= p is the filter of size n; with p = n, they are idempotent. *)
Theorem C95_asfClose_absorbs : forall t se junk junk' junk2 cs cs' cs2 p n A oa ob oc ra D,
  asf_ok cs A oa -> asf_ok cs' D ob -> asf_ok cs2 A oc -> typed_img t A -> good_se se (sz A) -> 0 <= p <= n ->
  asfClose t junk cs (with_size se p) A oa = Some (ra, D) ->
  typed_img t D /\ exists R, asfClose t junk' cs' (with_size se n) D ob = Some (1, R) /\ asfClose t junk2 cs2 (with_size se n) A oc = Some (1, R).
Proof. exact asfClose_sieve. Qed.
Print Assumptions C95_asfClose_absorbs.

Theorem C95_asfOpen_absorbs : forall t se junk junk' junk2 cs cs' cs2 p n A oa ob oc ra D,
  asf_ok cs A oa -> asf_ok cs' D ob -> asf_ok cs2 A oc -> typed_img t A -> good_se se (sz A) -> 0 <= p <= n ->
  asfOpen t junk cs (with_size se p) A oa = Some (ra, D) ->
  typed_img t D /\ exists R, asfOpen t junk' cs' (with_size se n) D ob = Some (1, R) /\ asfOpen t junk2 cs2 (with_size se n) A oc = Some (1, R).
Proof. exact asfOpen_sieve. Qed.
Print Assumptions C95_asfOpen_absorbs.

(** They lie between the opening and the closing of the same size. *)
Theorem C95_asfClose_between : forall t se junk junk' junk2 cs c1 c2 c1' c2' A oa ob oc al al' ra rb rc D O C,
  asf_ok cs A oa -> call_ok c1 al A ob -> (forall k, legal_conf (dh (sz A)) (c2 k)) -> call_ok c1' al' A oc -> (forall k, legal_conf (dh (sz A)) (c2' k)) ->
  typed_img t A -> good_se se (sz A) -> asfClose t junk cs se A oa = Some (ra, D) ->
  open_im t junk' c1 c2 se al A ob = Some (rb, O) -> close_im t junk2 c1' c2' se al' A oc = Some (rc, C) -> le_img O D /\ le_img D C.
Proof. exact asfClose_bounds. Qed.
Print Assumptions C95_asfClose_between.

Theorem C95_asfOpen_between : forall t se junk junk' junk2 cs c1 c2 c1' c2' A oa ob oc al al' ra rb rc D O C,
  asf_ok cs A oa -> call_ok c1 al A ob -> (forall k, legal_conf (dh (sz A)) (c2 k)) -> call_ok c1' al' A oc -> (forall k, legal_conf (dh (sz A)) (c2' k)) ->
  typed_img t A -> good_se se (sz A) -> asfOpen t junk cs se A oa = Some (ra, D) ->
  open_im t junk' c1 c2 se al A ob = Some (rb, O) -> close_im t junk2 c1' c2' se al' A oc = Some (rc, C) -> le_img O D /\ le_img D C.
Proof. exact asfOpen_bounds. Qed.
Print Assumptions C95_asfOpen_between.

(** asfOpen of the negative (reflected element) is the negative of asfClose. *)
Theorem C95_dual : forall t junk junk' se se' cs cs' A B oa ob ra rb D E,
  asf_ok cs A oa -> asf_ok cs' B ob -> negative t A B -> good_se se (sz A) -> good_se se' (sz A) -> mirrored se se' ->
  asfClose t junk cs se A oa = Some (ra, D) -> asfOpen t junk' cs' se' B ob = Some (rb, E) -> negative t D E.
Proof. exact asf_dual. Qed.
Print Assumptions C95_dual.

Definition dots : img := Img (Dims 6 5 1) [9;0;0;0;0;0; 0;0;4;4;4;0; 0;0;4;4;4;0; 0;0;4;4;4;0; 0;0;0;0;0;2].
Lemma dots_good : good_img dots.
Proof. apply good_ex; [split; [repeat split; cbn; lia|reflexivity]|cbn; lia ..]. Qed.
Lemma dots_typed : typed_img UINT8 dots.
Proof. apply Forall_forall. intros v Hv. vm_compute in Hv. repeat (destruct Hv as [<-|Hv]; [vm_compute; split; discriminate|]). destruct Hv. Qed.
Lemma squ_good n : 0 <= n -> good_se (SquSE n) (sz dots).
Proof. intros H. split; [split; [reflexivity|tauto]|]. split; [exact H|]. split; [cbn; lia|]. split; [cbn; lia|]. intros E. discriminate. Qed.
Lemma dots_asf : asf_ok (fun _ _ => one_thread) dots dots.
Proof. split; [exact dots_good|]. split; [apply dots_good|]. split; [reflexivity|]. intros _ _ k. apply one_thread_legal. cbn. lia. Qed.

Example C95_case : asf_ok (fun _ _ => one_thread) dots dots /\ typed_img UINT8 dots /\ good_se (SquSE 1) (sz dots) /\
  asfOpen UINT8 (fun _ => 7) (fun _ _ => one_thread) (SquSE 1) dots dots =
    Some (1, Img (Dims 6 5 1) [0;0;4;4;4;4; 0;0;4;4;4;4; 0;0;4;4;4;4; 0;0;4;4;4;4; 0;0;4;4;4;4]).
Proof. split; [exact dots_asf|]. split; [exact dots_typed|]. split; [apply squ_good; lia|]. vm_compute. reflexivity. Qed.

(** ** C96.  Openings of sizes a then b are the opening of the greatest size. *)
Theorem C96_openings : forall t se junk junk' junk2 c1 c2 c1' c2' c3 c4 al al' al2 a b A oa ob oc ra D,
  call_ok c1 al A oa -> (forall k, legal_conf (dh (sz A)) (c2 k)) -> call_ok c1' al' D ob -> (forall k, legal_conf (dh (sz A)) (c2' k)) ->
  call_ok c3 al2 A oc -> (forall k, legal_conf (dh (sz A)) (c4 k)) -> typed_img t A -> good_se se (sz A) -> 0 <= a -> 0 <= b ->
  open_im t junk c1 c2 (with_size se a) al A oa = Some (ra, D) ->
  exists R, open_im t junk' c1' c2' (with_size se b) al' D ob = Some (1, R) /\ open_im t junk2 c3 c4 (with_size se (Z.max a b)) al2 A oc = Some (1, R).
Proof. exact open_open. Qed.
Print Assumptions C96_openings.

(** The entries are the differences of volume between the openings of sizes 0, step, 2 step, ...; they are not negative. *)
Theorem C96_differences_partial : forall fuel t junk cs se im step maxSe res, gran_ok t cs se im -> 0 <= step ->
  measGranulometry fuel t junk cs se step false maxSe im = Some (Some res) -> step * Z.of_nat (length res) < 2 ^ 32 ->
  res <> [] /\ differences t se step im res.
Proof. intros fuel t junk cs se im step maxSe res HC Hst. apply gran_differences; assumption. Qed.
Print Assumptions C96_differences_partial.

(** Without a limit on the size, they add up to what the image has above its minimum. *)
Theorem C96_sum_partial : forall fuel t junk cs se im step res m, gran_ok t cs se im -> 0 <= step -> centred se -> minimum_is im m ->
  measGranulometry fuel t junk cs se step false 0 im = Some (Some res) -> step * Z.of_nat (length res) < 2 ^ 32 ->
  exists l, res = map (fun v => Some (inject_Z v)) l /\ Zsum l = total im - dw (sz im) * dh (sz im) * dd (sz im) * m.
Proof. intros fuel t junk cs se im step res m HC Hst Hce Hm. apply (gran_sum t junk cs se im HC step 0 Hst fuel res m eq_refl Hce Hm). Qed.
Print Assumptions C96_sum_partial.

(** The cumulative distribution of an image that is not constant increases to 1. *)
Theorem C96_cdf_partial : forall fuel t junk cs se im step res m, gran_ok t cs se im -> 0 <= step -> centred se -> minimum_is im m ->
  (exists v, In v (pixs im) /\ v <> m) ->
  measGranulometry fuel t junk cs se step true 0 im = Some (Some res) -> step * Z.of_nat (length res) < 2 ^ 32 ->
  res <> [] /\ cumulated t se step m im res.
Proof. intros fuel t junk cs se im step res m HC Hst Hce Hm Hv. apply (gran_cumulated t junk cs se im HC step 0 Hst fuel res m eq_refl Hce Hm Hv). Qed.
Print Assumptions C96_cdf_partial.

(** That of a constant image has no finite entry. *)
Theorem C96_constant_refuted : forall fuel t junk cs se im step res m, gran_ok t cs se im -> 0 <= step -> centred se ->
  (forall v, In v (pixs im) -> v = m) ->
  measGranulometry fuel t junk cs se step true 0 im = Some (Some res) -> step * Z.of_nat (length res) < 2 ^ 32 -> res <> [] /\ forall q, In q res -> q = None.
Proof. intros fuel t junk cs se im step res m HC Hst Hce Hm. apply (gran_constant t junk cs se im HC step 0 Hst fuel res m eq_refl Hce Hm). Qed.
Print Assumptions C96_constant_refuted.

(** It ends as soon as some erosion has brought the whole image to its minimum. *)
Theorem C96_stops : forall fuel t junk cs se im step maxSe CDF m K c al out r D, gran_ok t cs se im -> 0 <= step -> minimum_is im m ->
  (K < fuel)%nat -> (Z.of_nat K + 1) * step < 2 ^ 32 -> call_ok c al im out ->
  erode junk c (tmax t) (with_size se ((Z.of_nat K + 1) * step)) al im out = Some (r, D) -> (forall x y z v, pixel_is D x y z v -> v <= m) ->
  exists res, measGranulometry fuel t junk cs se step CDF maxSe im = Some (Some res) /\ (length res <= K + 1)%nat.
Proof. intros fuel t junk cs se im step maxSe CDF m K c al out r D HC Hst. apply gran_stops; assumption. Qed.
Print Assumptions C96_stops.

(** So it ends for the elements that are boxes with some extent in each direction of the image. *)
Theorem C96_box_ends : forall fuel t junk cs se im step maxSe CDF a b c, gran_ok t cs se im -> 1 <= step ->
  box_se (se_type se) = Some (a, b, c) -> (1 <= a \/ dw (sz im) = 1) -> (1 <= b \/ dh (sz im) = 1) -> (1 <= c \/ dd (sz im) = 1) ->
  let M := Z.max (dw (sz im)) (Z.max (dh (sz im)) (dd (sz im))) in
  M + step < 2 ^ 32 -> M / step < Z.of_nat fuel ->
  exists res, measGranulometry fuel t junk cs se step CDF maxSe im = Some (Some res) /\ Z.of_nat (length res) <= M / step + 1.
Proof.
  intros fuel t junk cs se im step maxSe CDF a b c HC Hst HB Ha Hb Hc M HM HF. pose proof HC as (GI & T & HG & V & L). destruct (good_nonempty im GI) as (A & B & C & D & W).
  set (K := M / step). assert (0 <= K) as HK by (apply Z.div_pos; lia). pose proof (Z.mul_div_le M step ltac:(lia)) as H1. pose proof (Z.mul_succ_div_gt M step ltac:(lia)) as H2. fold K in H1, H2.
  destruct (min_exists t junk cs se im HC 0) as (m & _ & Hm & _).
  assert (call_ok (cs 0%nat 0%nat) false im (new_img junk im)) as HO by (apply new_call; [exact GI|intros; apply L]).
  pose proof (good_sized se (sz im) ((Z.of_nat (Z.to_nat K) + 1) * step) HG ltac:(nia)) as (GT & GN & GF & GF' & _).
  destruct (C25_erode_box junk (cs 0%nat 0%nat) (tmax t) (with_size se ((Z.of_nat (Z.to_nat K) + 1) * step)) false im (new_img junk im) a b c HO GT GN GF' HB) as (E & EE & SE & WE & HE).
  destruct (gran_stops t junk cs se im HC step maxSe ltac:(lia) fuel CDF m (Z.to_nat K) (cs 0%nat 0%nat) false (new_img junk im) 1 E) as (res & Er & Lr);
    [exact Hm|lia|nia|exact HO|exact EE| |exists res; split; [exact Er|lia]].
  intros x y z v Hv. destruct Hm as (Im & _). apply In_rd in Im as (i & Hi & Ei). destruct (LoopFacts.voxel_surj (sz im) i) as (x' & y' & z' & Hi' & ->); [exact A|pose proof (proj2 (proj1 GI)); lia|].
  apply (proj2 (HE x y z v Hv)). destruct Hv as (Hin & _). rewrite SE in Hin. exists x', y', z'. cbn [with_size se_size].
  assert (0 <= a /\ 0 <= b /\ 0 <= c) as (Na & Nb & Nc) by (destruct (se_type se); try discriminate HB; injection HB as <- <- <-; lia).
  assert (M < (Z.of_nat (Z.to_nat K) + 1) * step) as HS by nia. destruct Hin as (X & Y & Zz), Hi' as (X' & Y' & Z').
  set (S0 := (Z.of_nat (Z.to_nat K) + 1) * step) in *.
  split; [destruct Ha; [nia|lia]|]. split; [destruct Hb; [nia|lia]|]. split; [destruct Hc; [nia|lia]|]. left. split; [repeat split; lia|exact Ei].
Qed.
Print Assumptions C96_box_ends.

(** When an erosion leaves an image that is not constant unchanged, it never ends: no number of turns is enough. *)
Theorem C96_endless : forall fuel t junk cs se im step CDF c al out r D, gran_ok t cs se im -> 0 <= step ->
  (exists u v, In u (pixs im) /\ In v (pixs im) /\ u <> v) -> call_ok c al im out ->
  erode junk c (tmax t) (with_size se step) al im out = Some (r, D) -> pixs D = pixs im ->
  measGranulometry fuel t junk cs se step CDF 0 im = Some None.
Proof. intros fuel t junk cs se im step CDF c al out r D HC Hst Hex. apply (gran_runs_on t junk cs se im HC step 0 Hst fuel CDF c al out r D eq_refl Hex). Qed.
Print Assumptions C96_endless.

Definition two_rows : img := Img (Dims 2 2 1) [5; 5; 0; 0].
(** Two rows of different values and a horizontal segment; any image and a step of 0. *)
Theorem C96_termination_refuted : gran_ok UINT8 (fun _ _ => one_thread) (HorizSE 1) two_rows /\ centred (HorizSE 1) /\
  (forall fuel CDF, measGranulometry fuel UINT8 (fun _ => 7) (fun _ _ => one_thread) (HorizSE 1) 1 CDF 0 two_rows = Some None) /\
  (forall fuel CDF, measGranulometry fuel UINT8 (fun _ => 7) (fun _ _ => one_thread) (SquSE 1) 0 CDF 0 dots = Some None).
Proof.
  assert (good_img two_rows) as GT by (apply good_ex; [split; [repeat split; cbn; lia|reflexivity]|cbn; lia ..]).
  assert (gran_ok UINT8 (fun _ _ => one_thread) (HorizSE 1) two_rows) as H1.
  { split; [exact GT|]. split; [apply Forall_forall; intros v Hv; vm_compute in Hv; repeat (destruct Hv as [<-|Hv]; [vm_compute; split; discriminate|]); destruct Hv|].
    split; [split; [split; [reflexivity|tauto]|split; [cbn; lia|split; [exact I|split; [exact I|intros E; discriminate]]]]|]. split; [vm_compute; discriminate|].
    intros _ _ j. apply one_thread_legal. cbn. lia. }
  assert (gran_ok UINT8 (fun _ _ => one_thread) (SquSE 1) dots) as H2.
  { split; [exact dots_good|]. split; [exact dots_typed|]. split; [apply squ_good; lia|]. split; [vm_compute; discriminate|]. intros _ _ j. apply one_thread_legal. cbn. lia. }
  split; [exact H1|]. split; [vm_compute; auto|]. split.
  - intros fuel CDF. apply (C96_endless fuel UINT8 (fun _ => 7) _ (HorizSE 1) two_rows 1 CDF one_thread true two_rows 1 two_rows H1); [lia| | |vm_compute; reflexivity|reflexivity].
    + exists 5, 0. split; [cbn; auto|]. split; [cbn; auto|discriminate].
    + split; [exact GT|]. split; [apply GT|]. split; [reflexivity|]. split; [reflexivity|]. intros k. apply one_thread_legal. cbn. lia.
  - intros fuel CDF. apply (C96_endless fuel UINT8 (fun _ => 7) _ (SquSE 1) dots 0 CDF one_thread true dots 1 dots H2); [lia| | |vm_compute; reflexivity|reflexivity].
    + exists 9, 0. split; [cbn; auto|]. split; [cbn; auto|discriminate].
    + split; [exact dots_good|]. split; [apply dots_good|]. split; [reflexivity|]. split; [reflexivity|]. intros k. apply one_thread_legal. cbn. lia.
Qed.
Print Assumptions C96_termination_refuted.

Example C96_case : gran_ok UINT8 (fun _ _ => one_thread) (SquSE 1) dots /\ centred (SquSE 1) /\ minimum_is dots 0 /\
  measGranulometry 9 UINT8 (fun _ => 7) (fun _ _ => one_thread) (SquSE 1) 1 false 0 dots = Some (Some [Some (inject_Z 11); Some (inject_Z 36)]) /\
  (exists q, measGranulometry 9 UINT8 (fun _ => 7) (fun _ _ => one_thread) (SquSE 1) 1 true 0 dots = Some (Some [Some (11 # 47)%Q; Some q]) /\ (q == 1)%Q).
Proof.
  split; [split; [exact dots_good|split; [exact dots_typed|split; [apply squ_good; lia|split; [vm_compute; discriminate|]]]]; intros _ _ j; apply one_thread_legal; cbn; lia|].
  split; [vm_compute; auto|]. split.
  { split; [cbn; auto|]. intros v Hv. vm_compute in Hv. repeat (destruct Hv as [<-|Hv]; [lia|]). destruct Hv. }
  split; [vm_compute; reflexivity|]. eexists. split; [vm_compute; reflexivity|]. reflexivity.
Qed.

(** A constant image. *)
Example C96_constant_case : measGranulometry 9 UINT8 (fun _ => 7) (fun _ _ => one_thread) (SquSE 1) 1 true 0 (Img (Dims 2 2 1) [5; 5; 5; 5]) = Some (Some [None]).
Proof. vm_compute. reflexivity. Qed.
