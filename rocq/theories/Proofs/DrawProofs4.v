From Verif Require Export Proofs.DrawProofs2 Proofs.DrawProofs3.
From Coq Require Import Lia.

(** *** Lines *)

Lemma segment_range x0 y0 x1 y1 x y : segment x0 y0 x1 y1 x y ->
  Z.min x0 x1 <= x <= Z.max x0 x1 /\ Z.min y0 y1 <= y <= Z.max y0 y1.
Proof.
  assert (forall xl yl xr yr, xl <= xr -> segment_from xl yl xr yr x y -> xl <= x <= xr /\ Z.min yl yr <= y <= Z.max yl yr) as G.
  { intros xl yl xr yr Hle. unfold segment_from. cbv zeta. set (dx := xr - xl). intros [(-> & ->)|H]; [lia|].
    destruct (Z.leb_spec (Z.abs (yr - yl)) dx) as [Q|Q]; destruct (Z.leb_spec yl yr) as [R|R].
    - replace (Z.abs (yr - yl)) with (yr - yl) in * by lia. set (dy := yr - yl) in *. assert (0 <= y - yl <= dy) by nia. lia.
    - replace (Z.abs (yr - yl)) with (yl - yr) in * by lia. set (dy := yl - yr) in *. assert (0 <= yl - y <= dy) by nia. lia.
    - replace (Z.abs (yr - yl)) with (yr - yl) in * by lia. set (dy := yr - yl) in *. assert (0 <= x - xl <= dx) by nia. lia.
    - replace (Z.abs (yr - yl)) with (yl - yr) in * by lia. set (dy := yl - yr) in *. assert (0 <= x - xl <= dx) by nia. lia. }
  unfold segment. destruct (Z.leb_spec x0 x1) as [Q|Q]; intros H; apply G in H; lia.
Qed.

Lemma drawLine_ok v im x0 y0 x1 y1 : wf_img im -> 0 < width im < 2 ^ 31 -> 0 < height im < 2 ^ 31 -> 0 < depth im ->
  small_int x0 -> small_int y0 -> small_int x1 -> small_int y1 -> line_clipped (width im) (height im) x0 y0 x1 y1 ->
  exists im', drawLine im x0 y0 x1 y1 v = Some (1, im') /\ painted v (fun x y z => z = 0 /\ segment x0 y0 x1 y1 x y) im im'.
Proof.
  intros W Hw Hh Hd S1 S2 S3 S4 C. unfold drawLine. rewrite !to_int_id by lia.
  match goal with |- context [if ?b then _ else _] => destruct b eqn:B end;
  [destruct (bresenham_ok x0 y0 x1 y1 (width im) (height im) S1 S2 S3 S4) as (ps & -> & I)
  |destruct (bresenham_ok x0 y0 x1 y1 0 0 S1 S2 S3 S4) as (ps & -> & I)]; cbn [option_bind].
  - assert (forall x y, In (x, y) ps -> 0 <= x < width im /\ 0 <= y < height im) as R.
    { intros x y Hi. apply I in Hi as (Hs & Hp). apply segment_range in Hs. unfold passed in Hp. unfold line_clipped in C.
      destruct (Z.eqb_spec x0 x1); [|destruct (Z.eqb_spec y0 y1)]; lia. }
    destruct (paint_ok v im (map (fun p => (fst p, snd p, 0)) ps) W) as (im' & E & P).
    + intros x y z Hi. apply in_map_iff in Hi as ((a, b) & [= <- <- <-] & Hi). cbn. apply R in Hi. unfold inside, width, height, depth in *. lia.
    + rewrite E. exists im'. split; [reflexivity|]. eapply painted_iff; [exact P|]. intros x y z (Ix & Iy & Iz). rewrite in_map_iff. split.
      * intros ((a, b) & [= <- <- <-] & Hi). cbn. split; [reflexivity|]. apply I. exact Hi.
      * intros (-> & Hs). exists (x, y). split; [reflexivity|]. apply I. split; [exact Hs|].
        unfold passed, width, height in *. destruct (x0 =? x1); [|destruct (y0 =? y1)]; lia.
  - assert (forall x y, In (x, y) ps <-> segment x0 y0 x1 y1 x y) as J.
    { intros x y. rewrite I. unfold passed. destruct (x0 =? x1); [|destruct (y0 =? y1)]; intuition. }
    destruct (paint_ok v im (map (fun p => (fst p, snd p, 0)) ps) W) as (im' & E & P).
    + intros x y z Hi. apply in_map_iff in Hi as ((a, b) & [= <- <- <-] & Hi). cbn. apply J in Hi. apply segment_range in Hi.
      unfold inside, width, height, depth in *. lia.
    + rewrite E. exists im'. split; [reflexivity|]. eapply painted_iff; [exact P|]. intros x y z (Ix & Iy & Iz). rewrite in_map_iff. split.
      * intros ((a, b) & [= <- <- <-] & Hi). cbn. split; [reflexivity|]. apply J. exact Hi.
      * intros (-> & Hs). exists (x, y). split; [reflexivity|]. apply J. exact Hs.
Qed.

(** *** The order of the points *)

Lemma chain_app l a b r : chain (l ++ [a]) -> chain (b :: r) -> Z.abs (fst a - fst b) <= 1 -> Z.abs (snd a - snd b) <= 1 -> a <> b ->
  chain ((l ++ [a]) ++ b :: r).
Proof.
  induction l as [|c l IH]; intros H1 H2 H3 H4 H5.
  - cbn [app] in *. cbn [chain]. auto.
  - cbn [app] in *. destruct (l ++ [a]) as [|e t] eqn:E; [destruct l; discriminate|]. cbn [app].
    destruct H1 as (A1 & A2 & A3 & A4). cbn [chain]. split; [exact A1|]. split; [exact A2|]. split; [exact A3|].
    cbn [app] in IH. apply IH; assumption.
Qed.

Lemma chain_rev l : chain l -> chain (rev l).
Proof.
  induction l as [|a l IH]; intros H; [exact I|]. cbn [rev]. destruct l as [|b l]; [exact I|]. destruct H as (A1 & A2 & A3 & A4).
  cbn [rev] in *. apply chain_app; [exact (IH A4)|exact I| | |congruence].
  - replace (fst b - fst a) with (- (fst a - fst b)) by lia. rewrite Z.abs_opp. exact A1.
  - replace (snd b - snd a) with (- (snd a - snd b)) by lia. rewrite Z.abs_opp. exact A2.
Qed.

Lemma chain_map (f : Z -> Z * Z) n : 0 <= n -> (forall k, 0 <= k < n -> Z.abs (fst (f k) - fst (f (k + 1))) <= 1 /\ Z.abs (snd (f k) - snd (f (k + 1))) <= 1 /\ f k <> f (k + 1)) ->
  chain (map f (zseq (n + 1))).
Proof.
  intros Hn H. assert (forall k, 0 <= k -> k <= n -> chain (map f (zseq (k + 1)))) as G; [|apply G; lia].
  apply (natlike_ind (fun k => k <= n -> chain (map f (zseq (k + 1))))).
  - intros _. exact I.
  - intros k Hk IH Hk1. unfold Z.succ in *. rewrite (zseq_succ (k + 1)) by lia. rewrite map_app. cbn [map].
    specialize (IH ltac:(lia)). rewrite (zseq_succ k) in * by lia. rewrite map_app in *. cbn [map] in *.
    destruct (H k ltac:(lia)) as (A1 & A2 & A3). apply chain_app; [exact IH|exact I|assumption|assumption|assumption].
Qed.

Lemma walk_rev a b l : walk a b l -> walk b a (rev l).
Proof. intros (C & H1 & H2). split; [apply chain_rev; exact C|]. split; [exact H2|]. rewrite rev_involutive. exact H1. Qed.

Lemma walk_map (f : Z -> Z * Z) n : 0 <= n -> (forall k, 0 <= k < n -> Z.abs (fst (f k) - fst (f (k + 1))) <= 1 /\ Z.abs (snd (f k) - snd (f (k + 1))) <= 1 /\ f k <> f (k + 1)) ->
  walk (f 0) (f n) (map f (zseq (n + 1))).
Proof.
  intros Hn H. split; [apply chain_map; assumption|]. split.
  - rewrite zseq_cons by lia. reflexivity.
  - rewrite zseq_succ by lia. rewrite map_app, rev_app_distr. reflexivity.
Qed.

Lemma filter_true {A} (l : list A) : filter (fun _ => true) l = l.
Proof. induction l; cbn; congruence. Qed.

Lemma bres_line_walk A B mx my ax ay x0 y0 : 0 < A -> 0 <= B <= A ->
  (ax = 0 /\ my = 0 /\ mx = 1 /\ (ay = 1 \/ ay = -1)) \/ (ay = 0 /\ mx = 0 /\ ax = 1 /\ (my = 1 \/ my = -1)) ->
  walk (x0, y0) (x0 + A * ax + B * mx, y0 + A * ay + B * my) (bres_line (bres_clip 0 0) A B mx my ax ay x0 y0 (A + 1)).
Proof.
  intros HA HB HD. unfold bres_line. rewrite (filter_ext _ (fun _ => true)) by reflexivity. rewrite filter_true.
  pose proof (walk_map (bres_point A B mx my ax ay x0 y0) A ltac:(lia)) as G.
  replace (bres_point A B mx my ax ay x0 y0 0) with (x0, y0) in G by (unfold bres_point; rewrite minor_0 by lia; f_equal; lia).
  replace (bres_point A B mx my ax ay x0 y0 A) with (x0 + A * ax + B * mx, y0 + A * ay + B * my) in G by (unfold bres_point; rewrite minor_end by lia; reflexivity).
  apply G. intros k Hk. unfold bres_point. rewrite minor_next by lia. cbn [fst snd].
  destruct HD as [(-> & -> & -> & [-> | ->])|(-> & -> & -> & [-> | ->])]; (split; [|split; [|intros [= E1 E2]; revert E1 E2]]); destruct (_ <=? 0); lia.
Qed.

Lemma bresenham_walk p1x p1y p2x p2y : small_int p1x -> small_int p1y -> small_int p2x -> small_int p2y ->
  (p1x <> p2x /\ p1y <> p2y) \/ (p1x = p2x /\ p1y <= p2y) \/ (p1y = p2y /\ p1x <= p2x) ->
  exists ps, bresenhamPoints p1x p1y p2x p2y 0 0 = Some ps /\ walk (p1x, p1y) (p2x, p2y) ps.
Proof.
  intros S1 S2 S3 S4 H. rewrite bresenham_list by assumption. eexists. split; [reflexivity|].
  assert (forall p1x p1y p2x p2y, p1x <= p2x -> (p1x <> p2x /\ p1y <> p2y) \/ (p1x = p2x /\ p1y <= p2y) \/ (p1y = p2y /\ p1x <= p2x) ->
    walk (p1x, p1y) (p2x, p2y) (bres_list p1x p1y p2x p2y 0 0)) as G.
  { clear. intros p1x p1y p2x p2y Hle H. unfold bres_list. destruct (Z.eqb_spec p1x p2x) as [->|Nx]; [|destruct (Z.eqb_spec p1y p2y) as [->|Ny]].
    - unfold bres_vertical. replace (p1y >? p2y) with false by lia. cbn [Z.eqb orb]. unfold zrange. rewrite map_map.
      pose proof (walk_map (fun k => (p2x, p1y + k)) (p2y - p1y) ltac:(lia)) as G. cbn beta in G.
      replace (p1y + 0) with p1y in G by lia. replace (p1y + (p2y - p1y)) with p2y in G by lia. apply G.
      intros k Hk. cbn [fst snd]. split; [lia|]. split; [lia|]. intros [= E]. lia.
    - unfold bres_horizontal. cbn [Z.eqb orb]. unfold zrange. rewrite map_map.
      pose proof (walk_map (fun k => (p1x + k, p2y)) (p2x - p1x) ltac:(lia)) as G. cbn beta in G.
      replace (p1x + 0) with p1x in G by lia. replace (p1x + (p2x - p1x)) with p2x in G by lia. apply G.
      intros k Hk. cbn [fst snd]. split; [lia|]. split; [lia|]. intros [= E]. lia.
    - cbv zeta. set (dx := p2x - p1x). set (dy := Z.abs (p2y - p1y)). set (s := Z.sgn (p2y - p1y)).
      assert ((s = 1 \/ s = -1) /\ p2y = p1y + dy * s) as (Hs & Ey) by (unfold dy, s; lia).
      assert (0 < dx) by (unfold dx; lia). assert (0 < dy) by (unfold dy; lia).
      destruct (Z.leb_spec dy dx) as [Q|Q].
      + pose proof (bres_line_walk dx dy 0 s 1 0 p1x p1y ltac:(lia) ltac:(lia) ltac:(right; auto)) as G.
        replace (p1x + dx * 1 + dy * 0) with p2x in G by (unfold dx; lia). replace (p1y + dx * 0 + dy * s) with p2y in G by lia. exact G.
      + pose proof (bres_line_walk dy dx 1 0 0 s p1x p1y ltac:(lia) ltac:(lia) ltac:(left; auto)) as G.
        replace (p1x + dy * 0 + dx * 1) with p2x in G by (unfold dx; lia). replace (p1y + dy * s + dx * 0) with p2y in G by lia. exact G. }
  destruct (Z.gtb_spec p1x p2x) as [S|S].
  - replace (p1y =? p2y) with false by lia. apply walk_rev. apply G; lia.
  - apply G; lia.
Qed.

(** *** Circles *)

Definition circle_d (r x y : Z) : Z := 2 * (x + 1) * (x + 1) + 2 * y * y - 2 * y - 2 * r * r + r.

Lemma octants_In x0 y0 i j x y : 0 <= i -> 0 <= j -> In (x, y) (octants x0 y0 i j) <-> mirrored x0 y0 i j x y.
Proof.
  intros Hi Hj. unfold octants, mirrored. cbn [In]. split.
  - intros H. repeat destruct H as [H|H]; try contradiction; injection H as <- <-; lia.
  - intros H. assert (forall a b c d, a = c -> b = d -> (a, b) = (c, d) :> Z * Z) as P by (intros; congruence).
    destruct H as [(H1 & H2)|(H1 & H2)]; destruct (Z_le_dec x0 x); destruct (Z_le_dec y0 y).
    + left. apply P; lia.
    + right; left. apply P; lia.
    + do 2 right; left. apply P; lia.
    + do 3 right; left. apply P; lia.
    + do 4 right; left. apply P; lia.
    + do 5 right; left. apply P; lia.
    + do 6 right; left. apply P; lia.
    + do 7 right; left. apply P; lia.
Qed.

Lemma all_some_ex {A B} (f : A -> option B) l : (forall a, In a l -> exists b, f a = Some b) -> exists l', all_some (map f l) = Some l'.
Proof.
  induction l as [|a l IH]; intros H; cbn [map all_some]; [eauto|]. destruct (H a (or_introl eq_refl)) as (b & ->).
  destruct IH as (l' & ->); [intros; apply H; right; assumption|]. eauto.
Qed.

Lemma circle_step v x0 y0 zs im x y : wf_img im -> width im < 2 ^ 31 -> height im < 2 ^ 31 -> 0 <= zs < depth im ->
  small_int x0 -> small_int y0 -> 0 <= x -> 0 <= y -> x < 2 ^ 27 -> y < 2 ^ 27 ->
  (exists l, all_some (map (fun p => option_bind (int_ck (fst p)) (fun _ => int_ck (snd p))) (octants x0 y0 x y)) = Some l) /\
  exists im', paint v im (map (fun p => (fst p, snd p, zs)) (filter (in_frame (to_int (width im)) (to_int (height im))) (octants x0 y0 x y))) = Some im' /\
    painted v (fun a b z => z = zs /\ mirrored x0 y0 x y a b) im im'.
Proof.
  unfold small_int. intros W Hw Hh Hz S1 S2 Hx Hy Bx By. pose proof W as ((D1 & D2 & D3) & _). split.
  - apply all_some_ex. intros (a, b) Hi. apply octants_In in Hi; [|assumption|assumption]. unfold mirrored in Hi. cbn [fst snd].
    rewrite (int_ck_ok a) by lia. cbn. rewrite int_ck_ok by lia. eauto.
  - unfold width, height in *. rewrite !to_int_id by lia.
    destruct (paint_ok v im (map (fun p => (fst p, snd p, zs)) (filter (in_frame (dw (sz im)) (dh (sz im))) (octants x0 y0 x y))) W) as (im' & E & P).
    + intros a b z Hi. apply in_map_iff in Hi as ((a', b') & [= <- <- <-] & Hi). apply filter_In in Hi as (_ & Hi). unfold in_frame in Hi. cbn in *.
      unfold inside. fold (depth im). lia.
    + exists im'. split; [exact E|]. eapply painted_iff; [exact P|]. intros a b z (Ia & Ib & Iz). rewrite in_map_iff. split.
      * intros ((a', b') & [= <- <- <-] & Hi). apply filter_In in Hi as (Hi & _). cbn. apply octants_In in Hi; [auto|assumption|assumption].
      * intros (-> & Hm). exists (a, b). split; [reflexivity|]. apply filter_In. split; [apply octants_In; assumption|]. unfold in_frame. cbn. lia.
Qed.

Lemma circle_loop_ok v x0 y0 zs r fuel : 0 <= r < 2 ^ 26 -> small_int x0 -> small_int y0 -> forall im d x y,
  wf_img im -> width im < 2 ^ 31 -> height im < 2 ^ 31 -> 0 <= zs < depth im ->
  0 <= x <= y -> y <= r -> d = circle_d r x y \/ (0 <= d <= 5 /\ x = 0 /\ y <= 1) ->
  2 * r * r - 3 * r <= 2 * (x * x + y * y) <= 2 * r * r + r -> y - x < Z.of_nat fuel ->
  exists im' X Y, circle_loop fuel v x0 y0 zs im d x y = Some (Some im') /\ arc r x y X Y /\
    painted v (fun a b z => z = zs /\ exists i, x <= i <= X /\ mirrored x0 y0 i (Y i) a b) im im'.
Proof.
  intros Hr S1 S2. induction fuel as [|fuel IH]; intros im d x y W Hw Hh Hz Hxy Hyr Hd Hb Hf; [lia|].
  cbn [circle_loop]. destruct (circle_step v x0 y0 zs im x y) as ((l & El) & im1 & E1 & P1); try assumption; try lia.
  rewrite El. cbn [option_bind]. rewrite E1. cbn [option_bind].
  pose proof (painted_wf _ _ _ _ P1) as W1. pose proof (painted_sz _ _ _ _ P1) as Z1.
  assert (- 8 * r - 8 <= d <= 8 * r + 8) as Rd.
  { destruct Hd as [->|Hd]; [|lia]. unfold circle_d. nia. }
  assert (exists d', (if d <? 0 then option_bind (int_ck (4 * x)) (fun a => option_bind (int_ck (d + a)) (fun b => int_ck (b + 6)))
      else option_bind (int_ck (x - y)) (fun c => option_bind (int_ck (4 * c)) (fun a => option_bind (int_ck (d + a)) (fun b => int_ck (b + 10))))) = Some d' /\
      d' = if d <? 0 then d + 4 * x + 6 else d + 4 * (x - y) + 10) as (d' & Ed & Ed').
  { destruct (d <? 0); eexists; (split; [|reflexivity]); repeat (rewrite int_ck_ok by lia; cbn [option_bind]); reflexivity. }
  rewrite Ed. cbn [option_bind]. set (y' := if d <? 0 then y else y - 1).
  destruct (Z.leb_spec (x + 1) y') as [C|C].
  - assert (d = circle_d r x y) as HD. { destruct Hd as [Hd|Hd]; [exact Hd|]. exfalso. unfold y' in C. destruct (Z.ltb_spec d 0); lia. }
    destruct (IH im1 d' (x + 1) y') as (im' & X & Y & E & (A1 & A2 & A3 & A4 & A5) & P); unfold width, height, depth in *; rewrite ?Z1; try assumption.
    + lia.
    + unfold y'. destruct (d <? 0); lia.
    + left. rewrite Ed'. unfold y'. clear - HD. destruct (d <? 0); rewrite HD; unfold circle_d; ring.
    + unfold circle_d in HD. unfold y' in *. destruct (Z.ltb_spec d 0) as [Q|Q]; nia.
    + unfold y'. destruct (d <? 0); lia.
    + exists im', X, (fun i => if i =? x then y else Y i). split; [exact E|]. split.
      * unfold arc. cbv beta. rewrite Z.eqb_refl. split; [lia|]. split; [reflexivity|]. split; [|split].
        -- intros i Hi. replace (i + 1 =? x) with false by lia. destruct (Z.eqb_spec i x) as [->|N].
           ++ rewrite A2. unfold y'. destruct (d <? 0); lia.
           ++ apply A3. lia.
        -- replace (X =? x) with false by lia. exact A4.
        -- intros i Hi. destruct (Z.eqb_spec i x) as [->|N]; [exact Hb|]. apply A5. lia.
      * eapply painted_iff; [exact (painted_trans _ _ _ _ _ _ W P1 P)|]. intros a b z _. cbv beta. split.
        -- intros [(-> & Hm)|(-> & i & Hi & Hm)]; (split; [reflexivity|]).
           ++ exists x. rewrite Z.eqb_refl. split; [lia|exact Hm].
           ++ exists i. replace (i =? x) with false by lia. split; [lia|exact Hm].
        -- intros (-> & i & Hi & Hm). destruct (Z.eqb_spec i x) as [->|N]; [left; auto|]. right. split; [reflexivity|]. exists i. split; [lia|exact Hm].
  - exists im1, x, (fun _ => y). split; [reflexivity|]. split.
    + unfold arc. split; [lia|]. split; [reflexivity|]. split; [intros; lia|]. split; [unfold y' in C; destruct (d <? 0); lia|].
      intros i Hi. replace i with x by lia. exact Hb.
    + eapply painted_iff; [exact P1|]. intros a b z _. cbv beta. split.
      * intros (-> & Hm). split; [reflexivity|]. exists x. split; [lia|exact Hm].
      * intros (-> & i & Hi & Hm). replace i with x in Hm by lia. auto.
Qed.

Lemma drawCircle_ok v im x0 y0 r zs fuel : wf_img im -> width im < 2 ^ 31 -> height im < 2 ^ 31 -> 0 <= zs < depth im ->
  small_int x0 -> small_int y0 -> 0 <= r < 2 ^ 26 -> r < Z.of_nat fuel ->
  exists im' X Y, drawCircle fuel im x0 y0 r v zs = Some (Some (1, im')) /\ arc r 0 r X Y /\
    painted v (fun a b z => z = zs /\ exists i, 0 <= i <= X /\ mirrored x0 y0 i (Y i) a b) im im'.
Proof.
  intros W Hw Hh Hz S1 S2 Hr Hf. unfold drawCircle. replace (zs <? depth im) with true by lia. cbn [negb].
  rewrite (int_ck_ok (r * 4)) by lia. cbn [option_bind]. rewrite int_ck_ok by lia.
  destruct (circle_loop_ok v x0 y0 zs r fuel Hr S1 S2 im (Z.quot (5 - r * 4) 4) 0 r) as (im' & X & Y & E & A & P); try assumption; try lia.
  - destruct (Z_le_dec r 1) as [L|L].
    + right. assert (r = 0 \/ r = 1) as [-> | ->] by lia; cbn; lia.
    + left. replace (5 - r * 4) with (- (4 * r - 5)) by lia. rewrite Z.quot_opp_l by lia. rewrite Z.quot_div_nonneg by lia.
      replace ((4 * r - 5) / 4) with (r - 2) by (apply (Z.div_unique _ _ _ 3); lia). unfold circle_d. lia.
  - rewrite E. exists im', X, Y. split; [reflexivity|]. auto.
Qed.
