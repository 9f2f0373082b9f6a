(** Influence zones and waterfalls: Morpho/include/private/DMorphoWatershed.hpp:436-581.

    The images given to one call are distinct, unless said otherwise.  A result [Some None] means that the number of turns
    [fuel] is exhausted; [None]: access outside an array. *)
From Verif Require Export Model.Watershed Model.Measures Model.Label.

(** [mask], DImageArith.hpp:1928-1931. *)
Definition px_mask (a m : Z) : Z := px_test m a 0.

(** The images of [lblSkiz]: labelIm1, labelIm2, tmpIm1 and tmpIm2. *)
Record skstate := SK { sk_l1 : img; sk_l2 : img; sk_t1 : img; sk_t2 : img }.

(** One turn of the loop, 463-472.  [sumIm] is overwritten at each turn. *)
Definition skiz_turn (t : ity) junk (cs : nat -> nat -> conf) (se : strelt) (maskIm : img) (st : skstate) : option skstate :=
  option_bind (dilate junk (cs 0%nat) (tmin t) se false (sk_l1 st) (sk_t1 st)) (fun r1 =>
  option_bind (dilate junk (cs 1%nat) (tmin t) se false (sk_l2 st) (sk_t2 st)) (fun r2 =>
  let sum := pw2 (px_addNoSat t) (sk_l1 st) (sk_l2 st) in
  let sum := pw1 (px_thresh (tmin t) (tmax t - 1) (tmax t) (tmin t)) sum in
  let sum := pw2 px_inf maskIm sum in
  let t1 := pw2 px_mask (snd r1) sum in
  let t2 := pw2 px_mask (snd r2) sum in
  Some (SK (pw2 px_sup (sk_l1 st) t1) (pw2 px_sup (sk_l2 st) t2) t1 t2))).

(** The loop, 462-476. *)
Fixpoint skiz_loop (fuel k : nat) (t : ity) junk (cs : nat -> nat -> nat -> conf) (se : strelt) (maskIm : img) (vol1 vol2 : Z) (st : skstate)
  : option (option skstate) :=
  if vol1 <? vol2 then
    match fuel with
    | O => Some None
    | S fuel' =>
        option_bind (skiz_turn t junk (cs k) se maskIm st) (fun st' =>
        option_bind (volume (sk_l1 st')) (fun v => skiz_loop fuel' (S k) t junk cs se maskIm vol2 v st'))
    end
  else Some (Some st).

(** [lblSkiz], 444-478: the return value, labelIm1 and labelIm2.  [junk] is the content of the new images. *)
Definition lblSkiz (fuel : nat) (t : ity) junk (cs : nat -> nat -> nat -> conf) (se : strelt) (l1 l2 maskIm : img) : option (option (Z * (img * img))) :=
  if negb (same_size l1 l2 && same_size l1 maskIm) then Some (Some (-98, (l1, l2))) else
  fuel_bind (skiz_loop fuel 0 t junk cs se maskIm (-1) 0 (SK l1 l2 (new_img junk l1) (new_img junk l1))) (fun st =>
  Some (Some (1, (sk_l1 st, sk_l2 st)))).

(** [inflBasins], 487-509.  [t2] is the type of basinsOut; [c1], [c2] are used by the final opening, which takes the default
    element. *)
Definition inflBasins (fuel : nat) (t2 : ity) junk (cs : nat -> nat -> nat -> conf) c1 c2 (default_se se : strelt) (inplace : bool) (imIn basinsOut : img)
  : option (option (Z * img)) :=
  if negb (same_size imIn basinsOut) then Some (Some (-98, basinsOut)) else
  fuel_bind (label fuel t2 default_se se inplace imIn basinsOut) (fun r =>
  let lbl := snd r in
  let lbl2 := pw2 px_mask (pw1 (px_inv t2) lbl) lbl in
  fuel_bind (lblSkiz fuel t2 junk cs se lbl lbl2 (pw1 (fun _ => tmax t2) basinsOut)) (fun r =>
  option_bind (open_im t2 junk c1 c2 default_se true (fst (snd r)) (fst (snd r))) (fun o => Some (Some (1, snd o))))).

(** [StrElt()], DStructuringElement.h:70-74: no points. *)
Definition no_points : strelt := SE false SE_Generic 1 [].

(** [inflZones], 518-534, on images of type [t]; the bounds of the threshold are those of [t] converted to [UINT16], the
    final copy converts to [t]. *)
Definition inflZones (fuel : nat) (t : ity) junk (cs : nat -> nat -> nat -> conf) c1 c2 c3 c4 (default_se se : strelt) (imIn imOut : img)
  : option (option (Z * img)) :=
  if negb (same_size imIn imOut) then Some (Some (-98, imOut)) else
  fuel_bind (inflBasins fuel UINT16 junk cs c1 c2 default_se se false imIn (new_img junk imIn)) (fun r =>
  option_bind (gradient UINT16 junk c3 c4 se no_points (snd r)) (fun g =>
  let th := pw1 (px_thresh (wrap UINT16 (wrap t (tmin t + 1))) (wrap UINT16 (tmax t)) (tmax UINT16) (tmin UINT16)) (snd g) in
  Some (Some (1, pw1 (wrap t) th)))).

(** [waterfall], 540-555: the return value, imGradOut and imWsOut. *)
Definition waterfall (fuel : nat) (t : ity) junk (default_se se : strelt) (gradIn wsIn imGradOut imWsOut : img) : option (option (Z * (img * img))) :=
  if negb (same_size gradIn wsIn && same_size gradIn imGradOut && same_size gradIn imWsOut) then Some (Some (-98, (imGradOut, imWsOut))) else
  let ws := pw2 (fun c a => px_test c a (tmax t)) wsIn gradIn in
  fuel_bind (dualBuild fuel t se false ws gradIn imGradOut) (fun g =>
  fuel_bind (watershed_minima fuel t junk default_se se (snd g) ws) (fun w =>
  Some (Some (1, (snd g, snd w))))).

(** [waterfall] with levels, 561-581: the loop, then the function; the images are tmpGradIm, tmpGradIm2 and imWsOut. *)
Fixpoint waterfall_loop (n fuel : nat) (t : ity) junk (default_se se : strelt) (grad grad2 ws : img) : option (option img) :=
  match n with
  | O => Some (Some ws)
  | S n' => fuel_bind (waterfall fuel t junk default_se se grad ws grad2 ws) (fun r =>
            waterfall_loop n' fuel t junk default_se se (fst (snd r)) (fst (snd r)) (snd (snd r)))
  end.
Definition waterfall_levels (fuel : nat) (t : ity) junk (default_se se : strelt) (nLevel : Z) (gradIn imWsOut : img) : option (option (Z * img)) :=
  if negb (same_size gradIn imWsOut) then Some (Some (-98, imWsOut)) else
  fuel_bind (watershed_minima fuel t junk default_se se gradIn imWsOut) (fun w =>
  fuel_bind (waterfall_loop (Z.to_nat nLevel) fuel t junk default_se se gradIn (new_img junk gradIn) (snd w)) (fun ws =>
  Some (Some (1, ws)))).
