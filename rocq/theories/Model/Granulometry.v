(** Granulometries.

    Models: Morpho/include/private/DMorphoMeasures.hpp.  The alternating sequential filters of
    DMorphoFilter.hpp are in Model/Morph.v. *)
From Coq Require Export QArith.
From Verif Require Export Model.Morph Model.Measures.
Local Open Scope Z_scope.

(** The do-while loop of measGranulometry, DMorphoMeasures.hpp:80-89, at its [k]-th turn; [cs k i] are the
    choices of the runtime.  [imEro] and [imOpen] are the two work images, [seSize] (a size_t, converted to
    [UINT] by [StrElt::operator()]) the size of the next dilation, [v0] the last volume, [res] the result so
    far.  The border values are the defaults of [erode] and [dilate]. *)
Fixpoint gran_loop (fuel : nat) (t : ity) (junk : Z -> Z) (cs : nat -> nat -> nat -> conf) (se : strelt)
  (stepSize maxSeSize minv : Z) (k : nat) (imEro imOpen : img) (seSize v0 : Z) (res : list Z) : option (option (list Z)) :=
  match fuel with
  | O => Some None
  | S fuel' =>
      option_bind (erode junk (cs k 0%nat) (tmax t) (with_size se stepSize) true imEro imEro) (fun r1 =>
      option_bind (dilate junk (cs k 1%nat) (tmin t) (with_size se (seSize mod 2 ^ 32)) false (snd r1) imOpen) (fun r2 =>
      option_bind (volume (snd r2)) (fun v1 =>
      option_bind (maxVal t false (snd r1)) (fun maxv =>
      let res := res ++ [v0 - v1] in
      let seSize := (seSize + stepSize) mod 2 ^ 64 in
      if (maxv >? minv) && ((maxSeSize =? 0) || (maxSeSize >=? seSize))
      then gran_loop fuel' t junk cs se stepSize maxSeSize minv (S k) (snd r1) (snd r2) seSize v1 res
      else Some (Some res)))))
  end.

(** The cumulative sums, DMorphoMeasures.hpp:91-98.  The divisions are exact here (their rounding is not
    modelled); [None] stands for a value that is not finite, which a division by zero gives, and with it
    every sum it enters. *)
Fixpoint running (aSum : Z) (acc : Q) (l : list Z) : list Q :=
  match l with
  | [] => []
  | v :: r => let q := Qplus (Qdiv (inject_Z v) (inject_Z aSum)) acc in q :: running aSum q r
  end.
Definition gran_cdf (res : list Z) : list (option Q) :=
  let aSum := fold_left Z.add res 0 in
  if aSum =? 0 then map (fun _ => None) res else map Some (running aSum 0%Q res).

(** measGranulometry, DMorphoMeasures.hpp:63-100.  The new image imOpen has unspecified contents.  Outer
    [None]: undefined behaviour, or a volume that is not exact in a [double]; [Some None]: out of fuel. *)
Definition measGranulometry (fuel : nat) (t : ity) (junk : Z -> Z) (cs : nat -> nat -> nat -> conf) (se : strelt)
  (stepSize : Z) (CDF : bool) (maxSeSize : Z) (imIn : img) : option (option (list (option Q))) :=
  option_bind (volume imIn) (fun v0 =>
  option_bind (minVal t false imIn) (fun minv =>
  option_bind (gran_loop fuel t junk cs se stepSize maxSeSize minv 0 imIn (new_img junk imIn) stepSize v0 []) (fun r =>
  match r with
  | None => Some None
  | Some res => Some (Some (if CDF then gran_cdf res else map (fun v => Some (inject_Z v)) res))
  end))).
