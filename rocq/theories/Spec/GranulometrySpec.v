(** Specification vocabulary for alternating sequential filters and granulometries. *)
From Coq Require Export QArith.
From Verif Require Export Spec.MorphSpec Spec.HitOrMissSpec.
Local Open Scope Z_scope.

(** [B] is the closing (opening) of size [n] of [A]: [n] elementary dilations then [n] erosions, or the reverse. *)
Definition closing (t : ity) (se : strelt) (n : nat) (A B : img) : Prop :=
  exists D, passes n (dilated se (tmin t)) A D /\ passes n (eroded se (tmax t)) D B.
Definition opening (t : ity) (se : strelt) (n : nat) (A B : img) : Prop :=
  exists E, passes n (eroded se (tmax t)) A E /\ passes n (dilated se (tmin t)) E B.

(** [B] comes from [A] by applying [first] then [second] with the sizes 1, 2, ..., [n] in turn. *)
Fixpoint alternating (first second : nat -> img -> img -> Prop) (n : nat) (A B : img) : Prop :=
  match n with
  | O => B = A
  | S m => exists C D, alternating first second m A C /\ first n C D /\ second n D B
  end.

(** A call of an alternating sequential filter under a legal execution. *)
Definition asf_ok (cs : Z -> nat -> nat -> conf) (im out : img) : Prop :=
  good_img im /\ wf_img out /\ sz out = sz im /\ forall i j k, legal_conf (dh (sz im)) (cs i j k).

(** The volume of an image and its least value. *)
Definition total (im : img) : Z := Zsum (pixs im).
Definition minimum_is (im : img) (m : Z) : Prop := least (fun v => In v (pixs im)) m.

(** The entries of [res] are the differences of volume between the openings of sizes 0, step, 2 step, ... of [im]. *)
Definition differences (t : ity) (se : strelt) (step : Z) (im : img) (res : list (option Q)) : Prop :=
  forall k, 0 <= k < Z.of_nat (length res) -> exists A B,
    opening t se (Z.to_nat (k * step)) im A /\ opening t se (Z.to_nat ((k + 1) * step)) im B /\
    rd res k = Some (Some (inject_Z (total A - total B))) /\ 0 <= total A - total B.

(** The entries of [res] are the cumulated differences, as fractions of what the image has above its minimum [m]. *)
Definition cumulated (t : ity) (se : strelt) (step m : Z) (im : img) (res : list (option Q)) : Prop :=
  forall k, 0 <= k < Z.of_nat (length res) -> exists B q,
    opening t se (Z.to_nat ((k + 1) * step)) im B /\ rd res k = Some (Some q) /\
    (q == inject_Z (total im - total B) / inject_Z (total im - dw (sz im) * dh (sz im) * dd (sz im) * m))%Q /\ (0 <= q <= 1)%Q /\
    (forall q', rd res (k + 1) = Some (Some q') -> (q <= q')%Q) /\ (k + 1 = Z.of_nat (length res) -> (q == 1)%Q).

(** A call of [measGranulometry] under a legal execution, the volumes being exact. *)
Definition gran_ok (t : ity) (cs : nat -> nat -> nat -> conf) (se : strelt) (im : img) : Prop :=
  good_img im /\ typed_img t im /\ good_se se (sz im) /\ exact_volumes t (sz im) /\ forall k i j, legal_conf (dh (sz im)) (cs k i j).

(** The element contains its origin. *)
Definition centred (se : strelt) : Prop := In (0, 0, 0) (se_points se).
