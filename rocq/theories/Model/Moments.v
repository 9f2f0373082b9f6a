(** Means, barycentres, moments and covariances: Base/include/private/DMeasures.hpp:165-211, 658-697, 781-931, 940-1023.

    The accumulators are [double]s: sums of integers are exact while the terms and the partial sums stay within 2^53
    ([None] beyond).  The quotients are exact rationals; [None] in a list of results stands for a NaN or an infinity. *)
From Coq Require Export QArith.
From Verif Require Export Model.Measures.
Local Open Scope Z_scope.

(** Adding a product of integers to an accumulator. *)
Definition dacc (s p : Z) : option Z := if Z.abs p <=? 2 ^ 53 then dadd s p else None.
Definition daccs (s ps : list Z) : option (list Z) := all_some (map2 dacc s ps).

(** Division of two [double]s. *)
Definition ratio (a b : Z) : option Q := if b =? 0 then None else Some (inject_Z a / inject_Z b)%Q.

(** [measMeanValFunc], 165-195, and [meanVal], 205-211: the mean, and what is given to [sqrt] for the deviation. *)
Definition mean_terms (v : Z) : list Z := [1; v; v * v].
Definition meanVal (onlyNonZero : bool) (im : img) : option (Q * Q) :=
  option_map (fun s =>
      let n := znth 0 s 0 in
      if n =? 0 then (0%Q, 0%Q) else
      let mean := (inject_Z (znth 0%Z s 1) / inject_Z n)%Q in
      (mean, (inject_Z (znth 0%Z s 2) / inject_Z n - mean * mean)%Q))
    (process_image (fun s l => fold_opt (fun s v => daccs s (mean_terms v)) l s) [0; 0; 0] onlyNonZero im).

(** [processSequence] with position: the loops of 667-677 and 792-810; [terms] are the summands. *)
Fixpoint proc_terms (terms : Z -> Z -> Z -> Z -> list Z) (s l : list Z) (x y z : Z) : option (list Z) :=
  match l with
  | [] => Some s
  | v :: r => option_bind (daccs s (terms v x y z)) (fun s => proc_terms terms s r (x + 1) y z)
  end.

(** [measBarycenterFunc], 658-685, and [measBarycenter], 693-697. *)
Definition bary_terms (v x y z : Z) : list Z := [v * x; v * y; v * z; v].
Definition measBarycenter (im : img) : option (list (option Q)) :=
  option_map (fun s =>
      let t := znth 0 s 3 in
      [ratio (znth 0 s 0) t; ratio (znth 0 s 1) t] ++ (if depth im >? 1 then [ratio (znth 0 s 2) t] else []))
    (process_image_pos (proc_terms bary_terms) [0; 0; 0; 0] false im).

(** [measMomentsFunc], 781-829: m000 m100 m010 m110 m200 m020 and, for volumes, m001 m101 m011 m002. *)
Definition moment_terms (im3d : bool) (v x y z : Z) : list Z :=
  [v; v * x; v * y; v * x * y; v * x * x; v * y * y] ++ (if im3d then [v * z; v * x * z; v * y * z; v * z * z] else [0; 0; 0; 0]).
Definition moments_func (onlyNonZero : bool) (im : img) : option (list Z) :=
  let im3d := depth im >? 1 in
  option_map (fun s =>
      let m k := znth 0 s k in
      [m 0; m 1; m 2] ++ (if im3d then [m 6] else []) ++ [m 3] ++ (if im3d then [m 7; m 8] else []) ++ [m 4; m 5] ++ (if im3d then [m 9] else []))
    (process_image_pos (proc_terms (moment_terms im3d)) (repeat 0 10) onlyNonZero im).

(** [centerMoments], 832-872. *)
Definition centerMoments (moments : list Z) : list Q :=
  let q k := inject_Z (znth 0 moments k) in
  let q0 := q 0 in let q1 := q 1 in let q2 := q 2 in let q3 := q 3 in
  if negb (Qle_bool (1 # 100000000) q0) then repeat 0%Q (length moments)
  else if Z.of_nat (length moments) =? 10 then
    [q0; 0%Q; 0%Q; 0%Q; (q 4%Z - q2 * q1 / q0)%Q; (q 5%Z - q3 * q1 / q0)%Q; (q 6%Z - q3 * q2 / q0)%Q;
     (q 7%Z - q1 * q1 / q0)%Q; (q 8%Z - q2 * q2 / q0)%Q; (q 9%Z - q3 * q3 / q0)%Q]
  else [q0; 0%Q; 0%Q; (q3 - q2 * q1 / q0)%Q; (q 4%Z - q1 * q1 / q0)%Q; (q 5%Z - q2 * q2 / q0)%Q].

(** [measMoments], 917-931. *)
Definition measMoments (onlyNonZero centered : bool) (im : img) : option (list Q) :=
  option_map (fun m => if centered then centerMoments m else map inject_Z m) (moments_func onlyNonZero im).

(** [lineIn1[x] * bufLine[x]], 1005: in [int], where overflow is undefined ([None]), or in UINT32. *)
Definition px_product (t : ity) (a b : Z) : option Z :=
  match t with
  | UINT32 => Some ((a * b) mod 2 ^ 32)
  | _ => if (- 2 ^ 31 <=? a * b) && (a * b <? 2 ^ 31) then Some (a * b) else None
  end.

(** The sum for one displacement, 986-1010. *)
Definition cov_sum (t : ity) (im1 im2 : img) (mdx mdy mdz : Z) : option Z :=
  fold_opt (fun s z => fold_opt (fun s y => fold_opt (fun s x =>
      option_bind (option_bind (slice_access (sz im1) x y z) (rd (pixs im1))) (fun a =>
      option_bind (option_bind (slice_access (sz im2) (x + mdx) (y + mdy) (z + mdz)) (rd (pixs im2))) (fun b =>
      option_bind (px_product t a b) (dacc s))))
    (zseq (width im1 - mdx)) s) (zseq (height im1 - mdy)) s) (zseq (depth im1 - mdz)) 0.

(** [genericCovariance], 940-1023; the empty list is the answer to wrong arguments. *)
Definition cov_max (s : dims) (dx dy dz : Z) : Z :=
  let m := Z.max (Z.max (dw s) (dh s)) (dd s) in
  let m := if dx >? 0 then Z.min m (dw s) else m in
  let m := if dy >? 0 then Z.min m (dh s) else m in
  let m := if dz >? 0 then Z.min m (dd s) else m in
  if m >? 0 then m - 1 else m.
Definition genericCovariance (t : ity) (im1 im2 : img) (dx dy dz maxSteps : Z) (normalize : bool) : option (list (option Q)) :=
  let s := sz im1 in
  if negb ((dw s =? dw (sz im2)) && (dh s =? dh (sz im2)) && (dd s =? dd (sz im2))) then Some [] else
  if (dx + dy + dz) mod 2 ^ 64 =? 0 then Some [] else
  let maxH := cov_max s dx dy dz in
  let maxSteps := Z.min (if maxSteps =? 0 then maxH else maxSteps) maxH in
  if maxSteps =? 0 then Some [] else
  option_bind (all_some (map (fun len =>
      let mdx := Z.min ((dx * len) mod 2 ^ 64) (dw s - 1) in
      let mdy := Z.min ((dy * len) mod 2 ^ 64) (dh s - 1) in
      let mdz := Z.min ((dz * len) mod 2 ^ 64) (dd s - 1) in
      let n := (dw s - mdx) * (dh s - mdy) * (dd s - mdz) in
      option_map (fun p => if n =? 0 then inject_Z p else (inject_Z p / inject_Z n)%Q) (cov_sum t im1 im2 mdx mdy mdz))
    (zseq (maxSteps + 1)))) (fun vec =>
  let orig := znth 0%Q vec 0 in
  Some (map (fun v => if normalize then (if Qeq_bool orig 0 then None else Some (v / orig)%Q) else Some v) vec)).

(** [measCovariance] and [measAutoCovariance] without centring, 1170-1190 and 1206-1220. *)
Definition measCovariance (t : ity) (im1 im2 : img) (dx dy dz maxSteps : Z) (normalize : bool) : option (list (option Q)) :=
  genericCovariance t im1 im2 dx dy dz maxSteps normalize.
Definition measAutoCovariance (t : ity) (im : img) (dx dy dz maxSteps : Z) (normalize : bool) : option (list (option Q)) :=
  genericCovariance t im im dx dy dz maxSteps normalize.
