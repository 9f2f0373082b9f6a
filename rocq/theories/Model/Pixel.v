(** Per-pixel bodies of the line functions and the image operations built on them.

    Models: Base/include/private/DLineArith.hpp, Base/include/private/DLineHistogram.hpp,
    Base/include/private/DImageArith.hpp, Base/include/private/DImageHistogram.hpp.

    The arithmetic is done in [int] (8/16-bit types) or modulo 2^32 (UINT32) and then converted to
    the pixel type: [wrap].  For UINT16 products larger than 2^31 the C++ expression in
    [mulNoSatLine] overflows [int]; that line function is unreachable from the API (see [api_mulNoSat]). *)
From Verif Require Export Model.Exec.
From Coq Require Import String.

(** invLine, DLineArith.hpp:120-121. *)
Definition px_inv (t : ity) (a : Z) : Z := wrap t (tmax t - a - tmin t).

(** addLine, DLineArith.hpp:130-133. *)
Definition px_add (t : ity) (a b : Z) : Z :=
  if a >? wrap t (tmax t - b) then tmax t else wrap t (a + b).

(** addNoSatLine, DLineArith.hpp:142-143. *)
Definition px_addNoSat (t : ity) (a b : Z) : Z := wrap t (a + b).

(** subLine, DLineArith.hpp:152-155. *)
Definition px_sub (t : ity) (a b : Z) : Z :=
  if a <? wrap t (tmin t + b) then tmin t else wrap t (a - b).

(** subNoSatLine, DLineArith.hpp:164-165. *)
Definition px_subNoSat (t : ity) (a b : Z) : Z := wrap t (a - b).

(** supLine, DLineArith.hpp:174-175. *)
Definition px_sup (a b : Z) : Z := if a >? b then a else b.

(** infLine, DLineArith.hpp:184-185. *)
Definition px_inf (a b : Z) : Z := if a <? b then a else b.

(** grtLine, grtOrEquLine, lowLine, lowOrEquLine, equLine, diffLine: DLineArith.hpp:201-202, 239-240,
    277-278, 315-316, 353-354, 370-371 with trueVal = max(), falseVal = 0. *)
Definition px_grt (t : ity) (a b : Z) : Z := if a >? b then tmax t else 0.
Definition px_grtOrEqu (t : ity) (a b : Z) : Z := if a >=? b then tmax t else 0.
Definition px_low (t : ity) (a b : Z) : Z := if a <? b then tmax t else 0.
Definition px_lowOrEqu (t : ity) (a b : Z) : Z := if a <=? b then tmax t else 0.
Definition px_equ (t : ity) (a b : Z) : Z := if a =? b then tmax t else 0.
Definition px_diff (t : ity) (a b : Z) : Z := if a =? b then 0 else tmax t.

(** absDiffLine, DLineArith.hpp:407-408. *)
Definition px_absDiff (t : ity) (a b : Z) : Z := if a >? b then wrap t (a - b) else wrap t (b - a).

(** mulLine, DLineArith.hpp:417-421.  The comparison is done on doubles; products below 2^53 are exact
    and larger ones are far above max(), so the integer comparison gives the same answer. *)
Definition px_mul (t : ity) (a b : Z) : Z := if a * b >? tmax t then tmax t else wrap t (a * b).

(** mulNoSatLine, DLineArith.hpp:430-431. *)
Definition px_mulNoSat (t : ity) (a b : Z) : Z := wrap t (a * b).

(** divLine, DLineArith.hpp:440-442 (C++ division truncates toward zero). *)
Definition px_div (t : ity) (a b : Z) : Z := if b =? 0 then tmax t else wrap t (Z.quot a b).

(** logicAndLine .. bitXOrLine, DLineArith.hpp:489-490, 499-500, 509-510, 519-520, 529-530, 539-540. *)
Definition nz (a : Z) : bool := negb (a =? 0).
Definition b2z (b : bool) : Z := if b then 1 else 0.
Definition px_logicAnd (a b : Z) : Z := b2z (nz a && nz b).
Definition px_logicOr (a b : Z) : Z := b2z (nz a || nz b).
Definition px_logicXOr (a b : Z) : Z := b2z ((nz a && negb (nz b)) || (negb (nz a) && nz b)).
Definition px_bitAnd (t : ity) (a b : Z) : Z := wrap t (Z.land a b).
Definition px_bitOr (t : ity) (a b : Z) : Z := wrap t (Z.lor a b).
Definition px_bitXOr (t : ity) (a b : Z) : Z := wrap t (Z.lxor a b).

(** testLine, DLineArith.hpp:580-582. *)
Definition px_test (c a b : Z) : Z := if nz c then a else b.

(** threshLine, DLineHistogram.hpp:52-53. *)
Definition px_thresh (minVal maxVal trueVal falseVal a : Z) : Z :=
  if (a >=? minVal) && (a <=? maxVal) then trueVal else falseVal.

(** Passing one, two or three operands to a pixel function. *)
Definition un (f : Z -> Z) (vs : list Z) : Z := match vs with a :: _ => f a | _ => 0 end.
Definition bin (f : Z -> Z -> Z) (vs : list Z) : Z := match vs with a :: b :: _ => f a b | _ => 0 end.
Definition ter (f : Z -> Z -> Z -> Z) (vs : list Z) : Z :=
  match vs with a :: b :: c :: _ => f a b c | _ => 0 end.

(** The image operations (DImageArith.hpp; line numbers on each).  An image/constant argument is an
    [operand]. *)
Definition api_inv t a out := exec_pixelwise (un (px_inv t)) [a] out.                 (* 70-76 *)
Definition api_add t a b out := exec_pixelwise (bin (px_add t)) [a; b] out.           (* 89-95, 108-114 *)
Definition api_addNoSat t a b out := exec_pixelwise (bin (px_addNoSat t)) [a; b] out. (* 126-132, 144-150 *)
Definition api_sub t a b out := exec_pixelwise (bin (px_sub t)) [a; b] out.           (* 160-166, 176-179, 190-193 *)
Definition api_subNoSat t a b out := exec_pixelwise (bin (px_subNoSat t)) [a; b] out. (* 203-209, 220-226, 238-244 *)
Definition api_sup a b out := exec_pixelwise (bin px_sup) [a; b] out.                 (* 254-260, 289-295 *)
Definition api_inf a b out := exec_pixelwise (bin px_inf) [a; b] out.                 (* 305-311, 340-346 *)
Definition api_equ t a b out := exec_pixelwise (bin (px_equ t)) [a; b] out.           (* 366-372, 392-398 *)
Definition api_diff t a b out := exec_pixelwise (bin (px_diff t)) [a; b] out.         (* 448-454, 475-481 *)
Definition api_absDiff t a b out := exec_pixelwise (bin (px_absDiff t)) [a; b] out.   (* 494-500 *)
Definition api_grt t a b out := exec_pixelwise (bin (px_grt t)) [a; b] out.           (* 516-522, 538-544 *)
Definition api_grtOrEqu t a b out := exec_pixelwise (bin (px_grtOrEqu t)) [a; b] out. (* 560-566, 582-588 *)
Definition api_low t a b out := exec_pixelwise (bin (px_low t)) [a; b] out.           (* 604-610, 626-632 *)
Definition api_lowOrEqu t a b out := exec_pixelwise (bin (px_lowOrEqu t)) [a; b] out. (* 648-654, 670-676 *)
Definition api_div t a b out := exec_pixelwise (bin (px_div t)) [a; b] out.           (* 690-696, 701-707 *)
Definition api_mul t a b out := exec_pixelwise (bin (px_mul t)) [a; b] out.           (* 749-755, 760-766 *)
Definition api_mulNoSat t a b out := exec_pixelwise (bin (px_mul t)) [a; b] out.      (* 812-818, 833-839: uses mulLine *)
Definition api_logicAnd a b out := exec_pixelwise (bin px_logicAnd) [a; b] out.       (* 914-1025 *)
Definition api_logicOr a b out := exec_pixelwise (bin px_logicOr) [a; b] out.
Definition api_logicXOr a b out := exec_pixelwise (bin px_logicXOr) [a; b] out.
Definition api_bitAnd t a b out := exec_pixelwise (bin (px_bitAnd t)) [a; b] out.
Definition api_bitOr t a b out := exec_pixelwise (bin (px_bitOr t)) [a; b] out.
Definition api_bitXOr t a b out := exec_pixelwise (bin (px_bitXOr t)) [a; b] out.
Definition api_test c a b out := exec_pixelwise (ter px_test) [c; a; b] out.          (* 1064-1141 *)
Definition api_fill v out := exec_pixelwise (un (fun a => a)) [OVal v] out.           (* 1411-1416 *)
Definition api_mask imIn imMask out := api_test imMask imIn (OVal 0) out.             (* 1928-1931 *)

(** [equ(im1, im2)] returning bool, DImageArith.hpp:412-426: scan until the first difference. *)
Fixpoint equ_scan (h : heap) (a b : Z) (n : nat) : option bool :=
  match n with
  | O => Some true
  | S n' =>
      match rd h a, rd h b with
      | Some x, Some y => if negb (x =? y) then Some false else equ_scan h (a + 1) (b + 1) n'
      | _, _ => None
      end
  end.
Definition api_equ_bool (h : heap) (a b : idesc) : option bool :=
  equ_scan h (ibase a) (ibase b) (Z.to_nat (pixelCount (idims a))).

(** [_compare_base], DImageArith.hpp:1145-1173.  The temporary image [tmp] has the size of [imIn] and
    unspecified contents; [None]: undefined behaviour; [Some (code, h)]: return code and memory.
    [sched1], [sched2]: schedules of the two passes.  The eight [compare] overloads (1199-1386) only
    choose between images and constants for the operands. *)
Open Scope string_scope.
Definition compare_fun (t : ity) (op : string) : option (Z -> Z -> Z) :=
  if String.eqb op "==" then Some (px_equ t)
  else if String.eqb op "!=" then Some (px_diff t)
  else if String.eqb op ">" then Some (px_grt t)
  else if String.eqb op "<" then Some (px_low t)
  else if String.eqb op ">=" then Some (px_grtOrEqu t)
  else if String.eqb op "<=" then Some (px_lowOrEqu t)
  else None.

Definition api_compare (t : ity) (op : string) (imIn : idesc) (imOrVal tv fv : operand)
  (out tmp : idesc) (sched1 sched2 : list event) (h : heap) : option (Z * heap) :=
  match compare_fun t op with
  | None => Some (-100, h)
  | Some f =>
      option_bind (exec_pixelwise (bin f) [OImg imIn; imOrVal] tmp sched1 h) (fun h1 =>
      option_bind (exec_pixelwise (ter px_test) [OImg tmp; tv; fv] out sched2 h1) (fun h2 =>
      Some (1, h2)))
  end.
Close Scope string_scope.

(** [threshold] with five arguments, DImageHistogram.hpp:269-286 (the recursive call swaps bounds and
    values once), and the two shorter overloads 305-309, 326-331. *)
Definition api_threshold (minVal maxVal trueVal falseVal : Z) (imIn : idesc) (out : idesc)
  (sched : list event) (h : heap) : option heap :=
  if minVal >? maxVal
  then exec_pixelwise (un (px_thresh maxVal minVal falseVal trueVal)) [OImg imIn] out sched h
  else exec_pixelwise (un (px_thresh minVal maxVal trueVal falseVal)) [OImg imIn] out sched h.

Definition api_threshold2 (t_out : ity) (minVal maxVal : Z) imIn out :=
  api_threshold minVal maxVal (tmax t_out) (tmin t_out) imIn out.
Definition api_threshold1 (t t_out : ity) (minVal : Z) imIn out :=
  api_threshold minVal (tmax t) (tmax t_out) (tmin t_out) imIn out.
