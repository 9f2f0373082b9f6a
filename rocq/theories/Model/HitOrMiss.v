(** Hit-or-miss transforms: Morpho/include/private/DHitOrMiss.hpp; composite elements: Morpho/include/DCompositeSE.h and
    Morpho/src/DCompositeSE.cpp; the skeleton of Morpho/include/private/DSkeleton.hpp.

    Images are allocated.  [cs] gives the executions of the parallel loops, [junk] the contents of new images. *)
From Verif Require Export Model.Geodesic.

(** [hitOrMiss] on a pair of elements, DHitOrMiss.hpp:70-87.  [alias]: imIn and imOut are the same image, which the first
    erosion has overwritten when the second one reads it. *)
Definition hitOrMiss (t : ity) junk (cs : nat -> nat -> conf) (bv : Z) (fg bg : strelt) (alias : bool) (imIn imOut : img) : option (Z * img) :=
  if negb (same_size imIn imOut) then Some (-98, imOut) else
  let tmp := pw1 (px_inv t) imIn in
  option_bind (erode junk (cs 0%nat) bv bg false tmp imOut) (fun e1 =>
  if negb (fst e1 =? 1) then Some (-100, snd e1) else
  option_bind (erode junk (cs 1%nat) bv fg false (if alias then snd e1 else imIn) tmp) (fun e2 =>
  if negb (fst e2 =? 1) then Some (-100, snd e1) else
  Some (1, pw2 px_inf (snd e2) (snd e1)))).

(** A composite element: [CompStrElt], DCompositeSE.h:58-112; [CompStrEltList] is a vector of them, 119-190. *)
Definition compse := (strelt * strelt)%type.

(** [hitOrMiss] on a list, DHitOrMiss.hpp:118-138.  imOut is filled before imIn is read. *)
Fixpoint hom_list (t : ity) junk (cs : nat -> nat -> nat -> conf) (bv : Z) (k : nat) (l : list compse) (imIn tmp out : img) : option (Z * img) :=
  match l with
  | [] => Some (1, out)
  | (fg, bg) :: l' =>
      option_bind (hitOrMiss t junk (cs k) bv fg bg false imIn tmp) (fun r =>
      if negb (fst r =? 1) then Some (-100, out) else
      hom_list t junk cs bv (S k) l' imIn (snd r) (pw2 px_sup out (snd r)))
  end.
Definition hitOrMiss_list (t : ity) junk (cs : nat -> nat -> nat -> conf) (bv : Z) (l : list compse) (alias : bool) (imIn imOut : img) : option (Z * img) :=
  if negb (same_size imIn imOut) then Some (-98, imOut) else
  let out := pw1 (fun _ => tmin t) imOut in
  hom_list t junk cs bv 0 l (if alias then out else imIn) (new_img junk imIn) out.

(** [thin] on a pair, DHitOrMiss.hpp:151-167, and [thick], 227-242.  imIn and imOut may be the same image: imOut is written
    by the last operation only, pixel by pixel. *)
Definition thin (t : ity) junk (cs : nat -> nat -> conf) (fg bg : strelt) (imIn imOut : img) : option (Z * img) :=
  if negb (same_size imIn imOut) then Some (-98, imOut) else
  option_bind (hitOrMiss t junk cs (tmin t) fg bg false imIn (new_img junk imIn)) (fun r =>
  if negb (fst r =? 1) then Some (-100, imOut) else
  Some (1, pw2 px_inf imIn (pw1 (px_inv t) (snd r)))).
Definition thick (t : ity) junk (cs : nat -> nat -> conf) (fg bg : strelt) (imIn imOut : img) : option (Z * img) :=
  if negb (same_size imIn imOut) then Some (-98, imOut) else
  option_bind (hitOrMiss t junk cs (tmin t) fg bg false imIn (new_img junk imIn)) (fun r =>
  if negb (fst r =? 1) then Some (-100, imOut) else
  Some (1, pw2 px_sup imIn (snd r))).

(** The loops of [thin] and [thick] on a list, 195-214 and 270-289: on a clone of imIn, copied to imOut at the end. *)
Fixpoint pass_list (f : nat -> strelt -> strelt -> img -> img -> option (Z * img)) (k : nat) (l : list compse) (tmp : img) : option (Z * img) :=
  match l with
  | [] => Some (1, tmp)
  | (fg, bg) :: l' =>
      option_bind (f k fg bg tmp tmp) (fun r =>
      if negb (fst r =? 1) then Some (-100, tmp) else pass_list f (S k) l' (snd r))
  end.
Definition thin_list (t : ity) junk (cs : nat -> nat -> nat -> conf) (l : list compse) (imIn imOut : img) : option (Z * img) :=
  if negb (same_size imIn imOut) then Some (-98, imOut) else pass_list (fun k => thin t junk (cs k)) 0 l imIn.
Definition thick_list (t : ity) junk (cs : nat -> nat -> nat -> conf) (l : list compse) (imIn imOut : img) : option (Z * img) :=
  if negb (same_size imIn imOut) then Some (-98, imOut) else pass_list (fun k => thick t junk (cs k)) 0 l imIn.

(** The loops of [fullThin], 303-325, and [fullThick], 371-391: until the volume does not change. *)
Fixpoint full_loop (pass : nat -> img -> img -> option (Z * img)) (fuel k : nat) (v1 : Z) (out : img) : option (option (Z * img)) :=
  match fuel with
  | O => Some None
  | S fuel' =>
      option_bind (pass k out out) (fun r =>
      if negb (fst r =? 1) then Some (Some (-100, out)) else
      option_bind (volume (snd r)) (fun v2 =>
      if v2 =? v1 then Some (Some (1, snd r)) else full_loop pass fuel' (S k) v2 (snd r)))
  end.
Definition full (pass : nat -> img -> img -> option (Z * img)) (fuel : nat) (imIn imOut : img) : option (option (Z * img)) :=
  if negb (same_size imIn imOut) then Some (Some (-98, imOut)) else
  option_bind (pass 0%nat imIn imOut) (fun r =>
  if negb (fst r =? 1) then Some (Some (-100, imOut)) else
  option_bind (volume (snd r)) (fun v1 => full_loop pass fuel 1 v1 (snd r))).
Definition fullThin (t : ity) junk (cs : nat -> nat -> nat -> nat -> conf) (fuel : nat) (l : list compse) (imIn imOut : img) :=
  full (fun k => thin_list t junk (cs k) l) fuel imIn imOut.
Definition fullThick (t : ity) junk (cs : nat -> nat -> nat -> nat -> conf) (fuel : nat) (l : list compse) (imIn imOut : img) :=
  full (fun k => thick_list t junk (cs k) l) fuel imIn imOut.

(** ** Composite elements, DCompositeSE.cpp *)

(** [getSEPointIndice], 37-49: the z coordinate is not looked at. *)
Fixpoint point_index (i : Z) (tab : list point) (p : point) : Z :=
  match tab with
  | [] => -1
  | q :: tab' => if (px_ q =? px_ p) && (py_ q =? py_ p) then i else point_index (i + 1) tab' p
  end.
Definition getSEPointIndice (p : point) (odd : bool) : Z := point_index 0 (if odd then firstn 7 SE_HexIndices else firstn 9 SE_SquIndices) p.

(** [rotatePoint], 51-61.  [%] truncates; [None]: access outside the table.  [newPt] is the origin. *)
Definition rotatePoint (p : point) (steps : Z) (odd : bool) : option point :=
  let ind := getSEPointIndice p odd in
  if ind =? 0 then Some (0, 0, 0)
  else rd (if odd then SE_HexIndices else SE_SquIndices) (Z.rem (ind - 1 + steps) (if odd then 6 else 8) + 1).

(** [CompStrElt::rotate], 87-98: the parity of the foreground element is used for both. *)
Definition rotate_points (steps : Z) (odd : bool) (se : strelt) : option strelt :=
  option_bind (all_opt (fun p => rotatePoint p steps odd) (se_points se)) (fun pts => Some (SE (se_odd se) (se_type se) (se_size se) pts)).
Definition rotate (steps : Z) (c : compse) : option compse :=
  let odd := se_odd (fst c) in
  option_bind (rotate_points steps odd (fst c)) (fun fg =>
  option_bind (rotate_points steps odd (snd c)) (fun bg => Some (fg, bg))).

(** [CompStrEltList::add] with a number of rotations, 182-189.  [None]: division by zero. *)
Fixpoint add_rotations (n : nat) (steps : Z) (c : compse) : option (list compse) :=
  match n with
  | O => Some []
  | S n' => option_bind (rotate steps c) (fun c' => option_bind (add_rotations n' steps c') (fun l => Some (c' :: l)))
  end.
Definition add_nrot (l : list compse) (fg bg : strelt) (nrot : Z) : option (list compse) :=
  if nrot =? 0 then None else
  let steps := Z.quot (if se_odd fg then 6 else 8) nrot in
  option_bind (add_rotations (Z.to_nat (nrot - 1)) steps (fg, bg)) (fun r => Some (l ++ (fg, bg) :: r)).

(** The constructor [StrElt(odd, n, indices...)] of a generic element, DStructuringElement.h, and the composite elements of
    DCompositeSE.h:192-393. *)
Definition elt (odd : bool) (indices : list Z) : strelt := SE odd SE_Generic 1 (indexed_points odd indices).
Definition HMT_sL1 := add_nrot [] (elt false [8; 1; 2]) (elt false [4; 5; 6]).            (* 193-201 *)
Definition HMT_sL2 := add_nrot [] (elt false [1; 3]) (elt false [5; 6; 7]).               (* 204-212 *)
Definition HMT_hL := add_nrot [] (elt true [1; 2]) (elt true [4; 5]).                     (* 215-223 *)
Definition HMT_sM := add_nrot [] (elt false [1; 8]) (elt false [3; 4; 5; 6]).             (* 226-234 *)
Definition HMT_hM := add_nrot [] (elt true [1]) (elt true [3; 4; 5]).                     (* 237-245 *)
Definition HMT_sD := add_nrot [] (elt false [3; 4; 5; 6]) (elt false [1; 8]).             (* 248-256 *)
Definition HMT_hD := add_nrot [] (elt true [3; 4; 5]) (elt true [1]).                     (* 259-267 *)
Definition HMT_sE := add_nrot [] (elt false [3; 4; 5; 6; 7]) (elt false [0]).             (* 270-278 *)
Definition HMT_hE := add_nrot [] (elt true [3; 4; 5; 6]) (elt true [0]).                  (* 281-289 *)
Definition HMT_sS1 := add_nrot [] (elt false [3; 7]) (elt false [0; 1; 5]).               (* 294-302 *)
Definition HMT_hS1 := add_nrot [] (elt true [2; 3; 5; 6]) (elt true [0; 1; 4]).           (* 305-313 *)
Definition HMT_sS2 := add_nrot [] (elt false [2; 5; 6; 7]) (elt false [0; 1; 3]).         (* 316-324 *)
Definition HMT_hS2 := add_nrot [] (elt true [2; 4; 5; 6]) (elt false [0; 1; 3]).          (* 327-335 *)
Definition HMT_sS3 := add_nrot [] (elt false [3; 4; 5; 6; 7]) (elt false [1]).            (* 339-347 *)
Definition HMT_sI : list compse := [(elt false [0], elt false [1; 2; 3; 4; 5; 6; 7; 8])].     (* 351-359 *)
Definition HMT_hI : list compse := [(elt true [0], elt true [1; 2; 3; 4; 5; 6])].            (* 362-370 *)
Definition HMT_sLineEnd := add_nrot [] (elt false [0; 1]) (elt false [3; 4; 5; 6; 7]).    (* 373-381 *)
Definition HMT_sLineJunc (nrot : Z) : option (list compse) :=                             (* 384-393 *)
  option_bind (add_nrot [] (elt false [0; 1; 4; 6]) (elt false [5]) nrot) (fun l => add_nrot l (elt false [0; 1; 3; 5]) (elt false [2; 4]) nrot).

(** ** Skeleton *)

(** One turn of the loop of [skeleton], DSkeleton.hpp:108-115; the first component of the result tells whether imOut is
    unchanged ([equ], DImageArith.hpp, compares the pixels). *)
Definition skeleton_turn (t : ity) junk (cs : nat -> nat -> conf) (se : strelt) (ero out : img) : option (bool * (img * img)) :=
  option_bind (erode junk (cs 0%nat) (tmax t) se true ero ero) (fun e =>
  option_bind (open_im t junk (cs 1%nat) (cs 2%nat) se false (snd e) (new_img junk ero)) (fun o =>
  let tmp := pw2 px_sup out (sub_im t (snd e) (snd o)) in
  Some (if list_eq_dec Z.eq_dec (pixs tmp) (pixs out) then true else false, (snd e, tmp)))).
Fixpoint skeleton_loop (t : ity) junk (cs : nat -> nat -> nat -> conf) (se : strelt) (fuel k : nat) (ero out : img) : option (option img) :=
  match fuel with
  | O => Some None
  | S fuel' =>
      option_bind (skeleton_turn t junk (cs k) se ero out) (fun '(idempt, (ero', out')) =>
      if idempt : bool then Some (Some out') else skeleton_loop t junk cs se fuel' (S k) ero' out')
  end.
(** [skeleton], DSkeleton.hpp:92-118. *)
Definition skeleton (t : ity) junk (cs : nat -> nat -> nat -> conf) (fuel : nat) (se : strelt) (imIn imOut : img) : option (option (Z * img)) :=
  if negb (same_size imIn imOut) then Some (Some (-98, imOut)) else
  fuel_bind (skeleton_loop t junk cs se fuel 0 imIn (pw1 (fun _ => tmin t) imOut)) (fun out => Some (Some (1, out))).

(** [skiz], DSkeleton.hpp:70-82; the return codes of fullThin are not looked at. *)
Definition skiz (t : ity) junk (cs1 cs2 : nat -> nat -> nat -> nat -> conf) (fuel : nat) (imIn imOut : img) : option (option (Z * img)) :=
  if negb (same_size imIn imOut) then Some (Some (-98, imOut)) else
  option_bind (HMT_hL 6) (fun hL => option_bind (HMT_hM 6) (fun hM =>
  let out := pw1 (px_inv t) imIn in
  fuel_bind (fullThin t junk cs1 fuel hL out (new_img junk imIn)) (fun r =>
  fuel_bind (fullThin t junk cs2 fuel hM (snd r) out) (fun r2 => Some (Some (1, snd r2)))))).
