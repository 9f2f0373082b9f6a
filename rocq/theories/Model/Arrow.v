(** Arrow images: Morpho/include/private/DMorphoArrow.hpp, and the extrema of DMorphoExtrema.hpp computed with them.

    Coordinates stay far from the bounds of [int].  [None]: access outside an array, or shift by 64 bits or more. *)
From Coq Require Import String.
From Verif Require Export Model.Label.

(** [arrowLineFunction.trueVal = (1UL << p)], DMorphoArrow.hpp:141, converted to the type [t2] of the arrows. *)
Definition arrow_bit (t2 : ity) (n : Z) : option Z := if n <? 64 then Some (wrap t2 (2 ^ n)) else None.

(** The line of point [p] for line [l] of slice [s], 137-142. *)
Definition arrow_src (se : strelt) (im : img) (bv l s : Z) (p : point) : option (list Z) :=
  let y := l + py_ p in
  extract_translated_line im bv (- px_ p - bit (se_odd se && oddb l && oddb (y + 1))) y (s + pz_ p).

(** The [SupLine] functors, Base/include/private/DLineArith.hpp:206-395: [lOut[i] |= lIn1[i] < lIn2[i] ? trueVal : falseVal]. *)
Definition arrow_or (t2 : ity) (cmp : Z -> Z -> bool) (b a n out : Z) : Z := wrap t2 (Z.lor out (if cmp a n then b else 0)).
Fixpoint map3 (f : Z -> Z -> Z -> Z) (a b c : list Z) : list Z :=
  match a, b, c with x :: a', y :: b', z :: c' => f x y z :: map3 f a' b' c' | _, _, _ => [] end.

(** The loop on the points, 136-144, from point number [n]. *)
Fixpoint arrow_points (t2 : ity) (cmp : Z -> Z -> bool) (se : strelt) (im : img) (bv l s : Z) (lineIn : list Z) (pts : list point) (n : Z) (buf : list Z) : option (list Z) :=
  match pts with
  | [] => Some buf
  | p :: pts' =>
      option_bind (arrow_bit t2 n) (fun b =>
      option_bind (arrow_src se im bv l s p) (fun tmp =>
      arrow_points t2 cmp se im bv l s lineIn pts' (n + 1) (map3 (arrow_or t2 cmp b) lineIn tmp buf)))
  end.

(** [_exec_single], 71-156.  In place the source is [Image<T_in> tmpIm = imIn]: an image of the same size whose pixels are not
    copied (DImage.hxx:67-74). *)
Definition arrow_single (t2 : ity) junk (c : conf) (cmp : Z -> Z -> bool) (bv : Z) (se : strelt) (alias : bool) (imIn imOut : img) : option img :=
  if negb (same_size imIn imOut) then Some imOut else
  let src := if alias then new_img junk imIn else imIn in
  match se_points se with
  | [] => Some imOut
  | _ => option_bind (fold_opt (fun px '(l, s) =>
           option_bind (getLine (sz src) (pixs src) l s) (fun lineIn =>
           option_bind (arrow_points t2 cmp se src bv l s lineIn (se_points se) 0 (map (fun _ => 0) (zseq (width src)))) (fun buf =>
           putLine (sz imOut) px l s buf))) (lineSched c (all_lines (height src) (depth src))) (pixs imOut))
         (fun px => Some (Img (sz imOut) px))
  end.

(** [iFunc(imIn, imOut, se)] when the two types differ, DMorphImageOperations.hxx:314-341: the images are distinct. *)
Definition arrow_exec_diff (t2 : ity) junk (c : conf) cmp bv se (imIn imOut : img) : option (Z * img) :=
  if negb (same_size imIn imOut) then Some (-98, imOut) else
  option_bind (arrow_single t2 junk c cmp bv (label_se se) false imIn imOut) (fun r => Some (1, r)).

(** [iFunc(imIn, imOut, se)] when the types are the same, 343-409, for the elements other than the rhombicuboctahedron (whose
    case is not modelled).  Passes repeated in place, then passes with a temporary image. *)
Fixpoint arrow_inplace (n k : nat) (t : ity) junk (cs : nat -> conf) cmp bv se (im : img) : option img :=
  match n with
  | O => Some im
  | S n' => option_bind (arrow_single t junk (cs k) cmp bv se true im im) (arrow_inplace n' (S k) t junk cs cmp bv se)
  end.
Fixpoint arrow_pingpong (n k : nat) (t : ity) junk (cs : nat -> conf) cmp bv se (a b : img) : option img :=
  match n with
  | O => Some a
  | S n' => option_bind (arrow_single t junk (cs k) cmp bv se false a b) (fun b' => arrow_pingpong n' (S k) t junk cs cmp bv se b' a)
  end.
Definition arrow_exec (t : ity) junk (cs : nat -> conf) cmp bv (se : strelt) (alias : bool) (imIn imOut : img) : option (Z * img) :=
  if se_size se =? 0 then Some (1, Img (sz imOut) (pixs imIn)) else
  match se_type se with
  | SE_Rhombicuboctahedron => None
  | _ =>
      option_bind
        (if isInplaceSafe se || (negb alias && (se_size se =? 1))
         then option_bind (arrow_single t junk (cs O) cmp bv se alias imIn imOut) (arrow_inplace (Z.to_nat (se_size se - 1)) 1 t junk cs cmp bv se)
         else
           option_bind (arrow_single t junk (cs O) cmp bv se false imIn (new_img junk imOut)) (fun tmp =>
           if se_size se =? 1 then Some (Img (sz imOut) (pixs tmp)) else arrow_pingpong (Z.to_nat (se_size se - 1)) 1 t junk cs cmp bv se tmp imOut))
        (fun r => Some (1, r))
  end.

(** [arrow], DMorphoArrow.hpp:219-237, with arrowLow, arrowLowOrEqu, arrowGrt, arrowGrtOrEqu and arrowEqu (158-206). *)
Definition arrow_cmp (operation : string) : option (Z -> Z -> bool) :=
  if String.eqb operation "==" then Some Z.eqb
  else if String.eqb operation ">" then Some Z.gtb
  else if String.eqb operation ">=" then Some Z.geb
  else if String.eqb operation "<" then Some Z.ltb
  else if String.eqb operation "<=" then Some Z.leb
  else None.
Definition arrow_diff (t2 : ity) junk (c : conf) (operation : string) bv se (imIn imOut : img) : option (Z * img) :=
  match arrow_cmp operation with Some cmp => arrow_exec_diff t2 junk c cmp bv se imIn imOut | None => Some (-100, imOut) end.
Definition arrow_same (t : ity) junk (cs : nat -> conf) (operation : string) bv se (alias : bool) (imIn imOut : img) : option (Z * img) :=
  match arrow_cmp operation with Some cmp => arrow_exec t junk cs cmp bv se alias imIn imOut | None => Some (-100, imOut) end.

(** The line [cpBuf] of arrowMin and arrowMinStep, 444-453 and 583-592: it is read in slice [s] whatever the slice of the point. *)
Definition arrowMin_src (se : strelt) (im : img) (bv l s : Z) (p : point) : option (list Z) :=
  let y := l + py_ p in let z := s + pz_ p in
  if (z <? 0) || (z >=? depth im) || (y <? 0) || (y >=? height im) then Some (borderBuf (width im) bv)
  else option_bind (getLine (sz im) (pixs im) y s) (fun line => shl line (- px_ p - bit (se_odd se && oddb l && oddb (y + 1))) bv).

(** One point, 455-458: the minima, then the arrows; [equSupLine3], 333-345, adds. *)
Definition arrowMin_point (t t2 : ity) (b : Z) (cp : list Z) (st : list Z * list Z) : list Z * list Z :=
  let '(minBuf, lineArrow) := st in
  let flag := map2 (fun c m => if c <? m then tmax t else 0) cp minBuf in
  let minBuf' := map2 px_inf cp minBuf in
  let lineArrow' := map2 (fun f a => px_test f 0 a) flag lineArrow in
  (minBuf', map3 (fun c m a => wrap t2 (a + (if c =? m then b else 0))) cp minBuf' lineArrow').
Fixpoint arrowMin_points (step : bool) (t t2 : ity) (se : strelt) (im : img) (bv l s : Z) (lineIn : list Z) (pts : list point) (n : Z) (st : list Z * list Z) : option (list Z) :=
  match pts with
  | [] => Some (snd st)
  | p :: pts' =>
      option_bind (arrow_bit t2 n) (fun b =>
      option_bind (arrowMin_src se im bv l s p) (fun cp =>
      let cp' := if step then map2 (fun c i => if c >=? i then c else bv) cp lineIn else cp in
      arrowMin_points step t t2 se im bv l s lineIn pts' (n + 1) (arrowMin_point t t2 b cp' st)))
  end.

(** [arrowMin], 381-472, and [arrowMinStep], 507-625 ([step]; the element loses its centre): the two images are distinct. *)
Definition arrowMin_exec (step : bool) (t t2 : ity) (c : conf) (bv : Z) (se : strelt) (imIn imOut : img) : option (Z * img) :=
  if negb (same_size imIn imOut) then Some (-98, imOut) else
  match se_points se with
  | [] => Some (1, imOut)
  | _ => option_bind (fold_opt (fun px '(l, s) =>
           option_bind (getLine (sz imIn) (pixs imIn) l s) (fun lineIn =>
           option_bind (arrowMin_points step t t2 se imIn bv l s lineIn (se_points se) 0
                          (if step then borderBuf (width imIn) bv else lineIn, map (fun _ => 0) (zseq (width imIn)))) (fun buf =>
           putLine (sz imOut) px l s buf))) (lineSched c (all_lines (height imIn) (depth imIn))) (pixs imOut))
         (fun px => Some (1, Img (sz imOut) px))
  end.
Definition arrowMin (t t2 : ity) c bv se imIn imOut := arrowMin_exec false t t2 c bv se imIn imOut.
Definition arrowMinStep (t : ity) c bv se imIn imOut := arrowMin_exec true t t c bv (noCenter se) imIn imOut.

(** ** Propagation, 240-322.  Coordinates of the current pixel, 293-295. *)
Definition arrow_coords (s : dims) (o : Z) : option (Z * Z * Z) :=
  let hw := to_size (dh s * dw s) in
  if (hw =? 0) || (dw s =? 0) then None else Some (o mod dw s, (o mod hw) / dw s, o / hw).

(** One point, 298-311: [x], [y], [z] are of type [size_t]. *)
Definition arrow_step (t : ity) (se : strelt) (s : dims) (v : Z) (xyz : Z * Z * Z) (a : Z) (st : list Z * list Z) (np : Z * point) : option (list Z * list Z) :=
  let '(x0, y0, z0) := xyz in let '(n, p) := np in
  option_bind (arrow_bit t n) (fun b =>
  if Z.land a b =? 0 then Some st else
  let y := to_size (y0 + py_ p) in
  let x := to_size (to_size (x0 + px_ p) + (if se_odd se && oddb y0 then bit (oddb (y + 1)) else 0)) in
  let z := to_size (z0 + pz_ p) in
  let nb := to_size (x + y * dw s + z * dh s * dw s) in
  if (x <? dw s) && (y <? dh s) && (z <? dd s) then
    option_bind (rd (fst st) nb) (fun o =>
    if o =? v then Some st else option_bind (wr (fst st) nb v) (fun out => Some (out, snd st ++ [nb])))
  else Some st).

Definition numbered (l : list point) : list (Z * point) := combine (zseq (Z.of_nat (length l))) l.

(** The loop, 289-315 (the element at the front is removed before the neighbours are pushed). *)
Fixpoint arrow_loop (fuel : nat) (t : ity) (se : strelt) (s : dims) (arrows : list Z) (v : Z) (out queue : list Z) : option (option (list Z)) :=
  match queue with
  | [] => Some (Some out)
  | o :: rest =>
      match fuel with
      | O => Some None
      | S fuel' =>
          option_bind (arrow_coords s o) (fun xyz =>
          option_bind (match se_points se with [] => Some 0 | _ => rd arrows o end) (fun a =>
          option_bind (fold_opt (arrow_step t se s v xyz a) (numbered (se_points se)) (out, rest)) (fun st =>
          arrow_loop fuel' t se s arrows v (fst st) (snd st))))
      end
  end.
Definition arrowPropagate (fuel : nat) (t : ity) (se : strelt) (arrows out : img) (v offset : Z) : option (option img) :=
  fuel_bind (arrow_loop fuel t se (sz arrows) (pixs arrows) v (pixs out) [offset]) (fun px => Some (Some (Img (sz out) px))).

(** ** [fastExtrema], DMorphoExtrema.hpp:249-345, run by one thread, for images of the same size (the sizes are not compared).
    The scan of 315-331 is in the order of the offsets. *)
Fixpoint extrema_scan (fuel : nat) (t : ity) (se : strelt) (arrows : img) (offs : list Z) (out : img) : option (option img) :=
  match offs with
  | [] => Some (Some out)
  | o :: offs' =>
      option_bind (rd (pixs out) o) (fun v =>
      option_bind (rd (pixs arrows) o) (fun a =>
      fuel_bind (if (v =? 0) && (a >? 0) then arrowPropagate fuel t se arrows out 1 o else Some (Some out)) (fun out' =>
      extrema_scan fuel t se arrows offs' out')))
  end.
Definition fastExtrema (fuel : nat) (t : ity) junk (c1 c2 : nat -> conf) (se : strelt) (operation : string) (bv : Z) (inplace : bool) (imIn imOut : img) : option (option (Z * img)) :=
  if negb (same_size imIn imOut) then None else
  let cpSe := noCenter se in
  let out0 := pw1 (fun _ => 0) imOut in
  let in0 := if inplace then out0 else imIn in
  match se_points cpSe with
  | [] => Some (Some (1, out0))
  | _ =>
      option_bind (arrow_same t junk c1 operation bv cpSe false in0 (new_img junk imIn)) (fun r1 =>
      let out1 := pw1 (fun a => px_equ t a 0) (snd r1) in
      let in1 := if inplace then out1 else imIn in
      option_bind (arrow_same t junk c2 "==" (tmin t) cpSe false in1 (snd r1)) (fun r2 =>
      fuel_bind (extrema_scan fuel t cpSe (snd r2) (zseq (pixelCount (sz imIn))) out1) (fun out2 =>
      Some (Some (1, pw1 (fun v => px_test (wrap t (Z.shiftr v 1)) (tmax t) (wrap t (Z.shiftr v 1))) out2)))))
  end.
Definition fastMinima fuel t junk c1 c2 se inplace imIn imOut := fastExtrema fuel t junk c1 c2 se ">" (tmax t) inplace imIn imOut.
Definition fastMaxima fuel t junk c1 c2 se inplace imIn imOut := fastExtrema fuel t junk c1 c2 se "<" (tmin t) inplace imIn imOut.
