(** Openings, dilations and erosions along lines: Advanced/include/DFastLine.h, FastLine/FastLineSoille.hpp (cited as S) and
    FastLine/FastLineMorard.hpp (cited as M) in Advanced/include/private.

    The direction ([dx], [dy]) and the half length [r], which the program computes from an angle with floating-point sines and
    cosines (S:549-554, M:516-522), are parameters; [square_dirs] says what they are for the angles 0 and 90.  Pixels are listed
    by offset: the program keeps the offset of the current pixel beside its coordinates, here it is computed from them.
    [None]: access outside an array.  [Some None]: out of fuel.  [mem]: the contents of memory that is not initialised. *)
From Verif Require Export Model.UnionFind.

(** ** Lines of pixels *)

(** [ComputeLinePosDiag], S:58-81. *)
Fixpoint posdiag_loop (fuel : nat) (w h x y : Z) : option (list Z) :=
  match fuel with
  | O => None
  | S fuel' => if (x <? w) && (y <? h) then option_map (cons (y * w + x)) (posdiag_loop fuel' w h (x + 1) (y + 1)) else Some []
  end.
Definition ComputeLinePosDiag (fuel : nat) (w h x y : Z) : option (list Z) :=
  let '(x, y) := if x <? 0 then (0, y - x) else (x, y) in
  let '(x, y) := if y <? 0 then (x - y, 0) else (x, y) in
  posdiag_loop fuel w h x y.

(** [ComputeLineNegDiag], S:83-106. *)
Fixpoint negdiag_loop (fuel : nat) (w h x y : Z) : option (list Z) :=
  match fuel with
  | O => None
  | S fuel' => if (x <? w - 1) && (y >? 0) then option_map (cons ((y - 1) * w + (x + 1))) (negdiag_loop fuel' w h (x + 1) (y - 1)) else Some []
  end.
Definition ComputeLineNegDiag (fuel : nat) (w h x y : Z) : option (list Z) :=
  let '(x, y) := if y >=? h then (x + y - h + 1, h - 1) else (x, y) in
  if x >=? w then Some [] else option_map (cons (y * w + x)) (negdiag_loop fuel w h x y).

(** One step along a Bresenham line: [n] and [d] are the smaller and the larger of the two components, [dp] the error. *)
Definition bres (n d : Z) (b dp s : Z) : Z * Z := if dp >=? 0 then (b + s, dp + (2 * n - 2 * d)) else (b, dp + 2 * n).

(** [ComputeBresenhamLinePX], S:108-140: x is the first coordinate and y the second one; [ComputeBresenhamLinePY], S:179-210: y is
    the first one.  [M], [m]: the sizes along them; [off]: the offset of a pixel.  The phase is 1. *)
Fixpoint bres_skip (fuel : nat) (n d a b dp : Z) : option (Z * Z * Z) :=
  match fuel with
  | O => None
  | S fuel' => if (a <? 0) || (b <? 0) then let '(b, dp) := bres n d b dp 1 in bres_skip fuel' n d (a + 1) b dp else Some (a, b, dp)
  end.
Fixpoint bres_P (fuel : nat) (n d M m : Z) (off : Z -> Z -> Z) (a b dp : Z) : option (list Z) :=
  match fuel with
  | O => None
  | S fuel' =>
      if (a <? M) && (b <? m) then
        let '(b', dp) := bres n d b dp 1 in option_map (cons (off a b)) (bres_P fuel' n d M m off (a + 1) b' dp)
      else Some []
  end.
Definition ComputeBresenhamLineP (fuel : nat) (n d M m : Z) (off : Z -> Z -> Z) (a b : Z) : option (list Z) :=
  option_bind (bres_skip fuel n d a b (2 * n - 2)) (fun '(a, b, dp) => bres_P fuel n d M m off a b dp).

(** [ComputeBresenhamLineNX], S:142-177, and [ComputeBresenhamLineNY], S:212-247: the second coordinate goes down. *)
Fixpoint bres_skip_down (fuel : nat) (n d m a b dp : Z) : option (Z * Z * Z) :=
  match fuel with
  | O => None
  | S fuel' => if b >=? m then let '(b, dp) := bres n d b dp (-1) in bres_skip_down fuel' n d m (a + 1) b dp else Some (a, b, dp)
  end.
Fixpoint bres_N (fuel : nat) (n d M : Z) (off : Z -> Z -> Z) (a b dp : Z) : option (list Z) :=
  match fuel with
  | O => None
  | S fuel' =>
      if (a <? M - 1) && (b >? 0) then
        let '(b, dp) := bres n d b dp (-1) in option_map (cons (off (a + 1) b)) (bres_N fuel' n d M off (a + 1) b dp)
      else Some []
  end.
Definition ComputeBresenhamLineN (fuel : nat) (n d M m : Z) (off : Z -> Z -> Z) (a b : Z) : option (list Z) :=
  option_bind (bres_skip_down fuel n d m a b (2 * n - 2)) (fun '(a, b, dp) =>
  if a >=? M then Some [] else option_map (cons (off a b)) (bres_N fuel n d M off a b dp)).

(** ** Soille's dilation *)

(** The maxima over blocks, S:255-268, 308-319, 360-371: [f] has the values along the line. *)
Definition line_gh (k : Z) (f g h : list Z) : option (list Z * list Z) :=
  let n := Z.of_nat (length f) in
  fold_opt (fun '(g, h) x =>
    let x2 := n - 1 - x in
    option_bind (rd f x) (fun fx =>
    option_bind (if x mod k =? 0 then Some fx else option_map (fun p => Z.max p fx) (rd g (x - 1))) (fun v =>
    option_bind (wr g x v) (fun g =>
    option_bind (rd f x2) (fun fx2 =>
    option_bind (if (x2 mod k =? k - 1) || (x2 =? n - 1) then Some fx2 else option_map (fun p => Z.max p fx2) (rd h (x2 + 1))) (fun v =>
    option_bind (wr h x2 v) (fun h => Some (g, h)))))))) (zseq n) (g, h).
(** S:269-272, 321-324, 373-376. *)
Definition line_h0 (k : Z) (f h : list Z) : option (list Z) :=
  let n := Z.of_nat (length f) in
  option_bind (rd f 0) (fun f0 =>
  option_bind (if (k =? 1) || (n =? 1) then Some f0 else option_map (fun p => Z.max p f0) (rd h 1)) (fun v => wr h 0 v)).

(** The loop [for (x = n - 2; x >= n - k; x--)] of S:274-275 and 326-327 on unsigned numbers of 64 bits, at x = [m] - 1. *)
Fixpoint h2_down (m : nat) (lo : Z) (f h2 : list Z) : option (list Z) :=
  let x := (Z.of_nat m - 1) mod 2 ^ 64 in
  if x <? lo then Some h2 else
  match m with
  | O => None
  | S m' =>
      option_bind (rd h2 (x + 1)) (fun a => option_bind (rd f x) (fun b =>
      option_bind (wr h2 x (Z.max a b)) (fun h2 => h2_down m' lo f h2)))
  end.
(** S:273-276 and 325-328; [ver]: DilateVerLine, which reads [h] where DilateHorLine reads [h2]. *)
Definition line_h2 (ver : bool) (k : Z) (f h h2 : list Z) : option (list Z) :=
  let n := Z.of_nat (length f) in
  option_bind (rd f (n - 1)) (fun v =>
  option_bind (wr h2 (n - 1) v) (fun h2 =>
  option_bind (h2_down (Z.to_nat (n - 1)) ((n - k) mod 2 ^ 64) f h2) (fun h2 =>
  option_bind (rd (if ver then h else h2) 1) (fun a =>
  option_bind (rd f 0) (fun f0 => wr h2 0 (Z.max a f0)))))).

(** The loop [for (x = nx - 2; (x > 0) && (x >= (nx - k)); x--)] of S:379-380. *)
Fixpoint h2_down_pos (m : nat) (lo : Z) (f h2 : list Z) : option (list Z) :=
  let x := Z.of_nat m - 1 in
  if negb ((x >? 0) && (x >=? lo)) then Some h2 else
  match m with
  | O => Some h2
  | S m' =>
      option_bind (rd h2 (x + 1)) (fun a => option_bind (rd f x) (fun b =>
      option_bind (wr h2 x (Z.max a b)) (fun h2 => h2_down_pos m' lo f h2)))
  end.
(** S:377-382. *)
Definition line_h2_pos (k : Z) (f h2 : list Z) : option (list Z) :=
  let n := Z.of_nat (length f) in
  option_bind (rd f (n - 1)) (fun v =>
  option_bind (wr h2 (n - 1) v) (fun h2 =>
  if n >=? 2 then
    option_bind (h2_down_pos (Z.to_nat (n - 1)) ((n - k) mod 2 ^ 64) f h2) (fun h2 =>
    option_bind (rd h2 1) (fun a => option_bind (rd f 0) (fun f0 => wr h2 0 (Z.max a f0))))
  else Some h2)).

(** The results, S:278-298, 330-350, 384-404. *)
Definition line_res (k n : Z) (g h h2 : list Z) (x : Z) : option Z :=
  let r := k / 2 in
  if n <=? r then rd g (n - 1)
  else if n <=? k then (if x <? n - r then rd g (x + r) else if x <=? r then rd g (n - 1) else rd h (x - r))
  else if x <? n - r then (if x <? r then rd g (x + r) else option_bind (rd g (x + r)) (fun a => option_map (Z.max a) (rd h (x - r))))
  else rd h2 (x - r).

(** The three buffers of [max(W, H)] cells. *)
Definition bufs := (list Z * list Z * list Z)%type.
(** [DilateHorLine], S:249-299, [DilateVerLine], S:301-351, [DilateLine], S:353-405. *)
Inductive line_kind := Hor | Ver | Any.
Definition dilate_values (kd : line_kind) (k : Z) (f : list Z) (b : bufs) : option (list Z * bufs) :=
  let '(g, h, h2) := b in
  let n := Z.of_nat (length f) in
  option_bind (line_gh k f g h) (fun '(g, h) =>
  option_bind (line_h0 k f h) (fun h =>
  option_bind (match kd with Hor => line_h2 false k f h h2 | Ver => line_h2 true k f h h2 | Any => line_h2_pos k f h2 end) (fun h2 =>
  option_bind (all_some (map (line_res k n g h h2) (zseq n))) (fun r => Some (r, (g, h, h2)))))).

(** The pixels [p] of one line: read, then written.  [alias]: the two images are the same. *)
Definition dilate_line (kd : line_kind) (k : Z) (alias : bool) (px p : list Z) (s : list Z * bufs) : option (list Z * bufs) :=
  let '(out, b) := s in
  option_bind (all_some (map (rd (if alias then out else px)) p)) (fun f =>
  option_bind (dilate_values kd k f b) (fun '(r, b) =>
  option_bind (fold_opt (fun out '(o, v) => wr out o v) (combine p r) out) (fun out => Some (out, b)))).

(** The loops over the lines of [ImageGrayDilateLine], S:450-511: [gen b] is the line that starts at [b]. *)
Fixpoint line_loop {S} (fuel : nat) (gen : Z -> option (list Z)) (body : list Z -> S -> option S) (b step : Z) (s : S) : option (option S) :=
  match fuel with
  | O => Some None
  | Datatypes.S fuel' =>
      match gen b with
      | None => Some None
      | Some [] => Some (Some s)
      | Some p => option_bind (body p s) (fun s => line_loop fuel' gen body (b + step) step s)
      end
  end.

(** [ImageGrayDilateHor], S:407-419, [ImageGrayDilateVer], 421-434, [ImageGrayDilateLine], 436-512. *)
Definition ImageGrayDilateLine (fuel : nat) (alias : bool) (w h k dx dy : Z) (px : list Z) (s : list Z * bufs) : option (option (list Z * bufs)) :=
  let body := dilate_line Any k alias px in
  let same := ((dx >? 0) && (dy >? 0)) || ((dx <? 0) && (dy <? 0)) in
  let ax := Z.abs dx in
  let ay := Z.abs dy in
  if dy =? 0 then option_map Some (fold_opt (fun s y => dilate_line Hor k alias px (map (fun x => y * w + x) (zseq w)) s) (zseq h) s)
  else if dx =? 0 then option_map Some (fold_opt (fun s x => dilate_line Ver k alias px (map (fun y => y * w + x) (zseq h)) s) (zseq w) s)
  else if ax =? ay then
    if dx =? - dy then line_loop fuel (ComputeLineNegDiag fuel w h 0) body 0 1 s
    else line_loop fuel (ComputeLinePosDiag fuel w h 0) body (h - 2) (-1) s
  else if ax >? ay then
    if same then line_loop fuel (ComputeBresenhamLineP fuel ay ax w h (fun a b => b * w + a) 0) body (h - 1) (-1) s
    else line_loop fuel (ComputeBresenhamLineN fuel ay ax w h (fun a b => b * w + a) 0) body 0 1 s
  else
    if same then line_loop fuel (ComputeBresenhamLineP fuel ax ay h w (fun a b => a * w + b) 0) body (w - 1) (-1) s
    else line_loop fuel (ComputeBresenhamLineN fuel ax ay h w (fun a b => a * w + b) 0) body 0 1 s.

(** [lineDilate], S:515-563. *)
Definition lineDilate (fuel : nat) (mem : Z -> Z) (alias : bool) (imIn : img) (dx dy r : Z) (imOut : img) : option (option (Z * img)) :=
  if negb (same_size imIn imOut) then Some (Some (-98, imOut)) else
  let w := width imIn in
  let h := height imIn in
  if depth imIn >? 1 then Some (Some (-100, imOut)) else
  let b := map mem (zseq (Z.max w h)) in
  fuel_bind (ImageGrayDilateLine fuel alias w h (r * 2 + 1) dx dy (pixs imIn) (pixs imOut, (b, b, b))) (fun '(out, _) =>
  Some (Some (1, Img (sz imOut) out))).

(** [lineErode], S:565-577, [lineOpen], 579-589, [lineClose], 591-601; the temporary image has the size of the input. *)
Definition tmp_image (mem : Z -> Z) (im : img) : img := Img (sz im) (map mem (zseq (Z.of_nat (length (pixs im))))).
Definition lineErode (fuel : nat) (mem : Z -> Z) (t : ity) (imIn : img) (dx dy r : Z) (imOut : img) : option (option (Z * img)) :=
  fuel_bind (lineDilate fuel mem false (pw1 (px_inv t) imIn) dx dy r imOut) (fun '(res, out) =>
  Some (Some (res, if res =? 1 then pw1 (px_inv t) out else out))).
Definition lineOpen (fuel : nat) (mem : Z -> Z) (t : ity) (imIn : img) (dx dy r : Z) (imOut : img) : option (option (Z * img)) :=
  fuel_bind (lineErode fuel mem t imIn dx dy r (tmp_image mem imIn)) (fun '(res, tmp) =>
  if res =? 1 then lineDilate fuel mem false tmp dx dy r imOut else Some (Some (res, imOut))).
Definition lineClose (fuel : nat) (mem : Z -> Z) (t : ity) (imIn : img) (dx dy r : Z) (imOut : img) : option (option (Z * img)) :=
  fuel_bind (lineDilate fuel mem false imIn dx dy r (tmp_image mem imIn)) (fun '(res, tmp) =>
  if res =? 1 then lineErode fuel mem t tmp dx dy r imOut else Some (Some (res, imOut))).

(** The directions for the angles 0 and 90: cos and sin are exact but for a term that is truncated. *)
Definition dir0 (im : img) : Z * Z := (Z.max (width im) (height im), 0).
Definition dir90 (im : img) : Z * Z := (0, - Z.max (width im) (height im)).

(** [squareDilate], S:669-678, [squareErode], 680-688, [squareOpen], 690-702, [squareClose], 704-716. *)
Definition then_ (r : option (option (Z * img))) (imOut : img) (f : img -> option (option (Z * img))) : option (option (Z * img)) :=
  fuel_bind r (fun '(res, im) => if res =? 1 then f im else Some (Some (res, imOut))).
Definition squareDilate (fuel : nat) (mem : Z -> Z) (imIn : img) (r : Z) (imOut : img) : option (option (Z * img)) :=
  then_ (lineDilate fuel mem false imIn (fst (dir0 imIn)) (snd (dir0 imIn)) r (tmp_image mem imIn)) imOut (fun tmp =>
  lineDilate fuel mem false tmp (fst (dir90 imIn)) (snd (dir90 imIn)) r imOut).
Definition squareErode (fuel : nat) (mem : Z -> Z) (t : ity) (imIn : img) (r : Z) (imOut : img) : option (option (Z * img)) :=
  then_ (lineErode fuel mem t imIn (fst (dir0 imIn)) (snd (dir0 imIn)) r (tmp_image mem imIn)) imOut (fun tmp =>
  lineErode fuel mem t tmp (fst (dir90 imIn)) (snd (dir90 imIn)) r imOut).
Definition squareOpen (fuel : nat) (mem : Z -> Z) (t : ity) (imIn : img) (r : Z) (imOut : img) : option (option (Z * img)) :=
  then_ (lineErode fuel mem t imIn (fst (dir0 imIn)) (snd (dir0 imIn)) r (tmp_image mem imIn)) imOut (fun tmp =>
  then_ (lineErode fuel mem t tmp (fst (dir90 imIn)) (snd (dir90 imIn)) r imOut) imOut (fun imOut =>
  then_ (lineDilate fuel mem false imOut (fst (dir0 imIn)) (snd (dir0 imIn)) r tmp) imOut (fun tmp =>
  lineDilate fuel mem false tmp (fst (dir90 imIn)) (snd (dir90 imIn)) r imOut))).
Definition squareClose (fuel : nat) (mem : Z -> Z) (t : ity) (imIn : img) (r : Z) (imOut : img) : option (option (Z * img)) :=
  then_ (lineDilate fuel mem false imIn (fst (dir0 imIn)) (snd (dir0 imIn)) r (tmp_image mem imIn)) imOut (fun tmp =>
  then_ (lineDilate fuel mem false tmp (fst (dir90 imIn)) (snd (dir90 imIn)) r imOut) imOut (fun imOut =>
  then_ (lineErode fuel mem t imOut (fst (dir0 imIn)) (snd (dir0 imIn)) r tmp) imOut (fun tmp =>
  lineErode fuel mem t tmp (fst (dir90 imIn)) (snd (dir90 imIn)) r imOut))).

(** ** Morard's opening *)

(** [Node], M:23-28: where the node starts, whether it has passed the criterion, its value. *)
Record mnode := Mn { mn_start : Z; mn_passed : bool; mn_value : Z }.
(** [wp], [LineIdx], the stack of 256 cells, its size, the output image. *)
Record mstate := Ms { ms_wp : Z; ms_idx : list Z; ms_stack : list mnode; ms_size : nat; ms_out : list Z }.

(** [bufferOut[LineIdx[i]] = v] for [i] from [a] to [b] - 1. *)
Definition paint (idx : list Z) (a b v : Z) (out : list Z) : option (list Z) :=
  fold_opt (fun out i => option_bind (rd idx i) (fun o => wr out o v)) (zrange a (b - a)) out.
(** The nodes below [n], up to the start of the next one, M:53-57 and 82-86. *)
Definition paint_below (idx : list Z) (st : list mnode) (n : nat) (out : list Z) : option (list Z) :=
  fold_opt (fun out j =>
    option_bind (rd st j) (fun nd => option_bind (rd st (j + 1)) (fun nd' =>
    paint idx (mn_start nd) (mn_start nd') (mn_value nd) out))) (zseq (Z.of_nat n)) out.

(** The loop of [BuildOpeningFromPoint], M:46-73, with [n] nodes in the stack: the stack, its size and the output image. *)
Fixpoint mpop (n : nat) (size F wp : Z) (idx : list Z) (st : list mnode) (out : list Z) : option (list mnode * nat * list Z) :=
  match n with
  | O => None
  | S n' =>
      option_bind (rd st (Z.of_nat n')) (fun top =>
      if negb (F <? mn_value top) then Some (st, n, out)
      else if mn_passed top || (wp - mn_start top >=? size) then
        option_bind (paint_below idx st n' out) (fun out =>
        option_bind (paint idx (mn_start top) wp (mn_value top) out) (fun out =>
        option_bind (wr st 0 (Mn wp true F)) (fun st => Some (st, 1%nat, out))))
      else
        option_bind (match n' with O => Some true | S n'' => option_map (fun nd => F >? mn_value nd) (rd st (Z.of_nat n'')) end) (fun stop =>
        if (stop : bool) then option_bind (wr st (Z.of_nat n') (Mn (mn_start top) (mn_passed top) F)) (fun st => Some (st, n, out))
        else mpop n' size F wp idx st out))
  end.

(** [BuildOpeningFromPoint], M:32-76. *)
Definition BuildOpeningFromPoint (size F ind : Z) (s : mstate) : option mstate :=
  let '(Ms wp idx st n out) := s in
  option_bind (wr idx wp ind) (fun idx =>
  option_bind (rd st (Z.of_nat n - 1)) (fun top =>
  option_bind (if F >? mn_value top then option_bind (wr st (Z.of_nat n) (Mn wp false F)) (fun st => Some (st, S n, out))
               else mpop n size F wp idx st out) (fun '(st, n, out) =>
  Some (Ms (wp + 1) idx st n out)))).

(** [EndProcess], M:78-99. *)
Fixpoint mend (n : nat) (size wp : Z) (idx : list Z) (st : list mnode) (out : list Z) : option (list Z) :=
  match n with
  | O => option_bind (rd st 0) (fun nd => paint idx (mn_start nd) wp (mn_value nd) out)
  | S n' =>
      option_bind (rd st (Z.of_nat n')) (fun top =>
      if wp - mn_start top >=? size then option_bind (paint_below idx st n' out) (fun out => paint idx (mn_start top) wp (mn_value top) out)
      else mend n' size wp idx st out)
  end.
Definition EndProcess (size : Z) (s : mstate) : option mstate :=
  let '(Ms wp idx st n out) := s in option_map (Ms wp idx st 0) (mend n size wp idx st out).

(** The pixels [p] of a line: the first one, M:386-391 for instance, and the others. *)
Definition open_points (alias : bool) (size : Z) (px p : list Z) (s : mstate) : option mstate :=
  let src (s : mstate) := if alias then ms_out s else px in
  match p with
  | [] => Some s
  | o :: p =>
      option_bind (rd (src s) o) (fun v =>
      option_bind (wr (ms_stack s) 0 (Mn 0 false v)) (fun st =>
      option_bind (wr (ms_idx s) 0 o) (fun idx =>
      fold_opt (fun s o => option_bind (rd (src s) o) (fun v => BuildOpeningFromPoint size v o s)) p (Ms 1 idx st 1 (ms_out s)))))
  end.
Definition open_line (alias : bool) (size : Z) (px p : list Z) (s : mstate) : option mstate :=
  option_bind (open_points alias size px p s) (EndProcess size).

(** [ComputeLinePosDiag], M:101-138: the column is not moved after the first pixel.  The pixels and the value returned. *)
Fixpoint mposdiag_loop (fuel : nat) (w h x y idx : Z) : option (list Z * Z) :=
  match fuel with
  | O => None
  | S fuel' => if (x <? w) && (y <? h) then option_map (fun '(l, n) => (idx :: l, n)) (mposdiag_loop fuel' w h (x + 1) (y + 1) (idx + w + 1)) else Some ([], x)
  end.
Definition mposdiag (fuel : nat) (w h x y : Z) : option (list Z * Z) :=
  let '(x, y) := if x <? 0 then (0, y - x) else (x, y) in
  let '(x, y) := if y <? 0 then (x - y, 0) else (x, y) in
  if (x <? w) && (y <? h) then
    option_map (fun '(l, n) => (y * w + x :: l, n - x)) (mposdiag_loop fuel w h x (y + 1) (y * w + x + w + 1))
  else Some ([], 0).

(** The loops [do ... while (nx > 0)] of [LineOpeningDiag], M:430-494: [EndProcess] also comes after the last, empty, line. *)
Fixpoint open_loop (fuel : nat) (gen : Z -> option (list Z * Z)) (alias : bool) (size : Z) (px : list Z) (b step : Z) (s : mstate) : option (option mstate) :=
  match fuel with
  | O => Some None
  | S fuel' =>
      match gen b with
      | None => Some None
      | Some (p, nx) =>
          option_bind (open_line alias size px p s) (fun s =>
          if nx >? 0 then open_loop fuel' gen alias size px (b + step) step s else Some (Some s))
      end
  end.
Definition with_count (l : option (list Z)) : option (list Z * Z) := option_map (fun p => (p, Z.of_nat (length p))) l.

(** [LineOpeningHorz], M:374-398, [LineOpeningVert], 400-422, [LineOpeningDiag], 424-495: the latter walks the same lines as above but
    for the first diagonals. *)
Definition line_opening (fuel : nat) (alias : bool) (w h dx dy r : Z) (px : list Z) (s : mstate) : option (option mstate) :=
  let size := r * 2 + 1 in
  let same := ((dx >? 0) && (dy >? 0)) || ((dx <? 0) && (dy <? 0)) in
  let ax := Z.abs dx in
  let ay := Z.abs dy in
  let loop gen := open_loop fuel gen alias size px in
  if dx =? 0 then option_map Some (fold_opt (fun s x => open_line alias size px (map (fun y => y * w + x) (zseq h)) s) (zseq w) s)
  else if dy =? 0 then option_map Some (fold_opt (fun s y => open_line alias size px (map (fun x => y * w + x) (zseq w)) s) (zseq h) s)
  else if ax =? ay then
    if dx =? - dy then loop (fun b => with_count (ComputeLineNegDiag fuel w h 0 b)) 0 1 s
    else loop (fun b => mposdiag fuel w h 0 b) (h - 2) (-1) s
  else if ax >? ay then
    if same then loop (fun b => with_count (ComputeBresenhamLineP fuel ay ax w h (fun a b => b * w + a) 0 b)) (h - 1) (-1) s
    else loop (fun b => with_count (ComputeBresenhamLineN fuel ay ax w h (fun a b => b * w + a) 0 b)) 0 1 s
  else
    if same then loop (fun b => with_count (ComputeBresenhamLineP fuel ax ay h w (fun a b => a * w + b) 0 b)) (w - 1) (-1) s
    else loop (fun b => with_count (ComputeBresenhamLineN fuel ax ay h w (fun a b => a * w + b) 0 b)) 0 1 s.

(** [ImFastLineOpen], M:500-533. *)
Definition imFastLineOpen (fuel : nat) (mem : Z -> Z) (memn : Z -> mnode) (alias : bool) (imIn : img) (dx dy r : Z) (imOut : img) : option (option (Z * img)) :=
  if negb (same_size imIn imOut) then Some (Some (-98, imOut)) else
  let w := width imIn in
  let h := height imIn in
  let s := Ms 0 (map mem (zseq (Z.max w h + 3))) (map memn (zseq 256)) 0 (pixs imOut) in
  fuel_bind (line_opening fuel alias w h dx dy r (pixs imIn) s) (fun s => Some (Some (1, Img (sz imOut) (ms_out s)))).

(** [imFastLineClose], DFastLine.h:218-231. *)
Definition imFastLineClose (fuel : nat) (mem : Z -> Z) (memn : Z -> mnode) (t : ity) (imIn : img) (dx dy r : Z) (imOut : img) : option (option (Z * img)) :=
  fuel_bind (imFastLineOpen fuel mem memn false (pw1 (px_inv t) imIn) dx dy r imOut) (fun '(res, out) =>
  Some (Some (if res =? 1 then (1, pw1 (px_inv t) out) else (-100, out)))).
