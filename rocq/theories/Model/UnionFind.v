(** Area openings by union-find: Advanced/include/private/AreaOpening/DAreaOpenUnionFind.hpp and DAreaOpen.hpp.

    [Some None]: the depth [fuel] of the recursion is exhausted; [None]: access outside an array.  Not modelled: the memory
    reserved ahead for the histogram, the messages, the dumps, and the names of methods other than "unionfind". *)
From Verif Require Export Model.MaxTree.

(** [histoMap[val].push_back(i)], DAreaOpenUnionFind.hpp:135-153: std::map keeps its keys in order. *)
Fixpoint hist_add (m : list (Z * list Z)) (v i : Z) : list (Z * list Z) :=
  match m with
  | [] => [(v, [i])]
  | (w, l) :: m' => if v <? w then (v, [i]) :: m else if v =? w then (w, l ++ [i]) :: m' else (w, l) :: hist_add m' v i
  end.
Definition mkHistogram (px : list Z) : list (Z * list Z) :=
  fold_left (fun m i => hist_add m (znth 0 px i) i) (zseq (Z.of_nat (length px))) [].

(** [FindRoot], 167-174: the parent and the root. *)
Fixpoint uf_find (fuel : nat) (par : list Z) (x : Z) : option (option (list Z * Z)) :=
  match fuel with
  | O => Some None
  | S fuel' =>
      option_bind (rd par x) (fun v =>
      if (v >=? 0) && negb (v =? x) then
        fuel_bind (uf_find fuel' par v) (fun '(par, r) => option_bind (wr par x r) (fun par => Some (Some (par, r))))
      else Some (Some (par, x)))
  end.

(** [Criterion], 176-179. *)
Definition uf_criterion (px : list Z) (lambda : Z) (par : list Z) (x y : Z) : option bool :=
  option_bind (rd px x) (fun vx =>
  option_bind (rd px y) (fun vy =>
  option_bind (rd par x) (fun p => Some ((vx =? vy) || (- p <? lambda))))).

(** [Union], 181-193. *)
Definition uf_union (fuel : nat) (px : list Z) (lambda : Z) (par : list Z) (n p : Z) : option (option (list Z)) :=
  fuel_bind (uf_find fuel par n) (fun '(par, r) =>
  if r =? p then Some (Some par) else
  option_bind (uf_criterion px lambda par r p) (fun c =>
  if (c : bool) then
    option_bind (rd par p) (fun a =>
    option_bind (rd par r) (fun b =>
    option_bind (wr par p (a + b)) (fun par =>
    option_bind (wr par r p) (fun par => Some (Some par)))))
  else option_bind (wr par p (- lambda)) (fun par => Some (Some par)))).

(** [_pixel2coords], 252-262, [_coords2pixel], 264-270, and [_pixelInWindow], 272-281. *)
Definition uf_coords (s : dims) (pixel : Z) : Z * Z * Z :=
  if dd s >? 1 then (pixel mod dw s, (pixel mod (dh s * dw s)) / dw s, pixel / (dh s * dw s))
  else (pixel mod dw s, pixel / dw s, 0).
Definition uf_pixel (s : dims) (x y z : Z) : Z :=
  if dd s >? 1 then x + y * dw s + z * (dh s * dw s) else x + y * dw s.
Definition uf_window (s : dims) (x y z : Z) : bool :=
  negb ((x <? 0) || (x >=? dw s)) && negb ((y <? 0) || (y >=? dh s)) && negb ((z <? 0) || (z >=? dd s)).

(** The neighbours of a pixel, 308-323. *)
Fixpoint uf_scan (fuel : nat) (s : dims) (px : list Z) (lambda : Z) (pix : Z) (pts : list point) (par : list Z) : option (option (list Z)) :=
  match pts with
  | [] => Some (Some par)
  | d :: pts =>
      let '(x, y, z) := uf_coords s pix in
      if negb (uf_window s (x + px_ d) (y + py_ d) (z + pz_ d)) then uf_scan fuel s px lambda pix pts par else
      let nbg := pix + uf_pixel s (px_ d) (py_ d) (pz_ d) in
      option_bind (rd px pix) (fun a =>
      option_bind (rd px nbg) (fun b =>
      if (a <? b) || ((a =? b) && (nbg <? pix)) then
        fuel_bind (uf_union fuel px lambda par nbg pix) (uf_scan fuel s px lambda pix pts)
      else uf_scan fuel s px lambda pix pts par))
  end.

(** The pixels from the highest level down, 299-324; [MakeSet], 162-165. *)
Fixpoint uf_merge (fuel : nat) (s : dims) (px : list Z) (lambda : Z) (pts : list point) (order : list Z) (par : list Z) : option (option (list Z)) :=
  match order with
  | [] => Some (Some par)
  | pix :: order =>
      option_bind (wr par pix (-1)) (fun par =>
      fuel_bind (uf_scan fuel s px lambda pix pts par) (uf_merge fuel s px lambda pts order))
  end.

(** The pixels from the lowest level up, 327-338. *)
Definition uf_output (t : ity) (px : list Z) (order : list Z) (st : list Z * list Z) : option (list Z * list Z) :=
  fold_opt (fun '(par, out) pix =>
    option_bind (rd par pix) (fun p =>
    option_bind (if p >=? 0 then rd par p else rd px pix) (fun v =>
    option_bind (wr par pix v) (fun par =>
    option_bind (wr out pix (wrap t v)) (fun out => Some (par, out)))))) order st.

(** [off_t lambda = size]: the conversion of a size_t. *)
Definition to_off_t (n : Z) : Z := (n + 2 ^ 63) mod 2 ^ 64 - 2 ^ 63.

(** [areaOpen], 75-86, [_init], 116-130, and [_areaOpen], 290-341, called by [areaOpening], DAreaOpen.hpp:69-83.  The values are
    read in a copy of the input image; the histogram is made with the input image itself, after the output image has been
    filled with 0: [alias] tells that they are the same image. *)
Definition areaOpening (fuel : nat) (t : ity) (se : strelt) (alias : bool) (imIn : img) (size : Z) (imOut : img) : option (option (Z * img)) :=
  if negb (same_size imIn imOut) then Some (Some (-98, imOut)) else
  let zeros := map (fun _ => 0) (pixs imOut) in
  let px := pixs imIn in
  let histo := mkHistogram (if alias then zeros else px) in
  let lambda := to_off_t size in
  let par := map (fun _ => 0) px in
  fuel_bind (uf_merge fuel (sz imIn) px lambda (se_points (noCenter se)) (flat_map snd (rev histo)) par) (fun par =>
  option_bind (uf_output t px (flat_map (fun e => rev (snd e)) histo) (par, zeros)) (fun '(_, out) =>
  Some (Some (1, Img (sz imOut) out)))).

(** [areaClosing], DAreaOpen.hpp:95-116. *)
Definition areaClosing (fuel : nat) (t : ity) (se : strelt) (imIn : img) (size : Z) (imOut : img) : option (option (Z * img)) :=
  if negb (same_size imIn imOut) then Some (Some (-98, imOut)) else
  fuel_bind (areaOpening fuel t se false (pw1 (px_inv t) imIn) size imOut) (fun '(res, out) =>
  Some (Some (res, if res =? 1 then pw1 (px_inv t) out else out))).
