(** Image files: IO/src/DImageIO_PBM.cpp, DImageIO_BMP.cpp, DImageIO_VTK.cpp and IO/include/private/DImageIO_PBM.hpp,
    DImageIO_RAW.hpp, DImageIO_VTK.hpp, DImageIO.hxx.

    A file is the list of its bytes (0 to 255); the machine is little-endian, [char] is signed.  The streams are those of
    C++11 (libstdc++, locale "C"): position, end of file and failure.  [mem] gives the contents of the memory that setSize leaves in an
    image and of the variables that are not initialised when that is harmless.  [None]: undefined behaviour;
    [Some None]: the number of turns [fuel] is exhausted.  The files can be opened and written.  Allocation succeeds unless a
    size is negative.  Not modelled: PNG, JPEG and TIFF (external libraries), downloads, ASCII files in VTK format (double). *)
From Coq Require Export Ascii String.
From Coq Require Export List.
From Verif Require Export Model.Draw Model.Geodesic.
Open Scope list_scope.
Open Scope Z_scope.

(** The bytes of a text. *)
Definition str (s : string) : list Z := map (fun a => Z.of_nat (nat_of_ascii a)) (list_ascii_of_string s).

(** The bytes of an integer in memory. *)
Fixpoint le_bytes (n : nat) (v : Z) : list Z :=
  match n with O => [] | S n' => v mod 256 :: le_bytes n' (v / 256) end.
Fixpoint le_value (l : list Z) : Z := match l with [] => 0 | b :: l => b + 256 * le_value l end.
Definition tbytes (t : ity) : nat := Z.to_nat (nbits t / 8).
Definition encode (t : ity) (v : Z) : list Z := le_bytes (tbytes t) v.
Definition decode (t : ity) (l : list Z) : Z := wrap t (le_value l).

(** Conversions to the C types [int] and [UINT] or [UINT32]. *)
Definition to_int (z : Z) : Z := (z + 2 ^ 31) mod 2 ^ 32 - 2 ^ 31.
Definition to_uint (z : Z) : Z := z mod 2 ^ 32.

(** ** std::ifstream *)
Record istream := IS { is_data : list Z; is_pos : Z; is_eof : bool; is_fail : bool }.
Definition is_open (data : list Z) : istream := IS data 0 false false.
Definition is_good (st : istream) : bool := negb (is_eof st) && negb (is_fail st).
Definition is_rest (st : istream) : list Z := skipn (Z.to_nat (is_pos st)) (is_data st).
Definition set_fail (st : istream) : istream := IS (is_data st) (is_pos st) (is_eof st) true.
Definition is_nil {A} (l : list A) : bool := match l with [] => true | _ => false end.

(** The characters before the end of line, and whether there is one. *)
Fixpoint take_line (l : list Z) : list Z * bool :=
  match l with
  | [] => ([], false)
  | c :: l => if c =? 10 then ([], true) else let '(a, b) := take_line l in (c :: a, b)
  end.

(** std::getline: the string is left unchanged by a stream that is not good. *)
Definition is_getline (st : istream) (buf : list Z) : istream * list Z :=
  if negb (is_good st) then (set_fail st, buf) else
  let '(line, nl) := take_line (is_rest st) in
  let n := Z.of_nat (length line) in
  if nl then (IS (is_data st) (is_pos st + n + 1) false false, line)
  else (IS (is_data st) (is_pos st + n) true (is_nil line), line).

(** tellg: -1 after a failure. *)
Definition is_tellg (st : istream) : Z * istream :=
  if is_good st then (is_pos st, st) else (-1, set_fail st).

(** seekg to a position: the end of file is forgotten first. *)
Definition is_seekg (st : istream) (p : Z) : istream :=
  if is_fail st || (p <? 0) then IS (is_data st) (is_pos st) false true
  else IS (is_data st) p false false.

(** read: the bytes read. *)
Definition is_read (st : istream) (n : Z) : list Z * istream :=
  if negb (is_good st) then ([], set_fail st) else
  let l := firstn (Z.to_nat n) (is_rest st) in
  let short := Z.of_nat (length l) <? n in
  (l, IS (is_data st) (is_pos st + Z.of_nat (length l)) short short).

Definition is_space (c : Z) : bool := (c =? 32) || ((9 <=? c) && (c <=? 13)).
Definition is_digit (c : Z) : bool := (48 <=? c) && (c <=? 57).
Fixpoint skip_spaces (l : list Z) : list Z :=
  match l with [] => [] | c :: l' => if is_space c then skip_spaces l' else l end.
(** The digits read so far and the characters after them. *)
Fixpoint take_digits (l : list Z) (n : Z) : Z * list Z :=
  match l with [] => (n, []) | c :: l' => if is_digit c then take_digits l' (10 * n + (c - 48)) else (n, l) end.

(** operator>> into an integer between [lo] and [hi] ([lo] = 0: unsigned); [old]: its value before, [None] if it has none. *)
Definition is_extract (lo hi : Z) (st : istream) (old : option Z) : option Z * istream :=
  if negb (is_good st) then (old, set_fail st) else
  let data := is_data st in
  let total := Z.of_nat (length data) in
  match skip_spaces (is_rest st) with
  | [] => (old, IS data total true true)
  | c :: l =>
      let sign := (c =? 43) || (c =? 45) in
      let digits := if sign then l else c :: l in
      let '(n, after) := take_digits digits 0 in
      let pos := total - Z.of_nat (length after) in
      let eof := is_nil after in
      if Nat.eqb (length after) (length digits) then (Some 0, IS data pos eof true)
      else if (lo =? 0) && (n >? hi) then (Some hi, IS data pos eof true)
      else if (lo =? 0) && (c =? 45) then (Some ((- n) mod (hi + 1)), IS data pos eof false)
      else if (c =? 45) && (- n <? lo) then (Some lo, IS data pos eof true)
      else if (c =? 45) then (Some (- n), IS data pos eof false)
      else if n >? hi then (Some hi, IS data pos eof true)
      else (Some n, IS data pos eof false)
  end.
Definition is_size_t := is_extract 0 (2 ^ 64 - 1).
Definition is_uint := is_extract 0 (2 ^ 32 - 1).
Definition is_int := is_extract (- 2 ^ 31) (2 ^ 31 - 1).

(** atoi: [None] when the value is not an [int]. *)
Definition c_atoi (l : list Z) : option Z :=
  match skip_spaces l with
  | [] => Some 0
  | c :: l' =>
      let neg := c =? 45 in
      let v := fst (take_digits (if neg || (c =? 43) then l' else c :: l') 0) in
      let v := if neg then - v else v in
      if (- 2 ^ 31 <=? v) && (v <? 2 ^ 31) then Some v else None
  end.

(** operator<< of a size_t. *)
Fixpoint dec_digits (fuel : nat) (n : Z) (acc : list Z) : list Z :=
  match fuel with
  | O => acc
  | S fuel' => if n <? 10 then (48 + n) :: acc else dec_digits fuel' (n / 10) ((48 + n mod 10) :: acc)
  end.
Definition dec (n : Z) : list Z := dec_digits (S (Z.to_nat (Z.log2 n))) n [].

(** setSize; [None]: a negative size, that is too large a [size_t]. *)
Definition set_size (mem : Z -> Z) (image : img) (w h d : Z) : option img :=
  if (w <? 0) || (h <? 0) || (d <? 0) then None else Some (setSize mem image (Dims w h d)).
(** A prefix of an array overwritten. *)
Definition overwrite (l new : list Z) : list Z := new ++ skipn (length new) l.

(** ** PGM and PBM *)
Inductive color := Gray | Rgb | Binary.
Record pnm := Pnm { pn_color : color; pn_ascii : bool; pn_w : Z; pn_h : Z; pn_max : option Z }.

(** The comments, DImageIO_PBM.cpp:94-99: the position of the first line that is not a comment. *)
Fixpoint skip_comments (fuel : nat) (st : istream) (buf : list Z) : option (istream * Z) :=
  match fuel with
  | O => None
  | S fuel' =>
      let '(curpos, st) := is_tellg st in
      let '(st, buf) := is_getline st buf in
      if znth 0 buf 0 =? 35 then skip_comments fuel' st buf else Some (st, curpos)
  end.

Definition pnm_kind (n : Z) : option (color * bool) :=
  if n =? 1 then Some (Binary, true) else if n =? 2 then Some (Gray, true) else if n =? 3 then Some (Rgb, true)
  else if n =? 4 then Some (Binary, false) else if n =? 5 then Some (Gray, false) else if n =? 6 then Some (Rgb, false) else None.

(** [readNetPBMFileInfo], DImageIO_PBM.cpp:41-116: the return code, the header and the stream. *)
Definition readNetPBMFileInfo (fuel : nat) (st : istream) : option (option (Z * pnm * istream)) :=
  let none := Pnm Gray false 0 0 None in
  let '(st, buf) := is_getline st [] in
  let c0 := znth 0 buf 0 in
  if negb (c0 =? 80) && negb (c0 =? 112) then Some (Some (-97, none, st)) else
  option_bind (c_atoi (tl buf)) (fun n =>
  match pnm_kind n with
  | None => Some (Some (-97, none, st))
  | Some (col, ascii) =>
      match skip_comments fuel st buf with
      | None => Some None
      | Some (st, curpos) =>
          let st := is_seekg st curpos in
          let '(w, st) := is_size_t st (Some 0) in
          let '(h, st) := is_size_t st (Some 0) in
          let '(mx, st) := match col with Binary => (None, st) | _ => is_uint st None end in
          let st := is_seekg st (is_pos st + 1) in
          match w, h with
          | Some w, Some h => Some (Some (1, Pnm col ascii w h mx, st))
          | _, _ => None
          end
      end
  end).

(** One pixel of an ASCII file, 164-168: an [int] is written at the address of the pixel. *)
Definition pgm_ascii_pixel (maxval : Z) (s : istream * list Z) (i : Z) : option (istream * list Z) :=
  let '(st, buf) := s in
  let '(px, st) := is_int st None in
  option_bind px (fun px =>
  if negb ((- 2 ^ 31 <=? px * 255) && (px * 255 <? 2 ^ 31)) || (maxval =? 0) then None else
  let v := to_uint (px * 255) / maxval in
  option_bind (fold_opt (fun buf '(k, b) => wr buf (i + k) b) (combine [0; 1; 2; 3] (le_bytes 4 v)) buf) (fun buf =>
  Some (st, buf))).

(** The cells of the buffer of [n] bytes, DMemory.hpp:110-117; [vs] is SIMD_VEC_SIZE. *)
Definition buffer_cells (vs n : Z) : Z := vs * (n / vs + 1).

(** [PGMImageFileHandler<UINT8>::read], DImageIO_PBM.cpp:135-176. *)
Definition pgm_read (fuel : nat) (vs : Z) (mem : Z -> Z) (data : list Z) (image : img) : option (option (Z * img)) :=
  fuel_bind (readNetPBMFileInfo fuel (is_open data)) (fun '(res, hd, st) =>
  if negb (res =? 1) then Some (Some (-97, image)) else
  match pn_color hd with
  | Gray =>
      let w := to_int (pn_w hd) in
      let h := to_int (pn_h hd) in
      match set_size mem image w h 1 with
      | None => Some (Some (-99, image))
      | Some im =>
          if negb (pn_ascii hd) then
            if negb (w * h <? 2 ^ 31) then None else
            Some (Some (1, Img (sz im) (overwrite (pixs im) (fst (is_read st (w * h))))))
          else
            option_bind (fold_opt (fun s i => option_bind (pn_max hd) (fun maxval => pgm_ascii_pixel maxval s i)) (zseq (w * h))
                                  (st, pixs im ++ map (fun k => mem (w * h + k)) (zseq (buffer_cells vs (w * h) - w * h)))) (fun '(_, buf) =>
            Some (Some (1, Img (sz im) (firstn (Z.to_nat (w * h)) buf))))
      end
  | _ => Some (Some (-97, image))
  end).

(** [PGMImageFileHandler<UINT8>::write], 179-203. *)
Definition pgm_write (filename : list Z) (image : img) : list Z :=
  str "P5" ++ [10] ++ str "# " ++ filename ++ [10] ++ dec (width image) ++ str " " ++ dec (height image) ++ [10] ++ str "255" ++ [10] ++
  firstn (Z.to_nat (width image * height image)) (pixs image).

(** [char] from a byte. *)
Definition to_char (b : Z) : Z := if b <? 128 then b else b - 256.

(** One pixel of a binary file, DImageIO_PBM.hpp:117-123; [val] is not initialised at first. *)
Definition pbm_pixel (t : ity) (s : istream * option Z * list Z) (i : Z) : option (istream * option Z * list Z) :=
  let '(st, val, line) := s in
  let '(st, val) :=
    if i mod 8 =? 0 then let '(l, st) := is_read st 1 in (st, match l with b :: _ => Some (to_char b) | [] => val end)
    else (st, val) in
  option_bind val (fun v =>
  let k := 7 - i mod 8 in
  Some (st, val, line ++ [if Z.rem (Z.shiftr v k) 2 =? 0 then 0 else tmax t])).

(** One pixel of an ASCII file, 129-132; [val] is not initialised at first. *)
Definition pbm_ascii_pixel (t : ity) (s : istream * option Z * list Z) (i : Z) : option (istream * option Z * list Z) :=
  let '(st, val, line) := s in
  let '(val, st) := is_int st val in
  option_bind val (fun v => Some (st, val, line ++ [if v =? 0 then 0 else tmax t])).

(** [PBMImageFileHandler<T>::read], DImageIO_PBM.hpp:84-139. *)
Definition pbm_read (fuel : nat) (t : ity) (mem : Z -> Z) (data : list Z) (image : img) : option (option (Z * img)) :=
  fuel_bind (readNetPBMFileInfo fuel (is_open data)) (fun '(res, hd, st) =>
  if negb (res =? 1) then Some (Some (-97, image)) else
  match pn_color hd with
  | Binary =>
      let w := pn_w hd in
      let h := pn_h hd in
      option_bind
        (if negb (pn_ascii hd) then
           fold_opt (fun s j => fold_opt (pbm_pixel t) (zseq w) s) (zseq h) (st, None, [])
         else fold_opt (pbm_ascii_pixel t) (zseq (w * h)) (st, None, [])) (fun '(_, _, px) =>
      Some (Some (1, Img (Dims w h 1) px)))
  | _ => Some (Some (-97, image))
  end).

(** ** RAW *)

(** The values in a sequence of bytes; what is left of the last bytes is dropped. *)
Fixpoint decode_all (t : ity) (n : nat) (l : list Z) : list Z :=
  match n with
  | O => []
  | S n' => if (length l <? tbytes t)%nat then [] else decode t (firstn (tbytes t) l) :: decode_all t n' (skipn (tbytes t) l)
  end.

(** [writeRAW], DImageIO_RAW.hpp:107-122. *)
Definition raw_write (t : ity) (image : img) : list Z := flat_map (encode t) (pixs image).

(** [readRAW], 70-95: the values that the file has; a value of which only some bytes are there is not counted. *)
Definition raw_read (t : ity) (mem : Z -> Z) (data : list Z) (w h d : Z) (image : img) : Z * img :=
  let im := setSize mem image (Dims w h d) in
  let l := decode_all t (length (pixs im)) data in
  (if Z.of_nat (length l) =? 0 then -100 else 1, Img (sz im) (overwrite (pixs im) l)).

(** ** BMP *)

(** The word-aligned length of a line, DImageIO_BMP.cpp:192 and 262. *)
Definition bmp_scanline (w : Z) : Z := if w mod 4 =? 0 then w else (w - w mod 4) + 4.

(** [BMPImageFileHandler<UINT8>::write], 243-315.  [junk]: the header fields and the padding that are not initialised. *)
Definition bmp_write (junk : Z -> Z) (image : img) : list Z :=
  let w := width image in
  let h := height image in
  let off := 14 + 40 + 256 * 4 in
  let pad := if w mod 4 =? 0 then 0 else 4 - w mod 4 in
  le_bytes 2 19778 ++ le_bytes 4 (to_uint (off + bmp_scanline w * h)) ++ le_bytes 2 0 ++ le_bytes 2 0 ++ le_bytes 4 off ++
  le_bytes 4 40 ++ le_bytes 4 (to_uint w) ++ le_bytes 4 (to_uint h) ++ le_bytes 2 1 ++ le_bytes 2 8 ++ le_bytes 4 0 ++ le_bytes 4 0 ++
  map junk (zseq 8) ++ le_bytes 4 256 ++ le_bytes 4 256 ++
  flat_map (fun i => [i; i; i; 0]) (zseq 256) ++
  flat_map (fun i => firstn (Z.to_nat w) (skipn (Z.to_nat (i * w)) (pixs image)) ++ map (fun k => junk (8 + k)) (zseq pad)) (rev (zseq h)).

(** [n] bytes from [pos]; fread returns 0 when they are not all there. *)
Definition f_read (data : list Z) (pos n : Z) : option (list Z) := subarray data pos n.
Definition f_uint (data : list Z) (pos n : Z) : Z :=
  match f_read data pos n with Some l => le_value l | None => 0 end.

(** The color table, 177-183. *)
Fixpoint bmp_lut (data : list Z) (pos : Z) (n : nat) : option (list Z) :=
  match n with
  | O => Some []
  | S n' =>
      match f_read data pos 4 with
      | Some [b; g; r; _] => option_bind (bmp_lut data (pos + 4) n') (fun l => Some ((r + g + b) / 3 :: l))
      | _ => None
      end
  end.

(** The lines, from the last one, 196-202: the return code and the pixels.  [None]: the table is read outside. *)
Definition bmp_line (data lut : list Z) (w pos : Z) (px : list Z) (j : Z) : option (bool * list Z) :=
  match f_read data pos (bmp_scanline w) with
  | None => Some (false, px)
  | Some buf =>
      option_bind (fold_opt (fun px i => option_bind (rd buf i) (fun b => option_bind (rd lut b) (fun v => wr px (j * w + i) v))) (zseq w) px) (fun px =>
      Some (true, px))
  end.
Fixpoint bmp_lines (data lut : list Z) (w pos : Z) (px : list Z) (js : list Z) : option (Z * list Z) :=
  match js with
  | [] => Some (1, px)
  | j :: js =>
      option_bind (bmp_line data lut w pos px j) (fun '(ok, px) =>
      if (ok : bool) then bmp_lines data lut w (pos + bmp_scanline w) px js else Some (-97, px))
  end.

(** [readBMPHeader], 98-115, and [BMPImageFileHandler<UINT8>::read], 155-208. *)
Definition bmp_read (mem : Z -> Z) (data : list Z) (image : img) : option (Z * img) :=
  match f_read data 0 14, f_read data 14 40 with
  | Some _, Some _ =>
      if negb (f_uint data 0 2 =? 19778) || negb (f_uint data 30 4 =? 0) then Some (-100, image) else
      if negb (f_uint data 28 2 =? 8) then Some (-97, image) else
      let nColors := f_uint data 46 4 in
      match bmp_lut data 54 (Z.to_nat nColors) with
      | None => Some (-100, image)
      | Some lut =>
          let w := to_int (f_uint data 18 4) in
          let h := to_int (f_uint data 22 4) in
          match set_size mem image w h 1 with
          | None => Some (-99, image)
          | Some im =>
              option_bind (bmp_lines data lut w (f_uint data 10 4) (pixs im) (rev (zseq h))) (fun '(res, px) => Some (res, Img (sz im) px))
          end
      end
  | _, _ => Some (-100, image)
  end.

(** Colour images: three planes of the same size, MultichannelArray. *)
Record rgb := Rgb3 { rg_sz : dims; rg_r : list Z; rg_g : list Z; rg_b : list Z }.

(** [BMPImageFileHandler<RGB>::write], 318-378: the lines are not padded. *)
Definition bmp_write_rgb (junk : Z -> Z) (image : rgb) : list Z :=
  let w := dw (rg_sz image) in
  let h := dh (rg_sz image) in
  le_bytes 2 19778 ++ le_bytes 4 (to_uint (to_uint (w * h * 3) + 54)) ++ le_bytes 2 0 ++ le_bytes 2 0 ++ le_bytes 4 54 ++
  le_bytes 4 40 ++ le_bytes 4 (to_uint w) ++ le_bytes 4 (to_uint h) ++ le_bytes 2 1 ++ le_bytes 2 24 ++ le_bytes 4 0 ++ map junk (zseq 20) ++
  flat_map (fun j => flat_map (fun i => [znth 0 (rg_b image) (j * w + i); znth 0 (rg_g image) (j * w + i); znth 0 (rg_r image) (j * w + i)]) (zseq w)) (rev (zseq h)).

(** [BMPImageFileHandler<RGB>::read], 211-240. *)
Definition bmp_rgb_line (data : list Z) (w pos : Z) (pl : list Z * list Z * list Z) (j : Z) : option (bool * (list Z * list Z * list Z)) :=
  match f_read data pos (w * 3) with
  | None => Some (false, pl)
  | Some buf =>
      option_bind (fold_opt (fun '(r, g, b) i =>
        option_bind (rd buf (3 * i + 2)) (fun vr => option_bind (rd buf (3 * i + 1)) (fun vg => option_bind (rd buf (3 * i)) (fun vb =>
        option_bind (wr r (j * w + i) vr) (fun r => option_bind (wr g (j * w + i) vg) (fun g => option_bind (wr b (j * w + i) vb) (fun b =>
        Some (r, g, b)))))))) (zseq w) pl) (fun pl =>
      Some (true, pl))
  end.
Fixpoint bmp_rgb_lines (data : list Z) (w pos : Z) (pl : list Z * list Z * list Z) (js : list Z) : option (Z * (list Z * list Z * list Z)) :=
  match js with
  | [] => Some (1, pl)
  | j :: js =>
      option_bind (bmp_rgb_line data w pos pl j) (fun '(ok, pl) =>
      if (ok : bool) then bmp_rgb_lines data w (pos + w * 3) pl js else Some (-97, pl))
  end.
Definition bmp_read_rgb (mem : Z -> Z) (data : list Z) (image : rgb) : option (Z * rgb) :=
  match f_read data 0 14, f_read data 14 40 with
  | Some _, Some _ =>
      if negb (f_uint data 0 2 =? 19778) || negb (f_uint data 30 4 =? 0) then Some (-100, image) else
      if negb (f_uint data 28 2 =? 24) then Some (-97, image) else
      let w := to_int (f_uint data 18 4) in
      let h := to_int (f_uint data 22 4) in
      let im := Img (Dims w h 1) (map mem (zseq (w * h))) in
      if (w <? 0) || (h <? 0) then Some (-99, image) else
          option_bind (bmp_rgb_lines data w (f_uint data 10 4) (pixs im, pixs im, pixs im) (rev (zseq h))) (fun '(res, (r, g, b)) => Some (res, Rgb3 (sz im) r g b))
  | _, _ => Some (-100, image)
  end.

(** ** VTK *)

(** The text written before the pixels, DImageIO_VTK.hpp:219-238. *)
Definition vtk_type (t : ity) : list Z := match t with UINT8 => str "unsigned_char" | UINT16 => str "unsigned_short" | _ => [] end.
Definition vtk_header (t : ity) (w h d : Z) : list Z :=
  str "# vtk DataFile Version 3.0" ++ [10] ++ str "vtk output" ++ [10] ++ str "BINARY" ++ [10] ++ str "DATASET STRUCTURED_POINTS" ++ [10] ++
  str "DIMENSIONS " ++ dec w ++ str " " ++ dec h ++ str " " ++ dec d ++ [10] ++ str "SPACING 1.0 1.0 1.0" ++ [10] ++ str "ORIGIN 0 0 0" ++ [10] ++
  str "POINT_DATA " ++ dec (w * h * d) ++ [10] ++ str "SCALARS scalars " ++ vtk_type t ++ [10] ++ str "LOOKUP_TABLE default" ++ [10].

(** [VTKImageFileHandler<T>::write], 204-267, as constructed (binary, big-endian): slices upwards, lines downwards. *)
Definition vtk_write (t : ity) (image : img) : list Z :=
  let w := width image in
  let h := height image in
  vtk_header t w h (depth image) ++
  flat_map (fun z => flat_map (fun y => flat_map (fun v => rev (encode t v)) (firstn (Z.to_nat w) (skipn (Z.to_nat ((z * h + y) * w)) (pixs image)))) (rev (zseq h)))
    (zseq (depth image)).

Definition c_toupper (c : Z) : Z := if (97 <=? c) && (c <=? 122) then c - 32 else c.
Definition c_isalnum (c : Z) : bool := is_digit c || ((65 <=? c) && (c <=? 90)) || ((97 <=? c) && (c <=? 122)).

(** [splitStr], DImageIO_VTK.cpp:36-47: no element for the empty text, none after a final space. *)
Fixpoint split_str (l cur : list Z) (some : bool) : list (list Z) :=
  match l with
  | [] => if some then [cur] else []
  | c :: l => if c =? 32 then cur :: split_str l [] false else split_str l (cur ++ [c]) true
  end.

Record vtkh := Vtkh { vk_w : Z; vk_h : Z; vk_d : Z; vk_type : option ity; vk_bin : bool; vk_start : Z }.
Definition bytes_eqb (a b : list Z) : bool := if list_eq_dec Z.eq_dec a b then true else false.

(** One line of the header, 63-113: true when the header goes on.  [None]: a word that is not there is used. *)
Definition vtk_line (hd : vtkh) (st : istream) (buf : list Z) : option (Z * vtkh * istream * bool) :=
  let elems := split_str (map c_toupper buf) [] false in
  option_bind (rd elems 0) (fun wrd =>
  let fc := znth 0 wrd 0 in
  if is_digit fc || (fc =? 45) || (negb (c_isalnum fc) && negb (fc =? 35)) then Some (1, hd, st, false) else
  let '(start, st) := is_tellg st in
  let hd := Vtkh (vk_w hd) (vk_h hd) (vk_d hd) (vk_type hd) (vk_bin hd) start in
  if bytes_eqb wrd (str "DATASET") then
    option_bind (rd elems 1) (fun e => if bytes_eqb e (str "STRUCTURED_POINTS") then Some (1, hd, st, true) else Some (-100, hd, st, false))
  else if bytes_eqb wrd (str "ASCII") then Some (1, Vtkh (vk_w hd) (vk_h hd) (vk_d hd) (vk_type hd) false start, st, true)
  else if bytes_eqb wrd (str "BINARY") then Some (1, Vtkh (vk_w hd) (vk_h hd) (vk_d hd) (vk_type hd) true start, st, true)
  else if bytes_eqb wrd (str "DIMENSIONS") then
    option_bind (rd elems 1) (fun a => option_bind (rd elems 2) (fun b => option_bind (rd elems 3) (fun c =>
    option_bind (c_atoi a) (fun w => option_bind (c_atoi b) (fun h => option_bind (c_atoi c) (fun d =>
    Some (1, Vtkh (to_uint w) (to_uint h) (to_uint d) (vk_type hd) (vk_bin hd) start, st, true)))))))
  else if bytes_eqb wrd (str "POINT_DATA") then
    option_bind (rd elems 1) (fun a => option_bind (c_atoi a) (fun _ => Some (1, hd, st, true)))
  else if bytes_eqb wrd (str "SCALARS") then
    option_bind (rd elems 2) (fun e =>
    let ty := if bytes_eqb e (str "UNSIGNED_CHAR") then Some UINT8 else if bytes_eqb e (str "UNSIGNED_SHORT") then Some UINT16
              else if bytes_eqb e (str "SHORT") then Some INT16 else None in
    Some (1, Vtkh (vk_w hd) (vk_h hd) (vk_d hd) ty (vk_bin hd) start, st, true))
  else if bytes_eqb wrd (str "COLOR_SCALARS") then
    option_bind (rd elems 2) (fun a => option_bind (c_atoi a) (fun _ => Some (1, hd, st, true)))
  else Some (1, hd, st, true)).

(** [readVTKHeader], 49-117. *)
Fixpoint readVTKHeader (fuel : nat) (hd : vtkh) (st : istream) (buf : list Z) : option (option (Z * vtkh * istream)) :=
  match fuel with
  | O => Some None
  | S fuel' =>
      let '(st, buf) := is_getline st buf in
      if is_fail st then Some (Some (1, hd, st)) else
      option_bind (vtk_line hd st buf) (fun '(res, hd, st, more) =>
      if (more : bool) then readVTKHeader fuel' hd st buf else Some (Some (res, hd, st)))
  end.

(** One value of a line, 183-199.  A byte that the stream does not give is what the memory held; for larger values, it is the
    previous value or the contents of a variable that is not initialised: None. *)
Definition vtk_value (t : ity) (st : istream) (old : Z) : option (Z * istream) :=
  let '(l, st) := is_read st (Z.of_nat (tbytes t)) in
  if (length l =? tbytes t)%nat then Some (decode t (rev l), st) else if (tbytes t =? 1)%nat then Some (old, st) else None.

(** [VTKImageFileHandler<T>::read], 120-203, of a binary file; None for an ASCII file stands for what is not modelled. *)
Definition vtk_read (fuel : nat) (t : ity) (mem : Z -> Z) (data : list Z) (image : img) : option (option (Z * img)) :=
  fuel_bind (readVTKHeader fuel (Vtkh 0 0 0 (Some UINT8) false 0) (is_open data) []) (fun '(res, hd, st) =>
  if negb (res =? 1) then Some (Some (-100, image)) else
  let ty := match vk_type hd with None => UINT8 | Some ty => ty end in
  let bad := match t with UINT8 => match ty with UINT8 => false | _ => true end | UINT16 => match ty with UINT16 => false | _ => true end
                        | INT16 => match ty with INT16 => false | _ => true end | _ => false end in
  if bad then Some (Some (-97, image)) else
  let w := to_int (vk_w hd) in
  let h := to_int (vk_h hd) in
  let d := to_int (vk_d hd) in
  match set_size mem image w h d with
  | None => None
  | Some im =>
      let st := is_seekg st (vk_start hd) in
      if negb (vk_bin hd) then None else
      option_bind (fold_opt (fun s z => fold_opt (fun s y => fold_opt (fun '(st, px) x =>
          let o := (z * h + y) * w + x in
          option_bind (rd px o) (fun old =>
          option_bind (vtk_value t st old) (fun '(v, st) =>
          option_bind (wr px o v) (fun px => Some (st, px))))) (zseq w) s) (rev (zseq h)) s) (zseq d) (st, pixs im)) (fun '(_, px) =>
      Some (Some (1, Img (sz im) px)))
  end).

(** ** Stacks of files.  A file system gives the contents of the files by name. *)
Definition fsys := list Z -> option (list Z).
Definition fs_put (fs : fsys) (name data : list Z) : fsys := fun n => if bytes_eqb n name then Some data else fs n.

(** [write] of a stack, DImageIO.hxx:199-216; [wf name im] is the contents of the file that [write] makes of an image, with
    the return code RES_OK. *)
Fixpoint stack_files (wf : list Z -> img -> list Z) (sched : sched3) (image : img) (z : Z) (names : list (list Z)) (tmp : img) (fs : fsys) : option (Z * fsys) :=
  match names with
  | [] => Some (1, fs)
  | name :: names =>
      option_bind (copy_range (fun v => v) sched image 0 0 z (width image) (height image) (depth image) tmp 0 0 0) (fun '(res, tmp) =>
      if negb (res =? 1) then Some (-100, fs) else stack_files wf sched image (z + 1) names tmp (fs_put fs name (wf name tmp)))
  end.
Definition stack_write (wf : list Z -> img -> list Z) (mem : Z -> Z) (sched : sched3) (fs : fsys) (image : img) (names : list (list Z)) : option (Z * fsys) :=
  if negb (to_uint (Z.of_nat (length names)) =? depth image) then Some (-100, fs) else
  let w := width image in
  let h := height image in
  stack_files wf sched image 0 names (Img (Dims w h 1) (map mem (zseq (w * h)))) fs.

(** [read] of a stack, 141-172; [rf data im] reads the contents of a file into an image; -97: no such file. *)
Definition read_name (rf : list Z -> img -> option (option (Z * img))) (fs : fsys) (name : list Z) (im : img) : option (option (Z * img)) :=
  match fs name with None => Some (Some (-97, im)) | Some data => rf data im end.
Fixpoint stack_rest (rf : list Z -> img -> option (option (Z * img))) (sched : sched3) (fs : fsys) (z : Z) (names : list (list Z)) (tmp image : img) : option (option (Z * img)) :=
  match names with
  | [] => Some (Some (1, image))
  | name :: names =>
      fuel_bind (read_name rf fs name tmp) (fun '(res, tmp) =>
      if negb (res =? 1) then Some (Some (-100, image)) else
      option_bind (copy_range (fun v => v) sched tmp 0 0 0 (width tmp) (height tmp) (depth tmp) image 0 0 z) (fun '(res, image) =>
      if negb (res =? 1) then Some (Some (-100, image)) else stack_rest rf sched fs (z + 1) names tmp image))
  end.
Definition stack_read (rf : list Z -> img -> option (option (Z * img))) (mem : Z -> Z) (sched : sched3) (fs : fsys) (names : list (list Z)) (image : img) : option (option (Z * img)) :=
  match names with
  | [] => Some (Some (-100, image))
  | name :: names =>
      fuel_bind (read_name rf fs name (Img (Dims 0 0 0) [])) (fun '(res, tmp) =>
      if negb (res =? 1) then Some (Some (-100, image)) else
      let image := setSize mem image (Dims (width tmp) (height tmp) (Z.of_nat (length names) + 1)) in
      let image := Img (sz image) (map (fun _ => 0) (pixs image)) in
      option_bind (copy_range (fun v => v) sched tmp 0 0 0 (width tmp) (height tmp) (depth tmp) image 0 0 0) (fun '(res, image) =>
      if negb (res =? 1) then Some (Some (-100, image)) else stack_rest rf sched fs 1 names tmp image))
  end.
