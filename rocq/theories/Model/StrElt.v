(** Structuring elements: Morpho/include/DStructuringElement.h and Morpho/src/DStructuringElement.cpp.

    Coordinates are mathematical integers ([int] overflow of point coordinates is not modelled).
    The name and class name strings are not modelled. *)
From Verif Require Export Model.Prelude Model.Ints.

(** [enum seType], DStructuringElement.h:47-59. *)
Inductive seType := SE_Generic | SE_Hex | SE_Hex0 | SE_Squ | SE_Squ0 | SE_Cross | SE_Horiz | SE_Vert
  | SE_Cube | SE_Cross3D | SE_Rhombicuboctahedron.

Definition point := (Z * Z * Z)%type.
Definition px_ (p : point) : Z := fst (fst p).
Definition py_ (p : point) : Z := snd (fst p).
Definition pz_ (p : point) : Z := snd p.

(** The fields of StrElt, DStructuringElement.h:197 and 350-352. *)
Record strelt := SE { se_odd : bool; se_type : seType; se_size : Z; se_points : list point }.

(** [IntPoint::operator==], used by [find]. *)
Definition point_eqb (p q : point) : bool :=
  (px_ p =? px_ q) && (py_ p =? py_ q) && (pz_ p =? pz_ q).

(** [StrElt::addPoint(int,int,int)] and [addPoint(const IntPoint&)], DStructuringElement.cpp:77-88, on
    the list of points. *)
Definition add_point (pts : list point) (p : point) : list point :=
  if existsb (point_eqb p) pts then pts else pts ++ [p].

Definition addPoint (se : strelt) (p : point) : strelt :=
  SE (se_odd se) (se_type se) (se_size se) (add_point (se_points se) p).

(** [SE_SquIndices], DStructuringElement.cpp:37-48. *)
Definition SE_SquIndices : list point :=
  flat_map (fun z => [(0, 0, z); (1, 0, z); (1, -1, z); (0, -1, z); (-1, -1, z); (-1, 0, z);
                      (-1, 1, z); (0, 1, z); (1, 1, z)]) [0; -1; 1].

(** [SE_HexIndices], DStructuringElement.cpp:50-53. *)
Definition SE_HexIndices : list point :=
  [(0, 0, 0); (1, 0, 0); (0, -1, 0); (-1, -1, 0); (-1, 0, 0); (-1, 1, 0); (0, 1, 0)].

(** [StrElt::addPoint(const UINT index)], DStructuringElement.cpp:69-75; [None]: outside the table. *)
Definition addPoint_index (se : strelt) (index : Z) : option strelt :=
  option_bind (rd (if se_odd se then SE_HexIndices else SE_SquIndices) index) (fun p => Some (addPoint se p)).

(** [StrElt(bool oddSE, UINT nbrPts, ...)] and [StrElt(bool, vector<UINT>)], DStructuringElement.h:89-101
    and 125-132. *)
Definition mk_indexed (odd : bool) (indices : list Z) : option strelt :=
  fold_opt addPoint_index indices (SE odd SE_Generic 1 []).

(** The points of an element built from indices ([[]] if an index is outside the table). *)
Definition indexed_points (odd : bool) (indices : list Z) : list point :=
  match mk_indexed odd indices with Some se => se_points se | None => [] end.

(** The predefined elements, DStructuringElement.h:367-590. *)
Definition SquSE (s : Z) := SE false SE_Squ s (indexed_points false [0; 1; 2; 3; 4; 5; 6; 7; 8]).   (* 367-377 *)
Definition SquSE0 (s : Z) := SE false SE_Squ0 s (indexed_points false [1; 2; 3; 4; 5; 6; 7; 8]).    (* 387-399 *)
Definition HexSE (s : Z) := SE true SE_Hex s (indexed_points true [0; 1; 2; 3; 4; 5; 6]).           (* 408-418 *)
Definition HexSE0 (s : Z) := SE true SE_Hex0 s (indexed_points true [1; 2; 3; 4; 5; 6]).            (* 427-437 *)
Definition CrossSE (s : Z) := SE false SE_Cross s (indexed_points false [0; 1; 5; 3; 7]).           (* 447-457 *)
Definition HorizSE (s : Z) := SE false SE_Horiz s (indexed_points false [0; 1; 5]).                 (* 467-477 *)
Definition VertSE (s : Z) := SE false SE_Vert s (indexed_points false [0; 3; 7]).                   (* 487-497 *)
Definition CubeSE (s : Z) := SE false SE_Cube s (fold_left add_point                                (* 506-530 *)
  (flat_map (fun z => [(0, 0, z); (1, 0, z); (1, -1, z); (0, -1, z); (-1, -1, z); (-1, 0, z);
                       (-1, 1, z); (0, 1, z); (1, 1, z)]) [0; -1; 1]) []).
Definition Cross3DSE (s : Z) := SE false SE_Cross3D s (fold_left add_point                          (* 539-557 *)
  [(0, 0, 0); (1, 0, 0); (0, -1, 0); (-1, 0, 0); (0, 1, 0); (0, 0, -1); (0, 0, 1)] []).
Definition RhombicuboctahedronSE (s : Z) := SE false SE_Rhombicuboctahedron s (fold_left add_point  (* 565-593 *)
  ((0, 0, 0) ::
   flat_map (fun x => flat_map (fun y => map (fun z => (x, y, z)) [-1; 0; 1]) [-1; 0; 1]) [-2; -1; 0; 1; 2] ++
   flat_map (fun x => flat_map (fun y => map (fun z => (x, y, z)) [-1; 0; 1]) [-2; -1; 0; 1; 2]) [-1; 0; 1] ++
   flat_map (fun x => flat_map (fun y => map (fun z => (x, y, z)) [-2; -1; 0; 1; 2]) [-1; 0; 1]) [-1; 0; 1]) []).

(** C++ [n % 2] as a truth value: true exactly on odd numbers, also negative ones. *)
Definition oddb (n : Z) : bool := negb (Z.rem n 2 =? 0).
Definition bit (b : bool) : Z := if b then 1 else 0.

(** One round of the outer loop of [StrElt::homothety], DStructuringElement.cpp:97-107: [pts] is a copy of
    the points of [newSE], the sums are appended to [newSE.points]. *)
Definition homothety_round (odd : bool) (points cur : list point) : list point :=
  fold_left (fun acc p =>
    fold_left (fun acc p2 =>
      let oddLine := if odd then bit (oddb (pz_ p2 + 1) && oddb (py_ p2) && oddb (py_ p)) else 0 in
      add_point acc (px_ p2 + px_ p + oddLine, py_ p2 + py_ p, pz_ p2 + pz_ p)) points acc) cur cur.

Fixpoint homothety_loop (n : nat) (odd : bool) (points cur : list point) : list point :=
  match n with O => cur | S n' => homothety_loop n' odd points (homothety_round odd points cur) end.

(** [StrElt::homothety], DStructuringElement.cpp:90-111.  [s - 1] is computed on [UINT].  The new element
    has the default type and size (DStructuringElement.h:70). *)
Definition homothety (se : strelt) (s : Z) : strelt :=
  SE (se_odd se) SE_Generic 1
     (homothety_loop (Z.to_nat ((s - 1) mod 2 ^ 32)) (se_odd se) (se_points se) (se_points se)).

(** [StrElt::operator()(int s)], DStructuringElement.cpp:113-118. *)
Definition with_size (se : strelt) (s : Z) : strelt := SE (se_odd se) (se_type se) s (se_points se).

(** [StrElt::transpose], DStructuringElement.cpp:121-136. *)
Definition transpose (se : strelt) : strelt :=
  SE (se_odd se) (se_type se) (se_size se)
     (fold_left (fun acc p => add_point acc (- px_ p - bit (se_odd se && oddb (py_ p)), - py_ p, - pz_ p))
        (se_points se) []).

(** [StrElt::noCenter], DStructuringElement.cpp:139-156. *)
Definition noCenter (se : strelt) : strelt :=
  SE (se_odd se) (se_type se) (se_size se)
     (fold_left (fun acc p => if negb (px_ p =? 0) || negb (py_ p =? 0) || negb (pz_ p =? 0)
                              then add_point acc p else acc) (se_points se) []).
