(** Attribute openings by max-tree: Morpho/include/private/DMorphoMaxTree.hpp:67-418 and 1003-1200 and
    DMorphoMaxTreeCriteria.hpp:44-166.

    [Some None]: the number of turns [fuel] is exhausted; [None]: access outside an array.  The pages of COLUMN_SIZE nodes
    are one array for each attribute, that holds the nodes made so far; the memory of a new node is zero.  Not modelled: the
    depth of the C++ stack in the recursive functions; the other criteria and the ultimate opening (ComputeDeltaUO). *)
From Verif Require Export Model.Watershed.

(** ** Criteria.  The state of a criterion is a pair: the area (and 0), or the maximum and the minimum of a coordinate. *)
Inductive ckind := CArea | CHeight | CWidth.
Definition crit := (Z * Z)%type.
Definition SIZE_MAX := 2 ^ 64 - 1.

(** [reset]: DMorphoMaxTreeCriteria.hpp:57-60, 95-98 and 88-93, 145-148 and 138-143.  [initialize]: 52-55. *)
Definition c_reset (k : ckind) : crit := match k with CArea => (0, 0) | _ => (0, SIZE_MAX) end.
Definition c_init (k : ckind) : crit := match k with CArea => (1, 0) | _ => (0, SIZE_MAX) end.
(** [merge], 62-65, 100-104, 150-154. *)
Definition c_merge (k : ckind) (a b : crit) : crit :=
  match k with CArea => (to_size (fst a + fst b), 0) | _ => (Z.max (fst a) (fst b), Z.min (snd a) (snd b)) end.
(** [update], 67-70, 106-111, 156-160. *)
Definition c_update (k : ckind) (a : crit) (xyz : Z * Z * Z) : crit :=
  let '(x, y, _) := xyz in
  match k with
  | CArea => (to_size (fst a + 1), 0)
  | CHeight => (Z.max (fst a) y, Z.min (snd a) y)
  | CWidth => (Z.max (fst a) x, Z.min (snd a) x)
  end.
(** [getAttributeValue], 29-33, with [compute], 76, 117-120, 166-169. *)
Definition c_value (k : ckind) (a : crit) : Z :=
  match k with CArea => fst a | _ => to_size (fst a - snd a + 1) end.

(** ** MaxTree2 *)
Record mtree := MT { mt_level : list Z; mt_child : list Z; mt_brother : list Z; mt_crit : list crit }.
Definition curLabel (tr : mtree) : Z := Z.of_nat (length (mt_level tr)).

(** COLUMN_NBR pages of COLUMN_SIZE nodes, 51-52; [allocatePage] of one more page writes outside [levels]. *)
Definition MAX_NODES := 20 * 2097152.

Record mtstate := MS { ms_eti : list Z; ms_lab : list Z; ms_tree : mtree; ms_q : hqueue }.

(** A new node with its level, first child and next brother. *)
Definition mt_new (k : ckind) (tr : mtree) (level child brother : Z) : option mtree :=
  if curLabel tr >=? MAX_NODES then None
  else Some (MT (mt_level tr ++ [level]) (mt_child tr ++ [child]) (mt_brother tr ++ [brother]) (mt_crit tr ++ [c_reset k])).

(** [for (i = valeur - 1; labels[i] == 0; i--)], 196; [n] is [i] + 1. *)
Fixpoint label_below (lab : list Z) (n : nat) : option Z :=
  match n with
  | O => None
  | S n' => option_bind (rd lab (Z.of_nat n')) (fun l => if l =? 0 then label_below lab n' else Some l)
  end.

(** [nextLowerLabel], 189-204. *)
Definition nextLowerLabel (k : ckind) (lab : list Z) (tr : mtree) (valeur : Z) : option (mtree * Z) :=
  let n := curLabel tr in
  option_bind (label_below lab (Z.to_nat valeur)) (fun pl =>
  option_bind (rd (mt_child tr) pl) (fun c =>
  option_bind (rd (mt_brother tr) c) (fun b =>
  option_bind (mt_new k tr valeur c b) (fun tr =>
  option_bind (wr (mt_child tr) pl n) (fun child =>
  option_bind (wr (mt_brother tr) c 0) (fun brother =>
  Some (MT (mt_level tr) child brother (mt_crit tr), n))))))).

(** [nextHigherLabel], 206-216. *)
Definition nextHigherLabel (k : ckind) (lab : list Z) (tr : mtree) (parent_valeur valeur : Z) : option (mtree * Z) :=
  let n := curLabel tr in
  option_bind (rd lab parent_valeur) (fun pl =>
  option_bind (rd (mt_child tr) pl) (fun b =>
  option_bind (mt_new k tr valeur 0 b) (fun tr =>
  option_bind (wr (mt_child tr) pl n) (fun child =>
  Some (MT (mt_level tr) child (mt_brother tr) (mt_crit tr), n))))).

(** The labels, the tree and the node of the pixel, 222-233. *)
Definition mt_node (k : ckind) (lab : list Z) (tr : mtree) (vp vn : Z) : option (list Z * mtree * Z) :=
  if vn >? vp then
    option_bind (fold_opt (fun lab j => wr lab j 0) (zrange (vp + 1) (vn - (vp + 1))) lab) (fun lab =>
    option_bind (nextHigherLabel k lab tr vp vn) (fun '(tr, n) =>
    option_bind (wr lab vn n) (fun lab => Some (lab, tr, n))))
  else
    option_bind (rd lab vn) (fun l =>
    if l =? 0 then
      option_bind (nextLowerLabel k lab tr vn) (fun '(tr, n) =>
      option_bind (wr lab vn n) (fun lab => Some (lab, tr, n)))
    else Some (lab, tr, l)).

(** [subFlood], 218-250.  True: the scan of the neighbours of [p] stops. *)
Definition subFlood (t : ity) (k : ckind) (s : dims) (px : list Z) (st : mtstate) (p nb : Z) : option (mtstate * bool) :=
  option_bind (rd px p) (fun vp =>
  option_bind (rd px nb) (fun vn =>
  option_bind (mt_node k (ms_lab st) (ms_tree st) vp vn) (fun '(lab, tr, n) =>
  option_bind (wr (ms_eti st) nb n) (fun eti =>
  option_bind (getCoordsFromOffset s nb) (fun xyz =>
  option_bind (rd (mt_crit tr) n) (fun c =>
  option_bind (wr (mt_crit tr) n (c_update k c xyz)) (fun cr =>
  let tr := MT (mt_level tr) (mt_child tr) (mt_brother tr) cr in
  option_bind (hq_push t true (ms_q st) vn nb) (fun q =>
  if vn >? vp then option_bind (hq_push t true q vp p) (fun q => Some (MS eti lab tr q, true))
  else Some (MS eti lab tr q, false))))))))).

(** The scan of the neighbours, 273-296; the list holds the points of the element other than the origin. *)
Fixpoint mt_scan (t : ity) (k : ckind) (se : strelt) (s : dims) (px : list Z) (p : Z) (xyz : Z * Z * Z) (pts : list point) (st : mtstate) : option mtstate :=
  match pts with
  | [] => Some st
  | pt :: pts =>
      match nb_offset se s p xyz pt with
      | None => mt_scan t k se s px p xyz pts st
      | Some nb =>
          option_bind (rd (ms_eti st) nb) (fun e =>
          if e =? 0 then
            option_bind (subFlood t k s px st p nb) (fun '(st, stop) =>
            if stop then Some st else mt_scan t k se s px p xyz pts st)
          else mt_scan t k se s px p xyz pts st)
      end
  end.

(** [flood], 252-299. *)
Fixpoint mt_flood (fuel : nat) (t : ity) (k : ckind) (se : strelt) (s : dims) (px : list Z) (level : Z) (st : mtstate) : option (option mtstate) :=
  if negb ((hq_getHigherLevel t (ms_q st) >=? level) && negb (hq_isEmpty (ms_q st))) then Some (Some st) else
  match fuel with
  | O => Some None
  | S fuel' =>
      option_bind (hq_pop t true (ms_q st)) (fun '(p, q) =>
      option_bind (getCoordsFromOffset s p) (fun xyz =>
      option_bind (mt_scan t k se s px p xyz (filter not_origin (se_points se)) (MS (ms_eti st) (ms_lab st) (ms_tree st) q)) (fun st' =>
      mt_flood fuel' t k se s px level st')))
  end.

(** The minimum and its first position, 142-152 (the [break] at the minimum of the type changes nothing). *)
Definition mt_minimum (t : ity) (px : list Z) : Z * Z :=
  fold_left (fun m i => if znth 0 px i <? fst m then (znth 0 px i, i) else m) (zseq (Z.of_nat (length px))) (tmax t, 0).

(** [initialize], 115-187.  Node 0 of the pages is not a node. *)
Definition mt_initialize (t : ity) (k : ckind) (px eti : list Z) : option (mtstate * Z) :=
  let '(minValue, minOff) := mt_minimum t px in
  let tr := MT [0; minValue] [0; 0] [0; 0] [c_init k; c_init k] in
  option_bind (wr eti minOff 1) (fun eti =>
  option_bind (wr (map (fun _ => 0) (zseq (tcard t))) minValue 1) (fun lab =>
  option_bind (hq_push t true (hq_init t true) minValue minOff) (fun q =>
  Some (MS eti lab tr q, minValue)))).

(** [updateCriteria], 407-418: the loop from [child] on. *)
Fixpoint mt_update (fuel : nat) (k : ckind) (tr : mtree) (node child : Z) (cr : list crit) : option (option (list crit)) :=
  if child =? 0 then Some (Some cr) else
  match fuel with
  | O => Some None
  | S fuel' =>
      option_bind (rd (mt_child tr) child) (fun c =>
      fuel_bind (mt_update fuel' k tr child c cr) (fun cr =>
      option_bind (rd cr node) (fun a =>
      option_bind (rd cr child) (fun b =>
      option_bind (wr cr node (c_merge k a b)) (fun cr =>
      option_bind (rd (mt_brother tr) child) (fun b =>
      mt_update fuel' k tr node b cr))))))
  end.

(** [build], 372-379, with [updateCriteria] called on the root. *)
Definition mt_build (fuel : nat) (t : ity) (k : ckind) (se : strelt) (s : dims) (px : list Z) : option (option (mtstate * Z)) :=
  option_bind (mt_initialize t k px (map (fun _ => 0) px)) (fun '(st, minValue) =>
  fuel_bind (mt_flood fuel t k se s px minValue st) (fun st =>
  option_bind (rd (ms_lab st) minValue) (fun root =>
  let tr := ms_tree st in
  option_bind (rd (mt_child tr) root) (fun c =>
  fuel_bind (mt_update fuel k tr root c (mt_crit tr)) (fun cr =>
  Some (Some (MS (ms_eti st) (ms_lab st) (MT (mt_level tr) (mt_child tr) (mt_brother tr) cr) (ms_q st), root))))))).

(** [processMaxTree], 1004-1022, and the loops of 1016-1020 and 1043-1047 over the brothers. *)
Fixpoint mt_process (fuel : nat) (k : ckind) (tr : mtree) (child : Z) (previousLevel stop : Z) (lut : list Z) : option (option (list Z)) :=
  if child =? 0 then Some (Some lut) else
  match fuel with
  | O => Some None
  | S fuel' =>
      option_bind (rd (mt_level tr) child) (fun nodeLevel =>
      option_bind (rd (mt_crit tr) child) (fun a =>
      let currentLevel := if c_value k a <? stop then previousLevel else nodeLevel in
      option_bind (wr lut child currentLevel) (fun lut =>
      option_bind (rd (mt_child tr) child) (fun c =>
      fuel_bind (mt_process fuel' k tr c currentLevel stop lut) (fun lut =>
      option_bind (rd (mt_brother tr) child) (fun b =>
      mt_process fuel' k tr b previousLevel stop lut))))))
  end.

(** [attributeOpen], 1054-1095, and [compute_AttributeOpening], 1025-1050. *)
Definition attributeOpen (fuel : nat) (t : ity) (k : ckind) (se : strelt) (imIn imOut : img) (stopSize : Z) : option (option (Z * img)) :=
  if negb (same_size imIn imOut) then Some (Some (-98, imOut)) else
  fuel_bind (mt_build fuel t k se (sz imIn) (pixs imIn)) (fun '(st, root) =>
  let tr := ms_tree st in
  option_bind (rd (mt_level tr) root) (fun rootLevel =>
  option_bind (wr (map (fun _ => 0) (mt_level tr)) root rootLevel) (fun lut =>
  option_bind (rd (mt_child tr) root) (fun c =>
  fuel_bind (mt_process fuel k tr c rootLevel stopSize lut) (fun lut =>
  option_bind (all_some (map (rd lut) (ms_eti st))) (fun px =>
  Some (Some (1, Img (sz imOut) px)))))))).

(** areaOpen, 1169-1172, heightOpen, 1105-1108, widthOpen, 1137-1140. *)
Definition areaOpen fuel t se imIn stopSize imOut := attributeOpen fuel t CArea se imIn imOut stopSize.
Definition heightOpen fuel t se imIn stopSize imOut := attributeOpen fuel t CHeight se imIn imOut stopSize.
Definition widthOpen fuel t se imIn stopSize imOut := attributeOpen fuel t CWidth se imIn imOut stopSize.

(** areaClose, 1185-1199, heightClose, 1111-1125, widthClose, 1143-1157. *)
Definition attributeClose fuel t k se (imIn : img) (stopSize : Z) (imOut : img) : option (option (Z * img)) :=
  if negb (same_size imIn imOut) then Some (Some (-98, imOut)) else
  fuel_bind (attributeOpen fuel t k se (pw1 (px_inv t) imIn) imOut stopSize) (fun r => Some (Some (fst r, pw1 (px_inv t) (snd r)))).
