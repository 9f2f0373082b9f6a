(** The queues of Morpho/include/private/DMorphoHierarQ.hpp. *)
From Verif Require Export Model.Prelude.

(** ** [FIFO_Queue], DMorphoHierarQ.hpp:52-118.  A cell of [data] is [None] until it is written. *)
Record fifo := FQ { fq_size : Z; fq_real : Z; fq_first : Z; fq_last : Z; fq_data : list (option Z) }.

(** [initialize(newSize)], 74-82. *)
Definition fq_init (newSize : Z) : fifo :=
  let real := Z.max (to_size (newSize + 1)) 8 in FQ 0 real 0 0 (map (fun _ => None) (zseq real)).

(** [swap], 87-92: memmove of [last - first] cells to the front; [None]: outside the array. *)
Definition fq_swap (q : fifo) : option fifo :=
  let n := fq_last q - fq_first q in
  if (0 <=? n) && (0 <=? fq_first q) && (fq_first q + n <=? Z.of_nat (length (fq_data q))) then
    Some (FQ (fq_size q) (fq_real q) 0 (fq_size q)
             (firstn (Z.to_nat n) (skipn (Z.to_nat (fq_first q)) (fq_data q)) ++ skipn (Z.to_nat n) (fq_data q)))
  else None.

(** [push], 93-99. *)
Definition fq_push (q : fifo) (v : Z) : option fifo :=
  option_bind (if fq_last q =? fq_real q then fq_swap q else Some q) (fun q =>
  option_bind (wr (fq_data q) (fq_last q) (Some v)) (fun d =>
  Some (FQ (to_size (fq_size q + 1)) (fq_real q) (fq_first q) (to_size (fq_last q + 1)) d))).

(** [front], 100-103; [None]: outside the array, or a cell never written. *)
Definition fq_front (q : fifo) : option Z :=
  match rd (fq_data q) (fq_first q) with Some (Some v) => Some v | _ => None end.

(** [pop], 104-108. *)
Definition fq_pop (q : fifo) : fifo :=
  FQ (to_size (fq_size q - 1)) (fq_real q) (to_size (fq_first q + 1)) (fq_last q) (fq_data q).

(** ** [HierarchicalQueue<T, size_t, STD_Queue>], DMorphoHierarQ.hpp:142-303.  A stack is the list of its tokens,
    front first. *)
Record hqueue := HQ { hq_stacks : list (list Z); hq_nbr : list Z; hq_size : Z; hq_level : Z }.

(** [initialize], 185-225 ([StackType::preallocate] is false). *)
Definition hq_init (t : ity) (rev : bool) : hqueue :=
  HQ (map (fun _ => []) (zseq (tcard t))) (map (fun _ => 0) (zseq (tcard t))) 0
     (if rev then 0 else to_size (tmax t)).

(** [isEmpty], 232-235; [getSize], 227-230; [getHigherLevel], 237-240. *)
Definition hq_isEmpty (q : hqueue) : bool := hq_size q =? 0.
Definition hq_getSize (q : hqueue) : Z := hq_size q.
Definition hq_getHigherLevel (t : ity) (q : hqueue) : Z := to_size (to_size (tmin t) + hq_level q).

(** [push], 242-255: [size_t(value) - GRAY_LEVEL_MIN]. *)
Definition hq_push (t : ity) (rev : bool) (q : hqueue) (value tok : Z) : option hqueue :=
  let level := to_size (to_size value - to_size (tmin t)) in
  let higher := if rev then if level >? hq_level q then level else hq_level q
                else if level <? hq_level q then level else hq_level q in
  option_bind (rd (hq_stacks q) level) (fun s =>
  option_bind (wr (hq_stacks q) level (s ++ [tok])) (fun stacks =>
  option_bind (rd (hq_nbr q) level) (fun n =>
  option_bind (wr (hq_nbr q) level (to_size (n + 1))) (fun nbr =>
  Some (HQ stacks nbr (to_size (hq_size q + 1)) higher))))).

(** The loop of [findNewReferenceLevel] in reverse order, 262-267, from [i] downwards; [n] is [i] + 1: below 0 the
    unsigned counter wraps around and [tokenNbr[i]] is outside the array. *)
Fixpoint scan_down (t : ity) (nbr : list Z) (n : nat) (i : Z) (higher : Z) : option Z :=
  match n with
  | O => None
  | S n' =>
      if i =? to_size (tmax t) then Some higher
      else option_bind (rd nbr i) (fun k => if k >? 0 then Some i else scan_down t nbr n' (i - 1) higher)
  end.

(** In direct order, 269-274. *)
Fixpoint scan_up (nbr : list Z) (n : nat) (i : Z) (higher : Z) : option Z :=
  match n with
  | O => Some higher
  | S n' => option_bind (rd nbr i) (fun k => if k >? 0 then Some i else scan_up nbr n' (i + 1) higher)
  end.

(** [findNewReferenceLevel], 257-276. *)
Definition findNewReferenceLevel (t : ity) (rev : bool) (nbr : list Z) (higher : Z) : option Z :=
  if rev then scan_down t nbr (Z.to_nat higher) (higher - 1) higher
  else let i := to_size (higher + 1) in scan_up nbr (Z.to_nat (tcard t - i)) i higher.

(** [pop], 278-301.  [None]: outside an array, or [front] of an empty stack. *)
Definition hq_pop (t : ity) (rev : bool) (q : hqueue) : option (Z * hqueue) :=
  option_bind (rd (hq_nbr q) (hq_level q)) (fun hlSize =>
  option_bind (rd (hq_stacks q) (hq_level q)) (fun s =>
  match s with
  | [] => None
  | tok :: s' =>
      let stacks := upd (hq_stacks q) (hq_level q) s' in
      let size := to_size (hq_size q - 1) in
      if hlSize >? 1 then Some (tok, HQ stacks (upd (hq_nbr q) (hq_level q) (hlSize - 1)) size (hq_level q))
      else
        let nbr := upd (hq_nbr q) (hq_level q) 0 in
        if size >? 0
        then option_bind (findNewReferenceLevel t rev nbr (hq_level q)) (fun l => Some (tok, HQ stacks nbr size l))
        else Some (tok, HQ stacks nbr size (if rev then 0 else 2 ^ 64 - 1))
  end)).
