(** Execution of pixelwise line functions over a shared memory, with an arbitrary interleaving of
    the loads and stores of all threads.

    Models: Base/include/private/DBaseImageOperations.hxx:91-465, the [_exec] methods of
    unaryImageFunction, binaryImageFunction and tertiaryImageFunction.

    Memory is a list of cells, one pixel per cell (the byte layout of a pixel is not modelled).
    The OpenMP loop "for every line i: lineFunction(src[i].., lineLen, dest[i])" is a set of events,
    for every line [i] and pixel [p] one [Ld i p] (read the operands, compute the value into a
    register) and one [St i p] (write it).  A schedule is any order of these events in which each
    store comes after its own load; that covers all OpenMP schedules, thread counts and SIMD
    vectorisation (restrict/ivdep).

    Not modelled: [modified()] (viewer refresh) and the case of unequal sizes
    (ASSERT_SAME_SIZE resizes or fails before these loops run). *)
From Verif Require Export Model.Geometry.

Definition heap := list Z.

(** An allocated image: base address of [pixels] and dimensions. *)
Record idesc := IDesc { ibase : Z; idims : dims }.

(** An operand: an image, or a constant line buffer filled with one value
    (DBaseImageOperations.hxx:236-240, fillLine). *)
Inductive operand := OImg (d : idesc) | OVal (v : Z).

(** Address of pixel [p] of line [i] of an image: [getLines()[i] + p]. *)
Definition paddr (d : idesc) (i p : Z) : option Z :=
  option_bind (rd (restruct_lines (idims d)) i) (fun start => Some (ibase d + start + p)).

Definition read_operand (h : heap) (o : operand) (i p : Z) : option Z :=
  match o with
  | OImg d => option_bind (paddr d i p) (rd h)
  | OVal v => Some v
  end.

Inductive event := Ld (i p : Z) | St (i p : Z).

(** Registers of the running threads: values computed and not yet stored. *)
Definition regs := list ((Z * Z) * Z).

Fixpoint get_reg (r : regs) (i p : Z) : option Z :=
  match r with
  | [] => None
  | ((i', p'), v) :: r' => if (i =? i') && (p =? p') then Some v else get_reg r' i p
  end.

(** One event.  [dest i p] is the address written for pixel [p] of line [i]. *)
Definition step_event (f : list Z -> Z) (srcs : list operand) (dest : Z -> Z -> option Z)
  (s : heap * regs) (e : event) : option (heap * regs) :=
  let '(h, r) := s in
  match e with
  | Ld i p =>
      option_bind (all_some (map (fun o => read_operand h o i p) srcs)) (fun vs =>
      Some (h, ((i, p), f vs) :: r))
  | St i p =>
      option_bind (get_reg r i p) (fun v =>
      option_bind (dest i p) (fun a =>
      option_bind (wr h a v) (fun h' => Some (h', r))))
  end.

(** Running all events of a schedule. *)
Definition run_events f srcs dest (sched : list event) (h : heap) : option heap :=
  option_map fst (fold_opt (step_event f srcs dest) sched (h, [])).

(** The pixelwise image functions writing to an output image: unary (hxx:91-118), unary with value
    (121-154), binary (158-186, 224-259, 262-297), ternary (302-465). *)
Definition exec_pixelwise (f : list Z -> Z) (srcs : list operand) (out : idesc)
  (sched : list event) (h : heap) : option heap :=
  run_events f srcs (paddr out) sched h.

(** The in-place binary form (hxx:189-220): results go to the line buffer [tmpBuf] (address [tmp]),
    which is then released. *)
Definition exec_binary_inplace (f : list Z -> Z) (imIn imInOut : idesc) (tmp : Z)
  (sched : list event) (h : heap) : option heap :=
  run_events f [OImg imIn; OImg imInOut] (fun _ p => Some (tmp + p)) sched h.

(** The pixels of an image in memory, in raster order. *)
Definition pixels_of (h : heap) (d : idesc) : list (option Z) :=
  map (fun k => rd h (ibase d + k)) (zseq (pixelCount (idims d))).
