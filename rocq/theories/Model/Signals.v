(** Signals and slots: Core/include/DSignal.h, Core/include/DSlot.h, Core/src/DSlot.cpp.

    Objects are known by their addresses; [None]: no object lives at that address, and any access to it is undefined behaviour.
    A slot that runs does not itself connect, disconnect or destroy anything. *)
From Verif Require Export Model.Prelude.

(** The members [enabled] and [_slots] of the signals, [_signals] of the slots. *)
Record sigstate := SigState { sig_at : Z -> option (bool * list Z); slot_at : Z -> option (list Z) }.

Definition set_at {A} (f : Z -> option A) (k : Z) (v : option A) : Z -> option A := fun i => if i =? k then v else f i.

(** std::find, then erase. *)
Definition found (k : Z) (l : list Z) : bool := existsb (Z.eqb k) l.
Fixpoint erase_first (k : Z) (l : list Z) : list Z :=
  match l with [] => [] | a :: r => if a =? k then r else a :: erase_first k r end.

(** [BaseSlot::registerSignal], DSlot.cpp:37-41. *)
Definition registerSignal (k g : Z) (st : sigstate) : option sigstate :=
  option_bind (slot_at st k) (fun l =>
  Some (if found g l then st else SigState (sig_at st) (set_at (slot_at st) k (Some (l ++ [g]))))).

(** [Signal::connect], DSignal.h:67-77, with _register. *)
Definition connect (g k : Z) (reg : bool) (st : sigstate) : option sigstate :=
  option_bind (sig_at st g) (fun s =>
  if found k (snd s) then Some st
  else
    let st := SigState (set_at (sig_at st) g (Some (fst s, snd s ++ [k]))) (slot_at st) in
    if reg then registerSignal k g st else Some st).

(** [Signal::disconnect] with _unregister false, DSignal.h:79-90. *)
Definition disconnect_only (g k : Z) (st : sigstate) : option sigstate :=
  option_bind (sig_at st g) (fun s =>
  Some (if found k (snd s) then SigState (set_at (sig_at st) g (Some (fst s, erase_first k (snd s)))) (slot_at st) else st)).

(** [BaseSlot::unregisterSignal], DSlot.cpp:43-54. *)
Definition unregisterSignal (k g : Z) (disc : bool) (st : sigstate) : option sigstate :=
  option_bind (slot_at st k) (fun l =>
  if found g l then
    option_bind (if disc then disconnect_only g k st else Some st) (fun st =>
    Some (SigState (sig_at st) (set_at (slot_at st) k (Some (erase_first g l)))))
  else Some st).

(** [Signal::disconnect] with _unregister true. *)
Definition disconnect (g k : Z) (st : sigstate) : option sigstate :=
  option_bind (sig_at st g) (fun s =>
  if found k (snd s) then option_bind (disconnect_only g k st) (unregisterSignal k g false) else Some st).

(** [Signal::disconnectAll], DSignal.h:92-101: the list of the signal is left as it is. *)
Definition disconnectAll (g : Z) (st : sigstate) : option sigstate :=
  option_bind (sig_at st g) (fun s => fold_opt (fun st k => unregisterSignal k g false st) (snd s) st).

(** [BaseSlot::unregisterAll], DSlot.cpp:56-66. *)
Definition unregisterAll (k : Z) (st : sigstate) : option sigstate :=
  option_bind (slot_at st k) (fun l =>
  option_bind (fold_opt (fun st g => disconnect_only g k st) l st) (fun st =>
  Some (SigState (sig_at st) (set_at (slot_at st) k (Some []))))).

(** [Signal::trigger], DSignal.h:103-119: the slots that run, in order. *)
Definition trigger (g : Z) (st : sigstate) : option (list Z) :=
  option_bind (sig_at st g) (fun s =>
  if fst s then fold_opt (fun run k => option_bind (slot_at st k) (fun _ => Some (run ++ [k]))) (snd s) [] else Some []).

(** Constructors, destructors (DSignal.h:59-65, DSlot.h:48-52) and calls by the program. *)
Inductive sig_op :=
| NewSignal (g : Z) | NewSlot (k : Z)
| Connect (g k : Z) | Disconnect (g k : Z) | DisconnectAll (g : Z)
| DeleteSignal (g : Z) | DeleteSlot (k : Z)
| Enable (g : Z) (b : bool) | Trigger (g : Z).
Definition sig_step (st : sigstate) (op : sig_op) : option (sigstate * list Z) :=
  let quiet o := option_map (fun st => (st, [])) o in
  match op with
  | NewSignal g => Some (SigState (set_at (sig_at st) g (Some (true, []))) (slot_at st), [])
  | NewSlot k => Some (SigState (sig_at st) (set_at (slot_at st) k (Some [])), [])
  | Connect g k => quiet (connect g k true st)
  | Disconnect g k => quiet (disconnect g k st)
  | DisconnectAll g => quiet (disconnectAll g st)
  | DeleteSignal g => quiet (option_bind (disconnectAll g st) (fun st => Some (SigState (set_at (sig_at st) g None) (slot_at st))))
  | DeleteSlot k => quiet (option_bind (unregisterAll k st) (fun st => Some (SigState (sig_at st) (set_at (slot_at st) k None))))
  | Enable g b => quiet (option_bind (sig_at st g) (fun s => Some (SigState (set_at (sig_at st) g (Some (b, snd s))) (slot_at st))))
  | Trigger g => option_map (fun run => (st, run)) (trigger g st)
  end.
(** A whole program: the runs of the slots, one list per call. *)
Fixpoint sig_run (st : sigstate) (ops : list sig_op) : option (sigstate * list (list Z)) :=
  match ops with
  | [] => Some (st, [])
  | op :: r => option_bind (sig_step st op) (fun p => option_map (fun q => (fst q, snd p :: snd q)) (sig_run (fst p) r))
  end.
Definition sig_start : sigstate := SigState (fun _ => None) (fun _ => None).
