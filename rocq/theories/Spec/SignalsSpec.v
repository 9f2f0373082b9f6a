(** Specification of signals and slots: a list of connections in the order in which they were made. *)
From Verif Require Export Model.Signals.

Record net := Net { alive_sig : Z -> option bool; alive_slot : Z -> bool; links : list (Z * Z) }.
Definition net_start : net := Net (fun _ => None) (fun _ => false) [].

Definition drop (P : Z * Z -> bool) (l : list (Z * Z)) : list (Z * Z) := filter (fun c => negb (P c)) l.
Definition slots_of (g : Z) (l : list (Z * Z)) : list Z := map snd (filter (fun c => fst c =? g) l).
Definition signals_of (k : Z) (l : list (Z * Z)) : list Z := map fst (filter (fun c => snd c =? k) l).
Definition pair_eqb (a b : Z * Z) : bool := (fst a =? fst b) && (snd a =? snd b).

(** The program only uses objects that live, and a new object is put where none lives. *)
Definition legal_op (n : net) (op : sig_op) : Prop :=
  match op with
  | NewSignal g => alive_sig n g = None
  | NewSlot k => alive_slot n k = false
  | Connect g k | Disconnect g k => alive_sig n g <> None /\ alive_slot n k = true
  | DisconnectAll g | DeleteSignal g | Enable g _ | Trigger g => alive_sig n g <> None
  | DeleteSlot k => alive_slot n k = true
  end.
Definition net_step (n : net) (op : sig_op) : net :=
  match op with
  | NewSignal g => Net (fun i => if i =? g then Some true else alive_sig n i) (alive_slot n) (links n)
  | NewSlot k => Net (alive_sig n) (fun i => if i =? k then true else alive_slot n i) (links n)
  | Connect g k => Net (alive_sig n) (alive_slot n) (if existsb (pair_eqb (g, k)) (links n) then links n else links n ++ [(g, k)])
  | Disconnect g k => Net (alive_sig n) (alive_slot n) (drop (pair_eqb (g, k)) (links n))
  | DisconnectAll g => Net (alive_sig n) (alive_slot n) (drop (fun c => fst c =? g) (links n))
  | DeleteSignal g => Net (fun i => if i =? g then None else alive_sig n i) (alive_slot n) (drop (fun c => fst c =? g) (links n))
  | DeleteSlot k => Net (alive_sig n) (fun i => if i =? k then false else alive_slot n i) (drop (fun c => snd c =? k) (links n))
  | Enable g b => Net (fun i => if i =? g then Some b else alive_sig n i) (alive_slot n) (links n)
  | Trigger g => n
  end.
(** The slots that a call runs. *)
Definition net_runs (n : net) (op : sig_op) : list Z :=
  match op with Trigger g => match alive_sig n g with Some true => slots_of g (links n) | _ => [] end | _ => [] end.
Fixpoint net_trace (n : net) (ops : list sig_op) : net * list (list Z) :=
  match ops with
  | [] => (n, [])
  | op :: r => let q := net_trace (net_step n op) r in (fst q, net_runs n op :: snd q)
  end.
Fixpoint legal_ops (n : net) (ops : list sig_op) : Prop :=
  match ops with [] => True | op :: r => legal_op n op /\ legal_ops (net_step n op) r end.

(** The lists of the objects are those of the connections. *)
Definition agrees (st : sigstate) (n : net) : Prop :=
  (forall g, sig_at st g = match alive_sig n g with Some b => Some (b, slots_of g (links n)) | None => None end) /\
  (forall k, slot_at st k = if alive_slot n k then Some (signals_of k (links n)) else None) /\
  NoDup (links n) /\ forall g k, In (g, k) (links n) -> alive_sig n g <> None /\ alive_slot n k = true.
