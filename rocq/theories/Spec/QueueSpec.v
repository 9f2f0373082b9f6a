(** Reference queues. *)
From Verif Require Export Model.Queues.

Inductive qop := Push (v : Z) | Front | Pop | Size.

(** A first-in first-out queue: the list of its elements; the outputs of [Front] and [Size] are collected. [None] when
    an element is asked of an empty queue. *)
Fixpoint ref_fifo (ops : list qop) (l : list Z) : option (list Z) :=
  match ops with
  | [] => Some []
  | Push v :: ops => ref_fifo ops (l ++ [v])
  | Front :: ops => match l with [] => None | v :: _ => option_map (cons v) (ref_fifo ops l) end
  | Pop :: ops => match l with [] => None | _ :: l' => ref_fifo ops l' end
  | Size :: ops => option_map (cons (Z.of_nat (length l))) (ref_fifo ops l)
  end.

(** The largest number of elements present during the operations. *)
Fixpoint peak (ops : list qop) (n : Z) : Z :=
  match ops with
  | [] => n
  | Push _ :: ops => Z.max n (peak ops (n + 1))
  | Pop :: ops => Z.max n (peak ops (n - 1))
  | _ :: ops => Z.max n (peak ops n)
  end.

(** The operations run on the code. *)
Fixpoint run_fifo (ops : list qop) (q : fifo) : option (list Z) :=
  match ops with
  | [] => Some []
  | Push v :: ops => option_bind (fq_push q v) (run_fifo ops)
  | Front :: ops => option_bind (fq_front q) (fun v => option_map (cons v) (run_fifo ops q))
  | Pop :: ops => run_fifo ops (fq_pop q)
  | Size :: ops => option_map (cons (fq_size q)) (run_fifo ops q)
  end.

(** ** Hierarchical queue: the reference holds the (priority, token) pairs in the order of arrival. *)
Inductive hop := HPush (v tok : Z) | HPop | HSize | HEmpty.

(** [served rev l e l']: [e] has the best priority of [l] and arrived first among those; [l'] is [l] without it. *)
Definition better (rev : bool) (a b : Z) : Prop := if rev then a > b else a < b.
Definition served (rev : bool) (l : list (Z * Z)) (e : Z * Z) (l' : list (Z * Z)) : Prop :=
  exists a b, l = a ++ e :: b /\ l' = a ++ b /\
    (forall e', In e' a -> better rev (fst e) (fst e')) /\ (forall e', In e' b -> ~ better rev (fst e') (fst e)).

(** [hruns rev ops l outs]: the outputs of the operations on the reference queue. *)
Inductive hruns (rev : bool) : list hop -> list (Z * Z) -> list Z -> Prop :=
| hr_nil l : hruns rev [] l []
| hr_push v tok ops l outs : hruns rev ops (l ++ [(v, tok)]) outs -> hruns rev (HPush v tok :: ops) l outs
| hr_pop v tok l l' ops outs : served rev l (v, tok) l' -> hruns rev ops l' outs -> hruns rev (HPop :: ops) l (tok :: outs)
| hr_size ops l outs : hruns rev ops l outs -> hruns rev (HSize :: ops) l (Z.of_nat (length l) :: outs)
| hr_empty ops l outs : hruns rev ops l outs -> hruns rev (HEmpty :: ops) l ((if match l with [] => true | _ => false end then 1 else 0) :: outs).

Fixpoint run_hq (t : ity) (rev : bool) (ops : list hop) (q : hqueue) : option (list Z) :=
  match ops with
  | [] => Some []
  | HPush v tok :: ops => option_bind (hq_push t rev q v tok) (run_hq t rev ops)
  | HPop :: ops => option_bind (hq_pop t rev q) (fun r => option_map (cons (fst r)) (run_hq t rev ops (snd r)))
  | HSize :: ops => option_map (cons (hq_getSize q)) (run_hq t rev ops q)
  | HEmpty :: ops => option_map (cons (if hq_isEmpty q then 1 else 0)) (run_hq t rev ops q)
  end.

(** The operations push values of type [t] only, fewer than 2^64 of them, and never pop an empty queue. *)
Definition push_typed (t : ity) (o : hop) : Prop := match o with HPush v _ => inty t v | _ => True end.
Fixpoint pops_ok (ops : list hop) (n : Z) : Prop :=
  match ops with
  | [] => True
  | HPush _ _ :: ops => pops_ok ops (n + 1)
  | HPop :: ops => 0 < n /\ pops_ok ops (n - 1)
  | _ :: ops => pops_ok ops n
  end.
