(** List utilities shared by the models (no counterpart in /repo: they stand for C++ arrays,
    [std::vector] indexing and counted loops). *)
From Verif Require Export Model.Ints.
From Coq Require Export Permutation.

(** The loop counter values 0 .. n-1. *)
Definition zseq (n : Z) : list Z := map Z.of_nat (seq 0 (Z.to_nat n)).

(** Array read with bound check: [None] is an out-of-bounds access. *)
Definition rd {A} (l : list A) (i : Z) : option A :=
  if 0 <=? i then nth_error l (Z.to_nat i) else None.

(** Array read with a default, used only where the index has been checked. *)
Definition znth {A} (d : A) (l : list A) (i : Z) : A :=
  match rd l i with Some v => v | None => d end.

Fixpoint upd_nat {A} (l : list A) (n : nat) (v : A) : list A :=
  match l, n with
  | [], _ => []
  | _ :: r, O => v :: r
  | x :: r, S n' => x :: upd_nat r n' v
  end.

(** Array write with bound check: [None] is an out-of-bounds access. *)
Definition wr {A} (l : list A) (i : Z) (v : A) : option (list A) :=
  if (0 <=? i) && (i <? Z.of_nat (length l)) then Some (upd_nat l (Z.to_nat i) v) else None.

(** Array write that ignores out-of-range indices, used only where the index has been checked. *)
Definition upd {A} (l : list A) (i : Z) (v : A) : list A :=
  match wr l i v with Some l' => l' | None => l end.

Fixpoint map2 {A B C} (f : A -> B -> C) (l1 : list A) (l2 : list B) : list C :=
  match l1, l2 with
  | x :: r1, y :: r2 => f x y :: map2 f r1 r2
  | _, _ => []
  end.

Definition option_bind {A B} (o : option A) (f : A -> option B) : option B :=
  match o with Some a => f a | None => None end.

(** Sequencing of steps that may fail. *)
Fixpoint fold_opt {A B} (f : B -> A -> option B) (l : list A) (b : B) : option B :=
  match l with
  | [] => Some b
  | a :: r => match f b a with Some b' => fold_opt f r b' | None => None end
  end.

(** [all_some]: a list of reads, failing when one of them fails. *)
Fixpoint all_some {A} (l : list (option A)) : option (list A) :=
  match l with
  | [] => Some []
  | Some a :: r => match all_some r with Some r' => Some (a :: r') | None => None end
  | None :: _ => None
  end.
