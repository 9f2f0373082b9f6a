(** [std::map] with integer keys: an association list kept in increasing key order, which is the
    iteration order of [std::map].  No counterpart in /repo (C++ standard library). *)
From Verif Require Export Model.Prelude.

Definition zmap (A : Type) : Type := list (Z * A).

(** [m.find(k)] *)
Fixpoint mfind {A} (k : Z) (m : zmap A) : option A :=
  match m with
  | [] => None
  | (k', v) :: r => if k =? k' then Some v else mfind k r
  end.

(** [m[k] = v] *)
Fixpoint mput {A} (k : Z) (v : A) (m : zmap A) : zmap A :=
  match m with
  | [] => [(k, v)]
  | (k', v') :: r =>
      if k <? k' then (k, v) :: m
      else if k =? k' then (k, v) :: r
      else (k', v') :: mput k v r
  end.

(** [m.insert(pair(k, v))]: does nothing when the key is present. *)
Definition minsert {A} (k : Z) (v : A) (m : zmap A) : zmap A :=
  match mfind k m with Some _ => m | None => mput k v m end.

(** [m.erase(k)] *)
Fixpoint mdel {A} (k : Z) (m : zmap A) : zmap A :=
  match m with
  | [] => []
  | (k', v') :: r => if k =? k' then r else (k', v') :: mdel k r
  end.

Definition mkeys {A} (m : zmap A) : list Z := map fst m.

(** The value at a key, with the default that [operator[]] inserts. *)
Definition mget {A} (d : A) (k : Z) (m : zmap A) : A :=
  match mfind k m with Some v => v | None => d end.
