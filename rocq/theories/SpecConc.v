(** Specification vocabulary for the concurrent runs. *)
From Verif Require Import Base Num ModelCell ModelConc.

(** The event a thread is about to read or to lock. *)
Definition wants {N : NumOps} (x : tstate N) (i : nat) : Prop :=
  match x with
  | TCheck seed => i = seed
  | TStart seed => i = seed
  | TGrow _ ((j, _) :: _) => i = j
  | TLock _ (j :: _) => i = j
  | _ => False
  end.

(** No thread holds a write lock. *)
Definition quiescent {N : NumOps} (s : cstate N) : Prop := forall t, In t (threads s) -> held_of t = [].

(** All seeds are taken and all threads are idle. *)
Definition done {N : NumOps} (s : cstate N) : Prop := pool s = [] /\ forall t, In t (threads s) -> t = TIdle.

(** The members of a cell: a seed and the first few of its neighbours. *)
Definition planned_cell {N : NumOps} (nearest : nat -> option (list (nat * N))) (seeds : list nat)
    (ms : list nat) : Prop :=
  exists seed nbrs k, In seed seeds /\ nearest seed = Some nbrs /\
    Permutation ms (seed :: firstn k (map fst nbrs)).
