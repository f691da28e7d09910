(** Specification vocabulary for runs whose result does not depend on the schedule. *)
From Verif Require Import Base Num ModelCell ModelConc.

(** The cell a thread would build around [seed] if the weights were [ws]. *)
Definition own_cell {N : NumOps} (nearest : nat -> option (list (nat * N))) (ws : list (list N)) (seed : nat) (c : Cell N) : Prop :=
  exists nbrs, nearest seed = Some nbrs /\ cell_new ws seed nbrs = Some c.

(** With the given weights, cells around different seeds have no event in common. *)
Definition cells_apart {N : NumOps} (nearest : nat -> option (list (nat * N))) (ws : list (list N)) (seeds : list nat) : Prop :=
  forall s s' c c' i, In s seeds -> In s' seeds -> s <> s' ->
  own_cell nearest ws s c -> own_cell nearest ws s' c' -> In i (members c) -> ~ In i (members c').

(** No seed has a positive weight. *)
Definition seeds_not_positive {N : NumOps} (ws : list (list N)) (seeds : list nat) : Prop :=
  forall s, In s seeds -> exists w ws', nth_error ws s = Some (w :: ws') /\ nltb n0 w = false.
