(** Specification vocabulary for partitions. *)
From Verif Require Import Base Num ModelPartition.

(** The number with the binary digits [path], most significant first. *)
Definition num (path : list bool) : nat := fold_left (fun n (b : bool) => 2 * n + (if b then 1 else 0)) path 0.

(** A binary tree of bisections; leaves hold points. *)
Inductive btree (F : NumOps) :=
| Leaf (pts : list nat)
| Fork (v : nat) (r : F) (inside outside : btree F).
Arguments Leaf {F}. Arguments Fork {F}.

Fixpoint points {F : NumOps} (t : btree F) : list nat :=
  match t with Leaf pts => pts | Fork v _ i o => v :: points i ++ points o end.

(** All points of the inside part are within [r] of the vantage point, those of the outside
    part are not nearer than [r]; the parts differ by at most one in size; and all leaves are
    at depth [k]. *)
Inductive balanced {F : NumOps} (dist : nat -> nat -> F) : nat -> btree F -> Prop :=
| bal_leaf pts : balanced dist 0 (Leaf pts)
| bal_fork k v r i o :
    (forall p, In p (points i) -> nleb (dist v p) r = true) ->
    (forall p, In p (points o) -> nleb r (dist v p) = true) ->
    length (points i) <= length (points o) <= length (points i) + 1 ->
    balanced dist k i -> balanced dist k o ->
    balanced dist (S k) (Fork v r i o).

(** The array [vp] contains the bisections of [t], the root at index [n] and the children of
    the one at index [i] at [2 i + 1] (inside) and [2 i + 2] (outside). *)
Fixpoint heap_order {F : NumOps} (vp : list (Bisection F nat)) (n : nat) (t : btree F) : Prop :=
  match t with
  | Leaf _ => nth_error vp n = None
  | Fork v r i o => nth_error vp n = Some (mkBis v r) /\ heap_order vp (2 * n + 1) i /\ heap_order vp (2 * n + 2) o
  end.

(** [p] belongs to the leaf that is reached from the root by [path] ([true]: outside), and is
    not exactly at a dividing distance on its way. *)
Fixpoint clearly_in {F : NumOps} (dist : nat -> nat -> F) (t : btree F) (path : list bool) (p : nat) : Prop :=
  match t, path with
  | Leaf pts, [] => In p pts
  | Fork v r i o, false :: path => clearly_in dist i path p
  | Fork v r i o, true :: path => nleb (dist v p) r = false /\ clearly_in dist o path p
  | _, _ => False
  end.
Fixpoint in_leaf {F : NumOps} (t : btree F) (path : list bool) (p : nat) : Prop :=
  match t, path with
  | Leaf pts, [] => In p pts
  | Fork v r i o, false :: path => in_leaf i path p
  | Fork v r i o, true :: path => in_leaf o path p
  | _, _ => False
  end.
