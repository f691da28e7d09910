(** What a vantage-point tree stored in an array is; independent of how it is built. *)
From Coq Require Import NArith Reals.
From Verif Require Import Base Num ModelVPTree.

(** [vp_tree dist d l]: the array [l] holds a vantage-point tree with at most [d] layers of
    bisections: either it is not divided (fewer than two points, or no layer left), or its
    first node is a vantage point whose stored radius separates the next [offset] nodes
    (no further than the radius) from the remaining ones (no nearer); the inside part gets
    half of the points, rounded down; both parts are trees with one layer less. *)
Inductive vp_tree {F : NumOps} (dist : nat -> nat -> F) : N -> list (Node F) -> Prop :=
| vp_flat : forall d l, length l < 2 \/ d = 0%N ->
    Forall (fun n => children n = None) l -> vp_tree dist d l
| vp_split : forall d v r inside outside,
    d <> 0%N -> outside <> [] ->
    length inside = (length inside + length outside) / 2 ->
    Forall (fun n => nleb (dist v (vantage_pt n)) r = true) inside ->
    Forall (fun n => nleb r (dist v (vantage_pt n)) = true) outside ->
    (exists n, In n outside /\ r = dist v (vantage_pt n)) ->
    vp_tree dist (N.pred d) inside -> vp_tree dist (N.pred d) outside ->
    vp_tree dist d (mkNode v (Some (mkChildren r (length inside))) :: inside ++ outside).

(** Rounding-independent form of "the distance is a metric": the computed difference of two
    distances from a vantage point [v] never exceeds the distance of the points. [r] is a
    distance from [v]. *)
Definition prune_sound {F : NumOps} (S : nat -> Prop) (dist : nat -> nat -> F) : Prop :=
  forall q v y z, S q -> S v -> S y -> S z ->
    let d := dist q v in let r := dist v z in
    (nltb r d = true -> nleb (dist v y) r = true ->
       nleb (nabs (nsub d r)) (dist q y) = true /\ nleb (nabs (nsub r d)) (dist q y) = true) /\
    (nltb r d = false -> nleb r (dist v y) = true ->
       nleb (nabs (nsub d r)) (dist q y) = true /\ nleb (nabs (nsub r d)) (dist q y) = true).

Local Open Scope R_scope.

(** Symmetry and triangle inequality (on the points below [n]). *)
Definition metric_on (n : nat) (dist : nat -> nat -> R) : Prop :=
  (forall i j, (i < n)%nat -> (j < n)%nat -> dist i j = dist j i) /\
  (forall i j k, (i < n)%nat -> (j < n)%nat -> (k < n)%nat -> dist i k <= dist i j + dist j k).

(** A monotone rounding that leaves zero, the distances and the negated distances alone (such
    as IEEE rounding when the distances are floating-point numbers). *)
Definition exact_rounding (n : nat) (dist : nat -> nat -> R) (rnd : R -> R) : Prop :=
  (forall x y, x <= y -> rnd x <= rnd y) /\ rnd 0 = 0 /\
  (forall i j, (i < n)%nat -> (j < n)%nat -> rnd (dist i j) = dist i j /\ rnd (- dist i j) = - dist i j).
