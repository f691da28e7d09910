(** What a search with rounded distances is expected to deliver; independent of the tree. *)
From Coq Require Import ZArith Reals SpecFloat.
From Verif Require Import Base Num B64Proofs.
Local Open Scope R_scope.

(** The numbers [dist i j], [i, j < n], are finite, lie between 0 and [bound], and are the distances of a metric
    up to errors of [slack] in the symmetry and in the triangle inequality. *)
Definition near_metric (n : nat) (slack bound : R) (dist : nat -> nat -> B64) : Prop :=
  (forall i j, (i < n)%nat -> (j < n)%nat -> b64_fin (dist i j) /\ 0 <= b64_val (dist i j) <= bound) /\
  (forall i j, (i < n)%nat -> (j < n)%nat -> Rabs (b64_val (dist i j) - b64_val (dist j i)) <= slack) /\
  (forall i j k, (i < n)%nat -> (j < n)%nat -> (k < n)%nat ->
     b64_val (dist i k) <= b64_val (dist i j) + b64_val (dist j k) + slack).

(** [l] answers the question for the points within [max] of [q], nearest first, up to errors of [eps]: each entry is
    another point within [max] with its distance, no point occurs twice, no point that comes later or not at all
    is nearer by more than [eps] than an entry, and a point that does not occur has a distance above [max - eps]. *)
Definition near_list (n q : nat) (dq : nat -> B64) (max : B64) (eps : R) (l : list (nat * B64)) : Prop :=
  NoDup (map fst l) /\
  (forall i d, In (i, d) l -> (i < n)%nat /\ i <> q /\ d = dq i /\ nleb (n := B64) d max = true) /\
  (forall l1 i d l2, l = l1 ++ (i, d) :: l2 -> forall y, (y < n)%nat -> y <> q -> ~ In y (map fst l1) ->
     b64_val d <= b64_val (dq y) + eps) /\
  (forall y, (y < n)%nat -> y <> q -> ~ In y (map fst l) -> b64_fin max /\ b64_val max < b64_val (dq y) + eps).
