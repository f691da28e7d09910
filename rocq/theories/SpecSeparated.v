(** Events whose distances differ by more than rounding errors. *)
From Coq Require Import ZArith Reals List.
From Verif Require Import Base Num ModelEvent B64Proofs SpecAccuracy.
Import ListNotations.
Local Open Scope R_scope.

(** [within_limit max r]: the real number [r] does not exceed the limit, which may be infinite *)
Definition within_limit (max : B64) (r : R) : Prop := max = b64_inf \/ (b64_fin max /\ r <= b64_val max).

(** The indices of the other points within the limit, in the order of the exact distances [x] *)
Definition exact_order (n q : nat) (x : nat -> R) (max : B64) (ids : list nat) : Prop :=
  (forall i, In i ids <-> (i < n)%nat /\ i <> q /\ within_limit max (x i)) /\
  StronglySorted (fun i j => x i < x j) ids.

(** The exact distances of all events from any one of them differ by more than [delta] from each other and from the limit *)
Definition separated (n : nat) (x : nat -> nat -> R) (max : B64) (delta : R) : Prop :=
  (forall q i j, (q < n)%nat -> (i < n)%nat -> (j < n)%nat -> i <> q -> j <> q -> i <> j -> delta < Rabs (x q i - x q j)) /\
  (forall q i, (q < n)%nat -> (i < n)%nat -> i <> q -> b64_fin max -> delta < Rabs (x q i - b64_val max)).

(** The same for the events with numbers in [K] *)
Definition separated_on (K : nat -> Prop) (x : nat -> nat -> R) (max : B64) (delta : R) : Prop :=
  (forall q i j, K q -> K i -> K j -> i <> q -> j <> q -> i <> j -> delta < Rabs (x q i - x q j)) /\
  (forall q i, K q -> K i -> i <> q -> b64_fin max -> delta < Rabs (x q i - b64_val max)).
