(** Events with momenta that are not too large, in binary64. *)
From Coq Require Import ZArith Reals List Permutation.
From Verif Require Import Base Num ModelEvent ModelDistance B64Proofs.
Import ListNotations.
Local Open Scope R_scope.

(** A finite number whose absolute value is at most [b]. *)
Definition within (b : R) (x : B64) : Prop := b64_fin x /\ Rabs (b64_val x) <= b.

(** A momentum made from its components, which are finite; those in space are at most 2^500 (about 3e150). *)
Definition moderate (p : FourVector B64) : Prop :=
  exists e x y z : B64, p = fv_from e x y z /\ not_nan e /\ within (2 ^ 500) x /\ within (2 ^ 500) y /\ within (2 ^ 500) z.
Definition moderate_event (e : Event B64) : Prop := Forall (fun g => Forall moderate (snd g)) (ev_out e).

Definition particles (e : Event B64) : nat := list_sum (map (fun g => length (snd g)) (ev_out e)).

(** At most three particles of each type *)
Definition few_of_each (e : Event B64) : Prop := Forall (fun g => (length (snd g) <= 3)%nat) (ev_out e).

(** What is assumed of the assignment algorithm of the pathfinding library in binary64: for weights that are
    not too large, the result is finite and not much larger than a sum of weights. *)
Definition km_tame (km : assignment B64) : Prop :=
  forall n (w : nat -> nat -> B64), (Z.of_nat n <= 2 ^ 53)%Z ->
    (forall i j, (i < n)%nat -> (j < n)%nat -> within (2 ^ 512) (w i j)) -> within (INR n * 2 ^ 513) (km n w).
