(** Specification vocabulary for C77: how evenly a partition divides the events. *)
From Coq Require Import List Arith.
From Verif Require Import Base Num.
Import ListNotations.

(** No event is nearer to an event than the event itself, and seen from an event, no two other events
    are equally far away. *)
Definition nearest_to_itself {N : NumOps} (n : nat) (dist : nat -> nat -> N) : Prop :=
  forall i j, i < n -> j < n -> nleb (dist i i) (dist i j) = true.
Definition general_position {N : NumOps} (n : nat) (dist : nat -> nat -> N) : Prop :=
  forall i j k, i < n -> j < n -> k < n -> j <> i -> k <> i ->
    nleb (dist i j) (dist i k) = true -> nleb (dist i k) (dist i j) = true -> j = k.

(** [c] of [n] events are a fair share for one of [2 ^ k] regions: an equal share up to a number that
    depends on [k] only. *)
Definition fair_share (n k c : nat) : Prop := (n + 1) / 2 ^ k <= c + k + 1 /\ c <= n / 2 ^ k + 2 * k.
