(** Averages over independent random numbers. *)
From Coq Require Import Reals List.
From Coquelicot Require Import Coquelicot.
From Verif Require Import Base Num ModelEvent SpecUnweight.
Import ListNotations.
Local Open Scope R_scope.

(** [v] is the average of [F] over [n] independent random numbers, each distributed uniformly in
    [[0, m)]. *)
Fixpoint average (m : R) (n : nat) (F : list R -> R) (v : R) : Prop :=
  match n with
  | O => F [] = v
  | S n => exists g : R -> R, (forall u, 0 <= u < m -> average m n (fun us => F (u :: us)) (g u)) /\ is_RInt g 0 m (m * v)
  end.

(** The value of an observable: each event contributes its [k]-th weight, times a number that may
    depend on everything but the weights (for example: whether it is in a bin of a histogram). *)
Definition observed (O : nat -> list (Z * list (FourVector RN)) -> R) (k : nat) (events : list (Event RN)) : R :=
  SpecWeights.Rsum (map (fun e => O (ev_id e) (ev_out e) * nth k (ev_weights e) 0) events).

(** The events for which a random number is drawn *)
Definition light_events (m : R) (events : list (Event RN)) : list (Event RN) := filter (light m) events.
