(** Specification vocabulary for unweighting in binary64. *)
From Coq Require Import ZArith Reals List.
From Verif Require Import Base Num ModelEvent B64Proofs SpecMoments.
Import ListNotations.
Local Open Scope R_scope.

(** [x] is the sum of [l] computed with some bracketing; zeros may be added. *)
Inductive sum_of : list B64 -> B64 -> Prop :=
| sum_nothing : sum_of [] n0
| sum_one x : sum_of [x] x
| sum_parts l1 l2 x y : sum_of l1 x -> sum_of l2 y -> sum_of (l1 ++ l2) (nadd (n := B64) x y).

(** The central weight *)
Definition central_weight (e : Event B64) : B64 := nth 0 (ev_weights e) n0.

(** An event that has weights, all of which are finite and at most 2^100 (about 1e30) in size; the central one is zero
    or at least 2^-100 in size. *)
Definition tame_weights (e : Event B64) : Prop :=
  ev_weights e <> [] /\ Forall (within (2 ^ 100)) (ev_weights e) /\
  (b64_val (central_weight e) = 0 \/ / 2 ^ 100 <= Rabs (b64_val (central_weight e))).

(** The part of a list that is kept when something is removed *)
Inductive part_of {A} : list A -> list A -> Prop :=
| part_nil : part_of [] []
| part_kept x l l' : part_of l l' -> part_of (x :: l) (x :: l')
| part_dropped x l l' : part_of l l' -> part_of (x :: l) l'.

(** Weights below [m] in size are raised to [m], up to rounding. *)
Definition raised (m w : B64) : B64 :=
  if nltb (n := B64) (nabs (n := B64) w) m then nmul (n := B64) w (ndiv (n := B64) m (nabs (n := B64) w)) else w.

Definition finite_weights (e : Event B64) : Prop := Forall b64_fin (ev_weights e).
