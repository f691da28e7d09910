(** Specification vocabulary for weights (exact reals); independent of the model. *)
From Coq Require Import Reals List.
Import ListNotations.
Local Open Scope R_scope.

Definition Rsum (l : list R) : R := fold_right Rplus 0 l.

(** Arithmetic mean. *)
Definition mean (l : list R) : R := Rsum l / INR (length l).

(** A sample is the list of the events' weight vectors; entry 0 is the central weight. *)
Definition sample := list (list R).

(** Weight component [k] of event [i]. *)
Definition comp (s : sample) (i k : nat) : R := nth k (nth i s []) 0.

(** Sum over all events of weight component [k]. *)
Definition total (s : sample) (k : nat) : R := Rsum (map (fun w => nth k w 0) s).

(** Sum over events of |w_k| and of the negative part of w_k. *)
Definition total_abs (s : sample) (k : nat) : R := Rsum (map (fun w => Rabs (nth k w 0)) s).
Definition total_neg (s : sample) (k : nat) : R :=
  Rsum (map (fun w => Rmax (- nth k w 0) 0) s).

(** Every event carries exactly [n] weights. *)
Definition uniform {A} (n : nat) (s : list (list A)) : Prop := Forall (fun w => length w = n) s.

(** Without the "multiweight" feature ([mw = false]) every event has exactly one weight;
    with it the numbers of weights are arbitrary. *)
Definition wf_weights {A} (mw : bool) (s : list (list A)) : Prop := mw = false -> uniform 1 s.

(** Every event has the same number [nw >= 1] of weights ([nw = 1] without multiweight). *)
Definition shaped {A} (mw : bool) (nw : nat) (s : list (list A)) : Prop :=
  (0 < nw)%nat /\ (mw = false -> nw = 1%nat) /\ uniform nw s.

(** Event [i] exists and its central (first) weight is [w]. *)
Definition central_weight {A} (s : list (list A)) (i : nat) (w : A) : Prop :=
  exists others, nth_error s i = Some (w :: others).

(** Component [k] of every event lies in [[lo, hi]]. *)
Definition within (lo hi : R) (k : nat) (s : sample) : Prop :=
  forall i, (i < length s)%nat -> lo <= comp s i k <= hi.
