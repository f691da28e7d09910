(** Specification vocabulary for C75: what the resampling does to observables. *)
From Coq Require Import Reals List.
From Verif Require Import Base Num SpecWeights.
Import ListNotations.

(** The prediction for an observable that has the value [f i] for event [i], e.g. 1 inside and 0
    outside of a bin of a histogram: the weighted sum over all events, for weight component [k]. *)
Definition observable (f : nat -> R) (s : sample) (k : nat) : R :=
  Rsum (map (fun i => f i * nth k (nth i s []) 0)%R (seq 0 (length s))).

(** Number of events with negative central weight *)
Definition nnegative (s : sample) : nat := length (filter (fun w => if Rlt_dec (nth 0 w 0%R) 0%R then true else false) s).

(** The neighbour search reports no event that is farther away than the limit. *)
Definition limited_search {N : NumOps} (n : nat) (dist : nat -> nat -> N) (max : N) (nearest : nat -> option (list (nat * N))) : Prop :=
  forall q nbrs i, q < n -> nearest q = Some nbrs -> In i (map fst nbrs) -> i < n /\ nleb (dist q i) max = true.
