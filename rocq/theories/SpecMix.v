(** Linear combinations of weights; independent of the model. *)
From Coq Require Import Reals List.
From Verif Require Import SpecWeights.
Import ListNotations.
Local Open Scope R_scope.

(** The sum of the weights of one event with the given coefficients *)
Definition combination (coeffs w : list R) : R := Rsum (map (fun j => nth j coeffs 0 * nth j w 0) (seq 0 (length coeffs))).

(** New weights, each a linear combination of the old ones *)
Definition mix (A : list (list R)) (w : list R) : list R := map (fun coeffs => combination coeffs w) A.

(** The first (central) weight is only multiplied by a positive factor. *)
Definition keeps_central (c : R) (A : list (list R)) : Prop := 0 < c /\ exists others, A = [c] :: others.
