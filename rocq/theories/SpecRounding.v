(** Specification vocabulary for samples of binary64 numbers; independent of the model. *)
From Coq Require Import Reals List.
From Verif Require Import Num B64Proofs SpecWeights.
Import ListNotations.
Local Open Scope R_scope.

(** The real numbers a sample of floating-point weights stands for. *)
Definition b64_sample (s : list (list B64)) : sample := map (map b64_val) s.

(** No weight is infinite or NaN. *)
Definition finite_sample (s : list (list B64)) : Prop := Forall (Forall b64_fin) s.

(** Relative error of [n] rounded operations, each with relative error at most 2^-53. *)
Definition rounding (n : nat) : R := (1 + / 2 ^ 53) ^ n - 1.
(** Half of the smallest positive number. *)
Definition half_ulp_min : R := / 2 ^ 1075.
