(** Momenta in binary64 and the real numbers they stand for. *)
From Coq Require Import ZArith Reals List Permutation.
From Verif Require Import Base Num ModelEvent ModelDistance SpecWeights SpecEvent SpecDistance SpecMoments B64Proofs.
Import ListNotations.
Local Open Scope R_scope.

(** A momentum made from its components; those in space are finite and at most [B]. *)
Definition mom_upto (B : R) (p : FourVector B64) : Prop :=
  exists e x y z : B64, p = fv_from e x y z /\ not_nan e /\ within B x /\ within B y /\ within B z.

(** The momentum with these components and the exact transverse momentum. *)
Definition real_mom (p : FourVector B64) : FourVector RN :=
  fv_from (N := RN) (b64_val (fv_e p)) (b64_val (fv_x p)) (b64_val (fv_y p)) (b64_val (fv_z p)).

(** The same for particles with their ids *)
Definition real_particles (ps : list (Z * FourVector B64)) : list (Z * FourVector RN) :=
  map (fun x => (fst x, real_mom (snd x))) ps.

(** Events with [k] particles in total, momenta up to [B] and a weight of the transverse momentum up to [T]: the error allowed
    for the distance *)
Definition dist_error (k : nat) (T B : R) : R := (200 * INR k + 9 * INR k ^ 2) * / 2 ^ 53 * T * B.
(** ... and a bound for the distance itself *)
Definition dist_bound (k : nat) (T B : R) : R := 9 * INR k * T * B.

(** What can be assumed of the assignment algorithm of the pathfinding library in binary64: given weights between [-U] and 0,
    it is as accurate as adding up [n] of them.  The result differs from the total weight of some assignment by at most
    n^2 2^-53 U, and no assignment has a total that is larger by more than that. *)
Definition km_accurate (km : assignment B64) : Prop :=
  forall n (w : nat -> nat -> B64) U, (Z.of_nat n <= 2 ^ 40)%Z -> 0 <= U <= 2 ^ 513 ->
    (forall i j, (i < n)%nat -> (j < n)%nat -> within U (w i j) /\ b64_val (w i j) <= 0) ->
    let total s := Rsum (map (fun ij => b64_val (w (fst ij) (snd ij))) (combine (seq 0 n) s)) in
    b64_fin (km n w) /\ b64_val (km n w) <= 0 /\
    (exists s, Permutation (seq 0 n) s /\ Rabs (b64_val (km n w) - total s) <= INR n ^ 2 * / 2 ^ 53 * U) /\
    (forall s, Permutation (seq 0 n) s -> total s <= b64_val (km n w) + INR n ^ 2 * / 2 ^ 53 * U).

(** Particles as made by the public interface: momenta up to [B], at most [n] in total, and at most three of each type unless
    the assignment algorithm is accurate *)
Definition few_upto (km : assignment B64) (B : R) (n : nat) (ps : list (Z * FourVector B64)) : Prop :=
  Forall (fun x => mom_upto B (snd x)) ps /\
  (km_accurate km \/ forall id, (length (filter (fun x => Z.eqb (fst x) id) ps) <= 3)%nat) /\ (length ps <= n)%nat.

(** The documented distance of two events in exact arithmetic: the sum over the types of particles of the costs of the best
    pairings *)
Definition exact_distance (tau : B64) (ps1 ps2 : list (Z * FourVector B64)) (r : R) : Prop :=
  exists (ids : list Z) (f : Z -> R), NoDup ids /\
    (forall id, In id ids <-> In id (map fst ps1) \/ In id (map fst ps2)) /\
    (forall id, min_pairing (b64_val tau) (with_id id (real_particles ps1)) (with_id id (real_particles ps2)) (f id)) /\
    r = Rsum (map f ids).
