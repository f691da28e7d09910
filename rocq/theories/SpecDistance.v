(** Specification of the documented distance (arXiv:2109.07851), over the real numbers. *)
From Coq Require Import Reals ZArith.
From Verif Require Import Base Num ModelEvent ModelDistance SpecWeights.
Local Open Scope R_scope.

(** Transverse momentum. *)
Definition pt_of (p : FourVector RN) : R := sqrt (fv_x p * fv_x p + fv_y p * fv_y p).

(** Momenta as made by the public interface: the stored transverse momentum is the one of
    the components. *)
Definition physical (p : FourVector RN) : Prop := fv_pt p = pt_of p.

(** Momentum distance: sqrt(|p - q|^2 + tau^2 (pt_p - pt_q)^2). *)
Definition mom_dist (tau : R) (p q : FourVector RN) : R :=
  sqrt ((fv_x p - fv_x q) ^ 2 + (fv_y p - fv_y q) ^ 2 + (fv_z p - fv_z q) ^ 2
        + tau ^ 2 * (pt_of p - pt_of q) ^ 2).

(** Fill up with zero momenta to length [n]. *)
Definition zero_mom : FourVector RN := mkFV (N := RN) 0 0 0 0 0.
Definition filled (n : nat) (P : list (FourVector RN)) : list (FourVector RN) :=
  P ++ repeat zero_mom (n - length P).

(** Summed distances when the momenta are paired up in the given order. *)
Definition pairing_cost (tau : R) (P Q : list (FourVector RN)) : R :=
  Rsum (map (fun pq => mom_dist tau (fst pq) (snd pq)) (combine P Q)).

(** [d] is the smallest cost of all pairings of [P] with [Q], the shorter list filled up
    with zeros. *)
Definition min_pairing (tau : R) (P Q : list (FourVector RN)) (d : R) : Prop :=
  let n := Nat.max (length P) (length Q) in
  (exists P', Permutation (filled n P) P' /\ d = pairing_cost tau P' (filled n Q)) /\
  (forall P', Permutation (filled n P) P' -> d <= pairing_cost tau P' (filled n Q)).

(** What is assumed of the assignment algorithm of the pathfinding library: it returns the
    largest total weight of all assignments of [n] rows to [n] columns.  (Over the reals;
    nothing is claimed about its rounding errors.) *)
Definition km_ok (km : assignment RN) : Prop :=
  forall n (w : nat -> nat -> R),
    (exists s, Permutation (seq 0 n) s /\
       km n w = Rsum (map (fun ij => w (fst ij) (snd ij)) (combine (seq 0 n) s))) /\
    (forall s, Permutation (seq 0 n) s ->
       Rsum (map (fun ij => w (fst ij) (snd ij)) (combine (seq 0 n) s)) <= km n w).

(** Particles (id and momentum) as made by the public interface. *)
Definition phys (ps : list (Z * FourVector RN)) : Prop := Forall (fun x => physical (snd x)) ps.

(** The spatial components of a momentum, and a particle without its energy. *)
Definition xyz (p : FourVector RN) : R * R * R := (fv_x p, fv_y p, fv_z p).
Definition spatial (x : Z * FourVector RN) : Z * (R * R * R) := (fst x, xyz (snd x)).
