(** Changes of units and of the axes of the coordinate system, over the real numbers; sizes of momenta. *)
From Coq Require Import Reals ZArith.
From Verif Require Import Base Num ModelEvent SpecWeights SpecDistance.
Local Open Scope R_scope.

(** The new axes: components (row) of the old unit vectors (column) *)
Record axes := mkAxes { a_xx : R; a_xy : R; a_xz : R; a_yx : R; a_yy : R; a_yz : R; a_zx : R; a_zy : R; a_zz : R }.

(** The old unit vectors still have length one and are still perpendicular to each other: rotations and reflections *)
Definition orthonormal (m : axes) : Prop :=
  a_xx m ^ 2 + a_yx m ^ 2 + a_zx m ^ 2 = 1 /\ a_xy m ^ 2 + a_yy m ^ 2 + a_zy m ^ 2 = 1 /\ a_xz m ^ 2 + a_yz m ^ 2 + a_zz m ^ 2 = 1 /\
  a_xx m * a_xy m + a_yx m * a_yy m + a_zx m * a_zy m = 0 /\ a_xx m * a_xz m + a_yx m * a_yz m + a_zx m * a_zz m = 0 /\
  a_xy m * a_xz m + a_yy m * a_yz m + a_zy m * a_zz m = 0.

(** The beam stays on the z axis. *)
Definition keeps_beam (m : axes) : Prop := a_xz m = 0 /\ a_yz m = 0 /\ a_zx m = 0 /\ a_zy m = 0.

(** A momentum in units that are smaller by the factor [lam] and with new axes *)
Definition seen (lam : R) (m : axes) (p : FourVector RN) : FourVector RN :=
  fv_from (N := RN) (lam * fv_e p)
    (lam * (a_xx m * fv_x p + a_xy m * fv_y p + a_xz m * fv_z p))
    (lam * (a_yx m * fv_x p + a_yy m * fv_y p + a_yz m * fv_z p))
    (lam * (a_zx m * fv_x p + a_zy m * fv_y p + a_zz m * fv_z p)).
Definition all_seen (lam : R) (m : axes) (ps : list (Z * FourVector RN)) : list (Z * FourVector RN) :=
  map (fun x => (fst x, seen lam m (snd x))) ps.

(** Size of a spatial momentum *)
Definition size (p : FourVector RN) : R := sqrt (fv_x p ^ 2 + fv_y p ^ 2 + fv_z p ^ 2).

(** The same particles with other momenta *)
Definition same_types (ps ps' : list (Z * FourVector RN)) : Prop := map fst ps = map fst ps'.
(** ... and how far the momenta are apart *)
Definition shift (ps ps' : list (Z * FourVector RN)) : R :=
  Rsum (map (fun x => sqrt ((fv_x (snd (fst x)) - fv_x (snd (snd x))) ^ 2 + (fv_y (snd (fst x)) - fv_y (snd (snd x))) ^ 2 + (fv_z (snd (fst x)) - fv_z (snd (snd x))) ^ 2)) (combine ps ps')).
