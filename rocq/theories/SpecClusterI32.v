(** Specification vocabulary for clustering in debug and release builds. *)
From Coq Require Import ZArith.
From Verif Require Import Base Num ModelEvent SpecEvent ModelCluster SpecCluster ModelClusterI32.

Section Spec.
Context {N : NumOps} (neutrino : Z -> bool) (delta_r : PseudoJet N -> PseudoJet N -> N) (c : DefaultClustering N).

(** The photon is hard enough, and the transverse energy of what is around it is not a number. *)
Definition undefined_cone (particles : list (Z * FourVector N)) (p : FourVector N) : Prop :=
  exists d, cl_photon c = Some d /\ nltb (fv_pt p) (pd_min_pt d) = false /\
    let e := transverse_energy (pj_sub (pj_total (map jet_of_fv (cone neutrino delta_r (pd_radius d) p particles))) (jet_of_fv p)) in
    neqb e e = false.
End Spec.

(** The same particles, with the id -1 (an antiquark) in place of the smallest integer *)
Definition as_quark {N : NumOps} (g : Z * list (FourVector N)) : Z * list (FourVector N) :=
  if Z.eqb (fst g) (- 2 ^ 31) then ((-1)%Z, snd g) else g.
