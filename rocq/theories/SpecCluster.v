(** What clustering does to each particle, and what jets are. *)
From Coq Require Import ZArith Reals Lra.
From Verif Require Import Base Num ModelEvent SpecEvent ModelCluster.

(** Every outgoing particle is clustered to a jet, clustered to a dressed lepton, an isolated
    photon, kept, or dropped. *)
Inductive fate := ToJet | ToLepton | Isolated | Kept | Dropped.
Definition fate_eqb (a b : fate) : bool :=
  match a, b with
  | ToJet, ToJet | ToLepton, ToLepton | Isolated, Isolated | Kept, Kept | Dropped, Dropped => true
  | _, _ => false
  end.

Section Fates.
Context {N : NumOps} (neutrino hadron : Z -> bool) (delta_r : PseudoJet N -> PseudoJet N -> N).
Context (c : DefaultClustering N).

(** The particles around [p] that count for isolation: not neutrinos or muons *)
Definition cone (radius : N) (p : FourVector N) (particles : list (Z * FourVector N)) : list (FourVector N) :=
  map snd (filter (fun x => negb (neutrino (Z.abs (fst x))) && negb (Z.abs (fst x) =? 13)%Z &&
                            nltb (delta_r (jet_of_fv (snd x)) (jet_of_fv p)) radius) particles).
(** Sum of momenta *)
Definition pj_total (ps : list (PseudoJet N)) : PseudoJet N := fold_left pj_add ps pj_new.
(** Transverse energy sqrt(E^2 - pz^2) *)
Definition transverse_energy (p : PseudoJet N) : N :=
  nsqrt (nsub (nmul (pj_e p) (pj_e p)) (nmul (pj_pz p) (pj_pz p))).
(** [around]: total momentum around the photon, without the photon *)
Definition photon_cut (p : FourVector N) (around : N -> PseudoJet N) : bool :=
  match cl_photon c with
  | None => false
  | Some d => negb (nltb (fv_pt p) (pd_min_pt d)) &&
      nltb (nmul (pd_min_e_fraction d) (transverse_energy (around (pd_radius d)))) (fv_pt p)
  end.
Definition isolated_in (particles : list (Z * FourVector N)) (p : FourVector N) : bool :=
  photon_cut p (fun radius => pj_sub (pj_total (map jet_of_fv (cone radius p particles))) (jet_of_fv p)).

Definition fate_of (particles : list (Z * FourVector N)) (x : Z * FourVector N) : fate :=
  let id := fst x in
  if (id =? 22)%Z then
    if isolated_in particles (snd x) then Isolated else match cl_lepton c with Some _ => ToLepton | None => Kept end
  else if (Z.abs id <=? 5)%Z || (id =? 21)%Z || hadron (Z.abs id) then ToJet
  else if match cl_lepton c with Some _ => true | None => false end && ((Z.abs id =? 11)%Z || (Z.abs id =? 13)%Z) then ToLepton
  else if neutrino (Z.abs id) && negb (cl_neutrinos c) then Dropped
  else Kept.
Definition with_fate (f : fate) (particles : list (Z * FourVector N)) : list (Z * FourVector N) :=
  filter (fun x => fate_eqb (fate_of particles x) f) particles.
Definition momenta (l : list (Z * FourVector N)) : list (PseudoJet N) := map (fun x => jet_of_fv (snd x)) l.
End Fates.

(** What is assumed about the jet algorithms: jets are the sums of groups of momenta, each momentum
    is in one group; those accepted are returned. *)
Definition jet_algorithm (cluster_if : JetAlgorithm -> R -> (PseudoJet RN -> bool) -> list (PseudoJet RN) -> list (PseudoJet RN)) : Prop :=
  forall a r accept l, exists groups, Permutation (concat groups) l /\
    Permutation (cluster_if a r accept l) (filter accept (map pj_total groups)).

(** Jets above the minimum transverse momentum *)
Definition hard {N : NumOps} (d : JetDefinition N) (p : PseudoJet N) : bool :=
  nltb (nmul (jd_min_pt d) (jd_min_pt d)) (nadd (nmul (pj_px p) (pj_px p)) (nmul (pj_py p) (pj_py p))).

(** Sum of one component over a list of momenta *)
Definition total (k : PseudoJet RN -> R) (l : list (PseudoJet RN)) : R := fold_right Rplus 0%R (map k l).
Inductive component : (PseudoJet RN -> R) -> Prop :=
| comp_e : component pj_e | comp_x : component pj_px | comp_y : component pj_py | comp_z : component pj_pz.

(** Four-vectors a program can obtain *)
Inductive obtainable {N : NumOps} : FourVector N -> Prop :=
| ob_new : obtainable fv_new
| ob_from e x y z : obtainable (fv_from e x y z)
| ob_jet j : obtainable (fv_of_jet j)
| ob_add p q : obtainable p -> obtainable q -> obtainable (fv_add p q)
| ob_sub p q : obtainable p -> obtainable q -> obtainable (fv_sub p q).
