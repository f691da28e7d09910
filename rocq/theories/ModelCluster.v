(** Model of src/cluster.rs.  The crate jetty (jet algorithms, [PseudoJet]) and the tables of the
    crate particle_id are not part of the repository: the jet algorithms, the distance
    [delta_r], and which ids are hadrons or neutrinos are parameters. *)
From Coq Require Import ZArith.
From Verif Require Import Base Num ModelEvent.

Section Cluster.
Context (N : NumOps).

(** [jetty::PseudoJet]: energy and momentum, added component by component *)
Record PseudoJet := mkPJ { pj_e : N; pj_px : N; pj_py : N; pj_pz : N }.
Definition pj_new : PseudoJet := mkPJ n0 n0 n0 n0.
Definition pj_add (p q : PseudoJet) : PseudoJet :=
  mkPJ (nadd (pj_e p) (pj_e q)) (nadd (pj_px p) (pj_px q)) (nadd (pj_py p) (pj_py q)) (nadd (pj_pz p) (pj_pz q)).
Definition pj_sub (p q : PseudoJet) : PseudoJet :=
  mkPJ (nsub (pj_e p) (pj_e q)) (nsub (pj_px p) (pj_px q)) (nsub (pj_py p) (pj_py q)) (nsub (pj_pz p) (pj_pz q)).
Definition pj_pt2 (p : PseudoJet) : N := nadd (nmul (pj_px p) (pj_px p)) (nmul (pj_py p) (pj_py p)).

(** src/four_vector.rs:120-136 *)
Definition fv_of_jet (p : PseudoJet) : FourVector N := fv_from (pj_e p) (pj_px p) (pj_py p) (pj_pz p).
Definition jet_of_fv (p : FourVector N) : PseudoJet := mkPJ (fv_e p) (fv_x p) (fv_y p) (fv_z p).

(** src/cluster.rs:205-234 *)
Inductive JetAlgorithm := AntiKt | CambridgeAachen | Kt.
Record JetDefinition := mkJetDef { jd_algorithm : JetAlgorithm; jd_radius : N; jd_min_pt : N }.
Record PhotonDefinition := mkPhotonDef { pd_min_e_fraction : N; pd_radius : N; pd_min_pt : N }.

(** src/cluster.rs:22-28 *)
Record DefaultClustering := mkClustering {
  cl_jet : JetDefinition;
  cl_lepton : option JetDefinition;
  cl_photon : option PhotonDefinition;
  cl_neutrinos : bool
}.

(** src/cluster.rs:32-56: the constructor and the settings *)
Definition clustering_new (j : JetDefinition) : DefaultClustering := mkClustering j None None false.
Definition with_lepton_def (c : DefaultClustering) (j : JetDefinition) : DefaultClustering :=
  mkClustering (cl_jet c) (Some j) (cl_photon c) (cl_neutrinos c).
Definition with_photon_def (c : DefaultClustering) (p : PhotonDefinition) : DefaultClustering :=
  mkClustering (cl_jet c) (cl_lepton c) (Some p) (cl_neutrinos c).
Definition include_neutrinos (c : DefaultClustering) (b : bool) : DefaultClustering :=
  mkClustering (cl_jet c) (cl_lepton c) (cl_photon c) b.

(** Particle ids of the standard model (crate particle_id: the numbers of the Particle Data Group) *)
Definition photon : Z := 22.
Definition gluon : Z := 21.
Definition bottom : Z := 5.
Definition electron : Z := 11.
Definition muon : Z := 13.
(** src/cluster.rs:254-256 *)
Definition PID_JET : Z := 81.
Definition PID_DRESSED_LEPTON : Z := 82.
Definition PID_ISOLATED_PHOTON : Z := 83.

(** [ParticleID::is_neutrino], membership in [particle_id::hadrons::HADRONS], [PseudoJet::delta_r],
    [Cluster::cluster_if] *)
Context (neutrino hadron : Z -> bool) (delta_r : PseudoJet -> PseudoJet -> N)
  (cluster_if : JetAlgorithm -> N -> (PseudoJet -> bool) -> list PseudoJet -> list PseudoJet).

(** src/cluster.rs:236-252 *)
Definition is_parton (id : Z) : bool := Z.leb (Z.abs id) bottom || Z.eqb id gluon.
Definition is_hadron (id : Z) : bool := hadron (Z.abs id).
Definition is_light_lepton (id : Z) : bool := Z.eqb id electron || Z.eqb id muon.
Definition is_photon (id : Z) : bool := Z.eqb id photon.
Definition is_muon (id : Z) : bool := Z.eqb id muon.

(** src/cluster.rs:259-279 [cluster] *)
Definition jets (partons : list PseudoJet) (def : JetDefinition) : list PseudoJet :=
  cluster_if (jd_algorithm def) (jd_radius def)
    (fun jet => nltb (nmul (jd_min_pt def) (jd_min_pt def)) (pj_pt2 jet)) partons.

Definition is_some {A} (o : option A) : bool := match o with Some _ => true | None => false end.

(** src/cluster.rs:58-61 *)
Definition is_clustered_to_lepton (c : DefaultClustering) (id : Z) : bool :=
  is_some (cl_lepton c) && (is_light_lepton (Z.abs id) || is_photon id).

(** src/cluster.rs:79-89: the loops over the particles *)
Definition cone_step (radius : N) (p : PseudoJet) (cone : PseudoJet) (q : FourVector N) : PseudoJet :=
  if nltb (delta_r (jet_of_fv q) p) radius then pj_add cone (jet_of_fv q) else cone.
Definition cone_momentum (radius : N) (p : PseudoJet) (event : list (Z * list (FourVector N))) : PseudoJet :=
  fold_left (fun cone '(id, particles) =>
    if negb (neutrino (Z.abs id)) && negb (is_muon (Z.abs id)) then fold_left (cone_step radius p) particles cone else cone)
    event pj_new.

(** src/cluster.rs:63-99 [is_isolated].  Simplification: the square root of a negative number is
    what [nsqrt] says (a panic of [N64] in debug builds). *)
Definition is_isolated (c : DefaultClustering) (p : FourVector N) (event : list (Z * list (FourVector N))) : bool :=
  match cl_photon c with
  | None => false
  | Some d =>
      if nltb (fv_pt p) (pd_min_pt d) then false
      else
        let cone := pj_sub (cone_momentum (pd_radius d) (jet_of_fv p) event) (jet_of_fv p) in
        let cone_et := nsqrt (nsub (nmul (pj_e cone) (pj_e cone)) (nmul (pj_pz cone) (pj_pz cone))) in
        nltb (nmul (pd_min_e_fraction d) cone_et) (fv_pt p)
  end.

(** The state of the loops: event under construction, momenta clustered to leptons and jets *)
Record sorted_out := mkSorted { so_ev : EventBuilder N; so_leptons : list PseudoJet; so_jets : list PseudoJet }.

(** src/cluster.rs:119-127: the loop over the photons *)
Definition treat_photon (c : DefaultClustering) (outgoing : list (Z * list (FourVector N))) (s : sorted_out) (p : FourVector N) : sorted_out :=
  if is_isolated c p outgoing then mkSorted (add_outgoing (so_ev s) PID_ISOLATED_PHOTON p) (so_leptons s) (so_jets s)
  else if is_some (cl_lepton c) then mkSorted (so_ev s) (so_leptons s ++ [jet_of_fv p]) (so_jets s)
  else mkSorted (add_outgoing (so_ev s) photon p) (so_leptons s) (so_jets s).

(** src/cluster.rs:133-147: the loop over all other particles *)
Definition treat_other (c : DefaultClustering) (s : sorted_out) (g : Z * list (FourVector N)) : sorted_out :=
  let '(id, out) := g in
  if is_parton id || is_hadron (Z.abs id) then mkSorted (so_ev s) (so_leptons s) (so_jets s ++ map jet_of_fv out)
  else if is_clustered_to_lepton c id then mkSorted (so_ev s) (so_leptons s ++ map jet_of_fv out) (so_jets s)
  else if cl_neutrinos c || negb (neutrino (Z.abs id)) then
    mkSorted (fold_left (fun b p => add_outgoing b id p) out (so_ev s)) (so_leptons s) (so_jets s)
  else s.

(** src/cluster.rs:106-131: copying the event and treating the photons *)
Definition split_photons (mw : bool) (c : DefaultClustering) (outgoing : list (Z * list (FourVector N)))
  : option (sorted_out * list (Z * list (FourVector N))) :=
  let s := mkSorted (builder_new mw) [] [] in
  match binary_search_by (fun p => Z.compare photon (fst p)) outgoing with
  | Some photon_pos =>
      match nth_error outgoing photon_pos, swap_remove photon_pos outgoing with
      | Some (_, photons), Some rest => Some (fold_left (treat_photon c outgoing) photons s, rest)
      | _, _ => None
      end
  | None => Some (s, outgoing)
  end.

(** src/cluster.rs:106-166 [DefaultClustering::cluster]; [mw]: feature "multiweight".  The
    [debug_assert] on the order of the particle ids is not modelled: events are always built in
    this order. *)
Definition default_cluster (mw : bool) (sort : sorter) (c : DefaultClustering) (orig : Event N) : option (Event N) :=
  match split_photons mw c (ev_out orig) with
  | None => None
  | Some (s, outgoing) =>
      let s := fold_left (treat_other c) outgoing s in
      let ev := fold_left (fun b jet => add_outgoing b PID_JET (fv_of_jet jet)) (jets (so_jets s) (cl_jet c)) (so_ev s) in
      let ev := match cl_lepton c with
                | Some def => fold_left (fun b lepton => add_outgoing b PID_DRESSED_LEPTON (fv_of_jet lepton)) (jets (so_leptons s) def) ev
                | None => ev
                end in
      let ev := build sort ev in
      Some (mkEvent (ev_id orig) (ev_weights orig) (ev_out ev))
  end.

(** src/cluster.rs:169-182 [NoClustering] *)
Definition no_cluster (ev : Event N) : Event N := ev.
End Cluster.
Arguments mkPJ {N}. Arguments pj_e {N}. Arguments pj_px {N}. Arguments pj_py {N}. Arguments pj_pz {N}.
Arguments pj_new {N}. Arguments pj_add {N}. Arguments pj_sub {N}. Arguments pj_pt2 {N}. Arguments fv_of_jet {N}. Arguments jet_of_fv {N}.
Arguments mkJetDef {N}. Arguments jd_algorithm {N}. Arguments jd_radius {N}. Arguments jd_min_pt {N}.
Arguments mkPhotonDef {N}. Arguments pd_min_e_fraction {N}. Arguments pd_radius {N}. Arguments pd_min_pt {N}.
Arguments mkClustering {N}. Arguments cl_jet {N}. Arguments cl_lepton {N}. Arguments cl_photon {N}. Arguments cl_neutrinos {N}.
Arguments clustering_new {N}. Arguments with_lepton_def {N}. Arguments with_photon_def {N}. Arguments include_neutrinos {N}.
Arguments is_isolated {N}. Arguments cone_momentum {N}. Arguments cone_step {N}. Arguments jets {N}. Arguments is_clustered_to_lepton {N}.
Arguments mkSorted {N}. Arguments so_ev {N}. Arguments so_leptons {N}. Arguments so_jets {N}.
Arguments treat_photon {N}. Arguments treat_other {N}. Arguments split_photons {N}. Arguments default_cluster {N}. Arguments no_cluster {N}.
