(** Model of src/cluster.rs with particle ids as 32 bit integers and with the checks of debug
    builds: ModelCluster.v has unbounded ids and takes square roots as they are. *)
From Coq Require Import ZArith.
From Verif Require Import Base Num ModelEvent ModelCluster.

Definition i32_min : Z := (- 2 ^ 31)%Z.

(** [i32::abs], also behind [ParticleID::abs]: the absolute value of the smallest integer is not
    representable.  [checks]: this panics ([None]); otherwise the result is the argument. *)
Definition i32_abs (checks : bool) (id : Z) : option Z :=
  if Z.eqb id i32_min then if checks then None else Some i32_min else Some (Z.abs id).

Section Cluster.
Context (N : NumOps) (checks : bool) (neutrino hadron : Z -> bool) (delta_r : PseudoJet N -> PseudoJet N -> N)
  (cluster_if : JetAlgorithm -> N -> (PseudoJet N -> bool) -> list (PseudoJet N) -> list (PseudoJet N)).

(** src/cluster.rs:236-242 *)
Definition is_parton_i32 (id : Z) : option bool :=
  match i32_abs checks id with Some a => Some (Z.leb a bottom || Z.eqb id gluon) | None => None end.
(** src/cluster.rs:244-246, called with [id.abs()] at line 132 *)
Definition is_hadron_i32 (id : Z) : option bool :=
  match i32_abs checks id with
  | Some a => match i32_abs checks a with Some a => Some (hadron a) | None => None end
  | None => None
  end.
(** src/cluster.rs:132: the second operand is not evaluated if the first one is true *)
Definition to_jet_i32 (id : Z) : option bool :=
  match is_parton_i32 id with Some true => Some true | Some false => is_hadron_i32 id | None => None end.

(** src/cluster.rs:58-61 *)
Definition is_clustered_to_lepton_i32 (c : DefaultClustering N) (id : Z) : option bool :=
  match cl_lepton c with
  | None => Some false
  | Some _ => match i32_abs checks id with Some a => Some (is_light_lepton a || is_photon id) | None => None end
  end.
(** src/cluster.rs:140 *)
Definition kept_i32 (c : DefaultClustering N) (id : Z) : option bool :=
  if cl_neutrinos c then Some true else match i32_abs checks id with Some a => Some (negb (neutrino a)) | None => None end.

(** src/cluster.rs:79-89 *)
Definition cone_i32 (radius : N) (p : PseudoJet N) (event : list (Z * list (FourVector N))) : option (PseudoJet N) :=
  ofold (fun cone '(id, particles) =>
    match i32_abs checks id with
    | None => None
    | Some a => Some (if negb (neutrino a) && negb (is_muon a) then fold_left (cone_step delta_r radius p) particles cone else cone)
    end) event pj_new.

(** The square root of [N64]: with debug assertions, NaN panics.  NaN is what is not equal to itself. *)
Definition checked_sqrt (x : N) : option N :=
  let r := nsqrt x in if checks && negb (neqb r r) then None else Some r.

(** src/cluster.rs:63-99 [is_isolated].  Simplification: of the operations of [N64], only the
    square root is checked. *)
Definition is_isolated_i32 (c : DefaultClustering N) (p : FourVector N) (event : list (Z * list (FourVector N))) : option bool :=
  match cl_photon c with
  | None => Some false
  | Some d =>
      if nltb (fv_pt p) (pd_min_pt d) then Some false
      else
        match cone_i32 (pd_radius d) (jet_of_fv p) event with
        | None => None
        | Some cone =>
            let cone := pj_sub cone (jet_of_fv p) in
            match checked_sqrt (nsub (nmul (pj_e cone) (pj_e cone)) (nmul (pj_pz cone) (pj_pz cone))) with
            | None => None
            | Some cone_et => Some (nltb (nmul (pd_min_e_fraction d) cone_et) (fv_pt p))
            end
        end
  end.

(** src/cluster.rs:119-127 *)
Definition treat_photon_i32 (c : DefaultClustering N) (outgoing : list (Z * list (FourVector N))) (s : sorted_out N) (p : FourVector N) : option (sorted_out N) :=
  match is_isolated_i32 c p outgoing with
  | None => None
  | Some true => Some (mkSorted (add_outgoing (so_ev s) PID_ISOLATED_PHOTON p) (so_leptons s) (so_jets s))
  | Some false =>
      Some (if is_some (cl_lepton c) then mkSorted (so_ev s) (so_leptons s ++ [jet_of_fv p]) (so_jets s)
            else mkSorted (add_outgoing (so_ev s) photon p) (so_leptons s) (so_jets s))
  end.

(** src/cluster.rs:130-146 *)
Definition treat_other_i32 (c : DefaultClustering N) (s : sorted_out N) (g : Z * list (FourVector N)) : option (sorted_out N) :=
  let '(id, out) := g in
  match to_jet_i32 id with
  | None => None
  | Some true => Some (mkSorted (so_ev s) (so_leptons s) (so_jets s ++ map jet_of_fv out))
  | Some false =>
      match is_clustered_to_lepton_i32 c id with
      | None => None
      | Some true => Some (mkSorted (so_ev s) (so_leptons s ++ map jet_of_fv out) (so_jets s))
      | Some false =>
          match kept_i32 c id with
          | None => None
          | Some true => Some (mkSorted (fold_left (fun b p => add_outgoing b id p) out (so_ev s)) (so_leptons s) (so_jets s))
          | Some false => Some s
          end
      end
  end.

(** src/cluster.rs:106-128 *)
Definition split_photons_i32 (mw : bool) (c : DefaultClustering N) (outgoing : list (Z * list (FourVector N)))
  : option (sorted_out N * list (Z * list (FourVector N))) :=
  let s := mkSorted (builder_new mw) [] [] in
  match binary_search_by (fun p => Z.compare photon (fst p)) outgoing with
  | Some photon_pos =>
      match nth_error outgoing photon_pos, swap_remove photon_pos outgoing with
      | Some (_, photons), Some rest =>
          match ofold (treat_photon_i32 c outgoing) photons s with Some s => Some (s, rest) | None => None end
      | _, _ => None
      end
  | None => Some (s, outgoing)
  end.

(** src/cluster.rs:106-166 [DefaultClustering::cluster] *)
Definition default_cluster_i32 (mw : bool) (sort : sorter) (c : DefaultClustering N) (orig : Event N) : option (Event N) :=
  match split_photons_i32 mw c (ev_out orig) with
  | None => None
  | Some (s, outgoing) =>
      match ofold (treat_other_i32 c) outgoing s with
      | None => None
      | Some s =>
          let ev := fold_left (fun b jet => add_outgoing b PID_JET (fv_of_jet jet)) (jets cluster_if (so_jets s) (cl_jet c)) (so_ev s) in
          let ev := match cl_lepton c with
                    | Some def => fold_left (fun b lepton => add_outgoing b PID_DRESSED_LEPTON (fv_of_jet lepton)) (jets cluster_if (so_leptons s) def) ev
                    | None => ev
                    end in
          let ev := build sort ev in
          Some (mkEvent (ev_id orig) (ev_weights orig) (ev_out ev))
      end
  end.
End Cluster.
Arguments is_clustered_to_lepton_i32 {N}. Arguments kept_i32 {N}. Arguments cone_i32 {N}. Arguments checked_sqrt {N}. Arguments is_isolated_i32 {N}.
Arguments treat_photon_i32 {N}. Arguments treat_other_i32 {N}. Arguments split_photons_i32 {N}. Arguments default_cluster_i32 {N}.
