(** C88: for which events clustering panics, and what becomes of extreme particle ids. *)
From Coq Require Import ZArith Reals Lra Lia SpecFloat.
From Flocq Require Import Core.Core IEEE754.BinarySingleNaN.
From Verif Require Import Base BaseProofs Num ModelEvent SpecEvent EventProofs ModelText ModelHepMC TextExamples PropsHepMC ModelIO ModelCres ModelResampler ModelSeeds ModelNaive ModelMain PropsMain
  B64Proofs ModelCluster SpecCluster ClusterProofs PropsCluster ModelClusterI32 SpecClusterI32 ClusterI32Proofs.
Local Open Scope list_scope.

(** *** Debug builds *)
(** Clustering panics exactly for events with a particle whose id is the smallest 32 bit integer,
    and for those with a photon where the transverse energy around it is NaN. *)
Theorem C88_panics : forall (N : NumOps) neutrino hadron delta_r cluster_if mw sort (c : DefaultClustering N) (ev : Event N), grouped (ev_out ev) ->
  (default_cluster_i32 true neutrino hadron delta_r cluster_if mw sort c ev = None <->
   (exists p, In ((- 2 ^ 31)%Z, p) (particles_of (ev_out ev))) \/
   (exists p, In (22%Z, p) (particles_of (ev_out ev)) /\ undefined_cone neutrino delta_r c (particles_of (ev_out ev)) p)).
Proof.
  intros N neutrino hadron delta_r cluster_if mw sort c ev [Hs Hg].
  assert (HI : forall id p, In (id, p) (particles_of (ev_out ev)) <-> exists ps, In (id, ps) (ev_out ev) /\ In p ps).
  { intros id p. unfold particles_of. rewrite in_flat_map. split.
    - intros ([id' ps] & H1 & H2). apply in_map_iff in H2 as (q & E & H2). injection E as <- <-. eauto.
    - intros (ps & H1 & H2). exists (id, ps). split; [exact H1|]. apply in_map_iff. eauto. }
  destruct (Exists_dec (fun g : Z * list (FourVector N) => fst g = i32_min) (ev_out ev)) as [Hm|Hm]; [intros g; apply Z.eq_dec| |].
  - apply Exists_exists in Hm as ([id ps] & Hin & E). cbn [fst] in E. subst id. split; [|intros _; apply cluster_min; eauto].
    intros _. left. rewrite Forall_forall in Hg. destruct (Hg _ Hin) as [Hne _]. cbn [snd] in Hne. destruct ps as [|p ps]; [contradiction|].
    exists p. apply HI. exists (p :: ps). split; [exact Hin|left; reflexivity].
  - assert (Ho : all_ordinary (ev_out ev)).
    { apply Forall_forall. intros g Hin E. apply Hm. apply Exists_exists. eauto. }
    assert (Hdec : forall p, undefined_cone neutrino delta_r c (particles_of (ev_out ev)) p \/ ~ undefined_cone neutrino delta_r c (particles_of (ev_out ev)) p).
    { intros p. unfold undefined_cone. destruct (cl_photon c) as [d|]; [|right; intros (d & E & _); discriminate].
      destruct (nltb (fv_pt p) (pd_min_pt d)) eqn:El; [right; intros (d' & E & E2 & _); congruence|].
      destruct (neqb (transverse_energy (pj_sub (pj_total (map jet_of_fv (cone neutrino delta_r (pd_radius d) p (particles_of (ev_out ev))))) (jet_of_fv p)))
        (transverse_energy (pj_sub (pj_total (map jet_of_fv (cone neutrino delta_r (pd_radius d) p (particles_of (ev_out ev))))) (jet_of_fv p)))) eqn:E.
      - right. intros (d' & E1 & _ & E2). injection E1 as <-. cbv zeta in E2. congruence.
      - left. exists d. auto. }
    assert (Hex : (exists p, In (22%Z, p) (particles_of (ev_out ev)) /\ undefined_cone neutrino delta_r c (particles_of (ev_out ev)) p) \/
      (forall p, In (22%Z, p) (particles_of (ev_out ev)) -> ~ undefined_cone neutrino delta_r c (particles_of (ev_out ev)) p)).
    { revert Hdec. generalize (undefined_cone neutrino delta_r c (particles_of (ev_out ev))). intros Q Hdec. generalize (particles_of (ev_out ev)).
      induction l as [|[id p] l IH]; [right; intros p []|]. destruct IH as [(q & H1 & H2)|IH]; [left; exists q; split; [right; exact H1|exact H2]|].
      destruct (Z.eq_dec id 22) as [->|Hid].
      - destruct (Hdec p) as [H|H]; [left; exists p; split; [left; reflexivity|exact H]|]. right. intros q [E|Hq]; [injection E as <-; exact H|apply IH; exact Hq].
      - right. intros q [E|Hq]; [injection E as E _; contradiction|apply IH; exact Hq]. }
    destruct Hex as [(p & H1 & H2)|Hno].
    + split; [intros _; right; eauto|intros _; eapply cluster_nan; eauto].
    + rewrite cluster_same by auto. destruct (sorted_all neutrino hadron delta_r c mw (ev_out ev) Hs) as (s & rest & l & E & _). unfold default_cluster. rewrite E.
      split; [discriminate|]. intros [(p & H)|(p & H1 & H2)]; [|exfalso; exact (Hno p H1 H2)].
      apply HI in H as (ps & H & _). exfalso. apply Hm. apply Exists_exists. exists (i32_min, ps). split; [exact H|reflexivity].
Qed.
Print Assumptions C88_panics.

(** *** All builds *)
(** For all other events the result is that of ModelCluster.v, so that C46 applies. *)
Theorem C88_ordinary_partial : forall (N : NumOps) checks neutrino hadron delta_r cluster_if mw sort (c : DefaultClustering N) (ev : Event N), grouped (ev_out ev) ->
  (forall p, ~ In ((- 2 ^ 31)%Z, p) (particles_of (ev_out ev))) ->
  (checks = true -> forall p, In (22%Z, p) (particles_of (ev_out ev)) -> ~ undefined_cone neutrino delta_r c (particles_of (ev_out ev)) p) ->
  default_cluster_i32 checks neutrino hadron delta_r cluster_if mw sort c ev = default_cluster neutrino hadron delta_r cluster_if mw sort c ev.
Proof.
  intros N checks neutrino hadron delta_r cluster_if mw sort c ev [Hs Hg] Hno Hn. apply cluster_same; [exact Hs| |exact Hn].
  apply Forall_forall. intros [id ps] Hin E. cbn [fst] in E. subst id. rewrite Forall_forall in Hg. destruct (Hg _ Hin) as [Hne _]. cbn [snd] in Hne.
  destruct ps as [|p ps]; [contradiction|]. apply (Hno p). unfold particles_of. apply in_flat_map. exists (i32_min, p :: ps). split; [exact Hin|left; reflexivity].
Qed.
Print Assumptions C88_ordinary_partial.

(** In release builds, particles with the smallest id are treated like quarks: they are clustered to jets. *)
Theorem C88_release : forall (N : NumOps) neutrino hadron delta_r cluster_if mw sort (c : DefaultClustering N) (ev : Event N),
  neutrino (- 2 ^ 31)%Z = false -> neutrino 1%Z = false ->
  default_cluster_i32 false neutrino hadron delta_r cluster_if mw sort c ev =
  default_cluster neutrino hadron delta_r cluster_if mw sort c (mkEvent (ev_id ev) (ev_weights ev) (map as_quark (ev_out ev))).
Proof. intros N neutrino hadron delta_r cluster_if mw sort c ev H1 H2. apply cluster_wrap; assumption. Qed.
Print Assumptions C88_release.

(** *** The full property does not hold *)
Definition never_panics {N : NumOps} neutrino hadron delta_r cluster_if mw sort (c : DefaultClustering N) : Prop :=
  forall ev : Event N, grouped (ev_out ev) -> default_cluster_i32 true neutrino hadron delta_r cluster_if mw sort c ev <> None.
(** whatever the settings *)
Theorem C88_smallest_id_refuted : forall (N : NumOps) neutrino hadron delta_r cluster_if mw sort (c : DefaultClustering N),
  ~ never_panics neutrino hadron delta_r cluster_if mw sort c.
Proof.
  intros N neutrino hadron delta_r cluster_if mw sort c H. apply (H (mkEvent 0 [] [((- 2 ^ 31)%Z, [fv_new])])).
  - split; [repeat constructor|]. apply Forall_cons; [|apply Forall_nil]. split; [discriminate|]. repeat constructor.
  - apply C88_panics.
    + split; [repeat constructor|]. apply Forall_cons; [|apply Forall_nil]. split; [discriminate|]. repeat constructor.
    + left. exists fv_new. left. reflexivity.
Qed.
Print Assumptions C88_smallest_id_refuted.

(** A photon and a gluon too soft to change the energy of the sum, but not its longitudinal
    momentum.  All momenta are finite and time-like; the transverse energy around the photon is NaN. *)
Definition physical (p : FourVector B64) : Prop :=
  Forall (fun x => b64_fin x) [fv_e p; fv_x p; fv_y p; fv_z p] /\ (0 <= b64_val (fv_e p))%R /\
  (b64_val (fv_x p) * b64_val (fv_x p) + b64_val (fv_y p) * b64_val (fv_y p) + b64_val (fv_z p) * b64_val (fv_z p) <= b64_val (fv_e p) * b64_val (fv_e p))%R.
Definition i_photon : FourVector B64 := Eval vm_compute in fv_from (N := B64) (b64_of_Z 1025) (b64_of_Z 100) (b64_of_Z 0) (b64_of_Z 1020).
Definition i_soft : FourVector B64 := Eval vm_compute in
  let scaled m := ndiv (n := B64) (b64_of_Z m) (b64_of_Z (2 ^ 49)) in fv_from (N := B64) (scaled 64%Z) (scaled 8%Z) (b64_of_Z 0) (scaled 63%Z).
Definition i_event : Event B64 := mkEvent (N := B64) 0 [b64_of_Z 1] [(22%Z, [i_photon]); (21%Z, [i_soft])].
Definition i_cfg : DefaultClustering B64 :=
  with_photon_def (clustering_new (mkJetDef (N := B64) AntiKt (b64_of_Z 1) (b64_of_Z 10))) (mkPhotonDef (N := B64) (b64_of_Z 1) (b64_of_Z 1) (b64_of_Z 10)).
Lemma i_physical : physical i_photon /\ physical i_soft.
Proof.
  split; (split; [repeat constructor|]); unfold i_photon, i_soft, b64_val, SF2R, F2R; cbn [fv_e fv_x fv_y fv_z]; cbn; lra.
Qed.
Theorem C88_isolation_refuted : ~ (forall neutrino hadron delta_r cluster_if mw sort (c : DefaultClustering B64) (ev : Event B64), grouped (ev_out ev) ->
  Forall (fun x => physical (snd x) /\ (- 2 ^ 31 < fst x)%Z) (particles_of (ev_out ev)) ->
  default_cluster_i32 true neutrino hadron delta_r cluster_if mw sort c ev <> None).
Proof.
  intros H. apply (H ex_neutrino (fun _ => false) (fun _ _ => n0) (fun _ _ accept l => filter accept l) false isort i_cfg i_event).
  - split; [repeat constructor|]. repeat (apply Forall_cons; [split; [discriminate|repeat constructor]|]). apply Forall_nil.
  - destruct i_physical as [H1 H2]. apply Forall_cons; [split; [exact H1|reflexivity]|]. apply Forall_cons; [split; [exact H2|reflexivity]|]. apply Forall_nil.
  - vmr.
Qed.
Print Assumptions C88_isolation_refuted.

(** A run of the program (debug build) on a file in which a particle has the smallest id *)
Definition i_record : text := Eval vm_compute in
  ln "E 1 2 3 4 5 6 7 8 9 10 0 1 5" ++ ln "N 1 ""nominal""" ++ ln "U GEV MM" ++ ln "P 1 11 3 4 12 13 0 1" ++ ln "P 2 -2147483648 3 4 12 13 0 1" ++ ln "V 1".
Definition i_file : text := Eval vm_compute in ex_header ++ i_record.
Definition i_read : Event ZN := Eval vm_compute in match @parse_hepmc ZN z_double false isort [] i_record with Ok ev => ev | _ => mkEvent 0 [] [] end.
Definition i_out : list text := Eval vm_compute in
  match @cres_program ZN z_double z_show m_xml true false [] isort (default_cluster_i32 false ex_neutrino (fun _ => false) ex_dist one_jet false isort ex_cfg) (fun l => rev l)
    m_resample lib_no_unweight 10 [i_file] with Done l => l | _ => [] end.
Theorem C88_program_refuted :
  @parse_hepmc ZN z_double false isort [] i_record = Ok i_read /\
  (forall checks, @cres_program ZN z_double z_show m_xml checks false [] isort (default_cluster_i32 true ex_neutrino (fun _ => false) ex_dist one_jet false isort ex_cfg) (fun l => rev l)
    m_resample lib_no_unweight 10 [i_file] = Crash) /\
  (forall checks, @cres_program ZN z_double z_show m_xml checks false [] isort (default_cluster_i32 false ex_neutrino (fun _ => false) ex_dist one_jet false isort ex_cfg) (fun l => rev l)
    m_resample lib_no_unweight 10 [i_file] = Done i_out).
Proof. split; [vmr|]. split; intros [|]; vmr. Qed.
Print Assumptions C88_program_refuted.

(** *** Cases *)
(** The event of C46_case, and one with such a particle in place of the Higgs boson *)
Example C88_case : grouped (ev_out ex_event) /\ (forall p, ~ In ((- 2 ^ 31)%Z, p) (particles_of (ev_out ex_event))) /\
  (forall p, In (22%Z, p) (particles_of (ev_out ex_event)) -> ~ undefined_cone ex_neutrino ex_dist ex_cfg (particles_of (ev_out ex_event)) p) /\
  ex_neutrino (- 2 ^ 31)%Z = false /\ ex_neutrino 1%Z = false /\
  default_cluster_i32 false ex_neutrino (fun _ => false) ex_dist one_jet true isort ex_cfg
    (mkEvent (N := ZN) 7 [3%Z] [(22, [ex_v 50 30 40 0]); (- 2 ^ 31, [ex_v 30 20 20 0])]%Z) =
    Some (mkEvent (N := ZN) 7 [3%Z] [(83, [ex_v 50 30 40 0]); (81, [ex_v 30 20 20 0])]%Z).
Proof.
  split; [exact (proj1 C46_case)|]. split.
  { intros p H. cbn in H. intuition discriminate. }
  split.
  { intros p H (d & E & El & En). cbv zeta in En. unfold transverse_energy in En.
    assert (X : forall x : ZN, neqb x x = true) by (intros x; apply Z.eqb_refl). rewrite X in En. discriminate. }
  split; [reflexivity|]. split; [reflexivity|]. vmr.
Qed.
