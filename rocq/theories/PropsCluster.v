(** Clustering (C46) and four-vectors (C55). *)
From Coq Require Import ZArith Reals Lra.
From Verif Require Import Base Num BaseProofs ModelEvent SpecEvent EventProofs ModelCluster SpecCluster ClusterProofs TextExamples.

(** C46: clustering keeps id and weights.  It does not panic.  The outgoing particles of the result
    are: the particles that are kept; the isolated photons with id 83; the jets clustered from the
    particles whose fate is to be clustered to jets, with id 81; if leptons are clustered, the dressed
    leptons clustered from the particles whose fate is to be clustered to leptons, with id 82. *)
Theorem C46_fates : forall (N : NumOps) (D : N -> Prop) mw sort neutrino hadron delta_r cluster_if
    (c : DefaultClustering N) (ev : Event N),
  cmp_on N D -> sort_ok sort -> grouped (ev_out ev) ->
  let particles := particles_of (ev_out ev) in
  let fated f := with_fate neutrino hadron delta_r c f particles in
  let jets_from l := cluster_if (jd_algorithm (cl_jet c)) (jd_radius (cl_jet c)) (hard (cl_jet c)) l in
  let leptons_from l := match cl_lepton c with
    | Some d => cluster_if (jd_algorithm d) (jd_radius d) (hard d) l
    | None => [] end in
  Forall (fun x => mom_in D (snd x)) particles ->
  (forall l j, Permutation l (momenta (fated ToJet)) -> In j (jets_from l) -> mom_in D (fv_of_jet j)) ->
  (forall l j, Permutation l (momenta (fated ToLepton)) -> In j (leptons_from l) -> mom_in D (fv_of_jet j)) ->
  exists ev' to_jets to_leptons,
    default_cluster neutrino hadron delta_r cluster_if mw sort c ev = Some ev' /\
    Permutation to_jets (momenta (fated ToJet)) /\ Permutation to_leptons (momenta (fated ToLepton)) /\
    ev_id ev' = ev_id ev /\ ev_weights ev' = ev_weights ev /\ grouped (ev_out ev') /\
    Permutation (particles_of (ev_out ev'))
      (fated Kept ++ map (fun x => (83%Z, snd x)) (fated Isolated) ++
       map (fun j => (81%Z, fv_of_jet j)) (jets_from to_jets) ++
       map (fun j => (82%Z, fv_of_jet j)) (leptons_from to_leptons)).
Proof.
  intros N D mw sort neutrino hadron delta_r cluster_if c ev HD Hsort Hg particles fated jets_from leptons_from Hin Hj Hl.
  destruct Hg as [Hs Hg].
  destruct (sorted_all neutrino hadron delta_r c mw (ev_out ev) Hs) as (s & rest & l & E & Hp & Hput).
  unfold default_cluster. rewrite E, Hput. clear E Hput. fold particles in Hp |- *.
  unfold put. cbn [so_ev so_leptons so_jets b_weights b_out builder_new app].
  rewrite add_jets. cbn [b_weights b_out].
  set (tj := momenta (filter (fun x => fate_eqb (fate_of neutrino hadron delta_r c particles x) ToJet) l)).
  set (tl := momenta (filter (fun x => fate_eqb (fate_of neutrino hadron delta_r c particles x) ToLepton) l)).
  set (adds := flat_map (added neutrino hadron delta_r c particles) l).
  assert (Hf : forall f, Permutation (filter (fun x => fate_eqb (fate_of neutrino hadron delta_r c particles x) f) l) (fated f)).
  { intros f. apply filter_perm. exact Hp. }
  assert (Hadds : Permutation adds (fated Kept ++ map (fun x => (83%Z, snd x)) (fated Isolated))).
  { unfold adds. etransitivity; [apply added_perm|]. apply Permutation_app; [apply Hf|]. apply Permutation_map. apply Hf. }
  assert (Htj : Permutation tj (momenta (fated ToJet))) by (apply Permutation_map; apply Hf).
  assert (Htl : Permutation tl (momenta (fated ToLepton))) by (apply Permutation_map; apply Hf).
  set (b := match cl_lepton c with Some _ => _ | None => _ end).
  assert (Eb : b = mkBuilder (b_weights (@builder_new N mw)) (adds ++ map (fun j => (81%Z, fv_of_jet j)) (jets_from tj) ++
      map (fun j => (82%Z, fv_of_jet j)) (leptons_from tl))).
  { unfold b, leptons_from. destruct (cl_lepton c) as [d|].
    - rewrite add_jets. cbn [b_weights b_out]. rewrite <- app_assoc. reflexivity.
    - cbn [map]. rewrite app_nil_r. reflexivity. }
  clearbody b. subst b.
  set (all := adds ++ _).
  assert (Hall : Forall (fun x => mom_in D (snd x)) all).
  { rewrite Forall_forall in *. intros x. unfold all. rewrite !in_app_iff. intros [H|[H|H]].
    - apply (Permutation_in _ Hadds) in H. rewrite in_app_iff, in_map_iff in H. unfold fated, with_fate in H.
      destruct H as [H|(y & <- & H)]; apply filter_In in H; destruct H as [H _]; apply Hin in H; exact H.
    - apply in_map_iff in H. destruct H as (j & <- & H). cbn [snd]. eapply Hj; eauto.
    - apply in_map_iff in H. destruct H as (j & <- & H). cbn [snd]. eapply Hl; eauto. }
  pose proof (@compress_spec N D HD sort Hsort all) as (A & _ & B).
  { revert Hall. apply Forall_impl. intros x Hx. exact Hx. }
  eexists _, tj, tl. split; [reflexivity|]. split; [exact Htj|]. split; [exact Htl|].
  cbn [ev_id ev_weights ev_out build b_out]. split; [reflexivity|]. split; [reflexivity|]. split; [exact A|].
  etransitivity; [symmetry; exact B|]. unfold all. rewrite app_assoc.
  rewrite (app_assoc (fated Kept)). rewrite <- (app_assoc adds). apply Permutation_app_tail. exact Hadds.
Qed.
Print Assumptions C46_fates.

(** C46: no momentum is lost.  In exact arithmetic the total momentum of the particles before
    clustering is the total momentum after clustering, plus that of the dropped neutrinos, plus that
    of jets and dressed leptons at or below the minimum transverse momentum. *)
Theorem C46_momentum : forall mw sort neutrino hadron delta_r cluster_if (c : DefaultClustering RN) (ev : Event RN),
  jet_algorithm cluster_if -> sort_ok sort -> grouped (ev_out ev) ->
  exists ev' soft_jets soft_leptons,
    default_cluster neutrino hadron delta_r cluster_if mw sort c ev = Some ev' /\
    Forall (fun j => (pj_px j * pj_px j + pj_py j * pj_py j <= jd_min_pt (cl_jet c) * jd_min_pt (cl_jet c))%R) soft_jets /\
    (forall d, cl_lepton c = Some d ->
      Forall (fun j => (pj_px j * pj_px j + pj_py j * pj_py j <= jd_min_pt d * jd_min_pt d)%R) soft_leptons) /\
    (cl_lepton c = None -> soft_leptons = []) /\
    forall k, component k ->
      (total k (momenta (particles_of (ev_out ev))) =
       total k (momenta (particles_of (ev_out ev'))) +
       total k (momenta (with_fate neutrino hadron delta_r c Dropped (particles_of (ev_out ev)))) +
       total k soft_jets + total k soft_leptons)%R.
Proof.
  intros mw sort neutrino hadron delta_r cluster_if c ev HJ Hsort Hg.
  assert (Htrue : forall p : FourVector RN, mom_in (fun _ => True) p) by (intros p; repeat constructor).
  assert (Hhard : forall d l, Forall (fun j => hard (N := RN) d j = false) l ->
    Forall (fun j => (pj_px j * pj_px j + pj_py j * pj_py j <= jd_min_pt d * jd_min_pt d)%R) l).
  { intros d l. apply Forall_impl. intros j Hj. unfold hard in Hj. cbn in Hj. apply Rltb_false in Hj. exact Hj. }
  destruct (C46_fates RN (fun _ => True) mw sort neutrino hadron delta_r cluster_if c ev RN_cmp Hsort Hg)
    as (ev' & tj & tl & E & Htj & Htl & _ & _ & _ & Hp); auto.
  { apply Forall_forall. auto. }
  destruct (jets_split cluster_if HJ (jd_algorithm (cl_jet c)) (jd_radius (cl_jet c)) (hard (cl_jet c)) tj) as (sj & Hsj & Tsj).
  assert (HL : exists sl,
    (forall d, cl_lepton c = Some d -> Forall (fun j => hard (N := RN) d j = false) sl) /\
    (cl_lepton c = None -> sl = []) /\
    forall k, component k -> (total k tl = total k (match cl_lepton c with
      | Some d => cluster_if (jd_algorithm d) (jd_radius d) (hard d) tl | None => [] end) + total k sl)%R).
  { destruct (cl_lepton c) as [d|] eqn:El.
    - destruct (jets_split cluster_if HJ (jd_algorithm d) (jd_radius d) (hard d) tl) as (sl & H1 & H2).
      exists sl. split; [intros ? [= <-]; exact H1|]. split; [discriminate|exact H2].
    - exists []. split; [discriminate|]. split; [auto|]. intros k Hk.
      assert (Hn : with_fate neutrino hadron delta_r c ToLepton (particles_of (ev_out ev)) = []).
      { unfold with_fate. rewrite (filter_ext _ (fun _ => false)).
        - generalize (particles_of (ev_out ev)). intros l0. induction l0; cbn; auto.
        - intros [id p]. unfold fate_of. cbn [fst snd]. rewrite El.
          destruct (id =? 22)%Z; [destruct (isolated_in neutrino delta_r c (particles_of (ev_out ev)) p); auto|].
          cbn [andb]. destruct (_ || _ || _); auto. destruct (_ && _); auto. }
      rewrite (total_perm k _ _ Htl), Hn. unfold total. cbn. lra. }
  destruct HL as (sl & Hsl & Hsl0 & Tsl).
  exists ev', sj, sl. split; [exact E|]. split; [apply Hhard; exact Hsj|].
  split; [intros d Hd; apply Hhard; auto|]. split; [exact Hsl0|].
  intros k Hk. rewrite (total_fates k (fate_of neutrino hadron delta_r c (particles_of (ev_out ev)))).
  rewrite (total_perm k (momenta (particles_of (ev_out ev'))) _ (Permutation_map _ Hp)).
  rewrite !map_app, !total_app.
  match goal with |- context[total k (map _ (map (fun j => (81%Z, _)) ?l))] =>
    change (total k (map (fun x : Z * FourVector RN => jet_of_fv (snd x)) (map (fun j => (81%Z, fv_of_jet j)) l)))
      with (total k (momenta (map (fun j => (81%Z, fv_of_jet j)) l))) end.
  match goal with |- context[total k (map _ (map (fun j => (82%Z, _)) ?l))] =>
    change (total k (map (fun x : Z * FourVector RN => jet_of_fv (snd x)) (map (fun j => (82%Z, fv_of_jet j)) l)))
      with (total k (momenta (map (fun j => (82%Z, fv_of_jet j)) l))) end.
  rewrite !(total_jets k Hk). specialize (Tsj k Hk). specialize (Tsl k Hk).
  rewrite (total_perm k _ _ Htj) in Tsj. rewrite (total_perm k _ _ Htl) in Tsl.
  rewrite map_map. cbn [snd].
  unfold with_fate, momenta in *. lra.
Qed.
Print Assumptions C46_momentum.

(** C46: in exact arithmetic a photon is isolated if and only if its transverse momentum is at least
    the minimum and exceeds the given fraction of the transverse energy of all *other* particles
    in the cone around it that are not neutrinos or muons. *)
Theorem C46_isolation : forall neutrino delta_r (c : DefaultClustering RN) before after p,
  neutrino 22%Z = false ->
  (forall d, cl_photon c = Some d -> (delta_r (jet_of_fv p) (jet_of_fv p) < pd_radius d)%R) ->
  forall out, particles_of out = before ++ (22%Z, p) :: after ->
  is_isolated neutrino delta_r c p out = true <->
  exists d, cl_photon c = Some d /\ (pd_min_pt d <= fv_pt p)%R /\
    (pd_min_e_fraction d *
       transverse_energy (N := RN) (pj_total (map jet_of_fv (cone neutrino delta_r (pd_radius d) p (before ++ after)))) < fv_pt p)%R.
Proof.
  intros neutrino delta_r c before after p Hn Hr out Hout. rewrite isolated_spec, Hout. unfold isolated_in, photon_cut.
  destruct (cl_photon c) as [d|]; [|split; [discriminate|intros (d & H & _); discriminate]].
  specialize (Hr d eq_refl).
  assert (Ht : pj_sub (pj_total (map jet_of_fv (cone neutrino delta_r (pd_radius d) p (before ++ (22%Z, p) :: after)))) (jet_of_fv p)
    = pj_total (map jet_of_fv (cone neutrino delta_r (pd_radius d) p (before ++ after)))).
  { assert (Hc : cone neutrino delta_r (pd_radius d) p ((22%Z, p) :: after) = p :: cone neutrino delta_r (pd_radius d) p after).
    { unfold cone. cbn [filter fst snd]. change (Z.abs 22) with 22%Z. rewrite Hn. cbn [negb andb Z.eqb Pos.eqb].
      cbn [nltb RN]. destruct (Rltb _ _) eqn:El; [reflexivity|apply Rltb_false in El; lra]. }
    apply pj_ext. intros k Hk. rewrite (k_sub k Hk), !(pj_total_total k Hk), !cone_app, Hc, !map_app, !total_app.
    cbn [map]. rewrite total_cons. lra. }
  rewrite Ht. rewrite andb_true_iff, negb_true_iff. cbn [nltb RN]. rewrite Rltb_false, Rltb_true. split.
  - intros [H1 H2]. exists d. auto.
  - intros (d' & [= <-] & H1 & H2). auto.
Qed.
Print Assumptions C46_isolation.

(** C55: the transverse momentum of every four-vector that can be obtained is that of its
    components; sums and differences of four-vectors are taken component by component. *)
Theorem C55_pt : forall (N : NumOps), nsqrt (nadd (nmul n0 n0) (nmul n0 n0)) = (n0 : N) ->
  forall p : FourVector N, obtainable p ->
  fv_pt p = nsqrt (nadd (nmul (fv_x p) (fv_x p)) (nmul (fv_y p) (fv_y p))).
Proof. intros N H0 p H. destruct H; cbn; auto. Qed.
Print Assumptions C55_pt.

(** The hypothesis of [C55_pt] holds for binary64 and for exact numbers. *)
Theorem C55_zero : nsqrt (nadd (nmul n0 n0) (nmul n0 n0)) = (n0 : B64) /\ nsqrt (nadd (nmul n0 n0) (nmul n0 n0)) = (n0 : RN).
Proof. split; [reflexivity|]. cbn. rewrite Rmult_0_l, Rplus_0_l. apply sqrt_0. Qed.
Print Assumptions C55_zero.

(** Exact arithmetic: with the components (E, px, py, pz), addition and subtraction act on each
    component, pt is the length of (px, py), and the norms are those of three and four dimensions. *)
Theorem C55_components : forall (p q : FourVector RN),
  let comps (v : FourVector RN) := (fv_e v, fv_x v, fv_y v, fv_z v) in
  comps (fv_add p q) = (fv_e p + fv_e q, fv_x p + fv_x q, fv_y p + fv_y q, fv_z p + fv_z q)%R /\
  comps (fv_sub p q) = (fv_e p - fv_e q, fv_x p - fv_x q, fv_y p - fv_y q, fv_z p - fv_z q)%R /\
  (obtainable p -> fv_sub (fv_add p q) q = p /\ (0 <= fv_pt p /\ fv_pt p * fv_pt p = fv_x p * fv_x p + fv_y p * fv_y p)%R) /\
  (spatial_norm RN p * spatial_norm RN p = fv_x p * fv_x p + fv_y p * fv_y p + fv_z p * fv_z p)%R /\
  (euclid_norm RN p * euclid_norm RN p = fv_e p * fv_e p + fv_x p * fv_x p + fv_y p * fv_y p + fv_z p * fv_z p)%R.
Proof.
  intros p q comps. split; [reflexivity|]. split; [reflexivity|].
  assert (Hsq : forall a : R, (0 <= a * a)%R) by (intros a; nra).
  split.
  - intros Hp. assert (Hpt := C55_pt RN (proj2 C55_zero) p Hp). split.
    + destruct p as [pt e x y z], q as [pt' e' x' y' z']. unfold fv_sub, fv_add, update_pt. cbn in *.
      replace (e + e' - e')%R with e by lra. replace (x + x' - x')%R with x by lra.
      replace (y + y' - y')%R with y by lra. replace (z + z' - z')%R with z by lra. rewrite Hpt. reflexivity.
    + cbn in Hpt. rewrite Hpt. split; [apply sqrt_pos|]. apply sqrt_sqrt. pose proof (Hsq (fv_x p)). pose proof (Hsq (fv_y p)). cbn in *. lra.
  - pose proof (Hsq (fv_x p)). pose proof (Hsq (fv_y p)). pose proof (Hsq (fv_z p)). pose proof (Hsq (fv_e p)).
    unfold spatial_norm, euclid_norm, spatial_norm_sq, euclid_norm_sq, nsum. cbn in *.
    split; rewrite sqrt_sqrt; lra.
Qed.
Print Assumptions C55_components.

(** ** The hypotheses can be met *)

(** A jet algorithm that combines everything, and one that combines nothing *)
Definition one_jet {N : NumOps} (_ : JetAlgorithm) (_ : N) (accept : PseudoJet N -> bool) (l : list (PseudoJet N)) : list (PseudoJet N) :=
  filter accept [pj_total l].
Definition no_jets {N : NumOps} (_ : JetAlgorithm) (_ : N) (accept : PseudoJet N -> bool) (l : list (PseudoJet N)) : list (PseudoJet N) :=
  filter accept (map (fun p => pj_total [p]) l).
Example C46_algorithms : jet_algorithm one_jet /\ jet_algorithm no_jets.
Proof.
  split; intros a r accept l.
  - exists [l]. cbn [concat map]. rewrite app_nil_r. split; reflexivity.
  - exists (map (fun p => [p]) l). split; [|unfold no_jets; rewrite map_map; reflexivity].
    induction l; cbn; auto.
Qed.

(** Integers as numbers *)
Lemma ZN_cmp : cmp_on ZN (fun _ => True).
Proof.
  split; [split; [split|]|]; cbn; intros *.
  - intros _ _. rewrite !Z.leb_le. lia.
  - intros _ _ _. rewrite !Z.leb_le. lia.
  - intros _ _. destruct (Z.ltb_spec x y), (Z.leb_spec y x); cbn; auto; lia.
  - intros _ _. destruct (Z.eqb_spec x y), (Z.leb_spec x y), (Z.leb_spec y x); cbn; auto; lia.
Qed.

(** A Higgs boson; three photons, of which the first has nothing around it, the second an antiquark
    (and a muon, which does not count), and the third is too soft; a gluon and an antiquark; a muon, an
    electron and an antineutrino.  Distances are those of px. *)
Definition ex_v (e x y z : Z) : FourVector ZN := fv_from (N := ZN) e x y z.
Definition ex_event : Event ZN :=
  mkEvent (N := ZN) 7 [3%Z] [(25, [ex_v 125 0 0 0]); (22, [ex_v 50 30 40 0; ex_v 10 6 8 0; ex_v 5 0 5 0]); (21, [ex_v 13 12 5 0]);
    (13, [ex_v 5 3 4 0]); (11, [ex_v 65 (-33) 56 0]); (-2, [ex_v 17 8 15 0]); (-14, [ex_v 9 0 0 9])]%Z.
Definition ex_neutrino (id : Z) : bool := (id =? 12)%Z || (id =? 14)%Z || (id =? 16)%Z.
Definition ex_dist (p q : PseudoJet ZN) : Z := Z.abs (pj_px p - pj_px q).
Definition ex_cfg : DefaultClustering ZN :=
  with_photon_def (with_lepton_def (clustering_new (mkJetDef (N := ZN) AntiKt 1%Z 10%Z)) (mkJetDef (N := ZN) Kt 1%Z 5%Z)) (mkPhotonDef (N := ZN) 1%Z 4%Z 10%Z).
Example C46_case :
  grouped (ev_out ex_event) /\
  map (fun f => map fst (with_fate ex_neutrino (fun _ => false) ex_dist ex_cfg f (particles_of (ev_out ex_event))))
    [Kept; Isolated; ToJet; ToLepton; Dropped] = [[25]; [22]; [21; -2]; [22; 22; 13; 11]; [-14]]%Z /\
  default_cluster ex_neutrino (fun _ => false) ex_dist one_jet true isort ex_cfg ex_event =
    Some (mkEvent (N := ZN) 7 [3%Z] [(83, [ex_v 50 30 40 0]); (82, [ex_v 85 (-24) 73 0]); (81, [ex_v 30 20 20 0]); (25, [ex_v 125 0 0 0])]%Z).
Proof.
  split; [|split; vm_compute; reflexivity].
  split; repeat constructor; cbn; try discriminate; try reflexivity; left; reflexivity.
Qed.
