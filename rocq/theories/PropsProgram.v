(** Property C74: the program cres with its own components, from the options and the input files to
    the output files. *)
From Coq Require Import Reals Lra List Arith Lia Permutation Ascii Bool ZArith.
From Verif Require Import Base BaseProofs Num ModelEvent SpecEvent EventProofs ModelText SpecText SpecFormats TextProofs ModelHepMC ModelLHEF ModelStripper ModelIO IOProofs FormatProofs FileProofs2 FileProofs3
  TextExamples PropsHepMC PropsFormats PropsRecord
  ModelSeeds ModelCell ModelNaive NaiveProofs SpecTree ModelVPTree VPTreeProofs2 SpecSearch RunProofs2 ModelResampler ModelDistance SpecDistance DistanceProofs DistanceProofs2
  ModelCluster ModelOpt SpecOpt ModelUnweight ModelCres SpecCres SpecWeights CresProofs CresProofs2 ModelMain SpecMain MainProofs MainProofs2 MainProofs3 SpecPanic PanicProofs2 ModelProgram ProgramProofs ProgramProofs2
  PropsTree PropsOpt PropsMain PropsPanic.
Import ListNotations.
Local Open Scope nat_scope.

Lemma run_ext (N : NumOps) (Rec Err : Type) is_ntuple (convert : Rec -> Event N + Err) cluster mw sort shuffle resample unweighter unweighter' records :
  (forall l, unweighter l = unweighter' l) ->
  cres_run is_ntuple convert cluster mw sort shuffle resample unweighter records = cres_run is_ntuple convert cluster mw sort shuffle resample unweighter' records.
Proof.
  intros H. unfold cres_run. destruct (read_events _ _ _ _ _) as [u|]; [|reflexivity]. destruct (resample _) as [[l|]|]; [|reflexivity|reflexivity]. rewrite H. reflexivity.
Qed.

Section Lemmas.
Context (double : parser RN) (sort : sorter) (MAX : R) (km : assignment RN) (neutrino hadron : Z -> bool)
  (delta_r : PseudoJet RN -> PseudoJet RN -> RN)
  (cluster_if : JetAlgorithm -> RN -> (PseudoJet RN -> bool) -> list (PseudoJet RN) -> list (PseudoJet RN))
  (choose : chooser) (psum : list R -> R) (draws : nat -> R)
  (opt : cres_opt RN).
Lemma search_valid : sort_ok sort -> choose_ok choose -> forall evs max,
  valid_search (N := RN) (length evs) (search_of sort choose opt (length evs) (dist_wrapper (distance_of sort km opt) evs) max).
Proof.
  intros Hs Hc evs max. unfold search_of. destruct (co_search opt).
  - intros q Hq. destruct (@tree_sound RN (fun _ => True) sort choose (length evs) (dist_wrapper (distance_of sort km opt) evs) max q) as (l & E & Hn & Hl);
      auto using RN_order. exists l. split; [exact E|]. split; [exact Hn|]. intros i Hi. apply in_map_iff in Hi. destruct Hi as ((i' & d) & <- & Hi).
    destruct (Hl _ _ Hi) as (A & B & _). auto.
  - apply (naive_valid (D := fun _ => True)); auto using RN_order.
Qed.
Lemma minweight_total : (0 <= co_minweight opt)%R ->
  total_step (Err := option read_error) (fun _ => True) (unweighter_of psum draws opt).
Proof.
  intros H. apply lib_unweight_total. destruct H as [H|H]; [right; apply Rltb_true; exact H|left; apply Reqb_true; symmetry; exact H].
Qed.
Lemma cluster_weights c : forall e e' : Event RN, default_cluster neutrino hadron delta_r cluster_if false sort c e = Some e' -> ev_weights e' = ev_weights e.
Proof. intros e e' E. destruct (default_cluster_some neutrino hadron delta_r cluster_if false sort c e) as (e2 & E2 & Hw & _). congruence. Qed.
End Lemmas.

(** C74: suppose the options are consistent, no random number and no minimum weight is negative, and
    the input files are well-formed.  Then the program succeeds, and reading the output gives the
    same events (in number, order and outgoing particles) with one weight each.  The new weights add
    up to those of the input events that have particles after the clustering; with unweighting, unless
    they add up to zero.  If these weights add up to a nonnegative number and no distance between
    two of these events exceeds the maximum size of a cell, then no weight is negative.

    This holds for every search algorithm, strategy, weight of the transverse momentum, order of
    tasks, resolution of ties, jet algorithm and sequence of random numbers; exact arithmetic, one
    weight per event. *)
Theorem C74_program : forall (D : R -> Prop) (double : parser RN) show xml checks sort MAX km neutrino hadron delta_r cluster_if choose psum draws shuffle
    opt inputs files tags evs fuel,
  number_text RN D double show -> stops_at_tag xml -> reorders shuffle -> sort_ok sort -> choose_ok choose -> km_ok km ->
  (forall l, psum l = Rsum l) -> (forall k, (0 <= draws k)%R) -> (0 <= co_minweight opt)%R -> consistent (co_cluster opt) ->
  event_files xml inputs = Ok (files, tags) ->
  Forall (well_formed D double xml checks (extract_scaling tags)) files ->
  reads double show xml checks false [] sort inputs evs -> length evs < fuel ->
  exists c outs W,
    as_requested (co_cluster opt) c /\
    cres_main double show xml checks sort MAX km neutrino hadron delta_r cluster_if choose psum draws shuffle fuel opt inputs = Done outs /\
    length outs = length files /\ length W = length evs /\
    (Forall (writable D (extract_scaling tags)) W ->
     exists evs', reads double show xml checks false [] sort (replace_events xml inputs outs) evs' /\
       let clustered e e' := default_cluster neutrino hadron delta_r cluster_if false sort c e = Some e' in
       let has_out e := keeps_particles (default_cluster neutrino hadron delta_r cluster_if false sort c) e in
       let sum l := Rsum (map (fun e => nth 0 (ev_weights e) 0%R) l) in
       length evs' = length evs /\ map ev_out evs' = map ev_out evs /\ map ev_weights evs' = W /\
       (co_minweight opt = 0%R \/ sum evs' <> 0%R -> sum evs' = sum (filter has_out evs)) /\
       ((0 <= sum (filter has_out evs))%R -> (N.of_nat (length evs) <= usize_max)%N ->
        (forall e1 e2 e1' e2' d, In e1 (filter has_out evs) -> In e2 (filter has_out evs) -> clustered e1 e1' -> clustered e2 e2' ->
           distance sort km (co_ptweight opt) e1' e2' = Some d ->
           (d <= match co_max_cell_size opt with Some max => max | None => MAX end)%R) ->
        forall e, In e evs' -> exists w, ev_weights e = [w] /\ (0 <= w)%R)).
Proof.
  intros D double show xml checks sort MAX km neutrino hadron delta_r cluster_if choose psum draws shuffle opt inputs files tags evs fuel
    HT Hx Hs Hsort Hch Hkm Hps Hdr Hmin Hopt He Hwf Hread Hfuel.
  destruct (proj1 (C48_options RN (co_cluster opt)) Hopt) as (c & Ec & Hc). exists c.
  set (cluster := default_cluster neutrino hadron delta_r cluster_if false sort c) in *.
  destruct (C71_total_correctness RN D (fun _ => True) double show xml checks false [] sort cluster shuffle
    (resampler_of sort MAX km choose opt) (unweighter_of psum draws opt) inputs files tags evs fuel) as (outs & W & Hp & Hlo & HlW & (records & Hcv & Hrun) & Hout);
    try assumption; auto using kind_true.
  { intros e. apply (default_cluster_some neutrino hadron delta_r cluster_if false sort c e). }
  { apply lib_resample_total; [exact Hsort|exact RN_order|]. intros evs0. apply search_valid; assumption. }
  { apply minweight_total. exact Hmin. }
  exists outs, W. split; [exact Hc|]. split; [unfold cres_main; rewrite Ec; exact Hp|]. split; [exact Hlo|]. split; [exact HlW|].
  intros HW. exists (reweighted_all evs W). split; [exact (Hout HW)|]. cbn zeta. fold cluster.
  pose proof (cluster_weights sort neutrino hadron delta_r cluster_if c) as Hcl. fold cluster in Hcl.
  assert (Hll : length (combine evs W) = length evs) by (rewrite combine_length; lia).
  assert (Hone : Forall (fun ws => exists w, ws = [w]) W /\ 
    (co_minweight opt = 0%R \/ total (map ev_weights (reweighted_all evs W)) 0 <> 0%R ->
     total (map ev_weights (reweighted_all evs W)) 0 = (total (map ev_weights evs) 0 - total (map ev_weights (filter (fun e => negb (keeps_particles cluster e)) evs)) 0)%R)).
  { pose proof Hrun as Hrun'. unfold run_on in Hrun'. rewrite map_map in Hrun'. cbn beta iota in Hrun'.
    destruct (run_wrote Hs Hsort Hrun') as (Hl1 & evs0 & used & evs1 & evs2 & Hev & Hperm & Hr & Hu & Hid & HWn).
    destruct (clustered_of double false [] sort cluster (or_introl eq_refl) Hcl records evs evs0 Hcv Hev) as (Hw & Hd & H1).
    assert (Hsh : shaped false 1 (map ev_weights evs0)) by (rewrite Hw; split; [lia|split; [auto|exact H1]]).
    split.
    - pose proof (shaped_used Hsh Hperm) as (_ & _ & Hu1). unfold uniform in Hu1. rewrite Forall_map in Hu1.
      destruct (lib_resample_total RN (option read_error) (fun _ => True) false sort (co_strategy opt) (search_of sort choose opt) (distance_of sort km opt)
        (match co_max_cell_size opt with Some max => max | None => MAX end) Hsort RN_order (fun l => search_valid sort km choose opt Hsort Hch l _) used) as (e1 & E1 & F1 & N1 & _).
      { eapply Forall_impl; [|exact Hu1]. intros e H. cbn beta in H. destruct (ev_weights e) as [|w [|? ?]]; try discriminate. exists w. split; [reflexivity|exact I]. }
      { eapply used_nodup; eauto. }
      unfold resampler_of in Hr. rewrite E1 in Hr. injection Hr as ->.
      destruct (minweight_total psum draws opt Hmin evs1) as (e2 & E2 & F2 & N2 & _).
      { eapply Forall_impl; [|exact F1]. intros e (w & H). exists w. split; [exact H|exact I]. }
      { exact N1. }
      rewrite E2 in Hu. injection Hu as ->. destruct (HWn N2) as [W1 W2].
      rewrite Forall_forall. intros ws Hws. apply In_nth_error in Hws. destruct Hws as [n Hnw].
      assert (Hnl : n < length W) by (apply nth_error_Some; intros E0; pose proof (eq_trans (eq_sym Hnw) E0) as X; discriminate X). rewrite Hl1 in Hnl.
      destruct (in_dec Nat.eq_dec n (map ev_id evs2)) as [Hi|Hi].
      + apply in_map_iff in Hi. destruct Hi as (e & <- & Hein). pose proof (eq_trans (eq_sym (W1 e Hein)) Hnw) as X. injection X as <-. rewrite Forall_forall in F2. exact (F2 e Hein).
      + pose proof (eq_trans (eq_sym (W2 n Hnl Hi)) Hnw) as X. injection X as <-. exists 0%R. reflexivity.
    - assert (E : map ev_weights (reweighted_all evs W) = written (map ev_weights evs0) W).
      { rewrite Hw. clear -HlW. unfold reweighted_all, written. revert W HlW. induction evs as [|e evs IH]; intros [|w W] Hl; try discriminate; [reflexivity|].
        cbn [combine map]. f_equal. apply IH. injection Hl as Hl. exact Hl. }
      rewrite E, <- Hw, <- Hd. intros Hm. 
      destruct (Req_EM_T (co_minweight opt) 0) as [E0|E0].
      + rewrite (run_ext RN _ _ _ _ _ false sort shuffle (resampler_of sort MAX km choose opt) (unweighter_of psum draws opt) lib_no_unweight) in Hrun'.
        * eapply (run_total_no_unweight (mw := false)); eauto.
        * intros l. unfold unweighter_of, lib_unweight, unweight. assert (Q : neqb (co_minweight opt) n0 = true) by (apply Reqb_true; exact E0). rewrite Q. reflexivity.
      + destruct Hm as [Hm|Hm]; [contradiction|]. eapply run_total_unweight; eauto. }
  destruct Hone as [Hone Htot].
  split; [unfold reweighted_all; rewrite map_length; exact Hll|]. split; [|split; [|split]].
  - clear -HlW. unfold reweighted_all. revert W HlW. induction evs as [|e evs IH]; intros [|w W] Hl; try discriminate; [reflexivity|].
    cbn [combine map]. f_equal. apply IH. injection Hl as Hl. exact Hl.
  - clear -HlW Hone. unfold reweighted_all. revert W HlW Hone. induction evs as [|e evs IH]; intros [|w W] Hl Ho; try discriminate; [reflexivity|].
    inversion Ho as [|? ? (w0 & ->) Ho']; subst. cbn [combine map]. apply f_equal2; [reflexivity|]. apply IH; [|exact Ho']. injection Hl as Hl. exact Hl.
  - unfold total in Htot. rewrite !map_map in Htot. intros Hm. refine (eq_trans (Htot Hm) _).
    pose proof (total_used_split (keeps_particles cluster) evs) as S. unfold total in S. rewrite !map_map in S. cbn beta in *. rewrite S.
    match goal with |- (?a + ?b - ?b)%R = ?c => change (a + b - b = a)%R end. ring.
  - intros Hsum Hn Hd e Hin.
    assert (HP : Forall (fun ws => exists w, ws = [w] /\ (0 <= w)%R) W).
    { rewrite Forall_forall. intros ws Hws. apply In_nth_error in Hws. destruct Hws as [n Hnw].
      destruct (nth_error evs n) as [e1|] eqn:Hne.
      2:{ apply nth_error_None in Hne. assert (Hnl : n < length W) by (apply nth_error_Some; intros E0; pose proof (eq_trans (eq_sym Hnw) E0) as X; discriminate X). rewrite HlW in Hnl. lia. }
      assert (Hsum' : (0 <= total (map ev_weights (filter (keeps_particles cluster) evs)) 0)%R) by (unfold total; rewrite map_map; exact Hsum).
      destruct (run_nonneg double sort MAX km neutrino hadron delta_r cluster_if choose psum draws shuffle opt false c Hsort Hkm Hch Hs Hps Hdr Hmin [] records evs W
        (or_introl eq_refl) Hcv Hrun Hn Hd Hsum' n e1 ws Hne Hnw) as [X|[-> _]]; [exact X|]. exists 0%R. split; [reflexivity|apply Rle_refl]. }
    unfold reweighted_all in Hin. apply in_map_iff in Hin. destruct Hin as ((e0 & ws) & <- & Hin). apply in_combine_r in Hin.
    rewrite Forall_forall in HP. destruct (HP ws Hin) as (w & -> & Hw0). exists w. split; [reflexivity|exact Hw0].
Qed.
Print Assumptions C74_program.

(** Inconsistent options are reported and nothing is written. *)
Theorem C74_rejected : forall (N : NumOps) double show xml checks sort MAX km neutrino hadron delta_r cluster_if choose psum draws shuffle fuel opt inputs,
  ~ consistent (co_cluster opt) ->
  @cres_main N double show xml checks sort MAX km neutrino hadron delta_r cluster_if choose psum draws shuffle fuel opt inputs = Error.
Proof.
  intros N double show xml checks sort MAX km neutrino hadron delta_r cluster_if choose psum draws shuffle fuel opt inputs H.
  destruct (proj2 (C48_options N (co_cluster opt)) H) as [e E]. unfold cres_main. rewrite E. reflexivity.
Qed.
Print Assumptions C74_rejected.

(** Success means that the options were consistent and all input files could be read. *)
Theorem C74_only : forall (N : NumOps) double show xml checks sort MAX km neutrino hadron delta_r cluster_if choose psum draws shuffle fuel opt inputs outs,
  reorders shuffle -> sort_ok sort ->
  @cres_main N double show xml checks sort MAX km neutrino hadron delta_r cluster_if choose psum draws shuffle fuel opt inputs = Done outs ->
  consistent (co_cluster opt) /\ exists evs, reads double show xml checks false [] sort inputs evs.
Proof.
  intros N double show xml checks sort MAX km neutrino hadron delta_r cluster_if choose psum draws shuffle fuel opt inputs outs Hs Hsort H.
  unfold cres_main in H. destruct (cres_clustering (co_cluster opt)) as [[c|]|e] eqn:E; try discriminate. split.
  - unfold cres_clustering in E. destruct (validate (co_cluster opt)) as [o|] eqn:Ev; [|discriminate]. apply C48_validation in Ev. apply Ev.
  - eapply C71_only; eassumption.
Qed.
Print Assumptions C74_only.

(** *** A run: the events of C63_total_case (weights 5, -1, 7; the last has no particles), tree search *)
Definition p_opt : cres_opt RN :=
  mkCresOpt (mkOpt (mkJetOpt AntiKt 1%R 30%R) (mkLeptonOpt None None None) (mkPhotonOpt None None None) false)
    0%R 0%R Tree MostNegative None.
Definition p_neutrino (id : Z) : bool := Z.eqb id 12 || Z.eqb id 14 || Z.eqb id 16.
Definition p_cluster : Event RN -> option (Event RN) :=
  default_cluster p_neutrino (fun _ => false) (fun _ _ => 0%R) (fun _ _ _ _ => []) false isort
    (mkClustering (mkJetDef AntiKt 1%R 30%R) None None false).
Definition p_main (psum : list R -> R) (draws : nat -> R) : list text -> ending :=
  cres_main r_double r_show r_noxml true isort 100%R km_brute p_neutrino (fun _ => false) (fun _ _ => 0%R) (fun _ _ _ _ => [])
    first_min psum draws r_ids 10 p_opt.
Definition p_evs : list (Event RN) := [mkEvent 0 [5%R : RN] r_out; mkEvent 0 [(-1)%R : RN] r_out; mkEvent 0 [7%R : RN] []].

Lemma p_resampled (algo : search_algo RN) dist max o1 o2 d :
  algo 2 (dist_wrapper dist [mkEvent 0 [5%R : RN] o1; mkEvent 1 [(-1)%R : RN] o2]) max 1 = Some [(0, d)] ->
  lib_resample (Err := option read_error) false isort MostNegative algo dist max [mkEvent 0 [5%R : RN] o1; mkEvent 1 [(-1)%R : RN] o2] =
  Some (inl [mkEvent 0 [2%R : RN] o1; mkEvent 1 [2%R : RN] o2]).
Proof.
  intros Ha.
  assert (E1 : nltb (n := RN) 5%R 0%R = false) by (cbn; unfold Rltb; destruct (Rlt_dec 5 0); [lra|reflexivity]).
  assert (E2 : nltb (n := RN) (-1)%R 0%R = true) by (cbn; unfold Rltb; destruct (Rlt_dec (-1) 0); [reflexivity|lra]).
  unfold lib_resample, resampler_resample, select_seeds. cbn [map omap central nth_error ev_weights length seq combine filter].
  change (n0 (n := RN)) with 0%R. rewrite E1, E2. cbn [map fst].
  remember (algo 2 (dist_wrapper dist [mkEvent 0 [5%R : RN] o1; mkEvent 1 [(-1)%R : RN] o2]) max) as f eqn:Ef.
  assert (Er : resample_seeds (N := RN) false f [1] [[5%R]; [(-1)%R]]
    = Some ([[2]; [2]]%R, [mkCell [1; 0] d (-1 + 5)%R])).
  { cbn [resample_seeds]. unfold seed_step, cell_new. cbn. rewrite Ha. cbn. unfold Rleb. destruct (Rle_dec 0 (-1 + 5)); [|lra]. cbn.
    unfold Rltb. destruct (Rlt_dec 0 (-1)); [lra|]. replace ((0 + 5 + -1) / (1 + 1))%R with 2%R by field. reflexivity. }
  cbn. cbn in Er. rewrite Er. reflexivity.
Qed.
Lemma p_built i w : built isort (mkEvent i w r_out).
Proof.
  exists [(11%Z, fv_from (N := RN) 13 3 4 12)]%R. split; [|reflexivity]. constructor; [reflexivity|constructor].
Qed.
Lemma p_dist i j w w' : distance isort km_brute 0%R (mkEvent i w r_out) (mkEvent j w' r_out) = Some 0%R.
Proof.
  assert (Hp : phys [(11%Z, fv_from (N := RN) 13 3 4 12)]%R) by (constructor; [reflexivity|constructor]).
  destruct (@metric isort km_brute 0%R false isort_ok km_brute_ok _ _ _ [] [] [] Hp Hp Hp) as (d12 & d23 & d13 & _ & _ & _ & _ & H & _). exact H.
Qed.
Lemma p_search : forall w w', exists d, search_of isort first_min p_opt 2 (dist_wrapper (distance_of isort km_brute p_opt) [mkEvent 0 w r_out; mkEvent 1 w' r_out]) 100%R 1 = Some [(0, d)].
Proof.
  intros w w'. set (l := [mkEvent 0 w r_out; mkEvent 1 w' r_out]).
  assert (Hb : Forall (built isort) l) by (constructor; [apply p_built|constructor; [apply p_built|constructor]]).
  assert (Hm : metric_on 2 (dist_wrapper (N := RN) (distance_of isort km_brute p_opt) l)) by exact (wrapper_metric isort km_brute 0%R isort_ok km_brute_ok l Hb).
  destruct (@tree_exact isort first_min 2 _ 100%R 1 isort_ok first_min_ok Hm) as (r & E & Hn & Hi & _); [unfold usize_max; lia|lia|].
  assert (H0 : In 0 (map fst r)).
  { apply Hi. split; [lia|]. split; [lia|]. apply Rleb_true. unfold dist_wrapper, l, distance_of. cbn [nth_error].
    change (co_ptweight p_opt) with 0%R. rewrite p_dist. lra. }
  destruct r as [|[i d] [|[j d'] r]]; [destruct H0| |].
  - destruct H0 as [H0|[]]. cbn in H0. subst i. exists d. exact E.
  - exfalso. assert (A : i < 2 /\ i <> 1) by (destruct (proj1 (Hi i) (or_introl eq_refl)) as (A & B & _); auto).
    assert (B : j < 2 /\ j <> 1) by (destruct (proj1 (Hi j) (or_intror (or_introl eq_refl))) as (B & C & _); auto).
    inversion Hn as [|? ? X _]. apply X. left. cbn [fst]. lia.
Qed.
Lemma p_run psum draws : run_on r_double false [] isort p_cluster r_ids (resampler_of isort 100%R km_brute first_min p_opt) (unweighter_of psum draws p_opt)
  (map inl r_records) = Wrote [[2]; [2]; [0]]%R.
Proof.
  unfold run_on, cres_run.
  set (ev := read_events _ _ _ _ _).
  assert (E : ev = inl [mkEvent 0 [5%R : RN] r_out; mkEvent 1 [(-1)%R : RN] r_out; mkEvent 2 [7%R : RN] []]) by reflexivity.
  rewrite E. cbn [filter ev_out r_out negb]. destruct (p_search [5%R] [(-1)%R]) as [d Hd]. unfold resampler_of. cbn [co_max_cell_size p_opt co_strategy].
  rewrite (p_resampled _ _ _ _ _ d Hd). 
  unfold unweighter_of, lib_unweight, unweight. assert (Q : neqb (co_minweight p_opt) n0 = true) by (apply Reqb_true; reflexivity). rewrite Q. reflexivity.
Qed.
Example C74_case : forall psum draws,
  number_text RN integer r_double r_show /\ stops_at_tag r_noxml /\ reorders r_ids /\ sort_ok isort /\ choose_ok first_min /\ km_ok km_brute /\
  consistent (co_cluster p_opt) /\ event_files r_noxml [r_file] = Ok ([r_file], []) /\ well_formed integer r_double r_noxml true [] r_file /\
  reads r_double r_show r_noxml true false [] isort [r_file] p_evs /\ map ev_weights p_evs = [[5]; [-1]; [7]]%R /\
  filter (keeps_particles p_cluster) p_evs = firstn 2 p_evs /\
  (forall e1 e2 e1' e2' d, In e1 (firstn 2 p_evs) -> In e2 (firstn 2 p_evs) -> p_cluster e1 = Some e1' -> p_cluster e2 = Some e2' ->
     distance isort km_brute (co_ptweight p_opt) e1' e2' = Some d -> (d <= 100)%R) /\
  (exists outs, p_main psum draws [r_file] = Done outs) /\
  run_on r_double false [] isort p_cluster r_ids (resampler_of isort 100%R km_brute first_min p_opt) (unweighter_of psum draws p_opt)
    (map inl r_records) = Wrote [[2]; [2]; [0]]%R /\
  Forall (writable integer []) [[2]; [2]; [0]]%R.
Proof.
  intros psum draws. destruct C63_total_case as (H1 & H2 & H3 & H4 & _ & _ & H5).
  split; [exact H1|]. split; [exact H2|]. split; [intros l; apply Permutation_refl|]. split; [exact isort_ok|]. split; [exact first_min_ok|]. split; [exact km_brute_ok|].
  split; [split; right; auto|]. split; [exact H3|]. split; [exact H4|].
  destruct (r_files r_show) as (s & s' & F1 & F2 & F3).
  split.
  { exists [], s, 10, (map inl r_records), s'. split; [exact F1|]. split; [exact F2|].
    constructor; [eexists; split; [reflexivity|reflexivity]|]. constructor; [eexists; split; [reflexivity|reflexivity]|]. constructor; [eexists; split; [reflexivity|reflexivity]|constructor]. }
  split; [reflexivity|]. split; [reflexivity|]. split.
  { assert (Hc : forall e e', In e (firstn 2 p_evs) -> p_cluster e = Some e' -> exists w, e' = mkEvent 0 w r_out).
    { intros e e' [<-|[<-|[]]] E; injection E as <-; eexists; reflexivity. }
    intros e1 e2 e1' e2' d I1 I2 C1 C2. destruct (Hc _ _ I1 C1) as [w1 ->]. destruct (Hc _ _ I2 C2) as [w2 ->].
    intros E. change (co_ptweight p_opt) with 0%R in E. rewrite p_dist in E. injection E as <-. lra. }
  split; [|split; [apply p_run|exact H5]].
  unfold p_main, cres_main. change (cres_clustering (co_cluster p_opt)) with (@Good (option (DefaultClustering RN)) ValidationError (Some (mkClustering (mkJetDef AntiKt 1%R 30%R) None None false))).
  cbn iota. fold p_cluster. unfold cres_program. rewrite F1, F2, p_run.
  destruct (F3 2 2 0)%R as (s'' & F4). exists (c_outs s''). exact (f_equal (fun x => match x with Ok (_, s) => Done (c_outs s) | Err _ => Error | Panic => Crash end) F4).
Qed.
