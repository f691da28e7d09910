(** Property C79: a run of the C API, from the options and the input files to the output files and the
    return code; and limits that are infinite. *)
From Coq Require Import Reals Lra List Arith Lia Permutation Ascii Bool ZArith SpecFloat.
From Verif Require Import Base BaseProofs Num ModelEvent SpecEvent EventProofs ModelText SpecText SpecFormats TextProofs ModelHepMC ModelLHEF ModelStripper ModelIO IOProofs FormatProofs FileProofs2 FileProofs3
  TextExamples PropsHepMC PropsFormats PropsRecord
  ModelSeeds ModelCell ModelNaive NaiveProofs SpecTree ModelVPTree VPTreeProofs2 SpecSearch RunProofs2 ModelResampler ModelDistance SpecDistance DistanceProofs DistanceProofs2
  ModelCluster ModelOpt SpecOpt ModelUnweight ModelCres SpecCres SpecWeights CresProofs CresProofs2 ModelMain SpecMain MainProofs MainProofs2 MainProofs3 SpecPanic PanicProofs2 ModelProgram ProgramProofs ProgramProofs2
  PropsTree PropsOpt PropsMain PropsPanic PropsProgram SumProofs SpecLocal LocalProofs LocalProofs2 ModelThreads ThreadsProofs PropsProgram2 DefaultProofs PropsDefault ModelCApi ModelCRun UnlimitedProofs B64Proofs VPTreeB64.
Import ListNotations.
Local Open Scope R_scope.

(** The options of the program on the command line that ask for the same as options of the C API without a
    distance function *)
Definition command_line {N : NumOps} (opt : capi_opt N) : cres_opt N :=
  let j := ca_jet_def opt in
  mkCresOpt (mkOpt (mkJetOpt (jd_algorithm j) (jd_radius j) (jd_min_pt j)) (mkLeptonOpt None None None) (mkPhotonOpt None None None) false)
    n0 (ca_ptweight opt) (ca_search opt) MostNegative (Some (ca_max_cell_size opt)).

Lemma program_ext (N : NumOps) double show xml checks mw names sort cluster shuffle resample unweighter unweighter' fuel inputs :
  (forall l, unweighter l = unweighter' l) ->
  cres_program (N := N) double show xml checks mw names sort cluster shuffle resample unweighter fuel inputs
  = cres_program double show xml checks mw names sort cluster shuffle resample unweighter' fuel inputs.
Proof.
  intros H. unfold cres_program. destruct (open_inputs _ _ _) as [[scaling s]| |]; [|reflexivity|reflexivity].
  destruct (read_all _ _ _ _ _ _ _) as [[records s']|]; [|reflexivity]. unfold run_on. rewrite (run_ext _ _ _ _ _ _ _ _ _ _ _ _ _ H). reflexivity.
Qed.

(** C79: without a distance function, a run of the C API is the same as a run of the program on the command
    line (default build) with the corresponding options, with any number of threads, in any arithmetic
    in which zero equals zero. *)
Theorem C79_same : forall (N : NumOps) double show xml checks sort MAX km neutrino hadron delta_r cluster_if choose psum draws shuffle heap place
    nthreads sched (opt : capi_opt N) inputs fuel,
  neqb (n := N) n0 n0 = true -> ca_distance opt = None ->
  capi_program double show xml checks sort neutrino hadron delta_r cluster_if shuffle (capi_resampler sort km choose heap place opt) fuel opt inputs
  = cres_main_default double show xml checks sort MAX km neutrino hadron delta_r cluster_if choose psum draws shuffle fuel (command_line opt) inputs /\
  capi_program double show xml checks sort neutrino hadron delta_r cluster_if shuffle (capi_threads_resampler sort km choose heap place nthreads sched opt) fuel opt inputs
  = cres_main_default_threads double show xml checks sort MAX km neutrino hadron delta_r cluster_if choose psum draws shuffle nthreads sched fuel (command_line opt) inputs.
Proof.
  intros N double show xml checks sort MAX km neutrino hadron delta_r cluster_if choose psum draws shuffle heap place nthreads sched opt inputs fuel H0 Hd.
  assert (Hu : forall l, lib_no_unweight (Err := option read_error) l = unweighter_of psum draws (command_line opt) l).
  { intros l. unfold unweighter_of, lib_unweight, unweight. cbn [command_line co_minweight]. rewrite H0. reflexivity. }
  destruct opt as [dist pt [a r p] search max]. cbn [ca_distance] in Hd. subst dist.
  split; unfold capi_program; rewrite (program_ext _ _ _ _ _ _ _ _ _ _ _ _ _ _ _ Hu); reflexivity.
Qed.
Print Assumptions C79_same.

(** What the caller learns about the end of a run: the return code is 0 exactly if the output was written, otherwise the last
    error of this thread, and of no other, is set. *)
Theorem C79_return : forall s thread message (e : ending),
  (snd (capi_run s thread message e) = 0%Z <-> exists outs, e = Done outs) /\
  (snd (capi_run s thread message e) = 0%Z -> fst (capi_run s thread message e) = s) /\
  (snd (capi_run s thread message e) <> 0%Z -> exists text, fst (capi_run s thread message e) thread = Some text /\ (e = Error -> text = message)) /\
  (forall other, other <> thread -> fst (capi_run s thread message e) other = s other).
Proof.
  intros s thread message e. unfold capi_run, end_of_run, ModelCApi.cres_run. destruct e as [outs| |]; cbn [fst snd]; unfold set_error.
  - split; [split; eauto|]. split; [auto|]. split; [congruence|auto].
  - split; [split; [discriminate|intros [? ?]; discriminate]|]. split; [discriminate|]. rewrite Nat.eqb_refl. split; [eauto|].
    intros other Ho. apply Nat.eqb_neq in Ho. rewrite ?Ho, ?(Nat.eqb_sym thread other), ?Ho. reflexivity.
  - split; [split; [discriminate|intros [? ?]; discriminate]|]. split; [discriminate|]. rewrite Nat.eqb_refl. split; [intros _; eexists; split; [reflexivity|discriminate]|].
    intros other Ho. apply Nat.eqb_neq in Ho. rewrite ?Ho, ?(Nat.eqb_sym thread other), ?Ho. reflexivity.
Qed.
Print Assumptions C79_return.

(** *** With any distance *)
Section Any.
Context (sort : sorter) (choose : chooser) (opt : capi_opt RN).
Hypothesis Hs : sort_ok sort.
Hypothesis Hc : choose_ok choose.
Lemma any_valid dist (evs : list (Event RN)) max : valid_search (N := RN) (length evs) (capi_search sort choose opt (length evs) (dist_wrapper dist evs) max).
Proof.
  unfold capi_search. destruct (ca_search opt).
  - intros q Hq. destruct (@tree_sound RN (fun _ => True) sort choose (length evs) (dist_wrapper dist evs) max q) as (l & E & Hn & Hl);
      auto using RN_order. exists l. split; [exact E|]. split; [exact Hn|]. intros i Hi. apply in_map_iff in Hi. destruct Hi as ((i' & d) & <- & Hi).
    destruct (Hl _ _ Hi) as (A & B & _). auto.
  - apply (naive_valid (D := fun _ => True)); auto using RN_order.
Qed.
Lemma any_limited dist (evs : list (Event RN)) max : (ca_search opt = Naive -> forall e1 e2, In e1 evs -> In e2 evs -> dist e1 e2 = dist e2 e1) ->
  limited_search (length evs) (dist_wrapper (N := RN) dist evs) max (capi_search sort choose opt (length evs) (dist_wrapper dist evs) max).
Proof.
  intros Hsym. unfold capi_search. destruct (ca_search opt).
  - apply (tree_limited RN (fun _ => True)); auto using RN_order.
  - apply (naive_limited RN (fun _ => True)); auto using RN_order. intros i j Hi Hj. unfold dist_wrapper.
    destruct (nth_error evs i) as [e1|] eqn:E1; [|apply nth_error_None in E1; lia].
    destruct (nth_error evs j) as [e2|] eqn:E2; [|apply nth_error_None in E2; lia].
    apply Hsym; [reflexivity|eapply nth_error_In; exact E1|eapply nth_error_In; exact E2].
Qed.
Lemma any_complete dist (evs : list (Event RN)) (max : R) : (N.of_nat (length evs) <= usize_max)%N ->
  (forall e1 e2, In e1 evs -> In e2 evs -> dist e1 e2 <= max) ->
  (ca_search opt = Tree -> forall e1 e2, In e1 evs -> In e2 evs -> 0 <= dist e1 e2) ->
  complete_search (length evs) (capi_search sort choose opt (length evs) (dist_wrapper (N := RN) dist evs) max).
Proof.
  intros Hn Hmax Hm.
  assert (Q : forall i, (i < length evs)%nat -> exists e, nth_error evs i = Some e /\ In e evs).
  { intros i Hi. destruct (nth_error evs i) as [e|] eqn:E; [|apply nth_error_None in E; lia]. exists e. split; [reflexivity|eapply nth_error_In; exact E]. }
  assert (Hle : forall i j, (i < length evs)%nat -> (j < length evs)%nat -> (dist_wrapper (N := RN) dist evs i j <= max)%R).
  { intros i j Hi Hj. unfold dist_wrapper. destruct (Q i Hi) as (e1 & -> & I1). destruct (Q j Hj) as (e2 & -> & I2). auto. }
  unfold capi_search. destruct (ca_search opt).
  - apply tree_unlimited_R; auto. intros i j Hi Hj. split; [|apply Hle; assumption].
    unfold dist_wrapper. destruct (Q i Hi) as (e1 & -> & I1). destruct (Q j Hj) as (e2 & -> & I2). apply Hm; auto.
  - apply naive_complete; auto.
Qed.
End Any.

(** The events for which the resampling computes distances: clustered input events that have particles;
    [e] is such an event with number [i] *)
Definition shown (cluster : Event RN -> option (Event RN)) (evs : list (Event RN)) (i : nat) (e : Event RN) : Prop :=
  exists a b, nth_error evs i = Some a /\ cluster a = Some b /\ ev_out b <> [] /\ ev_id e = i /\ ev_out e = ev_out b.

Lemma no_unweight_same opt psum draws (l : list (Event RN)) : lib_no_unweight (Err := option read_error) l = unweighter_of psum draws (command_line opt) l.
Proof.
  unfold unweighter_of, lib_unweight, unweight. cbn [command_line co_minweight].
  replace (neqb (n := RN) n0 n0) with true; [reflexivity|]. symmetry. apply Reqb_true. reflexivity.
Qed.

(** C79: a run of the C API with any distance function, or none, and any number of threads, on well-formed input
    files.  It returns 0 and leaves the last error as it was, and reading the output gives the same
    events (in number, order and outgoing particles) with one weight each.  Events without particles after
    the clustering are unchanged.  The sum of the weights of all events is the same before and after.
    Every observable that varies by at most [eps] over distances up to the maximum cell size changes by
    at most [2 eps] times the number of negative weights times the sum of the absolute values of the
    weights (of events with particles); for the naive search, the distance has to be symmetric. *)
Theorem C79_threads : forall (D : R -> Prop) (double : parser RN) show xml checks sort km neutrino hadron delta_r cluster_if choose shuffle heap place
    nthreads sched (opt : capi_opt RN) inputs files tags evs fuel,
  number_text RN D double show -> stops_at_tag xml -> reorders shuffle -> sort_ok sort -> choose_ok choose -> (0 < nthreads)%nat ->
  event_files xml inputs = Ok (files, tags) ->
  Forall (well_formed D double xml checks (extract_scaling tags)) files ->
  reads double show xml checks true [] sort inputs evs -> (length evs < fuel)%nat ->
  let run := capi_program double show xml checks sort neutrino hadron delta_r cluster_if shuffle (capi_threads_resampler sort km choose heap place nthreads sched opt) fuel opt inputs in
  exists outs W,
    run = Done outs /\ (forall s thread message, capi_run s thread message run = (s, 0%Z)) /\
    length outs = length files /\ length W = length evs /\
    (Forall (writable D (extract_scaling tags)) W ->
     exists evs', reads double show xml checks true [] sort (replace_events xml inputs outs) evs' /\
       let cluster := default_cluster neutrino hadron delta_r cluster_if true sort (mkClustering (ca_jet_def opt) None None false) in
       let dist := capi_distance sort km heap place opt in
       let sum l := Rsum (map (fun e => nth 0 (ev_weights e) 0) l) in
       let before := map (fun e => if keeps_particles cluster e then ev_weights e else [0]) evs in
       length evs' = length evs /\ map ev_out evs' = map ev_out evs /\ Forall (fun e => exists w, ev_weights e = [w]) evs' /\
       sum evs' = sum evs /\
       (forall n e, nth_error evs n = Some e -> keeps_particles cluster e = false -> nth_error evs' n = Some e) /\
       forall f eps, 0 <= eps -> (ca_search opt = Naive -> forall e1 e2, dist e1 e2 = dist e2 e1) ->
       (forall i j e1 e2, shown cluster evs i e1 -> shown cluster evs j e2 -> dist e1 e2 <= ca_max_cell_size opt -> Rabs (f j - f i) <= eps) ->
       Rabs (observable f (map ev_weights evs') 0 - observable f (map ev_weights evs) 0) <= 2 * eps * INR (nnegative before) * total_abs before 0).
Proof.
  intros D double show xml checks sort km neutrino hadron delta_r cluster_if choose shuffle heap place nthreads sched opt inputs files tags evs fuel
    HT Hx Hs Hsort Hch Hn He Hwf Hread Hfuel run.
  assert (Hm0 : 0 <= co_minweight (command_line opt)) by apply Rle_refl.
  destruct (program_default D double show xml checks sort neutrino hadron delta_r cluster_if Rsum (fun _ => 0) shuffle (command_line opt) (clustering_new (ca_jet_def opt))
    (capi_threads_resampler sort km choose heap place nthreads sched opt) inputs files tags evs fuel) as (outs & W & records & Hp & Hlo & HlW & Hcv & Hrun & Hout & F1 & F2 & F3 & F4 & F5); try assumption.
  { reflexivity. }
  { apply threads_total; [exact Hsort|exact RN_order|exact Hn|]. intros l. apply any_valid; assumption. }
  { intros l l' Hsh Hr. eapply threads_resample_facts; try eassumption. apply any_valid; assumption. }
  assert (E : run = Done outs) by (unfold run, capi_program; rewrite (program_ext _ _ _ _ _ _ _ _ _ _ _ _ _ _ _ (no_unweight_same opt Rsum (fun _ => 0))); exact Hp).
  exists outs, W. split; [exact E|]. split; [intros s thread message; rewrite E; reflexivity|]. split; [exact Hlo|]. split; [exact HlW|].
  intros HW. exists (reweighted_all evs W). split; [exact (Hout HW)|]. cbv zeta. destruct (F4 eq_refl) as (G1 & G2 & G3). do 5 (split; [assumption|]).
  intros f eps Heps Hsym Hf. apply (G3 f eps (capi_distance sort km heap place opt) (ca_max_cell_size opt)); [|exact Heps|].
  - intros used evs1 f' eps' Hbu Hsh Hr He' Hf'. eapply threads_observable; try eassumption; [apply any_valid; assumption|].
    apply any_limited; auto.
  - intros i j ei ej ei' ej' e1 e2 A1 A2 A3 A4 A5 A6 _ _ B1 B2 E1 E2 Hd. apply (Hf i j e1 e2); [exists ei, ei'; auto|exists ej, ej'; auto|exact Hd].
Qed.
Print Assumptions C79_threads.

(** With a single thread, moreover: suppose the weights of the events with particles do not add up to a
    negative number, no distance exceeds the maximum size of a cell, and, for the tree search, no distance is
    negative (no other property of a metric is needed).  Then none of these events has a negative
    weight in the output. *)
Theorem C79_program : forall (D : R -> Prop) (double : parser RN) show xml checks sort km neutrino hadron delta_r cluster_if choose shuffle heap place
    (opt : capi_opt RN) inputs files tags evs fuel,
  number_text RN D double show -> stops_at_tag xml -> reorders shuffle -> sort_ok sort -> choose_ok choose ->
  event_files xml inputs = Ok (files, tags) ->
  Forall (well_formed D double xml checks (extract_scaling tags)) files ->
  reads double show xml checks true [] sort inputs evs -> (length evs < fuel)%nat ->
  let run := capi_program double show xml checks sort neutrino hadron delta_r cluster_if shuffle (capi_resampler sort km choose heap place opt) fuel opt inputs in
  exists outs W,
    run = Done outs /\ (forall s thread message, capi_run s thread message run = (s, 0%Z)) /\
    length outs = length files /\ length W = length evs /\
    (Forall (writable D (extract_scaling tags)) W ->
     exists evs', reads double show xml checks true [] sort (replace_events xml inputs outs) evs' /\
       let cluster := default_cluster neutrino hadron delta_r cluster_if true sort (mkClustering (ca_jet_def opt) None None false) in
       let has_out e := keeps_particles cluster e in
       let dist := capi_distance sort km heap place opt in
       let sum l := Rsum (map (fun e => nth 0 (ev_weights e) 0) l) in
       let shown e := exists i, shown cluster evs i e in
       length evs' = length evs /\ map ev_out evs' = map ev_out evs /\ Forall (fun e => exists w, ev_weights e = [w]) evs' /\
       sum evs' = sum evs /\
       (forall n e, nth_error evs n = Some e -> has_out e = false -> nth_error evs' n = Some e) /\
       (0 <= sum (filter has_out evs) -> (N.of_nat (length evs) <= usize_max)%N ->
        (forall e1 e2, shown e1 -> shown e2 -> dist e1 e2 <= ca_max_cell_size opt) ->
        (ca_search opt = Tree -> forall e1 e2, shown e1 -> shown e2 -> 0 <= dist e1 e2) ->
        forall e, In e evs' -> has_out e = true -> exists w, ev_weights e = [w] /\ 0 <= w)).
Proof.
  intros D double show xml checks sort km neutrino hadron delta_r cluster_if choose shuffle heap place opt inputs files tags evs fuel
    HT Hx Hs Hsort Hch He Hwf Hread Hfuel run.
  assert (Hm0 : 0 <= co_minweight (command_line opt)) by apply Rle_refl.
  destruct (program_default D double show xml checks sort neutrino hadron delta_r cluster_if Rsum (fun _ => 0) shuffle (command_line opt) (clustering_new (ca_jet_def opt))
    (capi_resampler sort km choose heap place opt) inputs files tags evs fuel) as (outs & W & records & Hp & Hlo & HlW & Hcv & Hrun & Hout & F1 & F2 & F3 & F4 & F5); try assumption.
  { reflexivity. }
  { apply lib_resample_total; [exact Hsort|exact RN_order|]. intros l. apply any_valid; assumption. }
  { intros l l' Hsh Hr. apply (lib_resample_facts Hsh Hr). }
  assert (E : run = Done outs) by (unfold run, capi_program; rewrite (program_ext _ _ _ _ _ _ _ _ _ _ _ _ _ _ _ (no_unweight_same opt Rsum (fun _ => 0))); exact Hp).
  exists outs, W. split; [exact E|]. split; [intros s thread message; rewrite E; reflexivity|]. split; [exact Hlo|]. split; [exact HlW|].
  intros HW. exists (reweighted_all evs W). split; [exact (Hout HW)|]. cbv zeta. destruct (F4 eq_refl) as (G1 & G2 & G3). do 5 (split; [assumption|]).
  intros Hsum Husize Hdist Hmet e' Hin Hk. apply In_nth_error in Hin. destruct Hin as [n Hn].
  destruct (nth_error evs n) as [e|] eqn:En.
  2:{ apply nth_error_None in En. rewrite <- F1 in En. apply nth_error_None in En. rewrite En in Hn. discriminate. }
  destruct (nth_error W n) as [ws|] eqn:EW.
  2:{ apply nth_error_None in EW. assert (n < length evs)%nat by (apply nth_error_Some; congruence). rewrite HlW in EW. lia. }
  pose proof (reweighted_comp evs W n e ws En EW) as X. rewrite X in Hn. injection Hn as <-.
  destruct (run_nonneg_gen double sort neutrino hadron delta_r cluster_if Rsum (fun _ => 0) shuffle (command_line opt) true (clustering_new (ca_jet_def opt)))
    with (resample := capi_resampler sort km choose heap place opt) (names := @nil text) (records := records) (evs := evs) (W := W) (n := n) (e := e) (ws := ws)
    as [(w & -> & Hw)|(-> & [K|K])]; try assumption; auto.
  - intros used evs1 Hbu Hlu Hfrom Hsh Ht Hr. unfold capi_resampler, lib_resample in Hr.
    match type of Hr with match ?r with _ => _ end = _ => destruct r as [[evs1' cells]|] eqn:Er; [|discriminate] end.
    injection Hr as ->.
    assert (S : forall e0, In e0 used -> exists i, shown (default_cluster neutrino hadron delta_r cluster_if true sort (clustering_new (ca_jet_def opt))) evs i e0).
    { intros e0 H0. destruct (Hfrom e0 H0) as (a & b & A & B & O & I). exists (ev_id e0), a, b. apply filter_In in A. destruct A as [_ A]. unfold keeps_particles in A. rewrite B in A.
      repeat (split; [assumption|]). split; [|auto]. intros X0. unfold has_particles in A. rewrite X0 in A. discriminate. }
    refine (resampled_pos sort true Hsort _ _ _ _ used evs1 cells Hsh _ Ht Er). apply any_complete; [assumption|assumption|lia|intros e1 e2 I1 I2; apply Hdist; auto|].
    intros Htree e1 e2 I1 I2. apply Hmet; auto.
  - unfold total. rewrite map_map. exact Hsum.
  - exists w. split; [reflexivity|exact Hw].
  - exfalso. cbn [weights_default] in Hk. rewrite reweighted_nil in Hk. pose proof (eq_trans (eq_sym Hk) K) as Y. discriminate Y.
  - exfalso. apply K. reflexivity.
Qed.
Print Assumptions C79_program.

(** *** Infinite limits *)
(** C79: with the maximum cell size INFINITY, in binary64 arithmetic, each search finds all other events: the naive
    search for all distances that are not NaN, the tree search for all finite nonnegative distances. *)
Theorem C79_infinity : forall sort choose km heap place (opt : capi_opt B64) (evs : list (Event B64)),
  sort_ok sort -> choose_ok choose -> (N.of_nat (length evs) <= usize_max)%N -> ca_max_cell_size opt = S754_infinity false ->
  let dist := capi_distance sort km heap place opt in
  (forall e1 e2, In e1 evs -> In e2 evs -> not_nan (dist e1 e2)) ->
  (ca_search opt = Tree -> forall e1 e2, In e1 evs -> In e2 evs -> b64_fin (dist e1 e2) /\ 0 <= b64_val (dist e1 e2)) ->
  complete_search (N := B64) (length evs) (capi_search sort choose opt (length evs) (dist_wrapper dist evs) (ca_max_cell_size opt)).
Proof.
  intros sort choose km heap place opt evs Hs Hc Hn Hmax dist Hnan Htree. rewrite Hmax.
  assert (Q : forall i, (i < length evs)%nat -> exists e, nth_error evs i = Some e /\ In e evs).
  { intros i Hi. destruct (nth_error evs i) as [e|] eqn:E; [|apply nth_error_None in E; lia]. exists e. split; [reflexivity|eapply nth_error_In; exact E]. }
  assert (L : forall x : B64, not_nan x -> nleb (n := B64) x (S754_infinity false : B64) = true).
  { intros [[]|[]| |[] m e] Hx; try reflexivity. exfalso. apply Hx. reflexivity. }
  assert (HM : not_nan (S754_infinity false)) by discriminate.
  assert (Hd : forall i j, (i < length evs)%nat -> (j < length evs)%nat -> not_nan (dist_wrapper (N := B64) dist evs i j)).
  { intros i j Hi Hj. unfold dist_wrapper. destruct (Q i Hi) as (e1 & -> & I1). destruct (Q j Hj) as (e2 & -> & I2). auto. }
  unfold capi_search. destruct (ca_search opt) eqn:Es.
  - apply tree_unlimited_B64; auto. intros i j Hi Hj. pose proof (L _ (Hd i j Hi Hj)) as Lij. revert Lij.
    unfold dist_wrapper. destruct (Q i Hi) as (e1 & -> & I1). destruct (Q j Hj) as (e2 & -> & I2). destruct (Htree eq_refl e1 e2 I1 I2). auto.
  - intros q Hq. destruct (naive_nearest_ok B64_order (dist_wrapper (N := B64) dist evs) (S754_infinity false : B64) Hc HM (fun i Hi => Hd i q Hi Hq) Hq) as (l & E & H1 & H2 & _).
    exists l. split; [exact E|]. split.
    + split; [exact H1|]. intros i Hi. apply H2 in Hi. tauto.
    + intros i Hi Hne. apply H2. split; [exact Hi|]. split; [exact Hne|]. apply L. apply Hd; assumption.
Qed.
Print Assumptions C79_infinity.

(** With infinite distances, which C79_infinity allows for the naive search, the tree search misses events.  Three
    events with weights 5, 1 and -3, the distance between any two of them infinite: the naive search gives
    all weights 1; with the tree search negative weights remain. *)
Definition i_dist (_ : memory B64) (v1 v2 : EventView) : B64 := if Nat.eqb (vw_id v1) (vw_id v2) then b64_of_Z 0 else S754_infinity false.
Definition i_opt (search : Search) : capi_opt B64 :=
  mkCapiOpt (Some i_dist) (b64_of_Z 0) (mkJetDef AntiKt (b64_of_Z 1) (b64_of_Z 30)) search (S754_infinity false).
Definition i_evs : list (Event B64) := [mkEvent 0 [b64_of_Z 5 : B64] []; mkEvent 1 [b64_of_Z 1 : B64] []; mkEvent 2 [b64_of_Z (-3) : B64] []].
Definition i_mem : memory B64 := mkMem (fun _ => None) 0%Z.
Definition i_weights (search : Search) : option (list (list B64)) :=
  match capi_resampler isort (fun _ _ => b64_of_Z 0) first_min i_mem (fun _ => 0%Z) (i_opt search) i_evs with Some (inl l) => Some (map ev_weights l) | _ => None end.
Theorem C79_infinity_refuted :
  (forall e1 e2, In e1 i_evs -> In e2 i_evs -> not_nan (capi_distance isort (fun _ _ => b64_of_Z 0) i_mem (fun _ => 0%Z) (i_opt Tree) e1 e2)) /\
  ca_max_cell_size (i_opt Tree) = S754_infinity false /\
  i_weights Naive = Some [[b64_of_Z 1]; [b64_of_Z 1]; [b64_of_Z 1]] /\
  i_weights Tree = Some [[b64_of_Z 5]; [b64_of_Z (-1)]; [b64_of_Z (-1)]].
Proof.
  split.
  { intros e1 e2 [<-|[<-|[<-|[]]]] [<-|[<-|[<-|[]]]]; vm_compute; discriminate. }
  split; [reflexivity|]. split; vmr.
Qed.
Print Assumptions C79_infinity_refuted.

(** *** Cases *)
(** A distance that is neither symmetric nor zero between an event and itself, and the maximum cell size 3 *)
Definition k_dist (_ : memory RN) (v1 v2 : EventView) : R := if Nat.ltb (vw_id v1) (vw_id v2) then 1 else 2.
Definition k_opt : capi_opt RN := mkCapiOpt (Some k_dist) 0 (mkJetDef AntiKt 1 30) Tree 3.
Definition k_mem : memory RN := mkMem (fun _ => None) 0%Z.
Definition k_distance : Event RN -> Event RN -> R := capi_distance isort km_brute k_mem (fun _ => 0%Z) k_opt.
Lemma k_range e1 e2 : 0 <= k_distance e1 e2 <= 3.
Proof. unfold k_distance, capi_distance, c_distance, k_dist. cbn [ca_distance k_opt]. destruct (event_view _ _ _) as [v1 m]. destruct (event_view _ _ _) as [v2 m']. unfold k_dist. destruct (Nat.ltb _ _); lra. Qed.
Lemma k_search (l : list (Event RN)) : length l = 2%nat -> exists d, capi_search isort first_min k_opt 2%nat (dist_wrapper (N := RN) k_distance l) 3 1%nat = Some [(0%nat, d)].
Proof.
  intros Hl.
  assert (H : complete_search (N := RN) (length l) (capi_search isort first_min k_opt (length l) (dist_wrapper (N := RN) k_distance l) 3)).
  { apply any_complete; auto using isort_ok, first_min_ok; [rewrite Hl; unfold usize_max; lia|intros; apply k_range|intros; apply k_range]. }
  rewrite Hl in H. destruct (H 1%nat) as (r & E & (Hn & Hi) & Ha); [lia|].
  assert (H0 : In 0%nat (map fst r)) by (apply Ha; lia).
  destruct r as [|[i d] [|[j d'] r]]; [destruct H0| |].
  - destruct H0 as [H0|[]]. cbn in H0. subst i. exists d. exact E.
  - exfalso. assert (A : (i < 2 /\ i <> 1)%nat) by exact (Hi i (or_introl eq_refl)).
    assert (B : (j < 2 /\ j <> 1)%nat) by exact (Hi j (or_intror (or_introl eq_refl))).
    inversion Hn as [|? ? X _]. apply X. left. cbn [fst]. lia.
Qed.
(** On the file of C78_case, with the weights 5, -1 and 7 (the last event without particles): all hypotheses of
    C79_threads and C79_program hold, and the weights become 2, 2 and 7. *)
Example C79_case :
  let cluster := default_cluster p_neutrino (fun _ => false) (fun _ _ => 0) (fun _ _ _ _ => []) true isort (clustering_new (ca_jet_def k_opt)) in
  number_text RN integer r_double r_show /\ stops_at_tag r_noxml /\ reorders r_ids /\ sort_ok isort /\ choose_ok first_min /\
  event_files r_noxml [r_file] = Ok ([r_file], []) /\ well_formed integer r_double r_noxml true [] r_file /\
  reads r_double r_show r_noxml true true [] isort [r_file] p_evs /\ map ev_weights p_evs = [[5]; [-1]; [7]] /\
  filter (keeps_particles cluster) p_evs = firstn 2 p_evs /\
  (forall e1 e2, 0 <= k_distance e1 e2 <= ca_max_cell_size k_opt) /\
  (exists e1 e2, k_distance e1 e2 <> k_distance e2 e1) /\
  run_on r_double true [] isort cluster r_ids (capi_resampler isort km_brute first_min k_mem (fun _ => 0%Z) k_opt) lib_no_unweight
    (map inl r_records) = Wrote [[2]; [2]; []] /\
  map ev_weights (reweighted_all p_evs [[2]; [2]; []]) = [[2]; [2]; [7]] /\
  Forall (writable integer []) [[2]; [2]; []].
Proof.
  destruct (C78_case Rsum u_draws) as (H1 & H2 & H3 & H4 & H5 & H6 & H7 & H8 & H9 & H10 & H11 & H12 & _ & _ & _ & _ & HW).
  cbv zeta. do 9 (split; [assumption|]). split; [reflexivity|]. split; [apply k_range|]. split.
  { exists (mkEvent 0 [] []), (mkEvent 1 [] []). unfold k_distance, capi_distance, c_distance. cbn. unfold k_dist. cbn. lra. }
  split; [|split; [reflexivity|exact HW]].
  unfold run_on, ModelCres.cres_run. set (ev := read_events _ _ _ _ _).
  assert (E : ev = inl [mkEvent 0 [5 : RN] r_out; mkEvent 1 [(-1) : RN] r_out; mkEvent 2 [7 : RN] []]) by reflexivity.
  rewrite E. cbn [filter ev_out r_out negb]. unfold capi_resampler.
  destruct (k_search [mkEvent 0 [5 : RN] r_out; mkEvent 1 [(-1) : RN] r_out] eq_refl) as [d Hd].
  match goal with |- context [lib_resample true isort MostNegative _ ?f ?m ?l] => replace (lib_resample (Err := option read_error) true isort MostNegative (capi_search isort first_min k_opt) f m l) with (Some (@inl _ (option read_error) [mkEvent 0 [2 : RN] r_out; mkEvent 1 [2 : RN] r_out])); [reflexivity|symmetry; exact (d_resampled _ _ _ _ _ d Hd)] end.
Qed.
