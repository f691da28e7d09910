(** Property C76: the program cres with any number of worker threads and every schedule. *)
From Coq Require Import Reals Lra List Arith Lia Permutation Ascii Bool ZArith SpecFloat.
From Verif Require Import Base BaseProofs Num ModelEvent SpecEvent EventProofs ModelText SpecText SpecFormats TextProofs ModelHepMC ModelLHEF ModelStripper ModelIO IOProofs FormatProofs FileProofs2 FileProofs3
  TextExamples PropsHepMC PropsFormats PropsRecord
  ModelSeeds ModelCell ModelNaive NaiveProofs SpecTree ModelVPTree VPTreeProofs2 SpecSearch RunProofs2 ModelResampler ModelDistance SpecDistance DistanceProofs DistanceProofs2
  ModelCluster ModelOpt SpecOpt ModelUnweight SpecUnweight ModelCres SpecCres SpecWeights CresProofs CresProofs2 ModelMain SpecMain MainProofs MainProofs2 MainProofs3 SpecPanic PanicProofs2 ModelProgram ProgramProofs ProgramProofs2
  ModelConc SpecConc SpecSchedule ConcProofs ConcProofs2 PropsConc PropsSchedule
  PropsTree PropsOpt PropsMain PropsPanic PropsProgram SumProofs SpecLocal LocalProofs LocalProofs2 PropsLocal PropsLocal2 ProgramProofs3 PropsProgram2 ModelThreads ThreadsProofs.
Import ListNotations.
Local Open Scope nat_scope.

(** The runs of the resampler over all schedules are the complete executions of the threads: every
    run comes to an end without panic or deadlock, its result is that of a complete execution,
    and every complete execution is the run for some schedule (any arithmetic whose comparison is an
    order on the weights, any number of weights per event). *)
Theorem C76_executions : forall (N : NumOps) Err (D : N -> Prop) mw nw sort strategy (algo : search_algo N) dist max (evs : list (Event N)) nthreads,
  sort_ok sort -> order_on N D -> (forall e w, In e evs -> ev_weight e = Some w -> D w) ->
  shaped mw nw (map ev_weights evs) -> valid_search (length evs) (algo (length evs) (dist_wrapper dist evs) max) -> 0 < nthreads ->
  let nearest := algo (length evs) (dist_wrapper dist evs) max in
  let run sched := threads_resample (Err := Err) nthreads sched mw sort strategy algo dist max evs in
  let result s := Some (inl (map (fun '(e, w) => mkEvent (ev_id e) w (ev_out e)) (combine evs (mem s)))) in
  exists seeds, select_seeds sort strategy (map ev_weights evs) = Some seeds /\
  (forall sched, exists k s, conc_steps mw nearest k (conc_init nthreads seeds (map ev_weights evs)) s /\ done s /\ run sched = result s) /\
  (forall k s, conc_steps mw nearest k (conc_init nthreads seeds (map ev_weights evs)) s -> done s -> exists sched, run sched = result s).
Proof.
  intros N Err D mw nw sort strategy algo dist max evs nthreads Hsort Ho Hk Hs Hv Hn. cbv zeta.
  destruct (threads_seeds strategy Hsort Ho Hk Hs) as (seeds & E & Hlt). exists seeds. split; [exact E|].
  assert (Hv' : valid_search (length (map ev_weights evs)) (algo (length evs) (dist_wrapper dist evs) max)) by (rewrite map_length; exact Hv).
  split.
  - intros sched. destruct (threads_resample_execution Err strategy Hsort Ho Hk Hs Hv sched Hn) as (seeds' & k & s & E' & _ & H1 & H2 & _ & H3).
    assert (seeds' = seeds) as -> by congruence. exists k, s. auto.
  - intros k s H Hd. destruct (execution_scheduled Hv' Hs Hlt H Hd) as [sched Hr]. exists sched.
    unfold threads_resample. rewrite E. cbv zeta. rewrite Hr, (proj2 (finished_done s) Hd). reflexivity.
Qed.
Print Assumptions C76_executions.

(** One thread that takes the seeds in order is the sequential resampler of ModelResampler.v. *)
Theorem C76_one_thread : forall (N : NumOps) Err (D : N -> Prop) mw nw sort strategy (algo : search_algo N) dist max (evs : list (Event N)),
  sort_ok sort -> order_on N D -> (forall e w, In e evs -> ev_weight e = Some w -> D w) ->
  shaped mw nw (map ev_weights evs) -> valid_search (length evs) (algo (length evs) (dist_wrapper dist evs) max) ->
  threads_resample (Err := Err) 1 (fun _ => (0, 0)) mw sort strategy algo dist max evs = lib_resample mw sort strategy algo dist max evs.
Proof.
  intros N Err D mw nw sort strategy algo dist max evs Hsort Ho Hk Hs Hv.
  destruct (threads_resample_execution Err strategy Hsort Ho Hk Hs Hv (fun _ => (0, 0)) Nat.lt_0_1) as (seeds & k & s & E & Hlt & H1 & H2 & Es & H3).
  rewrite H3. unfold lib_resample, resampler_resample. rewrite E. 
  assert (Hv' : valid_search (length (map ev_weights evs)) (algo (length evs) (dist_wrapper dist evs) max)) by (rewrite map_length; exact Hv).
  destruct (run_in_order Hv' Hs Hlt (length seeds * (11 + 4 * length (map ev_weights evs)))) as (m & Hm). rewrite <- Es in Hm.
  destruct (@one_thread_in_order N mw nw _ _ _ Hv' Hs Hlt (repeat (0, 0) m) s) as (cells & Hc); [|exact Hm|apply done_finished; exact H2|].
  - intros t c Hin. apply repeat_spec in Hin. congruence.
  - rewrite Hc. reflexivity.
Qed.
Print Assumptions C76_one_thread.

(** If the cells around different seeds, built with the initial weights, have no event in common,
    then the result is that of the sequential resampler, bit for bit, for any number of threads and
    every schedule. *)
Theorem C76_apart : forall (N : NumOps) Err (D : N -> Prop) mw nw sort strategy (algo : search_algo N) dist max (evs : list (Event N)) nthreads sched,
  sort_ok sort -> order_on N D -> D n0 -> (forall e w, In e evs -> ev_weight e = Some w -> D w) ->
  shaped mw nw (map ev_weights evs) -> valid_search (length evs) (algo (length evs) (dist_wrapper dist evs) max) -> 0 < nthreads ->
  (forall seeds, select_seeds sort strategy (map ev_weights evs) = Some seeds ->
     cells_apart (algo (length evs) (dist_wrapper dist evs) max) (map ev_weights evs) seeds) ->
  threads_resample (Err := Err) nthreads sched mw sort strategy algo dist max evs = lib_resample mw sort strategy algo dist max evs.
Proof.
  intros N Err D mw nw sort strategy algo dist max evs nthreads sched Hsort Ho H0 Hk Hs Hv Hn Hap.
  destruct (threads_resample_execution Err strategy Hsort Ho Hk Hs Hv sched Hn) as (seeds & k & s & E & Hlt & H1 & H2 & _ & H3).
  assert (Hv' : valid_search (length (map ev_weights evs)) (algo (length evs) (dist_wrapper dist evs) max)) by (rewrite map_length; exact Hv).
  destruct (C69_selected N sort D strategy (map ev_weights evs) seeds Hsort Ho H0) as [Hnd Hnp]; [|exact E|].
  { intros i w (v & Hw). apply nth_error_In in Hw. apply in_map_iff in Hw. destruct Hw as (e & Ew & He). apply (Hk e w He). unfold ev_weight. rewrite Ew. reflexivity. }
  destruct (C69_any_schedule N mw nw _ (map ev_weights evs) seeds nthreads k s seeds Hv' Hs Hnd Hnp (Hap seeds E) H1 H2 (Permutation_refl _)) as (cells & Hc).
  rewrite H3. unfold lib_resample, resampler_resample. rewrite E, Hc. reflexivity.
Qed.
Print Assumptions C76_apart.

(** the race of C08_refuted as events *)
Definition race_evs : list (Event B64) := Eval vm_compute in map (fun '(i, w) => @mkEvent B64 i w []) (combine (seq 0 4) race_weights).
Definition race_edist (e1 e2 : Event B64) : B64 := race_dist (ev_id e1) (ev_id e2).
Definition race_algo : search_algo B64 := fun n d max => naive_nearest first_min n d max.
Definition race_two : list (Event B64) := Eval vm_compute in map (fun '(e, w) => mkEvent (ev_id e) w (ev_out e)) (combine race_evs (mem race_final)).
Definition race_one : list (Event B64) := Eval vm_compute in
  match lib_resample (Err := unit) false isort MostNegative race_algo race_edist (b64_of_Z 100) race_evs with Some (inl l) => l | _ => [] end.
Lemma race_evs_weights : map ev_weights race_evs = race_weights.
Proof. vmr. Qed.
Lemma race_seeds : select_seeds isort MostNegative race_weights = Some [0; 2].
Proof. vmr. Qed.
Lemma race_with : map (fun '(e, w) => mkEvent (ev_id e) w (ev_out e)) (combine race_evs (mem race_final)) = race_two.
Proof. vmr. Qed.
Lemma race_evs_complete : complete_search (length race_evs) (race_algo (length race_evs) (dist_wrapper race_edist race_evs) (b64_of_Z 100)).
Proof.
  set (d := dist_wrapper race_edist race_evs). change (complete_search 4 (naive_nearest first_min 4 d (b64_of_Z 100))).
  assert (Hd : forall i j, i < 4 -> j < 4 -> not_nan (d i j)).
  { intros i j Hi Hj. do 4 (destruct i as [|i]; [do 4 (destruct j as [|j]; [vm_compute; discriminate|]); lia|]); lia. }
  assert (Hv : valid_search 4 (naive_nearest first_min 4 d (b64_of_Z 100))).
  { apply naive_valid with (D := not_nan); auto using B64_order, first_min_ok. vm_compute; discriminate. }
  intros seed Hs. destruct (Hv seed Hs) as (nb & A & B). exists nb. split; auto. split; auto.
  clear B. intros i Hi Hne.
  do 4 (destruct seed as [|seed]; [vm_compute in A; injection A as <-; cbn; lia|]); lia.
Qed.
Lemma race_evs_run : run_schedule false (race_algo (length race_evs) (dist_wrapper race_edist race_evs) (b64_of_Z 100)) race_schedule (conc_init 2 [0; 2] race_weights) = Some race_final.
Proof. vmr. Qed.
Lemma race_shaped : shaped false 1 (map ev_weights race_evs).
Proof. rewrite race_evs_weights. split; [lia|split; [reflexivity|repeat constructor]]. Qed.
Lemma race_weights_ok : forall e w, In e race_evs -> ev_weight e = Some w -> not_nan w.
Proof. intros e w [<-|[<-|[<-|[<-|[]]]]] H; injection H as <-; discriminate. Qed.

(** With two threads negative weights may remain although one thread removes them all: C08 does
    not hold for the resampler with threads. *)
Theorem C76_negative_refuted : exists (evs : list (Event B64)) (algo : search_algo B64) dist max sched evs' evs1 e,
  complete_search (length evs) (algo (length evs) (dist_wrapper dist evs) max) /\ shaped false 1 (map ev_weights evs) /\
  nltb n0 (nsum (map (fun e => nth 0 (ev_weights e) n0) evs)) = true /\
  threads_resample (Err := unit) 2 sched false isort MostNegative algo dist max evs = Some (inl evs') /\
  In e evs' /\ (exists w, ev_weight e = Some w /\ nltb w n0 = true) /\
  threads_resample (Err := unit) 1 (fun _ => (0, 0)) false isort MostNegative algo dist max evs = Some (inl evs1) /\
  Forall (fun e => exists w, ev_weight e = Some w /\ nleb n0 w = true) evs1.
Proof.
  destruct (C76_executions B64 unit not_nan false 1 isort MostNegative race_algo race_edist (b64_of_Z 100) race_evs 2 isort_ok B64_order race_weights_ok race_shaped (complete_valid race_evs_complete) Nat.lt_0_2)
    as (seeds & E & _ & Hx). cbv zeta in Hx. rewrite race_evs_weights in E. rewrite race_seeds in E. injection E as <-.
  destruct (@schedule_steps B64 _ _ _ _ _ race_evs_run) as [k Hsteps].
  destruct (Hx k race_final) as [sched Hsched].
  { rewrite race_evs_weights. exact Hsteps. }
  { split; [reflexivity|]. intros t [<-|[<-|[]]]; reflexivity. }
  rewrite race_with in Hsched.
  exists race_evs, race_algo, race_edist, (b64_of_Z 100), sched, race_two, race_one, (nth 1 race_two (mkEvent (N := B64) 0 [] [])).
  split; [exact race_evs_complete|]. split; [exact race_shaped|]. split; [vmr|]. split; [exact Hsched|]. split; [|split; [|split]].
  - right. left. reflexivity.
  - eexists. split; [reflexivity|]. vmr.
  - rewrite (C76_one_thread B64 unit not_nan false 1 isort MostNegative race_algo race_edist (b64_of_Z 100) race_evs isort_ok B64_order race_weights_ok race_shaped (complete_valid race_evs_complete)).
    vmr.
  - repeat (apply Forall_cons; [eexists; split; [reflexivity|vmr]|]). apply Forall_nil.
Qed.
Print Assumptions C76_negative_refuted.

(** A complete run of the program with any number of threads and any schedule, under the hypotheses
    of C74_program: it succeeds; the output has the same events in the same order, with one weight
    each; the sum of the weights is that of the input events with particles after the clustering (with
    unweighting, unless it is zero); without unweighting, observables change at most as in
    C75_program.  (Nonnegative weights are not guaranteed, see C76_negative_refuted.) *)
Theorem C76_program : forall (D : R -> Prop) (double : parser RN) show xml checks sort MAX km neutrino hadron delta_r cluster_if choose psum draws shuffle
    nthreads sched opt inputs files tags evs fuel,
  number_text RN D double show -> stops_at_tag xml -> reorders shuffle -> sort_ok sort -> choose_ok choose -> km_ok km ->
  (forall l, psum l = Rsum l) -> (0 <= co_minweight opt)%R -> consistent (co_cluster opt) -> 0 < nthreads ->
  event_files xml inputs = Ok (files, tags) ->
  Forall (well_formed D double xml checks (extract_scaling tags)) files ->
  reads double show xml checks false [] sort inputs evs -> length evs < fuel ->
  exists c outs W,
    as_requested (co_cluster opt) c /\
    cres_main_threads double show xml checks sort MAX km neutrino hadron delta_r cluster_if choose psum draws shuffle nthreads sched fuel opt inputs = Done outs /\
    length outs = length files /\ length W = length evs /\
    (Forall (writable D (extract_scaling tags)) W ->
     exists evs', reads double show xml checks false [] sort (replace_events xml inputs outs) evs' /\
       let cluster := default_cluster neutrino hadron delta_r cluster_if false sort c in
       let sum l := Rsum (map (fun e => nth 0 (ev_weights e) 0%R) l) in
       let before := map (fun e => if keeps_particles cluster e then ev_weights e else [0%R]) evs in
       length evs' = length evs /\ map ev_out evs' = map ev_out evs /\ map ev_weights evs' = W /\
       (co_minweight opt = 0%R \/ sum evs' <> 0%R -> sum evs' = sum (filter (keeps_particles cluster) evs)) /\
       (co_minweight opt = 0%R -> forall f eps, (0 <= eps)%R ->
        (forall i j ei ej ei' ej' d, nth_error evs i = Some ei -> nth_error evs j = Some ej -> cluster ei = Some ei' -> cluster ej = Some ej' ->
           ev_out ei' <> [] -> ev_out ej' <> [] -> distance sort km (co_ptweight opt) ei' ej' = Some d ->
           (d <= match co_max_cell_size opt with Some max => max | None => MAX end)%R -> (Rabs (f j - f i) <= eps)%R) ->
        (Rabs (observable f W 0 - observable f before 0) <= 2 * eps * INR (nnegative before) * total_abs before 0)%R)).
Proof.
  intros D double show xml checks sort MAX km neutrino hadron delta_r cluster_if choose psum draws shuffle nthreads sched opt inputs files tags evs fuel
    HT Hx Hs Hsort Hch Hkm Hps Hmin Hopt Hn He Hwf Hread Hfuel.
  destruct (proj1 (C48_options RN (co_cluster opt)) Hopt) as (c & Ec & Hc). exists c.
  set (cluster := default_cluster neutrino hadron delta_r cluster_if false sort c) in *.
  set (resample := threads_resampler_of sort MAX km choose nthreads sched opt).
  assert (Ht : total_step (fun _ => True) resample).
  { apply threads_total; [exact Hsort|exact RN_order|exact Hn|]. intros l. apply search_valid; assumption. }
  assert (Hfacts : forall l l', shaped false 1 (map ev_weights l) -> resample l = Some (inl l') ->
    map ev_id l' = map ev_id l /\ map ev_out l' = map ev_out l /\ shaped false 1 (map ev_weights l') /\
    forall k, total (map ev_weights l') k = total (map ev_weights l) k).
  { intros l l' Hsh Hr. eapply threads_resample_facts; try eassumption. apply search_valid; assumption. }
  destruct (C71_total_correctness RN D (fun _ => True) double show xml checks false [] sort cluster shuffle
    resample (unweighter_of psum draws opt) inputs files tags evs fuel) as (outs & W & Hp & Hlo & HlW & (records & Hcv & Hrun) & Hout);
    try assumption; auto using kind_true.
  { intros e. apply (default_cluster_some neutrino hadron delta_r cluster_if false sort c e). }
  { apply minweight_total. exact Hmin. }
  exists outs, W. split; [exact Hc|]. split; [unfold cres_main_threads; rewrite Ec; exact Hp|]. split; [exact Hlo|]. split; [exact HlW|].
  intros HW. exists (reweighted_all evs W). split; [exact (Hout HW)|]. cbv zeta. fold cluster.
  assert (Hll : length (combine evs W) = length evs) by (rewrite combine_length; lia).
  pose proof (written_one_gen resample double sort neutrino hadron delta_r cluster_if psum draws shuffle opt c records evs W Ht Hsort Hs Hmin Hcv Hrun) as Hone.
  split; [unfold reweighted_all; rewrite map_length; exact Hll|]. split; [|split; [|split]].
  - clear -HlW. unfold reweighted_all. revert W HlW. induction evs as [|e evs IH]; intros [|w W] Hl; try discriminate; [reflexivity|].
    cbn [combine map]. f_equal. apply IH. injection Hl as Hl. exact Hl.
  - clear -HlW Hone. unfold reweighted_all. revert W HlW Hone. induction evs as [|e evs IH]; intros [|w W] Hl Ho; try discriminate; [reflexivity|].
    inversion Ho as [|? ? (w0 & ->) Ho']; subst. cbn [combine map]. apply f_equal2; [reflexivity|]. apply IH; [|exact Ho']. injection Hl as Hl. exact Hl.
  - pose proof (run_total_kept_gen resample double sort neutrino hadron delta_r cluster_if psum draws shuffle opt c records evs W Hfacts Hsort Hs Hps HlW Hcv Hrun) as Htot.
    fold cluster in Htot. unfold total in Htot. rewrite !map_map in Htot. intros Hm. refine (eq_trans (Htot Hm) _).
    pose proof (total_used_split (keeps_particles cluster) evs) as S. unfold total in S. rewrite !map_map in S. cbn beta in *. rewrite S.
    match goal with |- (?a + ?b - ?b)%R = ?c => change (a + b - b = a)%R end. ring.
  - intros Hm0 f eps Heps Hf.
    apply (run_observable_gen double sort MAX km neutrino hadron delta_r cluster_if psum draws shuffle opt false c Hsort Hkm Hs Hm0 resample [] records evs W f eps); auto.
    + intros used evs1 Hsh Hr. apply (Hfacts used evs1 Hsh Hr).
    + intros used evs1 f' eps' Hbu Hsh Hr He' Hf'. eapply threads_observable; try eassumption; [apply search_valid; assumption|].
      apply (search_limited sort MAX km choose opt Hsort Hkm Hch used Hbu).
Qed.
Print Assumptions C76_program.

(** *** Cases *)
(** The run of C74_case with four threads, in every schedule. *)
Example C76_program_case : forall psum draws sched, (forall l, psum l = Rsum l) ->
  exists outs, cres_main_threads r_double r_show r_noxml true isort 100%R km_brute p_neutrino (fun _ => false) (fun _ _ => 0%R) (fun _ _ _ _ => [])
    first_min psum draws r_ids 4 sched 10 p_opt [r_file] = Done outs.
Proof.
  intros psum draws sched Hps. destruct (C74_case psum draws) as (H1 & H2 & H3 & H4 & H5 & H6 & H7 & H8 & H9 & H10 & _).
  destruct (C76_program integer r_double r_show r_noxml true isort 100%R km_brute p_neutrino (fun _ => false) (fun _ _ => 0%R) (fun _ _ _ _ => [])
    first_min psum draws r_ids 4 sched p_opt [r_file] [r_file] [] p_evs 10) as (c & outs & W & _ & H & _); auto.
  - apply Rle_refl.
  - cbn. lia.
  - exists outs. exact H.
Qed.
(** The race of two threads meets the hypotheses of C76_executions and C76_one_thread. *)
Example C76_executions_case : order_on B64 not_nan /\ (forall e w, In e race_evs -> ev_weight e = Some w -> not_nan w) /\ shaped false 1 (map ev_weights race_evs) /\
  valid_search (length race_evs) (race_algo (length race_evs) (dist_wrapper race_edist race_evs) (b64_of_Z 100)).
Proof. exact (conj B64_order (conj race_weights_ok (conj race_shaped (complete_valid race_evs_complete)))). Qed.
(** Two cells without common events: weights -1, 3, -2, 6 at the positions 0, 1, 10, 11. *)
Definition apart_evs : list (Event ZN) := [mkEvent (N := ZN) 0 [-1]%Z []; mkEvent (N := ZN) 1 [3]%Z []; mkEvent (N := ZN) 10 [-2]%Z []; mkEvent (N := ZN) 11 [6]%Z []].
Definition apart_edist (e1 e2 : Event ZN) : ZN := Z.abs (Z.of_nat (ev_id e1) - Z.of_nat (ev_id e2)).
Definition apart_algo : search_algo ZN := fun n d max => naive_nearest first_min n d max.
Example C76_apart_case : forall nthreads sched, 0 < nthreads ->
  threads_resample (Err := unit) nthreads sched false isort MostNegative apart_algo apart_edist 100%Z apart_evs =
  Some (inl [mkEvent (N := ZN) 0 [1]%Z []; mkEvent (N := ZN) 1 [1]%Z []; mkEvent (N := ZN) 10 [2]%Z []; mkEvent (N := ZN) 11 [2]%Z []]).
Proof.
  intros nthreads sched Hn. rewrite (C76_apart ZN unit (fun _ => True) false 1); auto using isort_ok, zn_order.
  - split; [lia|split; [reflexivity|repeat constructor]].
  - apply (@RunProofs2.naive_valid ZN (fun _ => True)); auto using zn_order, first_min_ok.
  - intros seeds E. assert (X : select_seeds isort MostNegative (map ev_weights apart_evs) = Some [2; 0]) by (vm_compute; reflexivity).
    assert (seeds = [2; 0]) as -> by congruence. clear E X.
    intros s s' c c' i Hs Hs' Hne (nb & E & F) (nb' & E' & F').
    destruct Hs as [<-|[<-|[]]]; destruct Hs' as [<-|[<-|[]]]; try congruence;
      vm_compute in E; injection E as <-; vm_compute in E'; injection E' as <-; vm_compute in F; injection F as <-;
      vm_compute in F'; injection F' as <-; cbn; lia.
Qed.
