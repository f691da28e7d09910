(** Property C78: the program as it is built by default, with the feature "multiweight", and without
    named weights.  Events without identified particles after the clustering, and events that are
    dropped by the unweighting, are then written with their old weights. *)
From Coq Require Import Reals Lra List Arith Lia Permutation Ascii Bool ZArith SpecFloat.
From Verif Require Import Base BaseProofs Num ModelEvent SpecEvent EventProofs ModelText SpecText SpecFormats TextProofs ModelHepMC ModelLHEF ModelStripper ModelIO IOProofs FormatProofs FileProofs2 FileProofs3
  TextExamples PropsHepMC PropsFormats PropsRecord
  ModelSeeds ModelCell ModelNaive NaiveProofs SpecTree ModelVPTree VPTreeProofs2 SpecSearch RunProofs2 ModelResampler ModelDistance SpecDistance DistanceProofs DistanceProofs2
  ModelCluster ModelOpt SpecOpt ModelUnweight ModelCres SpecCres SpecWeights CresProofs CresProofs2 ModelMain SpecMain MainProofs MainProofs2 MainProofs3 SpecPanic PanicProofs2 ModelProgram ProgramProofs ProgramProofs2
  PropsTree PropsOpt PropsMain PropsPanic PropsProgram SumProofs SpecLocal LocalProofs LocalProofs2 ModelThreads ThreadsProofs PropsProgram2 DefaultProofs.
Import ListNotations.
Local Open Scope R_scope.

(** What is shared by the theorems below: the program with any resampling that preserves the total,
    changes nothing but weights *)
Section Shared.
Context (D : R -> Prop) (double : parser RN) (show : RN -> text) (xml : text -> option (xml_tag RN)) (checks : bool) (sort : sorter)
  (neutrino hadron : Z -> bool) (delta_r : PseudoJet RN -> PseudoJet RN -> RN)
  (cluster_if : JetAlgorithm -> RN -> (PseudoJet RN -> bool) -> list (PseudoJet RN) -> list (PseudoJet RN))
  (psum : list R -> R) (draws : nat -> R)
  (shuffle : list (Event RN + @cres_error (option read_error)) -> list (Event RN + @cres_error (option read_error)))
  (opt : cres_opt RN) (c : DefaultClustering RN) (resample : list (Event RN) -> option (list (Event RN) + option read_error))
  (inputs files : list text) (tags : list (stripper_tag RN)) (evs : list (Event RN)) (fuel : nat).
Notation cluster := (default_cluster neutrino hadron delta_r cluster_if true sort c).
Hypothesis HT : number_text RN D double show.
Hypothesis Hx : stops_at_tag xml.
Hypothesis Hs : reorders shuffle.
Hypothesis Hsort : sort_ok sort.
Hypothesis Hps : forall l, psum l = Rsum l.
Hypothesis Hmin : 0 <= co_minweight opt.
Hypothesis He : event_files xml inputs = Ok (files, tags).
Hypothesis Hwf : Forall (well_formed D double xml checks (extract_scaling tags)) files.
Hypothesis Hread : reads double show xml checks true [] sort inputs evs.
Hypothesis Hfuel : (length evs < fuel)%nat.
Hypothesis Htot : total_step (fun _ => True) resample.
Hypothesis Hres : forall l l', shaped true 1 (map ev_weights l) -> resample l = Some (inl l') ->
  map ev_id l' = map ev_id l /\ map ev_out l' = map ev_out l /\ shaped true 1 (map ev_weights l') /\
  forall k, total (map ev_weights l') k = total (map ev_weights l) k.

(** the resampling moves weights only over distances up to [max] *)
Definition short_range (dist : Event RN -> Event RN -> R) (max : R) : Prop := forall used evs1 f' eps,
  Forall (built sort) used -> shaped true 1 (map ev_weights used) -> resample used = Some (inl evs1) -> 0 <= eps ->
  (forall i j ei ej, nth_error used i = Some ei -> nth_error used j = Some ej -> dist ei ej <= max -> Rabs (f' j - f' i) <= eps) ->
  Rabs (observable f' (map ev_weights evs1) 0 - observable f' (map ev_weights used) 0) <= 2 * eps * INR (nnegative (map ev_weights used)) * total_abs (map ev_weights used) 0.

Lemma program_default : exists outs W records,
  cres_program double show xml checks true [] sort cluster shuffle resample (unweighter_of psum draws opt) fuel inputs = Done outs /\
  length outs = length files /\ length W = length evs /\
  Forall2 (fun r ev => try_convert double true [] sort r = inl ev) records evs /\
  run_on double true [] sort cluster shuffle resample (unweighter_of psum draws opt) (map inl records) = Wrote W /\
  (Forall (writable D (extract_scaling tags)) W -> reads double show xml checks true [] sort (replace_events xml inputs outs) (reweighted_all evs W)) /\
  let evs' := reweighted_all evs W in
  let sum l := Rsum (map (fun e => nth 0 (ev_weights e) 0) l) in
  let before := map (fun e => if keeps_particles cluster e then ev_weights e else [0]) evs in
  length evs' = length evs /\ map ev_out evs' = map ev_out evs /\ Forall (fun e => exists w, ev_weights e = [w]) evs' /\
  (co_minweight opt = 0 -> sum evs' = sum evs /\
     (forall n e, nth_error evs n = Some e -> keeps_particles cluster e = false -> nth_error evs' n = Some e) /\
     forall f eps dist max, short_range dist max -> 0 <= eps ->
     (forall i j ei ej ei' ej' e1 e2, nth_error evs i = Some ei -> nth_error evs j = Some ej -> cluster ei = Some ei' -> cluster ej = Some ej' ->
        ev_out ei' <> [] -> ev_out ej' <> [] -> built sort e1 -> built sort e2 -> ev_id e1 = i -> ev_id e2 = j -> ev_out e1 = ev_out ei' -> ev_out e2 = ev_out ej' -> dist e1 e2 <= max -> Rabs (f j - f i) <= eps) ->
     Rabs (observable f (map ev_weights evs') 0 - observable f (map ev_weights evs) 0) <= 2 * eps * INR (nnegative before) * total_abs before 0) /\
  exists survivors dropped,
    Permutation (survivors ++ dropped) (filter (fun n => match nth_error evs n with Some e => keeps_particles cluster e | None => false end) (seq 0 (length evs))) /\
    (forall n, ~ In n survivors -> nth_error evs' n = nth_error evs n) /\
    let at_ l n := nth 0 (nth n (map ev_weights l) []) 0 in
    (Rsum (map (at_ evs') survivors) <> 0 -> sum evs' = sum evs + Rsum (map (at_ evs) dropped)).
Proof.
  destruct (C71_total_correctness RN D (fun _ => True) double show xml checks true [] sort cluster shuffle
    resample (unweighter_of psum draws opt) inputs files tags evs fuel) as (outs & W & Hp & Hlo & HlW & (records & Hcv & Hrun) & Hout);
    try assumption; auto using kind_true.
  { intros e. apply (default_cluster_some neutrino hadron delta_r cluster_if true sort c e). }
  { apply minweight_total. exact Hmin. }
  exists outs, W, records. split; [exact Hp|]. split; [exact Hlo|]. split; [exact HlW|]. split; [exact Hcv|]. split; [exact Hrun|]. split; [exact Hout|].
  destruct (default_run double sort neutrino hadron delta_r cluster_if psum draws shuffle opt c resample Hsort Hs Hps Hres Htot Hmin records evs W Hcv HlW Hrun)
    as (Hone & survivors & dropped & P1 & P2 & P3 & P4 & P5 & P6). cbv zeta in P6.
  assert (Hpos : forall n, In n (survivors ++ dropped) <-> exists e, nth_error evs n = Some e /\ keeps_particles cluster e = true).
  { intros n. rewrite <- (with_particles_in sort neutrino hadron delta_r cluster_if c). split; apply Permutation_in; [exact P1|apply Permutation_sym; exact P1]. }
  pose proof (sums evs W (keeps_particles cluster) survivors dropped HlW P2 Hpos P5) as Hsums.
  cbv zeta. split; [unfold reweighted_all; rewrite map_length, combine_length; lia|]. split; [apply reweighted_out; exact HlW|].
  split; [exact (one_weight evs W survivors HlW P4 P5 Hone)|]. split.
  - intros Hm. pose proof (P3 Hm) as Hd. specialize (P6 (or_introl Hm)). split.
    + rewrite Hd in P6. cbn [map Rsum fold_right] in P6. rewrite Hsums, P6. unfold Rsum. cbn [fold_right]. lra.
    + split.
      * intros n e E K. rewrite (unchanged evs W survivors HlW P5); [exact E|]. intros Hi.
        destruct (proj1 (Hpos n) (in_or_app _ _ _ (or_introl Hi))) as (e1 & E1 & K1). rewrite E in E1. injection E1 as <-. congruence.
      * intros f eps dist max Hobs Heps Hf. rewrite (observables evs W (keeps_particles cluster) survivors dropped HlW P2 Hpos P4 P5 f Hd).
        apply (run_observable_dist double sort neutrino hadron delta_r cluster_if psum draws shuffle opt true c Hsort Hs Hm dist max resample [] records evs W f eps); auto.
        intros used evs1 Hsh Hr. apply (Hres used evs1 Hsh Hr).
  - exists survivors, dropped. split; [exact P1|]. split; [exact (unchanged evs W survivors HlW P5)|]. cbv zeta. intros Hne.
    rewrite Hsums. specialize (P6 (or_intror Hne)). rewrite P6.
    match goal with |- ?s + (?a + ?b) - _ = _ => change (s + (a + b) - a = s + b) end. ring.
Qed.
End Shared.

(** in terms of the distance between clustered events *)
Lemma own_distance sort km opt (e1 e2 e1' e2' : Event RN) : sort_ok sort -> km_ok km -> built sort e1 -> built sort e2 -> ev_out e1 = ev_out e1' -> ev_out e2 = ev_out e2' ->
  distance (N := RN) sort km (co_ptweight opt) e1' e2' = Some (distance_of sort km opt e1 e2).
Proof.
  intros Hsort Hkm B1 B2 E1 E2. destruct (ddist_metric sort km (co_ptweight opt) Hsort Hkm e1 e2 e2 B1 B2 B2) as (D1 & _).
  unfold distance_of, distance in *. rewrite <- E1, <- E2. unfold ddist in *. rewrite D1. reflexivity.
Qed.

(** C78: the default build with any number of threads, without unweighting.  Suppose the options are
    consistent and the input files are well-formed.  Then the program succeeds, and reading the
    output gives the same events (in number, order and outgoing particles) with one weight each.
    Events without particles after the clustering are unchanged.  The sum of the weights of all events
    is the same before and after; and every observable [f] that varies by at most [eps] over
    distances up to the maximum cell size changes by at most [2 eps] times the number of negative
    weights times the sum of the absolute values of the weights (of events with particles). *)
Theorem C78_threads : forall (D : R -> Prop) (double : parser RN) show xml checks sort MAX km neutrino hadron delta_r cluster_if choose psum draws shuffle
    nthreads sched opt inputs files tags evs fuel,
  number_text RN D double show -> stops_at_tag xml -> reorders shuffle -> sort_ok sort -> choose_ok choose -> km_ok km ->
  (forall l, psum l = Rsum l) -> co_minweight opt = 0 -> consistent (co_cluster opt) -> (0 < nthreads)%nat ->
  event_files xml inputs = Ok (files, tags) ->
  Forall (well_formed D double xml checks (extract_scaling tags)) files ->
  reads double show xml checks true [] sort inputs evs -> (length evs < fuel)%nat ->
  exists c outs W,
    as_requested (co_cluster opt) c /\
    cres_main_default_threads double show xml checks sort MAX km neutrino hadron delta_r cluster_if choose psum draws shuffle nthreads sched fuel opt inputs = Done outs /\
    length outs = length files /\ length W = length evs /\
    (Forall (writable D (extract_scaling tags)) W ->
     exists evs', reads double show xml checks true [] sort (replace_events xml inputs outs) evs' /\
       let cluster := default_cluster neutrino hadron delta_r cluster_if true sort c in
       let sum l := Rsum (map (fun e => nth 0 (ev_weights e) 0) l) in
       let before := map (fun e => if keeps_particles cluster e then ev_weights e else [0]) evs in
       length evs' = length evs /\ map ev_out evs' = map ev_out evs /\ Forall (fun e => exists w, ev_weights e = [w]) evs' /\
       sum evs' = sum evs /\
       (forall n e, nth_error evs n = Some e -> keeps_particles cluster e = false -> nth_error evs' n = Some e) /\
       forall f eps, 0 <= eps ->
       (forall i j ei ej ei' ej' d, nth_error evs i = Some ei -> nth_error evs j = Some ej -> cluster ei = Some ei' -> cluster ej = Some ej' ->
          ev_out ei' <> [] -> ev_out ej' <> [] -> distance sort km (co_ptweight opt) ei' ej' = Some d ->
          d <= match co_max_cell_size opt with Some max => max | None => MAX end -> Rabs (f j - f i) <= eps) ->
       Rabs (observable f (map ev_weights evs') 0 - observable f (map ev_weights evs) 0) <= 2 * eps * INR (nnegative before) * total_abs before 0).
Proof.
  intros D double show xml checks sort MAX km neutrino hadron delta_r cluster_if choose psum draws shuffle nthreads sched opt inputs files tags evs fuel
    HT Hx Hs Hsort Hch Hkm Hps Hmin Hopt Hn He Hwf Hread Hfuel.
  destruct (proj1 (C48_options RN (co_cluster opt)) Hopt) as (c & Ec & Hc). exists c.
  assert (Hm0 : 0 <= co_minweight opt) by (rewrite Hmin; apply Rle_refl).
  destruct (program_default D double show xml checks sort neutrino hadron delta_r cluster_if psum draws shuffle opt c
    (threads_resampler_with sort MAX km choose nthreads sched true opt) inputs files tags evs fuel) as (outs & W & records & Hp & Hlo & HlW & Hcv & Hrun & Hout & F1 & F2 & F3 & F4 & F5); try assumption.
  { apply threads_total; [exact Hsort|exact RN_order|exact Hn|]. intros l. apply search_valid; assumption. }
  { intros l l' Hsh Hr. eapply threads_resample_facts; try eassumption. apply search_valid; assumption. }
  exists outs, W. split; [exact Hc|]. split; [unfold cres_main_default_threads; rewrite Ec; exact Hp|]. split; [exact Hlo|]. split; [exact HlW|].
  intros HW. exists (reweighted_all evs W). split; [exact (Hout HW)|]. cbv zeta. destruct (F4 Hmin) as (G1 & G2 & G3). do 5 (split; [assumption|]).
  intros f eps Heps Hf. apply (G3 f eps (distance_of sort km opt) (match co_max_cell_size opt with Some max => max | None => MAX end)); [|exact Heps|].
  - intros used evs1 f' eps' Hbu Hsh Hr He' Hf'. eapply threads_observable; try eassumption; [apply search_valid; assumption|].
    apply (search_limited sort MAX km choose opt Hsort Hkm Hch used Hbu).
  - intros i j ei ej ei' ej' e1 e2 A1 A2 A3 A4 A5 A6 B1 B2 _ _ E1 E2 Hd. apply (Hf i j ei ej ei' ej' (distance_of sort km opt e1 e2) A1 A2 A3 A4 A5 A6); [|exact Hd]. apply own_distance; assumption.
Qed.
Print Assumptions C78_threads.

(** With a single thread, moreover: if the weights of the events with particles do not add up to a
    negative number and no distance between two of these events exceeds the maximum size of a
    cell, then none of these events has a negative weight in the output. *)
Theorem C78_program : forall (D : R -> Prop) (double : parser RN) show xml checks sort MAX km neutrino hadron delta_r cluster_if choose psum draws shuffle
    opt inputs files tags evs fuel,
  number_text RN D double show -> stops_at_tag xml -> reorders shuffle -> sort_ok sort -> choose_ok choose -> km_ok km ->
  (forall l, psum l = Rsum l) -> (forall k, 0 <= draws k) -> co_minweight opt = 0 -> consistent (co_cluster opt) ->
  event_files xml inputs = Ok (files, tags) ->
  Forall (well_formed D double xml checks (extract_scaling tags)) files ->
  reads double show xml checks true [] sort inputs evs -> (length evs < fuel)%nat ->
  exists c outs W,
    as_requested (co_cluster opt) c /\
    cres_main_default double show xml checks sort MAX km neutrino hadron delta_r cluster_if choose psum draws shuffle fuel opt inputs = Done outs /\
    length outs = length files /\ length W = length evs /\
    (Forall (writable D (extract_scaling tags)) W ->
     exists evs', reads double show xml checks true [] sort (replace_events xml inputs outs) evs' /\
       let clustered e e' := default_cluster neutrino hadron delta_r cluster_if true sort c e = Some e' in
       let has_out e := keeps_particles (default_cluster neutrino hadron delta_r cluster_if true sort c) e in
       let sum l := Rsum (map (fun e => nth 0 (ev_weights e) 0) l) in
       let before := map (fun e => if has_out e then ev_weights e else [0]) evs in
       let max := match co_max_cell_size opt with Some max => max | None => MAX end in
       length evs' = length evs /\ map ev_out evs' = map ev_out evs /\ Forall (fun e => exists w, ev_weights e = [w]) evs' /\
       sum evs' = sum evs /\
       (forall n e, nth_error evs n = Some e -> has_out e = false -> nth_error evs' n = Some e) /\
       ((0 <= sum (filter has_out evs)) -> (N.of_nat (length evs) <= usize_max)%N ->
        (forall e1 e2 e1' e2' d, In e1 (filter has_out evs) -> In e2 (filter has_out evs) -> clustered e1 e1' -> clustered e2 e2' ->
           distance sort km (co_ptweight opt) e1' e2' = Some d -> d <= max) ->
        forall e, In e evs' -> has_out e = true -> exists w, ev_weights e = [w] /\ 0 <= w) /\
       (forall f eps, 0 <= eps ->
        (forall i j ei ej ei' ej' d, nth_error evs i = Some ei -> nth_error evs j = Some ej -> clustered ei ei' -> clustered ej ej' ->
           ev_out ei' <> [] -> ev_out ej' <> [] -> distance sort km (co_ptweight opt) ei' ej' = Some d -> d <= max -> Rabs (f j - f i) <= eps) ->
        Rabs (observable f (map ev_weights evs') 0 - observable f (map ev_weights evs) 0) <= 2 * eps * INR (nnegative before) * total_abs before 0)).
Proof.
  intros D double show xml checks sort MAX km neutrino hadron delta_r cluster_if choose psum draws shuffle opt inputs files tags evs fuel
    HT Hx Hs Hsort Hch Hkm Hps Hdr Hmin Hopt He Hwf Hread Hfuel.
  destruct (proj1 (C48_options RN (co_cluster opt)) Hopt) as (c & Ec & Hc). exists c.
  assert (Hm0 : 0 <= co_minweight opt) by (rewrite Hmin; apply Rle_refl).
  destruct (program_default D double show xml checks sort neutrino hadron delta_r cluster_if psum draws shuffle opt c
    (resampler_with sort MAX km choose true opt) inputs files tags evs fuel) as (outs & W & records & Hp & Hlo & HlW & Hcv & Hrun & Hout & F1 & F2 & F3 & F4 & F5); try assumption.
  { apply lib_resample_total; [exact Hsort|exact RN_order|]. intros l. apply search_valid; assumption. }
  { intros l l' Hsh Hr. unfold resampler_with in Hr. apply (lib_resample_facts Hsh Hr). }
  exists outs, W. split; [exact Hc|]. split; [unfold cres_main_default; rewrite Ec; exact Hp|]. split; [exact Hlo|]. split; [exact HlW|].
  intros HW. exists (reweighted_all evs W). split; [exact (Hout HW)|]. cbv zeta. destruct (F4 Hmin) as (G1 & G2 & G3).
  split; [exact F1|]. split; [exact F2|]. split; [exact F3|]. split; [exact G1|]. split; [exact G2|]. split.
  2:{ intros f eps Heps Hf. apply (G3 f eps (distance_of sort km opt) (match co_max_cell_size opt with Some max => max | None => MAX end)); [|exact Heps|].
    - intros used evs1 f' eps' Hbu Hsh Hr He' Hf'. unfold resampler_with, lib_resample in Hr.
      match type of Hr with match ?r with _ => _ end = _ => destruct r as [[evs1' cells]|] eqn:Er; [|discriminate] end.
      injection Hr as ->. eapply observable_resampler; eauto; try (apply search_valid; assumption). apply (search_limited sort MAX km choose opt Hsort Hkm Hch used Hbu).
    - intros i j ei ej ei' ej' e1 e2 A1 A2 A3 A4 A5 A6 B1 B2 _ _ E1 E2 Hd. apply (Hf i j ei ej ei' ej' (distance_of sort km opt e1 e2) A1 A2 A3 A4 A5 A6); [|exact Hd]. apply own_distance; assumption. }
  intros Hsum Husize Hdist e' Hin Hk. apply In_nth_error in Hin. destruct Hin as [n Hn].
  destruct (nth_error evs n) as [e|] eqn:En.
  2:{ apply nth_error_None in En. rewrite <- F1 in En. apply nth_error_None in En. rewrite En in Hn. discriminate. }
  destruct (nth_error W n) as [ws|] eqn:EW.
  2:{ apply nth_error_None in EW. assert (n < length evs)%nat by (apply nth_error_Some; congruence). rewrite HlW in EW. lia. }
  pose proof (reweighted_comp evs W n e ws En EW) as X. rewrite X in Hn. injection Hn as <-.
  destruct (run_nonneg double sort MAX km neutrino hadron delta_r cluster_if choose psum draws shuffle opt true c Hsort Hkm Hch Hs Hps Hdr Hm0 [] records evs W (or_intror eq_refl) Hcv Hrun Husize Hdist) with (n := n) (e := e) (ws := ws)
    as [(w & -> & Hw)|(-> & [K|K])]; try assumption.
  - unfold total. rewrite map_map. exact Hsum.
  - exists w. split; [reflexivity|exact Hw].
  - exfalso. cbn [weights_default] in Hk. rewrite reweighted_nil in Hk. rewrite Hk in K. discriminate.
  - contradiction.
Qed.
Print Assumptions C78_program.

(** With unweighting, which drops some events with particles and lifts the weights of others, the
    dropped events are written with the weights they had in the input.  The sum of weights then changes
    by the sum of the input weights of the dropped events, unless the others have a total of zero. *)
Theorem C78_unweighting_partial : forall (D : R -> Prop) (double : parser RN) show xml checks sort MAX km neutrino hadron delta_r cluster_if choose psum draws shuffle
    nthreads sched opt inputs files tags evs fuel,
  number_text RN D double show -> stops_at_tag xml -> reorders shuffle -> sort_ok sort -> choose_ok choose -> km_ok km ->
  (forall l, psum l = Rsum l) -> 0 <= co_minweight opt -> consistent (co_cluster opt) -> (0 < nthreads)%nat ->
  event_files xml inputs = Ok (files, tags) ->
  Forall (well_formed D double xml checks (extract_scaling tags)) files ->
  reads double show xml checks true [] sort inputs evs -> (length evs < fuel)%nat ->
  exists c outs W,
    as_requested (co_cluster opt) c /\
    cres_main_default_threads double show xml checks sort MAX km neutrino hadron delta_r cluster_if choose psum draws shuffle nthreads sched fuel opt inputs = Done outs /\
    length outs = length files /\ length W = length evs /\
    (Forall (writable D (extract_scaling tags)) W ->
     exists evs' survivors dropped, reads double show xml checks true [] sort (replace_events xml inputs outs) evs' /\
       let cluster := default_cluster neutrino hadron delta_r cluster_if true sort c in
       let sum l := Rsum (map (fun e => nth 0 (ev_weights e) 0) l) in
       let at_ l n := nth 0 (nth n (map ev_weights l) []) 0 in
       length evs' = length evs /\ map ev_out evs' = map ev_out evs /\ Forall (fun e => exists w, ev_weights e = [w]) evs' /\
       Permutation (survivors ++ dropped) (filter (fun n => match nth_error evs n with Some e => keeps_particles cluster e | None => false end) (seq 0 (length evs))) /\
       (forall n, ~ In n survivors -> nth_error evs' n = nth_error evs n) /\
       (Rsum (map (at_ evs') survivors) <> 0 -> sum evs' = sum evs + Rsum (map (at_ evs) dropped))).
Proof.
  intros D double show xml checks sort MAX km neutrino hadron delta_r cluster_if choose psum draws shuffle nthreads sched opt inputs files tags evs fuel
    HT Hx Hs Hsort Hch Hkm Hps Hmin Hopt Hn He Hwf Hread Hfuel.
  destruct (proj1 (C48_options RN (co_cluster opt)) Hopt) as (c & Ec & Hc). exists c.
  destruct (program_default D double show xml checks sort neutrino hadron delta_r cluster_if psum draws shuffle opt c
    (threads_resampler_with sort MAX km choose nthreads sched true opt) inputs files tags evs fuel) as (outs & W & records & Hp & Hlo & HlW & Hcv & Hrun & Hout & F1 & F2 & F3 & F4 & sv & dr & F5 & F6 & F7); try assumption.
  { apply threads_total; [exact Hsort|exact RN_order|exact Hn|]. intros l. apply search_valid; assumption. }
  { intros l l' Hsh Hr. eapply threads_resample_facts; try eassumption. apply search_valid; assumption. }
  exists outs, W. split; [exact Hc|]. split; [unfold cres_main_default_threads; rewrite Ec; exact Hp|]. split; [exact Hlo|]. split; [exact HlW|].
  intros HW. exists (reweighted_all evs W), sv, dr. split; [exact (Hout HW)|]. cbv zeta. cbv zeta in F7. auto 8.
Qed.
Print Assumptions C78_unweighting_partial.

(** The claim of C78_threads does not hold with unweighting.  In the file of C74_case the weights are 5,
    -1 and 7, and the last event has no particles.  With a minimum weight of 3 the second event is
    dropped by the unweighting.  So it keeps its negative weight, while the first event gets its
    resampled weight as well as that of the dropped event: the sum of weights changes from 11
    to 10, and a negative weight remains. *)
Definition d_main (opt : cres_opt RN) (draws : nat -> R) : list text -> ending :=
  cres_main_default r_double r_show r_noxml true isort 100 km_brute p_neutrino (fun _ => false) (fun _ _ => 0) (fun _ _ _ _ => [])
    first_min Rsum draws r_ids 10 opt.
Definition d_cluster : Event RN -> option (Event RN) :=
  default_cluster p_neutrino (fun _ => false) (fun _ _ => 0) (fun _ _ _ _ => []) true isort (mkClustering (mkJetDef AntiKt 1 30) None None false).

Lemma d_reads : reads r_double r_show r_noxml true true [] isort [r_file] p_evs.
Proof.
  destruct (r_files r_show) as (s & s' & F1 & F2 & F3).
  exists [], s, 10%nat, (map inl r_records), s'. split; [exact F1|]. split; [exact F2|].
  constructor; [eexists; split; [reflexivity|reflexivity]|]. constructor; [eexists; split; [reflexivity|reflexivity]|]. constructor; [eexists; split; [reflexivity|reflexivity]|constructor].
Qed.
Lemma d_records : Forall2 (fun r ev => try_convert r_double true [] isort r = inl ev) r_records p_evs.
Proof. constructor; [reflexivity|]. constructor; [reflexivity|]. constructor; [reflexivity|constructor]. Qed.
Lemma d_resampled (algo : search_algo RN) dist max o1 o2 d :
  algo 2%nat (dist_wrapper dist [mkEvent 0 [5 : RN] o1; mkEvent 1 [(-1) : RN] o2]) max 1%nat = Some [(0%nat, d)] ->
  lib_resample (Err := option read_error) true isort MostNegative algo dist max [mkEvent 0 [5 : RN] o1; mkEvent 1 [(-1) : RN] o2] =
  Some (inl [mkEvent 0 [2 : RN] o1; mkEvent 1 [2 : RN] o2]).
Proof.
  intros Ha.
  assert (E1 : nltb (n := RN) 5 0 = false) by (cbn; unfold Rltb; destruct (Rlt_dec 5 0); [lra|reflexivity]).
  assert (E2 : nltb (n := RN) (-1) 0 = true) by (cbn; unfold Rltb; destruct (Rlt_dec (-1) 0); [reflexivity|lra]).
  unfold lib_resample, resampler_resample, select_seeds. cbn [map omap central nth_error ev_weights length seq combine filter].
  change (n0 (n := RN)) with 0. rewrite E1, E2. cbn [map fst].
  remember (algo 2%nat (dist_wrapper dist [mkEvent 0 [5 : RN] o1; mkEvent 1 [(-1) : RN] o2]) max) as f eqn:Ef.
  assert (Er : resample_seeds (N := RN) true f [1%nat] [[5]; [(-1)]]
    = Some ([[2]; [2]], [mkCell [1%nat; 0%nat] d (-1 + 5)])).
  { cbn [resample_seeds]. unfold seed_step, cell_new. cbn. rewrite Ha. cbn. unfold Rleb. destruct (Rle_dec 0 (-1 + 5)); [|lra]. cbn.
    unfold Rltb. destruct (Rlt_dec 0 (-1)); [lra|]. cbn.
    replace ((5 + -1) * (1 / (1 + 1))) with 2 by field. reflexivity. }
  cbn. cbn in Er. rewrite Er. reflexivity.
Qed.
Lemma d_run : run_on r_double true [] isort d_cluster r_ids (resampler_with isort 100 km_brute first_min true u_opt) (unweighter_of Rsum u_draws u_opt)
  (map inl r_records) = Wrote [[4]; []; []].
Proof.
  unfold run_on, cres_run. set (ev := read_events _ _ _ _ _).
  assert (E : ev = inl [mkEvent 0 [5 : RN] r_out; mkEvent 1 [(-1) : RN] r_out; mkEvent 2 [7 : RN] []]) by reflexivity.
  rewrite E. cbn [filter ev_out r_out negb]. destruct (p_search [5] [(-1)]) as [d Hd].
  change (resampler_with isort 100 km_brute first_min true u_opt) with (resampler_with isort 100 km_brute first_min true p_opt). unfold resampler_with. cbn [co_max_cell_size p_opt co_strategy].
  rewrite (d_resampled _ _ _ _ _ d Hd). rewrite u_unweight. reflexivity.
Qed.
Lemma d_run0 psum draws : run_on r_double true [] isort d_cluster r_ids (resampler_with isort 100 km_brute first_min true p_opt) (unweighter_of psum draws p_opt)
  (map inl r_records) = Wrote [[2]; [2]; []].
Proof.
  unfold run_on, cres_run. set (ev := read_events _ _ _ _ _).
  assert (E : ev = inl [mkEvent 0 [5 : RN] r_out; mkEvent 1 [(-1) : RN] r_out; mkEvent 2 [7 : RN] []]) by reflexivity.
  rewrite E. cbn [filter ev_out r_out negb]. destruct (p_search [5] [(-1)]) as [d Hd]. unfold resampler_with. cbn [co_max_cell_size p_opt co_strategy].
  rewrite (d_resampled _ _ _ _ _ d Hd).
  unfold unweighter_of, lib_unweight, unweight. assert (Q : neqb (co_minweight p_opt) n0 = true) by (apply Reqb_true; reflexivity). rewrite Q. reflexivity.
Qed.
Theorem C78_unweighting_refuted : exists outs evs evs',
  d_main u_opt u_draws [r_file] = Done outs /\ (forall k, 0 <= u_draws k) /\ co_minweight u_opt = 3 /\
  reads r_double r_show r_noxml true true [] isort [r_file] evs /\ map ev_weights evs = [[5]; [-1]; [7]] /\
  reads r_double r_show r_noxml true true [] isort (replace_events r_noxml [r_file] outs) evs' /\ map ev_weights evs' = [[4]; [-1]; [7]].
Proof.
  destruct (C74_case Rsum u_draws) as (H1 & H2 & H3 & H4 & H5 & H6 & H7 & H8 & H9 & _).
  destruct (C71_total_correctness RN integer (fun _ => True) r_double r_show r_noxml true true [] isort d_cluster r_ids
    (resampler_with isort 100 km_brute first_min true u_opt) (unweighter_of Rsum u_draws u_opt) [r_file] [r_file] [] p_evs 10) as (outs & W & Hp & Hlo & HlW & (records & Hcv & Hrun) & Hout);
    try assumption; auto using kind_true, d_reads.
  { intros e. apply (default_cluster_some p_neutrino (fun _ => false) (fun _ _ => 0) (fun _ _ _ _ => []) true isort). }
  { apply lib_resample_total; [exact isort_ok|exact RN_order|]. intros l. apply search_valid; assumption. }
  { apply minweight_total. cbn. lra. }
  { cbn. lia. }
  rewrite (run_records r_double true [] isort d_cluster r_ids _ _ records r_records p_evs Hcv d_records), d_run in Hrun. injection Hrun as <-.
  exists outs, p_evs, (reweighted_all p_evs [[4]; []; []]). split; [exact Hp|]. split; [intros [|k]; cbn; lra|]. split; [reflexivity|]. split; [exact d_reads|]. split; [reflexivity|].
  split; [|reflexivity]. apply Hout. constructor; [|constructor; [left; reflexivity|constructor; [left; reflexivity|constructor]]].
  right. exists 4. split; [reflexivity|]. split; [exists 4%Z; reflexivity|intros ? ? []].
Qed.
Print Assumptions C78_unweighting_refuted.

(** *** Cases *)
(** The same file without unweighting: the weights 5, -1 and 7 become 2, 2 and 7. *)
Example C78_case : forall psum draws,
  number_text RN integer r_double r_show /\ stops_at_tag r_noxml /\ reorders r_ids /\ sort_ok isort /\ choose_ok first_min /\ km_ok km_brute /\
  consistent (co_cluster p_opt) /\ co_minweight p_opt = 0 /\ event_files r_noxml [r_file] = Ok ([r_file], []) /\ well_formed integer r_double r_noxml true [] r_file /\
  reads r_double r_show r_noxml true true [] isort [r_file] p_evs /\ map ev_weights p_evs = [[5]; [-1]; [7]] /\
  filter (keeps_particles d_cluster) p_evs = firstn 2 p_evs /\
  (forall e1 e2 e1' e2' d, In e1 (firstn 2 p_evs) -> In e2 (firstn 2 p_evs) -> d_cluster e1 = Some e1' -> d_cluster e2 = Some e2' ->
     distance isort km_brute (co_ptweight p_opt) e1' e2' = Some d -> d <= 100) /\
  run_on r_double true [] isort d_cluster r_ids (resampler_with isort 100 km_brute first_min true p_opt) (unweighter_of psum draws p_opt)
    (map inl r_records) = Wrote [[2]; [2]; []] /\
  map ev_weights (reweighted_all p_evs [[2]; [2]; []]) = [[2]; [2]; [7]] /\
  Forall (writable integer []) [[2]; [2]; []].
Proof.
  intros psum draws. destruct (C74_case psum draws) as (H1 & H2 & H3 & H4 & H5 & H6 & H7 & H8 & H9 & _ & H10 & _ & _ & _).
  do 7 (split; [assumption|]). split; [reflexivity|]. do 2 (split; [assumption|]). split; [exact d_reads|]. split; [assumption|]. split; [reflexivity|]. split.
  { assert (Hc : forall e e', In e (firstn 2 p_evs) -> d_cluster e = Some e' -> exists w, e' = mkEvent 0 w r_out).
    { intros e e' [<-|[<-|[]]] E; injection E as <-; eexists; reflexivity. }
    intros e1 e2 e1' e2' d I1 I2 C1 C2. destruct (Hc _ _ I1 C1) as [w1 ->]. destruct (Hc _ _ I2 C2) as [w2 ->].
    intros E. change (co_ptweight p_opt) with 0 in E. rewrite p_dist in E. injection E as <-. lra. }
  split; [apply d_run0|]. split; [reflexivity|].
  assert (H : forall z, writable (N := RN) integer [] [IZR z]).
  { intros z. right. exists (IZR z). split; [reflexivity|]. split; [exists z; reflexivity|intros ? ? []]. }
  constructor; [apply H|]. constructor; [apply H|]. constructor; [left; reflexivity|constructor].
Qed.
(** The program succeeds with four threads in every schedule, also with unweighting. *)
Example C78_threads_case : forall sched, exists outs, cres_main_default_threads r_double r_show r_noxml true isort 100 km_brute p_neutrino (fun _ => false) (fun _ _ => 0) (fun _ _ _ _ => [])
    first_min Rsum u_draws r_ids 4 sched 10 u_opt [r_file] = Done outs.
Proof.
  intros sched. destruct (C78_case Rsum u_draws) as (H1 & H2 & H3 & H4 & H5 & H6 & H7 & H8 & H9 & H10 & H11 & _).
  destruct (C78_unweighting_partial integer r_double r_show r_noxml true isort 100 km_brute p_neutrino (fun _ => false) (fun _ _ => 0) (fun _ _ _ _ => [])
    first_min Rsum u_draws r_ids 4 sched u_opt [r_file] [r_file] [] p_evs 10) as (c & outs & W & _ & H & _); auto; try (cbn; lra); try (cbn; lia).
  exists outs. exact H.
Qed.
