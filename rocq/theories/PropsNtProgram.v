(** Property C84: the program on ROOT ntuples. *)
From Coq Require Import Reals Lra.
From Verif Require Import Base BaseProofs Num ModelEvent SpecWeights ModelText SpecRecord ModelNtuple SpecNtuple NtupleProofs IOProofs ModelIO ModelCres SpecCres CresProofs2
  ModelNaive ModelSeeds ModelCell ModelResampler SpecSearch RunProofs2 NaiveProofs ModelThreads ThreadsProofs TextExamples PropsMain PropsNamed
  ModelNtProgram SpecNtProgram NtProgramProofs NtProgramProofs2 NtProgramProofs3.
From Coq Require Import Lia.
Local Open Scope R_scope.

(** C84: if the program succeeds, then there is one output file for each input file, with the same
    number of events, in the same order; nothing but the chosen weights differs.  The sum over all
    events of each of the chosen weights (always the main weight; "2", "ME" and "ME2" if the
    program was built for several weights and they were requested) is preserved.  Events without
    identified particles after the clustering are unchanged; but if the program was not built for
    several weights, they get the weight zero and do not contribute to the sum.  This holds for every
    clustering that keeps weights, every neighbour search, distance, strategy, maximum cell size,
    and order in which tasks finish. *)
Theorem C84_program : forall (Other : Type) mw names sort sort' (cluster : Event RN -> option (Event RN)) shuffle strategy (algo : search_algo RN) dist max
    fuel (files outs : list (list (ntuple_event RN Other))),
  reorders shuffle -> sort_ok sort -> (forall e e', cluster e = Some e' -> ev_weights e' = ev_weights e) -> (length (concat files) < fuel)%nat ->
  nt_program mw names sort cluster shuffle (lib_resample mw sort' strategy algo dist max) lib_no_unweight fuel files = NtDone outs ->
  Forall2 (Forall2 (same_but_weights mw names)) files outs /\
  (forall i r r' ev, nth_error (concat files) i = Some r -> nth_error (concat outs) i = Some r' -> convert_ntuple mw sort names r = Some ev ->
     identified cluster ev = false -> if mw then r' = r else nt_weight r' = 0) /\
  (forall f, chosen mw names f -> Rsum (map f (concat outs)) =
     Rsum (map f (filter (fun r => mw || match convert_ntuple mw sort names r with Some ev => identified cluster ev | None => false end) (concat files)))).
Proof.
  intros Other mw names sort sort' cluster shuffle strategy algo dist max fuel files outs Hs Hsort Hcl Hf Hp.
  destruct (program_records RN Other mw names sort cluster shuffle (lib_resample mw sort' strategy algo dist max) Hs Hsort fuel files outs Hcl) as
    (W & evs & evs0 & _ & _ & _ & _ & _ & _ & H1 & _ & _ & H2); [|exact Hf|exact Hp|].
  { intros s s' A B. destruct (lib_resample_facts A B) as (C & _ & E & _). auto. }
  split; [exact H1|]. split; [exact H2|]. intros f Hc. eapply (program_sums Other mw names sort cluster shuffle); try eassumption.
  intros s s' A B. exact (lib_resample_facts A B).
Qed.
Print Assumptions C84_program.

(** The same with any number of threads, under every schedule, for a neighbour search that delivers
    different events, and not the seed itself. *)
Theorem C84_threads : forall (Other : Type) mw names sort sort' (cluster : Event RN -> option (Event RN)) shuffle nthreads sched strategy (algo : search_algo RN) dist max
    fuel (files outs : list (list (ntuple_event RN Other))),
  reorders shuffle -> sort_ok sort -> sort_ok sort' -> (0 < nthreads)%nat ->
  (forall s : list (Event RN), valid_search (length s) (algo (length s) (dist_wrapper dist s) max)) ->
  (forall e e', cluster e = Some e' -> ev_weights e' = ev_weights e) -> (length (concat files) < fuel)%nat ->
  nt_program mw names sort cluster shuffle (threads_resample nthreads sched mw sort' strategy algo dist max) lib_no_unweight fuel files = NtDone outs ->
  Forall2 (Forall2 (same_but_weights mw names)) files outs /\
  (forall i r r' ev, nth_error (concat files) i = Some r -> nth_error (concat outs) i = Some r' -> convert_ntuple mw sort names r = Some ev ->
     identified cluster ev = false -> if mw then r' = r else nt_weight r' = 0) /\
  (forall f, chosen mw names f -> Rsum (map f (concat outs)) =
     Rsum (map f (filter (fun r => mw || match convert_ntuple mw sort names r with Some ev => identified cluster ev | None => false end) (concat files)))).
Proof.
  intros Other mw names sort sort' cluster shuffle nthreads sched strategy algo dist max fuel files outs Hs Hsort Hsort' Hn Hv Hcl Hf Hp.
  assert (Hres : forall s s', shaped mw (nused mw names) (map ev_weights s) -> threads_resample (Err := unit) nthreads sched mw sort' strategy algo dist max s = Some (inl s') ->
    map ev_id s' = map ev_id s /\ map ev_out s' = map ev_out s /\ shaped mw (nused mw names) (map ev_weights s') /\
    forall k, total (map ev_weights s') k = total (map ev_weights s) k).
  { intros s s' A B. eapply threads_resample_facts; try eassumption. apply Hv. }
  destruct (program_records RN Other mw names sort cluster shuffle (threads_resample nthreads sched mw sort' strategy algo dist max) Hs Hsort fuel files outs Hcl) as
    (W & evs & evs0 & _ & _ & _ & _ & _ & _ & H1 & _ & _ & H2); [|exact Hf|exact Hp|].
  { intros s s' A B. destruct (Hres s s' A B) as (C & _ & E & _). auto. }
  split; [exact H1|]. split; [exact H2|]. intros f Hc. eapply (program_sums Other mw names sort cluster shuffle); try eassumption.
Qed.
Print Assumptions C84_threads.

(** The program succeeds on all files in which the announced particles exist, for every clustering
    that does not fail and keeps weights and event numbers, with one or any number of threads. *)
Theorem C84_success : forall (Other : Type) mw names sort sort' (cluster : Event RN -> option (Event RN)) shuffle nthreads sched strategy (algo : search_algo RN) dist max
    fuel (files : list (list (ntuple_event RN Other))),
  reorders shuffle -> sort_ok sort -> sort_ok sort' -> (0 < nthreads)%nat ->
  (forall s : list (Event RN), valid_search (length s) (algo (length s) (dist_wrapper dist s) max)) ->
  (forall e, exists e', cluster e = Some e' /\ ev_weights e' = ev_weights e /\ ev_id e' = ev_id e) -> (length (concat files) < fuel)%nat ->
  Forall (Forall complete) files ->
  forall resample, resample = lib_resample mw sort' strategy algo dist max \/ resample = threads_resample nthreads sched mw sort' strategy algo dist max ->
  exists outs, nt_program mw names sort cluster shuffle resample lib_no_unweight fuel files = NtDone outs.
Proof.
  intros Other mw names sort sort' cluster shuffle nthreads sched strategy algo dist max fuel files Hs Hsort Hsort' Hn Hv Hcl Hf Hc resample Hr.
  assert (Hres : forall s, shaped mw (nused mw names) (map ev_weights s) -> exists s', resample s = Some (inl s') /\ map ev_id s' = map ev_id s /\ shaped mw (nused mw names) (map ev_weights s')).
  { intros s Hsh. destruct Hr as [->| ->].
    - destruct (@resampler_some RN (fun _ => True) mw (nused mw names) sort' strategy algo dist max s Hsort' RN_order) as (s' & cells & E).
      { apply Forall_forall. intros x _. apply Forall_forall. intros y _. exact I. }
      { exact Hsh. }
      { apply Hv. }
      assert (E2 : lib_resample (Err := unit) mw sort' strategy algo dist max s = Some (inl s')) by (unfold lib_resample; rewrite E; reflexivity).
      destruct (lib_resample_facts Hsh E2) as (A & _ & B & _). eauto.
    - destruct (threads_resample_execution unit strategy Hsort' RN_order (fun _ _ _ _ => I) Hsh (Hv s) sched Hn) as (seeds & k & st & _ & _ & _ & _ & _ & E).
      destruct (threads_resample_facts Hsort' Hn (Hv s) Hsh E) as (A & _ & B & _). eauto. }
  assert (Hcl' : forall e e', cluster e = Some e' -> ev_weights e' = ev_weights e) by (intros e e' E; destruct (Hcl e) as (e2 & E2 & Hw & _); congruence).
  destruct (run_total RN Other mw names sort cluster shuffle resample Hs Hsort (concat files) Hcl Hres) as [W HW].
  { apply Forall_forall. intros r Hi. apply in_concat in Hi as (f & Hf1 & Hf2). rewrite Forall_forall in Hc. specialize (Hc f Hf1). rewrite Forall_forall in Hc. exact (Hc r Hf2). }
  destruct (run_facts RN Other mw names sort cluster shuffle resample Hs Hsort (concat files) W Hcl') as (evs & evs0 & Hl & _ & _ & _ & _ & Hw & _); [|exact HW|].
  { intros s s' A B. destruct (Hres s A) as (s2 & E2 & E3). rewrite B in E2. injection E2 as <-. exact E3. }
  exact (program_done RN Other mw names sort cluster shuffle resample fuel files W Hf HW Hl Hw).
Qed.
Print Assumptions C84_success.

(** Reading such an output file gives events with the same particles. *)
Lemma particles_same (N : NumOps) (Other : Type) (r r' : ntuple_event N Other) : nt_pdg r' = nt_pdg r -> nt_energy r' = nt_energy r -> nt_px r' = nt_px r -> nt_py r' = nt_py r -> nt_pz r' = nt_pz r ->
  forall n i b b1 c, nt_particles r i n b = Some b1 -> b_out c = b_out b -> exists c1, nt_particles r' i n c = Some c1 /\ b_out c1 = b_out b1.
Proof.
  intros E1 E2 E3 E4 E5. induction n as [|n IH]; intros i b b1 c H Hc; cbn [nt_particles] in *; [injection H as <-; eauto|]. rewrite E1, E2, E3, E4, E5.
  destruct (nth_error (nt_pdg r) i), (nth_error (nt_energy r) i), (nth_error (nt_px r) i), (nth_error (nt_py r) i), (nth_error (nt_pz r) i); try discriminate.
  eapply IH; [exact H|]. cbn [add_outgoing b_out]. rewrite Hc. reflexivity.
Qed.
Theorem C84_read_back : forall (N : NumOps) (Other : Type) mw names sort (files outs : list (list (ntuple_event N Other))) evs,
  Forall2 (Forall2 (same_but_weights mw names)) files outs ->
  Forall2 (fun r ev => convert_ntuple mw sort names r = Some ev) (concat files) evs ->
  exists evs', Forall2 (fun r ev => convert_ntuple mw sort names r = Some ev) (concat outs) evs' /\ map ev_out evs' = map ev_out evs.
Proof.
  intros N Other mw names sort files outs evs H. assert (Hc : Forall2 (same_but_weights mw names) (concat files) (concat outs)).
  { clear -H. induction H as [|f o files outs H _ IH]; [constructor|]. cbn [concat]. apply Forall2_app; assumption. }
  clear H. revert evs. induction Hc as [|r r' l l' H _ IH]; intros evs He; inversion He as [|? ev ? evs2 E1 E2]; subst; [exists []; split; [constructor|reflexivity]|].
  destruct (IH evs2 E2) as (evs' & F & G). destruct H as (S0 & S1 & S2 & S3 & S4 & S5 & _).
  assert (exists ev', convert_ntuple mw sort names r' = Some ev' /\ ev_out ev' = ev_out ev) as (ev' & A & B).
  { unfold convert_ntuple in *. rewrite S0. destruct (Z.ltb _ _); [discriminate|]. set (b := if mw then _ else _) in E1. set (c := if mw then _ else _).
    destruct (nt_particles r 0 _ b) as [b1|] eqn:Eb; [|discriminate]. injection E1 as <-.
    destruct (particles_same N Other r r' S1 S2 S3 S4 S5 _ _ _ _ c Eb) as (c1 & Ec & Ho).
    - unfold b, c. destruct mw; [|reflexivity]. repeat match goal with |- context [has_name names ?x] => destruct (has_name names x) end; reflexivity.
    - rewrite Ec. eexists. split; [reflexivity|]. cbn [build ev_out]. rewrite Ho. reflexivity. }
  exists (ev' :: evs'). split; [constructor; assumption|]. cbn [map]. rewrite G, B. reflexivity.
Qed.
Print Assumptions C84_read_back.

(** Only the names "2", "ME" and "ME2" have a meaning; any other name is silently ignored. *)
Theorem C84_names : forall (N : NumOps) (Other : Type) mw names names' sort (cluster : Event N -> option (Event N)) shuffle resample unweighter fuel
    (files : list (list (ntuple_event N Other))),
  (forall name, In name [lit "2"; lit "ME"; lit "ME2"] -> (In name names <-> In name names')) ->
  nt_program mw names sort cluster shuffle resample unweighter fuel files = nt_program mw names' sort cluster shuffle resample unweighter fuel files.
Proof.
  intros N Other mw names names' sort cluster shuffle resample unweighter fuel files H.
  assert (K : forall name, In name [lit "2"; lit "ME"; lit "ME2"] -> has_name names name = has_name names' name).
  { intros name Hi. specialize (H name Hi). rewrite <- !has_name_spec in H. destruct (has_name names name), (has_name names' name); intuition congruence. }
  assert (K1 := K (lit "2") ltac:(left; reflexivity)). assert (K2 := K (lit "ME") ltac:(right; left; reflexivity)). assert (K3 := K (lit "ME2") ltac:(right; right; left; reflexivity)).
  assert (U : forall ws (r : ntuple_event N Other), ntuple_update mw names ws r = ntuple_update mw names' ws r) by (intros ws r; unfold ntuple_update; rewrite K1, K2, K3; reflexivity).
  assert (C : forall weights (s : nt_io N Other), nt_combined_loop mw names weights s = nt_combined_loop mw names' weights s).
  { induction weights as [|w weights IH]; intros s; [reflexivity|]. cbn [nt_combined_loop]. unfold nt_update_next. destruct (nt_next s) as [[r|] s1]; [|reflexivity].
    rewrite U. destruct (ntuple_update mw names' w r); [apply IH|reflexivity]. }
  assert (F : forall n idx weights (s : ncio N Other), ncio_update_files mw names idx n weights s = ncio_update_files mw names' idx n weights s).
  { induction n as [|n IH]; intros idx weights s; [reflexivity|]. cbn [ncio_update_files]. destruct (ncio_open idx s) as [s1|]; [|reflexivity]. destruct (n_current s1) as [f|]; [|reflexivity].
    rewrite C. destruct (nt_combined_loop mw names' weights f) as [[w2 f2]|]; [|reflexivity]. destruct (set_nth idx (io_out f2) (n_outs s1)); [apply IH|reflexivity]. }
  assert (R1 : forall records : list (ntuple_event N Other), nt_run mw names sort cluster shuffle resample unweighter records = nt_run mw names' sort cluster shuffle resample unweighter records).
  { intros records. unfold nt_run, nt_convert, convert_ntuple. rewrite K1, K2, K3. reflexivity. }
  unfold nt_program. destruct (ncio_new files) as [s|]; [|reflexivity]. destruct (ncio_read_all fuel s) as [[records s1]|]; [|reflexivity].
  rewrite R1. destruct (nt_run mw names' sort cluster shuffle resample unweighter records); try reflexivity. unfold ncio_update_all. rewrite F. reflexivity.
Qed.
Print Assumptions C84_names.

(** *** Case: two files with three events.  The weights "2" and "ME2" are chosen, and an unknown one.
    The last event has no particles. *)
Definition np_names : list text := [lit "ME2"; lit "other"; lit "2"].
Definition np_record (n : Z) (w w2 me me2 : R) (x : nat) : ntuple_event RN nat :=
  mkNtuple (N := RN) n [11%Z] [13] [3] [4] [12] w w2 me me2 x.
Definition np_files : list (list (ntuple_event RN nat)) := [[np_record 1 5 8 1 11 7]; [np_record 1 (-1) 6 2 3 8; np_record 0 9 9 9 9 9]].
Definition np_outs : list (list (ntuple_event RN nat)) := [[np_record 1 2 7 1 7 7]; [np_record 1 2 7 2 7 8; np_record 0 9 9 9 9 9]].
Definition np_resample : list (Event RN) -> option (list (Event RN) + unit) := lib_resample true isort MostNegative r_algo (fun _ _ => 1%R) 2%R.
Lemma np_resampled a1 a2 b1 b2 o1 o2 : np_resample [mkEvent 0 [5 : RN; a1; a2] o1; mkEvent 1 [(-1) : RN; b1; b2] o2] =
  Some (inl [mkEvent 0 [2 : RN; (a1 + b1) * (1 / (1 + 1)); (a2 + b2) * (1 / (1 + 1))] o1; mkEvent 1 [2 : RN; (a1 + b1) * (1 / (1 + 1)); (a2 + b2) * (1 / (1 + 1))] o2]).
Proof.
  pose proof (n_resampled a1 a2 b1 b2 o1 o2) as H. unfold n_resample, np_resample, lib_resample in *.
  destruct (resampler_resample true (@isort) MostNegative r_algo (fun _ _ => 1) 2 _) as [[x y]|]; [|discriminate]. injection H as ->. reflexivity.
Qed.
Lemma np_run : nt_run true np_names isort Some (fun l => l) np_resample lib_no_unweight (concat np_files) = Wrote [[2; 7; 7]; [2; 7; 7]; []].
Proof.
  unfold nt_run, cres_run. set (ev := read_events _ _ _ _ _).
  assert (E : exists o1, o1 <> [] /\ ev = inl [mkEvent 0 [5 : RN; 8; 11] o1; mkEvent 1 [(-1) : RN; 6; 3] o1; mkEvent 2 [9 : RN; 9; 9] []]).
  { exists [(11%Z, [fv_from (N := RN) 13 3 4 12])]. split; [discriminate|reflexivity]. }
  destruct E as (o1 & Ho & E). rewrite E. destruct o1 as [|p o1]; [congruence|]. cbn [filter ev_out negb]. rewrite np_resampled.
  replace ((8 + 6) * (1 / (1 + 1))) with 7 by field. replace ((11 + 3) * (1 / (1 + 1))) with 7 by field. reflexivity.
Qed.
Lemma np_done : nt_program true np_names isort Some (fun l => l) np_resample lib_no_unweight 10 np_files = NtDone np_outs.
Proof.
  unfold nt_program. assert (E : ncio_read_all 10 (mkNCIO np_files (Some (nt_open [np_record 1 5 8 1 11 7])) 0 [[]; []]) = Some (concat np_files, mkNCIO np_files (Some (mkNtIO [np_record 1 (-1) 6 2 3 8; np_record 0 9 9 9 9 9] [] [])) 1 [[]; []])) by reflexivity.
  rewrite new_spec. change (match np_files with [] => None | f :: _ => Some (nt_open f) end) with (Some (nt_open [np_record 1 5 8 1 11 7])). change (repeat [] (length np_files)) with ([[]; []] : list (list (ntuple_event RN nat))).
  rewrite E, np_run. reflexivity.
Qed.
Example C84_case :
  nt_program true np_names isort Some (fun l => l) np_resample lib_no_unweight 10 np_files = NtDone np_outs /\
  Forall (Forall complete) np_files /\ chosen true np_names (@nt_weight RN nat) /\ chosen true np_names (@nt_me2 RN nat) /\
  Rsum (map nt_me2 (concat np_outs)) = 23 /\ Rsum (map nt_weight (concat np_outs)) = 13.
Proof.
  split; [exact np_done|]. split; [|split; [apply chosen_main|split; [|split]]].
  - assert (A : forall w w2 me me2 x, complete (np_record 1 w w2 me me2 x)).
    { intros. exists [(11%Z, (13, 3, 4, 12))]. split; [reflexivity|]. intros [|i] id e px py pz H; [|destruct i; discriminate]. cbn in H. injection H as <- <- <- <- <-. repeat split. }
    assert (B : forall w w2 me me2 x, complete (np_record 0 w w2 me me2 x)).
    { intros. exists []. split; [reflexivity|]. intros [|i] id e px py pz H; discriminate. }
    repeat first [apply Forall_cons|apply Forall_nil]; first [apply A|apply B].
  - apply chosen_me2. split; [reflexivity|]. left. reflexivity.
  - change (7 + (7 + (9 + 0)) = 23). lra.
  - change (2 + (2 + (9 + 0)) = 13). lra.
Qed.
