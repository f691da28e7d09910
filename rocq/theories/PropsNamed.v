(** Property C82: the program with named weights (feature "multiweight", option "--weights"), on
    files in the HepMC format.  The sum of the weights with a given name is preserved. *)
From Coq Require Import Reals Lra.
From Verif Require Import Base BaseProofs Num ModelEvent SpecWeights ModelText SpecText SpecFormats SpecHepMC TextProofs ReaderProofs ParserProofs
  ModelHepMC HepMCProofs ModelIO SpecIO FileProofs2 FileProofs3 TextExamples PropsHepMC PropsRecord ModelCres SpecCres CresProofs2 ModelNaive ModelSeeds ModelCell ModelResampler SpecSearch
  ModelMain SpecMain MainProofs MainProofs2 ModelThreads ThreadsProofs RunProofs2 NaiveProofs PropsMain SpecNamed NamedProofs NamedProofs2 NamedProofs3 NamedProofs4.
From Coq Require Import Lia.
Local Open Scope R_scope.

(** A record has at most one weight with a given name. *)
Theorem C82_unique : forall (N : NumOps) double record name (v w : N),
  weight_named double record name v -> weight_named double record name w -> v = w.
Proof. exact weight_named_fun. Qed.
Print Assumptions C82_unique.

(** C82: let [records] be the events in the input files, all with the same list [l] of different weight
    names, and let [names] be the chosen names, different and contained in [l].  If the program
    succeeds then, provided the computed numbers survive being written, the output files contain
    as many events, with the same outgoing particles and the same names.  Events without
    identified particles after the clustering are unchanged, and so is every weight apart from the
    first one and those with a chosen name.  For every chosen name, the sum over all events of the
    weight with this name is the same before and after; and so is the sum of the first weights.
    This holds for every clustering that keeps weights, every neighbour search, distance, strategy,
    maximum cell size, and order in which the parallel tasks finish. *)
Theorem C82_program : forall (D : R -> Prop) (double : parser RN) show xml checks names l sort sort' cluster shuffle strategy (algo : search_algo RN) dist max
    fuel inputs outs records evs,
  number_text RN D double show -> reorders shuffle -> sort_ok sort ->
  (forall e e', cluster e = Some e' -> ev_weights e' = ev_weights e) ->
  names <> [] -> NoDup names -> NoDup l -> incl names l ->
  Forall hepmc_file inputs -> hepmc_contents inputs records ->
  Forall2 (fun r ev => parse_hepmc double true sort names r = Ok ev) records evs ->
  Forall (fun ev => length (ev_weights ev) = S (length names)) evs -> Forall (fun r => weight_names r l) records ->
  let resample := lib_resample true sort' strategy algo dist max in
  cres_program double show xml checks true names sort cluster shuffle resample lib_no_unweight fuel inputs = Done outs ->
  exists W, run_on double true names sort cluster shuffle resample lib_no_unweight (map inl (map HepMCRecord records)) = Wrote W /\
  (Forall (Forall D) W -> exists records' evs', hepmc_contents outs records' /\
    Forall2 (fun r ev => parse_hepmc double true sort names r = Ok ev) records' evs' /\
    map ev_out evs' = map ev_out evs /\ Forall (fun r => weight_names r l) records' /\
    (forall i ev, nth_error evs i = Some ev -> keeps_particles cluster ev = false -> nth_error records' i = nth_error records i) /\
    (forall i r r' k v, nth_error records i = Some r -> nth_error records' i = Some r' -> k <> 0%nat ->
       (forall name, nth_error l k = Some name -> ~ In name names) -> weight_at double r k v -> weight_at double r' k v) /\
    (forall name, In name names -> exists vs vs', Forall2 (fun r v => weight_named double r name v) records vs /\
       Forall2 (fun r v => weight_named double r name v) records' vs' /\ Rsum vs' = Rsum vs) /\
    exists vs vs', Forall2 (fun r v => weight_at double r 0 v) records vs /\ Forall2 (fun r v => weight_at double r 0 v) records' vs' /\ Rsum vs' = Rsum vs).
Proof.
  intros D double show xml checks names l sort sort' cluster shuffle strategy algo dist max fuel inputs outs records evs
    HT Hs Hsort Hcl Hne Hnd Hndl Hin Hf Hc Hp Hl Hw resample Hprog.
  eapply named_program; try eassumption. intros s s' Hsh. apply lib_resample_facts. exact Hsh.
Qed.
Print Assumptions C82_program.

(** The same with any number of threads, under every schedule, for a neighbour search that delivers
    different events, and not the seed itself. *)
Theorem C82_threads : forall (D : R -> Prop) (double : parser RN) show xml checks names l sort sort' cluster shuffle nthreads sched strategy (algo : search_algo RN) dist max
    fuel inputs outs records evs,
  number_text RN D double show -> reorders shuffle -> sort_ok sort -> sort_ok sort' -> (0 < nthreads)%nat ->
  (forall s : list (Event RN), valid_search (length s) (algo (length s) (dist_wrapper dist s) max)) ->
  (forall e e', cluster e = Some e' -> ev_weights e' = ev_weights e) ->
  names <> [] -> NoDup names -> NoDup l -> incl names l ->
  Forall hepmc_file inputs -> hepmc_contents inputs records ->
  Forall2 (fun r ev => parse_hepmc double true sort names r = Ok ev) records evs ->
  Forall (fun ev => length (ev_weights ev) = S (length names)) evs -> Forall (fun r => weight_names r l) records ->
  let resample := threads_resample nthreads sched true sort' strategy algo dist max in
  cres_program double show xml checks true names sort cluster shuffle resample lib_no_unweight fuel inputs = Done outs ->
  exists W, run_on double true names sort cluster shuffle resample lib_no_unweight (map inl (map HepMCRecord records)) = Wrote W /\
  (Forall (Forall D) W -> exists records' evs', hepmc_contents outs records' /\
    Forall2 (fun r ev => parse_hepmc double true sort names r = Ok ev) records' evs' /\
    map ev_out evs' = map ev_out evs /\ Forall (fun r => weight_names r l) records' /\
    (forall i ev, nth_error evs i = Some ev -> keeps_particles cluster ev = false -> nth_error records' i = nth_error records i) /\
    (forall i r r' k v, nth_error records i = Some r -> nth_error records' i = Some r' -> k <> 0%nat ->
       (forall name, nth_error l k = Some name -> ~ In name names) -> weight_at double r k v -> weight_at double r' k v) /\
    (forall name, In name names -> exists vs vs', Forall2 (fun r v => weight_named double r name v) records vs /\
       Forall2 (fun r v => weight_named double r name v) records' vs' /\ Rsum vs' = Rsum vs) /\
    exists vs vs', Forall2 (fun r v => weight_at double r 0 v) records vs /\ Forall2 (fun r v => weight_at double r 0 v) records' vs' /\ Rsum vs' = Rsum vs).
Proof.
  intros D double show xml checks names l sort sort' cluster shuffle nthreads sched strategy algo dist max fuel inputs outs records evs
    HT Hs Hsort Hsort' Hn Hv Hcl Hne Hnd Hndl Hin Hf Hc Hp Hl Hw resample Hprog.
  eapply named_program; try eassumption. intros s s' Hsh Hr. eapply threads_resample_facts; try eassumption. apply Hv.
Qed.
Print Assumptions C82_threads.

(** The program succeeds on such files, if the computed numbers survive being written: for every
    clustering that does not fail and keeps weights and event numbers, with one or any number of
    threads. *)
Theorem C82_success : forall (D : R -> Prop) (double : parser RN) show xml checks names l sort sort' cluster shuffle nthreads sched strategy (algo : search_algo RN) dist max
    fuel inputs records evs,
  number_text RN D double show -> reorders shuffle -> sort_ok sort -> sort_ok sort' -> (0 < nthreads)%nat ->
  (forall s : list (Event RN), valid_search (length s) (algo (length s) (dist_wrapper dist s) max)) ->
  (forall e, exists e', cluster e = Some e' /\ ev_weights e' = ev_weights e /\ ev_id e' = ev_id e) ->
  names <> [] -> NoDup names -> incl names l ->
  hepmc_contents inputs records ->
  Forall2 (fun r ev => parse_hepmc double true sort names r = Ok ev) records evs ->
  Forall (fun ev => length (ev_weights ev) = S (length names)) evs -> Forall (fun r => weight_names r l) records -> (length records < fuel)%nat ->
  forall resample, resample = lib_resample true sort' strategy algo dist max \/ resample = threads_resample nthreads sched true sort' strategy algo dist max ->
  exists W, run_on double true names sort cluster shuffle resample lib_no_unweight (map inl (map HepMCRecord records)) = Wrote W /\
  (Forall (Forall D) W -> exists outs, cres_program double show xml checks true names sort cluster shuffle resample lib_no_unweight fuel inputs = Done outs).
Proof.
  intros D double show xml checks names l sort sort' cluster shuffle nthreads sched strategy algo dist max fuel inputs records evs
    HT Hs Hsort Hsort' Hn Hv Hcl Hne Hnd Hin Hc Hp Hl Hw Hfuel resample Hres.
  assert (Hl0 : l <> []) by (intros ->; destruct names as [|n ns]; [congruence|exact (Hin n (or_introl eq_refl))]).
  apply (named_program_total RN D double show xml checks names l sort cluster shuffle resample HT Hs Hsort Hcl) with (evs := evs); try assumption.
  intros s Hsh. destruct Hres as [->| ->].
  - destruct (@resampler_some RN (fun _ => True) true (S (length names)) sort' strategy algo dist max s Hsort' RN_order) as (s' & cells & E).
    { apply Forall_forall. intros x _. apply Forall_forall. intros y _. exact I. }
    { exact Hsh. }
    { apply Hv. }
    assert (E2 : lib_resample (Err := option read_error) true sort' strategy algo dist max s = Some (inl s')) by (unfold lib_resample; rewrite E; reflexivity).
    destruct (lib_resample_facts Hsh E2) as (A & _ & B & _). eauto.
  - destruct (threads_resample_execution (option read_error) strategy Hsort' RN_order (fun _ _ _ _ => I) Hsh (Hv s) sched Hn) as (seeds & k & st & _ & _ & _ & _ & _ & E).
    destruct (threads_resample_facts Hsort' Hn (Hv s) Hsh E) as (A & _ & B & _). eauto.
Qed.
Print Assumptions C82_success.

(** *** Cases *)
Definition quoted (l : list text) : text := concat (map (fun n => SP :: quote :: n ++ [quote]) l).
Lemma quoted_ok l : Forall (fun n => ~ In quote n) l -> quoted_list l (quoted l).
Proof.
  induction 1 as [|n l Hn _ IH]; [constructor|].
  replace (quoted (n :: l)) with ([SP] ++ quote :: n ++ quote :: quoted l) by (unfold quoted; cbn [map concat app]; rewrite <- app_assoc; reflexivity).
  constructor; [|exact Hn|exact IH]. split; [discriminate|]. constructor; [left; reflexivity|constructor].
Qed.
Lemma names_line a l b ds v : find names_mark (a ++ [newline]) = None -> ds <> [] -> Forall decimal_digit ds -> decimal_value ds = v -> length l = N.to_nat v ->
  Forall (fun n => ~ In quote n) l -> weight_names (a ++ names_mark ++ (SP :: ds) ++ quoted l ++ b) l.
Proof.
  intros Ha Hne Hd Hv Hl Hq. exists a, (SP :: ds), v, (quoted l), b. split; [reflexivity|]. split; [apply find_none; exact Ha|]. split; [|split; [apply quoted_ok; exact Hq|exact Hl]].
  exists [SP], ds. split; [reflexivity|]. split; [split; [discriminate|constructor; [left; reflexivity|constructor]]|]. auto.
Qed.
Lemma not_quoted l : forallb (fun n => negb (existsb (Ascii.eqb quote) n)) l = true -> Forall (fun n => ~ In quote n) l.
Proof.
  intros H. apply Forall_forall. intros n Hn Hq. rewrite forallb_forall in H. specialize (H n Hn). apply Bool.negb_true_iff in H.
  assert (existsb (Ascii.eqb quote) n = true) by (apply existsb_exists; exists quote; split; [exact Hq|apply Ascii.eqb_refl]). congruence.
Qed.

(** Three events with three weights, of which the first and the last are chosen.  The third event
    has no outgoing particles.  The weights 5 8 11, -1 7 3 and 9 9 9 become 2 8 7, 2 7 7 and 9 9 9. *)
Definition n_nom : text := Eval vm_compute in lit "nominal".
Definition n_up : text := Eval vm_compute in lit "up".
Definition n_down : text := Eval vm_compute in lit "down".
Definition n_names : list text := [n_down; n_nom].
Definition n_all : list text := [n_nom; n_up; n_down].
Definition n_record (w : text) (p : text) : text :=
  lit "E 1 2 3 4 5 6 7 8 9 10 0 3 " ++ w ++ names_mark ++ [SP; "3"%char] ++ quoted n_all ++ [newline] ++ p.
Definition n_particle : text := Eval vm_compute in ln "P 1 11 3 4 12 13 0 1".
Definition n_rec1 : text := Eval vm_compute in n_record (lit "5 8 11") n_particle.
Definition n_rec2 : text := Eval vm_compute in n_record (lit "-1 7 3") n_particle.
Definition n_rec3 : text := Eval vm_compute in n_record (lit "9 9 9") (ln "P 1 11 3 4 12 13 0 2").
Definition n_records : list text := [n_rec1; n_rec2; n_rec3].
Definition n_file1 : text := Eval vm_compute in ex_header ++ n_rec1.
Definition n_file2 : text := Eval vm_compute in ex_header ++ n_rec2 ++ n_rec3.
Definition n_out1 : text := Eval vm_compute in ex_header ++ n_record (lit "2 8 7") n_particle.
Definition n_out2 : text := Eval vm_compute in ex_header ++ n_record (lit "2 7 7") n_particle ++ n_rec3.
Definition n_resample : list (Event RN) -> option (list (Event RN) + option read_error) :=
  lib_resample true isort MostNegative r_algo (fun _ _ => 1%R) 2%R.
Definition n_program (names : list text) : list text -> ending :=
  cres_program r_double r_show r_noxml true true names isort Some r_ids n_resample lib_no_unweight 10.

Lemma n_resampled a1 a2 b1 b2 o1 o2 : n_resample [mkEvent 0 [5 : RN; a1; a2] o1; mkEvent 1 [(-1) : RN; b1; b2] o2] =
  Some (inl [mkEvent 0 [2 : RN; (a1 + b1) * (1 / (1 + 1)); (a2 + b2) * (1 / (1 + 1))] o1; mkEvent 1 [2 : RN; (a1 + b1) * (1 / (1 + 1)); (a2 + b2) * (1 / (1 + 1))] o2]).
Proof.
  assert (E1 : nltb (n := RN) 5 0 = false) by (cbn; unfold Rltb; destruct (Rlt_dec 5 0); [lra|reflexivity]).
  assert (E2 : nltb (n := RN) (-1) 0 = true) by (cbn; unfold Rltb; destruct (Rlt_dec (-1) 0); [reflexivity|lra]).
  unfold n_resample, lib_resample, resampler_resample, select_seeds. cbn [map omap central nth_error ev_weights length seq combine filter].
  change (n0 (n := RN)) with 0. rewrite E1, E2. cbn [map fst].
  assert (Er : resample_seeds (N := RN) true (r_algo 2%nat (dist_wrapper (fun _ _ => 1%R) [mkEvent 0 [5 : RN; a1; a2] o1; mkEvent 1 [(-1) : RN; b1; b2] o2]) 2%R) [1%nat] [[5; a1; a2]; [(-1); b1; b2]]
    = Some ([[2; (a1 + b1) * (1 / (1 + 1)); (a2 + b2) * (1 / (1 + 1))]; [2; (a1 + b1) * (1 / (1 + 1)); (a2 + b2) * (1 / (1 + 1))]], [mkCell [1%nat; 0%nat] 1 (-1 + 5)])).
  { cbn [resample_seeds]. unfold seed_step, r_algo, cell_new. cbn. unfold Rleb. destruct (Rle_dec 0 (-1 + 5)); [|lra]. cbn.
    unfold Rltb. destruct (Rlt_dec 0 (-1)); [lra|]. cbn. replace ((5 + -1) * (1 / (1 + 1))) with 2 by field. reflexivity. }
  cbn. cbn in Er. rewrite Er. reflexivity.
Qed.
Lemma n_run : run_on r_double true n_names isort Some r_ids n_resample lib_no_unweight (map inl (map HepMCRecord n_records)) = Wrote [[2; 2; 7]; [2; 2; 7]; []].
Proof.
  unfold run_on, cres_run. set (ev := read_events _ _ _ _ _).
  assert (E : ev = inl [mkEvent 0 [5 : RN; 5; 11] r_out; mkEvent 1 [(-1) : RN; -1; 3] r_out; mkEvent 2 [9 : RN; 9; 9] []]) by reflexivity.
  rewrite E. cbn [filter ev_out r_out negb]. rewrite n_resampled. replace ((5 + -1) * (1 / (1 + 1))) with 2 by field. replace ((11 + 3) * (1 / (1 + 1))) with 7 by field. reflexivity.
Qed.
Definition n_new1 : text := Eval vm_compute in n_record (lit "2 8 7") n_particle.
Definition n_new2 : text := Eval vm_compute in n_record (lit "2 7 7") n_particle.
Lemma r_updates names zs r r' : hepmc_update (N := ZN) z_show true names zs r = Ok r' -> hepmc_update (N := RN) r_show true names (map IZR zs) r = Ok r'.
Proof.
  intros H. rewrite <- H. apply update_as. rewrite map_map. apply map_ext. intros z. unfold r_show. rewrite Int_part_IZR. reflexivity.
Qed.
Lemma n_one1 : hepmc_update (N := ZN) z_show true n_names [2; 2; 7]%Z n_rec1 = Ok n_new1. Proof. vmr. Qed.
Lemma n_one2 : hepmc_update (N := ZN) z_show true n_names [2; 2; 7]%Z n_rec2 = Ok n_new2. Proof. vmr. Qed.
Lemma n_contents1 : hepmc_records (hepmc_open n_file1) = Some [n_rec1]. Proof. vmr. Qed.
Lemma n_contents2 : hepmc_records (hepmc_open n_file2) = Some [n_rec2; n_rec3]. Proof. vmr. Qed.
Lemma n_detect1 : detect_event_file_format n_file1 = HepMC2. Proof. vmr. Qed.
Lemma n_detect2 : detect_event_file_format n_file2 = HepMC2. Proof. vmr. Qed.
Lemma n_head1 : rd_header (hepmc_open n_file1) ++ concat [n_new1] = n_out1. Proof. vmr. Qed.
Lemma n_head2 : rd_header (hepmc_open n_file2) ++ concat [n_new2; n_rec3] = n_out2. Proof. vmr. Qed.

Lemma n_done : n_program n_names [n_file1; n_file2] = Done [n_out1; n_out2].
Proof.
  rewrite <- n_head1, <- n_head2.
  apply (hepmc_program_done RN r_double r_show r_noxml true true n_names isort Some r_ids n_resample lib_no_unweight 10 [n_file1; n_file2] [[n_rec1]; [n_rec2; n_rec3]]
    [[[2; 2; 7]]; [[2; 2; 7]; []]] [[n_new1]; [n_new2; n_rec3]]).
  - constructor; [split; [exact n_detect1|exact n_contents1]|]. constructor; [split; [exact n_detect2|exact n_contents2]|constructor].
  - cbn. lia.
  - exact n_run.
  - reflexivity.
  - cbn [combine]. apply Forall2_cons; [|apply Forall2_cons; [|apply Forall2_nil]]; cbn [fst snd FileProofs.update_list].
    + rewrite (r_updates _ _ _ _ n_one1 : hepmc_update (N := RN) r_show true n_names [2; 2; 7] n_rec1 = _). reflexivity.
    + rewrite (r_updates _ _ _ _ n_one2 : hepmc_update (N := RN) r_show true n_names [2; 2; 7] n_rec2 = _). reflexivity.
Qed.
Definition n_evs : list (Event RN) := [mkEvent 0 [5 : RN; 5; 11] r_out; mkEvent 0 [(-1) : RN; -1; 3] r_out; mkEvent 0 [9 : RN; 9; 9] []].
Lemma n_parse : Forall2 (fun r ev => parse_hepmc r_double true isort n_names r = Ok ev) n_records n_evs.
Proof. repeat (constructor; [lazy; reflexivity|]). constructor. Qed.
Lemma n_names_of w p r : find names_mark ((lit "E 1 2 3 4 5 6 7 8 9 10 0 3 " ++ w) ++ [newline]) = None -> n_record w p = r -> weight_names r n_all.
Proof.
  intros H <-. unfold n_record. replace (lit "E 1 2 3 4 5 6 7 8 9 10 0 3 " ++ w ++ names_mark ++ [SP; "3"%char] ++ quoted n_all ++ [newline] ++ p)
    with ((lit "E 1 2 3 4 5 6 7 8 9 10 0 3 " ++ w) ++ names_mark ++ (SP :: ["3"%char]) ++ quoted n_all ++ ([newline] ++ p)) by (rewrite <- app_assoc; reflexivity).
  apply (names_line _ _ _ _ 3%N); [exact H|discriminate| |reflexivity|reflexivity|apply not_quoted; reflexivity].
  constructor; [|constructor]. vm_compute. split; discriminate.
Qed.
Lemma n_hepmc1 : hepmc_file n_file1. Proof. split; [exact n_detect1|]. split; [vmr|]. apply ends_with_false. vmr. Qed.
Lemma n_hepmc2 : hepmc_file n_file2. Proof. split; [exact n_detect2|]. split; [vmr|]. apply ends_with_false. vmr. Qed.
Example C82_case :
  number_text RN integer r_double r_show /\ reorders r_ids /\ sort_ok isort /\ n_names <> [] /\ NoDup n_names /\ NoDup n_all /\ incl n_names n_all /\
  Forall hepmc_file [n_file1; n_file2] /\ hepmc_contents [n_file1; n_file2] n_records /\
  Forall2 (fun r ev => parse_hepmc r_double true isort n_names r = Ok ev) n_records n_evs /\
  Forall (fun ev => length (ev_weights ev) = S (length n_names)) n_evs /\ Forall (fun r => weight_names r n_all) n_records /\
  n_program n_names [n_file1; n_file2] = Done [n_out1; n_out2] /\
  run_on r_double true n_names isort Some r_ids n_resample lib_no_unweight (map inl (map HepMCRecord n_records)) = Wrote [[2; 2; 7]; [2; 2; 7]; []] /\
  Forall (Forall integer) [[2; 2; 7]; [2; 2; 7]; []].
Proof.
  split; [exact r_text|]. split; [intros l; apply Permutation.Permutation_refl|]. split; [exact isort_ok|]. split; [discriminate|].
  split. { constructor; [intros [H|[]]; discriminate|]. constructor; [intros []|constructor]. }
  split. { constructor; [intros [H|[H|[]]]; discriminate|]. constructor; [intros [H|[]]; discriminate|]. constructor; [intros []|constructor]. }
  split. { intros n [<-|[<-|[]]]; [right; right; left; reflexivity|left; reflexivity]. }
  split. { constructor; [exact n_hepmc1|]. constructor; [exact n_hepmc2|constructor]. }
  split. { exists [[n_rec1]; [n_rec2; n_rec3]]. split; [|reflexivity]. constructor; [split; [exact n_detect1|exact n_contents1]|]. constructor; [split; [exact n_detect2|exact n_contents2]|constructor]. }
  split; [exact n_parse|]. split; [repeat constructor|]. split.
  { constructor; [apply (n_names_of (lit "5 8 11") n_particle); vmr|]. constructor; [apply (n_names_of (lit "-1 7 3") n_particle); vmr|].
    constructor; [apply (n_names_of (lit "9 9 9") (ln "P 1 11 3 4 12 13 0 2")); vmr|constructor]. }
  split; [exact n_done|]. split; [exact n_run|].
  assert (H2 : integer 2) by (exists 2%Z; reflexivity). assert (H7 : integer 7) by (exists 7%Z; reflexivity). repeat constructor; assumption.
Qed.

Example C82_success_case : forall dist,
  (forall s : list (Event RN), valid_search (length s) (naive_nearest first_min (length s) (dist_wrapper dist s) 2)) /\
  (forall e : Event RN, exists e', Some e = Some e' /\ ev_weights e' = ev_weights e /\ ev_id e' = ev_id e) /\
  exists W, run_on r_double true n_names isort Some r_ids (threads_resample 4 (fun i => (i, i)) true isort MostNegative (naive_nearest first_min) dist 2) lib_no_unweight
    (map inl (map HepMCRecord n_records)) = Wrote W.
Proof.
  intros dist. assert (Hv : forall s : list (Event RN), valid_search (length s) (naive_nearest first_min (length s) (dist_wrapper dist s) 2)).
  { intros s. apply (@naive_valid RN (fun _ => True)); auto using RN_order. exact first_min_ok. }
  split; [exact Hv|]. split; [intros e; exists e; auto|].
  destruct C82_case as (HT & Hs & Hi & Hne & Hnd & _ & Hin & _ & Hc & Hp & Hl & Hw & _).
  destruct (C82_success integer r_double r_show r_noxml true n_names n_all isort isort Some r_ids 4 (fun i => (i, i)) MostNegative (naive_nearest first_min) dist 2 10 _ n_records n_evs
    HT Hs Hi Hi ltac:(lia) Hv ltac:(intros e; exists e; auto) Hne Hnd Hin Hc Hp Hl Hw ltac:(cbn; lia) _ (or_intror eq_refl)) as (W & HW & _). eauto.
Qed.

(** REFUTED in general: the events need not list the names in the same order.  In the first of two files
    the weights A and B are 5 and 20, in the second they are 10 and -1 and the name B comes first.
    The chosen weights are told apart by their order in the event, so that A in one file is combined
    with B in the other.  The weights A become 2 and 15, with sum 17 in place of 15; the weights B
    become 15 and 2, with sum 17 in place of 19. *)
Definition o_A : text := ["A"%char].
Definition o_B : text := ["B"%char].
Definition o_record (w : text) (l : list text) : text :=
  lit "E 1 2 3 4 5 6 7 8 9 10 0 2 " ++ w ++ names_mark ++ [SP; "2"%char] ++ quoted l ++ [newline] ++ n_particle.
Definition o_rec1 : text := Eval vm_compute in o_record (lit "5 20") [o_A; o_B].
Definition o_rec2 : text := Eval vm_compute in o_record (lit "-1 10") [o_B; o_A].
Definition o_new1 : text := Eval vm_compute in o_record (lit "2 15") [o_A; o_B].
Definition o_new2 : text := Eval vm_compute in o_record (lit "2 15") [o_B; o_A].
Definition o_file1 : text := Eval vm_compute in ex_header ++ o_rec1.
Definition o_file2 : text := Eval vm_compute in ex_header ++ o_rec2.
Definition o_out1 : text := Eval vm_compute in ex_header ++ o_new1.
Definition o_out2 : text := Eval vm_compute in ex_header ++ o_new2.
Definition o_names : list text := [o_A; o_B].
Lemma o_run : run_on r_double true o_names isort Some r_ids n_resample lib_no_unweight (map inl (map HepMCRecord [o_rec1; o_rec2])) = Wrote [[2; 2; 15]; [2; 2; 15]].
Proof.
  unfold run_on, cres_run. set (ev := read_events _ _ _ _ _).
  assert (E : ev = inl [mkEvent 0 [5 : RN; 5; 20] r_out; mkEvent 1 [(-1) : RN; -1; 10] r_out]) by reflexivity.
  rewrite E. cbn [filter ev_out r_out negb]. rewrite n_resampled. replace ((5 + -1) * (1 / (1 + 1))) with 2 by field. replace ((20 + 10) * (1 / (1 + 1))) with 15 by field. reflexivity.
Qed.
Lemma o_one1 : hepmc_update (N := ZN) z_show true o_names [2; 2; 15]%Z o_rec1 = Ok o_new1. Proof. vmr. Qed.
Lemma o_one2 : hepmc_update (N := ZN) z_show true o_names [2; 2; 15]%Z o_rec2 = Ok o_new2. Proof. vmr. Qed.
Lemma o_contents1 : hepmc_records (hepmc_open o_file1) = Some [o_rec1]. Proof. vmr. Qed.
Lemma o_contents2 : hepmc_records (hepmc_open o_file2) = Some [o_rec2]. Proof. vmr. Qed.
Lemma o_contents3 : hepmc_records (hepmc_open o_out1) = Some [o_new1]. Proof. vmr. Qed.
Lemma o_contents4 : hepmc_records (hepmc_open o_out2) = Some [o_new2]. Proof. vmr. Qed.
Lemma o_detect1 : detect_event_file_format o_file1 = HepMC2. Proof. vmr. Qed.
Lemma o_detect2 : detect_event_file_format o_file2 = HepMC2. Proof. vmr. Qed.
Lemma o_detect3 : detect_event_file_format o_out1 = HepMC2. Proof. vmr. Qed.
Lemma o_detect4 : detect_event_file_format o_out2 = HepMC2. Proof. vmr. Qed.
Lemma o_head1 : rd_header (hepmc_open o_file1) ++ concat [o_new1] = o_out1. Proof. vmr. Qed.
Lemma o_head2 : rd_header (hepmc_open o_file2) ++ concat [o_new2] = o_out2. Proof. vmr. Qed.
Lemma o_hepmc1 : hepmc_file o_file1. Proof. split; [exact o_detect1|]. split; [vmr|]. apply ends_with_false. vmr. Qed.
Lemma o_hepmc2 : hepmc_file o_file2. Proof. split; [exact o_detect2|]. split; [vmr|]. apply ends_with_false. vmr. Qed.
Lemma o_done : n_program o_names [o_file1; o_file2] = Done [o_out1; o_out2].
Proof.
  rewrite <- o_head1, <- o_head2.
  apply (hepmc_program_done RN r_double r_show r_noxml true true o_names isort Some r_ids n_resample lib_no_unweight 10 [o_file1; o_file2] [[o_rec1]; [o_rec2]]
    [[[2; 2; 15]]; [[2; 2; 15]]] [[o_new1]; [o_new2]]).
  - constructor; [split; [exact o_detect1|exact o_contents1]|]. constructor; [split; [exact o_detect2|exact o_contents2]|constructor].
  - cbn. lia.
  - exact o_run.
  - reflexivity.
  - cbn [combine]. apply Forall2_cons; [|apply Forall2_cons; [|apply Forall2_nil]]; cbn [fst snd FileProofs.update_list].
    + rewrite (r_updates _ _ _ _ o_one1 : hepmc_update (N := RN) r_show true o_names [2; 2; 15] o_rec1 = _). reflexivity.
    + rewrite (r_updates _ _ _ _ o_one2 : hepmc_update (N := RN) r_show true o_names [2; 2; 15] o_rec2 = _). reflexivity.
Qed.
Lemma o_names_of w l r : find names_mark ((lit "E 1 2 3 4 5 6 7 8 9 10 0 2 " ++ w) ++ [newline]) = None -> length l = 2%nat ->
  forallb (fun n => negb (existsb (Ascii.eqb quote) n)) l = true -> o_record w l = r -> weight_names r l.
Proof.
  intros H Hl Hq <-. unfold o_record. replace (lit "E 1 2 3 4 5 6 7 8 9 10 0 2 " ++ w ++ names_mark ++ [SP; "2"%char] ++ quoted l ++ [newline] ++ n_particle)
    with ((lit "E 1 2 3 4 5 6 7 8 9 10 0 2 " ++ w) ++ names_mark ++ (SP :: ["2"%char]) ++ quoted l ++ ([newline] ++ n_particle)) by (rewrite <- app_assoc; reflexivity).
  apply (names_line _ _ _ _ 2%N); [exact H|discriminate| |reflexivity|exact Hl|apply not_quoted; exact Hq].
  constructor; [|constructor]. vm_compute. split; discriminate.
Qed.
Lemma o_AB : o_A <> o_B. Proof. discriminate. Qed.
Lemma o_nodup : NoDup o_names. Proof. constructor; [intros [H|[]]; discriminate|]. constructor; [intros []|constructor]. Qed.
Lemma o_nodup2 : NoDup [o_B; o_A]. Proof. constructor; [intros [H|[]]; discriminate|]. constructor; [intros []|constructor]. Qed.
Lemma o_first r ev : parse_hepmc r_double true isort o_names r = Ok ev -> length (ev_weights ev) = 3%nat -> weight_names r [o_A; o_B] ->
  weight_named r_double r o_A (nth 1 (ev_weights ev) 0) /\ weight_named r_double r o_B (nth 2 (ev_weights ev) 0).
Proof.
  intros H1 H2 H3. pose proof (read_named integer r_double r_show isort o_names [o_A; o_B] r_text ltac:(discriminate) o_nodup o_nodup (fun x H => H) r ev) as R.
  split; [apply (R o_A 0%nat)|apply (R o_B 1%nat)]; assumption || reflexivity.
Qed.
Lemma o_second r ev : parse_hepmc r_double true isort o_names r = Ok ev -> length (ev_weights ev) = 3%nat -> weight_names r [o_B; o_A] ->
  weight_named r_double r o_B (nth 1 (ev_weights ev) 0) /\ weight_named r_double r o_A (nth 2 (ev_weights ev) 0).
Proof.
  intros H1 H2 H3. assert (Hi : incl o_names [o_B; o_A]) by (intros x [<-|[<-|[]]]; [right; left|left]; reflexivity).
  pose proof (read_named integer r_double r_show isort o_names [o_B; o_A] r_text ltac:(discriminate) o_nodup o_nodup2 Hi r ev) as R.
  split; [apply (R o_B 0%nat)|apply (R o_A 1%nat)]; assumption || reflexivity.
Qed.
Theorem C82_order_refuted : exists inputs outs r1 r2 r1' r2' A B,
  Forall hepmc_file inputs /\ hepmc_contents inputs [r1; r2] /\
  n_program [A; B] inputs = Done outs /\ hepmc_contents outs [r1'; r2'] /\
  weight_names r1 [A; B] /\ weight_names r2 [B; A] /\ weight_names r1' [A; B] /\ weight_names r2' [B; A] /\
  weight_named r_double r1 A 5 /\ weight_named r_double r2 A 10 /\ weight_named r_double r1' A 2 /\ weight_named r_double r2' A 15 /\
  weight_named r_double r1 B 20 /\ weight_named r_double r2 B (-1) /\ weight_named r_double r1' B 15 /\ weight_named r_double r2' B 2.
Proof.
  exists [o_file1; o_file2], [o_out1; o_out2], o_rec1, o_rec2, o_new1, o_new2, o_A, o_B.
  split; [constructor; [exact o_hepmc1|constructor; [exact o_hepmc2|constructor]]|]. split.
  { exists [[o_rec1]; [o_rec2]]. split; [|reflexivity]. constructor; [split; [exact o_detect1|exact o_contents1]|]. constructor; [split; [exact o_detect2|exact o_contents2]|constructor]. }
  split; [exact o_done|]. split.
  { exists [[o_new1]; [o_new2]]. split; [|reflexivity]. constructor; [split; [exact o_detect3|exact o_contents3]|]. constructor; [split; [exact o_detect4|exact o_contents4]|constructor]. }
  assert (W1 : weight_names o_rec1 [o_A; o_B]) by (apply (o_names_of (lit "5 20")); [vmr|reflexivity|reflexivity|vmr]).
  assert (W2 : weight_names o_rec2 [o_B; o_A]) by (apply (o_names_of (lit "-1 10")); [vmr|reflexivity|reflexivity|vmr]).
  assert (W3 : weight_names o_new1 [o_A; o_B]) by (apply (o_names_of (lit "2 15")); [vmr|reflexivity|reflexivity|vmr]).
  assert (W4 : weight_names o_new2 [o_B; o_A]) by (apply (o_names_of (lit "2 15")); [vmr|reflexivity|reflexivity|vmr]).
  assert (P1 : parse_hepmc r_double true isort o_names o_rec1 = Ok (mkEvent 0 [5 : RN; 5; 20] r_out)) by (lazy; reflexivity).
  assert (P2 : parse_hepmc r_double true isort o_names o_rec2 = Ok (mkEvent 0 [(-1) : RN; -1; 10] r_out)) by (lazy; reflexivity).
  assert (P3 : parse_hepmc r_double true isort o_names o_new1 = Ok (mkEvent 0 [2 : RN; 2; 15] r_out)) by (lazy; reflexivity).
  assert (P4 : parse_hepmc r_double true isort o_names o_new2 = Ok (mkEvent 0 [2 : RN; 2; 15] r_out)) by (lazy; reflexivity).
  destruct (o_first _ _ P1 eq_refl W1) as [A1 B1]. destruct (o_second _ _ P2 eq_refl W2) as [B2 A2].
  destruct (o_first _ _ P3 eq_refl W3) as [A3 B3]. destruct (o_second _ _ P4 eq_refl W4) as [B4 A4].
  repeat (split; [assumption|]). exact B4.
Qed.
Print Assumptions C82_order_refuted.
