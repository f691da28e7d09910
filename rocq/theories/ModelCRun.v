(** Model of [cres_run] of the C API, src/c_api/cres.rs:111-218: from the options and the contents of the
    input files to the contents of the output files, the return code and the last error.

    The feature "capi" implies "multiweight" (Cargo.toml:81).  Not modelled: the conversion of C strings to
    paths, the creation of the output directory, logging.  The function of the C program that
    computes distances is a function of the memory it is shown and of nothing else, and
    returns a number ("may never return NaN", src/c_api/distance.rs:18). *)
From Verif Require Import Base Num ModelEvent ModelText ModelStripper ModelIO ModelSeeds ModelNaive ModelVPTree ModelResampler
  ModelDistance ModelCluster ModelUnweight ModelCres ModelMain ModelProgram ModelThreads ModelCApi.

Section CRun.
Context (N : NumOps) (double : parser N) (show : N -> text) (xml : text -> option (xml_tag N)) (checks : bool) (sort : sorter).

(** src/c_api/cres.rs:27-57 [Opt] without the names of files; [None]: NULL *)
Record capi_opt := mkCapiOpt {
  ca_distance : option (memory N -> EventView -> EventView -> N);
  ca_ptweight : N;
  ca_jet_def : JetDefinition N;
  ca_search : Search;
  ca_max_cell_size : N
}.

(** as in ModelProgram.v; [heap], [place]: memory when the distance is called, and where it has the weights
    of an event *)
Context (km : assignment N) (neutrino hadron : Z -> bool) (delta_r : PseudoJet N -> PseudoJet N -> N)
  (cluster_if : JetAlgorithm -> N -> (PseudoJet N -> bool) -> list (PseudoJet N) -> list (PseudoJet N))
  (choose : chooser)
  (shuffle : list (Event N + @cres_error (option read_error)) -> list (Event N + @cres_error (option read_error)))
  (heap : memory N) (place : Event N -> Z).

(** src/c_api/cres.rs:136-145 *)
Definition capi_distance (opt : capi_opt) (e1 e2 : Event N) : N :=
  match ca_distance opt with
  | None => match distance sort km (ca_ptweight opt) e1 e2 with Some d => d | None => n0 end
  | Some f => c_distance f heap e1 e2 (place e1) (place e2)
  end.
(** src/c_api/cres.rs:147-155 *)
Definition capi_search (opt : capi_opt) : search_algo N :=
  match ca_search opt with
  | Tree => fun n dist max point => tree_nearest sort choose n dist max point
  | Naive => fun n dist max point => naive_nearest choose n dist max point
  end.
(** src/c_api/cres.rs:198-203; default seeds: src/seeds.rs:33-37.  One thread *)
Definition capi_resampler (opt : capi_opt) : list (Event N) -> option (list (Event N) + option read_error) :=
  lib_resample true sort MostNegative (capi_search opt) (capi_distance opt) (ca_max_cell_size opt).
(** any number of threads *)
Definition capi_threads_resampler (nthreads : nat) (sched : nat -> nat * nat) (opt : capi_opt) : list (Event N) -> option (list (Event N) + option read_error) :=
  threads_resample nthreads sched true sort MostNegative (capi_search opt) (capi_distance opt) (ca_max_cell_size opt).

(** src/c_api/cres.rs:160-218 with this resampler *)
Definition capi_program (resample : list (Event N) -> option (list (Event N) + option read_error)) (fuel : nat) (opt : capi_opt) (inputs : list text) : ending :=
  cres_program double show xml checks true [] sort
    (default_cluster neutrino hadron delta_r cluster_if true sort (clustering_new (ca_jet_def opt)))
    shuffle resample lib_no_unweight fuel inputs.

(** src/c_api/cres.rs:121-134: the last error and the return code; [message]: text of an error *)
Definition end_of_run (message : list Ascii.ascii) (e : ending) : run_end :=
  match e with Done _ => Finished | Error => Failed message | Crash => Panicked end.
Definition capi_run (s : errors) (thread : nat) (message : list Ascii.ascii) (e : ending) : errors * Z := ModelCApi.cres_run s thread (end_of_run message e).
End CRun.
Arguments mkCapiOpt {N}. Arguments ca_distance {N}. Arguments ca_ptweight {N}. Arguments ca_jet_def {N}. Arguments ca_search {N}. Arguments ca_max_cell_size {N}.
Arguments capi_distance {N}. Arguments capi_search {N}. Arguments capi_resampler {N}. Arguments capi_threads_resampler {N}. Arguments capi_program {N}.
