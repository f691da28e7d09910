(** Model of the program cres with its own components: src/bin/main.rs:30-119, from the options and
    the contents of the input files to the contents of the output files.  ModelMain.v has the
    same program for arbitrary clustering, resampler and unweighter; ModelOpt.v the options of the
    clustering.

    One thread, without and with the feature "multiweight".  Not modelled: argument files, logging, the
    compression of the output. *)
From Verif Require Import Base Num ModelEvent ModelText ModelStripper ModelIO ModelSeeds ModelNaive ModelVPTree ModelResampler
  ModelDistance ModelCluster ModelOpt ModelUnweight ModelCres ModelMain.

(** src/bin/opt_cres.rs:31-38 [Search] *)
Inductive Search := Tree | Naive.

Section Program.
Context (N : NumOps) (double : parser N) (show : N -> text) (xml : text -> option (xml_tag N)) (checks : bool) (sort : sorter).

(** src/bin/opt_cres.rs:40-151 [Opt], without the options of the clustering, which are in [co_cluster] *)
Record cres_opt := mkCresOpt {
  co_cluster : Opt N;
  co_minweight : N;
  co_ptweight : N;
  co_search : Search;
  co_strategy : Strategy;
  co_max_cell_size : option N
}.

(** [f64::MAX]; algorithms of the crates pathfinding, particle_id and jetty; the choice among
    candidates with equal distance; order of a parallel sum, random numbers and order in which
    tasks finish *)
Context (MAX : N) (km : assignment N) (neutrino hadron : Z -> bool) (delta_r : PseudoJet N -> PseudoJet N -> N)
  (cluster_if : JetAlgorithm -> N -> (PseudoJet N -> bool) -> list (PseudoJet N) -> list (PseudoJet N))
  (choose : chooser) (psum : list N -> N) (draws : nat -> N)
  (shuffle : list (Event N + @cres_error (option read_error)) -> list (Event N + @cres_error (option read_error))).

(** src/bin/main.rs:40-43 *)
Definition search_of (opt : cres_opt) : search_algo N :=
  match co_search opt with
  | Tree => fun n dist max point => tree_nearest sort choose n dist max point
  | Naive => fun n dist max point => naive_nearest choose n dist max point
  end.

(** src/resampler.rs:260 [EuclWithScaledPt::new(ptweight)].  Simplification: a panic in the
    distance ([None]), which does not happen (C20), is replaced by a distance of zero. *)
Definition distance_of (opt : cres_opt) (e1 e2 : Event N) : N :=
  match distance sort km (co_ptweight opt) e1 e2 with Some d => d | None => n0 end.

(** src/bin/main.rs:85-92, src/resampler.rs:243-273, 82; [mw]: feature "multiweight" *)
Definition resampler_with (mw : bool) (opt : cres_opt) : list (Event N) -> option (list (Event N) + option read_error) :=
  lib_resample mw sort (co_strategy opt) (search_of opt) (distance_of opt)
    (match co_max_cell_size opt with Some max => max | None => MAX end).
(** without this feature *)
Definition resampler_of (opt : cres_opt) : list (Event N) -> option (list (Event N) + option read_error) :=
  lib_resample false sort (co_strategy opt) (search_of opt) (distance_of opt)
    (match co_max_cell_size opt with Some max => max | None => MAX end).

(** src/bin/main.rs:96 *)
Definition unweighter_of (opt : cres_opt) : list (Event N) -> option (list (Event N) + option read_error) :=
  lib_unweight psum (co_minweight opt) draws.

(** src/bin/main.rs:30-119 *)
Definition cres_main (fuel : nat) (opt : cres_opt) (inputs : list text) : ending :=
  match cres_clustering (co_cluster opt) with
  | Bad _ => Error
  | Good None => Crash
  | Good (Some clustering) =>
      cres_program double show xml checks false [] sort
        (default_cluster neutrino hadron delta_r cluster_if false sort clustering)
        shuffle (resampler_of opt) (unweighter_of opt) fuel inputs
  end.

(** src/bin/main.rs:30-119 in the default build, with the feature "multiweight" (Cargo.toml:76), and
    without the option --weights: no named weights (main.rs:70-71, 109-110) *)
Definition cres_main_default (fuel : nat) (opt : cres_opt) (inputs : list text) : ending :=
  match cres_clustering (co_cluster opt) with
  | Bad _ => Error
  | Good None => Crash
  | Good (Some clustering) =>
      cres_program double show xml checks true [] sort
        (default_cluster neutrino hadron delta_r cluster_if true sort clustering)
        shuffle (resampler_with true opt) (unweighter_of opt) fuel inputs
  end.
End Program.
Arguments mkCresOpt {N}. Arguments co_cluster {N}. Arguments co_minweight {N}. Arguments co_ptweight {N}. Arguments co_search {N}.
Arguments co_strategy {N}. Arguments co_max_cell_size {N}. Arguments search_of {N}. Arguments distance_of {N}.
Arguments resampler_with {N}. Arguments resampler_of {N}. Arguments unweighter_of {N}. Arguments cres_main {N}. Arguments cres_main_default {N}.
