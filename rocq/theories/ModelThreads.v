(** Model of the program cres with several worker threads, src/resampler.rs:94-105 (rayon's
    parallel loop over the seeds) inside src/bin/main.rs:30-119.  ModelConc.v has the steps of the
    threads.  Everything outside of this loop is as in ModelProgram.v.

    The schedule is a parameter: at step [k] thread [fst (sched k)] moves and takes the remaining
    seed number [snd (sched k)] if it is idle.  Where that is impossible, because the thread
    waits for a lock, has nothing left to do or does not exist, another thread moves; this is all
    that is assumed of the scheduler: it does not stop while some thread can move. *)
From Verif Require Import Base Num ModelEvent ModelText ModelStripper ModelIO ModelSeeds ModelNaive ModelVPTree ModelCell ModelResampler
  ModelConc ModelDistance ModelCluster ModelOpt ModelUnweight ModelCres ModelMain ModelProgram.

Section Threads.
Context (N : NumOps).

(** the first step that is possible, among the given threads and choices of a seed *)
Fixpoint first_step (mw : bool) (nearest : search N) (s : cstate N) (l : list (nat * nat)) : option (cstate N) :=
  match l with
  | [] => None
  | (t, choice) :: l =>
      match thread_step mw nearest s t choice with Some s' => Some s' | None => first_step mw nearest s l end
  end.

(** all threads and all choices of a remaining seed *)
Definition all_steps (s : cstate N) : list (nat * nat) :=
  list_prod (seq 0 (length (threads s))) (seq 0 (S (length (pool s)))).

(** the step that the scheduler makes; [None]: no thread can move *)
Definition sched_step (mw : bool) (nearest : search N) (s : cstate N) (wish : nat * nat) : option (cstate N) :=
  first_step mw nearest s (wish :: all_steps s).

(** src/resampler.rs:94-105; at most [fuel] steps *)
Fixpoint threads_run (mw : bool) (nearest : search N) (sched : nat -> nat * nat) (fuel k : nat) (s : cstate N) : cstate N :=
  match fuel with
  | 0 => s
  | S fuel => match sched_step mw nearest s (sched k) with
              | Some s' => threads_run mw nearest sched fuel (S k) s'
              | None => s
              end
  end.

(** Are all threads idle and all seeds taken? *)
Definition finished (s : cstate N) : bool :=
  match pool s with [] => forallb (fun t => match t with TIdle => true | _ => false end) (threads s) | _ => false end.

(** src/resampler.rs:73-115 [resample] with [nthreads] threads.  The number of steps suffices for
    every run (C06_terminates).  [None]: a thread panicked or all threads wait for each other. *)
Definition threads_resample (Err : Type) (nthreads : nat) (sched : nat -> nat * nat) (mw : bool) (sort : sorter) (strategy : Strategy)
    (algo : search_algo N) (dist : Event N -> Event N -> N) (max_cell_size : N) (events : list (Event N)) : option (list (Event N) + Err) :=
  let ws := map ev_weights events in
  match select_seeds sort strategy ws with
  | None => None
  | Some seeds =>
      let nearest := algo (length events) (dist_wrapper dist events) max_cell_size in
      let s := threads_run mw nearest sched (length seeds * (11 + 4 * length ws)) 0 (conc_init nthreads seeds ws) in
      if finished s then Some (inl (with_weights events (mem s))) else None
  end.

Context (double : parser N) (show : N -> text) (xml : text -> option (xml_tag N)) (checks : bool) (sort : sorter).
Context (MAX : N) (km : assignment N) (neutrino hadron : Z -> bool) (delta_r : PseudoJet N -> PseudoJet N -> N)
  (cluster_if : JetAlgorithm -> N -> (PseudoJet N -> bool) -> list (PseudoJet N) -> list (PseudoJet N))
  (choose : chooser) (psum : list N -> N) (draws : nat -> N)
  (shuffle : list (Event N + @cres_error (option read_error)) -> list (Event N + @cres_error (option read_error)))
  (nthreads : nat) (sched : nat -> nat * nat).

(** src/bin/main.rs:85-92, src/resampler.rs:243-273, 82 *)
Definition threads_resampler_of (opt : cres_opt N) : list (Event N) -> option (list (Event N) + option read_error) :=
  threads_resample (option read_error) nthreads sched false sort (co_strategy opt) (search_of sort choose opt) (distance_of sort km opt)
    (match co_max_cell_size opt with Some max => max | None => MAX end).

(** the same for both settings of the feature "multiweight" *)
Definition threads_resampler_with (mw : bool) (opt : cres_opt N) : list (Event N) -> option (list (Event N) + option read_error) :=
  threads_resample (option read_error) nthreads sched mw sort (co_strategy opt) (search_of sort choose opt) (distance_of sort km opt)
    (match co_max_cell_size opt with Some max => max | None => MAX end).

(** src/bin/main.rs:30-119 *)
Definition cres_main_threads (fuel : nat) (opt : cres_opt N) (inputs : list text) : ending :=
  match cres_clustering (co_cluster opt) with
  | Bad _ => Error
  | Good None => Crash
  | Good (Some clustering) =>
      cres_program double show xml checks false [] sort
        (default_cluster neutrino hadron delta_r cluster_if false sort clustering)
        shuffle (threads_resampler_of opt) (unweighter_of psum draws opt) fuel inputs
  end.

(** src/bin/main.rs:30-119 in the default build, with the feature "multiweight" (Cargo.toml:76), and
    without the option --weights *)
Definition cres_main_default_threads (fuel : nat) (opt : cres_opt N) (inputs : list text) : ending :=
  match cres_clustering (co_cluster opt) with
  | Bad _ => Error
  | Good None => Crash
  | Good (Some clustering) =>
      cres_program double show xml checks true [] sort
        (default_cluster neutrino hadron delta_r cluster_if true sort clustering)
        shuffle (threads_resampler_with true opt) (unweighter_of psum draws opt) fuel inputs
  end.
End Threads.
Arguments first_step {N}. Arguments all_steps {N}. Arguments sched_step {N}. Arguments threads_run {N}. Arguments finished {N}.
Arguments threads_resample {N Err}. Arguments threads_resampler_of {N}. Arguments cres_main_threads {N}.
Arguments threads_resampler_with {N}. Arguments cres_main_default_threads {N}.
