(** Model of what a run reports in its log: src/cres.rs:181-221 and 300-333, and the report of the
    resampler, src/resampler.rs:38-54, 79-92.  The values are kept as they are computed; they are
    printed with three decimals.  Particle names, the progress bar, messages below level "info"
    and the messages of the cell observer (ModelCollector.v) are not modelled. *)
From Coq Require Import ZArith.
From Verif Require Import Base Num ModelEvent ModelCell ModelSeeds ModelResampler ModelCres.

Section Log.
Context (N : NumOps).

(** Sum of weights, its uncertainty, and the negative weight fraction. *)
Record wt_stats := mkStats { st_sum : N; st_error : N; st_fraction : N }.

(** src/resampler.rs:40-52 [print_wt_sum] and src/cres.rs:204-221, which compute the same
    expressions, sequentially in the former and in parallel in the latter case: [sum] is the way
    of summing up. *)
Definition weight_stats (sum : list N -> N) (wts : list N) : wt_stats :=
  let sum_wt := sum wts in
  let sum_neg_wt := sum (filter (fun w => nltb w n0) wts) in
  let sum_wtsqr := sum (map (fun w => nmul w w) wts) in
  mkStats sum_wt (nsqrt sum_wtsqr)
    (ndiv (nopp sum_neg_wt) (nsub sum_wt (nmul sum_neg_wt (nofnat 2)))).

(** src/cres.rs:306-308: the types of outgoing particles and the number of particles of each type *)
Definition category := list (Z * nat).
Definition out_multiplicities (e : Event N) : category :=
  map (fun '(id, p) => (id, length p)) (ev_out e).

(** derived order of pairs of a particle id and a number, and of vectors of them *)
Definition entry_cmp (a b : Z * nat) : comparison :=
  match Z.compare (fst a) (fst b) with Eq => Nat.compare (snd a) (snd b) | c => c end.
Fixpoint category_cmp (a b : category) : comparison :=
  match a, b with
  | [], [] => Eq
  | [], _ :: _ => Lt
  | _ :: _, [] => Gt
  | x :: a, y :: b => match entry_cmp x y with Eq => category_cmp a b | c => c end
  end.

(** src/cres.rs:309 [*multiplicities.entry(out_multiplicities).or_default() += 1] *)
Fixpoint count_entry (c : category) (m : list (category * nat)) : list (category * nat) :=
  match m with
  | [] => [(c, 1)]
  | (c', n) :: m =>
      match category_cmp c c' with
      | Eq => (c', S n) :: m
      | _ => (c', n) :: count_entry c m
      end
  end.

(** src/cres.rs:312 the comparison of [sort_unstable_by]: numbers of events in descending order,
    categories in ascending order *)
Definition multiplicity_leb (a b : category * nat) : bool :=
  match Nat.compare (snd b) (snd a) with
  | Lt => true
  | Gt => false
  | Eq => match category_cmp (fst a) (fst b) with Gt => false | _ => true end
  end.

(** src/cres.rs:301 [MAX_MULT_SHOWN] *)
Definition MAX_MULT_SHOWN : nat := 1000.

Inductive log_line :=
| LRead (nevents : nat)                              (* cres.rs:186 *)
| LIgnored (nevents : nat)                           (* cres.rs:190-193 *)
| LCategory (nevents : nat) (types : category)       (* cres.rs:315-325 *)
| LCategories (ncategories : nat)                    (* cres.rs:328-331 *)
| LInitial (stats : wt_stats)                        (* resampler.rs:45-52 *)
| LCells (nneg_weight : nat)                         (* resampler.rs:90 *)
| LFinal (stats : wt_stats).                         (* cres.rs:212-219 *)

(** src/cres.rs:300-334 [log_multiplicities].  [hash] is the order in which the hash map is
    traversed. *)
Definition log_multiplicities (sort : sorter) (hash : list (category * nat) -> list (category * nat))
    (events : list (Event N)) : list log_line :=
  let multiplicities := fold_left (fun m e => count_entry (out_multiplicities e) m) events [] in
  let multiplicities := sort _ multiplicity_leb (hash multiplicities) in
  map (fun '(types, nevents) => LCategory nevents types) (firstn MAX_MULT_SHOWN multiplicities) ++
  if MAX_MULT_SHOWN <? length multiplicities then [LCategories (length multiplicities)] else [].

(** src/resampler.rs:79-92: what the resampler reports before it starts.  Nothing is reported if an
    event has no weight: then [print_wt_sum] panics. *)
Definition resampler_log (events : list (Event N)) : list log_line :=
  match omap ev_weight events with
  | None => []
  | Some wts => [LInitial (weight_stats nsum wts); LCells (length (filter (fun w => nltb w n0) wts))]
  end.

Context (Rec Err : Type) (is_ntuple : Rec -> bool) (convert : Rec -> Event N + Err) (cluster : Event N -> Event N + Err).

(** src/cres.rs:181-230 [Cres::run] as [cres_run] in ModelCres.v, with the log.  [psum] is the way
    in which parallel sums are taken. *)
Definition cres_run_log (mw : bool) (sort : sorter) hash (psum : list N -> N)
    (shuffle : list (Event N + @cres_error Err) -> list (Event N + @cres_error Err))
    (resample unweighter : list (Event N) -> option (list (Event N) + Err))
    (records : list (Rec + Err)) : list log_line * @outcome N Err :=
  match read_events is_ntuple convert cluster shuffle records with
  | inr err => ([], Failed err)
  | inl events =>
      let nevents := length events in
      let events := filter (fun e => negb (match ev_out e with [] => true | _ => false end)) events in
      let log := LRead nevents ::
        (if length events <? nevents then [LIgnored (nevents - length events)] else []) ++
        log_multiplicities sort hash events ++ resampler_log events in
      match resample events with
      | None => (log, Panicked)
      | Some (inr err) => (log, Failed (ResamplingErr err))
      | Some (inl events) =>
          match unweighter events with
          | None => (log, Panicked)
          | Some (inr err) => (log, Failed (UnweightErr err))
          | Some (inl events) =>
              let events := sort _ ev_leb events in
              match omap ev_weight events with
              | None => (log, Panicked)
              | Some wts =>
                  let log := log ++ [LFinal (weight_stats psum wts)] in
                  match weights_table mw nevents events with
                  | None => (log, Panicked)
                  | Some ws => (log, Wrote ws)
                  end
              end
          end
      end
  end.

End Log.
Arguments mkStats {N}. Arguments st_sum {N}. Arguments st_error {N}. Arguments st_fraction {N}.
Arguments weight_stats {N}. Arguments out_multiplicities {N}. Arguments log_multiplicities {N}.
Arguments resampler_log {N}. Arguments cres_run_log {N Rec Err}.
Arguments LRead {N}. Arguments LIgnored {N}. Arguments LCategory {N}. Arguments LCategories {N}.
Arguments LInitial {N}. Arguments LCells {N}. Arguments LFinal {N}.
