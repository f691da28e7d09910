(** Model of src/resampler.rs:38-114 (one thread; for threads see [ModelConc]) and
    [log2]. *)
From Coq Require Import NArith.
From Verif Require Import Base Num ModelEvent ModelCell ModelSeeds.

Section Resampler.
Context (N : NumOps).

(** A prepared neighbour search: the items [nearest(seed)] delivers.  [None] is a panic. *)
Definition search := nat -> option (list (nat * N)).

(** src/resampler.rs:94-105: the body of the loop over seeds.  The second component
    accumulates the cells passed to the observer, in order.  Line 96 skips seeds with
    weight > 0 (not >= 0). *)
Definition seed_step (mw : bool) (nearest : search)
    (st : weights_state N * list (Cell N)) (seed : nat)
  : option (weights_state N * list (Cell N)) :=
  let '(ws, cells) := st in
  if length ws <=? seed then None
  else
    match weight_at ws seed with
    | None => None
    | Some w =>
        if nltb n0 w then Some st
        else
          match nearest seed with
          | None => None
          | Some nbrs =>
              match cell_new ws seed nbrs with
              | None => None
              | Some c =>
                  match cell_resample mw ws c with
                  | None => None
                  | Some ws' => Some (ws', cells ++ [c])
                  end
              end
          end
    end.

(** The loop, executed by one thread in the order of the seeds. *)
Definition resample_seeds (mw : bool) (nearest : search) (seeds : list nat)
    (ws : weights_state N) : option (weights_state N * list (Cell N)) :=
  ofold (seed_step mw nearest) seeds (ws, []).

(** Put new weights into the events; the other fields are never written. *)
Definition with_weights (evs : list (Event N)) (ws : weights_state N) : list (Event N) :=
  map (fun '(e, w) => mkEvent (ev_id e) w (ev_out e)) (combine evs ws).

(** A neighbour search algorithm: number of points, distance, maximum distance, query
    (src/neighbour_search.rs:8-36). *)
Definition search_algo := nat -> (nat -> nat -> N) -> N -> nat -> option (list (nat * N)).

(** src/distance.rs:195-199 [DistWrapper]: distance of two events given by their index.
    (An index out of range panics in the code; the searches only use indices below the
    number of events.)  The distance may look at ids and momenta of the events; distances
    that look at the weights, which change during the run, are not modelled. *)
Definition dist_wrapper (dist : Event N -> Event N -> N) (evs : list (Event N))
    (i j : nat) : N :=
  match nth_error evs i, nth_error evs j with
  | Some a, Some b => dist a b
  | _, _ => n0
  end.

(** src/resampler.rs:73-113 [Resampler::resample] with the built-in seed selection.
    [print_wt_sum] (line 78) reads all weights and panics if an event has none; this is
    part of [select_seeds] here. *)
Definition resampler_resample (mw : bool) (sort : sorter) (strategy : Strategy)
    (algo : search_algo) (dist : Event N -> Event N -> N) (max_cell_size : N)
    (events : list (Event N)) : option (list (Event N) * list (Cell N)) :=
  let ws := map ev_weights events in
  match select_seeds sort strategy ws with
  | None => None
  | Some seeds =>
      let nearest := algo (length events) (dist_wrapper dist events) max_cell_size in
      match resample_seeds mw nearest seeds ws with
      | None => None
      | Some (ws', cells) => Some (with_weights events ws', cells)
      end
  end.

End Resampler.
Arguments seed_step {N}. Arguments resample_seeds {N}. Arguments with_weights {N}.
Arguments dist_wrapper {N}. Arguments resampler_resample {N}.

(** src/resampler.rs:456-458 [log2]: [u32::BITS - n.leading_zeros() - 1].
    [leading_zeros] of a 32-bit number is 32 minus its bit length.  [None]: the
    subtraction overflows (n = 0). *)
Definition leading_zeros32 (n : N) : N := (32 - N.size n)%N.
Definition log2_u32 (n : N) : option N :=
  let a := (32 - leading_zeros32 n)%N in
  if N.eqb a 0 then None else Some (a - 1)%N.
