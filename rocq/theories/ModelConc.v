(** Model of the parallel loop over the seeds, src/resampler.rs:94-105, with the locking of
    src/cell.rs:59-109.

    Several worker threads (rayon) take seeds in an arbitrary order.  Every event has a
    readers-writer lock around its weights (src/event.rs:128).  A step is one of: taking a
    seed; one locked read of a weight; one acquisition of a write lock; computing the mean
    with all locks held; writing one event; releasing one lock.  A read lock is taken, used
    and released within one expression ([weight()], src/event.rs:170-172), with no other
    lock requested meanwhile, so a read is one step that is possible when no thread holds
    the write lock.  Which thread moves next is arbitrary: [conc_step] is the union over
    all threads and choices. *)
From Verif Require Import Base Num ModelEvent ModelCell ModelResampler.

Section Conc.
Context (N : NumOps).

(** What a worker thread is doing. *)
Inductive tstate :=
| TIdle                                                  (* asks for the next seed *)
| TCheck (seed : nat)                                    (* src/resampler.rs:95-98 *)
| TStart (seed : nat)                                    (* src/cell.rs:32-38 *)
| TGrow (c : Cell N) (nbrs : list (nat * N))             (* src/cell.rs:40-51 *)
| TLock (held todo : list nat)                           (* src/cell.rs:71-72, 99-100 *)
| TWrite (avg : list N) (towrite held : list nat).       (* src/cell.rs:83-86, 105-107 *)

(** Write locks held by a thread. *)
Definition held_of (t : tstate) : list nat :=
  match t with TLock held _ => held | TWrite _ _ held => held | _ => [] end.

Record cstate := mkConc { mem : weights_state N; pool : list nat; threads : list tstate }.

Definition is_locked (s : cstate) (i : nat) : bool :=
  existsb (fun t => existsb (Nat.eqb i) (held_of t)) (threads s).

(** [events[i].weight()] when the write lock of [i] is free; [None]: must wait (or panic). *)
Definition read_weight (s : cstate) (i : nat) : option N :=
  if is_locked s i then None else weight_at (mem s) i.

(** src/cell.rs:73-82 and 102-104: the mean, computed with the locks of [ms] held.
    (With "multiweight" the weights of the first member are moved out in line 75 and stored
    again in line 86; its lock is held in between.) *)
Definition cell_average (mw : bool) (ws : weights_state N) (ms : list nat) : option (list N) :=
  if mw then
    match ms with
    | [] => None
    | first :: rest =>
        match get_weights ws first, omap (get_weights ws) rest with
        | Some w0, Some wrest =>
            match ofold weights_add wrest w0 with
            | None => None
            | Some total =>
                let inv_norm := ndiv n1 (nofnat (length ms)) in
                Some (map (fun w => nmul w inv_norm) total)
            end
        | _, _ => None
        end
    end
  else
    match omap (weight_at ws) ms with
    | None => None
    | Some wts => Some [ndiv (nsum wts) (nofnat (length ms))]
    end.

(** Order of the writes: the first member last with "multiweight" (lines 83-86). *)
Definition write_order (mw : bool) (ms : list nat) : list nat :=
  if mw then tl ms ++ firstn 1 ms else ms.

(** One write; [copy_from] panics if the number of weights differs (line 84). *)
Definition write_weights (mw : bool) (ws : weights_state N) (i : nat) (avg : list N)
  : option (weights_state N) :=
  if mw then
    match get_weights ws i with
    | None => None
    | Some old => match weights_copy_from old avg with None => None | Some w => set_nth i w ws end
    end
  else set_nth i avg ws.

Fixpoint remove_nth {A} (k : nat) (l : list A) : list A :=
  match l, k with
  | [], _ => []
  | _ :: t, 0 => t
  | a :: t, S k => a :: remove_nth k t
  end.

(** Thread [t] makes its next step; an idle thread takes the [choice]-th remaining seed.
    [None]: the thread has to wait, has nothing to do, or panics. *)
Definition thread_step (mw : bool) (nearest : search N) (s : cstate) (t choice : nat)
  : option cstate :=
  let go m p ts := match set_nth t ts (threads s) with
                   | None => None | Some l => Some (mkConc m p l) end in
  match nth_error (threads s) t with
  | None => None
  | Some TIdle =>
      match nth_error (pool s) choice with
      | None => None
      | Some seed =>
          if length (mem s) <=? seed then None        (* assert!, src/resampler.rs:95 *)
          else go (mem s) (remove_nth choice (pool s)) (TCheck seed)
      end
  | Some (TCheck seed) =>
      match read_weight s seed with
      | None => None
      | Some w => go (mem s) (pool s) (if nltb n0 w then TIdle else TStart seed)
      end
  | Some (TStart seed) =>
      match read_weight s seed, nearest seed with
      | Some w, Some nbrs => go (mem s) (pool s) (TGrow (mkCell [seed] n0 w) nbrs)
      | _, _ => None
      end
  | Some (TGrow c []) => go (mem s) (pool s) (TLock [] (isort Nat.leb (members c)))
  | Some (TGrow c ((next_idx, dist) :: rest)) =>
      match read_weight s next_idx with
      | None => None
      | Some w =>
          let sum := nadd (weight_sum c) w in
          let c' := mkCell (members c ++ [next_idx]) dist sum in
          go (mem s) (pool s)
             (if nleb n0 sum then TLock [] (isort Nat.leb (members c')) else TGrow c' rest)
      end
  | Some (TLock held (i :: todo)) =>
      if is_locked s i then None else go (mem s) (pool s) (TLock (held ++ [i]) todo)
  | Some (TLock held []) =>
      match cell_average mw (mem s) held with
      | None => None
      | Some avg => go (mem s) (pool s) (TWrite avg (write_order mw held) held)
      end
  | Some (TWrite avg (i :: rest) held) =>
      match write_weights mw (mem s) i avg with
      | None => None
      | Some m => go m (pool s) (TWrite avg rest (if mw then held else rest))
                  (* without "multiweight" each guard is dropped right after its write *)
      end
  | Some (TWrite avg [] (_ :: held)) => go (mem s) (pool s) (TWrite avg [] held)
  | Some (TWrite avg [] []) => go (mem s) (pool s) TIdle
  end.

Definition conc_step (mw : bool) (nearest : search N) (s s' : cstate) : Prop :=
  exists t choice, thread_step mw nearest s t choice = Some s'.

(** Executions of a given length. *)
Inductive conc_steps (mw : bool) (nearest : search N) : nat -> cstate -> cstate -> Prop :=
| steps_refl : forall s, conc_steps mw nearest 0 s s
| steps_next : forall k s s' s'', conc_steps mw nearest k s s' -> conc_step mw nearest s' s'' ->
    conc_steps mw nearest (S k) s s''.

(** All threads idle, seeds waiting. *)
Definition conc_init (nthreads : nat) (seeds : list nat) (ws : weights_state N) : cstate :=
  mkConc ws seeds (repeat TIdle nthreads).

(** A schedule: which thread moves, and which seed it takes when idle. *)
Fixpoint run_schedule (mw : bool) (nearest : search N) (sched : list (nat * nat)) (s : cstate)
  : option cstate :=
  match sched with
  | [] => Some s
  | (t, k) :: rest =>
      match thread_step mw nearest s t k with
      | None => None
      | Some s' => run_schedule mw nearest rest s'
      end
  end.

End Conc.
Arguments TIdle {N}. Arguments TCheck {N}. Arguments TStart {N}. Arguments TGrow {N}.
Arguments TLock {N}. Arguments TWrite {N}. Arguments held_of {N}.
Arguments mkConc {N}. Arguments mem {N}. Arguments pool {N}. Arguments threads {N}.
Arguments is_locked {N}. Arguments read_weight {N}. Arguments cell_average {N}.
Arguments write_weights {N}. Arguments thread_step {N}. Arguments conc_step {N}.
Arguments conc_steps {N}. Arguments conc_init {N}. Arguments run_schedule {N}.
