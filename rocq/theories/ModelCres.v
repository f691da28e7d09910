(** Model of src/cres.rs: [Cres::run] and [Cres::read_events]. *)
From Verif Require Import Base Num ModelEvent ModelSeeds ModelResampler ModelUnweight.

Section Cres.
Context (N : NumOps).

(** Event records and the errors of the components are arbitrary types. *)
Context {Rec Err : Type}.

(** src/cres.rs:127-146 [CresError] *)
Inductive cres_error :=
| IOErr (e : Err) | ConversionErr (e : Err) | ClusterErr (e : Err)
| ResamplingErr (e : Err) | UnweightErr (e : Err) | IdErr (id : nat).

(** Components: is the record in ntuple format?; [TryConvert::try_convert];
    [Clustering::cluster].  [inr] is an error. *)
Context (is_ntuple : Rec -> bool)
        (convert : Rec -> Event N + Err)
        (cluster : Event N -> Event N + Err).

(** src/cres.rs:256-269 (ntuple) and 270-286: what happens to one record. *)
Definition treat (id : nat) (record : Rec) : Event N + cres_error :=
  match convert record with
  | inr err => inr (ConversionErr err)
  | inl ev =>
      match cluster ev with
      | inr err => inr (ClusterErr err)
      | inl ev =>
          if negb (ev_id ev =? 0) then inr (IdErr (ev_id ev))
          else inl (mkEvent id (ev_weights ev) (ev_out ev))
      end
  end.

(** src/cres.rs:248-291: the loop over the records, starting with number [id].  The input
    is what the iterator [event_io] yields.  The first result collects what is pushed to the
    vector of events, by the loop itself or by the tasks it spawns, in the order of the
    records; the second is the error with which the loop is left early. *)
Fixpoint read_loop (id : nat) (records : list (Rec + Err)) : list (Event N + cres_error) * option cres_error :=
  match records with
  | [] => ([], None)
  | inr err :: _ => ([], Some (IOErr err))
  | inl record :: rest =>
      if is_ntuple record then
        match treat id record with
        | inr err => ([], Some err)
        | inl ev => let '(pushed, res) := read_loop (S id) rest in (inl ev :: pushed, res)
        end
      else
        let '(pushed, res) := read_loop (S id) rest in (treat id record :: pushed, res)
  end.

(** [collect] of [Result]s: the first error, if there is one *)
Fixpoint collect {A E} (l : list (A + E)) : list A + E :=
  match l with
  | [] => inl []
  | inr e :: _ => inr e
  | inl a :: t => match collect t with inl as' => inl (a :: as') | inr e => inr e end
  end.

(** src/cres.rs:232-295 [read_events].  [shuffle] is the order in which the tasks obtain
    the lock of the vector of events.  The scope waits for all tasks; a panic in a task is
    not modelled. *)
Definition read_events (shuffle : list (Event N + cres_error) -> list (Event N + cres_error))
    (records : list (Rec + Err)) : list (Event N) + cres_error :=
  let '(pushed, res) := read_loop 0 records in
  match res with
  | Some err => inr err
  | None => collect (shuffle pushed)
  end.

(** src/event.rs:119-131, derived [Ord]: ids first.  Simplification: the order of events
    with equal ids is left to the sorting algorithm. *)
Definition ev_leb (a b : Event N) : bool := ev_id a <=? ev_id b.

(** src/cres.rs:223-226 *)
Definition weights_table (mw : bool) (nevents : nat) (events : list (Event N)) : option (list (list N)) :=
  ofold (fun ws e => set_nth (ev_id e) (ev_weights e) ws) events (repeat (weights_default mw) nevents).

(** How a run ends.  [Wrote ws]: [update_all_weights] is called with [ws], and its result is
    the result of the run. *)
Inductive outcome := Panicked | Failed (e : cres_error) | Wrote (weights : list (list N)).

(** src/cres.rs:181-230 [Cres::run].  Resampler and unweighter are arbitrary; [None]: panic.
    The sums at lines 204-221 are only logged but panic when an event has no weight. *)
Definition cres_run (mw : bool) (sort : sorter)
    (shuffle : list (Event N + cres_error) -> list (Event N + cres_error))
    (resample unweighter : list (Event N) -> option (list (Event N) + Err))
    (records : list (Rec + Err)) : outcome :=
  match read_events shuffle records with
  | inr err => Failed err
  | inl events =>
      let nevents := length events in
      let events := filter (fun e => negb (match ev_out e with [] => true | _ => false end)) events in
      match resample events with
      | None => Panicked
      | Some (inr err) => Failed (ResamplingErr err)
      | Some (inl events) =>
          match unweighter events with
          | None => Panicked
          | Some (inr err) => Failed (UnweightErr err)
          | Some (inl events) =>
              let events := sort _ ev_leb events in
              match omap ev_weight events with
              | None => Panicked
              | Some _ =>
                  match weights_table mw nevents events with
                  | None => Panicked
                  | Some ws => Wrote ws
                  end
              end
          end
      end
  end.

(** What the writers make of the weights of a record: src/hepmc2.rs:179,
    src/lhef.rs:157, src/stripper_xml.rs:235 copy the record verbatim when the new
    weights are empty, and replace its weights otherwise. *)
Definition written_weights (old new : list N) : list N := if weights_is_empty new then old else new.

End Cres.
Arguments treat {N Rec Err}. Arguments read_loop {N Rec Err}. Arguments read_events {N Rec Err}.
Arguments cres_run {N Rec Err}. Arguments weights_table {N}. Arguments written_weights {N}.
Arguments Panicked {N Err}. Arguments Failed {N Err}. Arguments Wrote {N Err}. Arguments ev_leb {N}.
Arguments IOErr {Err}. Arguments ConversionErr {Err}. Arguments ClusterErr {Err}.
Arguments ResamplingErr {Err}. Arguments UnweightErr {Err}. Arguments IdErr {Err}.

(** The resampler (src/resampler.rs:73-113) and the unweighters (src/unweight.rs:34-72, 75-86)
    as components of a run: they have no error ([Infallible] resp. errors of user-defined
    observers, which are not modelled). *)
Section Lib.
Context (N : NumOps) (Err : Type).

Definition lib_resample (mw : bool) sort strategy (algo : search_algo N) dist max (evs : list (Event N))
  : option (list (Event N) + Err) :=
  match resampler_resample mw sort strategy algo dist max evs with
  | Some (evs', _) => Some (inl evs')
  | None => None
  end.

Definition lib_unweight psum (m : N) draws (evs : list (Event N)) : option (list (Event N) + Err) :=
  match unweight psum m draws evs with Some (evs', _) => Some (inl evs') | None => None end.

Definition lib_no_unweight (evs : list (Event N)) : option (list (Event N) + Err) :=
  match no_unweight evs with Some evs' => Some (inl evs') | None => None end.
End Lib.
Arguments lib_resample {N Err}. Arguments lib_unweight {N Err}. Arguments lib_no_unweight {N Err}.

