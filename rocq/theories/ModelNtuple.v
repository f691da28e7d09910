(** Model of src/ntuple.rs.  The crate ntuple (reading and writing ROOT files) is not part of the
    repository: a file is a list of events; reading and writing succeed. *)
From Coq Require Import ZArith.
From Verif Require Import Base Num ModelEvent ModelText.
Open Scope list_scope.

Section Ntuple.
(** [Other]: the fields of [ntuple::Event] that the code does not use *)
Context (N : NumOps) (Other : Type).

(** [ntuple::Event].  Simplification: energies and momenta, [f32] in the record, are represented by
    their values as [f64]. *)
Record ntuple_event := mkNtuple {
  nt_nparticle : Z;
  nt_pdg : list Z;
  nt_energy : list N; nt_px : list N; nt_py : list N; nt_pz : list N;
  nt_weight : N; nt_weight2 : N; nt_me : N; nt_me2 : N;
  nt_other : Other
}.

(** [weight_names.iter().any(|w| w == name)] *)
Definition has_name (names : list text) (name : text) : bool :=
  existsb (fun w => if list_eq_dec ascii_dec w name then true else false) names.

(** src/ntuple.rs:174-181: the loop over particles, from [i]; [None]: index out of range *)
Fixpoint nt_particles (r : ntuple_event) (i n : nat) (b : EventBuilder N) : option (EventBuilder N) :=
  match n with
  | 0 => Some b
  | S n =>
      match nth_error (nt_pdg r) i, nth_error (nt_energy r) i, nth_error (nt_px r) i, nth_error (nt_py r) i, nth_error (nt_pz r) i with
      | Some id, Some e, Some px, Some py, Some pz => nt_particles r (S i) n (add_outgoing b id (fv_from e px py pz))
      | _, _, _, _, _ => None
      end
  end.

(** src/ntuple.rs:157-184 [convert_ntuple].  [None]: a panic.  A negative number of particles becomes
    at least 2^63 as [usize], for which [with_capacity] panics. *)
Definition convert_ntuple (mw : bool) (sort : sorter) (names : list text) (r : ntuple_event) : option (Event N) :=
  if (nt_nparticle r <? 0)%Z then None
  else
    let b := add_weight mw (builder_new mw) (nt_weight r) in
    let b :=
      if mw then
        let b := if has_name names (lit "2") then add_weight mw b (nt_weight2 r) else b in
        let b := if has_name names (lit "ME") then add_weight mw b (nt_me r) else b in
        if has_name names (lit "ME2") then add_weight mw b (nt_me2 r) else b
      else b in
    match nt_particles r 0 (Z.to_nat (nt_nparticle r)) b with
    | Some b => Some (build sort b)
    | None => None
    end.

(** src/ntuple.rs:211-229: new weights for a record; [None]: [unwrap] panics *)
Definition set_weight (r : ntuple_event) (w : N) : ntuple_event :=
  mkNtuple (nt_nparticle r) (nt_pdg r) (nt_energy r) (nt_px r) (nt_py r) (nt_pz r) w (nt_weight2 r) (nt_me r) (nt_me2 r) (nt_other r).
Definition set_weight2 (r : ntuple_event) (w : N) : ntuple_event :=
  mkNtuple (nt_nparticle r) (nt_pdg r) (nt_energy r) (nt_px r) (nt_py r) (nt_pz r) (nt_weight r) w (nt_me r) (nt_me2 r) (nt_other r).
Definition set_me (r : ntuple_event) (w : N) : ntuple_event :=
  mkNtuple (nt_nparticle r) (nt_pdg r) (nt_energy r) (nt_px r) (nt_py r) (nt_pz r) (nt_weight r) (nt_weight2 r) w (nt_me2 r) (nt_other r).
Definition set_me2 (r : ntuple_event) (w : N) : ntuple_event :=
  mkNtuple (nt_nparticle r) (nt_pdg r) (nt_energy r) (nt_px r) (nt_py r) (nt_pz r) (nt_weight r) (nt_weight2 r) (nt_me r) w (nt_other r).
Definition next_weight (selected : bool) (set : ntuple_event -> N -> ntuple_event) (rw : ntuple_event * list N)
    : option (ntuple_event * list N) :=
  if selected then match snd rw with w :: ws => Some (set (fst rw) w, ws) | [] => None end else Some rw.
Definition ntuple_update (mw : bool) (names : list text) (weights : list N) (r : ntuple_event) : option ntuple_event :=
  match weights with
  | [] => Some r
  | w :: ws =>
      let r := set_weight r w in
      if mw then
        match next_weight (has_name names (lit "2")) set_weight2 (r, ws) with
        | None => None
        | Some rw =>
            match next_weight (has_name names (lit "ME")) set_me rw with
            | None => None
            | Some rw => match next_weight (has_name names (lit "ME2")) set_me2 rw with None => None | Some rw => Some (fst rw) end
            end
        end
      else Some r
  end.

(** src/ntuple.rs:76-82 [FileIO]: all events, the ones not read yet, the ones written *)
Record nt_io := mkNtIO { io_events : list ntuple_event; io_rest : list ntuple_event; io_out : list ntuple_event }.
(** src/ntuple.rs:85-101 [try_new] *)
Definition nt_open (events : list ntuple_event) : nt_io := mkNtIO events events [].
(** src/ntuple.rs:51-58 and 121-126 [rewind]; the writer goes on where it was *)
Definition nt_rewind (s : nt_io) : nt_io := mkNtIO (io_events s) (io_events s) (io_out s).
(** src/ntuple.rs:128-134 [next] *)
Definition nt_next (s : nt_io) : option ntuple_event * nt_io :=
  match io_rest s with
  | [] => (None, s)
  | r :: rest => (Some r, mkNtIO (io_events s) rest (io_out s))
  end.

(** src/ntuple.rs:202-232 [update_next_weights] *)
Definition nt_update_next (mw : bool) (names : list text) (weights : list N) (s : nt_io) : option (bool * nt_io) :=
  match nt_next s with
  | (None, s) => Some (false, s)
  | (Some r, s) =>
      match ntuple_update mw names weights r with
      | None => None
      | Some r => Some (true, mkNtIO (io_events s) (io_rest s) (io_out s ++ [r]))
      end
  end.

(** src/ntuple.rs:196-199: the loop.  [weights[nevent]] panics if out of range.  [fuel]: one round per
    event and a last one *)
Fixpoint nt_update_loop (fuel : nat) (mw : bool) (names : list text) (weights : list (list N)) (nevent : nat) (s : nt_io)
    : option (nat * nt_io) :=
  match nth_error weights nevent with
  | None => None
  | Some w =>
      match nt_update_next mw names w s with
      | None => None
      | Some (false, s) => Some (nevent, s)
      | Some (true, s) => match fuel with 0 => None | S fuel => nt_update_loop fuel mw names weights (S nevent) s end
      end
  end.
(** src/ntuple.rs:190-200 [update_all_weights] *)
Definition nt_update_all (mw : bool) (names : list text) (weights : list (list N)) (s : nt_io) : option (nat * nt_io) :=
  let s := nt_rewind s in nt_update_loop (length (io_rest s)) mw names weights 0 s.

(** src/io.rs:607-613: the loop of [CombinedFileIO::update_all_weights] for a file of this format; the weights that are left *)
Fixpoint nt_combined_loop (mw : bool) (names : list text) (weights : list (list N)) (s : nt_io) : option (list (list N) * nt_io) :=
  match weights with
  | [] => Some ([], s)
  | w :: rest =>
      match nt_update_next mw names w s with
      | None => None
      | Some (false, s) => Some (weights, s)
      | Some (true, s) => nt_combined_loop mw names rest s
      end
  end.
End Ntuple.
Arguments mkNtuple {N Other}. Arguments nt_nparticle {N Other}. Arguments nt_pdg {N Other}. Arguments nt_energy {N Other}.
Arguments nt_px {N Other}. Arguments nt_py {N Other}. Arguments nt_pz {N Other}. Arguments nt_weight {N Other}. Arguments nt_weight2 {N Other}.
Arguments nt_me {N Other}. Arguments nt_me2 {N Other}. Arguments nt_other {N Other}. Arguments convert_ntuple {N Other}.
Arguments nt_particles {N Other}. Arguments ntuple_update {N Other}. Arguments mkNtIO {N Other}. Arguments io_events {N Other}.
Arguments io_rest {N Other}. Arguments io_out {N Other}. Arguments nt_open {N Other}. Arguments nt_rewind {N Other}. Arguments nt_next {N Other}.
Arguments nt_update_next {N Other}. Arguments nt_update_loop {N Other}. Arguments nt_update_all {N Other}. Arguments nt_combined_loop {N Other}.
Arguments next_weight {N Other}. Arguments set_weight {N Other}. Arguments set_weight2 {N Other}. Arguments set_me {N Other}. Arguments set_me2 {N Other}.
