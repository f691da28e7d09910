(** Model of src/cell.rs. *)
From Verif Require Import Base Num ModelEvent.

Section Cell.
Context (N : NumOps).

(** The weights of all events, in the order of the event slice.  A cell only looks at
    weights (and, through the neighbour search, at distances), never at momenta. *)
Definition weights_state := list (list N).

(** [events[i].weight()]; panics if [i] is out of range or the event has no weight *)
Definition weight_at (ws : weights_state) (i : nat) : option N :=
  match nth_error ws i with Some w => central w | None => None end.

(** src/cell.rs:12-17 [struct Cell] (the event slice is passed separately) *)
Record Cell := mkCell { members : list nat; radius : N; weight_sum : N }.

(** src/cell.rs:40-51  the loop over neighbours *)
Fixpoint cell_grow (ws : weights_state) (nbrs : list (nat * N)) (c : Cell) : option Cell :=
  match nbrs with
  | [] => Some c
  | (next_idx, dist) :: rest =>
      match weight_at ws next_idx with
      | None => None
      | Some w =>
          let sum := nadd (weight_sum c) w in
          let c' := mkCell (members c ++ [next_idx]) dist sum in
          if nleb n0 sum then Some c' else cell_grow ws rest c'
      end
  end.

(** src/cell.rs:23-58 [Cell::new].  [nbrs] is the sequence of items the neighbour
    iterator would deliver if driven to its end (the code stops asking early, which has
    no other effect).  The debug-only assertion in line 33 is [cell_new_debug_ok]. *)
Definition cell_new (ws : weights_state) (seed : nat) (nbrs : list (nat * N)) : option Cell :=
  match weight_at ws seed with
  | None => None
  | Some w => cell_grow ws nbrs (mkCell [seed] n0 w)
  end.

(** src/cell.rs:33 [debug_assert!(weight_sum < 0.)] *)
Definition cell_new_debug_ok (ws : weights_state) (seed : nat) : bool :=
  match weight_at ws seed with None => false | Some w => nltb w n0 end.

(** src/cell.rs:112-114 *)
Definition nmembers (c : Cell) : nat := length (members c).

(** src/cell.rs:117-122 *)
Definition nneg_weights (ws : weights_state) (c : Cell) : nat :=
  length (filter (fun i => match weight_at ws i with
                           | Some w => nltb w n0 | None => false end) (members c)).

(** [self.events[i].weights.read()/write()]: the weights of event [i] *)
Definition get_weights (ws : weights_state) (i : nat) : option (list N) := nth_error ws i.

(** Writing the same weights to a list of events. *)
Fixpoint write_all (ws : weights_state) (is : list nat) (w : list N) : option weights_state :=
  match is with
  | [] => Some ws
  | i :: rest =>
      match set_nth i w ws with None => None | Some ws' => write_all ws' rest w end
  end.

(** src/cell.rs:71-72: members sorted, then write-locked one after the other.  A repeated
    member would make the thread wait for itself for ever: [None]. *)
Fixpoint nodupb (l : list nat) : bool :=
  match l with
  | [] => true
  | a :: t => negb (existsb (Nat.eqb a) t) && nodupb t
  end.

(** src/cell.rs:83-85 [for idx in rest { idx.copy_from(&avg_wts) }] *)
Fixpoint copy_all (ws : weights_state) (is : list nat) (avg : list N) : option weights_state :=
  match is with
  | [] => Some ws
  | i :: rest =>
      match get_weights ws i with
      | None => None
      | Some old =>
          match weights_copy_from old avg with
          | None => None
          | Some w =>
              match set_nth i w ws with None => None | Some ws' => copy_all ws' rest avg end
          end
      end
  end.

(** src/cell.rs:68-87 [Cell::resample], feature "multiweight" *)
Definition resample_multi (ws : weights_state) (c : Cell) : option weights_state :=
  let ms := isort Nat.leb (members c) in
  if nodupb ms then
    match ms with
    | [] => None
    | first :: rest =>
        match get_weights ws first, omap (get_weights ws) rest with
        | Some w0, Some wrest =>
            match ofold weights_add wrest w0 with
            | None => None
            | Some total =>
                let inv_norm := ndiv n1 (nofnat (length ms)) in
                let avg := map (fun w => nmul w inv_norm) total in
                match copy_all ws rest avg with
                | None => None
                | Some ws' => set_nth first avg ws'
                end
            end
        | _, _ => None
        end
    end
  else None.

(** src/cell.rs:96-109 [Cell::resample], without "multiweight" *)
Definition resample_single (ws : weights_state) (c : Cell) : option weights_state :=
  let ms := isort Nat.leb (members c) in
  if nodupb ms then
    match omap (weight_at ws) ms with
    | None => None
    | Some wts =>
        let total := nsum wts in
        let avg := ndiv total (nofnat (length ms)) in
        write_all ws ms [avg]
    end
  else None.

Definition cell_resample (mw : bool) (ws : weights_state) (c : Cell) : option weights_state :=
  if mw then resample_multi ws c else resample_single ws c.

End Cell.

Arguments mkCell {N}. Arguments members {N}. Arguments radius {N}. Arguments weight_sum {N}.
Arguments weight_at {N}. Arguments cell_grow {N}. Arguments cell_new {N}.
Arguments cell_new_debug_ok {N}. Arguments nmembers {N}. Arguments nneg_weights {N}.
Arguments get_weights {N}. Arguments write_all {N}. Arguments copy_all {N}.
Arguments resample_multi {N}. Arguments resample_single {N}. Arguments cell_resample {N}.
