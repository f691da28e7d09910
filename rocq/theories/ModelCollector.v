(** The cell collector and the cell observer (src/cell_collector.rs, src/resampler.rs).
    Logging is left out.  A number drawn at random is a parameter: an arbitrary value in the
    range of the distribution it is drawn from. *)
From Verif Require Import Base Num.
Set Implicit Arguments.

(** src/cell_collector.rs:12 [NCELLS] *)
Definition NCELLS : nat := 10.

(** What the collector and the observer read of a cell: [Cell::radius],
    [Cell::weight_sum] and the ids of the events in it (src/cell.rs:111-139).  The number of
    members is the length of the latter. *)
Record CellInfo (N : NumOps) := mkCell {
  c_radius : N;
  c_weight : N;
  c_ids : list nat
}.
Arguments mkCell {N}. Arguments c_radius {N}. Arguments c_weight {N}. Arguments c_ids {N}.

(** src/cell.rs:111-114 [Cell::nmembers] *)
Definition nmembers {N} (c : CellInfo N) : nat := length (c_ids c).

Section Table.
Variable V : Type.
Variable lt : V -> V -> bool.

(** A [BTreeMap<(V, usize), Vec<usize>>] is the list of its entries by ascending key; pairs
    are compared lexicographically. *)
Definition key : Type := V * nat.
Definition table : Type := list (key * list nat).

Definition key_ltb (a b : key) : bool :=
  lt (fst a) (fst b) || (negb (lt (fst b) (fst a)) && (snd a <? snd b)).

(** [BTreeMap::insert] *)
Fixpoint bt_insert (k : key) (x : list nat) (t : table) : table :=
  match t with
  | [] => [(k, x)]
  | (k', x') :: t' =>
      if key_ltb k k' then (k, x) :: t
      else if key_ltb k' k then (k', x') :: bt_insert k x t'
      else (k', x) :: t'
  end.

(** src/cell_collector.rs:61-68 and 70-92, for one of the three maps: the first ten cells
    are inserted, afterwards a cell with a larger value than the smallest one replaces
    it.  [keys().next().unwrap()] panics on an empty map. *)
Definition collect_table (count : nat) (v : V) (ids : list nat) (t : table) : option table :=
  if count <? NCELLS then Some (bt_insert (v, count) ids t)
  else match t with
       | [] => None
       | ((smallest, _), _) :: rest =>
           if lt smallest v then Some (bt_insert (v, count) ids rest) else Some t
       end.

(** src/cell_collector.rs:209-215 [truncate]: [retain] visits the entries by ascending key *)
Definition truncate (t : table) (n : nat) : table := firstn n t.

(** src/cell_collector.rs:172-192, for one of the three maps: [extend] with the shifted
    entries of the other map, then truncate *)
Definition combine_table (shift : nat) (t other : table) : table :=
  truncate (fold_left (fun t e => bt_insert (fst (fst e), snd (fst e) + shift) (snd e) t) other t) NCELLS.
End Table.

Section Collector.
Variable N : NumOps.

(** src/cell_collector.rs:16-25 [CellCollector] *)
Record Collector := mkColl {
  co_first : list (nat * list nat);
  co_random : list (nat * list nat);
  co_radius : table N;
  co_members : table nat;
  co_weight : table N;
  co_count : nat
}.

(** src/cell_collector.rs:29-38 [CellCollector::new] *)
Definition co_new : Collector := mkColl [] [] [] [] [] 0.

(** src/cell_collector.rs:59-60 and 93-98: [idx] is the number drawn from [0..=count];
    nothing is drawn for the first ten cells. *)
Definition collect_random (count idx : nat) (ids : list nat) (random : list (nat * list nat)) : option (list (nat * list nat)) :=
  if count <? NCELLS then Some (random ++ [(count, ids)])
  else if idx <? length random then set_nth idx (count, ids) random
  else Some random.

(** src/cell_collector.rs:51-101 [CellCollector::collect] *)
Definition collect (c : Collector) (cell : CellInfo N) (idx : nat) : option Collector :=
  let count := co_count c in
  let ids := c_ids cell in
  let first := if count <? NCELLS then co_first c ++ [(count, ids)] else co_first c in
  match collect_table nltb count (c_radius cell) ids (co_radius c) with
  | None => None
  | Some radius =>
      match collect_table Nat.ltb count (nmembers cell) ids (co_members c) with
      | None => None
      | Some members =>
          match collect_table nltb count (c_weight cell) ids (co_weight c) with
          | None => None
          | Some weight =>
              match collect_random count idx ids (co_random c) with
              | None => None
              | Some random => Some (mkColl first random radius members weight (S count))
              end
          end
      end
  end.

(** src/cell_collector.rs:193-203: while there are too many randomly selected cells remove
    the one at a random position; [pick len] is the number drawn from [0..len]. *)
Fixpoint shrink (fuel : nat) (pick : nat -> nat) (l : list (nat * list nat)) : option (list (nat * list nat)) :=
  if length l <=? NCELLS then Some l
  else match fuel with
       | 0 => None (* not reached with fuel = length of the list *)
       | S f => match swap_remove (pick (length l)) l with
                | None => None
                | Some l' => shrink f pick l'
                end
       end.

(** src/cell_collector.rs:167-206 [CellCollector::combine] *)
Definition combine (c other : Collector) (pick : nat -> nat) : option Collector :=
  let random := co_random c ++ map (fun '(id, ev) => (id + co_count c, ev)) (co_random other) in
  match shrink (length random) pick random with
  | None => None
  | Some random =>
      Some (mkColl (co_first c) random
              (combine_table nltb (co_count c) (co_radius c) (co_radius other))
              (combine_table Nat.ltb (co_count c) (co_members c) (co_members other))
              (combine_table nltb (co_count c) (co_weight c) (co_weight other))
              (co_count c + co_count other))
  end.

(** src/cell_collector.rs:136-164 [CellCollector::event_cells].  The [HashMap] is the
    function from keys to entries; [] stands for no entry, as entries are never empty. *)
Definition saved_cells (c : Collector) : list (nat * list nat) :=
  co_first c ++ co_random c ++
  map (fun e => (snd (fst e), snd e)) (co_radius c) ++
  map (fun e => (snd (fst e), snd e)) (co_members c) ++
  map (fun e => (snd (fst e), snd e)) (co_weight c).
Definition push_entry (m : nat -> list nat) (k x : nat) : nat -> list nat :=
  fun k' => if Nat.eqb k' k then m k' ++ [x] else m k'.
Definition event_cells (c : Collector) : nat -> list nat :=
  fold_left (fun m '(cell, ids) => fold_left (fun m id => push_entry m id cell) ids m) (saved_cells c) (fun _ => []).

(** src/resampler.rs:365-371 [ObserverData].  The generator is replaced by the numbers
    drawn. *)
Record ObsData := mkObs {
  o_radii : list N;
  o_collector : option Collector;
  o_nneg : nat
}.

(** src/resampler.rs:396-404, part of [observe_cell]: one cell is added to the data of the
    current thread.  [draw count] is the number drawn for cell number [count]. *)
Definition observe_data (draw : nat -> nat) (d : ObsData) (cell : CellInfo N) : option ObsData :=
  let nneg := if nltb (c_weight cell) n0 then S (o_nneg d) else o_nneg d in
  let radii := o_radii d ++ [c_radius cell] in
  match o_collector d with
  | None => Some (mkObs radii None nneg)
  | Some c => match collect c cell (draw (co_count c)) with
              | None => None
              | Some c' => Some (mkObs radii (Some c') nneg)
              end
  end.

(** src/resampler.rs:430-443 [ObserverData::combine] *)
Definition combine_data (pick : nat -> nat) (d other : ObsData) : option ObsData :=
  let radii := o_radii d ++ o_radii other in
  let nneg := o_nneg d + o_nneg other in
  match o_collector d, o_collector other with
  | Some c1, Some c2 => match combine c1 c2 pick with
                        | None => None
                        | Some c => Some (mkObs radii (Some c) nneg)
                        end
  | Some c, None => Some (mkObs radii (Some c) nneg)
  | None, Some c => Some (mkObs radii (Some c) nneg)
  | None, None => Some (mkObs radii None nneg)
  end.

(** src/resampler.rs:354-357 [median_radius]; the index panics if there are no radii *)
Definition median_radius (sort : sorter) (radii : list N) : option N :=
  nth_error (sort N nleb radii) (length radii / 2).

(** One run of the observer: [observe_cell] (src/resampler.rs:385-405) was called for the
    cells [parts], grouped by the thread that made the call; a thread only has data if it
    observed a cell, and starts with a clone of [central].  [finish]
    (src/resampler.rs:407-427) then combines the data of the threads in some order (here:
    that of [parts]) and reports the number of cells, of cells with negative weight,
    and the median radius.  Without threads [central] is left as it is and nothing is
    reported.  Each thread has its own clone of the generator: [draw] are the numbers drawn
    by the threads, [pick] those drawn when combining. *)
Record report := mkRep { r_cells : nat; r_nneg : nat; r_median : N }.

Fixpoint thread_data (central : ObsData) (draw : nat -> nat -> nat) (n : nat) (parts : list (list (CellInfo N))) : option (list ObsData) :=
  match parts with
  | [] => Some []
  | p :: ps => match ofold (observe_data (draw n)) p central with
               | None => None
               | Some d => match thread_data central draw (S n) ps with
                           | None => None
                           | Some ds => Some (d :: ds)
                           end
               end
  end.

Definition run_observer (sort : sorter) (central : ObsData) (draw : nat -> nat -> nat) (pick : nat -> nat -> nat)
    (parts : list (list (CellInfo N))) : option (ObsData * option report) :=
  match thread_data central draw 0 (filter (fun p => negb (length p =? 0)) parts) with
  | None => None
  | Some [] => Some (central, None)
  | Some (d :: ds) =>
      match ofold (fun '(n, acc) d => match combine_data (pick n) acc d with
                                      | None => None
                                      | Some acc' => Some (S n, acc')
                                      end) ds (0, d) with
      | None => None
      | Some (_, res) =>
          match median_radius sort (o_radii res) with
          | None => None
          | Some m =>
              Some (mkObs (sort N nleb (o_radii res)) (o_collector res) (o_nneg res),
                    Some (mkRep (length (o_radii res)) (o_nneg res) m))
          end
      end
  end.

(** src/resampler.rs:243-272: what [DefaultResampler::resample] does with its collector:
    a new observer starts with a clone of it, and after the run its content replaces it.
    The [unwrap] panics if there is none. *)
Definition resample_collector (sort : sorter) (c : Collector) (draw : nat -> nat -> nat) (pick : nat -> nat -> nat)
    (parts : list (list (CellInfo N))) : option Collector :=
  match run_observer sort (mkObs [] (Some c) 0) draw pick parts with
  | None => None
  | Some (d, _) => o_collector d
  end.
End Collector.
Arguments mkColl {N}. Arguments co_new {N}. Arguments mkObs {N}. Arguments mkRep {N}.
