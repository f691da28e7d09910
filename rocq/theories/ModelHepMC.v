(** Model of src/hepmc2.rs. *)
From Verif Require Import Base Num ModelEvent ModelText.

(** *** Reading *)
Definition event_mark : text := [NL; "E"%char].

(** [String::from_utf8(..).unwrap()]. *)
Inductive raw := RawEnd | RawRecord (record rest : text) | RawPanic.

(** src/hepmc2.rs:43-66 [read_raw]: the next record and what remains of the file.  ([while
    !ends_with] starts with a record that does not end with the marker.) *)
Definition hepmc_read_raw (src : text) : raw :=
  match scan (S (length src)) "E" event_mark ["E"%char] src with
  | AtEnd record =>
      if 1 <? length record then if utf8 record then RawRecord record [] else RawPanic
      else RawEnd
  | Found record rest =>
      let record := removelast record in
      if utf8 record then RawRecord record rest else RawPanic
  end.

(** src/hepmc2.rs:97-114 [init_source]: header and what remains *)
Definition hepmc_init (file : text) : text * text :=
  match scan (S (length file)) "E" event_mark [] file with
  | Found header rest => (removelast header, rest)
  | AtEnd header => (removelast header, [])
  end.

(** src/hepmc2.rs:26-30 [FileReader]; the path is represented by the content of the file *)
Record reader := mkReader { rd_file : text; rd_source : text; rd_header : text }.

(** src/hepmc2.rs:34-41 [try_new] *)
Definition hepmc_open (file : text) : reader :=
  let '(header, source) := hepmc_init file in mkReader file source header.

(** src/hepmc2.rs:79-87 [rewind] *)
Definition hepmc_rewind (r : reader) : reader :=
  let '(_, source) := hepmc_init (rd_file r) in mkReader (rd_file r) source (rd_header r).

(** src/hepmc2.rs:89-95 [next]: [None] panic, otherwise the record, if any, and the new state *)
Definition hepmc_next (r : reader) : option (option text * reader) :=
  match hepmc_read_raw (rd_source r) with
  | RawPanic => None
  | RawEnd => Some (None, mkReader (rd_file r) [] (rd_header r))
  | RawRecord record rest => Some (Some record, mkReader (rd_file r) rest (rd_header r))
  end.

(** Calling [next] until it returns [None]; [None] here: a panic (or out of fuel, which does not
    happen with one more than the number of bytes left). *)
Fixpoint hepmc_rest (fuel : nat) (r : reader) : option (list text) :=
  match fuel with
  | 0 => None
  | S fuel =>
      match hepmc_next r with
      | None => None
      | Some (None, _) => Some []
      | Some (Some record, r') =>
          match hepmc_rest fuel r' with Some l => Some (record :: l) | None => None end
      end
  end.
Definition hepmc_records (r : reader) : option (list text) :=
  hepmc_rest (S (length (rd_source r))) r.

Section HepMC.
Context (N : NumOps).
(** nom [number::complete::double], and [to_string] of a number: not modelled further *)
Context (double : parser N) (show : N -> text).

(** src/parsing.rs:9-11 *)
Definition double_entry : parser N := preceded1 double.

(** src/hepmc2.rs:511-520 [non_weight_entries], given a line that starts with 'E': what remains *)
Definition non_weight_entries (line : text) : option text :=
  match count_any 10 (tl line) with
  | None => None
  | Some rest =>
      match u32_entry rest with
      | None => None
      | Some (nrandom, rest) => count_any (N.to_nat nrandom) rest
      end
  end.

Definition starts_with_E (t : text) : bool := match t with c :: _ => ceq c "E" | [] => false end.

(** src/hepmc2.rs:438-467 [extract_weights]: central weight, all weights, rest *)
Definition extract_weights (mw : bool) (record : text) : res (N * list N * text) :=
  if negb (starts_with_E record) then Err (UnrecognisedEntry "start of record")
  else
    bind (or_err (non_weight_entries record) (ParseEntry "entries before weight")) (fun rest =>
    bind (or_err (u32_entry rest) (ParseEntry "number of weights entry")) (fun '(nweights, rest) =>
    if mw then
      bind (or_err (count double_entry (N.to_nat nweights) rest) (ParseEntry "event weight entries")) (fun '(weights, rest) =>
      match weights with
      | [] => Panic          (* weights[0] *)
      | w :: _ => Ok (w, weights, rest)
      end)
    else
      bind (or_err (double_entry rest) (ParseEntry "event weight entry")) (fun '(w, rest) => Ok (w, [], rest)))).

Inductive energy_unit := MeV | GeV.

(** src/hepmc2.rs:385-404 [parse_units_line], for a line that starts with 'U' *)
Definition parse_units_line (record : text) : res (energy_unit * text) :=
  bind (or_err (any_entry (tl record)) (ParseEntry "energy unit entry")) (fun '(energy, rest) =>
  if list_eq_dec ascii_dec energy (lit "GEV") then Ok (GeV, rest)
  else if list_eq_dec ascii_dec energy (lit "MEV") then Ok (MeV, rest)
  else Err (InvalidEntry "energy unit entry")).

(** src/hepmc2.rs:406-436 [parse_particle_line], for a line that starts with 'P' *)
Definition parse_particle_line (record : text) (event : EventBuilder N) : res (EventBuilder N * text) :=
  bind (or_err (any_entry (tl record)) (ParseEntry "barcode entry")) (fun '(_, rest) =>
  bind (or_err (i32_entry rest) (ParseEntry "particle id entry")) (fun '(id, rest) =>
  bind (or_err (double_entry rest) (ParseEntry "px entry")) (fun '(px, rest) =>
  bind (or_err (double_entry rest) (ParseEntry "py entry")) (fun '(py, rest) =>
  bind (or_err (double_entry rest) (ParseEntry "pz entry")) (fun '(pz, rest) =>
  bind (or_err (double_entry rest) (ParseEntry "energy entry")) (fun '(e, rest) =>
  bind (or_err (any_entry rest) (ParseEntry "mass entry")) (fun '(_, rest) =>
  bind (or_err (i32_entry rest) (ParseEntry "particle status entry")) (fun '(status, rest) =>
  if negb (Z.eqb status 1) then Ok (event, rest)
  else Ok (add_outgoing event id (fv_from e px py pz), rest))))))))).

(** src/hepmc2.rs:523-536 [string_entry] *)
Definition string_entry : parser text := preceded1 quoted.

Definition is_name (names : list text) (name : text) : bool :=
  existsb (fun n => if list_eq_dec ascii_dec n name then true else false) names.

(** src/hepmc2.rs:494-502: the loop over the weights of the line; [seen] are the names found *)
Fixpoint names_loop (names : list text) (weights : list N) (record : text) (seen : list text) (event : EventBuilder N)
  : res (text * list text * EventBuilder N) :=
  match weights with
  | [] => Ok (record, seen, event)
  | w :: weights =>
      bind (or_err (string_entry record) (ParseEntry "weight name entry")) (fun '(name, record) =>
      if is_name names name then names_loop names weights record (name :: seen) (add_weight true event w)
      else names_loop names weights record seen event)
  end.

(** src/hepmc2.rs:470-509 [parse_weight_names_line] ("multiweight" only), for a line that
    starts with 'N'.  Which of several missing names is reported is not specified by the code
    (iteration over a [HashMap]); here the first. *)
Definition parse_weight_names_line (names : list text) (record : text) (weights : list N) (event : EventBuilder N)
  : res (EventBuilder N * text) :=
  match names with
  | [] => Ok (event, record)
  | _ =>
      bind (or_err (u32_entry (tl record)) (ParseEntry "number of weight names entry")) (fun '(nnames, record) =>
      bind (names_loop names (firstn (N.to_nat nnames) weights) record [] event) (fun '(record, seen, event) =>
      match List.find (fun n => negb (is_name seen n)) names with
      | Some missing => Err (FindWeight missing)
      | None => Ok (event, record)
      end))
  end.

(** src/hepmc2.rs:283-309: the loop over the lines.  Every round consumes a line break: the
    length of the record suffices as [fuel]. *)
Fixpoint parse_lines (fuel : nat) (mw : bool) (names : list text) (weights : list N) (record : text)
    (unit : energy_unit) (event : EventBuilder N) : res (energy_unit * EventBuilder N) :=
  match find [NL] record with
  | None => Ok (unit, event)
  | Some pos =>
      match fuel with
      | 0 => Panic (* not reached *)
      | S fuel =>
          let record := skipn (pos + 1) record in
          match record with
          | c :: _ =>
              if ceq c "V" || ceq c "F" || ceq c "H" || ceq c "C" || (negb mw && ceq c "N") then
                parse_lines fuel mw names weights record unit event
              else if ceq c "N" then
                bind (parse_weight_names_line names record weights event) (fun '(event, record) =>
                parse_lines fuel mw names weights record unit event)
              else if ceq c "P" then
                bind (parse_particle_line record event) (fun '(event, record) =>
                parse_lines fuel mw names weights record unit event)
              else if ceq c "U" then
                bind (parse_units_line record) (fun '(unit, record) =>
                parse_lines fuel mw names weights record unit event)
              else if forallb is_white record then parse_lines fuel mw names weights record unit event
              else Err (UnrecognisedEntry "start")
          | [] => parse_lines fuel mw names weights record unit event
          end
      end
  end.

(** The literal 1e-3 (src/hepmc2.rs:313): correctly rounded, as is the quotient *)
Definition milli : N := ndiv n1 (nofnat 1000).

(** src/hepmc2.rs:270-317 [parse_hepmc] *)
Definition parse_hepmc (mw : bool) (sort : sorter) (names : list text) (record : text) : res (Event N) :=
  bind (extract_weights mw record) (fun '(weight, weights, rest) =>
  bind (parse_lines (length rest) mw names weights rest GeV (add_weight mw (builder_new mw) weight)) (fun '(unit, event) =>
  Ok (build sort (match unit with GeV => event | MeV => rescale_energies event milli end)))).

(** *** Writing *)

(** src/hepmc2.rs:368-383 [update_central_weight] *)
Definition update_central_weight (record : text) (entry_pos : nat) (weight : N) : res text :=
  bind (or_err (any_entry (skipn entry_pos record)) (ParseEntry "central weight entry")) (fun '(_, after_entry) =>
  replace_range record (entry_pos + 1) (length record - length after_entry) (show weight)).

(** src/hepmc2.rs:341-350: positions of the wanted names among the next [n] names *)
Fixpoint name_positions (names : list text) (n : nat) (nentry : nat) (rest : text) : res (list nat) :=
  match n with
  | 0 => Ok []
  | S n =>
      bind (or_err (string_entry rest) (ParseEntry "weight name entry")) (fun '(name, rest) =>
      bind (name_positions names n (S nentry) rest) (fun ps =>
      Ok (if is_name names name then nentry :: ps else ps)))
  end.

(** src/hepmc2.rs:358-360: the loop over positions and weights *)
Fixpoint set_entries (entries : list text) (pos : list nat) (weights : list N) : res (list text) :=
  match pos, weights with
  | p :: pos, w :: weights =>
      match set_nth p (show w) entries with
      | Some entries => set_entries entries pos weights
      | None => Panic
      end
  | _, _ => Ok entries
  end.

(** src/hepmc2.rs:314-366 [update_named_weights] ("multiweight" only) *)
Definition update_named_weights (record : text) (weights_start nweights : nat) (names : list text) (weights : list N) : res text :=
  if negb (length weights =? length names + 1) then Panic
  else match names with
  | [] => Ok record
  | _ =>
      bind (or_err (find [NL; "N"%char] record) (FindEntry "weight name entry (line starting with 'N')")) (fun start =>
      bind (or_err (u32_entry (skipn (start + 2) record)) (ParseEntry "number of weight names entry")) (fun '(nnames, rest) =>
      bind (name_positions names (N.to_nat nnames) 0 rest) (fun weight_pos =>
      bind (set_entries (firstn nweights (words (skipn weights_start record))) weight_pos (skipn 1 weights)) (fun entries =>
      let start := weights_start + 1 in
      match find [NL] (skipn start record) with
      | None => Panic
      | Some line_end => replace_range record start (start + line_end) (join [SP] entries)
      end))))
  end.

(** src/hepmc2.rs:162-207 [update_next_weights_helper], for one record that was read *)
Definition hepmc_update (mw : bool) (names : list text) (weights : list N) (record : text) : res text :=
  if weights_is_empty weights then Ok record
  else
    bind (or_err (non_weight_entries record) (ParseEntry "entries before weight")) (fun weight_entries =>
    bind (or_err (u32_entry weight_entries) (ParseEntry "number of weights entry")) (fun '(nweights, rest) =>
    let weights_start := length record - length rest in
    match central weights with
    | None => Panic
    | Some w =>
        bind (update_central_weight record weights_start w) (fun record =>
        if mw then update_named_weights record weights_start (N.to_nat nweights) names weights
        else Ok record)
    end)).

(** src/hepmc2.rs:229-240 [update_all_weights]: the loop, after [rewind]; [out] was written so
    far.  The result is what was written in total and the number of events. *)
Fixpoint hepmc_update_loop (mw : bool) (names : list text) (weights : list (list N)) (src out : text) (n : nat)
  : res (text * nat) :=
  match weights with
  | [] => Ok (out, n)
  | w :: weights =>
      match hepmc_read_raw src with
      | RawPanic => Panic
      | RawEnd => Ok (out, n)
      | RawRecord record rest =>
          bind (hepmc_update mw names w record) (fun record =>
          hepmc_update_loop mw names weights rest (out ++ record) (S n))
      end
  end.

(** src/hepmc2.rs:126-146 [FileIO::try_new] writes the header; then [update_all_weights] *)
Definition hepmc_rewrite (mw : bool) (names : list text) (weights : list (list N)) (file : text) : res (text * nat) :=
  let r := hepmc_rewind (hepmc_open file) in
  hepmc_update_loop mw names weights (rd_source r) (rd_header r) 0.
End HepMC.
Arguments double_entry {N}. Arguments extract_weights {N}. Arguments parse_particle_line {N}. Arguments names_loop {N}.
Arguments parse_weight_names_line {N}. Arguments parse_lines {N}. Arguments milli {N}. Arguments parse_hepmc {N}.
Arguments update_central_weight {N}. Arguments set_entries {N}. Arguments update_named_weights {N}.
Arguments hepmc_update {N}. Arguments hepmc_update_loop {N}. Arguments hepmc_rewrite {N}.
