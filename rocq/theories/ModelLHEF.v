(** Model of src/lhef.rs. *)
From Verif Require Import Base Num ModelEvent ModelText ModelHepMC.

Definition lhef_event_end : text := lit "</event>".
Definition lhef_init_end : text := NL :: lit "</init>".
Definition lhef_footer : text := NL :: lit "</LesHouchesEvents>" ++ [NL].

(** src/lhef.rs:49-61 [read_raw] (an incomplete record at the end is dropped) *)
Definition lhef_read_raw (src : text) : raw :=
  match scan (S (length src)) ">" lhef_event_end [] src with
  | AtEnd _ => RawEnd
  | Found record rest => if utf8 record then RawRecord record rest else RawPanic
  end.

(** src/lhef.rs:195-211 [init_source] *)
Definition lhef_init (file : text) : text * text :=
  match scan (S (length file)) ">" lhef_init_end [] file with
  | Found header rest => (header, rest)
  | AtEnd header => (header, [])
  end.

(** src/lhef.rs:40-47 [try_new], 77-81 [rewind], 87-89 [next].  (At the end of the file [next]
    has consumed the rest of it.) *)
Definition lhef_open (file : text) : reader :=
  let '(header, source) := lhef_init file in mkReader file source header.
Definition lhef_rewind (r : reader) : reader :=
  let '(_, source) := lhef_init (rd_file r) in mkReader (rd_file r) source (rd_header r).
Definition lhef_next (r : reader) : option (option text * reader) :=
  match lhef_read_raw (rd_source r) with
  | RawPanic => None
  | RawEnd => Some (None, mkReader (rd_file r) [] (rd_header r))
  | RawRecord record rest => Some (Some record, mkReader (rd_file r) rest (rd_header r))
  end.

(** Calling [next] until it returns [None]; [None] here: a panic. *)
Fixpoint lhef_rest (fuel : nat) (r : reader) : option (list text) :=
  match fuel with
  | 0 => None
  | S fuel =>
      match lhef_next r with
      | None => None
      | Some (None, _) => Some []
      | Some (Some record, r') =>
          match lhef_rest fuel r' with Some l => Some (record :: l) | None => None end
      end
  end.
Definition lhef_records (r : reader) : option (list text) := lhef_rest (S (length (rd_source r))) r.

Section LHEF.
Context (N : NumOps) (double : parser N) (show : N -> text).

(** src/lhef.rs:317-323 *)
Definition u32_entry0 : parser BinNums.N := preceded0 u32.
Definition i32_entry0 : parser Z := preceded0 i32.

(** src/lhef.rs:248-268: one line of the particle list *)
Definition lhef_particle (line : text) (event : EventBuilder N) : res (EventBuilder N) :=
  bind (or_err (i32_entry0 line) (ParseEntry "IDUP entry")) (fun '(id, rest) =>
  bind (or_err (i32_entry rest) (ParseEntry "ISTUP entry")) (fun '(status, rest) =>
  if negb (Z.eqb status 1) then Ok event
  else
    bind (or_err (count_any 4 rest) (ParseEntry "entries before particle momentum")) (fun rest =>
    bind (or_err (double_entry double rest) (ParseEntry "px entry")) (fun '(px, rest) =>
    bind (or_err (double_entry double rest) (ParseEntry "py entry")) (fun '(py, rest) =>
    bind (or_err (double_entry double rest) (ParseEntry "py entry")) (fun '(pz, rest) =>
    bind (or_err (double_entry double rest) (ParseEntry "energy entry")) (fun '(e, _) =>
    Ok (add_outgoing event id (fv_from e px py pz))))))))).

(** src/lhef.rs:247-269: the loop *)
Fixpoint lhef_particles (ls : list text) (event : EventBuilder N) : res (EventBuilder N) :=
  match ls with
  | [] => Ok event
  | line :: ls => bind (lhef_particle line event) (lhef_particles ls)
  end.

(** src/lhef.rs:225-272 [parse_lhef].  For less than two particles [nparticles - 2] panics in
    debug builds; in release builds it wraps around and reserving that capacity panics. *)
Definition parse_lhef (mw : bool) (sort : sorter) (record : text) : res (Event N) :=
  let record := trim_start record in
  bind (or_err (find [NL] record) (FindEntry "line break")) (fun line_end =>
  let record := skipn (1 + line_end) record in
  bind (or_err (u32_entry0 record) (ParseEntry "NUP entry")) (fun '(nup, rest) =>
  let nparticles := N.to_nat nup in
  if nparticles <? 2 then Panic
  else
    bind (or_err (any_entry rest) (ParseEntry "IDRUP entry")) (fun '(_, rest) =>
    bind (or_err (double_entry double rest) (ParseEntry "XWGTUP entry")) (fun '(wt, rest) =>
    bind (lhef_particles (firstn nparticles (skipn 1 (lines rest))) (add_weight mw (builder_new mw) wt)) (fun event =>
    Ok (build sort event)))))).

(** src/lhef.rs:307-315 [non_weight_entries]: what remains; the outer [None] is the panic of
    [find('\n').unwrap()] *)
Definition lhef_non_weight_entries (record : text) : option (option text) :=
  let record := trim_start record in
  match find [NL] record with
  | None => None
  | Some line_end =>
      Some (match preceded0 non_space (skipn (line_end + 1) record) with
            | None => None
            | Some (_, rest) =>
                match any_entry rest with Some (_, rest) => Some rest | None => None end
            end)
  end.

(** src/lhef.rs:140-175 [update_next_weights_helper], for one record that was read *)
Definition lhef_update (mw : bool) (weights : list N) (record : text) : res text :=
  if weights_is_empty weights then Ok record
  else
    match lhef_non_weight_entries record with
    | None => Panic
    | Some o =>
        bind (or_err o (ParseEntry "entries before weight")) (fun rest =>
        let weights_start := length record - length rest in
        match central weights with
        | None => Panic
        | Some w =>
            bind (update_central_weight show record weights_start w) (fun record =>
            if mw && (1 <? length weights) then Panic (* unimplemented!() *) else Ok record)
        end)
    end.

(** src/lhef.rs:278-290 [update_all_weights], after [rewind] *)
Fixpoint lhef_update_loop (mw : bool) (weights : list (list N)) (src out : text) (n : nat) : res (text * nat) :=
  match weights with
  | [] => Ok (out ++ lhef_footer, n)
  | w :: weights =>
      match lhef_read_raw src with
      | RawPanic => Panic
      | RawEnd => Ok (out, n)
      | RawRecord record rest =>
          bind (lhef_update mw w record) (fun record =>
          lhef_update_loop mw weights rest (out ++ record) (S n))
      end
  end.

(** src/lhef.rs:102-124 [FileIO::try_new] writes the header; then [update_all_weights] *)
Definition lhef_rewrite (mw : bool) (weights : list (list N)) (file : text) : res (text * nat) :=
  let r := lhef_rewind (lhef_open file) in
  lhef_update_loop mw weights (rd_source r) (rd_header r) 0.
End LHEF.
Arguments lhef_particle {N}. Arguments lhef_particles {N}. Arguments parse_lhef {N}. Arguments lhef_update {N}.
Arguments lhef_update_loop {N}. Arguments lhef_rewrite {N}.
