(** Model of src/io.rs: format detection, [FileIO] and [CombinedFileIO].

    Files are represented by their (decompressed) contents; an output file by what was written to
    it since it was created last.  It is assumed that the paths of all input and output files are
    different and that opening, creating and writing files succeeds.  Not modelled: ROOT ntuples,
    compression, the XML parser for the STRIPPER XML header (its result is a parameter), the
    progress bar. *)
From Verif Require Import Base Num ModelEvent ModelText ModelHepMC ModelLHEF ModelStripper.

(** src/formats.rs:3-16 [FileFormat] *)
Inductive format := HepMC2 | Lhef | BlackHatNtuple | StripperXml.

(** [u8::is_ascii_whitespace] *)
Definition is_ascii_ws (c : ascii) : bool :=
  ceq c SP || ceq c TAB || ceq c NL || ceq c "012" || ceq c CR.

(** src/util.rs:3-9 [trim_ascii_start] *)
Definition trim_ascii_start (t : text) : text := snd (span is_ascii_ws t).

Definition starts_with (p t : text) : bool := match strip_prefix p t with Some _ => true | None => false end.

(** src/io.rs:250-281 [detect_event_file_format], all formats enabled.  The first call of
    [fill_buf] is taken to return the whole file; it returns at least the bytes that matter
    unless they are preceded by a buffer full of whitespace. *)
Definition detect_event_file_format (bytes : text) : format :=
  if starts_with (lit "root") bytes then BlackHatNtuple
  else if starts_with (lit "<?xml") (trim_ascii_start bytes) then StripperXml
  else if starts_with (lit "<LesHouchesEvents") bytes then Lhef
  else HepMC2.

Section IO.
Context (N : NumOps) (double : parser N) (show : N -> text).
(** name and number of subevents in the tag [Eventrecord] of a header, src/stripper_xml.rs:337-436
    [extract_xml_info]; [None]: an error *)
Context (xml_info : text -> option (text * BinNums.N)).
(** overflow checks, feature "multiweight"; names of weights and scale factors in [IOBuilder] *)
Context (checks mw : bool) (names : list text) (scaling : list (text * N)).

(** src/io.rs:105 [FileIO]: one of the formats *)
Inductive fio := IOHepMC (r : reader) | IOLhef (r : reader) | IOStripper (r : sreader) (scale : N).

Definition lookup_scale (name : text) : option N :=
  match List.find (fun '(n, _) => if list_eq_dec ascii_dec n name then true else false) scaling with
  | Some (_, x) => Some x
  | None => None
  end.

(** src/io.rs:152-205 [build_from_files]; for STRIPPER XML src/stripper_xml.rs:47-63 and 143-177 *)
Definition build_from_files (file : text) : res fio :=
  match detect_event_file_format file with
  | HepMC2 => Ok (IOHepMC (hepmc_open file))
  | Lhef => Ok (IOLhef (lhef_open file))
  | BlackHatNtuple => Err (InvalidEntry "ROOT")            (* not modelled *)
  | StripperXml =>
      match stripper_init checks file with
      | None => Panic
      | Some (header, source) =>
          match xml_info header with
          | None => Err (InvalidEntry "XML")
          | Some (name, nsubevents) =>
              match lookup_scale name with
              | None => Err (InvalidEntry "MissingScaling")
              | Some scale => Ok (IOStripper (mkSReader file source nsubevents header) scale)
              end
          end
      end
  end.

(** what [try_new] writes to the output file *)
Definition fio_header (f : fio) : text :=
  match f with IOHepMC r | IOLhef r => rd_header r | IOStripper r _ => sr_header r end.

(** [Iterator::next] of [FileIO]: src/hepmc2.rs:217-223, src/lhef.rs:187-193,
    src/stripper_xml.rs:268-282 *)
Inductive step (S : Type) := Finished (s : S) | Item (record : text) (s : S) | Failed (e : read_error) (s : S) | Panicked.
Arguments Finished {S}. Arguments Item {S}. Arguments Failed {S}. Arguments Panicked {S}.
Definition fio_next (f : fio) : step fio :=
  match f with
  | IOHepMC r =>
      match hepmc_next r with
      | None => Panicked | Some (None, r) => Finished (IOHepMC r) | Some (Some record, r) => Item record (IOHepMC r)
      end
  | IOLhef r =>
      match lhef_next r with
      | None => Panicked | Some (None, r) => Finished (IOLhef r) | Some (Some record, r) => Item record (IOLhef r)
      end
  | IOStripper r scale =>
      match stripper_read_raw checks r with
      | SPanic => Panicked
      | SEnd => Finished (IOStripper (mkSReader (sr_file r) [] (sr_rem r) (sr_header r)) scale)
      | SUtf8Error r => Failed (InvalidEntry "utf8") (IOStripper r scale)
      | SRecord record r =>
          match rescale_weight double show scale record with
          | Ok record => Item record (IOStripper r scale)
          | Err e => Failed e (IOStripper r scale)
          | Panic => Panicked
          end
      end
  end.

(** [update_next_weights]: what is written ([None] for the result [Ok(false)]), and the new state *)
Definition fio_update (weights : list N) (f : fio) : res (option text * fio) :=
  match f with
  | IOHepMC r =>
      match hepmc_next r with
      | None => Panic
      | Some (None, r) => Ok (None, IOHepMC r)
      | Some (Some record, r) => bind (hepmc_update show mw names weights record) (fun t => Ok (Some t, IOHepMC r))
      end
  | IOLhef r =>
      match lhef_next r with
      | None => Panic
      | Some (None, r) => Ok (None, IOLhef r)
      | Some (Some record, r) => bind (lhef_update show mw weights record) (fun t => Ok (Some t, IOLhef r))
      end
  | IOStripper r scale =>
      match stripper_read_raw checks r with
      | SPanic => Panic
      | SEnd => Ok (None, IOStripper (mkSReader (sr_file r) [] (sr_rem r) (sr_header r)) scale)
      | SUtf8Error r => Err (InvalidEntry "utf8")
      | SRecord record r => bind (stripper_update double show mw scale weights record) (fun t => Ok (Some t, IOStripper r scale))
      end
  end.

(** [finish_weight_update]: only LHEF writes something, src/lhef.rs:300-304 *)
Definition fio_finish (f : fio) : text := match f with IOLhef _ => lhef_footer | _ => [] end.

(** src/stripper_xml.rs:284-286 [size_hint]; the default of [Iterator] for the other formats *)
Definition fio_size_hint (f : fio) : BinNums.N * option BinNums.N :=
  match f with IOStripper r _ => (sr_rem r, Some (sr_rem r)) | _ => (0%N, None) end.

(** src/io.rs:472-480 [CombinedFileIO], with the contents of the output files *)
Record cio := mkCIO {
  c_files : list text;
  c_current : option fio;
  c_idx : nat;
  c_nread : nat;
  c_hint : BinNums.N * option BinNums.N;
  c_outs : list text }.

(** src/io.rs:499-516 [open].  An index out of range panics. *)
Definition cio_open (idx : nat) (s : cio) : res cio :=
  match nth_error (c_files s) idx with
  | None => Panic
  | Some file =>
      bind (build_from_files file) (fun f =>
      match set_nth idx (fio_header f) (c_outs s) with
      | Some outs => Ok (mkCIO (c_files s) (Some f) idx (c_nread s) (c_hint s) outs)
      | None => Panic                          (* not reached: as many outputs as inputs *)
      end)
  end.

(** src/io.rs:534-544 [combine_size_hints] *)
Definition combine_size_hints (h g : BinNums.N * option BinNums.N) : BinNums.N * option BinNums.N :=
  ((fst h + fst g)%N, match snd h, snd g with Some h, Some g => Some (h + g)%N | _, _ => None end).

(** src/io.rs:518-531 [init] *)
Fixpoint cio_init_loop (idx n : nat) (s : cio) : res cio :=
  match n with
  | 0 => Ok s
  | S n =>
      bind (cio_open idx s) (fun s =>
      match c_current s with
      | None => Panic
      | Some f => cio_init_loop (S idx) n
          (mkCIO (c_files s) (c_current s) (c_idx s) (c_nread s) (combine_size_hints (c_hint s) (fio_size_hint f)) (c_outs s))
      end)
  end.
Definition cio_init (s : cio) : res cio :=
  if length (c_files s) =? 0 then Ok s
  else bind (cio_init_loop 0 (length (c_files s)) s) (cio_open 0).

(** src/io.rs:483-497 [new] *)
Definition cio_new (files : list text) : res cio :=
  cio_init (mkCIO files None 0 0 (0%N, Some 0%N) (repeat [] (length files))).

(** src/io.rs:546-554 [rewind] *)
Definition cio_rewind (s : cio) : cio := mkCIO (c_files s) None (c_idx s) 0 (c_hint s) (c_outs s).

(** src/io.rs:559-582 [next].  [fuel] bounds the recursion; each call but the first opens another
    file.  If opening a file fails, the state is unchanged (its output file may have been
    emptied). *)
Fixpoint cio_next (fuel : nat) (s : cio) : step cio :=
  let opened idx :=
    match fuel with
    | 0 => Panicked                            (* not reached *)
    | S fuel =>
        match cio_open idx s with
        | Ok s => cio_next fuel s
        | Err e => Failed e s
        | Panic => Panicked
        end
    end in
  match c_current s with
  | Some f =>
      let with_ f n := mkCIO (c_files s) (Some f) (c_idx s) n (c_hint s) (c_outs s) in
      match fio_next f with
      | Panicked => Panicked
      | Item record f => Item record (with_ f (S (c_nread s)))
      | Failed e f => Failed e (with_ f (S (c_nread s)))
      | Finished f =>
          if c_idx s + 1 =? length (c_files s) then Finished (with_ f (c_nread s))
          else opened (c_idx s + 1)
      end
  | None => if length (c_files s) =? 0 then Finished s else opened 0
  end.
(** enough fuel: every file is opened at most once *)
Definition cio_fuel (s : cio) : nat := S (length (c_files s)).

(** src/io.rs:584-591 [size_hint] *)
Definition cio_size_hint (s : cio) : BinNums.N * option BinNums.N :=
  ((fst (c_hint s) - N.of_nat (c_nread s))%N, option_map (fun m => (m - N.of_nat (c_nread s))%N) (snd (c_hint s))).

(** appending to the output file of the current input *)
Definition append (idx : nat) (t : text) (outs : list text) : list text :=
  firstn idx outs ++ match skipn idx outs with o :: rest => (o ++ t) :: rest | [] => [] end.
Definition cio_write (t : text) (f : fio) (s : cio) : cio :=
  mkCIO (c_files s) (Some f) (c_idx s) (c_nread s) (c_hint s) (append (c_idx s) t (c_outs s)).

(** src/io.rs:609-615: the inner loop of [update_all_weights]; the weights that are left *)
Fixpoint cio_update_file (weights : list (list N)) (s : cio) : res (list (list N) * cio) :=
  match weights with
  | [] => Ok ([], s)
  | w :: rest =>
      match c_current s with
      | None => Panic
      | Some f =>
          bind (fio_update w f) (fun '(o, f) =>
          match o with
          | None => Ok (weights, cio_write [] f s)
          | Some t => cio_update_file rest (cio_write t f s)
          end)
      end
  end.
(** src/io.rs:606-617: the outer loop *)
Fixpoint cio_update_files (idx n : nat) (weights : list (list N)) (s : cio) : res (list (list N) * cio) :=
  match n with
  | 0 => Ok (weights, s)
  | S n =>
      bind (cio_open idx s) (fun s =>
      bind (cio_update_file weights s) (fun '(weights, s) =>
      match c_current s with
      | None => Panic
      | Some f => cio_update_files (S idx) n weights (cio_write (fio_finish f) f s)
      end))
  end.
(** src/io.rs:597-620 [update_all_weights] *)
Definition cio_update_all (weights : list (list N)) (s : cio) : res (nat * cio) :=
  bind (cio_update_files 0 (length (c_files s)) weights (cio_rewind s)) (fun '(rest, s) =>
  Ok (length weights - length rest, s)).

(** src/io.rs:622-635 [update_next_weights] *)
Fixpoint cio_update_next (fuel : nat) (weights : list N) (s : cio) : res (bool * cio) :=
  if c_idx s <? length (c_files s) then
    match c_current s with
    | None => Panic                            (* unwrap *)
    | Some f =>
        bind (fio_update weights f) (fun '(o, f) =>
        match o with
        | Some t => Ok (true, cio_write t f s)
        | None =>
            bind (cio_open (c_idx s + 1) (cio_write (fio_finish f) f s)) (fun s =>
            match fuel with
            | 0 => Panic                       (* not reached *)
            | S fuel => cio_update_next fuel weights s
            end)
        end)
    end
  else Ok (false, s).
End IO.
Arguments Finished {S}. Arguments Item {S}. Arguments Failed {S}. Arguments Panicked {S}.
Arguments IOHepMC {N}. Arguments IOLhef {N}. Arguments IOStripper {N}. Arguments fio_header {N}. Arguments fio_finish {N}. Arguments fio_size_hint {N}.
Arguments build_from_files {N}. Arguments fio_next {N}. Arguments fio_update {N}. Arguments mkCIO {N}. Arguments c_files {N}. Arguments c_current {N}.
Arguments c_idx {N}. Arguments c_nread {N}. Arguments c_hint {N}. Arguments c_outs {N}. Arguments cio_open {N}. Arguments cio_init_loop {N}.
Arguments cio_init {N}. Arguments cio_new {N}. Arguments cio_rewind {N}. Arguments cio_next {N}. Arguments cio_fuel {N}. Arguments cio_size_hint {N}.
Arguments cio_write {N}. Arguments cio_update_file {N}. Arguments cio_update_files {N}. Arguments cio_update_all {N}. Arguments cio_update_next {N}.
Arguments lookup_scale {N}.
