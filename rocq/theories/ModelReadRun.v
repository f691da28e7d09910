(** The program (ModelMain.v) on files that are read piece by piece, where reads may fail (ModelRead.v).
    ModelIO.v and ModelMain.v take all reads to succeed; the definitions here follow these line by line. *)
From Verif Require Import Base Num ModelEvent ModelText ModelHepMC ModelLHEF ModelStripper ModelIO ModelResampler ModelUnweight ModelCres ModelMain ModelRead.

Section Run.
Context (N : NumOps) (double : parser N) (show : N -> text) (xml : text -> option (xml_tag N)).
Context (checks mw : bool) (names : list text) (scaling : list (text * N)).
(** What the reads deliver when the file with these contents is opened as the [k]-th one *)
Context (reads : nat -> text -> source).

(** src/io.rs:105 [FileIO]: the header and what has not been read yet; for STRIPPER XML also the
    number of remaining records and the scale factor *)
Inductive sfio := SHepMC (header : text) (rest : source) | SLhef (header : text) (rest : source)
| SStripper (header : text) (rest : source) (rem : BinNums.N) (scale : N).

Definition read_err : read_error := InvalidEntry "utf8".

(** src/io.rs:152-205 [build_from_files]: the file is opened once for the detection (line 250) and once by
    the reader.  Simplification: which error occurred is not modelled. *)
Definition build_s (k : nat) (file : text) : res sfio :=
  let s := reads (S k) file in
  match detect_s (reads k file) with
  | HepMC2 => match open_s hepmc_format s with Opened h rest => Ok (SHepMC h rest) | OpenFailed => Err read_err | OpenCrashed => Panic end
  | Lhef => match open_s lhef_format s with Opened h rest => Ok (SLhef h rest) | OpenFailed => Err read_err | OpenCrashed => Panic end
  | BlackHatNtuple => Err (InvalidEntry "ROOT")            (* not modelled *)
  | StripperXml =>
      match open_s (stripper_format checks) s with
      | OpenCrashed => Panic
      | OpenFailed => Err read_err
      | Opened header rest =>
          match header_info xml header with
          | None => Err (InvalidEntry "XML")
          | Some (name, nsubevents) =>
              match lookup_scale scaling name with
              | None => Err (InvalidEntry "MissingScaling")
              | Some scale => Ok (SStripper header rest nsubevents scale)
              end
          end
      end
  end.
Definition sfio_header (f : sfio) : text := match f with SHepMC h _ | SLhef h _ | SStripper h _ _ _ => h end.

(** src/hepmc2.rs:217-223, src/lhef.rs:187-193, src/stripper_xml.rs:268-282 [next] *)
Definition sfio_next (f : sfio) : step sfio :=
  match f with
  | SHepMC h s =>
      match read_raw_s hepmc_format tt s with
      | NPanic => ModelIO.Panicked | NError => ModelIO.Failed read_err f | NEnd => Finished (SHepMC h []) | NRecord r _ s => Item r (SHepMC h s)
      end
  | SLhef h s =>
      match read_raw_s lhef_format tt s with
      | NPanic => ModelIO.Panicked | NError => ModelIO.Failed read_err f | NEnd => Finished (SLhef h []) | NRecord r _ s => Item r (SLhef h s)
      end
  | SStripper h s rem scale =>
      match read_raw_s (stripper_format checks) rem s with
      | NPanic => ModelIO.Panicked
      | NError => ModelIO.Failed read_err f
      | NEnd => Finished (SStripper h [] rem scale)
      | NRecord r rem s =>
          match rescale_weight double show scale r with
          | Ok record => Item record (SStripper h s rem scale)
          | Err e => ModelIO.Failed e (SStripper h s rem scale)
          | Panic => ModelIO.Panicked
          end
      end
  end.

(** [update_next_weights] *)
Definition sfio_update (weights : list N) (f : sfio) : res (option text * sfio) :=
  match f with
  | SHepMC h s =>
      match read_raw_s hepmc_format tt s with
      | NPanic => Panic | NError => Err read_err | NEnd => Ok (None, SHepMC h [])
      | NRecord r _ s => bind (hepmc_update show mw names weights r) (fun t => Ok (Some t, SHepMC h s))
      end
  | SLhef h s =>
      match read_raw_s lhef_format tt s with
      | NPanic => Panic | NError => Err read_err | NEnd => Ok (None, SLhef h [])
      | NRecord r _ s => bind (lhef_update show mw weights r) (fun t => Ok (Some t, SLhef h s))
      end
  | SStripper h s rem scale =>
      match read_raw_s (stripper_format checks) rem s with
      | NPanic => Panic | NError => Err read_err | NEnd => Ok (None, SStripper h [] rem scale)
      | NRecord r rem s => bind (stripper_update double show mw scale weights r) (fun t => Ok (Some t, SStripper h s rem scale))
      end
  end.
Definition sfio_finish (f : sfio) : text := match f with SLhef _ _ => lhef_footer | _ => [] end.
Definition sfio_size_hint (f : sfio) : BinNums.N * option BinNums.N :=
  match f with SStripper _ _ rem _ => (rem, Some rem) | _ => (0%N, None) end.

(** src/io.rs:472-480 [CombinedFileIO]; in addition, how often files have been opened *)
Record scio := mkSCIO {
  x_files : list text;
  x_current : option sfio;
  x_idx : nat;
  x_nread : nat;
  x_hint : BinNums.N * option BinNums.N;
  x_outs : list text;
  x_opened : nat }.

(** src/io.rs:499-516 [open] *)
Definition scio_open (idx : nat) (s : scio) : res scio :=
  match nth_error (x_files s) idx with
  | None => Panic
  | Some file =>
      bind (build_s (x_opened s) file) (fun f =>
      match set_nth idx (sfio_header f) (x_outs s) with
      | Some outs => Ok (mkSCIO (x_files s) (Some f) idx (x_nread s) (x_hint s) outs (S (S (x_opened s))))
      | None => Panic
      end)
  end.

(** src/io.rs:518-531 [init] *)
Fixpoint scio_init_loop (idx n : nat) (s : scio) : res scio :=
  match n with
  | 0 => Ok s
  | S n =>
      bind (scio_open idx s) (fun s =>
      match x_current s with
      | None => Panic
      | Some f => scio_init_loop (S idx) n
          (mkSCIO (x_files s) (x_current s) (x_idx s) (x_nread s) (combine_size_hints (x_hint s) (sfio_size_hint f)) (x_outs s) (x_opened s))
      end)
  end.
Definition scio_init (s : scio) : res scio :=
  if length (x_files s) =? 0 then Ok s
  else bind (scio_init_loop 0 (length (x_files s)) s) (scio_open 0).
(** src/io.rs:483-497 [new] *)
Definition scio_new (files : list text) : res scio :=
  scio_init (mkSCIO files None 0 0 (0%N, Some 0%N) (repeat [] (length files)) 0).
(** src/io.rs:546-554 [rewind] *)
Definition scio_rewind (s : scio) : scio := mkSCIO (x_files s) None (x_idx s) 0 (x_hint s) (x_outs s) (x_opened s).

(** src/io.rs:559-582 [next] *)
Fixpoint scio_next (fuel : nat) (s : scio) : step scio :=
  let opened idx :=
    match fuel with
    | 0 => ModelIO.Panicked
    | S fuel =>
        match scio_open idx s with
        | Ok s => scio_next fuel s
        | Err e => ModelIO.Failed e s
        | Panic => ModelIO.Panicked
        end
    end in
  match x_current s with
  | Some f =>
      let with_ f n := mkSCIO (x_files s) (Some f) (x_idx s) n (x_hint s) (x_outs s) (x_opened s) in
      match sfio_next f with
      | ModelIO.Panicked => ModelIO.Panicked
      | Item record f => Item record (with_ f (S (x_nread s)))
      | ModelIO.Failed e f => ModelIO.Failed e (with_ f (S (x_nread s)))
      | Finished f =>
          if x_idx s + 1 =? length (x_files s) then Finished (with_ f (x_nread s))
          else opened (x_idx s + 1)
      end
  | None => if length (x_files s) =? 0 then Finished s else opened 0
  end.
Definition scio_fuel (s : scio) : nat := S (length (x_files s)).

Definition scio_write (t : text) (f : sfio) (s : scio) : scio :=
  mkSCIO (x_files s) (Some f) (x_idx s) (x_nread s) (x_hint s) (append (x_idx s) t (x_outs s)) (x_opened s).
(** src/io.rs:597-620 [update_all_weights] *)
Fixpoint scio_update_file (weights : list (list N)) (s : scio) : res (list (list N) * scio) :=
  match weights with
  | [] => Ok ([], s)
  | w :: rest =>
      match x_current s with
      | None => Panic
      | Some f =>
          bind (sfio_update w f) (fun '(o, f) =>
          match o with
          | None => Ok (weights, scio_write [] f s)
          | Some t => scio_update_file rest (scio_write t f s)
          end)
      end
  end.
Fixpoint scio_update_files (idx n : nat) (weights : list (list N)) (s : scio) : res (list (list N) * scio) :=
  match n with
  | 0 => Ok (weights, s)
  | S n =>
      bind (scio_open idx s) (fun s =>
      bind (scio_update_file weights s) (fun '(weights, s) =>
      match x_current s with
      | None => Panic
      | Some f => scio_update_files (S idx) n weights (scio_write (sfio_finish f) f s)
      end))
  end.
Definition scio_update_all (weights : list (list N)) (s : scio) : res (nat * scio) :=
  bind (scio_update_files 0 (length (x_files s)) weights (scio_rewind s)) (fun '(rest, s) =>
  Ok (length weights - length rest, s)).

Definition record_of_s (f : sfio) (t : text) : event_record :=
  match f with SHepMC _ _ => HepMCRecord t | SLhef _ _ => LHEFRecord t | SStripper _ _ _ _ => StripperXmlRecord t end.
(** src/cres.rs:248-250 *)
Fixpoint read_all_s (fuel : nat) (s : scio) : option (list (event_record + read_error) * scio) :=
  match fuel with
  | 0 => None
  | S fuel =>
      match scio_next (scio_fuel s) s with
      | ModelIO.Panicked => None
      | ModelIO.Finished s => Some ([], s)
      | ModelIO.Failed e s => Some ([inr e], s)
      | ModelIO.Item t s =>
          match x_current s, read_all_s fuel s with
          | Some f, Some (l, s') => Some (inl (record_of_s f t) :: l, s')
          | _, _ => None
          end
      end
  end.
End Run.
Arguments SHepMC {N}. Arguments SLhef {N}. Arguments SStripper {N}. Arguments build_s {N}. Arguments sfio_header {N}. Arguments sfio_next {N}.
Arguments sfio_update {N}. Arguments sfio_finish {N}. Arguments sfio_size_hint {N}. Arguments mkSCIO {N}. Arguments x_files {N}. Arguments x_current {N}.
Arguments x_idx {N}. Arguments x_nread {N}. Arguments x_hint {N}. Arguments x_outs {N}. Arguments x_opened {N}. Arguments scio_open {N}.
Arguments scio_init_loop {N}. Arguments scio_init {N}. Arguments scio_new {N}. Arguments scio_rewind {N}. Arguments scio_next {N}. Arguments scio_fuel {N}.
Arguments scio_write {N}. Arguments scio_update_file {N}. Arguments scio_update_files {N}. Arguments scio_update_all {N}. Arguments record_of_s {N}.
Arguments read_all_s {N}.

(** src/bin/main.rs:68-116, src/cres.rs:181-230, see [cres_program].  [first]: what the reads deliver while
    the scale factors are extracted, for each input. *)
Definition cres_program_s {N : NumOps} (double : parser N) (show : N -> text) (xml : text -> option (xml_tag N)) (checks mw : bool) (names : list text) (sort : sorter)
    cluster shuffle resample unweighter (first : list source) (reads : nat -> text -> source) (fuel : nat) (inputs : list text) : ending :=
  match event_files_s N xml (combine inputs first) with
  | Err _ => Error
  | Panic => Crash
  | Ok (files, tags) =>
      let scaling := extract_scaling tags in
      match scio_new xml checks scaling reads files with
      | Err _ => Error
      | Panic => Crash
      | Ok s =>
          match read_all_s double show xml checks scaling reads fuel s with
          | None => Crash
          | Some (records, s) =>
              match run_on double mw names sort cluster shuffle resample unweighter records with
              | ModelCres.Panicked => Crash
              | ModelCres.Failed e => end_of e
              | Wrote weights =>
                  match scio_update_all double show xml checks mw names scaling reads weights s with
                  | Ok (_, s) => Done (x_outs s)
                  | Err _ => Error
                  | Panic => Crash
                  end
              end
          end
      end
  end.
