(** Model of the program cres from the contents of its input files to the contents of its output
    files: src/bin/main.rs:49-119 [cres_with_search], src/io.rs:207-247 [build_from_files_iter],
    src/stripper_xml.rs:289-335 [extract_scaling] applied to files, src/io.rs:742-760
    [Converter::try_convert], and src/cres.rs:181-295 [run] with these components.

    Files are represented by their (decompressed) contents, see ModelIO.v.  Not modelled: ROOT
    ntuples, compression, the XML parser (a parameter), logging. *)
From Verif Require Import Base Num ModelEvent ModelText ModelHepMC ModelLHEF ModelStripper ModelIO ModelSeeds ModelResampler
  ModelUnweight ModelCres.

(** src/stripper_xml.rs:441-456 [XMLTag].  The power of the coupling is not used. *)
Inductive xml_tag (N : NumOps) :=
| XNormalization (name : text) (scale : N)
| XEventrecord (name : text) (nevents : nat) (nsubevents : BinNums.N).
Arguments XNormalization {N}. Arguments XEventrecord {N}.

(** src/io.rs:672-686 [EventRecord], without ntuples *)
Inductive event_record := HepMCRecord (t : text) | LHEFRecord (t : text) | StripperXmlRecord (t : text).

Section Program.
Context (N : NumOps) (double : parser N) (show : N -> text).
(** src/stripper_xml.rs:337-436 [extract_xml_info]; [None]: an error *)
Context (xml : text -> option (xml_tag N)).
(** overflow checks, feature "multiweight", option --weights, sorting algorithm *)
Context (checks mw : bool) (names : list text) (sort : sorter).

(** src/stripper_xml.rs:49-53: the tag must be [Eventrecord] *)
Definition header_info (header : text) : option (text * BinNums.N) :=
  match xml header with
  | Some (XEventrecord name _ nsubevents) => Some (name, nsubevents)
  | _ => None
  end.

(** src/stripper_xml.rs:303-305 *)
Definition is_xml (file : text) : bool := starts_with (lit "<?xml") (trim_ascii_start file).

(** src/stripper_xml.rs:289-335: the files with events and what [extract_scaling] in
    ModelStripper.v has to combine *)
Fixpoint event_files (files : list text) : res (list text * list (stripper_tag N)) :=
  match files with
  | [] => Ok ([], [])
  | file :: rest =>
      if is_xml file then
        match xml file with
        | None => Err (InvalidEntry "XML")
        | Some (XNormalization name scale) => bind (event_files rest) (fun '(fs, ts) => Ok (fs, Normalization name scale :: ts))
        | Some (XEventrecord name nevents _) => bind (event_files rest) (fun '(fs, ts) => Ok (file :: fs, Eventrecord name nevents :: ts))
        end
      else bind (event_files rest) (fun '(fs, ts) => Ok (file :: fs, ts))
  end.

(** src/io.rs:207-247 [build_from_files_iter] *)
Definition open_inputs (inputs : list text) : res (list (text * N) * cio N) :=
  bind (event_files inputs) (fun '(files, tags) =>
  let scaling := extract_scaling tags in
  bind (cio_new header_info checks scaling files) (fun s => Ok (scaling, s))).

(** The records delivered by the iterators of the formats: src/hepmc2.rs:90-94, src/lhef.rs:85-89,
    src/stripper_xml.rs:277 *)
Definition record_of (f : fio N) (t : text) : event_record :=
  match f with IOHepMC _ => HepMCRecord t | IOLhef _ => LHEFRecord t | IOStripper _ _ => StripperXmlRecord t end.

(** src/cres.rs:248-250: reading until the end or the first error; [fuel] bounds the number of
    records; [None]: a panic *)
Fixpoint read_all (scaling : list (text * N)) (fuel : nat) (s : cio N) : option (list (event_record + read_error) * cio N) :=
  match fuel with
  | 0 => None
  | S fuel =>
      match cio_next double show header_info checks scaling (cio_fuel s) s with
      | ModelIO.Panicked => None
      | ModelIO.Finished s => Some ([], s)
      | ModelIO.Failed e s => Some ([inr e], s)
      | ModelIO.Item t s =>
          match c_current s, read_all scaling fuel s with
          | Some f, Some (l, s') => Some (inl (record_of f t) :: l, s')
          | _, _ => None
          end
      end
  end.

(** src/io.rs:742-760 [Converter::try_convert].  A panic is the "error" [None]. *)
Definition as_result {A} (r : res A) : A + option read_error :=
  match r with Ok a => inl a | Err e => inr (Some e) | Panic => inr None end.
Definition try_convert (r : event_record) : Event N + option read_error :=
  as_result match r with
    | HepMCRecord t => parse_hepmc double mw sort names t
    | LHEFRecord t => parse_lhef double mw sort t
    | StripperXmlRecord t => parse_stripper_xml double mw sort t
    end.

(** The clustering (src/cluster.rs:106-166 has no errors; [None]: a panic), the order in which
    tasks finish, resampler and unweighter *)
Context (cluster : Event N -> option (Event N))
  (shuffle : list (Event N + @cres_error (option read_error)) -> list (Event N + @cres_error (option read_error)))
  (resample unweighter : list (Event N) -> option (list (Event N) + option read_error)).
Definition try_cluster (e : Event N) : Event N + option read_error :=
  match cluster e with Some e => inl e | None => inr None end.

Definition run_on (records : list (event_record + read_error)) : @outcome N (option read_error) :=
  cres_run (fun _ => false) try_convert try_cluster mw sort shuffle resample unweighter
    (map (fun r => match r with inl r => inl r | inr e => inr (Some e) end) records).

(** How the program ends: with the output files (one for each file with events), an error or a
    panic.  Simplification: if some tasks fail and others panic, the program panics, whereas
    here it may end with the error. *)
Inductive ending := Done (outputs : list text) | Error | Crash.
Definition end_of (e : @cres_error (option read_error)) : ending :=
  match e with
  | IOErr None | ConversionErr None | ClusterErr None | ResamplingErr None | UnweightErr None => Crash
  | _ => Error
  end.

(** src/bin/main.rs:68-116, src/cres.rs:181-230 *)
Definition cres_program (fuel : nat) (inputs : list text) : ending :=
  match open_inputs inputs with
  | Err _ => Error
  | Panic => Crash
  | Ok (scaling, s) =>
      match read_all scaling fuel s with
      | None => Crash
      | Some (records, s) =>
          match run_on records with
          | ModelCres.Panicked => Crash
          | ModelCres.Failed e => end_of e
          | Wrote weights =>
              match cio_update_all double show header_info checks mw names scaling weights s with
              | Ok (_, s) => Done (c_outs s)
              | Err _ => Error
              | Panic => Crash
              end
          end
      end
  end.
End Program.
Arguments header_info {N}. Arguments event_files {N}. Arguments open_inputs {N}. Arguments record_of {N}.
Arguments read_all {N}. Arguments as_result {A}. Arguments try_convert {N}. Arguments try_cluster {N}. Arguments run_on {N}.
Arguments cres_program {N}.
