(** Model of src/bin/classify-events.rs. *)
From Coq Require Import Ascii String.
From Verif Require Import Base Num ModelEvent ModelText ModelHepMC ModelLHEF ModelStripper ModelIO ModelPartition.
From Coq Require Import DecimalString.
Open Scope list_scope.

(** src/bin/classify-events.rs:227-237 [get_footer] *)
Definition get_footer (f : format) : text :=
  match f with
  | HepMC2 => lit "HepMC::IO_GenEvent-END_EVENT_LISTING"
  | Lhef => lit "</LesHouchesEvents>"
  | StripperXml => lit "</Eventrecord>"
  | BlackHatNtuple => []
  end.

(** [str::trim_end].  Simplification: only ASCII white space. *)
Definition trim_end (t : text) : text := rev (snd (span is_white (rev t))).
(** [str::strip_suffix] *)
Definition strip_suffix (suffix t : text) : option text :=
  match strip_prefix (rev suffix) (rev t) with Some r => Some (rev r) | None => None end.

(** src/bin/classify-events.rs:218-225 [trim_footer] *)
Definition trim_footer (event : text) (f : format) : text :=
  match strip_suffix (get_footer f) (trim_end event) with Some event => event | None => event end.

(** src/bin/classify-events.rs:210-216 [write_footer]: what is appended *)
Definition footer_line (f : format) : text := get_footer f ++ [NL].

(** src/io.rs [FileReader::try_new], [header] and the records the iterator returns.  [None]: an error
    or a panic *)
Definition read_records (checks : bool) (nsubevents : BinNums.N) (f : format) (file : text) : option (text * list text) :=
  let with_header header (records : option (list text)) := match records with Some l => Some (header, l) | None => None end in
  match f with
  | HepMC2 => with_header (rd_header (hepmc_open file)) (hepmc_records (hepmc_open file))
  | Lhef => with_header (rd_header (lhef_open file)) (lhef_records (lhef_open file))
  | StripperXml =>
      match stripper_open checks nsubevents file with
      | None => None
      | Some r => with_header (sr_header r) (match stripper_records checks r with Some (l, _) => Some l | None => None end)
      end
  | BlackHatNtuple => None
  end.

Section Classify.
Context (N : NumOps) (double : parser N) (mw : bool) (sort : sorter).
(** [clustering.cluster] (None: panic), the distance and the partition *)
Context (cluster : Event N -> option (Event N)) (dist : Event N -> Event N -> N) (vp : list (Bisection N (Event N))).

(** [Converter::try_convert] (src/io.rs) with the default converter (no weight names) *)
Definition convert (f : format) (record : text) : res (Event N) :=
  match f with
  | HepMC2 => parse_hepmc double mw sort [] record
  | Lhef => parse_lhef double mw sort record
  | StripperXml => parse_stripper_xml double mw sort record
  | BlackHatNtuple => Panic
  end.

(** src/bin/classify-events.rs:138-140: the region of a record *)
Definition record_region (f : format) (record : text) : res nat :=
  bind (convert f record) (fun ev =>
  match cluster ev with
  | None => Panic
  | Some ev => match region dist vp ev with Some i => Ok i | None => Panic end
  end).

(** src/bin/classify-events.rs:136-146: the loop over the records.  [outs]: what was written to each
    file; [writers[region]] panics if there is no such file *)
Fixpoint classify_loop (f : format) (records : list text) (outs : list text) : res (list text) :=
  match records with
  | [] => Ok outs
  | event :: rest =>
      bind (record_region f event) (fun i =>
      match nth_error outs i with
      | None => Panic
      | Some out =>
          match set_nth i (out ++ trim_footer event f) outs with
          | None => Panic
          | Some outs => classify_loop f rest outs
          end
      end)
  end.

(** src/bin/classify-events.rs:108-153 [classify_byte_records]: the contents of the files for all
    regions.  Simplifications: the records are read before the first one is treated; file operations
    do not fail.  [checks]: overflow checks; [nsubevents]: attribute of the header of STRIPPER XML files *)
Definition classify_byte_records (checks : bool) (nsubevents : BinNums.N) (f : format) (file : text) : res (list text) :=
  match read_records checks nsubevents f file with
  | None => Panic
  | Some (header, records) =>
      bind (classify_loop f records (repeat header (partition_len vp))) (fun outs =>
      Ok (map (fun out => out ++ footer_line f) outs))
  end.
End Classify.
Arguments convert {N}. Arguments record_region {N}. Arguments classify_loop {N}. Arguments classify_byte_records {N}.

(** *** Names of the output files *)

(** [str::split_once('.')] with [unwrap_or((file, ""))] *)
Definition split_once_dot (file : text) : text * text :=
  match find (lit ".") file with Some n => (firstn n file, skipn (S n) file) | None => (file, []) end.
(** [format!("{i}")] for an unsigned number *)
Definition show_nat (n : nat) : text := lit (NilZero.string_of_uint (Nat.to_uint n)).
(** [PathBuf::from_iter([dir, path])]: an absolute path replaces what comes before *)
Definition join_path (dir path : text) : text :=
  match path with
  | c :: _ => if ceq c "/" then path
              else match rev dir with [] => path | d :: _ => if ceq d "/" then dir ++ path else dir ++ lit "/" ++ path end
  | [] => match rev dir with [] => [] | d :: _ => if ceq d "/" then dir else dir ++ lit "/" end
  end.
(** src/bin/classify-events.rs:178-183 and 253-258 [make_outname] *)
Definition make_outname (outdir file : text) (i : nat) : text :=
  let '(prefix, suffix) := split_once_dot file in
  join_path outdir (prefix ++ lit "." ++ show_nat i ++ lit "." ++ suffix).
(** [Path::file_name] of a path that does not end with '/' or '..': what follows the last '/' *)
Definition file_name (path : text) : text := rev (fst (span (fun c => negb (ceq c "/")) (rev path))).
(** src/bin/classify-events.rs:245-258 [make_byte_writers]: output for text formats *)
Definition byte_outname (outdir path : text) (i : nat) : text := make_outname outdir (file_name path) i.
(** src/bin/classify-events.rs:175-183: output for ntuples, where [file] is the path as given *)
Definition ntuple_outname (outdir path : text) (i : nat) : text := make_outname outdir path i.
