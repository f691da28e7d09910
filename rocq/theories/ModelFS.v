(** Model of the program cres with a file system: which system calls it makes, in which order, and
    what happens if they fail.  src/io.rs:483-620 [CombinedFileIO] once more, with output files
    instead of their contents (ModelIO.v), and src/bin/main.rs:74-116.

    Not modelled: compression of the output; failing reads.  Simplifications: an input file is
    read as a whole when it is opened; a file is what a path leads to (there are no links). *)
From Verif Require Import Base Num ModelEvent ModelText ModelHepMC ModelLHEF ModelStripper ModelIO ModelSeeds ModelResampler
  ModelUnweight ModelCres ModelMain.

(** *** Disks *)
Definition path := nat.
Definition disk := path -> option text.
(** what changes a disk; [Refused]: a call that fails without any effect *)
Inductive syscall := Create (p : path) | Write (p : path) (offset : nat) (bytes : text) | Refused.

Definition set_file (d : disk) (p : path) (content : text) : disk := fun q => if q =? p then Some content else d q.
(** Writing behind the end of a file fills the gap with zeros. *)
Definition write_at (offset : nat) (bytes content : text) : text :=
  firstn offset (content ++ repeat "000"%char (offset - length content)) ++ bytes ++ skipn (offset + length bytes) content.
Definition perform (d : disk) (c : syscall) : disk :=
  match c with
  | Create p => set_file d p []
  | Write p offset bytes => match d p with Some content => set_file d p (write_at offset bytes content) | None => d end
  | Refused => d
  end.
(** The disk after these system calls *)
Definition replay (d : disk) (log : list syscall) : disk := fold_left perform log d.

Section FS.
(** the disk at the beginning, and the errors: system call number [n] fails if [faults n] is some
    [k]; if it is a write then after [k] bytes *)
Context (start : disk) (faults : nat -> option nat).
(** the capacity of [BufWriter] (8192) *)
Context (cap : nat).

(** A log of the system calls is the state; the result tells if the call succeeded. *)
Definition do_create (p : path) (log : list syscall) : bool * list syscall :=
  match faults (length log) with
  | None => (true, log ++ [Create p])
  | Some _ => (false, log ++ [Refused])
  end.
(** [write_all] of [File]; the number of bytes written *)
Definition do_write (p : path) (offset : nat) (bytes : text) (log : list syscall) : bool * nat * list syscall :=
  match faults (length log) with
  | None => (true, length bytes, log ++ [Write p offset bytes])
  | Some k => (false, length (firstn k bytes), log ++ [Write p offset (firstn k bytes)])
  end.

(** *** [std::io::BufWriter<File>] *)
Record writer := mkWriter { w_path : path; w_offset : nat; w_buf : text }.
(** [BufWriter::flush_buf] *)
Definition flush_buf (w : writer) (log : list syscall) : bool * writer * list syscall :=
  match w_buf w with
  | [] => (true, w, log)
  | _ =>
      let '(ok, n, log) := do_write (w_path w) (w_offset w) (w_buf w) log in
      (ok, mkWriter (w_path w) (w_offset w + n) (skipn n (w_buf w)), log)
  end.
Definition push_buf (bytes : text) (w : writer) : writer := mkWriter (w_path w) (w_offset w) (w_buf w ++ bytes).
(** [BufWriter::write_all] and [write_all_cold] *)
Definition write_all (bytes : text) (w : writer) (log : list syscall) : bool * writer * list syscall :=
  let spare := cap - length (w_buf w) in
  if length bytes <? spare then (true, push_buf bytes w, log)
  else
    let '(ok, w, log) := if spare <? length bytes then flush_buf w log else (true, w, log) in
    if negb ok then (false, w, log)
    else if cap <=? length bytes then
      let '(ok, n, log) := do_write (w_path w) (w_offset w) bytes log in
      (ok, mkWriter (w_path w) (w_offset w + n) (w_buf w), log)
    else (true, push_buf bytes w, log).
(** [Drop for BufWriter]: errors are ignored *)
Definition drop_writer (w : writer) (log : list syscall) : list syscall := snd (flush_buf w log).

(** *** [CombinedFileIO] *)
Context (N : NumOps) (double : parser N) (show : N -> text) (xml : text -> option (xml_tag N))
  (checks mw : bool) (names : list text) (scaling : list (text * N)).
(** pairs of an input and an output file; the fields that matter *)
Context (paths : list (path * path)).
Record dio := mkDIO { d_current : option (fio N * writer); d_idx : nat; d_log : list syscall }.

Definition drop_current (c : option (fio N * writer)) (log : list syscall) : list syscall :=
  match c with Some (_, w) => drop_writer w log | None => log end.

Definition io_error : read_error := InvalidEntry "I/O".

(** [try_new] of the formats: creating the output file and writing the header; on error the new
    file is closed at once.  src/hepmc2.rs:134-138, src/lhef.rs:112-116, src/stripper_xml.rs:158-162 *)
Definition new_output (outfile : path) (header : text) (log : list syscall) : option writer * list syscall :=
  let '(ok, log) := do_create outfile log in
  if negb ok then (None, log)
  else
    let '(ok, w, log) := write_all header (mkWriter outfile 0 []) log in
    if negb ok then (None, drop_writer w log) else (Some w, log).
(** The output of a STRIPPER XML file is created before its tag and the scale factor are looked at
    (src/stripper_xml.rs:158-172). *)
Definition header_of (content : text) : option text :=
  match detect_event_file_format content with
  | StripperXml => option_map fst (stripper_init checks content)
  | _ => None
  end.

(** src/io.rs:499-516 [open]: the new file is opened before the old one is closed. *)
Definition dio_open (idx : nat) (s : dio) : res unit * dio :=
  match nth_error paths idx with
  | None => (Panic, s)
  | Some (infile, outfile) =>
      match replay start (d_log s) infile with
      | None => (Err io_error, s)
      | Some content =>
          match build_from_files (header_info xml) checks scaling content with
          | Panic => (Panic, s)
          | Err e =>
              match header_of content with
              | None => (Err e, s)
              | Some header =>
                  match new_output outfile header (d_log s) with
                  | (None, log) => (Err io_error, mkDIO (d_current s) (d_idx s) log)
                  | (Some w, log) => (Err e, mkDIO (d_current s) (d_idx s) (drop_writer w log))
                  end
              end
          | Ok f =>
              match new_output outfile (fio_header f) (d_log s) with
              | (None, log) => (Err io_error, mkDIO (d_current s) (d_idx s) log)
              | (Some w, log) => (Ok tt, mkDIO (Some (f, w)) idx (drop_current (d_current s) log))
              end
          end
      end
  end.

(** src/io.rs:518-531 [init] *)
Fixpoint dio_init_loop (idx n : nat) (s : dio) : res unit * dio :=
  match n with
  | 0 => (Ok tt, s)
  | S n => match dio_open idx s with (Ok _, s) => dio_init_loop (S idx) n s | r => r end
  end.
Definition dio_new (log : list syscall) : res unit * dio :=
  let s := mkDIO None 0 log in
  if length paths =? 0 then (Ok tt, s)
  else match dio_init_loop 0 (length paths) s with (Ok _, s) => dio_open 0 s | r => r end.

(** src/io.rs:546-554 [rewind] *)
Definition dio_rewind (s : dio) : dio := mkDIO None (d_idx s) (drop_current (d_current s) (d_log s)).

(** src/io.rs:559-582 [next]: nothing, a record or an error *)
Fixpoint dio_next (fuel : nat) (s : dio) : res (option (text + read_error)) * dio :=
  let opened idx :=
    match fuel with
    | 0 => (Panic, s)                            (* not reached *)
    | S fuel =>
        match dio_open idx s with
        | (Ok _, s) => dio_next fuel s
        | (Err e, s) => (Ok (Some (inr e)), s)
        | (Panic, s) => (Panic, s)
        end
    end in
  match d_current s with
  | Some (f, w) =>
      match fio_next double show checks f with
      | ModelIO.Panicked => (Panic, s)
      | Item record f => (Ok (Some (inl record)), mkDIO (Some (f, w)) (d_idx s) (d_log s))
      | ModelIO.Failed e f => (Ok (Some (inr e)), mkDIO (Some (f, w)) (d_idx s) (d_log s))
      | Finished f =>
          if d_idx s + 1 =? length paths then (Ok None, mkDIO (Some (f, w)) (d_idx s) (d_log s))
          else opened (d_idx s + 1)
      end
  | None => if length paths =? 0 then (Ok None, s) else opened 0
  end.

(** writing to the current output file *)
Definition dio_write (bytes : text) (f : fio N) (s : dio) : res unit * dio :=
  match d_current s with
  | None => (Panic, s)
  | Some (_, w) =>
      let '(ok, w, log) := write_all bytes w (d_log s) in
      (if ok then Ok tt else Err io_error, mkDIO (Some (f, w)) (d_idx s) log)
  end.

(** src/io.rs:609-615: the inner loop of [update_all_weights] *)
Fixpoint dio_update_file (weights : list (list N)) (s : dio) : res (list (list N)) * dio :=
  match weights with
  | [] => (Ok [], s)
  | w :: rest =>
      match d_current s with
      | None => (Panic, s)
      | Some (f, wr) =>
          match fio_update double show checks mw names w f with
          | Err e => (Err e, s)
          | Panic => (Panic, s)
          | Ok (None, f) => (Ok weights, mkDIO (Some (f, wr)) (d_idx s) (d_log s))
          | Ok (Some t, f) =>
              match dio_write t f s with
              | (Ok _, s) => dio_update_file rest s
              | (Err e, s) => (Err e, s)
              | (Panic, s) => (Panic, s)
              end
          end
      end
  end.
(** src/io.rs:606-617: the outer loop.  Nothing is written if there is nothing to write at the end. *)
Fixpoint dio_update_files (idx n : nat) (weights : list (list N)) (s : dio) : res (list (list N)) * dio :=
  match n with
  | 0 => (Ok weights, s)
  | S n =>
      match dio_open idx s with
      | (Err e, s) => (Err e, s)
      | (Panic, s) => (Panic, s)
      | (Ok _, s) =>
          match dio_update_file weights s with
          | (Err e, s) => (Err e, s)
          | (Panic, s) => (Panic, s)
          | (Ok weights, s) =>
              match d_current s with
              | None => (Panic, s)
              | Some (f, _) =>
                  match (match f with IOLhef _ => dio_write (fio_finish f) f s | _ => (Ok tt, s) end) with
                  | (Err e, s) => (Err e, s)
                  | (Panic, s) => (Panic, s)
                  | (Ok _, s) => dio_update_files (S idx) n weights s
                  end
              end
          end
      end
  end.
(** src/io.rs:597-620 [update_all_weights] *)
Definition dio_update_all (weights : list (list N)) (s : dio) : res (list (list N)) * dio :=
  dio_update_files 0 (length paths) weights (dio_rewind s).

(** src/cres.rs:248-250, as [read_all] in ModelMain.v *)
Fixpoint dio_read_all (fuel : nat) (s : dio) : option (list (event_record + read_error)) * dio :=
  match fuel with
  | 0 => (None, s)
  | S fuel =>
      match dio_next (S (length paths)) s with
      | (Panic, s) | (Err _, s) => (None, s)
      | (Ok None, s) => (Some [], s)
      | (Ok (Some (inr e)), s) => (Some [inr e], s)
      | (Ok (Some (inl t)), s) =>
          match d_current s with
          | None => (None, s)
          | Some (f, _) =>
              match dio_read_all fuel s with
              | (Some l, s) => (Some (inl (record_of f t) :: l), s)
              | (None, s) => (None, s)
              end
          end
      end
  end.
End FS.
Arguments mkDIO {N}. Arguments d_current {N}. Arguments d_idx {N}. Arguments d_log {N}. Arguments drop_current faults {N}.
Arguments dio_open start faults cap {N}. Arguments dio_init_loop start faults cap {N}. Arguments dio_new start faults cap {N}.
Arguments dio_rewind faults {N}. Arguments dio_next start faults cap {N}. Arguments dio_write faults cap {N}. Arguments dio_update_file faults cap {N}.
Arguments dio_update_files start faults cap {N}. Arguments dio_update_all start faults cap {N}. Arguments dio_read_all start faults cap {N}.

Section Program.
Context (start : disk) (faults : nat -> option nat) (cap : nat).
Context (N : NumOps) (double : parser N) (show : N -> text) (xml : text -> option (xml_tag N))
  (checks mw : bool) (names : list text) (sort : sorter) (cluster : Event N -> option (Event N))
  (shuffle : list (Event N + @cres_error (option read_error)) -> list (Event N + @cres_error (option read_error)))
  (resample unweighter : list (Event N) -> option (list (Event N) + option read_error)).

(** src/stripper_xml.rs:289-335: the pairs of files with events *)
Fixpoint event_paths (paths : list (path * path)) : res (list (path * path) * list (stripper_tag N)) :=
  match paths with
  | [] => Ok ([], [])
  | (infile, outfile) :: rest =>
      match start infile with
      | None => Err io_error
      | Some file =>
          if is_xml file then
            match xml file with
            | None => Err (InvalidEntry "XML")
            | Some (XNormalization name scale) => bind (event_paths rest) (fun '(fs, ts) => Ok (fs, Normalization name scale :: ts))
            | Some (XEventrecord name nevents _) =>
                bind (event_paths rest) (fun '(fs, ts) => Ok ((infile, outfile) :: fs, Eventrecord name nevents :: ts))
            end
          else bind (event_paths rest) (fun '(fs, ts) => Ok ((infile, outfile) :: fs, ts))
      end
  end.

(** What the user is told *)
Inductive status := Success | Failure | Crashed.
Definition status_of (e : @cres_error (option read_error)) : status :=
  match end_of e with Crash => Crashed | _ => Failure end.

(** src/bin/main.rs:74-116, src/cres.rs:181-230.  At the end, also after errors and panics, the
    current file is closed. *)
Definition disk_program (fuel : nat) (paths : list (path * path)) : status * list syscall :=
  match event_paths paths with
  | Err _ => (Failure, [])
  | Panic => (Crashed, [])
  | Ok (files, tags) =>
      let scaling := extract_scaling tags in
      let finish (st : status) (s : dio N) := (st, drop_current faults (d_current s) (d_log s)) in
      match dio_new start faults cap xml checks scaling files [] with
      | (Err _, s) => finish Failure s
      | (Panic, s) => finish Crashed s
      | (Ok _, s) =>
          match dio_read_all start faults cap double show xml checks scaling files fuel s with
          | (None, s) => finish Crashed s
          | (Some records, s) =>
              match run_on double mw names sort cluster shuffle resample unweighter records with
              | ModelCres.Panicked => finish Crashed s
              | ModelCres.Failed e => finish (status_of e) s
              | Wrote weights =>
                  match dio_update_all start faults cap double show xml checks mw names scaling files weights s with
                  | (Ok _, s) => finish Success s
                  | (Err _, s) => finish Failure s
                  | (Panic, s) => finish Crashed s
                  end
              end
          end
      end
  end.
End Program.
Arguments event_paths start {N}. Arguments disk_program start faults cap {N}.
