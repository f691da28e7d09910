(** Model of the interplay of progress bars and logging: src/progress_bar.rs, src/c_api/log.rs, and the
    places where bars are created and messages are logged: src/cres.rs:181-293,
    src/resampler.rs:73-113, src/io.rs:595-618, src/bin/classify-events.rs:31-153.
    What a bar draws, messages of level "debug" and "trace", and messages of user-defined components
    are not modelled.  Logging is as in env_logger with a single level for all modules. *)
From Coq Require Import Ascii String ZArith.
From Verif Require Import Base Num ModelEvent ModelText ModelStripper ModelIO ModelCell ModelSeeds ModelResampler ModelCres ModelLog ModelPartition ModelClassify.
From Verif Require ModelCApi.
Open Scope list_scope.

(** [log::LevelFilter] and [log::Level], with the order derived for them *)
Inductive level := Off | Error | Warn | Info | Debug | Trace.
Definition rank (l : level) : nat :=
  match l with Off => 0 | Error => 1 | Warn => 2 | Info => 3 | Debug => 4 | Trace => 5 end.
Definition enabled (max l : level) : bool := rank l <=? rank max.

Section Bars.
Context {M : Type}.

(** State of logging in the process: [log::max_level], and the messages shown so far *)
Record logger := mkLogger { lg_level : level; lg_shown : list M }.

(** [log::error!], [warn!], [info!] *)
Definition log_at (l : level) (m : M) (s : logger) : logger :=
  if enabled (lg_level s) l then mkLogger (lg_level s) (lg_shown s ++ [m]) else s.
Definition log_all (msgs : list (level * M)) (s : logger) : logger :=
  fold_left (fun s m => log_at (fst m) (snd m) s) msgs s.
(** [log::set_max_level] *)
Definition set_max_level (l : level) (s : logger) : logger := mkLogger l (lg_shown s).

(** src/progress_bar.rs:24-37 *)
Inductive bar_kind := NoProgress | Indicatif | Logbar.
Record bar := mkBar { bar_of : bar_kind; logging_disabled : bool }.
(** src/progress_bar.rs:39-46 [ProgressBar::default] *)
Definition bar_default : bar := mkBar NoProgress false.
(** src/progress_bar.rs:65-103 [ProgressBar::new]; [attended]: is the standard error output a terminal? *)
Definition bar_new (attended : bool) (s : logger) : bar * logger :=
  match lg_level s with
  | Info => (mkBar (if attended then Indicatif else Logbar) true, set_max_level Off s)
  | _ => (bar_default, s)
  end.
(** src/progress_bar.rs:53-59 [finish].  A bar that is dropped without it does nothing. *)
Definition bar_finish (b : bar) (s : logger) : logger :=
  if logging_disabled b then set_max_level Info s else s.
End Bars.
Arguments logger : clear implicits.

(** ** A run of the library *)
Section Run.
Context (N : NumOps).
(** Messages of a run: those of ModelLog.v, "Reading events" (src/cres.rs:238), "Initialising
    nearest-neighbour search" (src/resampler.rs:84), and those of the observer (resampler.rs:414-424) *)
Inductive run_msg (O : Type) := MLine (l : log_line N) | MReading | MInit | MObserver (o : O).
Arguments MLine {O}. Arguments MReading {O}. Arguments MInit {O}. Arguments MObserver {O}.
Context {O : Type}.

(** level of the messages of ModelLog.v *)
Definition severity (l : log_line N) : level :=
  match l with LIgnored _ | LCategories _ => Warn | _ => Info end.
Definition log_lines (ls : list (log_line N)) : logger (run_msg O) -> logger (run_msg O) :=
  log_all (map (fun l => (severity l, MLine l)) ls).

Inductive run_result (E : Type) := RPanic | RError (e : E) | RSuccess.
Arguments RPanic {E}. Arguments RError {E}. Arguments RSuccess {E}.

Context (Rec Err S : Type) (is_ntuple : Rec -> bool) (convert : Rec -> Event N + Err) (cluster : Event N -> Event N + Err).

(** src/resampler.rs:73-113 [resample].  [prepare]: the construction of the neighbour search;
    [treat_seeds]: the loop over the seeds, with what the observer reports when it is finished;
    [None]: panic *)
Definition resample_logged (attended : bool) (prepare : list (Event N) -> option S)
    (treat_seeds : S -> list (Event N) -> option (list (Event N) * list O))
    (events : list (Event N)) (s : logger (run_msg O)) : logger (run_msg O) * option (list (Event N)) :=
  match omap ev_weight events with
  | None => (s, None)
  | Some wts =>
      let s := log_at Info (MLine (LInitial (weight_stats nsum wts))) s in
      let s := log_at Info MInit s in
      match prepare events with
      | None => (s, None)
      | Some search =>
          let s := log_at Info (MLine (LCells (length (filter (fun w => nltb w n0) wts)))) s in
          let '(progress, s) := bar_new attended s in
          match treat_seeds search events with
          | None => (s, None)
          | Some (events, obs) =>
              let s := bar_finish progress s in
              (log_all (map (fun o => (Info, MObserver o)) obs) s, Some events)
          end
      end
  end.

(** src/io.rs:595-618 [CombinedFileIO::update_all_weights].  [update]: what it does to the files; an
    error or a panic.  All errors occur after the bar was created ([rewind] has none). *)
Definition update_logged (attended : bool) (update : list (list N) -> run_result Err) (weights : list (list N))
    (s : logger (run_msg O)) : logger (run_msg O) * run_result Err :=
  let '(progress, s) := bar_new attended s in
  match update weights with
  | RSuccess => (bar_finish progress s, RSuccess)
  | e => (s, e)
  end.

(** src/cres.rs:181-230 [Cres::run] with the resampler and the input/output of the library.
    [hint]: lower bound of [size_hint] *)
Definition run_logged (mw : bool) (sort : sorter) hash (psum : list N -> N) (attended : bool) (hint : nat)
    (shuffle : list (Event N + @cres_error Err) -> list (Event N + @cres_error Err))
    prepare treat_seeds (unweighter : list (Event N) -> option (list (Event N) + Err)) update
    (records : list (Rec + Err)) (s : logger (run_msg O)) : logger (run_msg O) * run_result (@cres_error Err) :=
  (* read_events, cres.rs:232-293 *)
  let '(event_progress, s) :=
    if 0 <? hint then bar_new attended s else (bar_default, log_at Info MReading s) in
  let '(pushed, res) := read_loop is_ntuple convert cluster 0 records in
  match res with
  | Some err => (s, RError err)
  | None =>
  let s := bar_finish event_progress s in
  match collect (shuffle pushed) with
  | inr err => (s, RError err)
  | inl events =>
  let nevents := length events in
  let s := log_lines [LRead nevents] s in
  let events := filter (fun e => negb (match ev_out e with [] => true | _ => false end)) events in
  let s := if length events <? nevents then log_lines [LIgnored (nevents - length events)] s else s in
  let s := if enabled (lg_level s) Warn then log_lines (log_multiplicities sort hash events) s else s in
  match resample_logged attended prepare treat_seeds events s with
  | (s, None) => (s, RPanic)
  | (s, Some events) =>
  match unweighter events with
  | None => (s, RPanic)
  | Some (inr err) => (s, RError (UnweightErr err))
  | Some (inl events) =>
  let events := sort _ ev_leb events in
  match omap ev_weight events with
  | None => (s, RPanic)
  | Some wts =>
  let s := log_lines [LFinal (weight_stats psum wts)] s in
  match weights_table mw nevents events with
  | None => (s, RPanic)
  | Some ws =>
  match update_logged attended update ws s with
  | (s, RPanic) => (s, RPanic)
  | (s, RError err) => (s, RError (IOErr err))
  | (s, RSuccess) => (s, RSuccess)
  end end end end end end end.

(** The resampler as component of [cres_run] in ModelCres.v *)
Definition resample_of (prepare : list (Event N) -> option S)
    (treat_seeds : S -> list (Event N) -> option (list (Event N) * list O)) (events : list (Event N)) : option (list (Event N) + Err) :=
  match omap ev_weight events with
  | None => None
  | Some _ => match prepare events with
              | None => None
              | Some search => match treat_seeds search events with Some (events, _) => Some (inl events) | None => None end
              end
  end.
End Run.
Arguments MLine {N O}. Arguments MReading {N O}. Arguments MInit {N O}. Arguments MObserver {N O}.
Arguments RPanic {E}. Arguments RError {E}. Arguments RSuccess {E}.
Arguments severity {N}. Arguments log_lines {N O}. Arguments resample_logged {N O S}. Arguments update_logged {N O Err}.
Arguments run_logged {N O Rec Err S}. Arguments resample_of {N O Err S}.

(** ** The program cres-classify-events *)
Inductive classify_msg := CUsing (nregions : nat) | CReading (file : nat) | CFooter (file region : nat) | CDone.

(** [size_hint().0] of the readers of text files: src/stripper_xml.rs:127-129; the readers of HepMC and
    LHEF files have the default, 0 *)
Definition size_hint (checks : bool) (nsubevents : BinNums.N) (f : format) (file : text) : nat :=
  match f with
  | StripperXml => match stripper_open checks nsubevents file with Some r => N.to_nat (sr_rem r) | None => 0 end
  | _ => 0
  end.

Section Classify.
Context (N : NumOps) (double : parser N) (checks mw : bool) (sort : sorter) (nsubevents : text -> BinNums.N) (attended : bool).
(** [footer_fails k i]: [write_footer] fails for region [i] of file number [k].  Simplification: then
    nothing is written; other file operations do not fail. *)
Context (footer_fails : nat -> nat -> bool).

Fixpoint imap {A B} (f : nat -> A -> B) (i : nat) (l : list A) : list B :=
  match l with [] => [] | a :: l => f i a :: imap f (S i) l end.

(** src/bin/classify-events.rs:108-153 [classify_byte_records].  The bar is never finished. *)
Definition classify_file_logged (cluster : Event N -> option (Event N)) (dist : Event N -> Event N -> N)
    (vp : list (Bisection N (Event N))) (k : nat) (file : text) (s : logger classify_msg) : logger classify_msg * res (list text) :=
  let f := detect_event_file_format file in
  match read_records checks (nsubevents file) f file with
  | None => (s, Panic)
  | Some (header, records) =>
      let '(event_progress, s) :=
        if 0 <? size_hint checks (nsubevents file) f file then bar_new attended s else (bar_default, s) in
      match classify_loop double mw sort cluster dist vp f records (repeat header (partition_len vp)) with
      | Ok outs =>
          (log_all (concat (imap (fun i (_ : text) => if footer_fails k i then [(Error, CFooter k i)] else []) 0 outs)) s,
           Ok (imap (fun i out => if footer_fails k i then out else out ++ footer_line f) 0 outs))
      | Err e => (s, Err e)
      | Panic => (s, Panic)
      end
  end.

(** src/bin/classify-events.rs:72-95: the loop over the files *)
Fixpoint classify_files_logged cluster dist vp (k : nat) (files : list text) (s : logger classify_msg)
    : logger classify_msg * res (list (list text)) :=
  match files with
  | [] => (log_at Info CDone s, Ok [])
  | file :: rest =>
      let s := log_at Info (CReading k) s in
      match classify_file_logged cluster dist vp k file s with
      | (s, Ok outs) =>
          match classify_files_logged cluster dist vp (S k) rest s with
          | (s, Ok l) => (s, Ok (outs :: l))
          | (s, e) => (s, e)
          end
      | (s, Err e) => (s, Err e)
      | (s, Panic) => (s, Panic)
      end
  end.

(** src/bin/classify-events.rs:31-97 after the logger was initialised, and without the message about
    the version *)
Definition classify_main_logged (C : Type) (cluster : C -> Event N -> option (Event N)) (dist : C -> Event N -> Event N -> N)
    (unyaml : text -> option (C * list (Bisection N (Event N)))) (part_file : text) (files : list text)
    (s : logger classify_msg) : logger classify_msg * res (list (list text)) :=
  match unyaml part_file with
  | None => (s, Err (InvalidEntry "partition"))
  | Some (c, vp) => classify_files_logged (cluster c) (dist c) vp 0 files (log_at Info (CUsing (partition_len vp)) s)
  end.
End Classify.
Arguments classify_file_logged {N}. Arguments classify_files_logged {N}. Arguments classify_main_logged {N} double checks mw sort nsubevents attended footer_fails {C}.

(** ** src/c_api/log.rs *)
(** Logging in a C program: has a logger been set?; the state of logging; the errors of the threads *)
Record c_process (M : Type) := mkProcess { p_logger : bool; p_log : logger M; p_errors : ModelCApi.errors }.
Arguments mkProcess {M}. Arguments p_logger {M}. Arguments p_log {M}. Arguments p_errors {M}.
(** A process starts without a logger and with level [Off]. *)
Definition process_start {M} : c_process M := mkProcess false (mkLogger Off []) (fun _ => None).

(** src/c_api/log.rs:21-42 [cres_logger_from_env].  [utf8]: is the name of the variable valid UTF-8?;
    [value]: the level in the variable, if it is set.  [init_from_env] panics if there is a logger. *)
Definition cres_logger_from_env {M} (p : c_process M) (thread : nat) (utf8 : bool) (value : option level) : c_process M * Z :=
  let panic := (mkProcess (p_logger p) (p_log p) (ModelCApi.set_error (p_errors p) thread ModelCApi.panic_text), (-1)%Z) in
  if negb utf8 then panic
  else if p_logger p then panic
  else (mkProcess true (set_max_level (match value with Some l => l | None => Info end) (p_log p)) (p_errors p), 0%Z).
