(** Model of reading files piece by piece: [BufRead::read_until] and [BufRead::fill_buf] on a
    source that delivers its bytes in pieces of any size and whose reads may fail, and the readers
    of the text formats on top of it: src/hepmc2.rs:43-66, 97-114, src/lhef.rs:49-61, 195-211,
    src/stripper_xml.rs:65-97, 518-535 and src/io.rs:31-66, 250-281, src/stripper_xml.rs:289-335.
    The model on the contents of files (ModelHepMC.v, ModelLHEF.v, ModelStripper.v, ModelIO.v) takes
    all reads to succeed.  Compression is not modelled: pieces are what the decoder delivers. *)
From Verif Require Import Base Num ModelEvent ModelText ModelHepMC ModelLHEF ModelStripper ModelIO ModelMain.

(** The results of consecutive calls of [read]: some bytes (none: end of the file), or an error
    other than [Interrupted], which is retried by the standard library *)
Inductive piece := Data (bytes : text) | Failure.
Definition source := list piece.

Definition has (c : ascii) (t : text) : bool := existsb (ceq c) t.

(** std [BufRead::read_until]: the bytes appended, whether there was an error, what remains *)
Fixpoint read_until_s (c : ascii) (s : source) : text * bool * source :=
  match s with
  | [] => ([], false, [])
  | Failure :: s' => ([], true, s')
  | Data [] :: s' => ([], false, s')
  | Data b :: s' =>
      let '(x, r) := read_until c b in
      if has c b then (x, false, match r with [] => s' | _ => Data r :: s' end)
      else let '(y, failed, s'') := read_until_s c s' in (x ++ y, failed, s'')
  end.

(** The loops of the readers, see [scan] in ModelText.v *)
Inductive scanned_s := FoundS (record : text) (rest : source) | AtEndS (record : text) (rest : source) | FailS (rest : source).
Fixpoint scan_s (fuel : nat) (c : ascii) (marker record : text) (s : source) : scanned_s :=
  match fuel with
  | 0 => AtEndS record s
  | S fuel =>
      match read_until_s c s with
      | (_, true, rest) => FailS rest
      | ([], false, rest) => AtEndS record rest
      | (x, false, rest) =>
          if ends_with (record ++ x) marker then FoundS (record ++ x) rest
          else scan_s fuel c marker (record ++ x) rest
      end
  end.
Definition size (s : source) : nat := fold_right (fun p n => match p with Data b => length b + n | Failure => n end) 0 s.

(** What the function [read_raw] of a reader makes of the bytes it found *)
Inductive verdict (St : Type) := VRecord (record : text) (st : St) | VEnd | VError | VPanic.
Arguments VRecord {St}. Arguments VEnd {St}. Arguments VError {St}. Arguments VPanic {St}.
Record format_reader (St : Type) := mkFormat {
  f_char : ascii; f_mark : text; f_start : text;
  f_found : St -> text -> verdict St; f_end : St -> text -> verdict St;
  f_header_mark : text; f_header : bool -> text -> option text }.
Arguments mkFormat {St}. Arguments f_char {St}. Arguments f_mark {St}. Arguments f_start {St}.
Arguments f_found {St}. Arguments f_end {St}. Arguments f_header_mark {St}. Arguments f_header {St}.

(** src/hepmc2.rs:43-66, 97-114 *)
Definition hepmc_format : format_reader unit :=
  mkFormat "E" event_mark ["E"%char]
    (fun _ record => let record := removelast record in if utf8 record then VRecord record tt else VPanic)
    (fun _ record => if 1 <? length record then if utf8 record then VRecord record tt else VPanic else VEnd)
    event_mark (fun _ header => Some (removelast header)).
(** src/lhef.rs:49-61, 195-211 *)
Definition lhef_format : format_reader unit :=
  mkFormat ">" lhef_event_end []
    (fun _ record => if utf8 record then VRecord record tt else VPanic) (fun _ _ => VEnd)
    lhef_init_end (fun _ header => Some header).
(** src/stripper_xml.rs:65-97, 518-535; the state is the number of remaining records.  In
    [init_source] the end of the file and the marker are treated alike. *)
Definition stripper_format (checks : bool) : format_reader N :=
  let found rem record :=
    if utf8 record then match usize_pred checks rem with Some n => VRecord record n | None => VPanic end else VError in
  mkFormat "e" subevent_mark subevent_mark
    (fun rem record => found rem (firstn (length record - 3) record))
    (fun rem record => if 3 <? length record then found rem record else VEnd)
    subevent_mark
    (fun _ header => if length header <? 3 then if checks then None else Some header else Some (firstn (length header - 3) header)).

Section Reader.
Context {St : Type} (F : format_reader St).

(** [init_source]; [None]: a panic *)
Inductive opened := Opened (header : text) (rest : source) | OpenFailed | OpenCrashed.
Definition open_s (s : source) : opened :=
  match scan_s (S (size s)) (f_char F) (f_header_mark F) [] s with
  | FailS _ => OpenFailed
  | FoundS h rest => match f_header F true h with Some h => Opened h rest | None => OpenCrashed end
  | AtEndS h rest => match f_header F false h with Some h => Opened h rest | None => OpenCrashed end
  end.

(** [read_raw] *)
Inductive next_record := NRecord (record : text) (st : St) (rest : source) | NEnd | NError | NPanic.
Definition read_raw_s (st : St) (s : source) : next_record :=
  match scan_s (S (size s)) (f_char F) (f_mark F) (f_start F) s with
  | FailS _ => NError
  | FoundS r rest => match f_found F st r with VRecord r st => NRecord r st rest | VEnd => NEnd | VError => NError | VPanic => NPanic end
  | AtEndS r rest => match f_end F st r with VRecord r st => NRecord r st rest | VEnd => NEnd | VError => NError | VPanic => NPanic end
  end.

(** The iterator: all records up to the end, the first error, or a panic *)
Inductive read_end := AllRead | ReadFailed | ReadCrashed.
Fixpoint read_rest_s (fuel : nat) (st : St) (s : source) : list text * read_end :=
  match fuel with
  | 0 => ([], AllRead)
  | S fuel =>
      match read_raw_s st s with
      | NEnd => ([], AllRead)
      | NError => ([], ReadFailed)
      | NPanic => ([], ReadCrashed)
      | NRecord r st rest => let '(l, e) := read_rest_s fuel st rest in (r :: l, e)
      end
  end.
Definition read_records_s (st : St) (s : source) : list text * read_end := read_rest_s (S (S (size s))) st s.
End Reader.

(** src/io.rs:250-281 [detect_event_file_format]: looks at the first piece; if that cannot be read
    the file is taken for HepMC *)
Definition detect_s (s : source) : format :=
  match s with
  | Failure :: _ => HepMC2
  | Data b :: _ => detect_event_file_format b
  | [] => detect_event_file_format []
  end.

Section Scaling.
Context (N : NumOps) (xml : text -> option (xml_tag N)).
(** What can be read before the first error *)
Fixpoint before_failure (s : source) : text * bool :=
  match s with
  | Data b :: s => let '(t, f) := before_failure s in (b ++ t, f)
  | Failure :: _ => ([], true)
  | [] => ([], false)
  end.
(** src/stripper_xml.rs:289-335: files that are read for the first time from these sources.  (An
    error while the tag Normalization is deserialised is an error; the tag Eventrecord may be complete
    before the error.) *)
Fixpoint event_files_s (files : list (text * source)) : res (list text * list (stripper_tag N)) :=
  match files with
  | [] => Ok ([], [])
  | (file, s) :: rest =>
      let other := bind (event_files_s rest) (fun '(fs, ts) => Ok (file :: fs, ts)) in
      match s with
      | Failure :: _ => other
      | [] => other
      | Data b :: _ =>
          if is_xml b then
            let '(t, failed) := before_failure s in
            match xml t with
            | None => Err (InvalidEntry "XML")
            | Some (XNormalization name scale) =>
                if failed then Err (InvalidEntry "XML")
                else bind (event_files_s rest) (fun '(fs, ts) => Ok (fs, Normalization name scale :: ts))
            | Some (XEventrecord name nevents _) =>
                bind (event_files_s rest) (fun '(fs, ts) => Ok (file :: fs, Eventrecord name nevents :: ts))
            end
          else other
      end
  end.
End Scaling.
