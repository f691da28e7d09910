(** For which records reading panics. *)
From Coq Require Import List Ascii NArith.
From Verif Require Import Num ModelEvent ModelText SpecText SpecFormats SpecHepMC ModelIO ModelMain.
Import ListNotations.
Open Scope list_scope.

(** HepMC: the E line says that the event has no weight. *)
Definition hepmc_without_weights (record : list ascii) : Prop :=
  exists pre rest, record = pre ++ rest /\ before_weights 0 pre /\ heads (fun c => ~ decimal_digit c) rest.

(** LHEF: the line after the tag starts with the number of particles, which is less than two. *)
Definition lhef_too_few (record : list ascii) : Prop :=
  exists lead tag s nup rest, record = lead ++ tag ++ newline :: s ++ nup ++ rest /\
    Forall (fun c => whitespace c \/ c = "011"%char) lead /\ tag <> [] /\ ~ In newline tag /\ heads (fun c => ~ (whitespace c \/ c = "011"%char)) tag /\
    Forall blank s /\ nup <> [] /\ Forall decimal_digit nup /\ heads (fun c => ~ decimal_digit c) rest /\
    (decimal_value nup < 2)%N.

(** STRIPPER XML: somewhere the end of a tag with attributes is followed by the end of the record
    or by a byte that is not ASCII. *)
Definition stripper_cut (record : list ascii) : Prop :=
  exists a b, record = a ++ ["034"%char; ">"%char] ++ b /\ heads (fun c => (128 <= N_of_ascii c)%N) b.

(** A part of the run that changes only weights and drops events: for every sample with one
    weight per event, of the given kind, it returns such a sample (and does not panic). *)
Definition total_step {N : NumOps} {Err : Type} (kind : N -> Prop) (f : list (Event N) -> option (list (Event N) + Err)) : Prop :=
  forall evs, Forall (fun e => exists w, ev_weights e = [w] /\ kind w) evs -> NoDup (map ev_id evs) ->
  exists evs', f evs = Some (inl evs') /\ Forall (fun e => exists w, ev_weights e = [w]) evs' /\
    NoDup (map ev_id evs') /\ incl (map ev_id evs') (map ev_id evs).

(** The file is valid UTF-8 and, if the program was compiled with overflow checks, not in the
    format STRIPPER XML, where an event too many for the announced number is an overflow. *)
Definition readable (checks : bool) (file : list ascii) : Prop :=
  utf8 file = true /\ (checks = false \/ detect_event_file_format file <> StripperXml).

Definition bad_record (r : event_record) : Prop :=
  match r with HepMCRecord _ => False | LHEFRecord t => lhef_too_few t | StripperXmlRecord t => stripper_cut t end.

(** Among the records read from the input files, up to the end or the first that cannot be
    read, some are as above. *)
Definition has_bad_record {N : NumOps} (double : parser N) (show : N -> text) (xml : text -> option (xml_tag N)) (checks : bool) (inputs : list text) : Prop :=
  exists scaling s fuel l s' r, open_inputs xml checks inputs = Ok (scaling, s) /\
    read_all double show xml checks scaling fuel s = Some (l, s') /\ In (inl r) l /\ bad_record r.
