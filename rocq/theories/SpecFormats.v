(** What it means to split an event file into header and records. *)
From Coq Require Import Ascii String List.
From Verif Require Import SpecText.
Import ListNotations.
Open Scope list_scope.

Definition newline : ascii := "010"%char.

(** A HepMC file is its header followed by its records.  Each record starts with 'E', and
    this is its only line starting with 'E'.  The header and all records but the last are
    complete lines. *)
Definition event_line : list ascii := [newline; "E"%char].
Definition hepmc_parts (file header : list ascii) (records : list (list ascii)) : Prop :=
  file = header ++ concat records /\ records <> [] /\
  ~ occurs event_line header /\ finishes_with [newline] header /\
  (forall r, In r records -> begins_with ["E"%char] r /\ ~ occurs event_line r) /\
  all_but_last (finishes_with [newline]) records.

(** An LHEF file is its header up to the end of the init block, its records and a tail without
    a complete record.  Each record finishes with </event> and contains it nowhere else. *)
Definition event_end : list ascii := list_ascii_of_string "</event>".
Definition init_end : list ascii := newline :: list_ascii_of_string "</init>".
(** [m] finishes [t] and occurs nowhere before *)
Definition first_at_end (m t : list ascii) : Prop :=
  finishes_with m t /\ forall a b, t = a ++ m ++ b -> b = [].
Definition lhef_parts (file header : list ascii) (records : list (list ascii)) (tail : list ascii) : Prop :=
  file = header ++ concat records ++ tail /\
  first_at_end init_end header /\
  (forall r, In r records -> first_at_end event_end r) /\ ~ occurs event_end tail.

(** A STRIPPER XML file is its header followed by its records.  Each record starts with "<se"
    and contains it nowhere else. *)
Definition subevent_start : list ascii := list_ascii_of_string "<se".
Definition stripper_parts (file header : list ascii) (records : list (list ascii)) : Prop :=
  file = header ++ concat records /\ records <> [] /\
  ~ occurs subevent_start header /\
  (forall r, In r records -> begins_with subevent_start r /\
     forall a b, r = a ++ subevent_start ++ b -> a = []).

(** *** Weights.  One entry of a text is replaced: what comes before it fulfils [before], of the
    blanks in front of it only the first is kept, everything after it is unchanged. *)
Definition entry_replaced (before : list ascii -> Prop) (new record record' : list ascii) : Prop :=
  exists p c s tok post, record = p ++ c :: s ++ tok ++ post /\ record' = p ++ c :: new ++ post /\
    before p /\ blank c /\ Forall blank s /\ word tok /\ heads whitespace post.

(** The weight of an LHEF record is the third entry of the line after the tag: number of
    particles, process, weight. *)
Definition lhef_before_weight (p : list ascii) : Prop :=
  exists lead line s0 nup s1 idrup, p = lead ++ line ++ newline :: s0 ++ nup ++ s1 ++ idrup /\
    Forall (fun c => whitespace c \/ c = "011"%char) lead /\ line <> [] /\ ~ In newline line /\
    heads (fun c => ~ (whitespace c \/ c = "011"%char)) line /\
    Forall blank s0 /\ word nup /\ blanks s1 /\ word idrup.

(** The weight of a STRIPPER XML record is the value of the attribute at the start of the tag. *)
Definition stripper_weight (record pre num post : list ascii) : Prop :=
  record = pre ++ num ++ post /\
  (exists s, pre = subevent_start ++ s ++ list_ascii_of_string "w=" ++ ["034"%char] /\ blanks s) /\
  Forall number_char num /\ begins_with ["034"%char] post.
