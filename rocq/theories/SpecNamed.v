(** The weights of a HepMC record, by position and by name. *)
From Coq Require Import Ascii List NArith.
From Verif Require Import Num ModelText ModelIO ModelHepMC SpecText SpecFormats SpecHepMC.
Import ListNotations.

Section Named.
Context {N : NumOps} (double : list ascii -> option (N * list ascii)).

(** Number [i] (counting from 0) of the weights in the first line of the record is [v]. *)
Definition weight_at (record : list ascii) (i : nat) (v : N) : Prop :=
  exists n pre toks t more, before_weights n pre /\ record = pre ++ t ++ more /\ word_list toks t /\ heads whitespace more /\
    length toks = N.to_nat n /\ exists tok junk, nth_error toks i = Some tok /\ double tok = Some (v, junk).

(** The record has a line of different names, and the weight with this name is [v]. *)
Definition weight_named (record name : list ascii) (v : N) : Prop :=
  exists l i, l <> [] /\ NoDup l /\ weight_names record l /\ nth_error l i = Some name /\ weight_at record i v.
End Named.

(** HepMC files whose records can be found again after they were rewritten *)
Definition hepmc_file (file : list ascii) : Prop :=
  detect_event_file_format file = HepMC2 /\ utf8 file = true /\ ~ finishes_with event_line file.

(** All records of these files, in order *)
Definition hepmc_contents (files records : list (list ascii)) : Prop :=
  exists recss, Forall2 (fun file rs => detect_event_file_format file = HepMC2 /\ hepmc_records (hepmc_open file) = Some rs) files recss /\
    records = concat recss.
