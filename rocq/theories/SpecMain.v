(** What the user of cres knows about the input and output files. *)
From Coq Require Import List Ascii.
From Verif Require Import Num ModelEvent ModelText SpecText SpecFormats ModelStripper ModelIO ModelCres SpecCres ModelMain.
Import ListNotations.

Section Spec.
Context {N : NumOps} (D : N -> Prop) (double : parser N) (show : N -> text) (xml : text -> option (xml_tag N))
  (checks mw : bool) (names : list text) (sort : Base.sorter).

(** The XML parser reads no further than the end of the tag [Eventrecord]. *)
Definition stops_at_tag : Prop := forall t rest name nevents nsubevents,
  xml t = Some (XEventrecord name nevents nsubevents) -> xml (t ++ rest) = Some (XEventrecord name nevents nsubevents).

(** Files in which every record can be found again after its weight was replaced. *)
Definition well_formed (scaling : list (text * N)) (file : text) : Prop :=
  utf8 file = true /\
  match detect_event_file_format file with
  | HepMC2 => ~ finishes_with event_line file
  | Lhef => occurs init_end file /\
      forall header records tail, lhef_parts file header records tail ->
      forall r, In r records -> finishes_with (newline :: event_end) r
  | StripperXml => occurs subevent_start file /\ ~ finishes_with subevent_start file /\
      forall header records, stripper_parts file header records ->
      forall name nevents nsubevents, xml header = Some (XEventrecord name nevents nsubevents) ->
      (checks = true -> (BinNat.N.of_nat (length records) <= nsubevents)%N) /\
      forall scale, lookup_scale scaling name = Some scale ->
      forall r, In r records -> exists pre num post v,
        stripper_weight r pre num post /\ double num = Some (v, []) /\ D (nmul scale v)
  | BlackHatNtuple => False
  end.

(** Weights that survive being written and read: no weights at all, or one that can be
    represented, also after dividing by a scale factor. *)
Definition writable (scaling : list (text * N)) (weights : list N) : Prop :=
  weights = [] \/ exists w, weights = [w] /\ D w /\
    forall name scale, In (name, scale) scaling -> D (ndiv w scale) /\ nmul scale (ndiv w scale) = w.

(** Reading all these files delivers these events. *)
Definition reads (inputs : list text) (evs : list (Event N)) : Prop :=
  exists scaling s fuel records s',
    open_inputs xml checks inputs = Ok (scaling, s) /\
    read_all double show xml checks scaling fuel s = Some (records, s') /\
    Forall2 (fun r ev => exists x, r = inl x /\ try_convert double mw names sort x = inl ev) records evs.

(** The input files, with those that hold events replaced by the output files *)
Fixpoint replace_events (inputs outputs : list text) : list text :=
  match inputs with
  | [] => []
  | file :: inputs =>
      match (if is_xml file then xml file else None), outputs with
      | Some (XNormalization _ _), _ => file :: replace_events inputs outputs
      | _, out :: outputs => out :: replace_events inputs outputs
      | _, [] => file :: replace_events inputs []
      end
  end.

(** The same event with the new weights, if there are any *)
Definition reweighted (ev : Event N) (weights : list N) : Event N :=
  mkEvent (ev_id ev) (written_weights (ev_weights ev) weights) (ev_out ev).
Definition reweighted_all (evs : list (Event N)) (W : list (list N)) : list (Event N) :=
  map (fun x => reweighted (fst x) (snd x)) (combine evs W).

(** The event has identified outgoing particles after the clustering *)
Definition keeps_particles (cluster : Event N -> option (Event N)) (ev : Event N) : bool :=
  match cluster ev with Some ev => has_particles ev | None => false end.
End Spec.

(** *** Formats *)
Definition white_ascii (c : ascii) : Prop := In c [" "; "009"; "010"; "012"; "013"]%char.
(** After white space, the file begins like this. *)
Definition begins_with_after_blanks (start file : list ascii) : Prop :=
  exists s rest, file = s ++ start ++ rest /\ Forall white_ascii s.
