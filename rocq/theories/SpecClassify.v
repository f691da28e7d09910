(** What classifying the events of a file means. *)
From Coq Require Import Ascii String List.
From Verif Require Import SpecText.
Import ListNotations.
Open Scope list_scope.

Definition white (c : ascii) : Prop := whitespace c \/ c = "011"%char.

(** The last line of a file in each of the formats *)
Definition hepmc_end : list ascii := list_ascii_of_string "HepMC::IO_GenEvent-END_EVENT_LISTING".
Definition lhef_end : list ascii := list_ascii_of_string "</LesHouchesEvents>".
Definition stripper_end : list ascii := list_ascii_of_string "</Eventrecord>".

(** The text [r] finishes with [footer], apart from white space; [y] comes before *)
Definition footed (footer r y : list ascii) : Prop := exists ws, r = y ++ footer ++ ws /\ Forall white ws.
(** [r'] is [r] without [footer] at the end, if it has one there *)
Definition without_footer (footer r r' : list ascii) : Prop :=
  footed footer r r' \/ (r' = r /\ ~ exists y, footed footer r y).

(** A text that consists of complete lines, the last of which is not blank *)
Definition full_line (t : list ascii) : Prop := exists a c, t = a ++ [c; "010"%char] /\ ~ white c.

(** The elements of [l] to which [assigned] gives the number [i] *)
Definition selected {A} (i : nat) (assigned : list nat) (l : list A) : list A :=
  map snd (filter (fun x => Nat.eqb (fst x) i) (combine assigned l)).
