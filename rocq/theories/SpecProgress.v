(** Specification for C83: which messages are shown. *)
From Verif Require Import Base ModelProgress.

(** Of messages with their levels, those that are shown with the given maximum level *)
Definition visible {M} (max : level) (msgs : list (level * M)) : list M :=
  map snd (filter (fun m => rank (fst m) <=? rank max) msgs).

(** Runs one after the other in the same process, with their results *)
Fixpoint in_sequence {L R} (runs : list (L -> L * R)) (s : L) : L * list R :=
  match runs with
  | [] => (s, [])
  | run :: runs => let '(s, r) := run s in let '(s, rs) := in_sequence runs s in (s, r :: rs)
  end.

(** Messages of cres-classify-events about one file *)
Definition file_messages (footer_fails : nat -> nat -> bool) (nregions k : nat) : list (level * classify_msg) :=
  (Info, CReading k) :: map (fun i => (Error, CFooter k i)) (filter (footer_fails k) (seq 0 nregions)).
