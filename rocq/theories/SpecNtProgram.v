(** What the user of cres knows about runs on ntuples. *)
From Coq Require Import Reals.
From Verif Require Import Base Num ModelEvent SpecWeights ModelText SpecRecord ModelNtuple SpecNtuple SpecCres.

Section Spec.
Context {N : NumOps} {Other : Type}.

(** The weights that are read and rewritten *)
Inductive chosen (mw : bool) (names : list text) : (ntuple_event N Other -> N) -> Prop :=
| chosen_main : chosen mw names nt_weight
| chosen_2 : used mw names "2" -> chosen mw names nt_weight2
| chosen_me : used mw names "ME" -> chosen mw names nt_me
| chosen_me2 : used mw names "ME2" -> chosen mw names nt_me2.

(** The record has outgoing particles that are identified after the clustering: [ev] is the event
    that is read. *)
Definition identified (cluster : Event N -> option (Event N)) (ev : Event N) : bool :=
  match cluster ev with Some ev => has_particles ev | None => false end.

(** Every entry of the arrays that is announced exists. *)
Definition complete (r : ntuple_event N Other) : Prop := exists l, ntuple_particles r l.
End Spec.
