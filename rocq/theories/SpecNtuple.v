(** What the events of ntuples say. *)
From Coq Require Import ZArith.
From Verif Require Import Base Num ModelEvent ModelText SpecRecord ModelNtuple.
Open Scope list_scope.

Section Ntuple.
Context {N : NumOps} {Other : Type}.

(** The outgoing particles: the first [nt_nparticle] entries of the arrays *)
Definition ntuple_particles (r : ntuple_event N Other) (l : list (Z * (N * N * N * N))) : Prop :=
  nt_nparticle r = Z.of_nat (length l) /\
  forall i id e px py pz, nth_error l i = Some (id, (e, px, py, pz)) ->
    nth_error (nt_pdg r) i = Some id /\ nth_error (nt_energy r) i = Some e /\
    nth_error (nt_px r) i = Some px /\ nth_error (nt_py r) i = Some py /\ nth_error (nt_pz r) i = Some pz.

(** Weights other than the main one are used if the program was built for several weights and the
    name was requested. *)
Definition used (mw : bool) (names : list text) (name : string) : Prop := mw = true /\ In (lit name) names.
Definition ntuple_weights (mw : bool) (names : list text) (r : ntuple_event N Other) (ws : list N) : Prop :=
  exists w2 me me2, ws = nt_weight r :: w2 ++ me ++ me2 /\
    (used mw names "2" -> w2 = [nt_weight2 r]) /\ (~ used mw names "2" -> w2 = []) /\
    (used mw names "ME" -> me = [nt_me r]) /\ (~ used mw names "ME" -> me = []) /\
    (used mw names "ME2" -> me2 = [nt_me2 r]) /\ (~ used mw names "ME2" -> me2 = []).

(** Nothing but the weights to be used differs. *)
Definition same_but_weights (mw : bool) (names : list text) (r r' : ntuple_event N Other) : Prop :=
  nt_nparticle r' = nt_nparticle r /\ nt_pdg r' = nt_pdg r /\ nt_energy r' = nt_energy r /\ nt_px r' = nt_px r /\
  nt_py r' = nt_py r /\ nt_pz r' = nt_pz r /\ nt_other r' = nt_other r /\
  (~ used mw names "2" -> nt_weight2 r' = nt_weight2 r) /\
  (~ used mw names "ME" -> nt_me r' = nt_me r) /\
  (~ used mw names "ME2" -> nt_me2 r' = nt_me2 r).

(** The record as it should be written: unchanged for no weights, otherwise with the given weights *)
Definition ntuple_rewritten (mw : bool) (names : list text) (ws : list N) (r r' : ntuple_event N Other) : Prop :=
  (ws = [] /\ r' = r) \/ (ws <> [] /\ ntuple_weights mw names r' ws /\ same_but_weights mw names r r').

(** The states of a file after reading and rewinding in any order *)
Inductive nt_history (events : list (ntuple_event N Other)) : nt_io N Other -> Prop :=
| nt_opened : nt_history events (nt_open events)
| nt_read s : nt_history events s -> nt_history events (snd (nt_next s))
| nt_rewound s : nt_history events s -> nt_history events (nt_rewind s).
End Ntuple.
