(** Specification vocabulary for a complete run. *)
From Verif Require Import Base Num ModelEvent ModelCres SpecWeights.

Section Spec.
Context (N : NumOps) {Rec Err : Type} (convert : Rec -> Event N + Err) (cluster : Event N -> Event N + Err).

(** What can be wrong with one item delivered by the event reader, and the error that
    describes it. *)
Inductive fault : Rec + Err -> cres_error -> Prop :=
| fault_read e : fault (inr e) (IOErr e)
| fault_convert rec e : convert rec = inr e -> fault (inl rec) (ConversionErr e)
| fault_cluster rec ev e : convert rec = inl ev -> cluster ev = inr e -> fault (inl rec) (ClusterErr e)
| fault_id rec ev ev' : convert rec = inl ev -> cluster ev = inl ev' -> ev_id ev' <> 0 ->
    fault (inl rec) (IdErr (ev_id ev')).

(** [e] is the converted and clustered event of record number [n]. *)
Definition event_of (n : nat) (r : Rec + Err) (e : Event N) : Prop :=
  exists rec ev ev', r = inl rec /\ convert rec = inl ev /\ cluster ev = inl ev' /\ ev_id ev' = 0 /\
    e = mkEvent n (ev_weights ev') (ev_out ev').

(** [evs] lists the events of all records, in the order of the records. *)
Definition events_of (records : list (Rec + Err)) (evs : list (Event N)) : Prop :=
  length evs = length records /\
  forall n r e, nth_error records n = Some r -> nth_error evs n = Some e -> event_of n r e.

(** The event has identified outgoing particles. *)
Definition has_particles (e : Event N) : bool := negb (length (ev_out e) =? 0).

(** The completion order of the parallel tasks is any permutation. *)
Definition reorders {A} (shuffle : list A -> list A) : Prop := forall l, Permutation l (shuffle l).

End Spec.
Arguments fault {N Rec Err}. Arguments event_of {N Rec Err}. Arguments events_of {N Rec Err}.
Arguments has_particles {N}.

(** The weights in the output files, for input weights [old] and the weights [new] passed to
    the writer. *)
Definition written (old new : sample) : sample := map (fun x => written_weights (N := RN) (fst x) (snd x)) (combine old new).

