(** Properties of events: C23, C24, C25. *)
From Coq Require Import Reals ZArith SpecFloat.
From Verif Require Import Base BaseProofs Num ModelEvent SpecEvent EventProofs.

(** C23.  An event built from any particles and weights has id 0, keeps the weights as
    given (one weight per event without multiweight support: the last one added, 0 if
    none), contains exactly the given particles with multiplicity, and stores them as
    groups with strictly decreasing ids and decreasing momenta. *)
Theorem C23_build : forall (N : NumOps) (D : N -> Prop) sort mw particles (weights : list N),
  cmp_on N D -> sort_ok sort -> Forall (fun x => mom_in D (snd x)) particles ->
  let ev := build sort (made mw particles weights) in
  ev_id ev = 0 /\ ev_weights ev = (if mw then weights else [last weights n0]) /\
  grouped (ev_out ev) /\ Permutation particles (particles_of (ev_out ev)).
Proof. exact made_build. Qed.
Print Assumptions C23_build.

(** C24.  Looking up a particle id in a built event gives exactly the momenta of the added
    particles with that id (none if there are none), in decreasing order. *)
Theorem C24_lookup : forall (N : NumOps) (D : N -> Prop) sort mw particles (weights : list N) pid,
  cmp_on N D -> sort_ok sort -> Forall (fun x => mom_in D (snd x)) particles ->
  let found := outgoing_with_pid (build sort (made mw particles weights)) pid in
  Permutation (with_id pid particles) found /\ StronglySorted (fun p q => mom_le q p) found.
Proof. exact made_lookup. Qed.
Print Assumptions C24_lookup.

(** C25.  The order in which particles are added does not matter: the events agree in all
    ids and weights, and the momenta compare equal one by one ... *)
Theorem C25_order_irrelevant : forall (N : NumOps) (D : N -> Prop) sort mw particles particles' (weights : list N),
  cmp_on N D -> sort_ok sort -> Forall (fun x => mom_in D (snd x)) particles ->
  Permutation particles particles' ->
  let ev := build sort (made mw particles weights) in
  let ev' := build sort (made mw particles' weights) in
  ev_id ev = ev_id ev' /\ ev_weights ev = ev_weights ev' /\
  Forall2 (fun g h => fst g = fst h /\ Forall2 mom_eqv (snd g) (snd h)) (ev_out ev) (ev_out ev').
Proof. exact made_order. Qed.
Print Assumptions C25_order_irrelevant.

(** ... and over the real numbers the events are the same. *)
Theorem C25_order_irrelevant_exact : forall sort mw particles particles' (weights : list R),
  sort_ok sort -> Permutation particles particles' ->
  build sort (made (N := RN) mw particles weights) = build sort (made (N := RN) mw particles' weights).
Proof. exact made_order_exact. Qed.
Print Assumptions C25_order_irrelevant_exact.

(** The domains of the theorems: all reals, all binary64 numbers except NaN. *)
Theorem C23_domains : cmp_on RN (fun _ => True) /\ cmp_on B64 not_nan.
Proof. split; [exact RN_cmp|exact B64_cmp]. Qed.
Print Assumptions C23_domains.

(** A case: two jets, an electron and a positron, added in two different orders. *)
Definition ev_particles : list (Z * FourVector B64) :=
  Eval vm_compute in
    let v e x y z := fv_from (b64_of_Z e) (b64_of_Z x) (b64_of_Z y) (b64_of_Z z) : FourVector B64 in
    [(90, v 5 3 4 0); (11, v 3 0 1 2); (90, v 13 5 12 0); (-11, v 3 0 0 3)]%Z.
Definition ev_weights_in : list B64 := Eval vm_compute in [b64_of_Z 2; b64_of_Z (-3)].

Definition ev_built mw := build isort (made mw ev_particles ev_weights_in).

Example C23_case :
  sort_ok isort /\ Forall (fun x => mom_in not_nan (snd x)) ev_particles /\
  map (fun g => (fst g, length (snd g))) (ev_out (ev_built true)) = [(90%Z, 2); (11%Z, 1); ((-11)%Z, 1)] /\
  ev_weights (ev_built false) = [b64_of_Z (-3)] /\
  map fv_e (outgoing_with_pid (ev_built true) 90) = [b64_of_Z 13; b64_of_Z 5] /\
  outgoing_with_pid (ev_built true) 21 = [] /\
  Permutation ev_particles (rev ev_particles).
Proof.
  split; [exact isort_ok|]. split.
  { unfold ev_particles. repeat (apply Forall_cons; [repeat (apply Forall_cons; [discriminate|]); constructor|]). constructor. }
  split; [vmr|]. split; [vmr|]. split; [vmr|]. split; [vmr|]. apply Permutation_rev.
Qed.
