(** Properties of the default distance function: C20, C21, C22. *)
From Coq Require Import Reals ZArith SpecFloat Lra.
From Verif Require Import Base BaseProofs Num ModelEvent ModelDistance SpecWeights SpecEvent SpecDistance
  EventProofs SumProofs PairingProofs DistanceProofs DistanceProofs2.
Local Open Scope R_scope.

(** C20.  For every pt weight and any three events: the distance never panics, is
    non-negative, zero from an event to itself, symmetric, and satisfies the triangle
    inequality (exact arithmetic). *)
Theorem C20_pseudometric : forall sort (km : assignment RN) tau mw ps1 ps2 ps3 (ws1 ws2 ws3 : list R),
  sort_ok sort -> km_ok km -> phys ps1 -> phys ps2 -> phys ps3 ->
  let ev1 := build sort (made (N := RN) mw ps1 ws1) in
  let ev2 := build sort (made (N := RN) mw ps2 ws2) in
  let ev3 := build sort (made (N := RN) mw ps3 ws3) in
  let dist := distance (N := RN) sort km tau in
  exists d12 d23 d13,
    dist ev1 ev2 = Some d12 /\ dist ev2 ev3 = Some d23 /\ dist ev1 ev3 = Some d13 /\
    0 <= d12 /\ dist ev1 ev1 = Some 0 /\ dist ev2 ev1 = Some d12 /\ d13 <= d12 + d23.
Proof. intros *. intros Hs Hkm. exact (@metric sort km tau mw Hs Hkm ps1 ps2 ps3 ws1 ws2 ws3). Qed.
Print Assumptions C20_pseudometric.

(** ... and two events have distance zero exactly if, id by id, they contain the same
    spatial momenta, apart from zero momenta. *)
Theorem C20_zero : forall sort (km : assignment RN) tau mw ps1 ps2 (ws1 ws2 : list R),
  sort_ok sort -> km_ok km -> phys ps1 -> phys ps2 ->
  distance (N := RN) sort km tau (build sort (made (N := RN) mw ps1 ws1)) (build sort (made (N := RN) mw ps2 ws2)) = Some 0
  <-> forall id, let P := with_id id ps1 in let Q := with_id id ps2 in
        let n := Nat.max (length P) (length Q) in
        Permutation (map xyz (filled n P)) (map xyz (filled n Q)).
Proof. exact distance_zero. Qed.
Print Assumptions C20_zero.

(** C21.  The distance is the sum, over the particle ids of both events (in any order, and
    any further ids do not contribute), of the minimal cost of pairing up the momenta. *)
Theorem C21_documented : forall sort (km : assignment RN) tau mw ps1 ps2 (ws1 ws2 : list R) ids,
  sort_ok sort -> km_ok km -> phys ps1 -> phys ps2 ->
  NoDup ids -> (forall id, In id (map fst ps1) \/ In id (map fst ps2) -> In id ids) ->
  exists f : Z -> R,
    (forall id, min_pairing tau (with_id id ps1) (with_id id ps2) (f id)) /\
    distance (N := RN) sort km tau (build sort (made (N := RN) mw ps1 ws1)) (build sort (made (N := RN) mw ps2 ws2))
    = Some (Rsum (map f ids)).
Proof. intros *. intros Hs Hkm. exact (@documented sort km tau mw Hs Hkm ps1 ps2 ws1 ws2 ids). Qed.
Print Assumptions C21_documented.

(** Hence neither the order in which particles were added, nor energies or weights matter. *)
Theorem C21_spatial_only : forall sort (km : assignment RN) tau mw ps1 ps1' ps2 ps2' (ws1 ws1' ws2 ws2' : list R),
  sort_ok sort -> km_ok km -> phys ps1 -> phys ps1' -> phys ps2 -> phys ps2' ->
  Permutation (map spatial ps1) (map spatial ps1') -> Permutation (map spatial ps2) (map spatial ps2') ->
  distance (N := RN) sort km tau (build sort (made (N := RN) mw ps1 ws1)) (build sort (made (N := RN) mw ps2 ws2))
  = distance (N := RN) sort km tau (build sort (made (N := RN) mw ps1' ws1')) (build sort (made (N := RN) mw ps2' ws2')).
Proof. intros *. intros Hs Hkm. exact (@spatial_only sort km tau mw Hs Hkm ps1 ps1' ps2 ps2' ws1 ws1' ws2 ws2'). Qed.
Print Assumptions C21_spatial_only.

(** C22.  For every number of momenta, enumerating the arrangements and the assignment
    algorithm give the same value. *)
Theorem C22_same : forall sort (km : assignment RN) tau (P Q : list (FourVector RN)),
  sort_ok sort -> km_ok km -> Forall physical P -> Forall physical Q -> length P = length Q ->
  exists v, min_paired_distance_naive (N := RN) tau (sort _ (@fv_leb RN) P) Q = Some v /\
            min_paired_distance_hungarian (N := RN) km tau (sort _ (@fv_leb RN) P) Q = Some v.
Proof. exact naive_hungarian. Qed.
Print Assumptions C22_same.

(** The enumeration is exhaustive in binary64 too, including repeated momenta, zeros of
    either sign and infinities: it ends, and returns the least of the rounded sums over all
    arrangements, as long as none of these sums is NaN. *)
Theorem C22_enumeration_binary64 : forall sort tau (P Q : list (FourVector B64)),
  sort_ok sort -> Forall (mom_in not_nan) P ->
  (forall m, Permutation P m -> not_nan (paired_distance tau m Q)) ->
  exists r, min_paired_distance_naive tau (sort _ (@fv_leb B64) P) Q = Some r /\
    (exists m, Permutation P m /\ r = paired_distance tau m Q) /\
    forall m, Permutation P m -> nleb r (paired_distance tau m Q) = true.
Proof. exact enumeration_B64. Qed.
Print Assumptions C22_enumeration_binary64.

(** An assignment algorithm as assumed exists, and every momentum made by the interface is
    physical. *)
Theorem C20_assumptions : km_ok km_brute /\ forall e x y z : R, physical (fv_from (N := RN) e x y z).
Proof. split; [exact km_brute_ok|reflexivity]. Qed.
Print Assumptions C20_assumptions.

(** A case: two jets against one, with an electron in the first event only. *)
Definition d_ev1 : list (Z * FourVector RN) :=
  [(90%Z, fv_from (N := RN) 5 3 4 0); (11%Z, fv_from (N := RN) 2 0 0 2); (90%Z, fv_from (N := RN) 13 5 12 0)].
Definition d_ev2 : list (Z * FourVector RN) := [(90%Z, fv_from (N := RN) 13 5 12 0)].

Example C20_case : phys d_ev1 /\ phys d_ev2 /\
  exists d, distance (N := RN) isort km_brute 0 (build isort (made (N := RN) true d_ev1 [])) (build isort (made (N := RN) true d_ev2 []))
            = Some d /\ d = 7.
Proof.
  assert (P1 : phys d_ev1) by (repeat constructor).
  assert (P2 : phys d_ev2) by (repeat constructor).
  split; [exact P1|]. split; [exact P2|].
  destruct (@C21_documented isort km_brute 0 true d_ev1 d_ev2 [] [] [90%Z; 11%Z] isort_ok km_brute_ok P1 P2) as (f & Hf & E).
  { repeat constructor; cbn; intuition discriminate. }
  { cbn. intuition. }
  eexists. split; [exact E|]. cbn [map]. rewrite !Rsum_cons, Rsum_nil.
  set (p := fv_from (N := RN) 5 3 4 0). set (q := fv_from (N := RN) 13 5 12 0). set (e := fv_from (N := RN) 2 0 0 2).
  assert (Dpz : mom_dist 0 p zero_mom = 5).
  { unfold mom_dist. replace (_ + 0 ^ 2 * _) with (5 * 5) by (cbn; ring). apply sqrt_square; lra. }
  assert (Dez : mom_dist 0 e zero_mom = 2).
  { unfold mom_dist. replace (_ + 0 ^ 2 * _) with (2 * 2) by (cbn; ring). apply sqrt_square; lra. }
  assert (Dqq : mom_dist 0 q q = 0) by apply mom_refl.
  assert (H90 : f 90%Z = 5).
  { pose proof (Hf 90%Z) as [(P' & HP' & E1) Hmin].
    change (filled _ _) with [p; q] in HP', Hmin at 1. change (filled _ (with_id 90 d_ev2)) with [q; zero_mom] in E1, Hmin.
    assert (C1 : pairing_cost 0 [q; p] [q; zero_mom] = 5).
    { unfold pairing_cost. cbn [combine map fst snd]. rewrite !Rsum_cons, Rsum_nil, Dqq, Dpz. lra. }
    specialize (Hmin [q; p] (perm_swap _ _ _)). rewrite C1 in Hmin.
    apply Rle_antisym; auto. rewrite E1. apply Permutation_length_2_inv in HP'. destruct HP' as [->| ->]; [|lra].
    unfold pairing_cost. cbn [combine map fst snd]. rewrite !Rsum_cons, Rsum_nil.
    pose proof (mom_nonneg 0 p q). assert (5 <= mom_dist 0 q zero_mom).
    { unfold mom_dist. replace (_ + 0 ^ 2 * _) with (13 * 13) by (cbn; ring). rewrite sqrt_square; lra. }
    lra. }
  assert (H11 : f 11%Z = 2).
  { pose proof (Hf 11%Z) as [(P' & HP' & E1) _].
    change (filled _ _) with [e] in HP' at 1. change (filled _ (with_id 11 d_ev2)) with [zero_mom] in E1.
    apply Permutation_length_1_inv in HP'. subst P'. rewrite E1.
    unfold pairing_cost. cbn [combine map fst snd]. rewrite Rsum_cons, Rsum_nil, Dez. lra. }
  rewrite H90, H11. lra.
Qed.

(** In binary64 the distance is not symmetric: the sums for three particles are taken in
    different orders, and rounded differently. *)
Definition asym_ev (l : list (Z * Z * Z)) : Event B64 :=
  build isort (made true (map (fun p => let '(x, y, z) := p in
     (90%Z, fv_from (b64_of_Z 5 : B64) (b64_of_Z x) (b64_of_Z y) (b64_of_Z z))) l) []).
Definition asym1 : Event B64 := Eval vm_compute in asym_ev [(2, 3, 2); (1, 3, 2); (1, 0, 1)]%Z.
Definition asym2 : Event B64 := Eval vm_compute in asym_ev [(3, 2, 1); (1, 3, 0); (0, 3, 1)]%Z.
Definition asym_d12 : B64 := Eval vm_compute in
  match distance (N := B64) isort (fun _ _ => S754_nan) (b64_of_Z 1) asym1 asym2 with Some d => d | None => S754_nan end.
Definition asym_d21 : B64 := Eval vm_compute in
  match distance (N := B64) isort (fun _ _ => S754_nan) (b64_of_Z 1) asym2 asym1 with Some d => d | None => S754_nan end.

Theorem C20_symmetry_binary64_refuted : exists (km : assignment B64) tau ev1 ev2 d12 d21,
  distance isort km tau ev1 ev2 = Some d12 /\ distance isort km tau ev2 ev1 = Some d21 /\
  nltb d21 d12 = true.
Proof.
  exists (fun _ _ => S754_nan), (b64_of_Z 1), asym1, asym2, asym_d12, asym_d21.
  split; [vmr|]. split; vmr.
Qed.
Print Assumptions C20_symmetry_binary64_refuted.

(** The enumeration theorem applies to the momenta of these events. *)
Example C22_case : exists P Q : list (FourVector B64), length P = 3%nat /\ length Q = 3%nat /\
  Forall (mom_in not_nan) P /\ forall m, Permutation P m -> not_nan (paired_distance (b64_of_Z 1) m Q).
Proof.
  exists (outgoing_with_pid asym1 90), (outgoing_with_pid asym2 90).
  split; [vmr|]. split; [vmr|]. split.
  - unfold asym1. repeat (apply Forall_cons; [repeat (apply Forall_cons; [discriminate|]); constructor|]). constructor.
  - intros m Hm. apply PermProofs.perms_complete in Hm.
    assert (H : forallb (fun m => negb (match paired_distance (b64_of_Z 1) m (outgoing_with_pid asym2 90) with S754_nan => true | _ => false end))
                  (PermProofs.perms (outgoing_with_pid asym1 90)) = true) by vmr.
    rewrite forallb_forall in H. specialize (H _ Hm). intros E. rewrite E in H. discriminate.
Qed.
