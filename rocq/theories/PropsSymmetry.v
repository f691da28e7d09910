(** C94: units and axes.  C95: small changes of events. *)
From Coq Require Import NArith ZArith Reals Lra Lia.
From Verif Require Import Base BaseProofs Num ModelEvent ModelDistance ModelCell ModelSeeds ModelNaive ModelVPTree ModelResampler SpecWeights SpecEvent SpecDistance SpecSearch SpecTree SpecOrder SpecSymmetry
  SumProofs EventProofs NaiveProofs PermProofs PairingProofs DistanceProofs DistanceProofs2 VPTreeProofs2 RunProofs2 SeparatedProofs ProgramProofs PropsOrder PropsDistance SymmetryProofs.
From Coq Require Import List.
Import ListNotations.
Local Open Scope R_scope.

(** C94.  If all momenta are given in other units and with respect to rotated or reflected axes, then all distances change by the factor
    between the units.  The axes have to keep the beam, unless transverse momenta have no weight of their own ([tau = 0]). *)
Theorem C94_distance : forall sort (km : assignment RN) tau mw lam m ps1 ps2 (ws1 ws2 : list R),
  sort_ok sort -> km_ok km -> phys ps1 -> phys ps2 -> 0 < lam -> orthonormal m -> tau = 0 \/ keeps_beam m ->
  exists d, distance (N := RN) sort km tau (build sort (made (N := RN) mw ps1 ws1)) (build sort (made (N := RN) mw ps2 ws2)) = Some d /\
    distance (N := RN) sort km tau (build sort (made (N := RN) mw (all_seen lam m ps1) ws1)) (build sort (made (N := RN) mw (all_seen lam m ps2) ws2)) = Some (lam * d).
Proof.
  intros sort km tau mw lam m ps1 ps2 ws1 ws2 Hs Hkm P1 P2 Hl Hm Hb.
  destruct (C20_pseudometric sort km tau mw ps1 ps2 ps2 ws1 ws2 ws2 Hs Hkm P1 P2 P2) as (d & _ & _ & D & _).
  exists d. split; [exact D|]. pose proof (seen_distance sort km tau mw Hs Hkm lam m ps1 ps2 ws1 ws2 ws1 ws2 Hl Hm Hb P1 P2) as E. unfold ev_of in E. rewrite E, D. reflexivity.
Qed.
Print Assumptions C94_distance.


(** The searches of the program, in exact arithmetic *)
Definition a_search (sort : sorter) (algo : search_algo RN) : Prop :=
  exists choose, choose_ok choose /\ (algo = tree_nearest sort choose \/ algo = naive_nearest choose).

Lemma ev_of_built sort mw ps (ws : list R) : phys ps -> built sort (ev_of sort mw ps ws).
Proof. intros H. exists ps. split; [exact H|]. unfold ev_of. rewrite !made_eq. reflexivity. Qed.

Lemma search_answers sort km tau algo max (evs : list (Event RN)) : sort_ok sort -> km_ok km -> a_search sort algo -> Forall (built sort) evs -> (N.of_nat (length evs) <= usize_max)%N ->
  answers (length evs) (dist_wrapper (ddist sort km tau) evs) max (algo (length evs) (dist_wrapper (ddist sort km tau) evs) max).
Proof.
  intros Hs Hkm (c & Hc & Ha) Hb Hn. destruct (C68_searches sort c c (ddist sort km tau) max evs Hs Hc Hc) as [H1 H2]. destruct Ha as [->| ->].
  - apply H2; [apply wrapper_metric; assumption|exact Hn|apply Permutation_refl].
  - apply H1. apply Permutation_refl.
Qed.

(** Hence a run gives the same weights and the same cells, if the maximum cell size is given in the new units, too.  From each event,
    the others have different distances: otherwise the order of the neighbours is not determined (C68). *)
Theorem C94_run : forall sort (km : assignment RN) tau mw lam m strategy (evs : list (list (Z * FourVector RN) * list RN)) max (algo algo' : search_algo RN),
  sort_ok sort -> km_ok km -> Forall (fun e => phys (fst e)) evs -> 0 < lam -> orthonormal m -> tau = 0 \/ keeps_beam m ->
  a_search sort algo -> a_search sort algo' -> (N.of_nat (length evs) <= usize_max)%N ->
  let dist a b := match distance (N := RN) sort km tau a b with Some d => d | None => 0 end in
  let before := map (fun e => build sort (made (N := RN) mw (fst e) (snd e))) evs in
  let after := map (fun e => build sort (made (N := RN) mw (all_seen lam m (fst e)) (snd e))) evs in
  distances_differ dist before ->
  match resampler_resample mw sort strategy algo dist max before, resampler_resample mw sort strategy algo' dist (lam * max) after with
  | Some (r, cs), Some (r', cs') => map ev_weights r = map ev_weights r' /\ map members cs = map members cs' /\ map weight_sum cs = map weight_sum cs'
  | None, None => True
  | _, _ => False
  end.
Proof.
  intros sort km tau mw lam m strategy evs max algo algo' Hs Hkm Hp Hl Hm Hb Ha Ha' Hn dist before after Hd.
  assert (L1 : length before = length evs) by (unfold before; apply map_length). assert (L2 : length after = length evs) by (unfold after; apply map_length).
  assert (W : map ev_weights after = map ev_weights before).
  { unfold before, after. rewrite !map_map. apply map_ext. intros e. rewrite !made_eq. reflexivity. }
  assert (B1 : Forall (built sort) before).
  { unfold before. apply Forall_forall. intros x Hx. apply in_map_iff in Hx as (e & <- & He). rewrite Forall_forall in Hp. apply (ev_of_built sort mw). apply Hp. exact He. }
  assert (B2 : Forall (built sort) after).
  { unfold after. apply Forall_forall. intros x Hx. apply in_map_iff in Hx as (e & <- & He). apply (ev_of_built sort mw). apply seen_phys. }
  assert (D : forall i q, (i < length evs)%nat -> (q < length evs)%nat -> dist_wrapper (N := RN) dist after i q = lam * dist_wrapper (N := RN) dist before i q).
  { intros i q Hi Hq. unfold dist_wrapper, before, after. rewrite !nth_error_map.
    destruct (nth_error evs i) as [e|] eqn:Ei; [|apply nth_error_None in Ei; lia]. destruct (nth_error evs q) as [e2|] eqn:Eq; [|apply nth_error_None in Eq; lia]. cbn [option_map].
    rewrite Forall_forall in Hp. destruct (C94_distance sort km tau mw lam m (fst e) (fst e2) (snd e) (snd e2) Hs Hkm (Hp e (nth_error_In _ _ Ei)) (Hp e2 (nth_error_In _ _ Eq)) Hl Hm Hb) as (d & D1 & D2).
    unfold dist. rewrite D1, D2. reflexivity. }
  assert (S : forall q, (q < length evs)%nat -> same_ids RN (algo (length before) (dist_wrapper dist before) max q) (algo' (length after) (dist_wrapper dist after) (lam * max) q)).
  { intros q Hq.
    destruct (search_answers sort km tau algo max before Hs Hkm Ha B1 ltac:(rewrite L1; exact Hn) q ltac:(rewrite L1; exact Hq)) as (l & E1 & N1).
    destruct (search_answers sort km tau algo' (lam * max) after Hs Hkm Ha' B2 ltac:(rewrite L2; exact Hn) q ltac:(rewrite L2; exact Hq)) as (l' & E2 & N2).
    unfold same_ids. change dist with (ddist sort km tau). rewrite E1, E2. cbn [option_map]. f_equal. rewrite L1 in N1. rewrite L2 in N2. refine (scaled_ids (length evs) q lam _ _ max l l' Hl _ _ N1 N2).
    - intros i j Hi Hj Hiq Hjq E. rewrite <- L1 in Hi, Hj, Hq. assert (G : forall k, (k < length before)%nat -> exists e, nth_error before k = Some e).
      { intros k Hk. destruct (nth_error before k) as [e|] eqn:Ek; [eauto|apply nth_error_None in Ek; lia]. }
      destruct (G i Hi) as (a & Ea), (G j Hj) as (b & Eb), (G q Hq) as (c & Ec). apply (Hd q i j c a b); auto.
      unfold dist_wrapper in E. rewrite Ea, Eb, Ec in E. exact E.
    - intros i Hi. apply D; assumption. }
  unfold resampler_resample. rewrite W. destruct (select_seeds sort strategy (map ev_weights before)) as [seeds|] eqn:E; [|exact I]. unfold resample_seeds.
  pose proof (@seeds_ids RN mw (algo (length before) (dist_wrapper dist before) max) (algo' (length after) (dist_wrapper dist after) (lam * max)) seeds (map ev_weights before, []) (map ev_weights before, [])) as G.
  match type of G with ?A -> ?B -> ?C => assert (C) as G' end.
  { apply G; [|split; [reflexivity|constructor]]. intros s Hin. apply S.
    pose proof (@select_seeds_lt RN (fun _ => True) sort strategy _ seeds Hs RN_order (fun _ _ _ => I) E s Hin) as Hlt. rewrite map_length, L1 in Hlt. exact Hlt. }
  unfold same_result in G'. destruct (ofold _ seeds _) as [[ws1 cs1]|], (ofold (seed_step mw (algo' _ _ _)) seeds _) as [[ws2 cs2]|]; auto.
  destruct G' as [-> F]. split.
  - unfold with_weights. rewrite !map_map.
    assert (X : forall (l : list (Event RN)) (ws : list (list R)), map (fun x => ev_weights (let '(e, w) := x in mkEvent (N := RN) (ev_id e) w (ev_out e))) (combine l ws) = firstn (length l) ws).
    { induction l as [|e l IH]; intros [|w ws]; cbn; try reflexivity. f_equal. apply IH. }
    rewrite !X, L1, L2. reflexivity.
  - clear -F. induction F as [|c c' cs cs' [H1 H2] F [IH1 IH2]]; [auto|]. cbn [map]. rewrite H1, H2, IH1, IH2. auto.
Qed.
Print Assumptions C94_run.

(** C95.  Distances are continuous: if momenta of an event change, then its distance from any other event changes by no more than a
    multiple of the changes of the momenta. *)
Theorem C95_continuous : forall sort (km : assignment RN) tau mw ps ps' ps2 (ws ws' ws2 : list R),
  sort_ok sort -> km_ok km -> phys ps -> phys ps' -> phys ps2 -> same_types ps ps' ->
  exists d d', distance (N := RN) sort km tau (build sort (made (N := RN) mw ps ws)) (build sort (made (N := RN) mw ps2 ws2)) = Some d /\
    distance (N := RN) sort km tau (build sort (made (N := RN) mw ps' ws')) (build sort (made (N := RN) mw ps2 ws2)) = Some d' /\
    Rabs (d' - d) <= sqrt (1 + tau ^ 2) * shift ps ps'.
Proof.
  intros sort km tau mw ps ps' ps2 ws ws' ws2 Hs Hkm P1 P1' P2 H.
  destruct (moved_other sort km tau mw Hs Hkm ps ps' ps2 ws ws' ws2 P1 P1' P2 H) as (d & d' & D1 & D2 & D3).
  exists d, d'. split; [exact D1|]. split; [exact D2|]. eapply Rle_trans; [exact D3|apply moves_shift].
Qed.
Print Assumptions C95_continuous.

(** Soft particles: adding particles changes the distance from any other event by no more than a multiple of their momenta. *)
Theorem C95_soft : forall sort (km : assignment RN) tau mw ps soft ps2 (ws ws' ws2 : list R),
  sort_ok sort -> km_ok km -> phys ps -> phys soft -> phys ps2 ->
  exists d d', distance (N := RN) sort km tau (build sort (made (N := RN) mw ps ws)) (build sort (made (N := RN) mw ps2 ws2)) = Some d /\
    distance (N := RN) sort km tau (build sort (made (N := RN) mw (ps ++ soft) ws')) (build sort (made (N := RN) mw ps2 ws2)) = Some d' /\
    Rabs (d' - d) <= sqrt (1 + tau ^ 2) * Rsum (map (fun x => size (snd x)) soft).
Proof. intros sort km tau mw ps soft ps2 ws ws' ws2 Hs Hkm P1 P1' P2. exact (soft_other sort km tau mw Hs Hkm ps soft ps2 ws ws' ws2 P1 P1' P2). Qed.
Print Assumptions C95_soft.

(** A case: events with one electron each along one axis; other units and a rotation by 90 degrees around the beam *)
Definition on_axis (x : R) : list (Z * FourVector RN) := [(11%Z, fv_from (N := RN) 5 x 0 0)].
Lemma on_axis_dist mw x y (ws ws' : list R) : distance (N := RN) isort km_brute 0 (build isort (made (N := RN) mw (on_axis x) ws)) (build isort (made (N := RN) mw (on_axis y) ws')) = Some (Rabs (x - y)).
Proof.
  rewrite !made_eq. unfold distance, build, on_axis. cbn [ev_out b_out]. cbv [compress_outgoing]. cbn. f_equal. rewrite Rplus_0_l, <- sqrt_Rsqr_abs. f_equal. unfold Rsqr. ring.
Qed.
Definition quarter : axes := mkAxes 0 (-1) 0 1 0 0 0 0 1.
Definition axis_evs : list (list (Z * FourVector RN) * list RN) := [(on_axis 1, [-1]); (on_axis 2, [2]); (on_axis 4, [3])].
Example C94_case :
  orthonormal quarter /\ keeps_beam quarter /\ Forall (fun e => phys (fst e)) axis_evs /\
  (forall x y, distance (N := RN) isort km_brute 0 (build isort (made (N := RN) false (all_seen 1000 quarter (on_axis x)) [])) (build isort (made (N := RN) false (all_seen 1000 quarter (on_axis y)) []))
     = Some (1000 * Rabs (x - y))) /\
  distances_differ (fun a b => match distance (N := RN) isort km_brute 0 a b with Some d => d | None => 0 end) (map (fun e => build isort (made (N := RN) false (fst e) (snd e))) axis_evs).
Proof.
  assert (O : orthonormal quarter) by (unfold orthonormal, quarter; cbn; repeat split; ring). assert (K : keeps_beam quarter) by (repeat split).
  split; [exact O|]. split; [exact K|]. split; [repeat constructor|]. split.
  - intros x y. destruct (C94_distance isort km_brute 0 false 1000 quarter (on_axis x) (on_axis y) [] []) as (d & D1 & D2); auto using isort_ok, km_brute_ok; [repeat constructor|repeat constructor|lra|].
    rewrite on_axis_dist in D1. injection D1 as <-. exact D2.
  - unfold distances_differ, axis_evs. cbn [map fst snd]. intros q i j a b c Hi Hj Ea Eb Ec.
    destruct q as [|[|[|q]]]; destruct i as [|[|[|i]]]; destruct j as [|[|[|j]]]; cbn [nth_error] in Ea, Eb, Ec; try reflexivity; try congruence;
      try (destruct q; discriminate); try (destruct i; discriminate); try (destruct j; discriminate);
      injection Ea as <-; injection Eb as <-; injection Ec as <-; rewrite !on_axis_dist; intros H; exfalso; revert H; unfold Rabs; repeat destruct (Rcase_abs _); lra.
Qed.

(** With a weight of the transverse momenta, the beam has to stay where it is. *)
Definition swapped : axes := mkAxes 0 0 1 0 1 0 1 0 0.
Theorem C94_beam_refuted : exists m ps1 ps2 d d', orthonormal m /\ phys ps1 /\ phys ps2 /\
  distance (N := RN) isort km_brute 1 (build isort (made (N := RN) false ps1 [])) (build isort (made (N := RN) false ps2 [])) = Some d /\
  distance (N := RN) isort km_brute 1 (build isort (made (N := RN) false (all_seen 1 m ps1) [])) (build isort (made (N := RN) false (all_seen 1 m ps2) [])) = Some d' /\
  d' < d.
Proof.
  exists swapped, (on_axis 1), (on_axis 0), (sqrt 2), 1. split; [unfold orthonormal, swapped; cbn; repeat split; ring|]. split; [repeat constructor|]. split; [repeat constructor|].
  assert (H0 : sqrt (0 * 0 + 0 * 0) = 0) by (replace (0 * 0 + 0 * 0) with 0 by ring; apply sqrt_0).
  assert (H1 : sqrt (1 * 1 + 0 * 0) = 1) by (replace (1 * 1 + 0 * 0) with 1 by ring; apply sqrt_1). split; [|split].
  - rewrite !made_eq. unfold distance, build, on_axis. cbn [ev_out b_out]. cbv [compress_outgoing]. cbn. rewrite H0, H1. f_equal. rewrite Rplus_0_l. f_equal. ring.
  - rewrite !made_eq. unfold distance, build, on_axis, all_seen, seen, swapped. cbn [ev_out b_out]. cbv [compress_outgoing]. cbn.
    assert (Z : forall u v, u = 0 -> v = 0 -> sqrt (u * u + v * v) = 0) by (intros u v -> ->; exact H0).
    f_equal. rewrite Rplus_0_l. rewrite !Z by ring. transitivity (sqrt 1); [f_equal; ring|apply sqrt_1].
  - rewrite <- sqrt_1 at 1. apply sqrt_lt_1_alt. lra.
Qed.
Print Assumptions C94_beam_refuted.

(** A case: a soft jet is added to an event. *)
Example C95_case : exists d', distance (N := RN) isort km_brute 0 (build isort (made (N := RN) false (on_axis 1 ++ [(90%Z, fv_from (N := RN) (1/1000) 0 0 (1/1000))]) [])) (build isort (made (N := RN) false (on_axis 3) []))
  = Some d' /\ 1.999 <= d' <= 2.001.
Proof.
  destruct (C95_soft isort km_brute 0 false (on_axis 1) [(90%Z, fv_from (N := RN) (1/1000) 0 0 (1/1000))] (on_axis 3) [] [] []) as (d & d' & D1 & D2 & D3); auto using isort_ok, km_brute_ok; try (repeat constructor).
  exists d'. split; [exact D2|]. rewrite on_axis_dist in D1. injection D1 as <-. cbn [map snd] in D3. rewrite Rsum_cons, Rsum_nil in D3.
  replace (1 + 0 ^ 2) with 1 in D3 by ring. rewrite sqrt_1 in D3. unfold size in D3. cbn [fv_x fv_y fv_z fv_from update_pt] in D3.
  replace (0 ^ 2 + 0 ^ 2 + (1 / 1000) ^ 2) with ((1 / 1000) * (1 / 1000)) in D3 by ring. rewrite sqrt_square in D3 by lra.
  assert (E : Rabs (1 - 3) = 2) by (rewrite Rabs_left1 by lra; lra). rewrite E in D3. revert D3. unfold Rabs. destruct (Rcase_abs _); lra.
Qed.

(** Splitting a particle into two with the same direction changes distances by a finite amount: this has to be undone by clustering
    particles into jets before. *)
Theorem C95_collinear_refuted : exists ps ps' : list (Z * FourVector RN), phys ps /\ phys ps' /\
  (exists p h, ps = [(90%Z, p)] /\ ps' = [(90%Z, h); (90%Z, h)] /\ p = fv_add (N := RN) h h) /\
  distance (N := RN) isort km_brute 0 (build isort (made (N := RN) false ps [])) (build isort (made (N := RN) false ps' [])) = Some 2.
Proof.
  set (p := fv_from (N := RN) 2 2 0 0). set (h := fv_from (N := RN) 1 1 0 0).
  exists [(90%Z, p)], [(90%Z, h); (90%Z, h)]. assert (P1 : phys [(90%Z, p)]) by (repeat constructor). assert (P2 : phys [(90%Z, h); (90%Z, h)]) by (repeat constructor).
  split; [exact P1|]. split; [exact P2|]. split.
  { exists p, h. split; [reflexivity|]. split; [reflexivity|]. unfold p, h, fv_add, fv_from, update_pt. cbn. replace (1 + 1) with 2 by ring. replace (0 + 0) with 0 by ring. reflexivity. }
  destruct (@C21_documented isort km_brute 0 false [(90%Z, p)] [(90%Z, h); (90%Z, h)] [] [] [90%Z] isort_ok km_brute_ok P1 P2) as (f & Hf & E).
  { repeat constructor. intros []. }
  { cbn. intuition. }
  etransitivity; [exact E|]. cbn [map]. rewrite Rsum_cons, Rsum_nil. apply f_equal.
  pose proof (Hf 90%Z) as [(P' & HP' & E1) _]. change (filled _ _) with [p; zero_mom] in HP' at 1. change (filled _ (with_id 90 [(90%Z, h); (90%Z, h)])) with [h; h] in E1.
  assert (D1 : mom_dist 0 p h = 1). { unfold mom_dist. replace (_ + 0 ^ 2 * _) with (1 * 1) by (cbn; ring). apply sqrt_square; lra. }
  assert (D2 : mom_dist 0 zero_mom h = 1). { unfold mom_dist. replace (_ + 0 ^ 2 * _) with (1 * 1) by (cbn; ring). apply sqrt_square; lra. }
  rewrite E1. apply Permutation_length_2_inv in HP'. destruct HP' as [->| ->]; unfold pairing_cost; cbn [combine map fst snd]; rewrite !Rsum_cons, Rsum_nil, D1, D2; lra.
Qed.
Print Assumptions C95_collinear_refuted.
