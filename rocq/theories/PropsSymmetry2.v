(** C94 and C97 with several threads, default distance. *)
From Coq Require Import NArith ZArith Reals Lra Lia.
From Verif Require Import Base BaseProofs Num ModelEvent ModelDistance ModelCell ModelSeeds ModelNaive ModelVPTree ModelResampler ModelConc ModelThreads SpecWeights SpecEvent SpecDistance SpecSearch SpecTree SpecOrder SpecSymmetry SpecRegion
  SumProofs EventProofs NaiveProofs PermProofs PairingProofs DistanceProofs DistanceProofs2 VPTreeProofs2 RunProofs2 SeparatedProofs SeparatedThreads ProgramProofs ThreadsProofs PropsThreads PropsOrder PropsDistance SymmetryProofs PropsSymmetry PropsRegion2.
From Coq Require Import List.
Import ListNotations.
Local Open Scope R_scope.

(** Units and axes do not matter for the weights either if several threads are used, for every schedule. *)
Theorem C94_threads : forall Err nthreads sched sort (km : assignment RN) tau mw lam m strategy (evs : list (list (Z * FourVector RN) * list RN)) max (algo algo' : search_algo RN),
  sort_ok sort -> km_ok km -> Forall (fun e => phys (fst e)) evs -> 0 < lam -> orthonormal m -> tau = 0 \/ keeps_beam m ->
  a_search sort algo -> a_search sort algo' -> (N.of_nat (length evs) <= usize_max)%N ->
  let dist a b := match distance (N := RN) sort km tau a b with Some d => d | None => 0 end in
  let before := map (fun e => build sort (made (N := RN) mw (fst e) (snd e))) evs in
  let after := map (fun e => build sort (made (N := RN) mw (all_seen lam m (fst e)) (snd e))) evs in
  distances_differ dist before ->
  match threads_resample (Err := Err) nthreads sched mw sort strategy algo dist max before, threads_resample (Err := Err) nthreads sched mw sort strategy algo' dist (lam * max) after with
  | Some (inl r), Some (inl r') => map ev_weights r = map ev_weights r'
  | None, None => True
  | _, _ => False
  end.
Proof.
  intros Err nthreads sched sort km tau mw lam m strategy evs max algo algo' Hs Hkm Hp Hl Hm Hb Ha Ha' Hn dist before after Hd.
  assert (L1 : length before = length evs) by (unfold before; apply map_length). assert (L2 : length after = length evs) by (unfold after; apply map_length).
  assert (W : map ev_weights after = map ev_weights before).
  { unfold before, after. rewrite !map_map. apply map_ext. intros e. rewrite !made_eq. reflexivity. }
  assert (B1 : Forall (built sort) before).
  { unfold before. apply Forall_forall. intros x Hx. apply in_map_iff in Hx as (e & <- & He). rewrite Forall_forall in Hp. apply (ev_of_built sort mw). apply Hp. exact He. }
  assert (B2 : Forall (built sort) after).
  { unfold after. apply Forall_forall. intros x Hx. apply in_map_iff in Hx as (e & <- & He). apply (ev_of_built sort mw). apply seen_phys. }
  assert (D : forall i q, (i < length evs)%nat -> (q < length evs)%nat -> dist_wrapper (N := RN) dist after i q = lam * dist_wrapper (N := RN) dist before i q).
  { intros i q Hi Hq. unfold dist_wrapper, before, after. rewrite !nth_error_map.
    destruct (nth_error evs i) as [e|] eqn:Ei; [|apply nth_error_None in Ei; lia]. destruct (nth_error evs q) as [e2|] eqn:Eq; [|apply nth_error_None in Eq; lia]. cbn [option_map].
    rewrite Forall_forall in Hp. destruct (C94_distance sort km tau mw lam m (fst e) (fst e2) (snd e) (snd e2) Hs Hkm (Hp e (nth_error_In _ _ Ei)) (Hp e2 (nth_error_In _ _ Eq)) Hl Hm Hb) as (d & D1 & D2).
    unfold dist. rewrite D1, D2. reflexivity. }
  assert (S : forall q, (q < length evs)%nat -> same_ids RN (algo (length before) (dist_wrapper dist before) max q) (algo' (length after) (dist_wrapper dist after) (lam * max) q)).
  { intros q Hq.
    destruct (search_answers sort km tau algo max before Hs Hkm Ha B1 ltac:(rewrite L1; exact Hn) q ltac:(rewrite L1; exact Hq)) as (l & E1 & N1).
    destruct (search_answers sort km tau algo' (lam * max) after Hs Hkm Ha' B2 ltac:(rewrite L2; exact Hn) q ltac:(rewrite L2; exact Hq)) as (l' & E2 & N2).
    unfold same_ids. change dist with (ddist sort km tau). rewrite E1, E2. cbn [option_map]. f_equal. rewrite L1 in N1. rewrite L2 in N2. refine (scaled_ids (length evs) q lam _ _ max l l' Hl _ _ N1 N2).
    - intros i j Hi Hj Hiq Hjq E. rewrite <- L1 in Hi, Hj, Hq. assert (G : forall k, (k < length before)%nat -> exists e, nth_error before k = Some e).
      { intros k Hk. destruct (nth_error before k) as [e|] eqn:Ek; [eauto|apply nth_error_None in Ek; lia]. }
      destruct (G i Hi) as (a & Ea), (G j Hj) as (b & Eb), (G q Hq) as (c & Ec). apply (Hd q i j c a b); auto.
      unfold dist_wrapper in E. rewrite Ea, Eb, Ec in E. exact E.
    - intros i Hi. apply D; assumption. }
  unfold threads_resample. rewrite W. destruct (select_seeds sort strategy (map ev_weights before)) as [seeds|] eqn:E; [|exact I]. cbv zeta.
  set (s0 := conc_init nthreads seeds (map ev_weights before)).
  assert (S0 : same_state (length evs) s0 s0).
  { repeat split; [|cbn; rewrite map_length; exact L1]. generalize (threads s0). intros l. induction l; constructor; [apply same_thread_refl|assumption]. }
  pose proof (same_run mw _ _ (length evs) S sched (length seeds * (11 + 4 * length (map ev_weights before))) 0 s0 s0 S0) as R.
  rewrite (same_finished _ _ _ R). destruct R as [-> _]. destruct (finished _); [|exact I].
  match goal with |- map _ (with_weights _ ?w) = _ => generalize w end. intros ws1. unfold with_weights. rewrite !map_map.
  assert (X : forall (l : list (Event RN)) (ws : list (list R)), map (fun x => ev_weights (let '(e, w) := x in mkEvent (N := RN) (ev_id e) w (ev_out e))) (combine l ws) = firstn (length l) ws).
  { induction l as [|e l IH]; intros [|w ws]; cbn; try reflexivity. f_equal. apply IH. }
  rewrite !X, L1, L2. reflexivity.
Qed.
Print Assumptions C94_threads.

(** A case: the events of C94_case; every run comes to its end. *)
Example C94_threads_case : forall nthreads sched, (0 < nthreads)%nat ->
  let dist a b := match distance (N := RN) isort km_brute 0 a b with Some d => d | None => 0 end in
  let view g := map (fun e => build isort (made (N := RN) false (g (fst e)) (snd e))) axis_evs in
  exists r r', threads_resample (Err := unit) nthreads sched false isort Next (naive_nearest first_min) dist 10 (view (fun p => p)) = Some (inl r) /\
    threads_resample (Err := unit) nthreads sched false isort Next (naive_nearest first_min) dist (1000 * 10) (view (all_seen 1000 quarter)) = Some (inl r') /\ map ev_weights r = map ev_weights r'.
Proof.
  intros nthreads sched Hn dist view. destruct C94_case as (O & K & P & _ & D).
  assert (Sr : a_search isort (naive_nearest first_min)) by (exists first_min; split; [exact first_min_ok|right; reflexivity]).
  assert (Hl : (N.of_nat (length axis_evs) <= usize_max)%N) by (apply N.leb_le; vm_compute; reflexivity).
  pose proof (C94_threads unit nthreads sched isort km_brute 0 false 1000 quarter Next axis_evs 10 _ _ isort_ok km_brute_ok P ltac:(lra) O ltac:(left; reflexivity) Sr Sr Hl D) as T. cbv zeta in T.
  fold dist in T. change (map (fun e => build isort (made (N := RN) false (fst e) (snd e))) axis_evs) with (view (fun p => p)) in T.
  assert (B1 : Forall (built isort) (view (fun p => p))).
  { unfold view. apply Forall_forall. intros x Hx. apply in_map_iff in Hx as (e & <- & He). rewrite Forall_forall in P. apply (ev_of_built isort false). apply P. exact He. }
  pose proof (search_answers isort km_brute 0 _ 10 (view (fun p => p)) isort_ok km_brute_ok Sr B1 ltac:(unfold view; rewrite map_length; exact Hl)) as A.
  destruct (C76_executions RN unit (fun _ => True) false 1 isort Next (naive_nearest first_min) dist 10 (view (fun p => p)) nthreads isort_ok RN_order (fun _ _ _ _ => I)) as (seeds & _ & Ex & _).
  { unfold view. rewrite map_map. split; [lia|]. split; [reflexivity|]. repeat constructor. }
  { exact (answers_valid _ _ _ _ _ A). }
  { exact Hn. }
  destruct (Ex sched) as (k & s & _ & _ & E). cbv zeta in E. eexists. 
  match type of E with _ = Some (inl ?r) => exists match threads_resample (Err := unit) nthreads sched false isort Next (naive_nearest first_min) dist (1000 * 10) (view (all_seen 1000 quarter)) with Some (inl r') => r' | _ => [] end end.
  split; [exact E|]. match type of T with match ?o with _ => _ end => replace o with (@Some (list (Event RN) + unit) (inl (map (fun '(e, w) => mkEvent (ev_id e) w (ev_out e)) (combine (view (fun p => p)) (mem s))))) in T by (symmetry; exact E) end.
  change (map (fun e => build isort (made (N := RN) false (all_seen 1000 quarter (fst e)) (snd e))) axis_evs) with (view (all_seen 1000 quarter)) in T.
  match type of T with match ?o with _ => _ end => destruct o as [[r'|]|] eqn:E2; try contradiction end. 
  split; [reflexivity|exact T].
Qed.

(** Isolated parts of a sample with the default distance and the searches of the program: with any number of threads the possible
    outcomes for the part are those of the part alone. *)
Theorem C97_threads_default : forall Err nthreads sort (km : assignment RN) tau mw nw strategy (algo algo' : search_algo RN) max (inside : Event RN -> bool) (events : list (list (Z * FourVector RN) * list RN)),
  (0 < nthreads)%nat -> sort_ok sort -> km_ok km -> Forall (fun e => phys (fst e)) events -> a_search sort algo -> a_search sort algo' -> (N.of_nat (length events) <= usize_max)%N ->
  let dist a b := match distance (N := RN) sort km tau a b with Some d => d | None => 0%R end in
  let evs := map (fun e => build sort (made (N := RN) mw (fst e) (snd e))) events in
  shaped mw nw (map ev_weights evs) ->
  (forall e w, inside (mkEvent (ev_id e) w (ev_out e)) = inside e) ->
  isolated inside dist max evs -> no_ties dist evs -> (strategy = Next \/ no_equal_negative evs) ->
  forall r', (exists sched r, threads_resample (Err := Err) nthreads sched mw sort strategy algo dist max evs = Some (inl r) /\ filter inside r = r') <->
             (exists sched, threads_resample (Err := Err) nthreads sched mw sort strategy algo' dist max (filter inside evs) = Some (inl r')).
Proof.
  intros Err nthreads sort km tau mw nw strategy algo algo' max inside events Hn0 Hs Hkm Hp Ha Ha' Hn dist evs Hsh Hig Hiso Ht Hneg r'.
  assert (B : Forall (built sort) evs).
  { unfold evs. apply Forall_forall. intros x Hx. apply in_map_iff in Hx as (e & <- & He). rewrite Forall_forall in Hp. apply (ev_of_built sort mw). apply Hp. exact He. }
  assert (L : length evs = length events) by (unfold evs; apply map_length).
  assert (L' : (length (filter inside evs) <= length evs)%nat) by (clear; induction evs as [|e evs IH]; cbn; [lia|destruct (inside e); cbn; lia]).
  pose proof (search_answers sort km tau algo max evs Hs Hkm Ha B ltac:(rewrite L; exact Hn)) as A1.
  assert (A2 : answers (length (filter inside evs)) (dist_wrapper dist (filter inside evs)) max (algo' (length (filter inside evs)) (dist_wrapper dist (filter inside evs)) max)).
  { apply (search_answers sort km tau algo' max (filter inside evs) Hs Hkm Ha'); [|lia]. apply Forall_forall. intros x Hx. apply filter_In in Hx as [Hx _]. rewrite Forall_forall in B. auto. }
  split.
  - intros (sched & r & E & <-). apply (C97_threads RN Err (fun _ => True) nthreads sched mw nw sort strategy algo algo' dist max inside evs r); auto using RN_order.
  - intros (sched & E). apply (C97_threads_all RN Err (fun _ => True) nthreads sched mw nw sort strategy algo algo' dist max inside evs r'); auto using RN_order.
Qed.
Print Assumptions C97_threads_default.
