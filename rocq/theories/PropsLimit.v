(** C98: the maximum cell size. *)
From Coq Require Import NArith ZArith Reals Lra Permutation.
From Verif Require Import Base BaseProofs Num ModelEvent ModelCell ModelSeeds ModelNaive ModelVPTree ModelDistance ModelResampler ModelConc ModelThreads SpecWeights SpecSearch SpecTree SpecEvent SpecDistance SpecOrder SpecRegion
  NaiveProofs CellProofs RunProofs SeedsProofs OrderProofs SeparatedProofs TextExamples ProgramProofs PropsNaive PropsRun PropsOrder PropsSymmetry RegionProofs RegionProofs2 PropsRegion SeparatedThreads LimitProofs.
From Coq Require Import Lia List.
Import ListNotations.

(** C98.  A maximum cell size that no cell exceeds has no effect: if all cells of a run have radii of at most [M], then a run with the
    maximum cell size [M] gives the same weights and the same cells (any arithmetic; no ties, see C68). *)
Theorem C98_run : forall (N : NumOps) (D : N -> Prop) mw sort strategy (algo algo' : search_algo N) dist max M (evs r : list (Event N)) cs,
  sort_ok sort -> order_on N D -> D M -> D max -> (forall e w, In e evs -> In w (ev_weights e) -> D w) -> (forall a b, In a evs -> In b evs -> D (dist a b)) ->
  no_ties dist evs -> nleb M max = true ->
  answers (length evs) (dist_wrapper dist evs) max (algo (length evs) (dist_wrapper dist evs) max) ->
  answers (length evs) (dist_wrapper dist evs) M (algo' (length evs) (dist_wrapper dist evs) M) ->
  resampler_resample mw sort strategy algo dist max evs = Some (r, cs) ->
  (forall c, In c cs -> nleb (radius c) M = true) ->
  resampler_resample mw sort strategy algo' dist M evs = Some (r, cs).
Proof.
  intros N D mw sort strategy algo algo' dist max M evs r cs Hsort Hord DM DX HD HDd Hties HM Ha Ha' H Hr.
  unfold resampler_resample in *. cbv zeta in *. destruct (select_seeds sort strategy (map ev_weights evs)) as [seeds|] eqn:Es; [|discriminate]. unfold resample_seeds in *.
  match type of H with context [ofold ?g ?s ?x] => destruct (ofold g s x) as [[U1 cs1]|] eqn:E; [|discriminate H] end. injection H as <- <-.
  assert (E' : ofold (seed_step mw (algo' (length evs) (dist_wrapper dist evs) M)) seeds (map ev_weights evs, []) = Some (U1, cs1)); [|match goal with |- match ?o with _ => _ end = _ => assert (E2 : o = Some (U1, cs1)) by exact E'; rewrite E2 end; reflexivity].
  apply (limit_seeds N mw (algo (length evs) (dist_wrapper dist evs) max) _ M); [|exact E|apply Forall_forall; exact Hr].
  intros s Hs. assert (Hlt : s < length evs).
  { assert (HDc : forall i w, central_weight (map ev_weights evs) i w -> D w).
    { intros i w (o & Ei). rewrite nth_error_map in Ei. destruct (nth_error evs i) as [e|] eqn:Ee; [|discriminate]. injection Ei as Ei. apply (HD e); [eapply nth_error_In; exact Ee|rewrite Ei; left; reflexivity]. }
    destruct (C12_select_seeds N sort D strategy _ seeds Hsort Hord HDc Es) as (_ & I1 & _). apply I1 in Hs as (w & (o & Et) & _). rewrite <- (map_length ev_weights). apply nth_error_Some. congruence. }
  destruct (Ha s Hlt) as (l & E1 & L1). destruct (Ha' s Hlt) as (l' & E2 & L2).
  assert (G : forall k, k < length evs -> exists e, nth_error evs k = Some e) by (intros k Hk; destruct (nth_error evs k) as [e|] eqn:Ek; [eauto|apply nth_error_None in Ek; lia]).
  destruct (G s Hlt) as (a & Ea).
  destruct (limit_nearest N D (length evs) s (fun i => dist_wrapper dist evs i s) max M l l' Hord) as (rest & -> & R); auto.
  - intros i Hi. destruct (G i Hi) as (b & Eb). unfold dist_wrapper. rewrite Eb, Ea. apply HDd; eapply nth_error_In; eassumption.
  - intros i j Hi Hj Hiq Hjq. destruct (G i Hi) as (b & Eb), (G j Hj) as (c & Ec). unfold dist_wrapper. rewrite Ea, Eb, Ec. apply (Hties s i j a b c); auto.
  - exists l', rest. auto.
Qed.
Print Assumptions C98_run.

(** In particular with the default distance and the searches of the program, in exact arithmetic. *)
Theorem C98_default : forall sort (km : assignment RN) tau mw strategy (algo algo' : search_algo RN) (max M : R) (events : list (list (Z * FourVector RN) * list RN)) r cs,
  sort_ok sort -> km_ok km -> Forall (fun e => phys (fst e)) events -> a_search sort algo -> a_search sort algo' -> (N.of_nat (length events) <= usize_max)%N ->
  let dist a b := match distance (N := RN) sort km tau a b with Some d => d | None => 0%R end in
  let evs := map (fun e => build sort (made (N := RN) mw (fst e) (snd e))) events in
  no_ties dist evs -> (M <= max)%R ->
  resampler_resample mw sort strategy algo dist max evs = Some (r, cs) ->
  (forall c, In c cs -> (radius c <= M)%R) ->
  resampler_resample mw sort strategy algo' dist M evs = Some (r, cs).
Proof.
  intros sort km tau mw strategy algo algo' max M events r cs Hs Hkm Hp Ha Ha' Hn dist evs Ht HM H Hr.
  assert (B : Forall (built sort) evs).
  { unfold evs. apply Forall_forall. intros x Hx. apply in_map_iff in Hx as (e & <- & He). rewrite Forall_forall in Hp. apply (ev_of_built sort mw). apply Hp. exact He. }
  assert (L : length evs = length events) by (unfold evs; apply map_length).
  apply (C98_run RN (fun _ => True) mw sort strategy algo algo' dist max M evs r cs); auto using RN_order.
  - apply Rleb_true. exact HM.
  - apply (search_answers sort km tau algo max evs Hs Hkm Ha B). rewrite L. exact Hn.
  - apply (search_answers sort km tau algo' M evs Hs Hkm Ha' B). rewrite L. exact Hn.
  - intros c Hc. apply Rleb_true. apply Hr. exact Hc.
Qed.
Print Assumptions C98_default.

(** A case: the events of C97_case; the largest cell has the radius 3. *)
Example C98_case : no_ties zev_dist groups /\
  (forall (m : Z) (l : list (Event ZN)), answers (length l) (dist_wrapper zev_dist l) (m : ZN) (naive_nearest (N := ZN) first_min (length l) (dist_wrapper zev_dist l) m)) /\
  exists r cs, resampler_resample (N := ZN) false isort MostNegative (naive_nearest first_min) zev_dist 1000%Z groups = Some (r, cs) /\
    map ev_weights r = [[1]; [1]; [1]; [1]; [4]]%Z /\ map radius cs = [3; 1]%Z /\
    resampler_resample (N := ZN) false isort MostNegative (naive_nearest first_min) zev_dist 3%Z groups = Some (r, cs).
Proof.
  destruct C97_case as (_ & _ & T & _ & _). split; [exact T|].
  assert (A : forall (m : Z) (l : list (Event ZN)), answers (length l) (dist_wrapper zev_dist l) (m : ZN) (naive_nearest (N := ZN) first_min (length l) (dist_wrapper zev_dist l) m)).
  { intros m l q Hq. apply (C14_naive_exact ZN (fun _ => True) ZN_order); auto. exact first_min_ok. }
  split; [exact A|]. eexists _, _. split; [vm_compute; reflexivity|]. split; [reflexivity|]. split; [reflexivity|]. vm_compute. reflexivity.
Qed.

(** With any number of threads and for every schedule: a maximum cell size that no distance exceeds has no effect. *)
Theorem C98_threads : forall (N : NumOps) Err (D : N -> Prop) nthreads sched mw sort strategy (algo algo' : search_algo N) dist max M (evs : list (Event N)),
  sort_ok sort -> order_on N D -> D M -> D max -> (forall a b, In a evs -> In b evs -> D (dist a b) /\ nleb (dist a b) M = true) ->
  no_ties dist evs -> nleb M max = true ->
  answers (length evs) (dist_wrapper dist evs) max (algo (length evs) (dist_wrapper dist evs) max) ->
  answers (length evs) (dist_wrapper dist evs) M (algo' (length evs) (dist_wrapper dist evs) M) ->
  threads_resample (Err := Err) nthreads sched mw sort strategy algo' dist M evs = threads_resample (Err := Err) nthreads sched mw sort strategy algo dist max evs.
Proof.
  intros N Err D nthreads sched mw sort strategy algo algo' dist max M evs Hsort Hord DM DX HDd Hties HM Ha Ha'.
  assert (S : forall q, q < length evs -> same_ids N (algo' (length evs) (dist_wrapper dist evs) M q) (algo (length evs) (dist_wrapper dist evs) max q)).
  { intros s Hlt. destruct (Ha s Hlt) as (l & E1 & L1). destruct (Ha' s Hlt) as (l' & E2 & L2).
    assert (G : forall k, k < length evs -> exists e, nth_error evs k = Some e) by (intros k Hk; destruct (nth_error evs k) as [e|] eqn:Ek; [eauto|apply nth_error_None in Ek; lia]).
    destruct (G s Hlt) as (a & Ea).
    destruct (limit_nearest N D (length evs) s (fun i => dist_wrapper dist evs i s) max M l l' Hord) as (rest & El & R); auto.
    - intros i Hi. destruct (G i Hi) as (b & Eb). unfold dist_wrapper. rewrite Eb, Ea. apply HDd; eapply nth_error_In; eassumption.
    - intros i j Hi Hj Hiq Hjq. destruct (G i Hi) as (b & Eb), (G j Hj) as (c & Ec). unfold dist_wrapper. rewrite Ea, Eb, Ec. apply (Hties s i j a b c); auto.
    - destruct rest as [|x rest]; [rewrite app_nil_r in El; subst l; unfold same_ids; rewrite E1, E2; reflexivity|]. exfalso. inversion R as [|? ? Rx _]; subst.
      destruct L1 as (_ & I1 & F1 & _). rewrite Forall_forall in F1. assert (Hx : In x (l' ++ x :: rest)) by (apply in_or_app; right; left; reflexivity). rewrite (F1 x Hx) in Rx.
      pose proof (proj1 (I1 (fst x)) (in_map fst _ _ Hx)) as (Hi & _). destruct (G _ Hi) as (b & Eb). unfold dist_wrapper in Rx. rewrite Eb, Ea in Rx. destruct (HDd b a) as [_ Q]; eauto using nth_error_In. congruence. }
  unfold threads_resample. destruct (select_seeds sort strategy (map ev_weights evs)) as [seeds|]; [|reflexivity]. cbv zeta.
  set (s0 := conc_init nthreads seeds (map ev_weights evs)).
  assert (S0 : same_state (length evs) s0 s0).
  { repeat split; [|cbn; apply map_length]. generalize (threads s0). intros l. induction l; constructor; [apply same_thread_refl|assumption]. }
  pose proof (same_run mw _ _ (length evs) S sched (length seeds * (11 + 4 * length (map ev_weights evs))) 0 s0 s0 S0) as R.
  rewrite (same_finished _ _ _ R). destruct R as [-> _]. reflexivity.
Qed.
Print Assumptions C98_threads.

(** A case: no two events of C97_case are farther apart than 106. *)
Example C98_threads_case : (forall a b, In a groups -> In b groups -> nleb (n := ZN) (zev_dist a b) 106%Z = true) /\
  option_map (fun x => match x with inl r => map ev_weights r | inr _ => [] end) (threads_resample (N := ZN) (Err := unit) 3 (fun i => (i, i)) false isort MostNegative (naive_nearest first_min) zev_dist 106%Z groups) = Some [[1]; [1]; [1]; [1]; [4]]%Z.
Proof.
  split; [|vm_compute; reflexivity]. intros a b Ha Hb. cbn in Ha, Hb. repeat (destruct Ha as [<-|Ha]; [repeat (destruct Hb as [<-|Hb]; [reflexivity|]); contradiction|]). contradiction.
Qed.

(** The number of events with negative weight need not decrease if larger cells are allowed: a cell whose weights do not add up to
    zero or more leaves all its events with negative weights. *)
Definition negatives (evs : list (Event ZN)) : nat := length (filter (fun e : Event ZN => match ev_weights e with w :: _ => nltb (n := ZN) w 0%Z | [] => false end) evs).
Theorem C98_larger_refuted : exists (evs : list (Event ZN)) (small large : Z) r cs r' cs', (small < large)%Z /\ no_ties zev_dist evs /\
  resampler_resample (N := ZN) false isort MostNegative (naive_nearest first_min) zev_dist small evs = Some (r, cs) /\
  resampler_resample (N := ZN) false isort MostNegative (naive_nearest first_min) zev_dist large evs = Some (r', cs') /\
  negatives r < negatives r'.
Proof.
  exists [zev (-10) 0; zev 2 5]%Z, 1%Z, 6%Z. eexists _, _, _, _. split; [lia|]. split; [|split; [vm_compute; reflexivity|split; [vm_compute; reflexivity|vm_compute; lia]]].
  intros q i j a b c Hi Hj Hq Hb Hc. destruct q as [|[|q]]; destruct i as [|[|i]]; destruct j as [|[|j]]; cbn in Hq, Hb, Hc; try congruence; try (destruct q; discriminate); try (destruct i; discriminate); try (destruct j; discriminate).
Qed.
Print Assumptions C98_larger_refuted.
