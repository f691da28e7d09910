(** C96 with several threads. *)
From Coq Require Import NArith ZArith Reals Lra Lia FunctionalExtensionality.
From Verif Require Import Base BaseProofs Num ModelEvent ModelCell ModelSeeds ModelNaive ModelResampler ModelConc ModelThreads ModelProgram ModelCres SpecSearch SpecSchedule SpecWeights SpecMix
  SumProofs CellProofs RunProofs RunProofs2 MixProofs MixThreads PropsMix PropsThreads.
From Coq Require Import List.
Import ListNotations.
Local Open Scope R_scope.

Lemma with_mix A (evs : list (Event RN)) : forall ws : list (list RN), with_weights (map (reweighted A) evs) (map (mix A) ws) = map (reweighted A) (with_weights evs ws).
Proof. unfold with_weights. induction evs as [|e evs IH]; intros [|w ws]; try reflexivity. cbn [map combine]. f_equal. apply IH. Qed.
(** With any number of threads and for every schedule: the weights that result from linear combinations of the original weights are
    the same linear combinations of the weights that result from the original ones with the same schedule. *)
Theorem C96_threads : forall Err nthreads sched mw nw sort strategy (algo : search_algo RN) dist max c A (evs r : list (Event RN)),
  keeps_central c A -> (mw = false -> length A = 1%nat) -> shaped mw nw (map ev_weights evs) ->
  (forall a b a' b', ev_out a = ev_out a' -> ev_out b = ev_out b' -> dist a b = dist a' b') ->
  threads_resample (Err := Err) nthreads sched mw sort strategy algo dist max evs = Some (inl r) ->
  threads_resample (Err := Err) nthreads sched mw sort strategy algo dist max (map (reweighted A) evs) = Some (inl (map (reweighted A) r)).
Proof.
  intros Err nthreads sched mw nw sort strategy algo dist max c A evs r (Hc & others & ->) Hm Hw Hd H.
  assert (Hmw : mw = false -> others = []) by (intros E; specialize (Hm E); destruct others; [reflexivity|discriminate]).
  unfold threads_resample in *. cbv zeta in *.
  assert (W : map ev_weights (map (reweighted ([c] :: others)) evs) = map (mix ([c] :: others)) (map ev_weights evs)) by (rewrite !map_map; reflexivity).
  assert (S : select_seeds (N := RN) sort strategy (map ev_weights (map (reweighted ([c] :: others)) evs)) = select_seeds (N := RN) sort strategy (map ev_weights evs)).
  { etransitivity; [apply f_equal; exact W|]. exact (mix_select mw nw c others Hc Hmw sort strategy _ Hw). }
  rewrite S. destruct (select_seeds (N := RN) sort strategy (map ev_weights evs)) as [seeds|]; [|discriminate].
  assert (D : dist_wrapper (N := RN) dist (map (reweighted ([c] :: others)) evs) = dist_wrapper (N := RN) dist evs).
  { apply functional_extensionality. intros i. apply functional_extensionality. intros j. unfold dist_wrapper. rewrite !nth_error_map.
    destruct (nth_error evs i), (nth_error evs j); cbn [option_map]; try reflexivity. apply Hd; reflexivity. }
  rewrite D, !map_length. rewrite !map_length in H.
  set (ws := map ev_weights evs) in *. set (ws' := map ev_weights (map (reweighted ([c] :: others)) evs)) in *.
  assert (I0 : mixed_state mw nw c others (conc_init nthreads seeds ws) (conc_init nthreads seeds ws')).
  { split; [exact Hw|]. split; [exact W|]. split; [reflexivity|]. cbn [conc_init threads]. generalize nthreads. intros m. induction m as [|m IH]; cbn [repeat]; constructor; [exact I|exact IH]. }
  pose proof (mixed_run mw nw c others Hc Hmw (algo (length evs) (dist_wrapper dist evs) max) sched (length seeds * (11 + 4 * length evs)) 0 _ _ I0) as R.
  rewrite <- (mixed_finished _ _ _ _ _ _ R). destruct R as (_ & E & _).
  match type of H with (if ?b then _ else _) = _ => destruct b; [|discriminate H] end. injection H as <-. do 2 f_equal. rewrite E.
  apply with_mix.
Qed.
Print Assumptions C96_threads.

(** A case: any number of threads, every schedule *)
Lemma everything_valid n d max : valid_search n (everything n d max).
Proof.
  intros q Hq. eexists. split; [reflexivity|]. split.
  - rewrite map_map. cbn [fst]. rewrite map_id. apply NoDup_filter. apply seq_NoDup.
  - intros i. rewrite map_map. cbn [fst]. rewrite map_id. intros Hi. apply filter_In in Hi. destruct Hi as [Hi Hn]. apply in_seq in Hi. split; [lia|]. destruct (Nat.eqb_spec i q); [discriminate|assumption].
Qed.
Example C96_threads_case : forall nthreads sched, (0 < nthreads)%nat ->
  exists r', threads_resample (Err := unit) nthreads sched true isort Next everything no_dist 1 (map (reweighted differences) two_weights) = Some (inl r') /\ map ev_weights r' = [[2; -2]; [2; -2]].
Proof.
  intros nthreads sched Hn. assert (K : keeps_central 2 differences) by (split; [lra|]; exists [[1; -1]]; reflexivity).
  assert (W : shaped true 2 (map ev_weights two_weights)) by (split; [lia|]; split; [discriminate|]; repeat constructor).
  destruct two_run as (cs & E & _).
  assert (T : threads_resample (Err := unit) nthreads sched true isort Next everything no_dist 1 two_weights = Some (inl [mkEvent (N := RN) 0%nat [1; 3] []; mkEvent (N := RN) 1%nat [1; 3] []])).
  { etransitivity; [apply (C76_apart RN unit (fun _ => True) true 2)|]; auto.
    - apply isort_ok.
    - apply RN_order.
    - apply everything_valid.
    - assert (B : select_seeds (N := RN) isort Next (map ev_weights two_weights) = Some [0%nat]).
      { unfold select_seeds, two_weights. cbn [map ev_weights omap central nth_error length seq combine filter]. change (@n0 RN) with 0. rewrite (lt_yes (-1) 0), (lt_no 3 0) by lra. reflexivity. }
      intros seeds Hs. assert (X : Some [0%nat] = Some seeds) by (rewrite <- B; exact Hs). injection X as <-. intros a b ca cb i [<-|[]] [<-|[]] Hne. contradiction.
    - unfold lib_resample. rewrite E. reflexivity. }
  eexists. split; [exact (C96_threads unit nthreads sched true 2 isort Next everything no_dist 1 2 differences two_weights _ K ltac:(discriminate) W ltac:(reflexivity) T)|].
  unfold reweighted, mix, differences, combination, Rsum. cbn.
  assert (X : forall a b a' b' : R, a = a' -> b = b' -> [[a; b]; [a; b]] = [[a'; b']; [a'; b']]) by (intros; subst; reflexivity). apply X; ring.
Qed.
