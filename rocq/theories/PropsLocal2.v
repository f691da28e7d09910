(** Property C75 for any number of threads and every schedule. *)
From Coq Require Import Reals Lra List Arith Lia Permutation ZArith SpecFloat.
From Verif Require Import Base BaseProofs Num ModelEvent SpecEvent ModelCell CellProofs SpecWeights SumProofs ModelSeeds ModelNaive NaiveProofs RunProofs SeedsProofs ModelResampler RunProofs2 SpecSearch ModelConc SpecConc ConcProofs2
  SpecLocal LocalProofs PropsConc PropsLocal.
Import ListNotations.
Local Open Scope R_scope.

Lemma observable_cells f eps mw nw k (ok : list nat -> Prop) (cells : list (Cell RN)) : 
  (forall ms, ok ms -> exists seed, In seed ms /\ forall i, In i ms -> Rabs (f i - f seed) <= eps) -> 0 <= eps ->
  forall (ws ws' : weights_state RN), shaped mw nw ws -> ofold (cell_resample mw) cells ws = Some ws' -> (forall c, In c cells -> ok (members c)) ->
  Rabs (observable f ws' k - observable f ws k) <= 2 * eps * INR (length cells) * total_abs ws k.
Proof.
  intros Hok He. induction cells as [|c cells IH]; intros ws ws' Hs H Hc; cbn [ofold] in H.
  - injection H as <-. unfold Rminus. rewrite Rplus_opp_r, Rabs_R0. cbn [length INR]. lra.
  - destruct (cell_resample mw ws c) as [ws1|] eqn:E; [|discriminate].
    destruct (Hok _ (Hc c (or_introl eq_refl))) as (seed & Hin & Hf).
    assert (O1 : Rabs (observable f ws1 k - observable f ws k) <= 2 * eps * total_abs ws k).
    { apply (observable_cell f eps mw nw ws seed c ws1 k Hs); auto. intros X. rewrite X in Hin. destruct Hin. }
    assert (S1 : shaped mw nw ws1) by (eapply resample_shaped; eauto).
    assert (A1 : total_abs ws1 k <= total_abs ws k) by apply (resample_total_abs (shaped_wf Hs) E).
    specialize (IH ws1 ws' S1 H (fun c' Hc' => Hc c' (or_intror Hc'))).
    change (length (c :: cells)) with (S (length cells)). rewrite S_INR.
    assert (X : 2 * eps * INR (length cells) * total_abs ws1 k <= 2 * eps * INR (length cells) * total_abs ws k).
    { apply Rmult_le_compat_l; [|exact A1]. apply Rmult_le_pos; [lra|apply pos_INR]. }
    replace (observable f ws' k - observable f ws k) with ((observable f ws' k - observable f ws1 k) + (observable f ws1 k - observable f ws k)) by ring.
    eapply Rle_trans; [apply Rabs_triang|]. lra.
Qed.

(** An event that is not within the limit of any seed keeps its weights, in every arithmetic. *)
Theorem C75_untouched_any_schedule : forall (N : NumOps) mw nw (nearest : search N) (dist : nat -> nat -> N) max (ws0 : list (list N)) seeds nthreads k s i,
  valid_search (length ws0) nearest -> limited_search (length ws0) dist max nearest -> shaped mw nw ws0 -> (forall j, In j seeds -> (j < length ws0)%nat) ->
  conc_steps mw nearest k (conc_init nthreads seeds ws0) s -> quiescent s ->
  (forall seed, In seed seeds -> seed <> i /\ nleb (dist seed i) max = false) ->
  nth_error (mem s) i = nth_error ws0 i.
Proof.
  intros N mw nw nearest dist max ws0 seeds nthreads k s i Hv Hl Hs Hin Hsteps Hq Hfar.
  destruct (C05_linearizable N mw nw nearest ws0 seeds nthreads k s Hv Hs Hin Hsteps Hq) as (cells & H & _ & Hc).
  assert (Hni : forall c, In c cells -> ~ In i (members c)).
  { intros c Hcin X. destruct (Hc c Hcin) as (seed & nbrs & n & Hse & Hn & Hp). apply (Permutation_in _ Hp) in X.
    destruct (Hfar seed Hse) as [Hne Hd]. destruct X as [X|X]; [contradiction|].
    assert (Y : In i (map fst nbrs)) by (rewrite <- (firstn_skipn n (map fst nbrs)); apply in_or_app; left; exact X).
    destruct (Hl seed nbrs i (Hin seed Hse) Hn Y) as [_ Z]. rewrite Hd in Z. discriminate. }
  clear Hc Hsteps Hq. generalize (mem s) H. clear H. clear -Hni. revert ws0. induction cells as [|c cells IH]; intros ws0 ws' H; cbn [ofold] in H; [injection H as <-; reflexivity|].
  destruct (cell_resample mw ws0 c) as [ws1|] eqn:E; [|discriminate]. rewrite (IH (fun c' Hc' => Hni c' (or_intror Hc')) ws1 ws' H).
  pose proof (resample_frame _ _ _ E) as (_ & _ & _ & avg & Hfr). rewrite Hfr. destruct (in_dec Nat.eq_dec i (members c)) as [X|X]; [|reflexivity].
  exfalso. exact (Hni c (or_introl eq_refl) X).
Qed.
Print Assumptions C75_untouched_any_schedule.

(** The bound for observables with the number of seeds, in exact arithmetic. *)
Theorem C75_any_schedule : forall f eps mw nw (nearest : search RN) (dist : nat -> nat -> R) (max : R) (ws0 : list (list R)) seeds nthreads n (s : cstate RN) k,
  valid_search (length ws0) nearest -> limited_search (length ws0) dist max nearest -> shaped mw nw ws0 -> (forall j, In j seeds -> (j < length ws0)%nat) ->
  0 <= eps -> (forall i j, (i < length ws0)%nat -> (j < length ws0)%nat -> dist i j <= max -> Rabs (f j - f i) <= eps) ->
  conc_steps mw nearest n (conc_init nthreads seeds (ws0 : weights_state RN)) s -> quiescent s ->
  Rabs (observable f (mem s) k - observable f ws0 k) <= 2 * eps * INR (length seeds) * total_abs ws0 k.
Proof.
  intros f eps mw nw nearest dist max ws0 seeds nthreads n s k Hv Hl Hs Hin He Hf Hsteps Hq.
  destruct (C05_linearizable RN mw nw nearest ws0 seeds nthreads n s Hv Hs Hin Hsteps Hq) as (cells & H & Hlen & Hc).
  apply Rle_trans with (2 * eps * INR (length cells) * total_abs ws0 k).
  - eapply (observable_cells f eps mw nw k (planned_cell nearest seeds)); try eassumption.
    intros ms (seed & nbrs & m & Hse & Hn & Hp). exists seed. split; [apply (Permutation_in _ (Permutation_sym Hp)); left; reflexivity|].
    intros i Hi. apply (Permutation_in _ Hp) in Hi. destruct Hi as [<-|Hi]; [unfold Rminus; rewrite Rplus_opp_r, Rabs_R0; exact He|].
    assert (Y : In i (map fst nbrs)) by (rewrite <- (firstn_skipn m (map fst nbrs)); apply in_or_app; left; exact Hi).
    destruct (Hl seed nbrs i (Hin seed Hse) Hn Y) as [Z1 Z2]. apply Hf; auto. apply Rleb_true. exact Z2.
  - apply Rmult_le_compat_r; [apply Rsum_nonneg; intros x Hx; apply in_map_iff in Hx; destruct Hx as (w & <- & _); apply Rabs_pos|].
    apply Rmult_le_compat_l; [lra|]. apply le_INR. exact Hlen.
Qed.
Print Assumptions C75_any_schedule.

(** *** Cases *)
(** The race of C08_refuted (weights -1, 1, -1, 5 at the positions 0, 1, 2, 10) with cells of size
    up to 3: the last event keeps its weight in every schedule. *)
Definition near_search : search B64 := naive_nearest first_min 4 race_dist (b64_of_Z 3).
Example C75_untouched_any_schedule_case :
  valid_search 4 near_search /\ limited_search 4 race_dist (b64_of_Z 3) near_search /\ shaped false 1 race_weights /\
  (forall seed, In seed [0; 2]%nat -> seed <> 3%nat /\ nleb (race_dist seed 3) (b64_of_Z 3) = false) /\
  exists k s, conc_steps false near_search k (conc_init 2 [0; 2]%nat race_weights) s /\ done s /\ mem s <> race_weights.
Proof.
  assert (Hd : forall i j, (i < 4)%nat -> (j < 4)%nat -> not_nan (race_dist i j)).
  { intros i j Hi Hj. do 4 (destruct i as [|i]; [do 4 (destruct j as [|j]; [vm_compute; discriminate|]); lia|]); lia. }
  split; [apply naive_valid with (D := not_nan); auto using B64_order, first_min_ok; vm_compute; discriminate|].
  split.
  { apply (C75_naive_limited B64 not_nan); auto using B64_order, first_min_ok; [vm_compute; discriminate|].
    intros i j Hi Hj. do 4 (destruct i as [|i]; [do 4 (destruct j as [|j]; [reflexivity|]); lia|]); lia. }
  split; [split; [lia|split; [reflexivity|repeat constructor]]|].
  split; [intros seed [<-|[<-|[]]]; split; try lia; reflexivity|].
  assert (E : run_schedule false near_search race_schedule (conc_init 2 [0; 2]%nat race_weights) = Some race_final) by vmr.
  destruct (schedule_steps _ _ _ _ _ _ E) as [k Hk]. exists k, race_final. split; [exact Hk|]. split.
  - split; [reflexivity|]. intros t [<-|[<-|[]]]; reflexivity.
  - unfold race_final, race_weights. cbn [mem map]. intros X. discriminate X.
Qed.

(** C06: hence every run can be completed. *)
Theorem C06_completes : forall (N : NumOps) mw nw (nearest : search N) (ws0 : list (list N)) seeds nthreads,
  valid_search (length ws0) nearest -> shaped mw nw ws0 -> (forall i, In i seeds -> (i < length ws0)%nat) -> (0 < nthreads)%nat ->
  exists k s, conc_steps mw nearest k (conc_init nthreads seeds ws0) s /\ done s.
Proof.
  intros N mw nw nearest ws0 seeds nthreads Hv Hs Hin Hn. set (B := (length seeds * (11 + 4 * length ws0))%nat).
  assert (G : forall d k s, (B - k <= d)%nat -> conc_steps mw nearest k (conc_init nthreads seeds ws0) s -> exists k s, conc_steps mw nearest k (conc_init nthreads seeds ws0) s /\ done s).
  { induction d as [|d IH]; intros k s Hd Hk.
    - destruct (C06_no_deadlock N mw nw nearest ws0 seeds nthreads k s Hv Hs Hin Hn Hk) as [X|(s' & X)]; [eauto|].
      assert (Y : conc_steps mw nearest (S k) (conc_init nthreads seeds ws0) s') by (econstructor; eassumption).
      pose proof (C06_terminates N mw nw nearest ws0 seeds Hv Hs Hin nthreads (S k) s' Y). fold B in H. lia.
    - destruct (C06_no_deadlock N mw nw nearest ws0 seeds nthreads k s Hv Hs Hin Hn Hk) as [X|(s' & X)]; [eauto|].
      apply (IH (S k) s'); [lia|]. econstructor; eassumption. }
  apply (G B 0%nat (conc_init nthreads seeds ws0)); [lia|]. constructor.
Qed.
Print Assumptions C06_completes.

(** Weights 5, -1 and 7 at the positions 0, 1 and 10 with cells of size up to 2, two threads: the
    first two events keep their sum. *)
Definition l_search : search RN := naive_nearest first_min 3 (dist_wrapper (l_dist RN IZR) (l_evs RN IZR)) 2.
Example C75_any_schedule_case : let ws := [[5]; [-1]; [7]] in let f := fun i : nat => if Nat.ltb i 2 then 1 else 0 in
  valid_search 3 l_search /\ limited_search 3 (dist_wrapper (l_dist RN IZR) (l_evs RN IZR)) 2 l_search /\ shaped false 1 ws /\
  (forall i j, (i < 3)%nat -> (j < 3)%nat -> dist_wrapper (l_dist RN IZR) (l_evs RN IZR) i j <= 2 -> Rabs (f j - f i) <= 0) /\
  exists k s, conc_steps false l_search k (conc_init 2 [1%nat] (ws : weights_state RN)) s /\ done s.
Proof.
  cbn zeta. destruct C75_separated_case as (_ & Hl & _).
  assert (Hv : valid_search 3 l_search).
  { intros q Hq. destruct (@naive_nearest_ok RN (fun _ => True) RN_order first_min 3 (dist_wrapper (l_dist RN IZR) (l_evs RN IZR)) 2 q first_min_ok I (fun _ _ => I) Hq) as (r & E & Hn & Hin & _).
    exists r. split; [exact E|]. split; [exact Hn|]. intros i Hi. apply Hin in Hi. destruct Hi as (A & B & _). auto. }
  assert (Hsh : shaped false 1 [[5]; [-1]; [7]]) by (split; [lia|split; [auto|repeat constructor]]).
  split; [exact Hv|]. split; [exact Hl|]. split; [exact Hsh|]. split.
  - assert (Q : forall a b : nat, (a < 3)%nat -> (b < 3)%nat -> (2 <? Z.abs (Z.of_nat (nth a [0; 1; 10]%nat 0%nat) - Z.of_nat (nth b [0; 1; 10]%nat 0%nat)))%Z = true ->
      ~ dist_wrapper (l_dist RN IZR) (l_evs RN IZR) a b <= 2).
    { intros a b Ha Hb Hz H. apply Z.ltb_lt in Hz. apply IZR_lt in Hz. apply (Rlt_not_le _ _ Hz).
      destruct a as [|[|[|a]]]; [| | |lia]; (destruct b as [|[|[|b]]]; [| | |lia]); exact H. }
    intros i j Hi Hj H. destruct i as [|[|[|i]]], j as [|[|[|j]]]; try lia;
      try (exfalso; apply (fun H1 H2 H3 => Q _ _ H1 H2 H3 H); [lia|lia|reflexivity]); cbn [Nat.ltb Nat.leb]; unfold Rminus; rewrite Rplus_opp_r, Rabs_R0; apply Rle_refl.
  - apply (C06_completes RN false 1 l_search ([[5]; [-1]; [7]] : list (list R)) [1%nat] 2); auto. intros i [<-|[]]. cbn. lia.
Qed.
