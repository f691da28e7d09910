(** Properties of runs with any number of threads and any schedule: C05, C06, C08, C10. *)
From Coq Require Import Reals ZArith SpecFloat.
From Verif Require Import Base BaseProofs Num ModelEvent ModelCell ModelSeeds ModelNaive ModelResampler
  ModelConc SpecWeights SpecSearch SpecConc CellProofs RunProofs SeedsProofs NaiveProofs RunProofs2 ConcProofs ConcProofs2.

(** C05.  Whatever the schedule: whenever no write lock is held, the weights are those
    obtained by resampling some sequence of complete cells one after the other, each
    consisting of a seed and its first few neighbours (any arithmetic). *)
Theorem C05_linearizable : forall (N : NumOps) mw nw (nearest : search N) (ws0 : list (list N)) seeds nthreads k s,
  valid_search (length ws0) nearest -> shaped mw nw ws0 -> (forall i, In i seeds -> i < length ws0) ->
  conc_steps mw nearest k (conc_init nthreads seeds ws0) s -> quiescent s ->
  exists cells : list (Cell N), ofold (cell_resample mw) cells ws0 = Some (mem s) /\
    length cells <= length seeds /\
    forall c, In c cells -> planned_cell nearest seeds (members c).
Proof. exact linearise_spec. Qed.
Print Assumptions C05_linearizable.

(** ... hence the total of every weight component is the initial one. *)
Theorem C05_total : forall mw nw (nearest : search RN) (ws0 : list (list R)) seeds nthreads k (s : cstate RN),
  valid_search (length ws0) nearest -> shaped mw nw ws0 -> (forall i, In i seeds -> i < length ws0) ->
  conc_steps mw nearest k (conc_init nthreads seeds (ws0 : weights_state RN)) s -> quiescent s ->
  forall j, total (mem s) j = total ws0 j.
Proof. exact conc_total_spec. Qed.
Print Assumptions C05_total.

(** At the end no lock is held. *)
Theorem C05_end_is_quiescent : forall (N : NumOps) (s : cstate N), done s -> quiescent s.
Proof. exact done_quiescent. Qed.
Print Assumptions C05_end_is_quiescent.

(** C10 under every schedule. *)
Theorem C10_any_schedule : forall mw nw (nearest : search RN) (ws0 : list (list R)) seeds nthreads k (s : cstate RN),
  valid_search (length ws0) nearest -> shaped mw nw ws0 -> (forall i, In i seeds -> i < length ws0) ->
  conc_steps mw nearest k (conc_init nthreads seeds (ws0 : weights_state RN)) s -> quiescent s ->
  forall j, (total_abs (mem s) j <= total_abs ws0 j)%R /\ (total_neg (mem s) j <= total_neg ws0 j)%R /\
    forall lo hi, within lo hi j ws0 -> within lo hi j (mem s).
Proof. exact conc_shrinks_spec. Qed.
Print Assumptions C10_any_schedule.

(** C06: a run that is not finished can always continue; ... *)
Theorem C06_no_deadlock : forall (N : NumOps) mw nw (nearest : search N) (ws0 : list (list N)) seeds nthreads k s,
  valid_search (length ws0) nearest -> shaped mw nw ws0 -> (forall i, In i seeds -> i < length ws0) ->
  0 < nthreads -> conc_steps mw nearest k (conc_init nthreads seeds ws0) s ->
  done s \/ exists s', conc_step mw nearest s s'.
Proof. exact no_deadlock_spec. Qed.
Print Assumptions C06_no_deadlock.

(** ... no thread ever panics: it can go on, or there are no seeds left, or the event it
    needs next is write-locked by a different thread; ... *)
Theorem C06_only_waits : forall (N : NumOps) mw nw (nearest : search N) (ws0 : list (list N)) seeds nthreads k s t x,
  valid_search (length ws0) nearest -> shaped mw nw ws0 -> (forall i, In i seeds -> i < length ws0) ->
  conc_steps mw nearest k (conc_init nthreads seeds ws0) s ->
  nth_error (threads s) t = Some x ->
  (exists choice s', thread_step mw nearest s t choice = Some s') \/
  (x = TIdle /\ pool s = []) \/
  (exists i t' y, wants x i /\ t' <> t /\ nth_error (threads s) t' = Some y /\ In i (held_of y)).
Proof. exact only_waits_spec. Qed.
Print Assumptions C06_only_waits.

(** ... and no schedule is longer than a bound given by the numbers of seeds and events. *)
Theorem C06_terminates : forall (N : NumOps) mw nw (nearest : search N) (ws0 : list (list N)) seeds,
  valid_search (length ws0) nearest -> shaped mw nw ws0 -> (forall i, In i seeds -> i < length ws0) ->
  forall nthreads k s, conc_steps mw nearest k (conc_init nthreads seeds ws0) s ->
  k <= length seeds * (11 + 4 * length ws0).
Proof. exact steps_bound'. Qed.
Print Assumptions C06_terminates.

(** With one thread the run is the sequential loop over the seeds in some order ... *)
Theorem C08_one_thread : forall (N : NumOps) mw nw (nearest : search N) (ws0 : list (list N)) seeds k s,
  valid_search (length ws0) nearest -> shaped mw nw ws0 -> (forall i, In i seeds -> i < length ws0) ->
  conc_steps mw nearest k (conc_init 1 seeds ws0) s -> done s ->
  exists order cells, Permutation order seeds /\ resample_seeds mw nearest order ws0 = Some (mem s, cells).
Proof. exact one_thread_spec. Qed.
Print Assumptions C08_one_thread.

(** ... and leaves no negative weight if the total is non-negative. *)
Theorem C08_one_thread_no_negative_partial : forall mw nw (nearest : search RN) (ws0 : list (list R)) seeds k (s : cstate RN),
  complete_search (length ws0) nearest -> shaped mw nw ws0 -> (forall i, In i seeds -> i < length ws0) ->
  (0 <= total ws0 0)%R -> (forall i, i < length ws0 -> (comp ws0 i 0 < 0)%R -> In i seeds) ->
  conc_steps mw nearest k (conc_init 1 seeds (ws0 : weights_state RN)) s -> done s ->
  forall i, i < length ws0 -> (0 <= comp (mem s) i 0)%R.
Proof. exact one_thread_no_negative. Qed.
Print Assumptions C08_one_thread_no_negative_partial.

(** C08 fails with two threads.  Weights -1, 1, -1, 5 at positions 0, 1, 2, 10 on a line.
    Both threads read the weight 1 of event 1 and plan the cells {0, 1} and {2, 1}; then the
    first cell is resampled (weights 0, 0), then the second: -1/2 is left in events 1 and 2,
    although the total is 4, there is no size limit and all seeds are treated. *)
Definition race_dist (i j : nat) : B64 :=
  let pos := [0; 1; 2; 10]%Z in b64_of_Z (Z.abs (nth i pos 0 - nth j pos 0)%Z).
Definition race_weights : list (list B64) := map (fun x => [b64_of_Z x]) [-1; 1; -1; 5]%Z.
Definition race_search : search B64 := naive_nearest first_min 4 race_dist (b64_of_Z 100).

(** Thread 0: takes seed 0, checks, starts, adds event 1; the same for thread 1; then
    thread 0 locks, averages, writes and releases; then thread 1. *)
Definition race_schedule : list (nat * nat) :=
  [(0,0); (0,0); (0,0); (0,0); (1,0); (1,0); (1,0); (1,0)] ++
  repeat (0,0) 6 ++ repeat (1,0) 6.

Lemma schedule_steps (N : NumOps) mw (nearest : search N) sched s s' :
  run_schedule mw nearest sched s = Some s' -> exists k, conc_steps mw nearest k s s'.
Proof.
  assert (G : forall l s0 k s, conc_steps mw nearest k s0 s -> run_schedule mw nearest l s = Some s' ->
     exists k, conc_steps mw nearest k s0 s').
  { induction l as [|[t c] rest IH]; intros s0 k s1 Hk H; cbn in H.
    - injection H as <-. eauto.
    - destruct (thread_step mw nearest s1 t c) as [s2|] eqn:E; [|discriminate].
      eapply IH; [|exact H]. econstructor; [exact Hk|]. exists t, c. exact E. }
  apply G with (k := 0). constructor.
Qed.

Lemma race_complete : complete_search 4 race_search.
Proof.
  assert (Hd : forall i j, i < 4 -> j < 4 -> not_nan (race_dist i j)).
  { intros i j Hi Hj. do 4 (destruct i as [|i]; [do 4 (destruct j as [|j]; [vm_compute; discriminate|]); lia|]); lia. }
  assert (Hv : valid_search 4 race_search).
  { apply naive_valid with (D := not_nan); auto using B64_order, first_min_ok. vm_compute; discriminate. }
  intros seed Hs. destruct (Hv seed Hs) as (nb & A & B). exists nb. split; auto. split; auto.
  clear B. intros i Hi Hne.
  do 4 (destruct seed as [|seed]; [vm_compute in A; injection A as <-; cbn; lia|]); lia.
Qed.

(** The final state of this schedule. *)
Definition race_final : cstate B64 :=
  Eval vm_compute in
    match run_schedule false race_search race_schedule (conc_init 2 [0; 2] race_weights) with
    | Some s => s | None => conc_init 0 [] [] end.

Lemma race_run : run_schedule false race_search race_schedule (conc_init 2 [0; 2] race_weights) = Some race_final.
Proof. vmr. Qed.

Theorem C08_refuted : exists (ws : list (list B64)) (nearest : search B64) seeds k s i w,
  complete_search (length ws) nearest /\ shaped false 1 ws /\
  select_seeds isort MostNegative ws = Some seeds /\
  nltb n0 (nsum (map (fun x => nth 0 x n0) ws)) = true /\
  conc_steps false nearest k (conc_init 2 seeds ws) s /\ done s /\
  central_weight (mem s) i w /\ nltb w n0 = true.
Proof.
  destruct (@schedule_steps B64 _ _ _ _ _ race_run) as [k Hk].
  exists race_weights, race_search, [0; 2], k, race_final, 1.
  let w := eval vm_compute in (nth 0 (nth 1 (mem race_final) []) (S754_zero false)) in exists w.
  split; [exact race_complete|].
  split; [split; [lia|split; [reflexivity|repeat constructor]]|].
  split; [vmr|]. split; [vmr|]. split; [exact Hk|].
  split; [split; [reflexivity|]|split; [exists []; reflexivity|vmr]].
  intros t [<-|[<-|[]]]; reflexivity.
Qed.
Print Assumptions C08_refuted.

(** The hypotheses of the theorems above are met by this run of two threads. *)
Example C05_case : valid_search (length race_weights) race_search /\ shaped false 1 race_weights /\
  (forall i, In i [0; 2] -> i < length race_weights) /\
  exists k s, conc_steps false race_search k (conc_init 2 [0; 2] race_weights) s /\ quiescent s /\
    mem s <> race_weights.
Proof.
  split; [apply complete_valid, race_complete|].
  split; [split; [lia|split; [reflexivity|repeat constructor]]|].
  split; [intros i [<-|[<-|[]]]; cbn; lia|].
  destruct (@schedule_steps B64 _ _ _ _ _ race_run) as [k Hk].
  exists k, race_final. split; [exact Hk|]. split; [|discriminate].
  intros t [<-|[<-|[]]]; reflexivity.
Qed.

(** Waiting really happens: thread 0 holds events 0 and 1 of its cell, thread 1 cannot lock
    event 1, and can do so after thread 0 has finished its cell. *)
Definition race_blocked : cstate B64 :=
  Eval vm_compute in
    match run_schedule false race_search (firstn 8 race_schedule ++ [(0,0); (0,0)])
            (conc_init 2 [0; 2] race_weights) with
    | Some s => s | None => conc_init 0 [] [] end.

Example C06_case :
  run_schedule false race_search (firstn 8 race_schedule ++ [(0,0); (0,0)])
    (conc_init 2 [0; 2] race_weights) = Some race_blocked /\
  thread_step false race_search race_blocked 1 0 = None /\
  exists s, run_schedule false race_search [(0,0); (0,0); (0,0); (0,0); (1,0)] race_blocked = Some s.
Proof.
  split; [vmr|]. split; [vmr|].
  let r := eval vm_compute in (run_schedule false race_search [(0,0); (0,0); (0,0); (0,0); (1,0)] race_blocked) in
  match r with Some ?s => exists s end. vmr.
Qed.
