(** Properties of a run with one thread: C04, C07, C10 (whole run), C11, C12. *)
From Coq Require Import Reals Lra ZArith.
From Verif Require Import Base BaseProofs Num ModelEvent ModelCell ModelSeeds ModelNaive
  ModelResampler SpecWeights SpecSearch CellProofs RunProofs SeedsProofs NaiveProofs RunProofs2.

(** C04: a whole run keeps number, order, ids and momenta of the events, the numbers of
    weights, and the total of every weight component. *)
Theorem C04_run_total : forall mw nw sort strategy (algo : search_algo RN) dist max
    (evs evs' : list (Event RN)) cells,
  shaped mw nw (map ev_weights evs) ->
  resampler_resample mw sort strategy algo dist max evs = Some (evs', cells) ->
  length evs' = length evs /\ map ev_id evs' = map ev_id evs /\ map ev_out evs' = map ev_out evs /\
  shaped mw nw (map ev_weights evs') /\
  forall k, total (map ev_weights evs') k = total (map ev_weights evs) k.
Proof. exact resampler_total. Qed.
Print Assumptions C04_run_total.

(** ... for an arbitrary list of seeds (a user-defined selection, repetitions allowed). *)
Theorem C04_any_seeds : forall mw nw nearest seeds (ws ws' : list (list R)) (cells : list (Cell RN)),
  shaped mw nw ws -> resample_seeds (N := RN) mw nearest seeds ws = Some (ws', cells) ->
  forall k, total ws' k = total ws k.
Proof. exact @resample_seeds_total. Qed.
Print Assumptions C04_any_seeds.

(** The run succeeds (no panic) whenever all events have the same number of weights and
    the search answers properly; in any arithmetic with a total order on the weights. *)
Theorem C04_run_succeeds : forall (N : NumOps) (D : N -> Prop) mw nw sort strategy
    (algo : search_algo N) dist max (evs : list (Event N)),
  sort_ok sort -> order_on N D -> Forall (Forall D) (map ev_weights evs) ->
  shaped mw nw (map ev_weights evs) ->
  valid_search (length evs) (algo (length evs) (dist_wrapper dist evs) max) ->
  exists evs' cells, resampler_resample mw sort strategy algo dist max evs = Some (evs', cells).
Proof. exact resampler_some. Qed.
Print Assumptions C04_run_succeeds.

Definition two_events : list (Event RN) :=
  [mkEvent 7 [-1; 4]%R [(21%Z, [mkFV 0 0 0 0 1]%R)]; mkEvent 8 [3; 1]%R []].

Example C04_case : shaped true 2 (map ev_weights two_events) /\
  exists evs' cells, resampler_resample true isort MostNegative (naive_nearest first_min)
    (fun _ _ => 1%R) 2%R two_events = Some (evs', cells).
Proof.
  assert (Hs : shaped true 2 (map ev_weights two_events)).
  { split; [lia|split; [discriminate|repeat constructor]]. }
  split; [exact Hs|].
  apply resampler_some with (D := fun _ => True) (nw := 2); auto using isort_ok, RN_order.
  - repeat constructor.
  - apply naive_valid with (D := fun _ => True); auto using RN_order, first_min_ok.
Qed.

Local Open Scope R_scope.

(** C07: one thread, non-negative total, no size limit: no negative central weight is
    left, for every strategy and every search that delivers all other events. *)
Theorem C07_no_negative : forall mw nw sort strategy (algo : search_algo RN) dist max
    (evs evs' : list (Event RN)) cells,
  sort_ok sort ->
  shaped mw nw (map ev_weights evs) ->
  complete_search (length evs) (algo (length evs) (dist_wrapper dist evs) max) ->
  0 <= total (map ev_weights evs) 0 ->
  resampler_resample mw sort strategy algo dist max evs = Some (evs', cells) ->
  forall e, In e evs' -> 0 <= nth 0 (ev_weights e) 0.
Proof. exact resampler_no_negative. Qed.
Print Assumptions C07_no_negative.

(** The naive search satisfies the premise when no distance exceeds the limit. *)
Theorem C07_naive_is_complete : forall (choose : chooser) (n : nat) (dist : nat -> nat -> R) (max : R),
  choose_ok choose -> (forall i j, (i < n)%nat -> (j < n)%nat -> dist i j <= max) ->
  complete_search n (naive_nearest (N := RN) choose n dist max).
Proof. exact naive_complete. Qed.
Print Assumptions C07_naive_is_complete.

Example C07_case : 0 <= total (map ev_weights two_events) 0 /\
  complete_search (length two_events)
    (naive_nearest (N := RN) first_min (length two_events) (dist_wrapper (fun _ _ => 1) two_events) 2).
Proof.
  split; [cbn; unfold total, Rsum; cbn; lra|]. apply naive_complete; [apply first_min_ok|].
  intros i j Hi Hj. cbn in Hi, Hj. unfold dist_wrapper, two_events.
  destruct i as [|[|i]], j as [|[|j]]; cbn; lra || lia.
Qed.

(** C10 for a whole run. *)
Theorem C10_run_shrinks : forall mw nw nearest seeds (ws ws' : list (list R)) (cells : list (Cell RN)),
  shaped mw nw ws -> resample_seeds (N := RN) mw nearest seeds ws = Some (ws', cells) ->
  forall k, total_abs ws' k <= total_abs ws k /\ total_neg ws' k <= total_neg ws k /\
    forall lo hi, within lo hi k ws -> within lo hi k ws'.
Proof. exact @resample_seeds_shrinks. Qed.
Print Assumptions C10_run_shrinks.

(** C11, the part that holds: a seed with positive weight leaves everything unchanged. *)
Theorem C11_positive_seed_ignored_partial : forall (N : NumOps) mw nearest (ws : list (list N)) cells seed w,
  central_weight ws seed w -> nltb n0 w = true ->
  seed_step mw nearest (ws, cells) seed = Some (ws, cells).
Proof. exact seed_step_positive. Qed.
Print Assumptions C11_positive_seed_ignored_partial.

(** C11 as documented (non-negative seeds are ignored) is false: weights -1, -2, 3, 5 at
    positions 10, 0, -11, 15 on a line.  Seed 1 brings events 0, 1, 2 to weight 0; seed 0,
    now of weight 0, nevertheless forms a cell with event 3 and halves its weight.  In a
    debug build the assertion at the start of [Cell::new] fails. *)
Definition line_dist (i j : nat) : B64 :=
  let pos := [10; 0; -11; 15]%Z in
  b64_of_Z (Z.abs (nth i pos 0 - nth j pos 0)%Z).
Definition line_weights : list (list B64) := map (fun x => [b64_of_Z x]) [-1; -2; 3; 5]%Z.

Theorem C11_refuted : exists (mw : bool) (ws : list (list B64)) (nearest : search B64) seeds1 seed ws1 c1 ws2 c2,
  valid_search (length ws) nearest /\
  select_seeds isort MostNegative ws = Some (seeds1 ++ [seed]) /\
  resample_seeds mw nearest seeds1 ws = Some (ws1, c1) /\
  (exists w, central_weight ws1 seed w /\ nltb w n0 = false) /\
  resample_seeds mw nearest (seeds1 ++ [seed]) ws = Some (ws2, c2) /\
  ws2 <> ws1 /\
  cell_new_debug_ok ws1 seed = false.
Proof.
  exists false, line_weights, (naive_nearest first_min 4 line_dist (b64_of_Z 100)), [1%nat], 0%nat.
  let r := eval vm_compute in (resample_seeds false (naive_nearest first_min 4 line_dist (b64_of_Z 100))
    [1%nat] line_weights) in
  match r with Some (?ws1, ?c1) => exists ws1, c1 end.
  let r := eval vm_compute in (resample_seeds false (naive_nearest first_min 4 line_dist (b64_of_Z 100))
    [1%nat; 0%nat] line_weights) in
  match r with Some (?ws1, ?c1) => exists ws1, c1 end.
  split; [|split; [|split; [|split; [|split; [|split]]]]].
  - apply naive_valid with (D := not_nan); auto using B64_order, first_min_ok.
    + vm_compute; discriminate.
    + intros i j Hi Hj. change (length line_weights) with 4%nat in *.
      do 4 (destruct i as [|i]; [do 4 (destruct j as [|j]; [vm_compute; discriminate|]); lia|]); lia.
  - vmr.
  - vmr.
  - exists n0. split; [exists []; reflexivity|vmr].
  - vmr.
  - discriminate.
  - vmr.
Qed.
Print Assumptions C11_refuted.

(** C12: seed selection, in any arithmetic whose comparison is a total order on the weights
    that occur (binary64 without NaN: [B64_order]) and for any correct sort. *)
Theorem C12_select_seeds : forall (N : NumOps) sort (D : N -> Prop) strategy (ws : list (list N)) seeds,
  sort_ok sort -> order_on N D ->
  (forall i w, central_weight ws i w -> D w) ->
  select_seeds sort strategy ws = Some seeds ->
  NoDup seeds /\
  (forall i, In i seeds <-> exists w, central_weight ws i w /\ nltb w n0 = true) /\
  (strategy = Next -> StronglySorted lt seeds) /\
  (strategy = MostNegative ->
     StronglySorted (fun i j => forall wi wj, central_weight ws i wi -> central_weight ws j wj ->
                                 nleb wi wj = true) seeds) /\
  (strategy = LeastNegative ->
     StronglySorted (fun i j => forall wi wj, central_weight ws i wi -> central_weight ws j wj ->
                                 nleb wj wi = true) seeds).
Proof. exact select_seeds_central. Qed.
Print Assumptions C12_select_seeds.

(** It succeeds exactly when every event has at least one weight. *)
Theorem C12_select_seeds_succeeds : forall (N : NumOps) sort strategy (ws : list (list N)),
  (exists seeds, select_seeds sort strategy ws = Some seeds) <-> Forall (fun w => w <> []) ws.
Proof. exact select_seeds_some. Qed.
Print Assumptions C12_select_seeds_succeeds.

Theorem C12_default_strategy : default_strategy = MostNegative.
Proof. reflexivity. Qed.

Example C12_case :
  let z := b64_of_Z in
  let ws : list (list B64) := [[z 3; z (-1)]; [z (-2); z 1]; [z 0]; [z (-7)]; [z (-2)]]%Z in
  select_seeds isort MostNegative ws = Some [3; 1; 4]%nat /\
  select_seeds isort LeastNegative ws = Some [1; 4; 3]%nat /\
  select_seeds isort Next ws = Some [1; 3; 4]%nat.
Proof. vm_compute. auto. Qed.
