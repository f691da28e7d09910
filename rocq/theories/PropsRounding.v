(** Properties of runs in binary64, the arithmetic of the program: C61, C62.
    [b64_sample s] are the real numbers the floating-point weights [s] stand for. *)
From Coq Require Import ZArith Reals Lra SpecFloat.
From Verif Require Import Base BaseProofs Num ModelEvent ModelCell ModelSeeds ModelNaive ModelResampler ModelConc SpecWeights
  SpecSearch SpecConc SumProofs CellProofs RunProofs SeedsProofs NaiveProofs RunProofs2 ConcProofs ConcProofs2 B64Proofs B64Errors
  SpecRounding B64Run B64Run2.
Local Open Scope R_scope.

(** C61, one cell of [n] members: the total of every weight component changes by at most
    ((1 + 2^-53)^(n+1) - 1) times the absolute weight in the cell, plus n/2 times the
    smallest positive number. *)
Theorem C61_cell : forall mw (ws ws' : list (list B64)) (c : Cell B64),
  wf_weights mw ws -> finite_sample ws -> finite_sample ws' -> (Z.of_nat (length ws) <= 2 ^ 53)%Z ->
  @cell_resample B64 mw ws c = Some ws' ->
  forall k, Rabs (total (b64_sample ws') k - total (b64_sample ws) k) <=
    rounding (length (members c) + 1) * Rsum (map (fun i => Rabs (comp (b64_sample ws) i k)) (members c))
    + INR (length (members c)) * half_ulp_min.
Proof.
  intros mw ws ws' c Hwf Hf Hf' Hz H k.
  pose proof (fun Z => @cell_total_err mw ws c ws' Hwf H Z k (finite_valid Hf) Hf') as E. exact (proj1 (E Hz)).
Qed.
Print Assumptions C61_cell.

(** C61, a whole run with the built-in seed selection; [cells] are the cells reported to the
    observer.  Only the weights before and after need be finite: infinities and NaNs do not
    go away, so none can have occurred in between. *)
Theorem C61_run : forall mw nw sort strategy (algo : search_algo B64) dist max (evs evs' : list (Event B64)) cells,
  shaped mw nw (map ev_weights evs) -> (Z.of_nat (length evs) <= 2 ^ 53)%Z ->
  finite_sample (map ev_weights evs) -> finite_sample (map ev_weights evs') ->
  resampler_resample mw sort strategy algo dist max evs = Some (evs', cells) ->
  let steps := list_sum (map (fun c => length (members c) + 1)%nat cells) in
  let size := list_sum (map (fun c => length (members c)) cells) in
  forall k,
  Rabs (total (b64_sample (map ev_weights evs')) k - total (b64_sample (map ev_weights evs)) k) <=
    rounding steps * total_abs (b64_sample (map ev_weights evs)) k + (1 + rounding steps) * (INR size * half_ulp_min) /\
  total_abs (b64_sample (map ev_weights evs')) k <=
    (1 + rounding steps) * (total_abs (b64_sample (map ev_weights evs)) k + INR size * half_ulp_min).
Proof.
  intros mw nw sort strategy algo dist max evs evs' cells Hs Hz Hf Hf' H.
  apply resampler_inv in H. destruct H as (seeds & ws' & _ & H2 & ->).
  pose proof (resample_seeds_length _ _ _ _ H2) as Hl. rewrite map_length in Hl.
  destruct (with_weights_spec _ _ Hl) as (E1 & _).
  unfold weights_state in *. cbn [num B64] in *. rewrite E1 in *.
  apply resample_seeds_cells in H2.
  assert (Hz' : (Z.of_nat (length (map ev_weights evs)) <= 2 ^ 53)%Z) by (rewrite map_length; exact Hz).
  exact (proj2 (run_total_err _ (shaped_wf Hs) Hz' (finite_valid Hf) Hf' H2)).
Qed.
Print Assumptions C61_run.

(** C61, any number of threads and any schedule: the same bound with the number of seeds
    times the number of events. *)
Theorem C61_any_schedule : forall mw nw (nearest : search B64) (ws0 : list (list B64)) seeds nthreads k (s : cstate B64),
  valid_search (length ws0) nearest -> shaped mw nw ws0 -> (forall i, In i seeds -> i < length ws0)%nat ->
  conc_steps mw nearest k (conc_init nthreads seeds (ws0 : weights_state B64)) s -> quiescent s ->
  finite_sample ws0 -> finite_sample (mem s) -> (Z.of_nat (length ws0) <= 2 ^ 53)%Z ->
  forall j, Rabs (total (b64_sample (mem s)) j - total (b64_sample ws0) j) <=
    rounding (length seeds * (length ws0 + 1)) * total_abs (b64_sample ws0) j
    + (1 + rounding (length seeds * (length ws0 + 1))) * (INR (length seeds * length ws0) * half_ulp_min).
Proof. exact conc_total_err. Qed.
Print Assumptions C61_any_schedule.

(** The relative error is at most n/2^52 for n <= 2^53 operations. *)
Theorem C61_rounding_is_small : forall n, INR n * / 2 ^ 53 <= 1 -> rounding n <= 2 * INR n * / 2 ^ 53.
Proof. exact rounding_linear. Qed.
Print Assumptions C61_rounding_is_small.

(** *** A run in which rounding matters.  Events on a line: -2^53 at 1, 2^53 at -2, -1 at 0
    and 10 at 3. *)
Definition far_pos (e : Event B64) : Z := nth (ev_id e) [1; -2; 0; 3]%Z 0%Z.
Definition far_dist (a b : Event B64) : B64 := b64_of_Z (Z.abs (far_pos a - far_pos b)).
Definition far_event (i : nat) (w : Z) : Event B64 := mkEvent i [b64_of_Z w] [].
Definition far_events : list (Event B64) :=
  [far_event 0 (- 2 ^ 53); far_event 1 (2 ^ 53); far_event 2 (-1); far_event 3 10].
Definition far_search : search_algo B64 := naive_nearest first_min.
Definition far_weights : list (list B64) := map ev_weights far_events.
Definition far_nearest : search B64 := far_search 4%nat (dist_wrapper far_dist far_events) (b64_of_Z 100).

Definition far_run_multi : list (Event B64) * list (Cell B64) :=
  Eval vm_compute in
    match resampler_resample true isort LeastNegative far_search far_dist (b64_of_Z 100) far_events with
    | Some r => r | None => ([], []) end.
Definition far_run_single : list (Event B64) * list (Cell B64) :=
  Eval vm_compute in
    match resampler_resample false isort LeastNegative far_search far_dist (b64_of_Z 100) far_events with
    | Some r => r | None => ([], []) end.
Definition far_run (mw : bool) : list (Event B64) * list (Cell B64) := if mw then far_run_multi else far_run_single.

Lemma far_run_eq mw : resampler_resample mw isort LeastNegative far_search far_dist (b64_of_Z 100) far_events = Some (far_run mw).
Proof. destruct mw; vmr. Qed.

Lemma far_finite : finite_sample (map ev_weights far_events).
Proof. repeat constructor. Qed.
Lemma far_finite' mw : finite_sample (map ev_weights (fst (far_run mw))).
Proof. destruct mw; repeat constructor. Qed.
Lemma far_shaped mw : shaped mw 1 (map ev_weights far_events).
Proof. split; [lia|split; [reflexivity|repeat constructor]]. Qed.

Lemma far_total : total (b64_sample (map ev_weights far_events)) 0 = 9.
Proof.
  unfold total, b64_sample. cbn [map far_events far_event ev_weights nth].
  rewrite !Rsum_cons, Rsum_nil. rewrite !(fun z H => proj2 (b64_of_Z_val z H)) by (cbn; lia).
  change (- 2 ^ 53)%Z with (Z.opp (2 ^ 53)). rewrite opp_IZR. lra.
Qed.

Example C61_case : forall mw, shaped mw 1 (map ev_weights far_events) /\ finite_sample (map ev_weights far_events) /\
  finite_sample (map ev_weights (fst (far_run mw))) /\ (Z.of_nat (length far_events) <= 2 ^ 53)%Z /\
  resampler_resample mw isort LeastNegative far_search far_dist (b64_of_Z 100) far_events
    = Some (fst (far_run mw), snd (far_run mw)) /\
  map (fun c => members c) (snd (far_run mw)) = [[2; 0; 1]; [0; 2; 3]]%nat.
Proof.
  intros mw. split; [apply far_shaped|]. split; [apply far_finite|]. split; [apply far_finite'|].
  split; [cbn; lia|]. split; [rewrite far_run_eq; destruct (far_run mw); reflexivity|]. destruct mw; reflexivity.
Qed.

(** C62, the bound that holds: if the weight accumulated by the cell is non-negative, its new
    weight times the number n of members is at least -2 ((1 + 2^-53)^(n+1) - 1) times the absolute weight
    in the cell (and n/2 times the smallest positive number). *)
Theorem C62_sign_partial : forall mw (ws : list (list B64)) seed nbrs (c : Cell B64) (ws' : list (list B64)),
  wf_weights mw ws -> finite_sample ws -> finite_sample ws' -> (Z.of_nat (length ws) <= 2 ^ 53)%Z ->
  @cell_new B64 ws seed nbrs = Some c -> @cell_resample B64 mw ws c = Some ws' -> b64_fin (weight_sum c) ->
  0 <= b64_val (weight_sum c) ->
  forall i, In i (members c) -> - INR (length (members c)) * comp (b64_sample ws') i 0 <=
    2 * rounding (length (members c) + 1) * Rsum (map (fun j => Rabs (comp (b64_sample ws) j 0)) (members c))
    + INR (length (members c)) * half_ulp_min.
Proof. exact cell_sign_err. Qed.
Print Assumptions C62_sign_partial.

(** C62 as stated is false: the cell of seed 2 accumulates -1 - 2^53 + 2^53 = 0 in the order
    of distance, but is averaged in the order of indices, -2^53 + 2^53 - 1 = -1.  All three
    members get the weight -1/3. *)
Definition far_cell : Cell B64 :=
  Eval vm_compute in match far_nearest 2%nat with
    | Some nb => match cell_new far_weights 2%nat nb with Some c => c | None => mkCell [] n0 n0 end
    | None => mkCell [] n0 n0 end.
Definition far_after_multi : list (list B64) :=
  Eval vm_compute in match @cell_resample B64 true far_weights far_cell with Some w => w | None => [] end.
Definition far_after_single : list (list B64) :=
  Eval vm_compute in match @cell_resample B64 false far_weights far_cell with Some w => w | None => [] end.
Definition far_after (mw : bool) : list (list B64) := if mw then far_after_multi else far_after_single.

Theorem C62_cell_refuted : forall mw, exists (ws ws' : list (list B64)) seed nbrs (c : Cell B64),
  shaped mw 1 ws /\ finite_sample ws /\ neighbours_of (length ws) seed nbrs /\ (seed < length ws)%nat /\
  @cell_new B64 ws seed nbrs = Some c /\ @cell_resample B64 mw ws c = Some ws' /\
  nleb (n := B64) n0 (weight_sum c) = true /\
  forall i, In i (members c) -> exists w, central_weight ws' i w /\ nltb (n := B64) w n0 = true.
Proof.
  intros mw. exists far_weights, (far_after mw), 2%nat.
  let r := eval vm_compute in (far_nearest 2%nat) in match r with Some ?nb => exists nb end.
  exists far_cell. split; [apply far_shaped|]. split; [apply far_finite|].
  split; [split; [repeat constructor; cbn; intuition lia|cbn; intros i Hi; intuition lia]|].
  split; [cbn; lia|]. split; [vmr|]. split; [destruct mw; vmr|]. split; [vmr|].
  intros i Hi. destruct mw; cbn in Hi; destruct Hi as [<-|[<-|[<-|[]]]]; eexists;
    (split; [eexists; reflexivity|vmr]).
Qed.
Print Assumptions C62_cell_refuted.

Lemma far_complete : complete_search 4%nat far_nearest.
Proof.
  assert (Hv : valid_search 4%nat far_nearest).
  { apply naive_valid with (D := not_nan); auto using B64_order, first_min_ok. { vm_compute; discriminate. }
    intros i j Hi Hj. do 4 (destruct i as [|i]; [do 4 (destruct j as [|j]; [vm_compute; discriminate|]); lia|]); lia. }
  intros seed Hs. destruct (Hv seed Hs) as (nb & A & B). exists nb. split; auto. split; auto.
  clear B. intros i Hi Hne.
  do 4 (destruct seed as [|seed]; [vm_compute in A; injection A as <-; cbn; lia|]); lia.
Qed.

(** ... and then a whole run on a sample with positive total, without any limit on the
    size of cells, ends with a negative weight: event 1 was positive, so it is no seed, and
    keeps the -1/3 it got from the first cell. *)
Theorem C62_run_refuted : forall mw, exists (sort : sorter) strategy (algo : search_algo B64) dist max (evs evs' : list (Event B64)) cells,
  sort_ok sort /\ shaped mw 1 (map ev_weights evs) /\ finite_sample (map ev_weights evs) /\
  complete_search (length evs) (algo (length evs) (dist_wrapper dist evs) max) /\
  0 < total (b64_sample (map ev_weights evs)) 0 /\
  resampler_resample mw sort strategy algo dist max evs = Some (evs', cells) /\
  exists e w, In e evs' /\ ev_weights e = [w] /\ nltb (n := B64) w n0 = true.
Proof.
  intros mw. exists isort, LeastNegative, far_search, far_dist, (b64_of_Z 100), far_events, (fst (far_run mw)), (snd (far_run mw)).
  split; [exact isort_ok|]. split; [apply far_shaped|]. split; [apply far_finite|].
  split; [exact far_complete|]. split; [rewrite far_total; lra|].
  split; [rewrite far_run_eq; destruct (far_run mw); reflexivity|].
  destruct mw; cbn [fst far_run]; eexists; eexists; (split; [right; left; reflexivity|]); (split; [reflexivity|vmr]).
Qed.
Print Assumptions C62_run_refuted.

(** The hypotheses of the bound are met by the cell above. *)
Example C62_case : forall mw, wf_weights mw far_weights /\ finite_sample far_weights /\ finite_sample (far_after mw) /\
  b64_fin (weight_sum far_cell) /\ 0 <= b64_val (weight_sum far_cell) /\ members far_cell = [2; 0; 1]%nat /\
  @cell_resample B64 mw far_weights far_cell = Some (far_after mw).
Proof.
  intros mw. split; [apply (shaped_wf (far_shaped mw))|]. split; [apply far_finite|].
  split; [destruct mw; repeat constructor|]. split; [split; reflexivity|].
  split; [cbn; lra|]. split; [reflexivity|]. destruct mw; vmr.
Qed.
