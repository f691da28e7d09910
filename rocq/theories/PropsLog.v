(** Property C81: what a run reports about the weights and the events. *)
From Coq Require Import Reals Lra ZArith.
From Verif Require Import Base BaseProofs Num ModelEvent ModelCell ModelSeeds ModelResampler ModelUnweight ModelCres ModelLog SpecWeights SpecLocal SpecUnweight SpecCres SpecLog
  SumProofs SpecSearch ModelThreads ThreadsProofs CresProofs CresProofs2 LogProofs LogProofs2 LogProofs3 ModelText ModelStripper ModelIO PropsMain PropsNamed.
From Coq Require Import Lia.
Local Open Scope R_scope.

(** C81: the reported numbers are the sum of the weights, the square root of the sum of their squares
    and the part of the negative weights.  The latter is between 0 and 1, and 0 if and only if no
    weight is negative, unless all weights are zero.  [sum] is any way of summing up. *)
Theorem C81_stats : forall (sum : list RN -> RN) (ws : list R), (forall x, sum x = Rsum x) ->
  let s := weight_stats sum ws in
  reports s ws /\ 0 <= st_error s /\ st_error s * st_error s = Rsum (map (fun w => w * w) ws) /\
  ((exists w, In w ws /\ w <> 0) -> 0 <= st_fraction s <= 1 /\ (st_fraction s = 0 <-> Forall (fun w => 0 <= w) ws)).
Proof.
  intros sum ws Hs s. pose proof (stats_reports sum ws Hs) as RR. fold s in RR. split; [exact RR|]. destruct RR as (_ & R2 & R3).
  change (num RN) with R in *. rewrite R2. split; [apply sqrt_pos|]. split.
  { apply sqrt_sqrt. apply Rsum_nonneg. intros x Hx. apply in_map_iff in Hx as (w & <- & _). apply Rle_0_sqr. }
  intros (w & Hw & Hne).
  assert (D : 0 < abs_sum ws).
  { unfold abs_sum. clear -Hw Hne. induction ws as [|a ws IH]; [destruct Hw|]. cbn [map]. rewrite Rsum_cons.
    assert (P : 0 <= Rsum (map Rabs ws)) by (apply Rsum_nonneg; intros x Hx; apply in_map_iff in Hx as (v & <- & _); apply Rabs_pos).
    pose proof (Rabs_pos a). destruct Hw as [->|Hw]; [pose proof (Rabs_pos_lt w Hne)|specialize (IH Hw)]; lra. }
  pose proof (neg_sum_pos ws). pose proof (neg_le_abs ws).
  assert (E : @eq R (st_fraction s) (neg_sum ws / abs_sum ws)) by (apply Rmult_eq_reg_r with (abs_sum ws); [rewrite R3; field; lra|lra]). rewrite E. split; [split|].
  - apply Rmult_le_pos; [assumption|]. left. apply Rinv_0_lt_compat. exact D.
  - apply Rmult_le_reg_r with (abs_sum ws); [exact D|]. unfold Rdiv. rewrite Rmult_assoc, Rinv_l by lra. lra.
  - assert (Z : neg_sum ws = 0 <-> Forall (fun w => 0 <= w) ws).
    { clear. unfold neg_sum. induction ws as [|a ws IH]; [cbn [map]; rewrite Rsum_nil; split; intros _; [apply Forall_nil|lra]|]. cbn [map]. rewrite Rsum_cons.
      pose proof (neg_sum_pos ws) as P. unfold neg_sum in P. pose proof (Rmax_r (- a) 0) as Q. split.
      - intros Hz. constructor; [|apply IH; lra]. pose proof (Rmax_l (- a) 0). lra.
      - intros H. inversion H as [|? ? Ha Hl]; subst. apply IH in Hl. rewrite Hl. rewrite Rmax_right by lra. lra. }
    rewrite <- Z. split; [intros X|intros ->; unfold Rdiv; apply Rmult_0_l].
    rewrite <- R3, E, X. apply Rmult_0_l.
Qed.
Print Assumptions C81_stats.

(** The model with the log has the same result as the model without. *)
Theorem C81_same : forall (N : NumOps) (Rec Err : Type) (is_ntuple : Rec -> bool) convert cluster mw sort hash psum shuffle resample unweighter (records : list (Rec + Err)),
  snd (cres_run_log (N := N) is_ntuple convert cluster mw sort hash psum shuffle resample unweighter records) =
  cres_run is_ntuple convert cluster mw sort shuffle resample unweighter records.
Proof. exact log_same. Qed.
Print Assumptions C81_same.

(** The reported categories of events: all of them with the right numbers of events, the most
    frequent ones first, limited to 1000.  The numbers of events add up to the number of events. *)
Theorem C81_categories : forall (N : NumOps) sort hash (events : list (Event N)), sort_ok sort -> reorders hash ->
  exists all, census events all /\ census_lines all (log_multiplicities sort hash events) /\ list_sum (map snd all) = length events.
Proof.
  intros N sort hash events Hs Hh. exists (all_kinds sort hash events). destruct (log_multiplicities_census _ sort hash events Hs Hh) as [H1 H2].
  split; [exact H1|]. split; [exact H2|]. exact (eq_trans (count_sum _ _ (proj1 (all_kinds_tallies _ sort hash events Hs Hh))) (map_length _ _)).
Qed.
Print Assumptions C81_categories.

(** They do not depend on the order of the events, nor on the order of the hash map. *)
Theorem C81_categories_order : forall (N : NumOps) sort sort' hash hash' (events events' : list (Event N)),
  sort_ok sort -> sort_ok sort' -> reorders hash -> reorders hash' -> Permutation events events' ->
  log_multiplicities sort hash events = log_multiplicities sort' hash' events'.
Proof.
  intros N sort sort' hash hash' events events' Hs Hs' Hh Hh' Hp. unfold log_multiplicities.
  fold (all_kinds sort hash events). fold (all_kinds sort' hash' events'). rewrite (all_kinds_unique _ sort sort' hash hash' events events') by assumption. reflexivity.
Qed.
Print Assumptions C81_categories_order.

(** C81: the log of a run without unweighting that reaches the writing of the weights [W].  [evs] are
    the converted and clustered events of the records, [before] the weights of those with
    particles, [after] their new weights.  The sum of weights is reported to be the same as before, the
    uncertainty is not larger.  The negative weight fraction is not larger if the sum is positive,
    and not smaller if the sum is negative. *)
Theorem C81_run : forall (Rec Err : Type) (is_ntuple : Rec -> bool) (convert : Rec -> Event RN + Err) (cluster : Event RN -> Event RN + Err) mw nw sort sort' hash psum
    shuffle strategy (algo : search_algo RN) dist max (records : list (Rec + Err)) evs log W,
  reorders shuffle -> reorders hash -> sort_ok sort -> (forall x, psum x = Rsum x) ->
  events_of convert cluster records evs -> shaped mw nw (map ev_weights evs) ->
  cres_run_log is_ntuple convert cluster mw sort hash psum shuffle (lib_resample mw sort' strategy algo dist max) lib_no_unweight records = (log, Wrote W) ->
  let used := filter has_particles evs in
  let before := map (fun e => nth 0 (ev_weights e) 0) used in
  let after := map (fun e => nth 0 (nth (ev_id e) W []) 0) used in
  exists all lines a b, census used all /\ census_lines all lines /\
    log = LRead (length records) :: (if (length used <? length records)%nat then [LIgnored (length records - length used)] else []) ++ lines ++
      [LInitial a; LCells (nnegative (map ev_weights used)); LFinal b] /\
    reports a before /\ reports b after /\
    st_sum b = st_sum a /\ st_error b <= st_error a /\
    (0 < st_sum a -> 0 <= st_fraction b <= st_fraction a) /\ (st_sum a < 0 -> st_fraction a <= st_fraction b <= 1).
Proof.
  intros Rec Err is_ntuple convert cluster mw nw sort sort' hash psum shuffle strategy algo dist max records evs log W Hs Hh Hsort Hp He Hsh Hrun used before after.
  eapply run_log; try eassumption. intros l l' Hl. apply lib_averages. exact Hl.
Qed.
Print Assumptions C81_run.

(** The same with any number of threads. *)
Theorem C81_threads : forall (Rec Err : Type) (is_ntuple : Rec -> bool) (convert : Rec -> Event RN + Err) (cluster : Event RN -> Event RN + Err) mw nw sort sort' hash psum
    shuffle nthreads sched strategy (algo : search_algo RN) dist max (records : list (Rec + Err)) evs log W,
  reorders shuffle -> reorders hash -> sort_ok sort -> sort_ok sort' -> (0 < nthreads)%nat ->
  (forall s : list (Event RN), valid_search (length s) (algo (length s) (dist_wrapper dist s) max)) -> (forall x, psum x = Rsum x) ->
  events_of convert cluster records evs -> shaped mw nw (map ev_weights evs) ->
  cres_run_log is_ntuple convert cluster mw sort hash psum shuffle (threads_resample nthreads sched mw sort' strategy algo dist max) lib_no_unweight records = (log, Wrote W) ->
  let used := filter has_particles evs in
  let before := map (fun e => nth 0 (ev_weights e) 0) used in
  let after := map (fun e => nth 0 (nth (ev_id e) W []) 0) used in
  exists all lines a b, census used all /\ census_lines all lines /\
    log = LRead (length records) :: (if (length used <? length records)%nat then [LIgnored (length records - length used)] else []) ++ lines ++
      [LInitial a; LCells (nnegative (map ev_weights used)); LFinal b] /\
    reports a before /\ reports b after /\
    st_sum b = st_sum a /\ st_error b <= st_error a /\
    (0 < st_sum a -> 0 <= st_fraction b <= st_fraction a) /\ (st_sum a < 0 -> st_fraction a <= st_fraction b <= 1).
Proof.
  intros Rec Err is_ntuple convert cluster mw nw sort sort' hash psum shuffle nthreads sched strategy algo dist max records evs log W Hs Hh Hsort Hsort' Hn Hv Hp He Hsh Hrun used before after.
  eapply run_log; [|exact Hs|exact Hh|exact Hsort|exact Hp|exact He|exact Hsh|exact Hrun]. intros l l' Hl Hr. eapply threads_averages; [exact Hsort'|exact Hn|apply Hv|exact Hl|exact Hr].
Qed.
Print Assumptions C81_threads.

(** With unweighting (which drops events of small weight, so that their new weights are zero), and
    any number of threads or the program with one thread: the reported sum of weights is the same as before,
    unless it is zero, as it is for example if no event was kept. *)
Theorem C81_unweight : forall (Rec Err : Type) (is_ntuple : Rec -> bool) (convert : Rec -> Event RN + Err) (cluster : Event RN -> Event RN + Err) mw nw sort sort' hash psum
    shuffle nthreads sched strategy (algo : search_algo RN) dist max (m : R) (draws : nat -> R) (records : list (Rec + Err)) evs log W resample,
  reorders shuffle -> reorders hash -> sort_ok sort -> sort_ok sort' -> (0 < nthreads)%nat ->
  (forall s : list (Event RN), valid_search (length s) (algo (length s) (dist_wrapper dist s) max)) -> (forall x, psum x = Rsum x) ->
  events_of convert cluster records evs -> shaped mw nw (map ev_weights evs) ->
  resample = lib_resample mw sort' strategy algo dist max \/ resample = threads_resample nthreads sched mw sort' strategy algo dist max ->
  cres_run_log is_ntuple convert cluster mw sort hash psum shuffle resample (lib_unweight psum m draws) records = (log, Wrote W) ->
  let used := filter has_particles evs in
  let before := map (fun e => nth 0 (ev_weights e) 0) used in
  let after := map (fun e => nth 0 (nth (ev_id e) W []) 0) used in
  exists all lines a b, census used all /\ census_lines all lines /\
    log = LRead (length records) :: (if (length used <? length records)%nat then [LIgnored (length records - length used)] else []) ++ lines ++
      [LInitial a; LCells (nnegative (map ev_weights used)); LFinal b] /\
    reports a before /\ reports b after /\ (st_sum b <> 0 -> st_sum b = st_sum a).
Proof.
  intros Rec Err is_ntuple convert cluster mw nw sort sort' hash psum shuffle nthreads sched strategy algo dist max m draws records evs log W resample
    Hs Hh Hsort Hsort' Hn Hv Hp He Hsh Hr Hrun used before after.
  eapply run_log_unweight; [|exact Hs|exact Hh|exact Hsort|exact Hp|exact He|exact Hsh|exact Hrun]. intros l l' Hl E. destruct Hr as [->| ->].
  - exact (lib_resample_facts Hl E).
  - exact (threads_resample_facts Hsort' Hn (Hv l) Hl E).
Qed.
Print Assumptions C81_unweight.

(** *** Cases *)
(** Three events, one of them without particles. *)
Definition l_events : list (Event RN) := [mkEvent 0 [5; 8; 11] [(1%Z, [fv_new])]; mkEvent 0 [-1; 7; 3] [(1%Z, [fv_new])]; mkEvent 0 [9; 9; 9] []].
Definition l_convert (e : Event RN) : Event RN + option read_error := inl e.
Example C81_case : exists a b W,
  cres_run_log (fun _ => false) l_convert l_convert true isort (fun l => l) Rsum (fun l => l) n_resample lib_no_unweight (map inl l_events) =
    ([LRead 3; LIgnored 1; LCategory 2 [(1%Z, 1%nat)]; LInitial a; LCells 1; LFinal b], Wrote W) /\
  reports a [5; -1] /\ st_fraction a = 1 / 6 /\ reports b [2; 2] /\ st_fraction b = 0.
Proof.
  assert (E1 : nltb (n := RN) 5 0 = false) by (cbn; unfold Rltb; destruct (Rlt_dec 5 0); [lra|reflexivity]).
  assert (E2 : nltb (n := RN) (-1) 0 = true) by (cbn; unfold Rltb; destruct (Rlt_dec (-1) 0); [reflexivity|lra]).
  assert (E3 : nltb (n := RN) 2 0 = false) by (cbn; unfold Rltb; destruct (Rlt_dec 2 0); [lra|reflexivity]).
  set (a := weight_stats nsum [5 : RN; -1]). set (b := weight_stats Rsum [2 : RN; 2]).
  exists a, b, [[2; (8 + 7) * (1 / (1 + 1)); (11 + 3) * (1 / (1 + 1))]; [2; (8 + 7) * (1 / (1 + 1)); (11 + 3) * (1 / (1 + 1))]; []].
  assert (Ra : reports a [5; -1]) by (apply stats_reports; intros x; apply nsum_RN).
  assert (Rb : reports b [2; 2]) by (apply stats_reports; reflexivity).
  split; [|split; [exact Ra|split; [|split; [exact Rb|]]]].
  - set (e0 := mkEvent 0 [5 : RN; 8; 11] [(1%Z, [fv_new])]). set (e1 := mkEvent 1 [-1 : RN; 7; 3] [(1%Z, [fv_new])]).
    assert (El : resampler_log [e0; e1] = [LInitial a; LCells 1]).
    { unfold resampler_log. cbn [omap ev_weight central nth_error ev_weights e0 e1 filter]. change (n0 (n := RN)) with 0. rewrite E1, E2. reflexivity. }
    unfold cres_run_log.
    change (read_events _ l_convert l_convert _ (map inl l_events)) with (inl [e0; e1; mkEvent 2 [9 : RN; 9; 9] []] : list (Event RN) + cres_error (Err := option read_error)).
    cbv beta iota zeta. change (filter _ _) with [e0; e1]. rewrite El.
    pose proof (n_resampled 8 11 7 3 [(1%Z, [fv_new])] [(1%Z, [fv_new])] : n_resample [e0; e1] = _) as En. rewrite En. reflexivity.
  - destruct Ra as (_ & _ & Ra). unfold abs_sum, neg_sum in Ra. cbn [map] in Ra. rewrite !Rsum_cons, Rsum_nil in Ra.
    rewrite (Rabs_right 5), (Rabs_left (-1)), (Rmax_right (- (5)) 0), (Rmax_left (- (-1)) 0) in Ra by lra. change (num RN) with R in *. lra.
  - destruct Rb as (_ & _ & Rb). unfold abs_sum, neg_sum in Rb. cbn [map] in Rb. rewrite !Rsum_cons, Rsum_nil in Rb.
    rewrite (Rabs_right 2), (Rmax_right (- (2)) 0) in Rb by lra. change (num RN) with R in *. lra.
Qed.

(** Two events with weights 5 and -1, which the resampling makes 2 and 2.  The minimum weight is 3; the first
    event is kept and the second one is dropped.  The first one gets weight 3, rescaled to 4. *)
Definition l_draws (k : nat) : R := match k with 0%nat => 1 | _ => 5 / 2 end.
Lemma l_unweighted o : lib_unweight (N := RN) (Err := option read_error) Rsum 3 l_draws [mkEvent 0 [2 : RN] o; mkEvent 1 [2 : RN] o] = Some (inl [mkEvent 0 [4 : RN] o]).
Proof.
  unfold lib_unweight, unweight. cbn [omap ev_weight central nth_error ev_weights length Nat.eqb].
  assert (F1 : neqb (n := RN) 3 n0 = false) by (cbn; unfold Reqb; destruct (Req_EM_T 3 0); [lra|reflexivity]). rewrite F1. cbn [orb].
  assert (F2 : nltb (n := RN) n0 3 = true) by (cbn; unfold Rltb; destruct (Rlt_dec 0 3); [reflexivity|lra]). rewrite F2. cbn [negb].
  assert (F3 : nabs (n := RN) 2 = 2) by (cbn; apply Rabs_right; lra).
  assert (F4 : nltb (n := RN) 3 2 = false) by (cbn; unfold Rltb; destruct (Rlt_dec 3 2); [lra|reflexivity]).
  assert (F5 : nltb (n := RN) (l_draws 0) 2 = true) by (cbn; unfold Rltb; destruct (Rlt_dec 1 2); [reflexivity|lra]).
  assert (F6 : nltb (n := RN) (l_draws 1) 2 = false) by (cbn; unfold Rltb; destruct (Rlt_dec (5 / 2) 2); [lra|reflexivity]).
  assert (F7 : nltb (n := RN) 2 3 = true) by (cbn; unfold Rltb; destruct (Rlt_dec 2 3); [reflexivity|lra]).
  cbn [retain_loop ev_weight central nth_error ev_weights]. rewrite F3, F4, F5, F6. cbn [omap]. unfold lift_weight. cbn [ev_weight central nth_error ev_weights]. rewrite F3, F7.
  unfold rescale_weights. cbn [omap ev_weight central nth_error ev_weights map ev_id ev_out].
  match goal with |- Some (inl [mkEvent 0 [?x] o]) = _ => replace x with (4 : RN); [reflexivity|] end.
  cbn [nmul ndiv RN]. unfold Rsum. cbn [fold_right]. change (num RN) with R. field.
Qed.
Example C81_unweight_case : exists a b,
  cres_run_log (fun _ => false) l_convert l_convert false isort (fun l => l) Rsum (fun l => l) r_resample (lib_unweight Rsum 3 l_draws)
    (map inl [mkEvent 0 [5 : RN] [(1%Z, [fv_new])]; mkEvent 0 [-1 : RN] [(1%Z, [fv_new])]]) =
    ([LRead 2; LCategory 2 [(1%Z, 1%nat)]; LInitial a; LCells 1; LFinal b], Wrote [[4]; [0]]) /\
  reports a [5; -1] /\ reports b [4; 0] /\ st_sum a = 4 /\ st_sum b = 4.
Proof.
  assert (E1 : nltb (n := RN) 5 0 = false) by (cbn; unfold Rltb; destruct (Rlt_dec 5 0); [lra|reflexivity]).
  assert (E2 : nltb (n := RN) (-1) 0 = true) by (cbn; unfold Rltb; destruct (Rlt_dec (-1) 0); [reflexivity|lra]).
  set (a := weight_stats nsum [5 : RN; -1]). set (b := weight_stats Rsum [4 : RN]). exists a, b.
  assert (Ra : reports a [5; -1]) by (apply stats_reports; intros x; apply nsum_RN).
  assert (Rb : reports b [4]) by (apply stats_reports; reflexivity).
  split; [|split; [exact Ra|split; [|split]]].
  - set (o := [(1%Z, [fv_new])] : list (Z * list (FourVector RN))). set (e0 := mkEvent 0 [5 : RN] o). set (e1 := mkEvent 1 [-1 : RN] o).
    assert (El : resampler_log [e0; e1] = [LInitial a; LCells 1]).
    { unfold resampler_log. cbn [omap ev_weight central nth_error ev_weights e0 e1 filter]. change (n0 (n := RN)) with 0. rewrite E1, E2. reflexivity. }
    unfold cres_run_log.
    change (read_events _ l_convert l_convert _ _) with (inl [e0; e1] : list (Event RN) + cres_error (Err := option read_error)).
    cbv beta iota zeta. change (filter _ _) with [e0; e1]. rewrite El. unfold e0 at 1, e1 at 1. rewrite r_resampled, l_unweighted. reflexivity.
  - apply (@reports_rest b (fun i => match i with 0%nat => 4 | _ => 0 end) [0; 1]%nat [0%nat]).
    + repeat constructor; cbn; lia.
    + repeat constructor; cbn; lia.
    + intros i [<-|[]]. left. reflexivity.
    + intros i [<-|[<-|[]]] H; [exfalso; apply H; left; reflexivity|reflexivity].
    + exact Rb.
  - destruct Ra as (Ra & _). rewrite Ra. unfold Rsum. cbn [fold_right]. lra.
  - destruct Rb as (Rb & _). rewrite Rb. unfold Rsum. cbn [fold_right]. lra.
Qed.

(** The reported negative weight fraction can rise, if the sum of weights is negative: weights -5 and 1
    become -2 and -2, and the fraction 5/6 becomes 1. *)
Definition l_resample : list (Event RN) -> option (list (Event RN) + option read_error) :=
  lib_resample false isort MostNegative r_algo (fun _ _ => 1) 2.
Theorem C81_fraction_refuted : exists (records : list (Event RN + option read_error)) log W a b,
  cres_run_log (fun _ => false) l_convert l_convert false isort (fun l => l) Rsum (fun l => l) l_resample lib_no_unweight records = (log, Wrote W) /\
  In (LInitial a) log /\ In (LFinal b) log /\ st_fraction a = 5 / 6 /\ st_fraction b = 1.
Proof.
  assert (E1 : nltb (n := RN) (-5) 0 = true) by (cbn; unfold Rltb; destruct (Rlt_dec (-5) 0); [reflexivity|lra]).
  assert (E2 : nltb (n := RN) 1 0 = false) by (cbn; unfold Rltb; destruct (Rlt_dec 1 0); [lra|reflexivity]).
  set (a := weight_stats nsum [-5 : RN; 1]). set (b := weight_stats Rsum [-2 : RN; -2]). set (o := [(1%Z, [fv_new])] : list (Z * list (FourVector RN))).
  exists [inl (mkEvent 0 [-5 : RN] o); inl (mkEvent 0 [1 : RN] o)],
    [LRead 2; LCategory 2 [(1%Z, 1%nat)]; LInitial a; LCells 1; LFinal b], [[-2]; [-2]], a, b.
  assert (Ra : reports a [-5; 1]) by (apply stats_reports; intros x; apply nsum_RN).
  assert (Rb : reports b [-2; -2]) by (apply stats_reports; reflexivity).
  assert (Er : l_resample [mkEvent 0 [-5 : RN] o; mkEvent 1 [1 : RN] o] = Some (inl [mkEvent 0 [-2 : RN] o; mkEvent 1 [-2 : RN] o])).
  { unfold l_resample, lib_resample, resampler_resample, select_seeds. cbn [map omap central nth_error ev_weights length seq combine filter].
    change (n0 (n := RN)) with 0. rewrite E1, E2. cbn [map fst].
    assert (Es : resample_seeds (N := RN) false (r_algo 2%nat (dist_wrapper (fun _ _ => 1%R) [mkEvent 0 [-5 : RN] o; mkEvent 1 [1 : RN] o]) 2%R) [0%nat] [[-5]; [1]]
      = Some ([[-2]; [-2]], [mkCell [0%nat; 1%nat] 1 (-5 + 1)])).
    { cbn [resample_seeds]. unfold seed_step, r_algo, cell_new. cbn. unfold Rltb, Rleb. destruct (Rlt_dec 0 (-5)); [lra|]. cbn.
      destruct (Rle_dec 0 (-5 + 1)); [lra|]. cbn. replace ((0 + -5 + 1) / (1 + 1)) with (-2) by field. reflexivity. }
    cbn. cbn in Es. rewrite Es. reflexivity. }
  split; [|split; [right; right; left; reflexivity|split; [right; right; right; right; left; reflexivity|split]]].
  - set (e0 := mkEvent 0 [-5 : RN] o) in *. set (e1 := mkEvent 1 [1 : RN] o) in *.
    assert (El : resampler_log [e0; e1] = [LInitial a; LCells 1]).
    { unfold resampler_log. cbn [omap ev_weight central nth_error ev_weights e0 e1 filter]. change (n0 (n := RN)) with 0. rewrite E1, E2. reflexivity. }
    unfold cres_run_log.
    change (read_events _ l_convert l_convert _ _) with (inl [e0; e1] : list (Event RN) + cres_error (Err := option read_error)).
    cbv beta iota zeta. change (filter _ _) with [e0; e1]. rewrite El, Er. reflexivity.
  - destruct Ra as (_ & _ & Ra). unfold abs_sum, neg_sum in Ra. cbn [map] in Ra. rewrite !Rsum_cons, Rsum_nil in Ra.
    rewrite (Rabs_right 1), (Rabs_left (-5)), (Rmax_right (- (1)) 0), (Rmax_left (- (-5)) 0) in Ra by lra. change (num RN) with R in *. lra.
  - destruct Rb as (_ & _ & Rb). unfold abs_sum, neg_sum in Rb. cbn [map] in Rb. rewrite !Rsum_cons, Rsum_nil in Rb.
    rewrite (Rabs_left (-2)), (Rmax_left (- (-2)) 0) in Rb by lra. change (num RN) with R in *. lra.
Qed.
Print Assumptions C81_fraction_refuted.

(** In binary64 arithmetic the reported fraction is NaN (a panic in debug builds) if there are no
    events, or only events with weight zero. *)
Theorem C81_nan_refuted : forall n, st_fraction (weight_stats (N := B64) nsum (repeat n0 n)) = SpecFloat.S754_nan.
Proof.
  intros n. unfold weight_stats. cbn [st_fraction].
  assert (F : filter (fun w : B64 => nltb w n0) (repeat n0 n) = []) by (induction n as [|n IH]; [reflexivity|exact IH]).
  assert (S : nsum (N := B64) (repeat n0 n) = n0).
  { unfold nsum. generalize n. clear. induction n as [|n IH]; [reflexivity|]. exact IH. }
  rewrite F, S. reflexivity.
Qed.
Print Assumptions C81_nan_refuted.
