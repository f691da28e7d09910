(** Proofs about the log of a run: statistics of the weights, and the whole run. *)
From Coq Require Import Reals Lra ZArith.
From Verif Require Import Base BaseProofs Num ModelEvent ModelCell ModelSeeds ModelResampler ModelUnweight ModelCres ModelLog SpecWeights SpecLocal SpecUnweight SpecCres SpecLog
  SumProofs CellProofs RunProofs RunProofs2 SeedsProofs UnweightProofs CresProofs CresProofs2 SpecSearch ModelConc SpecConc ConcProofs2 ModelThreads ThreadsProofs OrderProofs LogProofs.
From Coq Require Import Lia.
Local Open Scope R_scope.
Set Implicit Arguments.

(** *** Statistics *)
Lemma neg_abs_sum (ws : list R) : Rsum (filter (fun w => Rltb w 0) ws) = - neg_sum ws /\ Rsum ws + 2 * neg_sum ws = abs_sum ws.
Proof.
  unfold neg_sum, abs_sum. induction ws as [|w ws [IH1 IH2]]; [cbn [map filter]; rewrite !Rsum_nil; split; lra|]. cbn [map filter]. rewrite !Rsum_cons.
  unfold Rltb, Rmax, Rabs in *. destruct (Rlt_dec w 0), (Rle_dec (- w) 0), (Rcase_abs w); rewrite ?Rsum_cons; lra.
Qed.
Lemma neg_sum_pos ws : 0 <= neg_sum ws.
Proof. apply Rsum_nonneg. intros x Hx. apply in_map_iff in Hx as (w & <- & _). apply Rmax_r. Qed.
Lemma neg_le_abs ws : neg_sum ws <= abs_sum ws.
Proof. apply Rsum_map_le. intros w _. unfold Rmax, Rabs. destruct (Rle_dec (- w) 0), (Rcase_abs w); lra. Qed.
Lemma sum_le_abs ws : Rabs (Rsum ws) <= abs_sum ws.
Proof.
  unfold abs_sum. induction ws as [|w ws IH]; cbn [map]; [rewrite !Rsum_nil, Rabs_R0; lra|]. rewrite !Rsum_cons. eapply Rle_trans; [apply Rabs_triang|lra].
Qed.

Lemma stats_reports (sum : list RN -> RN) ws : (forall x, sum x = Rsum x) -> reports (weight_stats sum ws) ws.
Proof.
  intros Hs. unfold reports, weight_stats. cbn [st_sum st_error st_fraction]. rewrite !Hs. split; [reflexivity|]. split; [reflexivity|].
  destruct (neg_abs_sum ws) as [E1 E2].
  change (- Rsum (filter (fun w => Rltb w 0) ws) / (Rsum ws - Rsum (filter (fun w => Rltb w 0) ws) * INR 2) * abs_sum ws = neg_sum ws).
  rewrite E1. change (INR 2) with (1 + 1). replace (Rsum ws - - neg_sum ws * (1 + 1)) with (abs_sum ws) by lra. rewrite Ropp_involutive.
  destruct (Req_dec (abs_sum ws) 0) as [Z|Z]; [|field; exact Z].
  pose proof (neg_sum_pos ws). pose proof (neg_le_abs ws). rewrite Z. lra.
Qed.
Lemma reports_perm s ws ws' : Permutation ws ws' -> reports s ws -> reports s ws'.
Proof.
  intros Hp (H1 & H2 & H3). unfold reports, abs_sum, neg_sum in *.
  rewrite <- (Rsum_perm Hp), <- (Rsum_perm (Permutation_map (fun w => w * w) Hp)), <- (Rsum_perm (Permutation_map Rabs Hp)), <- (Rsum_perm (Permutation_map (fun w => Rmax (- w) 0) Hp)). auto.
Qed.

(** The fraction is a function of the sum and of the absolute sum. *)
Lemma reports_compare a b ws ws' : reports a ws -> reports b ws' -> Rsum ws' = Rsum ws ->
  neg_sum ws' <= neg_sum ws -> Rsum (map (fun w => w * w) ws') <= Rsum (map (fun w => w * w) ws) ->
  st_sum b = st_sum a /\ st_error b <= st_error a /\
  (0 < st_sum a -> 0 <= st_fraction b <= st_fraction a) /\ (st_sum a < 0 -> st_fraction a <= st_fraction b <= 1).
Proof.
  intros (A1 & A2 & A3) (B1 & B2 & B3) Hs Hn Hq. change (num RN) with R in *. rewrite A1, B1, A2, B2. split; [exact Hs|]. split.
  { apply sqrt_le_1_alt. exact Hq. }
  destruct (neg_abs_sum ws) as [_ E]. destruct (neg_abs_sum ws') as [_ E'].
  pose proof (neg_sum_pos ws) as P. pose proof (neg_sum_pos ws') as P'. pose proof (neg_le_abs ws') as L'. pose proof (neg_le_abs ws) as L.
  assert (Hd : forall x n d : R, 0 < d -> x * d = n -> x = n / d) by (intros x n d Hd <-; field; lra).
  split; intros Hpos.
  - assert (D : 0 < abs_sum ws) by lra. assert (D' : 0 < abs_sum ws') by lra.
    rewrite (Hd (st_fraction b) _ _ D' B3), (Hd (st_fraction a) _ _ D A3). split.
    + apply Rmult_le_pos; [exact P'|]. left. apply Rinv_0_lt_compat. exact D'.
    + apply Rmult_le_reg_r with (abs_sum ws' * abs_sum ws); [apply Rmult_lt_0_compat; assumption|].
      replace (neg_sum ws' / abs_sum ws' * (abs_sum ws' * abs_sum ws)) with (neg_sum ws' * abs_sum ws) by (field; lra).
      replace (neg_sum ws / abs_sum ws * (abs_sum ws' * abs_sum ws)) with (neg_sum ws * abs_sum ws') by (field; lra).
      rewrite <- E, <- E', Hs. pose proof (Rmult_le_compat_r (Rsum ws) _ _ (Rlt_le _ _ Hpos) Hn). lra.
  - pose proof (sum_le_abs ws). pose proof (sum_le_abs ws'). pose proof (Rabs_pos_lt (Rsum ws) (Rlt_not_eq _ _ Hpos)).
    assert (D : 0 < abs_sum ws) by lra. assert (D' : 0 < abs_sum ws') by (rewrite Hs in *; lra).
    rewrite (Hd (st_fraction b) _ _ D' B3), (Hd (st_fraction a) _ _ D A3). split.
    + apply Rmult_le_reg_r with (abs_sum ws' * abs_sum ws); [apply Rmult_lt_0_compat; assumption|].
      replace (neg_sum ws' / abs_sum ws' * (abs_sum ws' * abs_sum ws)) with (neg_sum ws' * abs_sum ws) by (field; lra).
      replace (neg_sum ws / abs_sum ws * (abs_sum ws' * abs_sum ws)) with (neg_sum ws * abs_sum ws') by (field; lra).
      rewrite <- E, <- E', Hs. pose proof (Rmult_le_compat_neg_l (Rsum ws) _ _ (Rlt_le _ _ Hpos) Hn). lra.
    + apply Rmult_le_reg_r with (abs_sum ws'); [exact D'|].
      replace (neg_sum ws' / abs_sum ws' * abs_sum ws') with (neg_sum ws') by (field; lra). lra.
Qed.

(** *** Squares of weights *)
Lemma mean_square l : l <> [] -> INR (length l) * (mean l * mean l) <= Rsum (map (fun w => w * w) l).
Proof.
  intros Hne. assert (H : 0 <= Rsum (map (fun w => (w - mean l) * (w - mean l)) l)).
  { apply Rsum_nonneg. intros x Hx. apply in_map_iff in Hx as (w & <- & _). apply Rle_0_sqr. }
  assert (E : forall m, Rsum (map (fun w => (w - m) * (w - m)) l) = Rsum (map (fun w => w * w) l) - 2 * m * Rsum l + INR (length l) * (m * m)).
  { clear. intros m. induction l as [|a l IH]; [cbn [map length INR]; rewrite !Rsum_nil; lra|]. cbn [map length]. rewrite !Rsum_cons, IH, S_INR. lra. }
  rewrite E in H. pose proof (mean_times Hne) as Hm. rewrite <- Hm in H. lra.
Qed.
Definition total_sqr (s : sample) (k : nat) : R := Rsum (map (fun w => nth k w 0 * nth k w 0) s).
Lemma resample_total_sqr mw (ws : weights_state RN) (c : Cell RN) ws' :
  wf_weights mw ws -> cell_resample mw ws c = Some ws' -> forall k, total_sqr ws' k <= total_sqr ws k.
Proof. intros Hwf H k. apply (@resample_convex (fun x => x * x)) with (mw := mw) (c := c); auto. intros l. apply mean_square. Qed.
Lemma resample_wf mw (ws ws' : weights_state RN) c : wf_weights mw ws -> @cell_resample RN mw ws c = Some ws' -> wf_weights mw ws'.
Proof.
  intros H1 H2 Hm. specialize (H1 Hm) as H1'. apply Forall_forall. intros w Hw. apply In_nth_error in Hw. destruct Hw as [i Hi].
  pose proof (resample_frame _ _ _ H2) as (_ & _ & Hlen & _).
  assert (Hlt : (i < length ws)%nat). { rewrite <- Hlen. apply nth_error_Some. congruence. }
  destruct (nth_error ws i) as [w0|] eqn:E; [|apply nth_error_None in E; lia].
  rewrite (resample_lengths _ H1 H2 i E Hi). unfold uniform in H1'. rewrite Forall_forall in H1'. apply H1'. eapply nth_error_In; eauto.
Qed.
Lemma resample_many_sqr mw (cells : list (Cell RN)) (ws ws' : weights_state RN) : wf_weights mw ws -> ofold (cell_resample mw) cells ws = Some ws' ->
  forall k, total_sqr ws' k <= total_sqr ws k.
Proof.
  intros Hwf H k. enough (wf_weights mw ws' /\ total_sqr ws' k <= total_sqr ws k) by tauto. revert H.
  apply (ofold_inv (@cell_resample RN mw) (fun w => wf_weights mw w /\ total_sqr w k <= total_sqr ws k)); [|split; [auto|lra]].
  intros c ws1 ws2 _ (H1 & H2) Hr. pose proof (resample_total_sqr _ H1 Hr k). split; [eapply resample_wf; eauto|lra].
Qed.
Lemma resample_seeds_sqr mw nw nearest seeds (ws : weights_state RN) ws' cells :
  shaped mw nw ws -> resample_seeds mw nearest seeds ws = Some (ws', cells) -> forall k, total_sqr ws' k <= total_sqr ws k.
Proof.
  intros Hs H k. enough (shaped mw nw ws' /\ total_sqr ws' k <= total_sqr ws k) by tauto. revert H.
  apply (@resample_seeds_inv RN mw nearest (fun w => shaped mw nw w /\ total_sqr w k <= total_sqr ws k)); [|split; [auto|lra]].
  intros ws1 ws2 seed nbrs c w _ (H1 & H2) _ _ _ _ _ Hr. pose proof (resample_total_sqr _ (shaped_wf H1) Hr k).
  split; [eapply resample_shaped; eauto|lra].
Qed.

(** What is used about the resampling step *)
Definition averages (mw : bool) (nw : nat) (l l' : list (Event RN)) : Prop :=
  map ev_id l' = map ev_id l /\ shaped mw nw (map ev_weights l') /\
  total (map ev_weights l') 0 = total (map ev_weights l) 0 /\ total_neg (map ev_weights l') 0 <= total_neg (map ev_weights l) 0 /\
  total_sqr (map ev_weights l') 0 <= total_sqr (map ev_weights l) 0.

Lemma lib_averages (Err : Type) mw nw sort strategy (algo : search_algo RN) dist max (l l' : list (Event RN)) : shaped mw nw (map ev_weights l) ->
  lib_resample (N := RN) (Err := Err) mw sort strategy algo dist max l = Some (inl l') -> averages mw nw l l'.
Proof.
  intros Hs Hr. destruct (lib_resample_facts Hs Hr) as (H1 & _ & H3 & H4). split; [exact H1|]. split; [exact H3|]. split; [apply H4|].
  unfold lib_resample in Hr. destruct (resampler_resample mw sort strategy algo dist max l) as [[evs1' cells]|] eqn:Er; [|discriminate]. injection Hr as ->.
  apply resampler_inv in Er. destruct Er as (seeds & ws' & _ & Er & El).
  assert (Hlen : length ws' = length l).
  { rewrite <- (map_length ev_weights l). symmetry. refine (@resample_seeds_inv RN mw _ (fun w => length (map ev_weights l) = length w) seeds _ ws' cells _ eq_refl Er).
    intros ws1 ws2 seed nbrs c w _ E _ _ _ _ _ Hc. rewrite E. symmetry. eapply resample_frame; eauto. }
  assert (Ew : map ev_weights l' = ws') by (rewrite El; apply (with_weights_spec l ws' Hlen)). rewrite Ew.
  split; [apply (resample_seeds_shrinks Hs Er)|eapply resample_seeds_sqr; eassumption].
Qed.
Lemma threads_averages (Err : Type) mw nw sort strategy (algo : search_algo RN) dist max nthreads sched (l l' : list (Event RN)) :
  sort_ok sort -> (0 < nthreads)%nat -> valid_search (length l) (algo (length l) (dist_wrapper dist l) max) -> shaped mw nw (map ev_weights l) ->
  threads_resample (Err := Err) nthreads sched mw sort strategy algo dist max l = Some (inl l') -> averages mw nw l l'.
Proof.
  intros Hsort Hn Hv Hs H. destruct (threads_resample_facts Hsort Hn Hv Hs H) as (H1 & _ & H3 & H4). split; [exact H1|]. split; [exact H3|]. split; [apply H4|].
  destruct (threads_resample_execution Err strategy Hsort RN_order (fun _ _ _ _ => I) Hs Hv sched Hn) as (seeds & k & s & _ & Hlt & Hk & Hd & _ & E).
  rewrite E in H. injection H as <-.
  assert (Hv' : valid_search (length (map ev_weights l)) (algo (length l) (dist_wrapper dist l) max)) by (rewrite map_length; exact Hv).
  destruct (steps_length Hv' Hs Hlt Hk) as [Hlen Hsh]. rewrite map_length in Hlen.
  assert (Ew : map ev_weights (with_weights l (mem s)) = mem s) by apply (with_weights_spec l _ Hlen). rewrite Ew.
  destruct (linearise_spec Hv' Hs Hlt Hk (done_quiescent Hd)) as (cells & Hc & _ & _).
  split; [apply (resample_many_shrinks (shaped_wf Hs) Hc 0)|eapply resample_many_sqr; [exact (shaped_wf Hs)|exact Hc]].
Qed.

(** *** The run *)
Lemma log_same (N : NumOps) (Rec Err : Type) (is_ntuple : Rec -> bool) convert cluster mw sort hash psum shuffle resample unweighter (records : list (Rec + Err)) :
  snd (cres_run_log (N := N) is_ntuple convert cluster mw sort hash psum shuffle resample unweighter records) =
  cres_run is_ntuple convert cluster mw sort shuffle resample unweighter records.
Proof.
  unfold cres_run_log, cres_run. destruct (read_events is_ntuple convert cluster shuffle records) as [events|err]; [|reflexivity].
  destruct (resample _) as [[l|]|]; [|reflexivity|reflexivity]. destruct (unweighter l) as [[l'|]|]; [|reflexivity|reflexivity].
  destruct (omap _ _); [|reflexivity]. destruct (weights_table _ _ _); reflexivity.
Qed.

Lemma cw_total (l : list (Event RN)) (g : R -> R) : Rsum (map g (map cw l)) = Rsum (map (fun w => g (nth 0 w 0)) (map ev_weights l)).
Proof. rewrite !map_map. reflexivity. Qed.

Lemma averages_sums mw nw l l' : averages mw nw l l' -> Rsum (map cw l') = Rsum (map cw l) /\ neg_sum (map cw l') <= neg_sum (map cw l) /\
  Rsum (map (fun w => w * w) (map cw l')) <= Rsum (map (fun w => w * w) (map cw l)).
Proof.
  intros (_ & _ & H1 & H2 & H3). unfold neg_sum. rewrite !(cw_total _ (fun w => w * w)), !(cw_total _ (fun w => Rmax (- w) 0)). split; [|split; [exact H2|exact H3]].
  unfold total in H1. rewrite !map_map in H1. exact H1.
Qed.

Section Run.
Context (Rec Err : Type) (is_ntuple : Rec -> bool) (convert : Rec -> Event RN + Err) (cluster : Event RN -> Event RN + Err) (mw : bool) (nw : nat) (sort : sorter)
  (hash : list (category * nat) -> list (category * nat)) (psum : list RN -> RN)
  (shuffle : list (Event RN + @cres_error Err) -> list (Event RN + @cres_error Err)) (resample : list (Event RN) -> option (list (Event RN) + Err)).
Context (records : list (Rec + Err)) (evs : list (Event RN)) (log : list (log_line RN)) (W : list (list R)).
Hypothesis Hres : forall l l', shaped mw nw (map ev_weights l) -> resample l = Some (inl l') -> averages mw nw l l'.
Hypothesis Hs : reorders shuffle.
Hypothesis Hh : reorders hash.
Hypothesis Hsort : sort_ok sort.
Hypothesis Hpsum : forall x, psum x = Rsum x.
Hypothesis He : events_of convert cluster records evs.
Hypothesis Hshape : shaped mw nw (map ev_weights evs).

Definition used := filter has_particles evs.
Definition weights_before : list R := map (fun e => nth 0 (ev_weights e) 0) used.
Definition weights_after : list R := map (fun e => nth 0 (nth (ev_id e) W []) 0) used.

Lemma shaped_nonempty (l : list (Event RN)) : shaped mw nw (map ev_weights l) -> Forall (fun e => ev_weights e <> []) l.
Proof.
  intros (H0 & _ & H). apply Forall_map in H. eapply Forall_impl; [|exact H]. intros e E X. cbn beta in E. rewrite X in E. cbn in E. lia.
Qed.

Lemma run_log : cres_run_log is_ntuple convert cluster mw sort hash psum shuffle resample lib_no_unweight records = (log, Wrote W) ->
  exists all lines a b, census used all /\ census_lines all lines /\
    log = LRead (length records) :: (if (length used <? length records)%nat then [LIgnored (length records - length used)] else []) ++ lines ++
      [LInitial a; LCells (nnegative (map ev_weights used)); LFinal b] /\
    reports a weights_before /\ reports b weights_after /\
    st_sum b = st_sum a /\ st_error b <= st_error a /\
    (0 < st_sum a -> 0 <= st_fraction b <= st_fraction a) /\ (st_sum a < 0 -> st_fraction a <= st_fraction b <= 1).
Proof.
  intros Hrun. assert (Hrun' := f_equal snd Hrun). rewrite log_same in Hrun'. cbn [snd] in Hrun'.
  destruct (run_wrote Hs Hsort Hrun') as (HlW & _ & _ & _ & _ & _).
  unfold cres_run_log in Hrun.
  destruct (read_events is_ntuple convert cluster shuffle records) as [used0|err'] eqn:E; [|discriminate].
  destruct (read_events_ok Hs E) as (evs0 & He0 & Hp0).
  assert (E0 : evs0 = evs) by (eapply events_of_fun; eassumption). subst evs0.
  rewrite (filter_ext _ _ (@has_particles_eq RN)) in Hrun.
  assert (Hpu : Permutation used (filter has_particles used0)) by (apply filter_perm; exact Hp0).
  set (us := filter has_particles used0) in *. clearbody us.
  assert (Hsh : shaped mw nw (map ev_weights us)) by (exact (shaped_used Hshape Hpu)).
  assert (Hlen : length used0 = length records).
  { destruct He as [Hl _]. rewrite <- Hl. symmetry. apply Permutation_length. exact Hp0. }
  assert (Hlu : length us = length used) by (symmetry; apply Permutation_length; exact Hpu).
  destruct (resample us) as [[evs1|]|] eqn:Er; try discriminate.
  pose proof (Hres Hsh Er) as Hav.
  unfold lib_no_unweight, no_unweight in Hrun.
  destruct (@Hsort _ ev_leb evs1 (ev_leb_preorder _)) as [Hperm _].
  set (srt := @sort (Event RN) ev_leb evs1) in *.
  assert (Hne1 : Forall (fun e => ev_weights e <> []) srt).
  { eapply Permutation_Forall; [exact Hperm|]. apply shaped_nonempty. apply Hav. }
  rewrite (omap_ev_weight Hne1) in Hrun.
  destruct (weights_table mw (length used0) srt) as [W'|] eqn:HW; [|discriminate]. injection Hrun as Hlog ->.
  unfold resampler_log in Hlog. rewrite (omap_ev_weight (shaped_nonempty _ Hsh)) in Hlog.
  rewrite Hlen, Hlu in Hlog.
  set (a := weight_stats nsum (map cw us)) in *. set (b := weight_stats psum (map cw srt)) in *.
  assert (Ra : reports a (map cw us)) by (apply stats_reports; intros x; apply nsum_RN).
  assert (Rb : reports b (map cw srt)) by (apply stats_reports; exact Hpsum).
  exists (all_kinds sort hash used), (log_multiplicities sort hash us), a, b.
  assert (Ek : all_kinds sort hash used = all_kinds sort hash us) by (apply all_kinds_unique; assumption).
  destruct (log_multiplicities_census _ _ _ used Hsort Hh) as [C1 _]. destruct (log_multiplicities_census _ _ _ us Hsort Hh) as [_ C2].
  split; [exact C1|]. split; [rewrite Ek; exact C2|]. split; [|split; [|split]].
  - rewrite <- Hlog. cbn [app]. f_equal. rewrite <- !app_assoc. f_equal. f_equal. cbn [app]. f_equal. f_equal. f_equal.
    unfold nnegative.
    assert (X : forall l : list (Event RN), length (filter (fun w : RN => nltb w n0) (map cw l)) =
      length (filter (fun w : list R => if Rlt_dec (nth 0 w 0) 0 then true else false) (map ev_weights l))).
    { intros l. assert (Y : forall A B (f : A -> B) p (l : list A), length (filter p (map f l)) = length (filter (fun x => p (f x)) l)).
      { clear. intros A B f p l. induction l as [|x l IH]; [reflexivity|]. cbn [map filter]. destruct (p (f x)); cbn [length]; rewrite IH; reflexivity. }
      exact (eq_trans (Y _ _ cw (fun w : RN => nltb w n0) l) (eq_sym (Y _ _ ev_weights (fun w : list R => if Rlt_dec (nth 0 w 0) 0 then true else false) l))). }
    rewrite X. apply Permutation_length. apply filter_perm, Permutation_map, Permutation_sym. exact Hpu.
  - eapply reports_perm; [|exact Ra]. unfold weights_before. change (Permutation (map cw us) (map cw used)). apply Permutation_map, Permutation_sym. exact Hpu.
  - eapply reports_perm; [|exact Rb].
    assert (Hids : NoDup (map ev_id evs1)).
    { destruct Hav as (-> & _). eapply used_nodup; [exact He|exact Hpu]. }
    unfold weights_table in HW. destruct (table_fold cluster HW) as (_ & _ & H3).
    assert (Ew : forall e, In e evs1 -> nth_error W (ev_id e) = Some (ev_weights e)).
    { intros e Hin. apply H3; [eapply Permutation_NoDup; [apply Permutation_map; exact Hperm|exact Hids]|eapply Permutation_in; eauto]. }
    eapply Permutation_trans; [apply Permutation_map, Permutation_sym; exact Hperm|].
    assert (X : map cw evs1 = map (fun i => nth 0 (nth i W []) 0) (map ev_id evs1)).
    { rewrite map_map. apply map_ext_in. intros e Hin. unfold cw. rewrite (nth_error_nth W (ev_id e) [] (Ew e Hin)). reflexivity. }
    rewrite X. destruct Hav as (-> & _). unfold weights_after. rewrite <- (map_map ev_id (fun i => nth 0 (nth i W []) 0) used).
    apply Permutation_map, Permutation_map, Permutation_sym. exact Hpu.
  - destruct (averages_sums Hav) as (S1 & S2 & S3).
    apply (reports_compare Ra (reports_perm (Permutation_map cw (Permutation_sym Hperm)) Rb) S1 S2 S3).
Qed.
End Run.
