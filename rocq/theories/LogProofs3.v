(** Proofs about the log, 3: runs with unweighting. *)
From Coq Require Import Reals Lra ZArith Permutation.
From Verif Require Import Base BaseProofs Num ModelEvent ModelCell ModelSeeds ModelResampler ModelUnweight ModelCres ModelLog SpecWeights SpecLocal SpecUnweight SpecCres SpecLog
  SumProofs CellProofs RunProofs RunProofs2 SeedsProofs UnweightProofs CresProofs CresProofs2 LogProofs LogProofs2.
From Coq Require Import Lia.
Local Open Scope R_scope.
Set Implicit Arguments.

Lemma nodup_app_iff {A} (a b : list A) : NoDup (a ++ b) <-> NoDup a /\ NoDup b /\ forall x, In x a -> ~ In x b.
Proof.
  induction a as [|x a IH]; cbn [app].
  - split; [intros H; split; [constructor|split; [exact H|intros y []]]|intros (_ & H & _); exact H].
  - split.
    + intros H. inversion H as [|? ? Hx Hn]; subst. apply IH in Hn. destruct Hn as (A1 & A2 & A3). rewrite in_app_iff in Hx.
      split; [constructor; [tauto|exact A1]|]. split; [exact A2|]. intros y [<-|Hy]; [tauto|apply A3; exact Hy].
    + intros (H1 & H2 & H3). inversion H1 as [|? ? Hx Hn]; subst. constructor.
      * rewrite in_app_iff. intros [Hi|Hi]; [tauto|]. exact (H3 x (or_introl eq_refl) Hi).
      * apply IH. split; [exact Hn|]. split; [exact H2|]. intros y Hy. apply H3. right. exact Hy.
Qed.
Lemma perm_rest (is js : list nat) : NoDup is -> NoDup js -> incl js is ->
  Permutation is (js ++ filter (fun i => if in_dec Nat.eq_dec i js then false else true) is).
Proof.
  intros Hi Hj Hin. apply NoDup_Permutation; [exact Hi| |].
  - apply nodup_app_iff. split; [exact Hj|]. split; [apply NoDup_filter; exact Hi|]. intros i H1 H2. apply filter_In in H2 as [_ H2]. destruct (in_dec Nat.eq_dec i js); [discriminate|contradiction].
  - intros i. rewrite in_app_iff, filter_In. destruct (in_dec Nat.eq_dec i js) as [H|H]; split; auto; try (intros [X|[X Y]]; auto; try discriminate; contradiction).
Qed.
Lemma reports_rest (s : wt_stats RN) (f : nat -> R) is js : NoDup is -> NoDup js -> incl js is -> (forall i, In i is -> ~ In i js -> f i = 0) ->
  reports s (map f js) -> reports s (map f is).
Proof.
  intros Hi Hj Hin Hz Hr. eapply reports_perm; [apply Permutation_map, Permutation_sym, perm_rest; eassumption|].
  rewrite map_app. set (z := map f (filter _ is)).
  assert (Hall : forall x, In x z -> x = 0).
  { intros x Hx. apply in_map_iff in Hx as (i & <- & Hx). apply filter_In in Hx as [H1 H2]. destruct (in_dec Nat.eq_dec i js); [discriminate|]. apply Hz; assumption. }
  assert (Hg : forall g : R -> R, g 0 = 0 -> Rsum (map g (map f js ++ z)) = Rsum (map g (map f js))).
  { intros g Hg. rewrite map_app, Rsum_app. replace (Rsum (map g z)) with 0; [lra|]. clearbody z. clear -Hall Hg. induction z as [|x z IH]; [reflexivity|].
    cbn [map]. rewrite Rsum_cons, (Hall x) by (left; reflexivity). rewrite Hg, <- IH by (intros y Hy; apply Hall; right; exact Hy). lra. }
  destruct Hr as (H1 & H2 & H3). unfold reports, abs_sum, neg_sum in *.
  pose proof (Hg (fun x => x) eq_refl) as G1. rewrite !map_id in G1. rewrite G1, Hg, Hg, Hg; [auto|rewrite Rmax_right; lra|apply Rabs_R0|ring].
Qed.

Section Run.
Context (Rec Err : Type) (is_ntuple : Rec -> bool) (convert : Rec -> Event RN + Err) (cluster : Event RN -> Event RN + Err) (mw : bool) (nw : nat) (sort : sorter)
  (hash : list (category * nat) -> list (category * nat)) (psum : list RN -> RN)
  (shuffle : list (Event RN + @cres_error Err) -> list (Event RN + @cres_error Err)) (resample : list (Event RN) -> option (list (Event RN) + Err)).
Context (m : R) (draws : nat -> R).
Context (records : list (Rec + Err)) (evs : list (Event RN)) (log : list (log_line RN)) (W : list (list R)).
Hypothesis Hres : forall l l', shaped mw nw (map ev_weights l) -> resample l = Some (inl l') ->
  map ev_id l' = map ev_id l /\ map ev_out l' = map ev_out l /\ shaped mw nw (map ev_weights l') /\
  forall k, total (map ev_weights l') k = total (map ev_weights l) k.
Hypothesis Hs : reorders shuffle.
Hypothesis Hh : reorders hash.
Hypothesis Hsort : sort_ok sort.
Hypothesis Hpsum : forall x, psum x = Rsum x.
Hypothesis He : events_of convert cluster records evs.
Hypothesis Hshape : shaped mw nw (map ev_weights evs).
Notation used := (filter has_particles evs).
Notation weights_before := (map (fun e : Event RN => nth 0 (ev_weights e) 0) used).
Notation weights_after := (map (fun e : Event RN => nth 0 (nth (ev_id e) W []) 0) used).

Lemma run_log_unweight : cres_run_log is_ntuple convert cluster mw sort hash psum shuffle resample (lib_unweight psum m draws) records = (log, Wrote W) ->
  exists all lines a b, census used all /\ census_lines all lines /\
    log = LRead (length records) :: (if (length used <? length records)%nat then [LIgnored (length records - length used)] else []) ++ lines ++
      [LInitial a; LCells (nnegative (map ev_weights used)); LFinal b] /\
    reports a weights_before /\ reports b weights_after /\ (st_sum b <> 0 -> st_sum b = st_sum a).
Proof.
  intros Hrun.
  unfold cres_run_log in Hrun.
  destruct (read_events is_ntuple convert cluster shuffle records) as [used0|err'] eqn:E; [|discriminate].
  destruct (read_events_ok Hs E) as (evs0 & He0 & Hp0).
  assert (E0 : evs0 = evs) by (eapply events_of_fun; eassumption). subst evs0.
  rewrite (filter_ext _ _ (@has_particles_eq RN)) in Hrun.
  assert (Hpu : Permutation used (filter has_particles used0)) by (apply filter_perm; exact Hp0).
  set (us := filter has_particles used0) in *. clearbody us.
  assert (Hsh : shaped mw nw (map ev_weights us)) by (exact (shaped_used Hshape Hpu)).
  assert (Hlen : length used0 = length records).
  { destruct He as [Hl _]. rewrite <- Hl. symmetry. apply Permutation_length. exact Hp0. }
  assert (Hlu : length us = length used) by (symmetry; apply Permutation_length; exact Hpu).
  destruct (resample us) as [[evs1|]|] eqn:Er; try discriminate.
  destruct (Hres Hsh Er) as (T1 & _ & T3 & T4).
  assert (Hne0 : Forall (fun e => ev_weights e <> []) evs1) by (eapply LogProofs2.shaped_nonempty; exact T3).
  unfold lib_unweight in Hrun. destruct (unweight psum m draws evs1) as [[evs2 kk]|] eqn:Eu; [|discriminate].
  pose proof (unweight_thinned Eu) as Hthin.
  destruct (@Hsort _ ev_leb evs2 (ev_leb_preorder _)) as [Hperm _].
  set (srt := @sort (Event RN) ev_leb evs2) in *.
  destruct (omap ev_weight srt) as [wts|] eqn:Ew; [|discriminate].
  assert (Hw : wts = map cw srt).
  { clear - Ew. apply omap_spec in Ew. induction Ew as [|e w l ws H H' IH]; [auto|]. cbn [map]. f_equal; auto.
    unfold ev_weight, central in H. unfold cw. destruct (ev_weights e); [discriminate|]. cbn in *. congruence. }
  subst wts.
  destruct (weights_table mw (length used0) srt) as [W'|] eqn:HW; [|discriminate]. injection Hrun as Hlog ->.
  unfold resampler_log in Hlog. rewrite (omap_ev_weight (LogProofs2.shaped_nonempty _ Hsh)) in Hlog.
  rewrite Hlen, Hlu in Hlog.
  set (a := weight_stats nsum (map cw us)) in *. set (b := weight_stats psum (map cw srt)) in *.
  assert (Ra : reports a (map cw us)) by (apply stats_reports; intros x; apply nsum_RN).
  assert (Rb : reports b (map cw srt)) by (apply stats_reports; exact Hpsum).
  exists (all_kinds sort hash used), (log_multiplicities sort hash us), a, b.
  assert (Ek : all_kinds sort hash used = all_kinds sort hash us) by (apply all_kinds_unique; assumption).
  destruct (log_multiplicities_census _ _ _ used Hsort Hh) as [C1 _]. destruct (log_multiplicities_census _ _ _ us Hsort Hh) as [_ C2].
  split; [exact C1|]. split; [rewrite Ek; exact C2|]. split; [|split; [|split]].
  - rewrite <- Hlog. cbn [app]. f_equal. rewrite <- !app_assoc. f_equal. f_equal. cbn [app]. f_equal. f_equal. f_equal.
    unfold nnegative.
    assert (X : forall l : list (Event RN), length (filter (fun w : RN => nltb w n0) (map cw l)) =
      length (filter (fun w : list R => if Rlt_dec (nth 0 w 0) 0 then true else false) (map ev_weights l))).
    { intros l. assert (Y : forall A B (f : A -> B) p (l : list A), length (filter p (map f l)) = length (filter (fun x => p (f x)) l)).
      { clear. intros A B f p l. induction l as [|x l IH]; [reflexivity|]. cbn [map filter]. destruct (p (f x)); cbn [length]; rewrite IH; reflexivity. }
      exact (eq_trans (Y _ _ cw (fun w : RN => nltb w n0) l) (eq_sym (Y _ _ ev_weights (fun w : list R => if Rlt_dec (nth 0 w 0) 0 then true else false) l))). }
    rewrite X. apply Permutation_length. apply filter_perm, Permutation_map, Permutation_sym. exact Hpu.
  - eapply reports_perm; [|exact Ra]. change (Permutation (map cw us) (map cw used)). apply Permutation_map, Permutation_sym. exact Hpu.
  - assert (Hids1 : NoDup (map ev_id evs1)).
    { rewrite T1. eapply used_nodup; [exact He|exact Hpu]. }
    assert (Hids : NoDup (map ev_id evs2)) by (eapply thinned_nodup; eauto).
    unfold weights_table in HW. destruct (table_fold cluster HW) as (HlW & H2 & H3).
    assert (Hnd3 : NoDup (map ev_id srt)) by (eapply Permutation_NoDup; [apply Permutation_map; exact Hperm|exact Hids]).
    assert (Ew2 : forall e, In e evs2 -> nth_error W (ev_id e) = Some (ev_weights e)).
    { intros e Hin. apply H3; [exact Hnd3|eapply Permutation_in; eauto]. }
    apply (reports_perm (Permutation_map cw (Permutation_sym Hperm))) in Rb.
    assert (X : map cw evs2 = map (fun i => nth 0 (nth i W []) 0) (map ev_id evs2)).
    { rewrite map_map. apply map_ext_in. intros e Hin. unfold cw. rewrite (nth_error_nth W (ev_id e) [] (Ew2 e Hin)). reflexivity. }
    rewrite X in Rb. rewrite <- (map_map ev_id (fun i => nth 0 (nth i W []) 0) used).
    apply (@reports_rest b (fun i => nth 0 (nth i W []) 0) (map ev_id used) (map ev_id evs2)); [|exact Hids| | |exact Rb].
    + eapply Permutation_NoDup; [|exact Hids1]. rewrite T1. apply Permutation_map, Permutation_sym. exact Hpu.
    + intros i Hi. apply in_map_iff in Hi as (e & <- & Hi). destruct (thinned_in Hthin Hi) as (e0 & H0 & -> & _).
      apply (Permutation_in _ (Permutation_map ev_id (Permutation_sym Hpu))). rewrite <- T1. apply in_map. exact H0.
    + intros i Hi Hni. assert (Hns : ~ In i (map ev_id srt)).
      { intros H. apply Hni. apply (Permutation_in _ (Permutation_map ev_id (Permutation_sym Hperm))). exact H. }
      destruct (nth_error W i) as [w|] eqn:Ei; [|rewrite (nth_overflow W); [reflexivity|apply nth_error_None; exact Ei]].
      rewrite (nth_error_nth W i [] Ei). pose proof (eq_trans (eq_sym (H2 i Hns)) Ei) as Ei2. apply nth_error_In, repeat_spec in Ei2. subst w. destruct mw; reflexivity.
  - intros Hne. destruct Rb as (Sb & _). destruct Ra as (Sa & _). rewrite Sa. rewrite Sb in Hne |- *.
    rewrite <- (Rsum_perm (Permutation_map cw Hperm)) in Hne |- *.
    rewrite (unweight_total Hpsum Eu Hne0 Hne). pose proof (T4 0%nat) as T. unfold total in T. rewrite !map_map in T. exact T.
Qed.
End Run.
