(** The order in which events arrive from the parallel conversion (C68). *)
From Coq Require Import Reals Lra Permutation.
From Verif Require Import Base BaseProofs Num ModelEvent ModelCell ModelSeeds ModelNaive ModelVPTree ModelResampler ModelUnweight ModelCres SpecWeights SpecSearch SpecTree
  SpecOrder SpecCres NaiveProofs VPTreeProofs2 RunProofs2 CresProofs OrderProofs PropsNaive PropsTree PropsRun TextExamples.

(** C68: the converted events are collected in the order in which the tasks finish, and resampled
    in this order.  If, from each event, all others have different distances, no two events have
    the same negative weight, and the seeds are not taken in the order of the events, then the
    order is irrelevant: resampling (by one thread) gives the same events.  Which searches and
    sorting algorithms are used does not matter either. *)
Theorem C68_resampling : forall mw nw sort sort' strategy (algo algo' : search_algo RN) dist max (evs evs' r : list (Event RN)) cells,
  sort_ok sort -> sort_ok sort' -> strategy = MostNegative \/ strategy = LeastNegative ->
  Permutation evs evs' -> shaped mw nw (map ev_weights evs) -> negative_weights_differ evs -> distances_differ dist evs ->
  (forall l, Permutation evs l -> answers (length l) (dist_wrapper dist l) max (algo (length l) (dist_wrapper dist l) max)) ->
  (forall l, Permutation evs l -> answers (length l) (dist_wrapper dist l) max (algo' (length l) (dist_wrapper dist l) max)) ->
  resampler_resample mw sort strategy algo dist max evs = Some (r, cells) ->
  exists r' cells', resampler_resample mw sort' strategy algo' dist max evs' = Some (r', cells') /\ Permutation r r'.
Proof.
  intros mw nw sort sort' strategy algo algo' dist max evs evs' r cells Hs Hs' Hst Hp Hsh Hn Hd Ha Ha' H.
  exact (resampling_perm mw nw sort sort' strategy algo algo' dist max evs Hs Hs' ltac:(intros E; subst; destruct Hst; discriminate) Hsh Hn Hd Ha Ha'
    evs evs' r cells (Permutation_refl _) Hp H).
Qed.
Print Assumptions C68_resampling.

(** The whole run: the weights written do not depend on the order in which the tasks finish. *)
Theorem C68_run : forall (Rec Err : Type) is_ntuple (convert : Rec -> Event RN + Err) cluster mw nw sort sort' sort1 sort1' shuffle shuffle' strategy
    (algo algo' : search_algo RN) dist max (records : list (Rec + Err)) evs W,
  sort_ok sort -> sort_ok sort' -> sort_ok sort1 -> sort_ok sort1' -> reorders shuffle -> reorders shuffle' ->
  strategy = MostNegative \/ strategy = LeastNegative ->
  events_of convert cluster records evs -> shaped mw nw (map ev_weights evs) ->
  let used := filter has_particles evs in
  negative_weights_differ used -> distances_differ dist used ->
  (forall l, Permutation used l -> answers (length l) (dist_wrapper dist l) max (algo (length l) (dist_wrapper dist l) max)) ->
  (forall l, Permutation used l -> answers (length l) (dist_wrapper dist l) max (algo' (length l) (dist_wrapper dist l) max)) ->
  cres_run is_ntuple convert cluster mw sort shuffle (lib_resample mw sort1 strategy algo dist max) lib_no_unweight records = Wrote W ->
  cres_run is_ntuple convert cluster mw sort' shuffle' (lib_resample mw sort1' strategy algo' dist max) lib_no_unweight records = Wrote W.
Proof.
  intros Rec Err is_ntuple convert cluster mw nw sort sort' sort1 sort1' shuffle shuffle' strategy algo algo' dist max records evs W
    Hs Hs' Hs1 Hs1' Hsh Hsh' Hst He Hshape used Hn Hd Ha Ha' H.
  exact (run_order Rec Err is_ntuple convert cluster mw nw sort1 sort sort1' sort' shuffle shuffle' strategy algo algo' dist max records evs
    Hsh Hsh' Hs1 Hs Hs1' Hs' ltac:(intros E; subst; destruct Hst; discriminate) He Hshape Hn Hd Ha Ha' W H).
Qed.
Print Assumptions C68_run.

(** The searches of the library answer completely. *)
Theorem C68_searches : forall sort choose choose' dist max (evs : list (Event RN)),
  sort_ok sort -> choose_ok choose -> choose_ok choose' ->
  (forall l, Permutation evs l -> answers (length l) (dist_wrapper dist l) max (naive_nearest (N := RN) choose (length l) (dist_wrapper dist l) max)) /\
  (metric_on (length evs) (dist_wrapper dist evs) -> (N.of_nat (length evs) <= usize_max)%N ->
   forall l, Permutation evs l -> answers (length l) (dist_wrapper dist l) max (tree_nearest (F := RN) sort choose' (length l) (dist_wrapper dist l) max)).
Proof.
  intros sort choose choose' dist max evs Hs Hc Hc'. split.
  - intros l _ q Hq. apply (C14_naive_exact RN (fun _ => True) RN_order); auto.
  - intros [Hm1 Hm2] Hn l Hp q Hq. destruct (renamed_of_perm _ _ _ Hp) as (f & Hf & Hr).
    assert (Hdw : forall i j, dist_wrapper (N := RN) dist l i j = dist_wrapper dist evs (f i) (f j)).
    { intros i j. unfold dist_wrapper. destruct Hr as [_ Hrn]. rewrite !Hrn. reflexivity. }
    assert (Hlt : forall i, i < length l -> f i < length evs) by (intros i Hi; apply (renamed_lt f _ _ _ i Hr); exact Hi).
    assert (Hm : metric_on (length l) (dist_wrapper (N := RN) dist l)).
    { split; [intros i j Hi Hj; rewrite !Hdw; apply Hm1; auto|intros i j k Hi Hj Hk; rewrite !Hdw; apply Hm2; auto]. }
    rewrite (Permutation_length Hp) in Hn.
    destruct (C16_tree_exact sort choose' (length l) (dist_wrapper dist l) max q Hs Hc' Hm Hn Hq) as (res & E & H1 & H2 & H3 & H4).
    exists res. split; [exact E|]. split; [exact H1|]. split; [|split; [|exact H4]].
    + intros i. rewrite H2. split; intros (Hi & Hiq & Hle); (split; [exact Hi|]; split; [exact Hiq|]).
      * rewrite (proj1 Hm i q Hi Hq). exact Hle.
      * rewrite (proj1 Hm q i Hq Hi). exact Hle.
    + apply Forall_forall. intros x Hx. pose proof (proj1 (Forall_forall _ _) H3 x Hx) as Ex. cbn beta in Ex. rewrite Ex.
      apply (proj1 Hm q (fst x) Hq). apply (H2 (fst x)). apply in_map. exact Hx.
Qed.
Print Assumptions C68_searches.

(** The three events of [C17_case] in another order meet the hypotheses. *)
Example C68_case : let evs := three_events in
  Permutation evs (rev evs) /\ shaped false 1 (map ev_weights evs) /\ negative_weights_differ evs /\ distances_differ z_dist evs /\
  (forall l, Permutation evs l -> answers (length l) (dist_wrapper z_dist l) 9%R (naive_nearest (N := RN) first_min (length l) (dist_wrapper z_dist l) 9%R)) /\
  exists r cells, resampler_resample false isort MostNegative (naive_nearest first_min) z_dist 9%R evs = Some (r, cells).
Proof.
  cbv zeta. assert (Hsh : shaped (A := R) false 1 (map ev_weights three_events)) by (split; [lia|split; [auto|repeat constructor]]).
  assert (Hans : forall l, Permutation three_events l ->
    answers (length l) (dist_wrapper z_dist l) 9%R (naive_nearest (N := RN) first_min (length l) (dist_wrapper z_dist l) 9%R)).
  { apply (proj1 (C68_searches isort first_min first_min z_dist 9%R three_events isort_ok first_min_ok first_min_ok)). }
  split; [apply Permutation_rev|]. split; [exact Hsh|]. split; [|split; [|split; [exact Hans|]]].
  - intros i j a b w Ha Hb. destruct i as [|[|[|i]]]; destruct j as [|[|[|j]]]; cbn in Ha, Hb; try discriminate; try reflexivity;
      try (destruct i; discriminate); try (destruct j; discriminate); injection Ha as <-; injection Hb as <-; cbn; intros H1 H2 H3;
      injection H1 as <-; injection H2 as H2; exfalso; lra.
  - intros q i j a b c Hi Hj Hq Hb Hc.
    destruct q as [|[|[|q]]]; destruct i as [|[|[|i]]]; destruct j as [|[|[|j]]]; cbn in Hq, Hb, Hc; try congruence;
      try (destruct q; discriminate); try (destruct i; discriminate); try (destruct j; discriminate);
      injection Hq as <-; injection Hb as <-; injection Hc as <-; cbn; unfold Rabs; repeat destruct Rcase_abs; intros H; exfalso; lra.
  - apply (C04_run_succeeds RN (fun _ => True) false 1); [exact isort_ok|exact RN_order|repeat constructor|exact Hsh|].
    intros q Hq. destruct (Hans three_events (Permutation_refl _) q Hq) as (res & E & Hn & Hi & _). exists res. split; [exact E|].
    split; [exact Hn|]. intros i Hin. apply Hi in Hin as (? & ? & _). auto.
Qed.

(** Without these conditions the output depends on the order in which the tasks finish: events with
    the same distance from the seed, ... *)
Definition zev (w z : Z) : Event ZN := mkEvent 0 [w : ZN] [(1%Z, [mkFV (0%Z : ZN) z 0%Z 0%Z z])].
Definition zev_dist (a b : Event ZN) : ZN :=
  match ev_out a, ev_out b with [(_, [p])], [(_, [q])] => Z.abs (fv_z p - fv_z q) | _, _ => 0%Z end.
Definition z_run (strategy : Strategy) (unweighter : list (Event ZN) -> option (list (Event ZN) + Empty_set))
    (shuffle : list (Event ZN + @cres_error Empty_set) -> list (Event ZN + @cres_error Empty_set)) (evs : list (Event ZN)) : @outcome ZN Empty_set :=
  cres_run (fun _ => false) inl inl false isort shuffle (lib_resample false isort strategy (naive_nearest first_min) zev_dist 100%Z) unweighter (map inl evs).
Definition rotate {A} (l : list A) : list A := match l with [] => [] | a :: t => t ++ [a] end.
Lemma rotate_reorders A : reorders (@rotate A).
Proof. intros [|a l]; [constructor|apply Permutation_cons_append]. Qed.

Theorem C68_ties_refuted : exists evs, reorders (@rotate (Event ZN + @cres_error Empty_set)) /\
  negative_weights_differ evs /\
  z_run MostNegative lib_no_unweight (fun l => l) evs = @Wrote ZN Empty_set [[3%Z]; [4%Z]; [3%Z]] /\
  z_run MostNegative lib_no_unweight rotate evs = @Wrote ZN Empty_set [[1%Z]; [1%Z]; [8%Z]].
Proof.
  exists [zev (-2)%Z 0%Z; zev 4%Z 1%Z; zev 8%Z (-1)%Z]. split; [apply rotate_reorders|]. split; [|split; vm_compute; reflexivity].
  intros i j a b w Ha Hb. destruct i as [|[|[|i]]]; destruct j as [|[|[|j]]]; cbn in Ha, Hb; try discriminate; try reflexivity;
      try (destruct i; discriminate); try (destruct j; discriminate); injection Ha as <-; injection Hb as <-; cbn; intros H1 H2 H3;
      injection H1 as <-; injection H2 as H2; exfalso; discriminate.
Qed.
Print Assumptions C68_ties_refuted.

(** ... seeds in the order of the events (strategy [Next]), ... *)
Theorem C68_next_refuted : exists evs, negative_weights_differ evs /\ distances_differ zev_dist evs /\
  z_run Next lib_no_unweight (fun l => l) evs = @Wrote ZN Empty_set [[6%Z]; [0%Z]; [0%Z]] /\
  z_run Next lib_no_unweight rotate evs = @Wrote ZN Empty_set [[1%Z]; [4%Z]; [1%Z]].
Proof.
  exists [zev (-2)%Z 0%Z; zev (-6)%Z 3%Z; zev 14%Z 1%Z]. split; [|split; [|split; vm_compute; reflexivity]].
  - intros i j a b w Ha Hb. destruct i as [|[|[|i]]]; destruct j as [|[|[|j]]]; cbn in Ha, Hb; try discriminate; try reflexivity;
      try (destruct i; discriminate); try (destruct j; discriminate); injection Ha as <-; injection Hb as <-; cbn; intros H1 H2 H3;
      injection H1 as <-; injection H2 as H2; exfalso; discriminate.
  - intros q i j a b c Hi Hj Hq Hb Hc.
    destruct q as [|[|[|q]]]; destruct i as [|[|[|i]]]; destruct j as [|[|[|j]]]; cbn in Hq, Hb, Hc; try congruence;
      try (destruct q; discriminate); try (destruct i; discriminate); try (destruct j; discriminate);
      injection Hq as <-; injection Hb as <-; injection Hc as <-; cbn; discriminate.
Qed.
Print Assumptions C68_next_refuted.

(** ... or unweighting: the same random numbers are used for different events. *)
Definition z_unweight : list (Event ZN) -> option (list (Event ZN) + Empty_set) :=
  lib_unweight (N := ZN) (fun l => fold_right Z.add 0%Z l) 4%Z (fun k => if k =? 0 then 1%Z else 3%Z).
Theorem C68_unweight_refuted : exists evs, negative_weights_differ evs /\ distances_differ zev_dist evs /\
  z_run MostNegative z_unweight (fun l => l) evs = @Wrote ZN Empty_set [[4%Z]; [0%Z]] /\
  z_run MostNegative z_unweight rotate evs = @Wrote ZN Empty_set [[0%Z]; [4%Z]].
Proof.
  exists [zev 2%Z 0%Z; zev 2%Z 3%Z]. split; [|split; [|split; vm_compute; reflexivity]].
  - intros i j a b w Ha Hb. destruct i as [|[|i]]; destruct j as [|[|j]]; cbn in Ha, Hb; try discriminate; try reflexivity;
      try (destruct i; discriminate); try (destruct j; discriminate); injection Ha as <-; injection Hb as <-; cbn; intros H1 H2 H3;
      injection H1 as <-; exfalso; discriminate.
  - intros q i j a b c Hi Hj Hq Hb Hc. destruct q as [|[|q]]; destruct i as [|[|i]]; destruct j as [|[|j]]; cbn in Hq, Hb, Hc; try congruence;
      try (destruct q; discriminate); try (destruct i; discriminate); try (destruct j; discriminate).
Qed.
Print Assumptions C68_unweight_refuted.
