(** Lemmas about [ModelThreads]: the schedules of [threads_run] and the executions of [ModelConc]
    are the same. *)
From Coq Require Import Reals Lra.
From Verif Require Import Base BaseProofs Num ModelEvent ModelCell ModelSeeds ModelResampler ModelConc
  SpecWeights SpecSearch SpecConc SumProofs CellProofs RunProofs SeedsProofs RunProofs2 ConcProofs ConcProofs2 PropsConc ModelCres SpecPanic SpecLocal LocalProofs PropsLocal2 ModelThreads.
Set Implicit Arguments.
Unset Strict Implicit.

Section Sched.
Context (N : NumOps) (mw : bool) (nearest : search N).
Implicit Types s : cstate N.

Lemma first_step_sound s l s' : first_step mw nearest s l = Some s' -> conc_step mw nearest s s'.
Proof.
  induction l as [|[t c] l IH]; cbn [first_step]; [discriminate|].
  destruct (thread_step mw nearest s t c) as [x|] eqn:E; [|exact IH]. intros H. injection H as <-. exists t, c. exact E.
Qed.
Lemma first_step_none s l : first_step mw nearest s l = None -> forall t c, In (t, c) l -> thread_step mw nearest s t c = None.
Proof.
  induction l as [|[t c] l IH]; cbn [first_step]; [intros _ ? ? []|].
  destruct (thread_step mw nearest s t c) as [x|] eqn:E; [discriminate|]. intros H t' c' [X|X]; [injection X as <- <-; exact E|auto].
Qed.
Lemma step_in_range s t c s' : thread_step mw nearest s t c = Some s' -> exists c', In (t, c') (all_steps s) /\ thread_step mw nearest s t c' = Some s'.
Proof.
  intros H. assert (Ht : t < length (threads s)).
  { unfold thread_step in H. destruct (nth_error (threads s) t) eqn:E; [|discriminate]. apply nth_error_Some. congruence. }
  assert (G : forall c', c' <= length (pool s) -> In (t, c') (all_steps s)).
  { intros c' Hc. unfold all_steps. apply in_prod; apply in_seq; lia. }
  destruct (Nat.le_gt_cases c (length (pool s))) as [Hc|Hc]; [exists c; auto|].
  exists 0. split; [apply G; lia|]. unfold thread_step in *. destruct (nth_error (threads s) t) as [[| | | | |]|]; try exact H.
  rewrite (proj2 (nth_error_None (pool s) c)) in H by lia. discriminate.
Qed.
Lemma sched_step_none s w : sched_step mw nearest s w = None -> forall s', ~ conc_step mw nearest s s'.
Proof.
  intros H s' (t & c & E). destruct (step_in_range E) as (c' & Hin & E').
  rewrite (first_step_none H (or_intror Hin)) in E'. discriminate.
Qed.
Lemma done_stuck s : done s -> forall s', ~ conc_step mw nearest s s'.
Proof.
  intros [Hp Ht] s' (t & c & E). unfold thread_step in E. destruct (nth_error (threads s) t) as [x|] eqn:Ex; [|discriminate].
  rewrite (Ht x (nth_error_In _ _ Ex)), Hp in E. destruct c; discriminate.
Qed.
Lemma finished_done s : finished s = true <-> done s.
Proof.
  unfold finished, done. destruct (pool s); [|split; [discriminate|intros [? _]; discriminate]]. rewrite forallb_forall. split.
  - intros H. split; [reflexivity|]. intros x Hx. specialize (H x Hx). destruct x; try discriminate. reflexivity.
  - intros [_ H] x Hx. rewrite (H x Hx). reflexivity.
Qed.

Lemma threads_run_steps sched fuel : forall i k s0 s, conc_steps mw nearest k s0 s ->
  exists k', conc_steps mw nearest k' s0 (threads_run mw nearest sched fuel i s) /\
    (k' = k + fuel \/ forall s', ~ conc_step mw nearest (threads_run mw nearest sched fuel i s) s').
Proof.
  induction fuel as [|fuel IH]; intros i k s0 s H; cbn [threads_run].
  - exists k. split; [exact H|]. left. lia.
  - destruct (sched_step mw nearest s (sched i)) as [s1|] eqn:E.
    + destruct (IH (S i) (S k) s0 s1) as (k' & A & B).
      { econstructor; [exact H|]. exact (first_step_sound E). }
      exists k'. split; [exact A|]. destruct B as [B|B]; [left; lia|right; exact B].
    + exists k. split; [exact H|]. right. exact (sched_step_none E).
Qed.

Lemma steps_schedule k s0 s : conc_steps mw nearest k s0 s -> exists l, length l = k /\ run_schedule mw nearest l s0 = Some s.
Proof.
  induction 1 as [s|k s s' s'' _ (l & Hl & IH) (t & c & E)]; [exists []; auto|].
  exists (l ++ [(t, c)]). split; [rewrite app_length; cbn; lia|]. clear Hl. revert s IH.
  induction l as [|[t' c'] l IHl]; intros s IH; cbn [run_schedule app] in *; [injection IH as ->; rewrite E; reflexivity|].
  destruct (thread_step mw nearest s t' c') as [s1|]; [|discriminate]. auto.
Qed.

Lemma threads_run_schedule sched : forall l i fuel s s', (forall j, j < length l -> sched (i + j) = nth j l (0, 0)) ->
  run_schedule mw nearest l s = Some s' -> length l <= fuel -> (forall s'', ~ conc_step mw nearest s' s'') ->
  threads_run mw nearest sched fuel i s = s'.
Proof.
  induction l as [|[t c] l IH]; intros i fuel s s' Hs H Hf Hd; cbn [run_schedule] in H.
  - injection H as <-. destruct fuel as [|fuel]; [reflexivity|]. cbn [threads_run].
    destruct (sched_step mw nearest s (sched i)) as [s1|] eqn:E; [|reflexivity]. exfalso. exact (Hd s1 (first_step_sound E)).
  - destruct (thread_step mw nearest s t c) as [s1|] eqn:E; [|discriminate]. cbn [length] in *. destruct fuel as [|fuel]; [lia|]. cbn [threads_run].
    assert (Q : sched i = (t, c)) by (rewrite <- (Nat.add_0_r i); apply (Hs 0); lia).
    unfold sched_step. rewrite Q. cbn [first_step]. rewrite E. apply IH; auto; [|lia].
    intros j Hj. replace (S i + j) with (i + S j) by lia. apply (Hs (S j)). lia.
Qed.
End Sched.

Section Run.
Context (N : NumOps) (mw : bool) (nw : nat) (nearest : search N) (ws0 : list (list N)) (seeds : list nat) (nthreads : nat).
Hypothesis Hv : valid_search (length ws0) nearest.
Hypothesis Hs : shaped mw nw ws0.
Hypothesis Hin : forall i, In i seeds -> i < length ws0.
Notation bound := (length seeds * (11 + 4 * length ws0)).

Lemma threads_run_done sched : 0 < nthreads ->
  exists k, conc_steps mw nearest k (conc_init nthreads seeds ws0) (threads_run mw nearest sched bound 0 (conc_init nthreads seeds ws0)) /\
    done (threads_run mw nearest sched bound 0 (conc_init nthreads seeds ws0)).
Proof.
  intros Hn. destruct (threads_run_steps sched bound 0 (steps_refl N mw nearest (conc_init nthreads seeds ws0))) as (k & Hk & Hb).
  exists k. split; [exact Hk|]. 
  destruct (C06_no_deadlock N mw nw nearest ws0 seeds nthreads k _ Hv Hs Hin Hn Hk) as [X|(s' & X)]; [exact X|]. exfalso.
  destruct Hb as [Hb|Hb]; [|exact (Hb s' X)].
  assert (Y : conc_steps mw nearest (S k) (conc_init nthreads seeds ws0) s') by (econstructor; eassumption).
  pose proof (C06_terminates N mw nw nearest ws0 seeds Hv Hs Hin nthreads (S k) s' Y). lia.
Qed.

Lemma execution_scheduled k s : conc_steps mw nearest k (conc_init nthreads seeds ws0) s -> done s ->
  exists sched, threads_run mw nearest sched bound 0 (conc_init nthreads seeds ws0) = s.
Proof.
  intros Hk Hd. destruct (steps_schedule Hk) as (l & Hl & Hr). exists (fun j => nth j l (0, 0)).
  apply threads_run_schedule with (l := l); auto.
  - rewrite Hl. exact (C06_terminates N mw nw nearest ws0 seeds Hv Hs Hin nthreads k s Hk).
  - apply done_stuck. exact Hd.
Qed.
End Run.

(** *** The resampler *)
Section Resampler.
Context (N : NumOps) (Err : Type) (D : N -> Prop) (mw : bool) (nw : nat) (sort : sorter) (strategy : Strategy) (algo : search_algo N)
  (dist : Event N -> Event N -> N) (max : N) (evs : list (Event N)).
Notation ws := (map ev_weights evs).
Notation nearest := (algo (length evs) (dist_wrapper dist evs) max).
Hypothesis Hsort : sort_ok sort.
Hypothesis HD : order_on N D.
Hypothesis Hkind : forall e w, In e evs -> ev_weight e = Some w -> D w.
Hypothesis Hs : shaped mw nw ws.
Hypothesis Hv : valid_search (length evs) nearest.

Lemma threads_seeds : exists seeds, select_seeds sort strategy ws = Some seeds /\ forall i, In i seeds -> i < length ws.
Proof.
  destruct (proj2 (select_seeds_some sort strategy ws)) as [seeds E].
  { destruct Hs as (H0 & _ & H2). eapply Forall_impl; [|exact H2]. intros w Hw ->. cbn in Hw. lia. }
  exists seeds. split; [exact E|]. eapply select_seeds_lt; eauto.
  intros i w Hw. apply weight_at_spec in Hw. destruct Hw as [v Hw]. apply nth_error_In in Hw. apply in_map_iff in Hw. destruct Hw as (e & Ew & He).
  apply (Hkind He). unfold ev_weight. rewrite Ew. reflexivity.
Qed.

Lemma threads_resample_execution nthreads sched : 0 < nthreads ->
  exists seeds k s, select_seeds sort strategy ws = Some seeds /\ (forall i, In i seeds -> i < length ws) /\
    conc_steps mw nearest k (conc_init nthreads seeds ws) s /\ done s /\
    s = threads_run mw nearest sched (length seeds * (11 + 4 * length ws)) 0 (conc_init nthreads seeds ws) /\
    threads_resample (Err := Err) nthreads sched mw sort strategy algo dist max evs = Some (inl (with_weights evs (mem s))).
Proof.
  intros Hn. destruct threads_seeds as (seeds & E & Hlt). 
  assert (Hv' : valid_search (length ws) nearest) by (rewrite map_length; exact Hv).
  destruct (threads_run_done Hv' Hs Hlt sched Hn) as (k & Hk & Hd).
  exists seeds, k, (threads_run mw nearest sched (length seeds * (11 + 4 * length ws)) 0 (conc_init nthreads seeds ws)).
  repeat (split; [assumption || reflexivity|]). unfold threads_resample. rewrite E. cbv zeta.
  rewrite (proj2 (finished_done _) Hd). reflexivity.
Qed.
End Resampler.

Lemma steps_length (N : NumOps) mw nw (nearest : search N) (ws0 : list (list N)) seeds nthreads k s :
  valid_search (length ws0) nearest -> shaped mw nw ws0 -> (forall i, In i seeds -> i < length ws0) ->
  conc_steps mw nearest k (conc_init nthreads seeds ws0) s -> length (mem s) = length ws0 /\ shaped mw nw (mem s).
Proof.
  intros H1 H2 H3 H. pose proof (inv_of H1 H2 H3 H) as HI. split; [apply (inv_len HI)|apply (inv_shaped HI)].
Qed.

Lemma threads_resample_facts (Err : Type) mw nw sort strategy (algo : search_algo RN) dist max nthreads sched (l l' : list (Event RN)) :
  sort_ok sort -> 0 < nthreads -> valid_search (length l) (algo (length l) (dist_wrapper dist l) max) -> shaped mw nw (map ev_weights l) ->
  threads_resample (Err := Err) nthreads sched mw sort strategy algo dist max l = Some (inl l') ->
  map ev_id l' = map ev_id l /\ map ev_out l' = map ev_out l /\ shaped mw nw (map ev_weights l') /\
  forall k, total (map ev_weights l') k = total (map ev_weights l) k.
Proof.
  intros Hsort Hn Hv Hs H.
  destruct (threads_resample_execution Err strategy Hsort RN_order (fun _ _ _ _ => I) Hs Hv sched Hn) as (seeds & k & s & _ & Hlt & Hk & Hd & _ & E).
  rewrite E in H. injection H as <-.
  assert (Hv' : valid_search (length (map ev_weights l)) (algo (length l) (dist_wrapper dist l) max)) by (rewrite map_length; exact Hv).
  destruct (steps_length Hv' Hs Hlt Hk) as [Hlen Hsh]. rewrite map_length in Hlen.
  destruct (with_weights_spec _ _ Hlen) as (-> & -> & ->). repeat split; auto; try apply Hsh.
  intros j. apply (C05_total mw nw _ (map ev_weights l) seeds nthreads k s Hv' Hs Hlt Hk (done_quiescent Hd)).
Qed.

Lemma threads_total (N : NumOps) Err (kind : N -> Prop) mw sort strategy (algo : search_algo N) dist max nthreads sched : sort_ok sort -> order_on N kind -> 0 < nthreads ->
  (forall evs, valid_search (length evs) (algo (length evs) (dist_wrapper dist evs) max)) ->
  total_step (Err := Err) kind (threads_resample nthreads sched mw sort strategy algo dist max).
Proof.
  intros Hsort Ho Hn Hv evs Hw Hnd.
  assert (Hs : shaped mw 1 (map ev_weights evs)).
  { split; [lia|]. split; [auto|]. apply Forall_map. eapply Forall_impl; [|exact Hw]. intros e (w & -> & _). reflexivity. }
  destruct (@threads_resample_execution N Err kind mw 1 sort strategy algo dist max evs Hsort Ho) with (nthreads := nthreads) (sched := sched) as (seeds & k & s & _ & Hlt & Hk & Hd & _ & E); auto.
  { rewrite Forall_forall in Hw. intros e w He. destruct (Hw e He) as (w' & Hw' & K). unfold ev_weight. rewrite Hw'. intros X. injection X as <-. exact K. }
  exists (with_weights evs (mem s)). split; [exact E|].
  assert (Hv' : valid_search (length (map ev_weights evs)) (algo (length evs) (dist_wrapper dist evs) max)) by (rewrite map_length; apply Hv).
  destruct (steps_length Hv' Hs Hlt Hk) as [Hlen (_ & _ & Hsh)]. rewrite map_length in Hlen.
  destruct (with_weights_spec _ _ Hlen) as (E1 & -> & _). split; [|split; [exact Hnd|apply incl_refl]].
  rewrite <- E1 in Hsh. apply Forall_map in Hsh. eapply Forall_impl; [|exact Hsh].
  intros e He. cbn beta in He. destruct (ev_weights e) as [|w [|? ?]]; try discriminate. eauto.
Qed.

Local Open Scope R_scope.
Lemma threads_observable Err f eps mw nw sort strategy (algo : search_algo RN) (dist : Event RN -> Event RN -> R) (max : R) nthreads sched (evs evs' : list (Event RN)) k :
  sort_ok sort -> (0 < nthreads)%nat -> shaped mw nw (map ev_weights evs) -> 0 <= eps ->
  valid_search (length evs) (algo (length evs) (dist_wrapper dist evs) max) ->
  limited_search (length evs) (dist_wrapper dist evs) max (algo (length evs) (dist_wrapper dist evs) max) ->
  (forall i j ei ej, nth_error evs i = Some ei -> nth_error evs j = Some ej -> dist ei ej <= max -> Rabs (f j - f i) <= eps) ->
  threads_resample (Err := Err) nthreads sched mw sort strategy algo dist max evs = Some (inl evs') ->
  Rabs (observable f (map ev_weights evs') k - observable f (map ev_weights evs) k)
    <= 2 * eps * INR (nnegative (map ev_weights evs)) * total_abs (map ev_weights evs) k.
Proof.
  intros Hsort Hn Hs He Hv Hl Hf H.
  destruct (threads_resample_execution Err strategy Hsort RN_order (fun _ _ _ _ => I) Hs Hv sched Hn) as (seeds & n & s & Es & Hlt & Hk & Hd & _ & E).
  rewrite E in H. injection H as <-.
  assert (Hv' : valid_search (length (map ev_weights evs)) (algo (length evs) (dist_wrapper dist evs) max)) by (rewrite map_length; exact Hv).
  destruct (steps_length Hv' Hs Hlt Hk) as [Hlen _]. rewrite map_length in Hlen. destruct (with_weights_spec _ _ Hlen) as (-> & _).
  rewrite <- (seeds_length mw nw sort strategy _ seeds Hsort Hs Es).
  apply (C75_any_schedule f eps mw nw (algo (length evs) (dist_wrapper dist evs) max) (dist_wrapper dist evs) max (map ev_weights evs) seeds nthreads n s k); auto.
  - rewrite map_length. exact Hl.
  - rewrite map_length. intros i j Hi Hj Hdd. unfold dist_wrapper in Hdd.
    destruct (nth_error evs i) as [ei|] eqn:Ei; [|apply nth_error_None in Ei; lia].
    destruct (nth_error evs j) as [ej|] eqn:Ej; [|apply nth_error_None in Ej; lia]. eapply Hf; eauto.
  - apply done_quiescent. exact Hd.
Qed.
Local Open Scope nat_scope.

(** *** One thread that takes the first remaining seed *)
Lemma run_in_order (N : NumOps) mw nw (nearest : search N) (ws0 : list (list N)) seeds :
  valid_search (length ws0) nearest -> shaped mw nw ws0 -> (forall i, In i seeds -> i < length ws0) -> forall fuel,
  exists m, run_schedule mw nearest (repeat (0, 0) m) (conc_init 1 seeds ws0) = Some (threads_run mw nearest (fun _ => (0, 0)) fuel 0 (conc_init 1 seeds ws0)).
Proof.
  intros Hv Hs Hlt fuel.
  assert (G : forall fuel i k s, conc_steps mw nearest k (conc_init 1 seeds ws0) s ->
    exists m, run_schedule mw nearest (repeat (0, 0) m) s = Some (threads_run mw nearest (fun _ => (0, 0)) fuel i s)).
  { clear fuel. induction fuel as [|fuel IH]; intros i k s Hk; [exists 0; reflexivity|]. cbn [threads_run].
    destruct (sched_step mw nearest s (0, 0)) as [s'|] eqn:E; [|exists 0; reflexivity].
    assert (E0 : thread_step mw nearest s 0 0 = Some s').
    { unfold sched_step in E. cbn [first_step] in E. destruct (thread_step mw nearest s 0 0) as [x|] eqn:E0; [exact E|]. exfalso.
      destruct (first_step_sound E) as (t & c & Et). pose proof (threads_length Hk) as Hl. cbn in Hl.
      assert (t = 0) as ->.
      { unfold thread_step in Et. destruct (nth_error (threads s) t) eqn:X; [|discriminate]. assert (t < length (threads s)) by (apply nth_error_Some; congruence). lia. }
      pose proof (inv_of Hv Hs Hlt Hk) as HI.
      unfold thread_step in E0, Et. destruct (nth_error (threads s) 0) as [x|] eqn:Ex; [|discriminate]. destruct x; try congruence.
      destruct (pool s) as [|seed p] eqn:Ep; [destruct c; discriminate|]. cbn [nth_error] in E0.
      assert (Q : length (mem s) <=? seed = false) by (apply Nat.leb_gt; rewrite (inv_len HI); apply Hlt, (inv_pool HI); rewrite Ep; left; reflexivity).
      rewrite Q in E0. destruct (@go_some _ s 0 _ (mem s) (remove_nth 0 (seed :: p)) (TCheck seed) Ex) as [s2 Hs2]. congruence. }
    destruct (IH (S i) (S k) s') as (m & Hm); [econstructor; [exact Hk|exists 0, 0; exact E0]|].
    exists (S m). cbn [repeat run_schedule]. rewrite E0. exact Hm. }
  apply (G fuel 0 0). constructor.
Qed.
