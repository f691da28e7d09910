(** When the schedule of the threads does not matter (C69, C08). *)
From Coq Require Import Reals Lra ZArith SpecFloat Permutation.
From Verif Require Import Base BaseProofs Num ModelEvent ModelCell ModelSeeds ModelNaive ModelResampler ModelConc
  SpecWeights SpecSearch SpecConc SpecSchedule RunProofs RunProofs2 ConcProofs ConcProofs2 ConcProofs3 PropsConc PropsRun TextExamples.

(** C69: if the cells around different seeds, built with the initial weights, have no event in
    common, then every schedule of any number of threads ends with the weights that one thread
    obtains by treating the seeds one after the other, in whatever order (any arithmetic). *)
Theorem C69_any_schedule : forall (N : NumOps) mw nw (nearest : search N) (ws0 : list (list N)) seeds nthreads k s order,
  valid_search (length ws0) nearest -> shaped mw nw ws0 -> NoDup seeds -> seeds_not_positive ws0 seeds ->
  cells_apart nearest ws0 seeds ->
  conc_steps mw nearest k (conc_init nthreads seeds ws0) s -> done s -> Permutation order seeds ->
  exists cells, resample_seeds mw nearest order ws0 = Some (mem s, cells).
Proof. intros. eapply apart_sequential; eauto. Qed.
Print Assumptions C69_any_schedule.

(** These weights are: the mean of the initial weights in each of the cells, the initial weight
    outside of all cells. *)
Theorem C69_weights : forall (N : NumOps) mw nw (nearest : search N) (ws0 : list (list N)) seeds nthreads k s,
  valid_search (length ws0) nearest -> shaped mw nw ws0 -> NoDup seeds -> seeds_not_positive ws0 seeds ->
  cells_apart nearest ws0 seeds ->
  conc_steps mw nearest k (conc_init nthreads seeds ws0) s -> done s ->
  (forall seed, In seed seeds -> exists c V, own_cell nearest ws0 seed c /\ cell_resample mw ws0 c = Some V /\
     forall i, In i (members c) -> nth_error (mem s) i = nth_error V i) /\
  (forall i, (forall seed c, In seed seeds -> own_cell nearest ws0 seed c -> ~ In i (members c)) ->
     nth_error (mem s) i = nth_error ws0 i).
Proof. intros. eapply apart_cells; eauto. Qed.
Print Assumptions C69_weights.

(** Two runs with different numbers of threads, schedules and orders of the seeds end with the
    same weights, bit for bit. *)
Theorem C69_same : forall (N : NumOps) mw nw (nearest : search N) (ws0 : list (list N)) seeds seeds' nthreads nthreads' k k' s s',
  valid_search (length ws0) nearest -> shaped mw nw ws0 -> NoDup seeds -> seeds_not_positive ws0 seeds ->
  cells_apart nearest ws0 seeds -> Permutation seeds seeds' ->
  conc_steps mw nearest k (conc_init nthreads seeds ws0) s -> done s ->
  conc_steps mw nearest k' (conc_init nthreads' seeds' ws0) s' -> done s' ->
  mem s = mem s'.
Proof.
  intros N mw nw nearest ws0 seeds seeds' nthreads nthreads' k k' s s' H1 H2 H3 H4 H5 Hp E Hd E' Hd'.
  assert (Hin : forall x, In x seeds' -> In x seeds) by (intros x; apply Permutation_in, Permutation_sym; exact Hp).
  destruct (C69_any_schedule N mw nw nearest ws0 seeds nthreads k s seeds H1 H2 H3 H4 H5 E Hd (Permutation_refl _)) as [c Hc].
  destruct (C69_any_schedule N mw nw nearest ws0 seeds' nthreads' k' s' seeds H1 H2) as [c' Hc']; auto.
  - eapply Permutation_NoDup; eauto.
  - intros x Hx. auto.
  - intros a b ca cb i Ha Hb. apply H5; auto.
  - congruence.
Qed.
Print Assumptions C69_same.

(** The seeds selected by the library are different and not positive. *)
Theorem C69_selected : forall (N : NumOps) sort (D : N -> Prop) strategy (ws : list (list N)) seeds,
  sort_ok sort -> order_on N D -> D n0 -> (forall i w, central_weight ws i w -> D w) ->
  select_seeds sort strategy ws = Some seeds -> NoDup seeds /\ seeds_not_positive ws seeds.
Proof.
  intros N sort D strategy ws seeds Hs Ho H0 HD H.
  destruct (C12_select_seeds N sort D strategy ws seeds Hs Ho HD H) as (Hn & Hi & _). split; [exact Hn|].
  intros i Hin. apply Hi in Hin. destruct Hin as (w & Hw & Hlt). pose proof (HD _ _ Hw) as Dw. destruct Hw as [others E].
  exists w, others. split; [exact E|]. destruct Ho as [[Ht _] Hl]. rewrite Hl in * by auto.
  apply negb_true_iff in Hlt. destruct (Ht n0 w) as [E1|E1]; auto; [congruence|]. rewrite E1. reflexivity.
Qed.
Print Assumptions C69_selected.

(** C08 for many threads: no negative weight is left if cells do not overlap. *)
Theorem C08_apart_no_negative_partial : forall mw nw (nearest : search RN) (ws0 : list (list R)) seeds nthreads k (s : cstate RN),
  complete_search (length ws0) nearest -> shaped mw nw ws0 -> NoDup seeds -> seeds_not_positive (N := RN) ws0 seeds ->
  cells_apart nearest (ws0 : weights_state RN) seeds ->
  (0 <= total ws0 0)%R -> (forall i, i < length ws0 -> (comp ws0 i 0 < 0)%R -> In i seeds) ->
  conc_steps mw nearest k (conc_init nthreads seeds (ws0 : weights_state RN)) s -> done s ->
  forall i, i < length ws0 -> (0 <= comp (mem s) i 0)%R.
Proof.
  intros mw nw nearest ws0 seeds nthreads k s H1 H2 H3 H4 H5 Ht Hneg H Hd i Hi.
  destruct (C69_any_schedule RN mw nw nearest ws0 seeds nthreads k s seeds (complete_valid H1) H2 H3 H4 H5 H Hd (Permutation_refl _)) as [cells Hr].
  refine (@no_negative_survives mw nw nearest seeds ws0 (mem s) cells H2 H1 Ht Hneg Hr i _).
  rewrite (resample_seeds_length _ _ _ _ Hr). exact Hi.
Qed.
Print Assumptions C08_apart_no_negative_partial.

(** Four events at 0, 1, 10, 11 with weights -1, 3, -2, 6: two cells; the two threads take turns. *)
Definition apart_dist (i j : nat) : ZN := let pos := [0; 1; 10; 11]%Z in Z.abs (nth i pos 0 - nth j pos 0)%Z.
Definition apart_weights : list (list ZN) := [[-1]; [3]; [-2]; [6]]%Z.
Definition apart_search : search ZN := naive_nearest first_min 4 apart_dist 100%Z.
Definition apart_schedule : list (nat * nat) := (1, 1) :: concat (repeat [(0, 0); (1, 0)] 9) ++ [(0, 0)].

Example C69_case : valid_search 4 apart_search /\ shaped false 1 apart_weights /\ NoDup [0; 2] /\
  seeds_not_positive apart_weights [0; 2] /\ cells_apart apart_search apart_weights [0; 2] /\
  exists k s, conc_steps false apart_search k (conc_init 2 [0; 2] apart_weights) s /\ done s /\
    mem s = [[1]; [1]; [2]; [2]]%Z.
Proof.
  assert (Hv : valid_search 4 apart_search).
  { intros seed Hs. do 4 (destruct seed as [|seed]; [eexists; split; [vm_compute; reflexivity|]; split;
      [repeat constructor; cbn; lia|intros i Hi; cbn in Hi; lia]|]). lia. }
  split; [exact Hv|]. split; [split; [lia|split; [reflexivity|repeat constructor]]|].
  split; [repeat constructor; cbn; lia|]. split; [|split].
  - intros s [<-|[<-|[]]]; eexists _, _; split; reflexivity.
  - intros s s' c c' i Hs Hs' Hne (nb & E & F) (nb' & E' & F').
    destruct Hs as [<-|[<-|[]]]; destruct Hs' as [<-|[<-|[]]]; try congruence;
      vm_compute in E; injection E as <-; vm_compute in E'; injection E' as <-; vm_compute in F; injection F as <-;
      vm_compute in F'; injection F' as <-; cbn; lia.
  - assert (E : exists s, run_schedule false apart_search apart_schedule (conc_init 2 [0; 2] apart_weights) = Some s /\
      done s /\ mem s = [[1]; [1]; [2]; [2]]%Z).
    { eexists. split; [vm_compute; reflexivity|]. split; [split; [reflexivity|]|reflexivity].
      cbn. intros t [<-|[<-|[]]]; reflexivity. }
    destruct E as (s & E & Hd & Hm). destruct (schedule_steps _ _ _ _ _ _ E) as [k Hk]. exists k, s. auto.
Qed.

(** In general the result depends on the schedule: in the situation of [C08_refuted] two threads
    leave other weights than one thread. *)
Definition race_sequential : cstate B64 :=
  Eval vm_compute in
    match run_schedule false race_search (repeat (0, 0) 26) (conc_init 2 [0; 2] race_weights) with
    | Some s => s | None => conc_init 0 [] [] end.
Lemma race_sequential_run : run_schedule false race_search (repeat (0, 0) 26) (conc_init 2 [0; 2] race_weights) = Some race_sequential.
Proof. vmr. Qed.

Theorem C69_refuted : exists (ws : list (list B64)) (nearest : search B64) seeds k k' s s',
  complete_search (length ws) nearest /\ shaped false 1 ws /\ select_seeds isort MostNegative ws = Some seeds /\
  conc_steps false nearest k (conc_init 2 seeds ws) s /\ done s /\
  conc_steps false nearest k' (conc_init 2 seeds ws) s' /\ done s' /\ mem s <> mem s'.
Proof.
  destruct (@schedule_steps B64 _ _ _ _ _ race_run) as [k Hk].
  destruct (@schedule_steps B64 _ _ _ _ _ race_sequential_run) as [k' Hk'].
  exists race_weights, race_search, [0; 2], k, k', race_final, race_sequential.
  split; [exact race_complete|].
  split; [split; [lia|split; [reflexivity|repeat constructor]]|].
  split; [vmr|]. split; [exact Hk|].
  split; [split; [reflexivity|]; intros t [<-|[<-|[]]]; reflexivity|]. split; [exact Hk'|].
  split; [split; [reflexivity|]; intros t [<-|[<-|[]]]; reflexivity|]. discriminate.
Qed.
Print Assumptions C69_refuted.
