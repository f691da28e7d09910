(** C97 with several threads. *)
From Coq Require Import NArith ZArith Reals Lra Permutation.
From Verif Require Import Base BaseProofs Num ModelEvent ModelCell ModelSeeds ModelNaive ModelVPTree ModelDistance ModelResampler ModelConc ModelThreads SpecWeights SpecSearch SpecTree SpecEvent SpecDistance SpecOrder SpecRegion SpecConc
  NaiveProofs CellProofs RunProofs SeedsProofs OrderProofs SeparatedProofs TextExamples ProgramProofs ThreadsProofs PropsConc PropsNaive PropsRun PropsOrder PropsSymmetry PropsThreads RegionProofs RegionProofs2 RegionThreads PropsRegion.
From Coq Require Import Lia List.
Import ListNotations.

Lemma answers_valid (N : NumOps) n d (max : N) near : answers n d max near -> valid_search n near.
Proof.
  intros H q Hq. destruct (H q Hq) as (l & E & L1 & L2 & _). exists l. split; [exact E|]. split; [exact L1|]. intros i Hi. apply L2 in Hi. tauto.
Qed.

(** With any number of threads: whatever the schedule of the run on the whole sample is, the run on an isolated part alone gives the
    events of the part the same weights for some schedule.  So the rest of the sample adds no outcome to those of the part. *)
Theorem C97_threads : forall (N : NumOps) Err (D : N -> Prop) nthreads sched mw nw sort strategy (algo algo' : search_algo N) dist max (inside : Event N -> bool) (evs r : list (Event N)),
  0 < nthreads -> sort_ok sort -> order_on N D -> (forall e w, In e evs -> In w (ev_weights e) -> D w) -> shaped mw nw (map ev_weights evs) ->
  (forall e w, inside (mkEvent (ev_id e) w (ev_out e)) = inside e) ->
  isolated inside dist max evs -> no_ties dist evs -> (strategy = Next \/ no_equal_negative evs) ->
  let evs' := filter inside evs in
  answers (length evs) (dist_wrapper dist evs) max (algo (length evs) (dist_wrapper dist evs) max) ->
  answers (length evs') (dist_wrapper dist evs') max (algo' (length evs') (dist_wrapper dist evs') max) ->
  threads_resample (Err := Err) nthreads sched mw sort strategy algo dist max evs = Some (inl r) ->
  exists sched', threads_resample (Err := Err) nthreads sched' mw sort strategy algo' dist max evs' = Some (inl (filter inside r)).
Proof.
  intros N Err D nthreads sched mw nw sort strategy algo algo' dist max inside evs r Hn Hsort Hord HD Hshape Hig Hiso Hties Hneg evs' Ha Ha' H.
  destruct (embed (map inside evs)) as (f & Hf & Hemb & Hsurj). pose proof (Hemb _ inside evs eq_refl) as He.
  set (isin := fun t => match nth_error evs t with Some e => inside e | None => false end).
  assert (Hout : forall t, isin t = true -> exists i, f i = t).
  { intros t Ht. apply Hsurj. rewrite nth_error_map. unfold isin in Ht. destruct (nth_error evs t); [cbn; congruence|discriminate]. }
  assert (Hlt : forall i, f i < length evs <-> i < length evs') by (intros i; rewrite <- !nth_error_Some, He; reflexivity).
  assert (Hin : forall i, f i < length evs -> isin (f i) = true).
  { intros i Hi. unfold isin. rewrite He. apply Hlt in Hi. destruct (nth_error (filter inside evs) i) as [e|] eqn:E; [|apply nth_error_None in E; unfold evs' in Hi; lia]. apply nth_error_In, filter_In in E. apply E. }
  assert (Hw : part N f (map ev_weights evs') (map ev_weights evs)) by (intros i; rewrite !nth_error_map, He; reflexivity).
  assert (HDe : forall e w, In e evs -> ev_weight e = Some w -> D w).
  { intros e w He1 Ew. apply (HD e w He1). unfold ev_weight, central in Ew. destruct (ev_weights e); [discriminate|]. injection Ew as ->. left. reflexivity. }
  destruct (C76_executions N Err D mw nw sort strategy algo dist max evs nthreads Hsort Hord HDe Hshape (answers_valid _ _ _ _ _ Ha) Hn) as (seeds & Es & Hex & _).
  destruct (Hex sched) as (k & sU & Hk & Hd & Hr). cbv zeta in *. assert (Hr1 : r = with_weights evs (mem sU)) by (rewrite Hr in H; injection H as <-; reflexivity). clear H Hr Hex.
  destruct (region_select N f Hf D sort strategy (map ev_weights evs) (map ev_weights evs') isin seeds Hsort Hord) as (seeds' & Es' & Fs); auto.
  { intros i w (o & E). rewrite nth_error_map in E. destruct (nth_error evs i) as [e|] eqn:Ee; [|discriminate]. injection E as E. apply (HD e); [eapply nth_error_In; exact Ee|rewrite E; left; reflexivity]. }
  { intros i Hi. rewrite map_length in Hi. apply Hin, Hlt, Hi. }
  { destruct Hneg as [->|Hneg]; [left; reflexivity|right]. intros i j v w (o & Ei) (o' & Ej). rewrite nth_error_map in Ei, Ej. destruct (nth_error evs i) as [a|] eqn:Ea; [|discriminate]. destruct (nth_error evs j) as [b|] eqn:Eb; [|discriminate].
    injection Ei as Ei. injection Ej as Ej. apply (Hneg i j a b v w Ea Eb); [rewrite Ei|rewrite Ej]; reflexivity. }
  assert (Hshape' : shaped mw nw (map ev_weights evs')).
  { destruct Hshape as (S1 & S2 & S3). split; [exact S1|]. split; [exact S2|]. unfold uniform in *. rewrite Forall_forall in *. intros w Hw1. apply in_map_iff in Hw1 as (e & <- & He1). apply filter_In in He1 as [He1 _]. apply S3. apply in_map. exact He1. }
  assert (HDe' : forall e w, In e evs' -> ev_weight e = Some w -> D w) by (intros e w He1; apply filter_In in He1 as [He1 _]; apply HDe; exact He1).
  destruct (C76_executions N Err D mw nw sort strategy algo' dist max evs' nthreads Hsort Hord HDe' Hshape' (answers_valid _ _ _ _ _ Ha') Hn) as (seeds2 & Es2 & _ & Hex).
  assert (Eseeds : seeds2 = seeds') by congruence. subst seeds2. clear Es2.
  destruct (sim_steps N f Hf (length evs) isin Hin mw (algo' (length evs') (dist_wrapper dist evs') max) (algo (length evs) (dist_wrapper dist evs) max)) with (k := k)
    (s := conc_init nthreads seeds' (map ev_weights evs')) (s' := conc_init nthreads seeds (map ev_weights evs)) (s1' := sU) as (k1 & sA & Hk1 & Hsim).
  { intros s Hs. pose proof (proj1 (Hlt s) Hs) as Hs'. destruct (Ha (f s) Hs) as (l & E1 & L1). destruct (Ha' s Hs') as (l' & E2 & L2). exists l'. split; [exact E2|]. rewrite E1. f_equal.
    refine (region_nearest N f Hf (length evs) (length evs') (dist_wrapper dist evs) (dist_wrapper dist evs') isin max s l l' Hlt Hout _ Hs' _ _ L1 L2).
    - intros i j Hi Hj. unfold dist_wrapper, evs'. rewrite <- !He. reflexivity.
    - intros i j Hi Hj Hiq Hjq. unfold dist_wrapper, evs'. rewrite <- !He. intros G1 G2. apply Hlt in Hi, Hj.
      destruct (nth_error evs (f i)) as [b|] eqn:Eb; [|apply nth_error_None in Eb; lia]. destruct (nth_error evs (f j)) as [c|] eqn:Ec; [|apply nth_error_None in Ec; lia]. destruct (nth_error evs (f s)) as [a|] eqn:Ea; [|apply nth_error_None in Ea; lia].
      apply (f_eq f Hf). apply (Hties (f s) (f i) (f j) a b c); auto; intros G; apply (f_eq f Hf) in G; congruence.
    - intros t Ht Ho. unfold dist_wrapper. specialize (Hin s Hs). unfold isin in Ho, Hin. destruct (nth_error evs t) as [b|] eqn:Eb; [|apply nth_error_None in Eb; lia]. destruct (nth_error evs (f s)) as [a|] eqn:Ea; [|discriminate].
      apply (Hiso a b); eauto using nth_error_In. }
  { intros t (Ho & Ht) l El. destruct (Ha t Ht) as (l' & E1 & (_ & I1 & _)). rewrite El in E1. injection E1 as <-. apply Forall_forall. intros [i d] Hi. cbn [fst].
    pose proof (proj1 (I1 i) (in_map fst _ _ Hi)) as (Hi1 & _ & Hi3). split; [|exact Hi1]. destruct (isin i) eqn:Ei; [|reflexivity]. exfalso. unfold dist_wrapper in Hi3. unfold isin in Ei, Ho.
    destruct (nth_error evs i) as [a|] eqn:Ea; [|discriminate]. destruct (nth_error evs t) as [b|] eqn:Eb; [|apply nth_error_None in Eb; lia].
    destruct (Hiso a b) as [G _]; eauto using nth_error_In. congruence. }
  { split; [exact Hw|]. split; [apply map_length|]. split; [exact Fs|]. cbn [conc_init threads]. clear. induction nthreads as [|m IH]; cbn [repeat]; constructor; [left; reflexivity|exact IH]. }
  { exact Hk. }
  destruct (Hex k1 sA Hk1 (sim_done _ _ _ _ _ _ Hsim Hd)) as (sched' & E'). exists sched'. etransitivity; [exact E'|]. destruct Hsim as (M1 & M2 & _).
  - subst r. f_equal. f_equal. generalize dependent (mem sU). intros U1 M1 M2. generalize dependent (mem sA). intros A1 _ M1. change (with_weights evs' A1 = filter inside (with_weights evs U1)). assert (LU : length U1 = length evs) by exact M2. pose proof (Hemb _ inside (with_weights evs U1)) as Hr.
    assert (Hc : forall (X Y : Type) (l : list X) (k : list Y) i, nth_error (combine l k) i = match nth_error l i, nth_error k i with Some a, Some b => Some (a, b) | _, _ => None end).
    { clear. intros X Y l. induction l as [|a l IH]; intros [|b k] [|i]; try reflexivity; cbn; [destruct (nth_error l i); reflexivity|apply IH]. }
    apply nth_error_ext. intros i. rewrite <- Hr; [unfold with_weights; rewrite !nth_error_map, !Hc, He, M1; reflexivity|].
    clear -LU Hig. unfold with_weights. revert U1 LU. induction evs as [|e evs IH]; intros [|w U1] LU; try discriminate; [reflexivity|]. cbn [combine map]. rewrite Hig. f_equal. apply IH. injection LU as LU. exact LU.
Qed.
Print Assumptions C97_threads.

(** Conversely, every outcome of the part alone occurs in a run on the whole sample.  So the outcomes for the events of the part are
    exactly those of the part alone. *)
Theorem C97_threads_all : forall (N : NumOps) Err (D : N -> Prop) nthreads sched' mw nw sort strategy (algo algo' : search_algo N) dist max (inside : Event N -> bool) (evs r' : list (Event N)),
  0 < nthreads -> sort_ok sort -> order_on N D -> (forall e w, In e evs -> In w (ev_weights e) -> D w) -> shaped mw nw (map ev_weights evs) ->
  (forall e w, inside (mkEvent (ev_id e) w (ev_out e)) = inside e) ->
  isolated inside dist max evs -> no_ties dist evs -> (strategy = Next \/ no_equal_negative evs) ->
  let evs' := filter inside evs in
  answers (length evs) (dist_wrapper dist evs) max (algo (length evs) (dist_wrapper dist evs) max) ->
  answers (length evs') (dist_wrapper dist evs') max (algo' (length evs') (dist_wrapper dist evs') max) ->
  threads_resample (Err := Err) nthreads sched' mw sort strategy algo' dist max evs' = Some (inl r') ->
  exists sched r, threads_resample (Err := Err) nthreads sched mw sort strategy algo dist max evs = Some (inl r) /\ filter inside r = r'.
Proof.
  intros N Err D nthreads sched' mw nw sort strategy algo algo' dist max inside evs r' Hn Hsort Hord HD Hshape Hig Hiso Hties Hneg evs' Ha Ha' H.
  destruct (embed (map inside evs)) as (f & Hf & Hemb & Hsurj). pose proof (Hemb _ inside evs eq_refl) as He.
  set (isin := fun t => match nth_error evs t with Some e => inside e | None => false end).
  assert (Hout : forall t, isin t = true -> exists i, f i = t).
  { intros t Ht. apply Hsurj. rewrite nth_error_map. unfold isin in Ht. destruct (nth_error evs t); [cbn; congruence|discriminate]. }
  assert (Hlt : forall i, f i < length evs <-> i < length evs') by (intros i; rewrite <- !nth_error_Some, He; reflexivity).
  assert (Hin : forall i, f i < length evs -> isin (f i) = true).
  { intros i Hi. unfold isin. rewrite He. apply Hlt in Hi. destruct (nth_error (filter inside evs) i) as [e|] eqn:E; [|apply nth_error_None in E; unfold evs' in Hi; lia]. apply nth_error_In, filter_In in E. apply E. }
  assert (Hw : part N f (map ev_weights evs') (map ev_weights evs)) by (intros i; rewrite !nth_error_map, He; reflexivity).
  assert (HDe : forall e w, In e evs -> ev_weight e = Some w -> D w).
  { intros e w He1 Ew. apply (HD e w He1). unfold ev_weight, central in Ew. destruct (ev_weights e); [discriminate|]. injection Ew as ->. left. reflexivity. }
  destruct (C76_executions N Err D mw nw sort strategy algo dist max evs nthreads Hsort Hord HDe Hshape (answers_valid _ _ _ _ _ Ha) Hn) as (seeds & Es & _ & HexU).
  destruct (region_select N f Hf D sort strategy (map ev_weights evs) (map ev_weights evs') isin seeds Hsort Hord) as (seeds' & Es' & Fs); auto.
  { intros i w (o & E). rewrite nth_error_map in E. destruct (nth_error evs i) as [e|] eqn:Ee; [|discriminate]. injection E as E. apply (HD e); [eapply nth_error_In; exact Ee|rewrite E; left; reflexivity]. }
  { intros i Hi. rewrite map_length in Hi. apply Hin, Hlt, Hi. }
  { destruct Hneg as [->|Hneg]; [left; reflexivity|right]. intros i j v w (o & Ei) (o' & Ej). rewrite nth_error_map in Ei, Ej. destruct (nth_error evs i) as [a|] eqn:Ea; [|discriminate]. destruct (nth_error evs j) as [b|] eqn:Eb; [|discriminate].
    injection Ei as Ei. injection Ej as Ej. apply (Hneg i j a b v w Ea Eb); [rewrite Ei|rewrite Ej]; reflexivity. }
  assert (Hshape' : shaped mw nw (map ev_weights evs')).
  { destruct Hshape as (S1 & S2 & S3). split; [exact S1|]. split; [exact S2|]. unfold uniform in *. rewrite Forall_forall in *. intros w Hw1. apply in_map_iff in Hw1 as (e & <- & He1). apply filter_In in He1 as [He1 _]. apply S3. apply in_map. exact He1. }
  assert (HDe' : forall e w, In e evs' -> ev_weight e = Some w -> D w) by (intros e w He1; apply filter_In in He1 as [He1 _]; apply HDe; exact He1).
  destruct (C76_executions N Err D mw nw sort strategy algo' dist max evs' nthreads Hsort Hord HDe' Hshape' (answers_valid _ _ _ _ _ Ha') Hn) as (seeds2 & Es2 & Hex & _).
  assert (Eseeds : seeds2 = seeds') by congruence. subst seeds2. clear Es2.
  destruct (Hex sched') as (k & sA & Hk & Hd & Hr). cbv zeta in *. assert (Hr1 : r' = with_weights evs' (mem sA)) by (rewrite Hr in H; injection H as <-; reflexivity). clear H Hr Hex.
  set (nearA := algo' (length evs') (dist_wrapper dist evs') max) in *. set (nearU := algo (length evs) (dist_wrapper dist evs) max) in *.
  assert (Hnear : forall s, f s < length evs -> exists l, nearA s = Some l /\ nearU (f s) = Some (moved_nbrs N f l)).
  { intros s Hs. pose proof (proj1 (Hlt s) Hs) as Hs'. destruct (Ha (f s) Hs) as (l & E1 & L1). destruct (Ha' s Hs') as (l' & E2 & L2). exists l'. split; [exact E2|]. rewrite E1. f_equal.
    refine (region_nearest N f Hf (length evs) (length evs') (dist_wrapper dist evs) (dist_wrapper dist evs') isin max s l l' Hlt Hout _ Hs' _ _ L1 L2).
    - intros i j Hi Hj. unfold dist_wrapper, evs'. rewrite <- !He. reflexivity.
    - intros i j Hi Hj Hiq Hjq. unfold dist_wrapper, evs'. rewrite <- !He. intros G1 G2. apply Hlt in Hi, Hj.
      destruct (nth_error evs (f i)) as [b|] eqn:Eb; [|apply nth_error_None in Eb; lia]. destruct (nth_error evs (f j)) as [c|] eqn:Ec; [|apply nth_error_None in Ec; lia]. destruct (nth_error evs (f s)) as [a|] eqn:Ea; [|apply nth_error_None in Ea; lia].
      apply (f_eq f Hf). apply (Hties (f s) (f i) (f j) a b c); auto; intros G; apply (f_eq f Hf) in G; congruence.
    - intros t Ht Ho. unfold dist_wrapper. specialize (Hin s Hs). unfold isin in Ho, Hin. destruct (nth_error evs t) as [b|] eqn:Eb; [|apply nth_error_None in Eb; lia]. destruct (nth_error evs (f s)) as [a|] eqn:Ea; [|discriminate].
      apply (Hiso a b); eauto using nth_error_In. }
  assert (Hfar : forall t, outside (length evs) isin t -> forall l, nearU t = Some l -> Forall (fun x => outside (length evs) isin (fst x)) l).
  { intros t (Ho & Ht) l El. destruct (Ha t Ht) as (l' & E1 & (_ & I1 & _)). rewrite El in E1. injection E1 as <-. apply Forall_forall. intros [i d] Hi. cbn [fst].
    pose proof (proj1 (I1 i) (in_map fst _ _ Hi)) as (Hi1 & _ & Hi3). split; [|exact Hi1]. destruct (isin i) eqn:Ei; [|reflexivity]. exfalso. unfold dist_wrapper in Hi3. unfold isin in Ei, Ho.
    destruct (nth_error evs i) as [a|] eqn:Ea; [|discriminate]. destruct (nth_error evs t) as [b|] eqn:Eb; [|apply nth_error_None in Eb; lia].
    destruct (Hiso a b) as [G _]; eauto using nth_error_In. congruence. }
  destruct (back_steps N f Hf (length evs) isin Hin mw nearA nearU Hnear) with (k := k) (s := conc_init nthreads seeds' (map ev_weights evs')) (s' := conc_init nthreads seeds (map ev_weights evs)) (s1 := sA) as (k1 & s1 & Hk1 & Hsim0).
  { split; [exact Hw|]. split; [apply map_length|]. split; [exact Fs|]. cbn [conc_init threads]. clear. induction nthreads as [|m IH]; cbn [repeat map]; [reflexivity|]. rewrite <- IH. reflexivity. }
  { exact Hk. }
  (* the rest of the sample *)
  set (s0 := conc_init nthreads seeds (map ev_weights evs)) in *. set (bound := length seeds * (11 + 4 * length (map ev_weights evs))).
  set (s2 := threads_run mw nearU (fun _ => (0, 0)) (S bound) 0 s1).
  assert (Hv : valid_search (length (map ev_weights evs)) nearU) by (rewrite map_length; apply (answers_valid _ _ _ _ _ Ha)).
  destruct (threads_seeds strategy Hsort Hord HDe Hshape) as (seeds3 & Es3 & Hlt3). assert (X : seeds3 = seeds) by congruence. subst seeds3.
  assert (D2 : (exists k2, conc_steps mw nearU k2 s0 s2) /\ done s2).
  { destruct (threads_run_steps (fun _ => (0, 0)) (S bound) 0 Hk1) as (k2 & Hk2 & Hb). fold s2 in Hk2, Hb. split; [eauto|].
    destruct (C06_no_deadlock N mw nw nearU _ seeds nthreads k2 _ Hv Hshape Hlt3 Hn Hk2) as [Y|(s' & Y)]; [exact Y|]. exfalso. destruct Hb as [Hb|Hb]; [|exact (Hb s' Y)].
    pose proof (C06_terminates N mw nw nearU _ seeds Hv Hshape Hlt3 nthreads k2 s2 Hk2). unfold bound in Hb. lia. }
  destruct D2 as ((k2 & Hk2) & D2). destruct (threads_run_steps (fun _ => (0, 0)) (S bound) 0 (steps_refl N mw nearU s1)) as (k3 & Hk3 & _). fold s2 in Hk3.
  destruct (sim_steps N f Hf (length evs) isin Hin mw nearA nearU Hnear Hfar k3 sA s1 s2 (sim0_sim _ _ _ _ _ _ Hsim0) Hk3) as (k4 & s4 & Hk4 & Hsim).
  assert (X : s4 = sA).
  { clear -Hk4 Hd. induction Hk4 as [|k4 sA s3 s4 Hk4 IH Hstep]; [reflexivity|]. specialize (IH Hd). subst s3. destruct (done_stuck Hd Hstep). }
  subst s4. destruct (HexU k2 s2 Hk2 D2) as (sched & E'). exists sched. eexists. split; [exact E'|]. destruct Hsim as (M1 & M2 & _).
  - subst r'. clear E'. clearbody s2. generalize dependent (mem s2). intros U1 M1 M2. generalize dependent (mem sA). intros A1 M1. symmetry. change (with_weights evs' A1 = filter inside (with_weights evs U1)). assert (LU : length U1 = length evs) by exact M2. pose proof (Hemb _ inside (with_weights evs U1)) as Hr.
    assert (Hc : forall (X Y : Type) (l : list X) (k : list Y) i, nth_error (combine l k) i = match nth_error l i, nth_error k i with Some a, Some b => Some (a, b) | _, _ => None end).
    { clear. intros X Y l. induction l as [|a l IH]; intros [|b k] [|i]; try reflexivity; cbn; [destruct (nth_error l i); reflexivity|apply IH]. }
    apply nth_error_ext. intros i. rewrite <- Hr; [unfold with_weights; rewrite !nth_error_map, !Hc, He, M1; reflexivity|].
    clear -LU Hig. unfold with_weights. revert U1 LU. induction evs as [|e evs IH]; intros [|w U1] LU; try discriminate; [reflexivity|]. cbn [combine map]. rewrite Hig. f_equal. apply IH. injection LU as LU. exact LU.
Qed.
Print Assumptions C97_threads_all.

(** A case: the groups of C97_case with four threads *)
Example C97_threads_case : shaped false 1 (map ev_weights groups) /\
  option_map (fun x => match x with inl r => map ev_weights r | inr _ => [] end) (threads_resample (N := ZN) (Err := unit) 4 (fun i => (i, i)) false isort MostNegative (naive_nearest first_min) zev_dist 10%Z groups) = Some [[1]; [1]; [1]; [1]; [4]]%Z /\
  option_map (fun x => match x with inl r => map ev_weights r | inr _ => [] end) (threads_resample (N := ZN) (Err := unit) 4 (fun i => (i, i)) false isort MostNegative (naive_nearest first_min) zev_dist 10%Z (filter on_the_left groups)) = Some [[1]; [1]; [4]]%Z.
Proof. split; [split; [lia|]; split; [reflexivity|]; repeat constructor|]. split; vm_compute; reflexivity. Qed.
