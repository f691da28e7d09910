(** More lemmas about cells and runs, in the form used by the property files. *)
From Coq Require Import Reals Lra Psatz.
From Verif Require Import Base BaseProofs Num ModelEvent ModelCell ModelSeeds ModelNaive
  ModelResampler SpecWeights SpecSearch SumProofs CellProofs RunProofs SeedsProofs NaiveProofs.
Set Implicit Arguments.
Unset Strict Implicit.

Lemma weight_at_central (N : NumOps) (ws : weights_state N) i (w : N) :
  weight_at ws i = Some w <-> central_weight ws i w.
Proof. apply weight_at_spec. Qed.

Lemma cell_new_central (N : NumOps) (ws : weights_state N) seed nbrs (c : Cell N) :
  cell_new ws seed nbrs = Some c ->
  exists w0 k wts, central_weight ws seed w0 /\ k <= length nbrs /\
    Forall2 (central_weight ws) (map fst (firstn k nbrs)) wts /\
    members c = seed :: map fst (firstn k nbrs) /\
    weight_sum c = fold_left nadd wts w0 /\
    radius c = last (map snd (firstn k nbrs)) n0 /\
    (forall j, 0 < j < k -> nleb n0 (fold_left nadd (firstn j wts) w0) = false) /\
    (k < length nbrs -> 0 < k /\ nleb n0 (weight_sum c) = true).
Proof.
  intros H. apply cell_new_spec in H.
  destruct H as (w0 & k & wts & H1 & H2 & H3 & H). exists w0, k, wts.
  split; [apply weight_at_central; auto|]. split; auto. split; auto.
  clear - H3. induction H3; constructor; auto. apply weight_at_central; auto.
Qed.

Lemma sorted_last A (R : A -> A -> Prop) l d :
  StronglySorted R l -> (forall x, In x l -> R x x) -> forall x, In x l -> R x (last l d).
Proof.
  induction 1 as [|a t Ht IH Ha]; intros Hr x Hx; [destruct Hx|].
  destruct t as [|b t].
  - destruct Hx as [<-|[]]. apply Hr. left; auto.
  - replace (last (a :: b :: t) d) with (last (b :: t) d) by reflexivity. destruct Hx as [<-|Hx].
    + rewrite Forall_forall in Ha. apply Ha.
      destruct (exists_last (l := b :: t) ltac:(discriminate)) as (l' & z & E).
      rewrite E. rewrite last_last. rewrite in_app_iff. right; left; auto.
    + apply IH; auto. intros y Hy. apply Hr. right; auto.
Qed.

Lemma StronglySorted_firstn A (R : A -> A -> Prop) k l :
  StronglySorted R l -> StronglySorted R (firstn k l).
Proof.
  intros H. revert k. induction H as [|a t Ht IH Ha]; intros [|k]; cbn; constructor; auto.
  rewrite Forall_forall in *. intros x Hx. apply firstn_in in Hx. auto.
Qed.

Lemma StronglySorted_split A (R : A -> A -> Prop) k l x y :
  StronglySorted R l -> In x (firstn k l) -> In y (skipn k l) -> R x y.
Proof.
  intros H. revert k. induction H as [|a t Ht IH Ha]; intros [|k] Hx Hy; cbn in *; try tauto.
  destruct Hx as [<-|Hx].
  - rewrite Forall_forall in Ha. apply Ha. rewrite <- (firstn_skipn k t). apply in_or_app; auto.
  - eauto.
Qed.

Lemma last_In A (l : list A) d : l <> [] -> In (last l d) l.
Proof.
  intros H. destruct (exists_last H) as (l' & z & ->). rewrite last_last.
  apply in_or_app. right; left; auto.
Qed.

Lemma last_map A B (f : A -> B) l a b : l <> [] -> last (map f l) b = f (last l a).
Proof.
  intros H. destruct (exists_last H) as (l' & z & ->). rewrite map_app. cbn.
  rewrite !last_last. reflexivity.
Qed.

Lemma cell_geometry (N : NumOps) (D : N -> Prop) (ws : weights_state N) n seed dq max nbrs (c : Cell N) :
  order_on N D -> (forall i, i < n -> D (dq i)) ->
  nearest_list n seed dq max nbrs -> seed < n ->
  cell_new ws seed nbrs = Some c ->
  NoDup (members c) /\ In seed (members c) /\ (forall i, In i (members c) -> i < n) /\
  (forall i, In i (members c) -> i <> seed -> nleb (dq i) (radius c) = true) /\
  (length (members c) > 1 -> nleb (radius c) max = true /\
      exists i, In i (members c) /\ i <> seed /\ radius c = dq i) /\
  (forall i j, In i (members c) -> i <> seed -> j < n -> j <> seed -> ~ In j (members c) ->
      nleb (dq j) max = true -> nleb (dq i) (dq j) = true).
Proof.
  intros Hord HD (Hnd & Hin & Hd & Hsort) Hs H.
  assert (Hnb : neighbours_of n seed nbrs).
  { split; auto. intros i Hi. apply Hin in Hi. tauto. }
  destruct (cell_members Hs Hnb H) as (M1 & M2 & M3 & M4).
  apply cell_new_spec in H. destruct H as (w0 & k & wts & _ & Hk & _ & Hm & _ & Hr & _).
  set (l := firstn k nbrs) in *.
  assert (Hl : forall x, In x l -> snd x = dq (fst x) /\ fst x < n /\ fst x <> seed /\
              nleb (dq (fst x)) max = true).
  { intros x Hx. apply firstn_in in Hx. split.
    - rewrite Forall_forall in Hd. auto.
    - apply Hin. apply in_map; auto. }
  assert (Hsl : StronglySorted (fun x y => nleb (snd x) (snd y) = true) l)
    by (apply StronglySorted_firstn; auto).
  assert (Hrefl : forall x, In x l -> nleb (snd x) (snd x) = true).
  { intros x Hx. destruct Hord as [[Htot _] _]. destruct (Hl x Hx) as (-> & Hn & _).
    destruct (Htot (dq (fst x)) (dq (fst x))); auto. }
  assert (Hmem : forall i, In i (members c) -> i <> seed -> exists x, In x l /\ fst x = i).
  { intros i Hi Hne. rewrite Hm in Hi. destruct Hi as [Hi|Hi]; [congruence|].
    apply in_map_iff in Hi. destruct Hi as (x & Hx & Hxl). eauto. }
  split; auto. split; auto. split; auto. split; [|split].
  - intros i Hi Hne. destruct (Hmem i Hi Hne) as (x & Hx & <-).
    assert (Hne' : l <> []) by (intros E; rewrite E in Hx; destruct Hx).
    destruct (Hl x Hx) as (Hdx & _). rewrite <- Hdx, Hr.
    rewrite (last_map snd x) by auto.
    apply (@sorted_last _ (fun x y => nleb (snd x) (snd y) = true)); auto.
  - intros Hlen. destruct l as [|x0 l0] eqn:El; [rewrite Hm in Hlen; cbn in Hlen; lia|].
    rewrite <- El in *. assert (Hne' : l <> []) by (rewrite El; discriminate).
    pose proof (last_In x0 Hne') as Hlast. destruct (Hl _ Hlast) as (L1 & L2 & L3 & L4).
    rewrite Hr, (last_map snd x0) by auto. rewrite L1. split; auto.
    exists (fst (last l x0)). split; auto. rewrite Hm. right. apply in_map; auto.
  - intros i j Hi Hne Hj Hjs Hnj Hjm. destruct (Hmem i Hi Hne) as (x & Hx & <-).
    assert (Hjn : In j (map fst nbrs)) by (apply Hin; auto).
    apply in_map_iff in Hjn. destruct Hjn as (y & <- & Hy).
    rewrite <- (firstn_skipn k nbrs) in Hy. apply in_app_or in Hy. destruct Hy as [Hy|Hy].
    + exfalso. apply Hnj. rewrite Hm. right. apply in_map. exact Hy.
    + destruct (Hl x Hx) as (<- & _).
      assert (snd y = dq (fst y)) as <-.
      { rewrite Forall_forall in Hd. apply Hd. rewrite <- (firstn_skipn k nbrs). apply in_or_app; auto. }
      apply (@StronglySorted_split _ (fun x y => nleb (snd x) (snd y) = true) k nbrs); auto.
Qed.

Lemma cell_new_total (N : NumOps) (ws : weights_state N) seed nbrs :
  seed < length ws -> (forall i, In i (map fst nbrs) -> i < length ws) ->
  Forall (fun w => w <> []) ws -> exists c : Cell N, cell_new ws seed nbrs = Some c.
Proof.
  intros Hs Hn Hw. apply cell_new_some. intros i Hi.
  assert (Hl : i < length ws) by (destruct Hi as [<-|Hi]; auto).
  unfold weight_at. destruct (nth_error ws i) as [w|] eqn:E; [|apply nth_error_None in E; lia].
  rewrite Forall_forall in Hw. apply nth_error_In, Hw in E. destruct w; [congruence|]. cbn. eauto.
Qed.

(** *** Resampling one cell *)
Lemma resample_spec mw (ws : weights_state RN) (c : Cell RN) (ws' : weights_state RN) :
  wf_weights mw ws ->
  cell_resample mw ws c = Some ws' ->
  length ws' = length ws /\
  (forall i, length (nth i ws' []) = length (nth i ws [])) /\
  (forall i k, In i (members c) -> comp ws' i k = mean (map (fun j => comp ws j k) (members c))) /\
  (forall i, ~ In i (members c) -> nth_error ws' i = nth_error ws i).
Proof.
  intros Hwf H. pose proof (resample_frame _ _ _ H) as (_ & Hlt & Hlen & avg & Hf).
  split; auto. split; [|split].
  - intros i. pose proof (resample_lengths _ Hwf H) as Hl.
    destruct (lt_dec i (length ws)) as [Hi|Hi].
    + eapply (Hl i); apply nth_error_nth'; lia.
    + rewrite !nth_overflow by lia. reflexivity.
  - intros i k Hi. eapply resample_mean; eauto.
  - intros i Hi. rewrite Hf. destruct in_dec; tauto.
Qed.

Local Open Scope R_scope.

Lemma resample_sign mw (ws : weights_state RN) n seed nbrs (c : Cell RN) ws' :
  wf_weights mw ws -> neighbours_of n seed nbrs -> (seed < n)%nat -> n = length ws ->
  cell_new ws seed nbrs = Some c -> cell_resample mw ws c = Some ws' ->
  (0 <= weight_sum c -> forall i, In i (members c) -> 0 <= comp ws' i 0) /\
  (weight_sum c < 0 -> exists v, v < 0 /\ forall i, In i (members c) -> comp ws' i 0 = v).
Proof.
  intros Hwf Hnb Hs Hn Hc Hr.
  assert (Hm : forall i, In i (members c) -> comp ws' i 0 = mean (map (fun j => comp ws j 0) (members c)))
    by (intros i Hi; eapply resample_mean; eauto).
  pose proof (cell_weight_sum Hc) as Hsum.
  destruct (cell_members Hs Hnb Hc) as (M1 & M2 & M3 & M4).
  split.
  - intros H0 i Hi. rewrite Hm by auto. apply mean_nonneg. rewrite <- Hsum. exact H0.
  - intros H0. eexists. split; [|exact Hm].
    assert (Hp : 0 < INR (length (map (fun j => comp ws j 0) (members c)))).
    { rewrite map_length. apply lt_0_INR. destruct (members c); [congruence|cbn; lia]. }
    pose proof (@mean_times (map (fun j => comp ws j 0) (members c))) as Ht.
    rewrite <- Hsum in Ht. rewrite Hsum in H0.
    unfold mean. rewrite <- Hsum in *.
    apply Rmult_lt_reg_r with (INR (length (map (fun j => comp ws j 0) (members c)))); auto.
    unfold Rdiv. rewrite Rmult_assoc, Rinv_l by lra. rn. lra.
Qed.

Lemma resample_many_shrinks mw (cells : list (Cell RN)) (ws ws' : weights_state RN) :
  wf_weights mw ws -> ofold (cell_resample mw) cells ws = Some ws' ->
  forall k, total ws' k = total ws k /\ total_abs ws' k <= total_abs ws k /\
    total_neg ws' k <= total_neg ws k /\ forall lo hi, within lo hi k ws -> within lo hi k ws'.
Proof.
  intros Hwf H k.
  assert (Hstep : forall ws1 c ws2, wf_weights mw ws1 -> @cell_resample RN mw ws1 c = Some ws2 ->
     wf_weights mw ws2).
  { intros ws1 c ws2 H1 H2 Hm. specialize (H1 Hm) as H1'. apply Forall_forall. intros w Hw.
    apply In_nth_error in Hw. destruct Hw as [i Hi].
    pose proof (resample_frame _ _ _ H2) as (_ & _ & Hlen & _).
    assert (Hlt : (i < length ws1)%nat). { rewrite <- Hlen. apply nth_error_Some. congruence. }
    destruct (nth_error ws1 i) as [w0|] eqn:E; [|apply nth_error_None in E; lia].
    rewrite (resample_lengths _ H1 H2 i E Hi). unfold uniform in H1'.
    rewrite Forall_forall in H1'. apply H1'. eapply nth_error_In; eauto. }
  enough (wf_weights mw ws' /\ total ws' k = total ws k /\ total_abs ws' k <= total_abs ws k /\
    total_neg ws' k <= total_neg ws k /\ forall lo hi, within lo hi k ws -> within lo hi k ws') by tauto.
  revert H. apply (ofold_inv (@cell_resample RN mw) (fun w => wf_weights mw w /\ total w k = total ws k /\
    total_abs w k <= total_abs ws k /\ total_neg w k <= total_neg ws k /\
    forall lo hi, within lo hi k ws -> within lo hi k w)).
  2:{ split; [auto|split; [lra|split; [lra|split; [lra|auto]]]]. }
  intros c ws1 ws2 _ (H1 & H0 & H2 & H3 & H4) Hr.
  pose proof (resample_total_abs H1 Hr k). pose proof (resample_total_neg H1 Hr k).
  pose proof (resample_total _ H1 Hr k) as Ht.
  split; [eapply Hstep; eauto|]. split; [rn; lra|]. split; [lra|]. split; [lra|].
  intros lo hi Hw. eapply resample_within; eauto.
Qed.

(** *** Whole runs *)
Lemma resampler_inv (N : NumOps) mw sort strategy algo dist max (evs evs' : list (Event N)) cells :
  resampler_resample mw sort strategy algo dist max evs = Some (evs', cells) ->
  exists seeds ws', select_seeds sort strategy (map ev_weights evs) = Some seeds /\
    resample_seeds mw (algo (length evs) (dist_wrapper dist evs) max) seeds (map ev_weights evs)
      = Some (ws', cells) /\ evs' = with_weights evs ws'.
Proof.
  unfold resampler_resample.
  destruct (select_seeds _ _ _) as [seeds|]; [|discriminate].
  destruct (resample_seeds _ _ _ _) as [[ws' cs]|] eqn:E; [|discriminate].
  intros H. injection H as <- <-. eauto.
Qed.

Lemma resampler_total mw nw sort strategy (algo : search_algo RN) dist max (evs evs' : list (Event RN)) cells :
  shaped mw nw (map ev_weights evs) ->
  resampler_resample mw sort strategy algo dist max evs = Some (evs', cells) ->
  length evs' = length evs /\ map ev_id evs' = map ev_id evs /\ map ev_out evs' = map ev_out evs /\
  shaped mw nw (map ev_weights evs') /\
  forall k, total (map ev_weights evs') k = total (map ev_weights evs) k.
Proof.
  intros Hs H. apply resampler_inv in H. destruct H as (seeds & ws' & H1 & H2 & ->).
  pose proof (resample_seeds_length _ _ _ _ H2) as Hl. rewrite map_length in Hl.
  destruct (with_weights_spec _ _ Hl) as (E1 & E2 & E3).
  split; [|split; [|split; [|split]]]; auto.
  - rewrite <- (map_length ev_id), E2. apply map_length.
  - rewrite E1. eapply resample_seeds_shaped; eauto.
  - intros k. rn. rewrite E1. exact (resample_seeds_total Hs H2 k).
Qed.

Lemma select_seeds_lt (N : NumOps) (D : N -> Prop) sort strategy (ws : weights_state N) seeds :
  sort_ok sort -> order_on N D -> (forall i w, weight_at ws i = Some w -> D w) ->
  select_seeds sort strategy ws = Some seeds -> forall s, In s seeds -> (s < length ws)%nat.
Proof.
  intros Hsort Hord HD H s Hs. destruct (select_seeds_spec _ _ Hsort Hord HD H) as (_ & Hin & _).
  apply Hin in Hs. destruct Hs as (w & Hw & _). apply weight_at_spec in Hw. destruct Hw as [v Hv].
  apply nth_error_Some. congruence.
Qed.

Lemma resampler_some (N : NumOps) (D : N -> Prop) mw nw sort strategy (algo : search_algo N) dist max
    (evs : list (Event N)) :
  sort_ok sort -> order_on N D -> Forall (Forall D) (map ev_weights evs) ->
  shaped mw nw (map ev_weights evs) ->
  valid_search (length evs) (algo (length evs) (dist_wrapper dist evs) max) ->
  exists evs' cells, resampler_resample mw sort strategy algo dist max evs = Some (evs', cells).
Proof.
  intros Hsort Hord HD Hs Hv. unfold resampler_resample.
  destruct (proj2 (select_seeds_some sort strategy (map ev_weights evs))) as [seeds Hseeds].
  { destruct Hs as (H0 & _ & H2). eapply Forall_impl; [|exact H2]. intros w Hw ->. cbn in Hw. lia. }
  rewrite Hseeds.
  assert (HD' : forall i w, weight_at (map ev_weights evs) i = Some w -> D w).
  { intros i w Hw. apply weight_at_spec in Hw. destruct Hw as [v Hv'].
    apply nth_error_In in Hv'. rewrite Forall_forall in HD. apply HD in Hv'. inversion Hv'; auto. }
  pose proof (select_seeds_lt Hsort Hord HD' Hseeds) as Hlt.
  destruct (@resample_seeds_some _ mw nw (algo (length evs) (dist_wrapper dist evs) max) seeds
     (map ev_weights evs) Hs) as (ws' & cells & E).
  - rewrite map_length. exact Hv.
  - exact Hlt.
  - rewrite E. eauto.
Qed.

Lemma resampler_no_negative mw nw sort strategy (algo : search_algo RN) dist max
    (evs evs' : list (Event RN)) cells :
  sort_ok sort ->
  shaped mw nw (map ev_weights evs) ->
  complete_search (length evs) (algo (length evs) (dist_wrapper dist evs) max) ->
  0 <= total (map ev_weights evs) 0 ->
  resampler_resample mw sort strategy algo dist max evs = Some (evs', cells) ->
  forall e, In e evs' -> 0 <= nth 0 (ev_weights e) 0.
Proof.
  intros Hsort Hs Hc Htot H e He. apply resampler_inv in H. destruct H as (seeds & ws' & H1 & H2 & ->).
  pose proof (resample_seeds_length _ _ _ _ H2) as Hl.
  assert (Hl' : length ws' = length evs) by (rewrite Hl; apply map_length).
  destruct (with_weights_spec _ _ Hl') as (E1 & _).
  apply (in_map ev_weights) in He. rewrite E1 in He. apply In_nth_error in He. destruct He as [i Hi].
  assert (Hil : (i < length ws')%nat) by (apply nth_error_Some; rewrite Hi; discriminate).
  pose proof (@comp_nth ws' i _ 0 Hi) as Hcn. rn. rewrite <- Hcn.
  refine (@no_negative_survives mw nw _ seeds (map ev_weights evs) ws' cells Hs _ Htot _ H2 i _).
  - rewrite map_length. exact Hc.
  - intros j Hj Hneg. destruct (@select_seeds_spec RN sort (fun _ => True) strategy _ seeds Hsort RN_order (fun _ _ _ => I) H1) as (_ & Hin & _).
    apply Hin. exists (comp (map ev_weights evs) j 0). split.
    + apply (weight_at_of_comp Hs Hj).
    + apply Rltb_true. exact Hneg.
  - exact Hil.
Qed.

Lemma naive_complete (choose : chooser) (n : nat) (dist : nat -> nat -> RN) (max : RN) :
  choose_ok choose -> (forall i j, (i < n)%nat -> (j < n)%nat -> dist i j <= max) ->
  complete_search n (naive_nearest choose n dist max).
Proof.
  intros Hch Hmax seed Hs.
  destruct (@naive_nearest_ok RN (fun _ => True) RN_order choose n dist max seed Hch I (fun _ _ => I) Hs)
    as (res & Hr & Hnd & Hin & _).
  exists res. split; auto. split.
  - split; auto. intros i Hi. apply Hin in Hi. tauto.
  - intros i Hi Hne. apply Hin. split; auto. split; auto. apply Rleb_true. auto.
Qed.

Lemma naive_valid (N : NumOps) (D : N -> Prop) (choose : chooser) (n : nat) (dist : nat -> nat -> N) (max : N) :
  order_on N D -> choose_ok choose -> D max ->
  (forall i j, (i < n)%nat -> (j < n)%nat -> D (dist i j)) ->
  valid_search n (naive_nearest choose n dist max).
Proof.
  intros Hord Hch HDm HD seed Hs.
  destruct (@naive_nearest_ok N D Hord choose n dist max seed Hch HDm (fun i Hi => HD i seed Hi Hs) Hs)
    as (res & Hr & Hnd & Hin & _).
  exists res. split; auto. split; auto. intros i Hi. apply Hin in Hi. tauto.
Qed.

Lemma seed_step_positive (N : NumOps) mw nearest (ws : weights_state N) cells seed (w : N) :
  central_weight ws seed w -> nltb n0 w = true ->
  seed_step mw nearest (ws, cells) seed = Some (ws, cells).
Proof.
  intros Hc Hw. unfold seed_step. pose proof Hc as [v Hv].
  assert (Hl : (seed < length ws)%nat) by (apply nth_error_Some; congruence).
  destruct (length ws <=? seed)%nat eqn:E; [apply Nat.leb_le in E; lia|].
  apply weight_at_central in Hc. rewrite Hc, Hw. reflexivity.
Qed.

Lemma select_seeds_central (N : NumOps) sort (D : N -> Prop) strategy (ws : weights_state N) seeds :
  sort_ok sort -> order_on N D ->
  (forall i w, central_weight ws i w -> D w) ->
  select_seeds sort strategy ws = Some seeds ->
  NoDup seeds /\
  (forall i, In i seeds <-> exists w, central_weight ws i w /\ nltb w n0 = true) /\
  (strategy = Next -> StronglySorted lt seeds) /\
  (strategy = MostNegative ->
     StronglySorted (fun i j => forall wi wj, central_weight ws i wi -> central_weight ws j wj ->
                                 nleb wi wj = true) seeds) /\
  (strategy = LeastNegative ->
     StronglySorted (fun i j => forall wi wj, central_weight ws i wi -> central_weight ws j wj ->
                                 nleb wj wi = true) seeds).
Proof.
  intros Hs Ho HD H.
  assert (HD' : forall i w, weight_at ws i = Some w -> D w)
    by (intros i w Hw; apply (HD i), weight_at_central; auto).
  destruct (select_seeds_spec _ _ Hs Ho HD' H) as (H1 & H2 & H3 & H4 & H5).
  split; auto. split.
  { intros i. rewrite H2. split; intros (w & Hw & Hn); exists w; split; auto;
      apply weight_at_central; auto. }
  split; auto.
  assert (Himp : forall (R : N -> N -> Prop) l,
    StronglySorted (fun i j => forall wi wj, weight_at ws i = Some wi -> weight_at ws j = Some wj -> R wi wj) l ->
    StronglySorted (fun i j => forall wi wj, central_weight ws i wi -> central_weight ws j wj -> R wi wj) l).
  { intros R l Hl. induction Hl as [|a t _ IH Ha]; constructor; auto.
    eapply Forall_impl; [|exact Ha]. cbn. intros j Hj wi wj Hi Hj'.
    apply Hj; apply weight_at_central; auto. }
  split; intros E.
  - apply (Himp (fun a b => nleb a b = true)); auto.
  - apply (Himp (fun a b => nleb b a = true)); auto.
Qed.
