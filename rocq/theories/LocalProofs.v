(** Lemmas for C75. *)
From Coq Require Import Reals Lra List Arith Lia Permutation Bool.
From Verif Require Import Base BaseProofs Num ModelEvent ModelCell ModelSeeds ModelNaive ModelVPTree ModelResampler SpecWeights SpecSearch SumProofs
  CellProofs RunProofs SeedsProofs NaiveProofs RunProofs2 VPTreeProofs2 SpecLocal.
Import ListNotations.
Local Open Scope R_scope.

Lemma Rabs_Rsum_map {A} (f : A -> R) l : Rabs (Rsum (map f l)) <= Rsum (map (fun x => Rabs (f x)) l).
Proof.
  induction l as [|a l IH]; [cbn [map]; rewrite !Rsum_nil, Rabs_R0; right; reflexivity|]. cbn [map]. rewrite !Rsum_cons. eapply Rle_trans; [apply Rabs_triang|]. lra.
Qed.

(** one cell *)
Lemma observable_cell f eps mw nw (ws : weights_state RN) seed (c : Cell RN) ws' k :
  shaped mw nw ws -> members c <> [] -> cell_resample mw ws c = Some ws' ->
  0 <= eps -> (forall i, In i (members c) -> Rabs (f i - f seed) <= eps) ->
  Rabs (observable f ws' k - observable f ws k) <= 2 * eps * total_abs ws k.
Proof.
  intros Hs Hc Hr He Hm. pose proof (shaped_wf Hs) as Hwf.
  pose proof (resample_frame _ _ _ Hr) as (Hnd & Hlt & Hlen & _).
  assert (Hne : map (fun j => comp ws j k) (members c) <> []) by (intros X; apply map_eq_nil in X; contradiction).
  set (m := mean (map (fun j => comp ws j k) (members c))).
  pose proof (mean_times Hne) as Hmt. rewrite map_length in Hmt. fold m in Hmt.
  unfold observable. change (fun i => f i * nth k (nth i ws' []) 0) with (fun i => f i * comp ws' i k).
  change (fun i => f i * nth k (nth i ws []) 0) with (fun i => f i * comp ws i k).
  rn. rewrite Hlen.
  pose proof (@Rsum_change (length ws) (members c) (fun i => f i * comp ws' i k) (fun i => f i * comp ws i k) Hnd Hlt) as Hch.
  specialize (Hch (fun i Hi => f_equal (Rmult (f i)) (@comp_out mw ws c ws' i k Hr Hi))).
  rewrite (@Rsum_map_ext _ (fun i => f i * comp ws' i k) (fun i => f i * m) (members c)) in Hch.
  2:{ intros i Hi. f_equal. exact (resample_mean _ Hwf Hr i k Hi). }
  assert (E : Rsum (map (fun i => f i * m) (members c)) - Rsum (map (fun i => f i * comp ws i k) (members c))
    = Rsum (map (fun i => (f i - f seed) * (m - comp ws i k)) (members c))).
  { rewrite (@Rsum_map_ext _ (fun i => (f i - f seed) * (m - comp ws i k)) (fun i => (f i * m + (-1) * (f i * comp ws i k)) + ((- f seed * m) + f seed * comp ws i k)) (members c)) by (intros i _; ring).
    rewrite !Rsum_map_plus, !Rsum_map_scal, Rsum_map_const. replace (INR (length (members c)) * (- f seed * m)) with (- f seed * (INR (length (members c)) * m)) by ring.
    rewrite Hmt. ring. }
  match goal with |- Rabs (?a - ?b) <= _ => replace (a - b) with (Rsum (map (fun i => (f i - f seed) * (m - comp ws i k)) (members c))) by (rewrite <- E; clear -Hch; rn; cbn beta in *; lra) end.
  eapply Rle_trans; [apply Rabs_Rsum_map|].
  apply Rle_trans with (Rsum (map (fun i => eps * (Rabs m + Rabs (comp ws i k))) (members c))).
  { apply Rsum_map_le. intros i Hi. rewrite Rabs_mult. apply Rmult_le_compat; try apply Rabs_pos; [apply Hm; exact Hi|].
    unfold Rminus. eapply Rle_trans; [apply Rabs_triang|]. rewrite Rabs_Ropp. lra. }
  rewrite Rsum_map_scal, Rsum_map_plus, Rsum_map_const.
  pose proof (Rsum_le_mean_abs (map (fun j => comp ws j k) (members c))) as Ha. rewrite map_length, map_map in Ha. fold m in Ha.
  assert (Hin : Rsum (map (fun i => Rabs (comp ws i k)) (members c)) <= total_abs ws k).
  { unfold total_abs. rewrite (Rsum_by_index [] (fun w => Rabs (nth k w 0)) ws).
    change (fun i => Rabs (nth k (nth i ws []) 0)) with (fun i => Rabs (comp ws i k)).
    pose proof (@Rsum_change (length ws) (members c) (fun i => Rabs (comp ws i k)) (fun i => if in_dec Nat.eq_dec i (members c) then 0 else Rabs (comp ws i k)) Hnd Hlt) as Hx.
    rewrite (@Rsum_map_ext _ (fun i => if in_dec Nat.eq_dec i (members c) then 0 else Rabs (comp ws i k)) (fun _ => 0) (members c)) in Hx.
    2:{ intros i Hi. destruct in_dec; [reflexivity|contradiction]. }
    rewrite Rsum_map_const in Hx.
    assert (0 <= Rsum (map (fun i => if in_dec Nat.eq_dec i (members c) then 0 else Rabs (comp ws i k)) (seq 0 (length ws)))).
    { apply Rsum_nonneg. intros x Hxi. apply in_map_iff in Hxi. destruct Hxi as (i & <- & _). destruct in_dec; [lra|apply Rabs_pos]. }
    assert (Hx' := Hx (fun i Hi => ltac:(destruct in_dec; [contradiction|reflexivity]))). rn. lra. }
  apply Rle_trans with (eps * (2 * total_abs ws k)); [|lra].
  apply Rmult_le_compat_l; [exact He|]. lra.
Qed.
Lemma observable_step f eps mw nw (ws : weights_state RN) seed nbrs (c : Cell RN) ws' k :
  shaped mw nw ws -> cell_new ws seed nbrs = Some c -> cell_resample mw ws c = Some ws' ->
  0 <= eps -> (forall i, In i (map fst nbrs) -> Rabs (f i - f seed) <= eps) ->
  Rabs (observable f ws' k - observable f ws k) <= 2 * eps * total_abs ws k.
Proof.
  intros Hs Hc Hr He Hf. apply (observable_cell f eps mw nw ws seed c ws' k Hs); [|exact Hr|exact He|].
  - apply cell_new_spec in Hc. destruct Hc as (w0 & n & wts & _ & _ & _ & -> & _). discriminate.
  - apply cell_new_spec in Hc. destruct Hc as (w0 & n & wts & _ & _ & _ & Em & _). rewrite Em. intros i [<-|Hi].
    + unfold Rminus. rewrite Rplus_opp_r, Rabs_R0. exact He.
    + apply Hf. rewrite <- firstn_map in Hi. rewrite <- (firstn_skipn n (map fst nbrs)). apply in_or_app. auto.
Qed.

Lemma observable_run f eps mw nw nearest (max : R) (dist : nat -> nat -> R) k seeds : forall (ws : weights_state RN) cells ws' cells',
  shaped mw nw ws -> 0 <= eps -> limited_search (length ws) dist max nearest -> 
  (forall i j, (i < length ws)%nat -> (j < length ws)%nat -> dist i j <= max -> Rabs (f j - f i) <= eps) ->
  ofold (seed_step mw nearest) seeds (ws, cells) = Some (ws', cells') ->
  Rabs (observable f ws' k - observable f ws k) <= 2 * eps * INR (length seeds) * total_abs ws k.
Proof.
  induction seeds as [|s seeds IH]; intros ws cells ws' cells' Hs He Hl Hf H; cbn [ofold] in H.
  - injection H as <- _. unfold Rminus. rewrite Rplus_opp_r, Rabs_R0. cbn [length INR]. lra.
  - destruct (seed_step mw nearest (ws, cells) s) as [[ws1 cells1]|] eqn:E; [|discriminate]. apply seed_step_inv in E.
    assert (Ha : 0 <= total_abs ws k) by (apply Rsum_nonneg; intros x Hx; apply in_map_iff in Hx; destruct Hx as (w & <- & _); apply Rabs_pos).
    assert (H1 : shaped mw nw ws1 /\ length ws1 = length ws /\ total_abs ws1 k <= total_abs ws k /\ Rabs (observable f ws1 k - observable f ws k) <= 2 * eps * total_abs ws k).
    { destruct E as (w & Hw & Hlt & [(H0 & -> & ->) | (H0 & nbrs & c & Hn & Hc & Hr & _)]).
      - split; [exact Hs|]. split; [reflexivity|]. split; [lra|]. unfold Rminus. rewrite Rplus_opp_r, Rabs_R0. apply Rmult_le_pos; lra.
      - split; [eapply resample_shaped; eauto|]. split; [eapply resample_frame; eauto|]. split; [apply (resample_total_abs (shaped_wf Hs) Hr)|].
        eapply observable_step; eauto. intros i Hi. destruct (Hl s nbrs i Hlt Hn Hi) as [Hil Hle]. apply Hf; [exact Hlt|exact Hil|]. apply Rleb_true. exact Hle. }
    destruct H1 as (S1 & L1 & A1 & O1). rewrite <- L1 in Hl, Hf. specialize (IH ws1 cells1 ws' cells' S1 He Hl Hf H).
    change (length (s :: seeds)) with (S (length seeds)). rewrite S_INR.
    assert (X : 2 * eps * INR (length seeds) * total_abs ws1 k <= 2 * eps * INR (length seeds) * total_abs ws k).
    { apply Rmult_le_compat_l; [|exact A1]. apply Rmult_le_pos; [lra|apply pos_INR]. }
    replace (observable f ws' k - observable f ws k) with ((observable f ws' k - observable f ws1 k) + (observable f ws1 k - observable f ws k)) by ring.
    eapply Rle_trans; [apply Rabs_triang|]. lra.
Qed.

(** searches *)
Lemma naive_limited (N : NumOps) (D : N -> Prop) choose n (dist : nat -> nat -> N) max : order_on N D -> choose_ok choose -> D max ->
  (forall i j, (i < n)%nat -> (j < n)%nat -> D (dist i j)) -> (forall i j, (i < n)%nat -> (j < n)%nat -> dist i j = dist j i) ->
  limited_search n dist max (naive_nearest choose n dist max).
Proof.
  intros Ho Hc HDm HD Hsym q nbrs i Hq Hn Hi.
  destruct (@naive_nearest_ok N D Ho choose n dist max q Hc HDm (fun i Hi => HD i q Hi Hq) Hq) as (res & Hr & _ & Hin & _).
  rewrite Hn in Hr. injection Hr as <-. apply Hin in Hi. destruct Hi as (A & _ & B). split; [exact A|]. rewrite Hsym; auto.
Qed.
Lemma tree_limited (N : NumOps) (D : N -> Prop) sort choose n (dist : nat -> nat -> N) max : order_on N D -> sort_ok sort -> choose_ok choose ->
  (forall i j, (i < n)%nat -> (j < n)%nat -> D (dist i j)) ->
  limited_search n dist max (tree_nearest sort choose n dist max).
Proof.
  intros Ho Hs Hc HD q nbrs i Hq Hn Hi.
  destruct (@tree_sound N D sort choose n dist max q Ho Hs Hc HD Hq) as (l & E & _ & Hl). rewrite Hn in E. injection E as <-.
  apply in_map_iff in Hi. destruct Hi as ((i' & d) & <- & Hi). destruct (Hl _ _ Hi) as (A & _ & _ & B). auto.
Qed.

(** events far away from all seeds *)
Lemma untouched_run (N : NumOps) mw nearest seeds (ws ws' : weights_state N) cells i :
  (forall s nbrs, In s seeds -> (s < length ws)%nat -> nearest s = Some nbrs -> ~ In i (s :: map fst nbrs)) ->
  resample_seeds mw nearest seeds ws = Some (ws', cells) -> nth_error ws' i = nth_error ws i.
Proof.
  intros Hf H. enough (length ws' = length ws /\ nth_error ws' i = nth_error ws i) by tauto.
  revert H. apply (@resample_seeds_inv N mw nearest (fun w => length w = length ws /\ nth_error w i = nth_error ws i)); [|auto].
  intros ws1 ws2 seed nbrs c w Hin [L1 H1] _ Hlt _ Hn Hc Hr. pose proof (resample_frame _ _ _ Hr) as (_ & _ & L2 & avg & Hfr).
  split; [rewrite L2; exact L1|]. rewrite Hfr. destruct (in_dec Nat.eq_dec i (members c)) as [Hi|_]; [|exact H1]. exfalso.
  rewrite L1 in Hlt. apply (Hf seed nbrs Hin Hlt Hn). apply cell_new_spec in Hc. destruct Hc as (w0 & k & wts & _ & _ & _ & Em & _). rewrite Em in Hi.
  destruct Hi as [Hi|Hi]; [left; exact Hi|right]. rewrite <- firstn_map in Hi. rewrite <- (firstn_skipn k (map fst nbrs)). apply in_or_app. auto.
Qed.
Lemma untouched_events (N : NumOps) (D : N -> Prop) mw sort strategy (algo : search_algo N) dist max (evs evs' : list (Event N)) cells i ei :
  sort_ok sort -> order_on N D -> (forall e w, In e evs -> ev_weight e = Some w -> D w) ->
  limited_search (length evs) (dist_wrapper dist evs) max (algo (length evs) (dist_wrapper dist evs) max) ->
  nth_error evs i = Some ei ->
  (forall j ej wj, nth_error evs j = Some ej -> ev_weight ej = Some wj -> nltb wj n0 = true -> j <> i /\ nleb (dist ej ei) max = false) ->
  resampler_resample mw sort strategy algo dist max evs = Some (evs', cells) -> nth_error evs' i = Some ei.
Proof.
  intros Hsort Ho HD Hl Hi Hfar H. apply resampler_inv in H. destruct H as (seeds & ws' & H1 & H2 & ->).
  assert (HDw : forall j w, weight_at (map ev_weights evs) j = Some w -> D w).
  { intros j w Hw. unfold weight_at in Hw. destruct (nth_error (map ev_weights evs) j) as [wj|] eqn:E; [|discriminate].
    rewrite nth_error_map in E. destruct (nth_error evs j) as [ej|] eqn:Ej; [|discriminate]. injection E as <-. eapply HD; [eapply nth_error_In; exact Ej|exact Hw]. }
  assert (E : nth_error ws' i = Some (ev_weights ei)).
  { rewrite (@untouched_run N mw _ seeds (map ev_weights evs) ws' cells i) with (2 := H2).
    - rewrite nth_error_map, Hi. reflexivity.
    - intros s nbrs Hs Hlt Hn. rewrite map_length in Hlt.
      apply (@select_seeds_spec N sort D strategy _ seeds Hsort Ho HDw H1) in Hs.
      destruct Hs as (w & Hw & Hneg). unfold weight_at in Hw. rewrite nth_error_map in Hw. destruct (nth_error evs s) as [es|] eqn:Es; [|discriminate].
      destruct (Hfar s es w Es Hw Hneg) as [Hsi Hd]. intros [Hin|Hin]; [contradiction|].
      destruct (Hl s nbrs i Hlt Hn Hin) as [_ Hle]. unfold dist_wrapper in Hle. rewrite Es, Hi in Hle. congruence. }
  unfold with_weights. rewrite nth_error_map. 
  assert (Ec : nth_error (combine evs ws') i = Some (ei, ev_weights ei)).
  { clear -Hi E. revert ws' i Hi E. induction evs as [|a l IH]; intros [|w ws'] [|i] Hi E; try discriminate; cbn in *; [congruence|]. apply IH; auto. }
  rewrite Ec. cbn. destruct ei; reflexivity.
Qed.

(** the whole resampling, exact arithmetic *)
Lemma seeds_length mw nw sort strategy (ws : weights_state RN) seeds : sort_ok sort -> shaped mw nw ws -> select_seeds (N := RN) sort strategy ws = Some seeds ->
  length seeds = nnegative ws.
Proof.
  intros Hsort Hs H. destruct (@select_seeds_spec RN sort (fun _ => True) strategy ws seeds Hsort RN_order (fun _ _ _ => I) H) as (Hnd & Hin & _).
  set (p := fun i => if Rlt_dec (comp ws i 0) 0 then true else false).
  assert (P : Permutation seeds (filter p (seq 0 (length ws)))).
  { apply NoDup_Permutation; [exact Hnd|apply NoDup_filter, seq_NoDup|]. intros i. rewrite Hin, filter_In, in_seq. unfold p. split.
    - intros (w & Hw & Hneg). pose proof (weight_at_comp Hw) as Hc. apply Rltb_true in Hneg. split.
      + apply weight_at_spec in Hw. destruct Hw as [v Hv]. assert (i < length ws)%nat by (apply nth_error_Some; congruence). lia.
      + destruct (Rlt_dec (comp ws i 0) 0) as [_|Hn]; [reflexivity|]. exfalso. apply Hn. rewrite Hc. exact Hneg.
    - intros [Hi Hneg]. destruct (Rlt_dec (comp ws i 0) 0) as [Hn|]; [|discriminate]. destruct (shaped_weight_at Hs (i := i)) as [w Hw]; [lia|].
      exists w. split; [exact Hw|]. apply Rltb_true. rewrite (weight_at_comp Hw) in Hn. exact Hn. }
  rewrite (Permutation_length P). unfold nnegative. 
  assert (G : forall (q : list R -> bool) (l : list (list R)), length (filter (fun i => q (nth i l [])) (seq 0 (length l))) = length (filter q l)).
  { intros q l. induction l as [|a l IH]; [reflexivity|]. cbn [length seq filter]. rewrite <- seq_shift. change (nth 0 (a :: l) []) with a.
    assert (F : forall (m : list nat), length (filter (fun i => q (nth i (a :: l) [])) (map S m)) = length (filter (fun i => q (nth i l [])) m)).
    { induction m as [|b m IHm]; [reflexivity|]. cbn [map filter]. change (nth (S b) (a :: l) []) with (nth b l []). destruct (q (nth b l [])); cbn [length]; rewrite IHm; reflexivity. }
    destruct (q a); cbn [length]; rewrite F, IH; reflexivity. }
  exact (G (fun w => if Rlt_dec (nth 0 w 0) 0 then true else false) ws).
Qed.
Lemma observable_resampler f eps mw nw sort strategy (algo : search_algo RN) (dist : Event RN -> Event RN -> R) (max : R) (evs evs' : list (Event RN)) cells k :
  sort_ok sort -> shaped mw nw (map ev_weights evs) -> 0 <= eps ->
  limited_search (length evs) (dist_wrapper dist evs) max (algo (length evs) (dist_wrapper dist evs) max) ->
  (forall i j ei ej, nth_error evs i = Some ei -> nth_error evs j = Some ej -> dist ei ej <= max -> Rabs (f j - f i) <= eps) ->
  resampler_resample mw sort strategy algo dist max evs = Some (evs', cells) ->
  Rabs (observable f (map ev_weights evs') k - observable f (map ev_weights evs) k)
    <= 2 * eps * INR (nnegative (map ev_weights evs)) * total_abs (map ev_weights evs) k.
Proof.
  intros Hsort Hs He Hl Hf H. apply resampler_inv in H. destruct H as (seeds & ws' & H1 & H2 & ->).
  pose proof (resample_seeds_length _ _ _ _ H2) as Hlen. rewrite map_length in Hlen. destruct (with_weights_spec _ _ Hlen) as (-> & _).
  rewrite <- (seeds_length mw nw sort strategy _ seeds Hsort Hs H1).
  apply (observable_run f eps mw nw (algo (length evs) (dist_wrapper dist evs) max) max (dist_wrapper dist evs) k seeds (map ev_weights evs) [] ws' cells Hs He).
  - rewrite map_length. exact Hl.
  - rewrite map_length. intros i j Hi Hj Hd. unfold dist_wrapper in Hd.
    destruct (nth_error evs i) as [ei|] eqn:Ei; [|apply nth_error_None in Ei; lia].
    destruct (nth_error evs j) as [ej|] eqn:Ej; [|apply nth_error_None in Ej; lia]. eapply Hf; eauto.
  - exact H2.
Qed.
