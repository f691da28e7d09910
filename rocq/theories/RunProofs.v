(** Lemmas about the single-threaded run, [ModelResampler]. *)
From Coq Require Import Reals Lra Psatz.
From Verif Require Import Base BaseProofs Num ModelEvent ModelCell ModelSeeds ModelResampler
  SpecWeights SpecSearch SumProofs CellProofs.
Set Implicit Arguments.

Section Generic.
Context (N : NumOps).
Implicit Types (ws : weights_state N).

Lemma cell_new_spec ws seed nbrs (c : Cell N) :
  cell_new ws seed nbrs = Some c ->
  exists w0 k wts, weight_at ws seed = Some w0 /\ k <= length nbrs /\
    Forall2 (fun i w => weight_at ws i = Some w) (map fst (firstn k nbrs)) wts /\
    members c = seed :: map fst (firstn k nbrs) /\
    weight_sum c = fold_left nadd wts w0 /\
    radius c = last (map snd (firstn k nbrs)) n0 /\
    (forall j, 0 < j < k -> nleb n0 (fold_left nadd (firstn j wts) w0) = false) /\
    (k < length nbrs -> 0 < k /\ nleb n0 (weight_sum c) = true).
Proof.
  unfold cell_new. destruct (weight_at ws seed) as [w0|] eqn:E; [|discriminate].
  intros H. apply cell_grow_spec in H. cbn in H.
  destruct H as (k & wts & H). exists w0, k, wts. intuition.
Qed.

Lemma firstn_in A k (l : list A) x : In x (firstn k l) -> In x l.
Proof. intros H. rewrite <- (firstn_skipn k l). apply in_or_app; auto. Qed.

Lemma NoDup_firstn A k (l : list A) : NoDup l -> NoDup (firstn k l).
Proof.
  revert k. induction l as [|a t IH]; intros [|k] H; cbn; try constructor.
  - inversion H; subst. intros Hin. apply firstn_in in Hin. auto.
  - inversion H; auto.
Qed.

Lemma cell_members ws seed nbrs (c : Cell N) n :
  seed < n -> neighbours_of n seed nbrs -> cell_new ws seed nbrs = Some c ->
  NoDup (members c) /\ (forall i, In i (members c) -> i < n) /\ In seed (members c) /\
  members c <> [].
Proof.
  intros Hs [Hnd Hn] H. apply cell_new_spec in H.
  destruct H as (w0 & k & wts & _ & Hk & _ & Hm & _). rewrite Hm. rewrite <- firstn_map.
  repeat split.
  - constructor.
    + intros Hin. apply firstn_in in Hin. apply Hn in Hin. tauto.
    + apply NoDup_firstn; auto.
  - intros i [<-|Hin]; auto. apply firstn_in in Hin. apply Hn in Hin. tauto.
  - left; auto.
  - discriminate.
Qed.

#[global] Arguments cell_members {ws seed nbrs c n}.

Lemma cell_grow_some ws nbrs c :
  (forall i, In i (map fst nbrs) -> exists w, weight_at ws i = Some w) ->
  exists c' : Cell N, cell_grow ws nbrs c = Some c'.
Proof.
  revert c. induction nbrs as [|[i d] t IH]; intros c H; cbn; eauto.
  destruct (H i (or_introl eq_refl)) as [w ->].
  destruct (nleb n0 _); eauto. apply IH. intros j Hj. apply H. right; auto.
Qed.

Lemma cell_new_some ws seed nbrs :
  (forall i, In i (seed :: map fst nbrs) -> exists w, weight_at ws i = Some w) ->
  exists c' : Cell N, cell_new ws seed nbrs = Some c'.
Proof.
  intros H. unfold cell_new. destruct (H seed (or_introl eq_refl)) as [w ->].
  apply cell_grow_some. intros i Hi. apply H. right; auto.
Qed.

Lemma shaped_wf mw nw ws : shaped mw nw ws -> wf_weights mw ws.
Proof.
  intros (H0 & H1 & H2) Hm. rewrite <- (H1 Hm). exact H2.
Qed.

Lemma shaped_nth mw nw ws i : shaped mw nw ws -> i < length ws ->
  exists w, nth_error ws i = Some w /\ length w = nw.
Proof.
  intros (H0 & H1 & H2) Hi. destruct (nth_error ws i) as [w|] eqn:E.
  - exists w. split; auto. unfold uniform in H2. rewrite Forall_forall in H2. apply H2. eapply nth_error_In; eauto.
  - apply nth_error_None in E. lia.
Qed.

Lemma shaped_weight_at mw nw ws i : shaped mw nw ws -> i < length ws ->
  exists w, weight_at ws i = Some w.
Proof.
  intros H Hi. destruct (shaped_nth H Hi) as (w & Hw & Hl). unfold weight_at. rewrite Hw.
  destruct H as (H0 & _). destruct w; cbn in *; [lia|eauto].
Qed.

Lemma resample_shaped mw nw ws (c : Cell N) ws' :
  shaped mw nw ws -> cell_resample mw ws c = Some ws' -> shaped mw nw ws'.
Proof.
  intros Hs H. pose proof (resample_frame _ _ _ H) as (_ & _ & Hlen & _).
  pose proof (resample_lengths _ (shaped_wf Hs) H) as Hl.
  destruct Hs as (H0 & H1 & H2). repeat split; auto.
  apply Forall_forall. intros w Hw. apply In_nth_error in Hw. destruct Hw as [i Hi].
  assert (Hlt : i < length ws). { rewrite <- Hlen. apply nth_error_Some. congruence. }
  destruct (nth_error ws i) as [w0|] eqn:E; [|apply nth_error_None in E; lia].
  rewrite (Hl i w0 w E Hi). unfold uniform in H2. rewrite Forall_forall in H2. apply H2. eapply nth_error_In; eauto.
Qed.

Lemma resample_some mw nw ws (c : Cell N) :
  shaped mw nw ws -> NoDup (members c) -> members c <> [] ->
  (forall i, In i (members c) -> i < length ws) ->
  exists ws', cell_resample mw ws c = Some ws'.
Proof.
  intros Hs Hnd Hne Hlt. destruct mw.
  - apply (@resample_some_multi _ ws c nw); auto. intros i Hi.
    destruct (shaped_nth Hs (Hlt i Hi)) as (w & Hw & Hl). eauto.
  - apply resample_some_single; auto. intros i Hi.
    destruct (shaped_nth Hs (Hlt i Hi)) as (w & Hw & Hl). destruct Hs as (_ & H1 & _).
    rewrite (H1 eq_refl) in Hl. destruct w as [|a [|b t]]; cbn in Hl; try lia. eauto.
Qed.

(** One step: what happened. *)
Lemma seed_step_inv mw nearest ws cells seed ws' cells' :
  seed_step mw nearest (ws, cells) seed = Some (ws', cells') ->
  exists w, weight_at ws seed = Some w /\ seed < length ws /\
    ((nltb n0 w = true /\ ws' = ws /\ cells' = cells) \/
     (nltb n0 w = false /\ exists nbrs c, nearest seed = Some nbrs /\
        cell_new ws seed nbrs = Some c /\ cell_resample mw ws c = Some ws' /\
        cells' = cells ++ [c])).
Proof.
  unfold seed_step. destruct (length ws <=? seed) eqn:El; [discriminate|].
  apply Nat.leb_gt in El.
  destruct (weight_at ws seed) as [w|] eqn:Ew; [|discriminate].
  destruct (nltb n0 w) eqn:E.
  - intros H. injection H as <- <-. exists w. split; [auto|split; [auto|left; auto]].
  - destruct (nearest seed) as [nbrs|] eqn:En; [|discriminate].
    destruct (cell_new ws seed nbrs) as [c|] eqn:Ec; [|discriminate].
    destruct (cell_resample mw ws c) as [ws1|] eqn:Er; [|discriminate].
    intros H. injection H as <- <-. exists w. split; auto. split; auto. right. split; auto.
    exists nbrs, c. auto.
Qed.

Lemma seed_step_some mw nw nearest ws cells seed :
  shaped mw nw ws -> valid_search (length ws) nearest -> seed < length ws ->
  exists ws' cells', seed_step mw nearest (ws, cells) seed = Some (ws', cells').
Proof.
  intros Hs Hv Hlt. unfold seed_step.
  destruct (length ws <=? seed) eqn:El; [apply Nat.leb_le in El; lia|].
  destruct (shaped_weight_at Hs Hlt) as [w Hw]. rewrite Hw.
  destruct (nltb n0 w); eauto.
  destruct (Hv seed Hlt) as (nbrs & Hn & Hnb). rewrite Hn.
  destruct (@cell_new_some ws seed nbrs) as [c Hc].
  { intros i [<-|Hi]; eauto. apply Hnb in Hi. destruct Hi. eapply shaped_weight_at; eauto. }
  rewrite Hc. destruct (cell_members Hlt Hnb Hc) as (H1 & H2 & H3 & H4).
  destruct (@resample_some mw nw ws c Hs H1 H4 H2) as [ws' ->]. eauto.
Qed.

(** Invariants of the whole loop. *)
Lemma resample_seeds_inv mw nearest (P : weights_state N -> Prop) seeds ws ws' cells :
  (forall ws1 ws2 seed nbrs c w, In seed seeds -> P ws1 -> weight_at ws1 seed = Some w ->
     seed < length ws1 -> nltb n0 w = false -> nearest seed = Some nbrs ->
     cell_new ws1 seed nbrs = Some c -> cell_resample mw ws1 c = Some ws2 -> P ws2) ->
  P ws -> resample_seeds mw nearest seeds ws = Some (ws', cells) -> P ws'.
Proof.
  intros Hstep HP H. unfold resample_seeds in H.
  refine (ofold_inv (seed_step mw nearest) (fun st => P (fst st)) _ (ws, []) _ _ H); auto.
  intros seed [ws1 c1] [ws2 c2] Hin HP1 Hs. cbn in *.
  apply seed_step_inv in Hs.
  destruct Hs as (w & Hw & Hlt & [(H0 & -> & ->) | (H0 & nbrs & c & Hn & Hc & Hr & _)]); auto.
  eapply Hstep; eauto.
Qed.

Lemma resample_seeds_length mw nearest seeds ws ws' cells :
  resample_seeds mw nearest seeds ws = Some (ws', cells) -> length ws' = length ws.
Proof.
  apply (@resample_seeds_inv mw nearest (fun w => length w = length ws)); auto.
  intros ws1 ws2 seed nbrs c w _ H1 _ _ _ _ _ Hr. apply resample_frame in Hr.
  destruct Hr as (_ & _ & -> & _). auto.
Qed.

Lemma resample_seeds_shaped mw nw nearest seeds ws ws' cells :
  shaped mw nw ws -> resample_seeds mw nearest seeds ws = Some (ws', cells) -> shaped mw nw ws'.
Proof.
  intros Hs. apply (@resample_seeds_inv mw nearest (shaped mw nw)); auto.
  intros ws1 ws2 seed nbrs c w _ H1 _ _ _ _ _ Hr. eapply resample_shaped; eauto.
Qed.

Lemma resample_seeds_some mw nw nearest seeds ws :
  shaped mw nw ws -> valid_search (length ws) nearest ->
  (forall s, In s seeds -> s < length ws) ->
  exists ws' cells, resample_seeds mw nearest seeds ws = Some (ws', cells).
Proof.
  unfold resample_seeds. generalize (@nil (Cell N)). revert ws.
  induction seeds as [|s t IH]; intros ws cells Hs Hv Hin; cbn [ofold]; eauto.
  destruct (seed_step_some cells Hs Hv (Hin s (or_introl eq_refl))) as (ws1 & cells1 & E).
  rewrite E. apply seed_step_inv in E.
  assert (length ws1 = length ws /\ shaped mw nw ws1) as [Hl Hs1].
  { destruct E as (w & Hw & Hlt & [(H0 & -> & ->) | (H0 & nbrs & c & Hn & Hc & Hr & _)]); auto.
    split; [|eapply resample_shaped; eauto].
    apply resample_frame in Hr. tauto. }
  apply IH; auto.
  - rewrite Hl; auto.
  - intros x Hx. rewrite Hl. apply Hin. right; auto.
Qed.

Lemma map_combine_fst A B (l : list A) (l' : list B) :
  length l' = length l -> map fst (combine l l') = l.
Proof.
  revert l'. induction l as [|a t IH]; intros [|b t'] H; cbn in *; try lia; auto.
  f_equal. apply IH. lia.
Qed.

Lemma map_combine_snd A B (l : list A) (l' : list B) :
  length l' = length l -> map snd (combine l l') = l'.
Proof.
  revert l'. induction l as [|a t IH]; intros [|b t'] H; cbn in *; try lia; auto.
  f_equal. apply IH. lia.
Qed.

Lemma with_weights_spec (evs : list (Event N)) ws :
  length ws = length evs ->
  map ev_weights (with_weights evs ws) = ws /\
  map ev_id (with_weights evs ws) = map ev_id evs /\
  map ev_out (with_weights evs ws) = map ev_out evs.
Proof.
  intros H. unfold with_weights. rewrite !map_map.
  rewrite (map_ext _ snd) by (intros [? ?]; reflexivity).
  rewrite (map_ext (fun x => ev_id (let '(e, w) := x in _)) (fun x => ev_id (fst x)))
    by (intros [? ?]; reflexivity).
  rewrite (map_ext (fun x => ev_out (let '(e, w) := x in _)) (fun x => ev_out (fst x)))
    by (intros [? ?]; reflexivity).
  rewrite <- (map_map fst ev_id), <- (map_map fst ev_out).
  rewrite !map_combine_fst, map_combine_snd by auto. auto.
Qed.

End Generic.

Arguments cell_members {N ws seed nbrs c n}.
Local Open Scope R_scope.

Unset Strict Implicit.
(** *** Exact arithmetic *)
Lemma weight_at_comp (ws : weights_state RN) i w : weight_at ws i = Some w -> comp ws i 0 = w.
Proof.
  intros H. apply weight_at_spec in H. destruct H as [v H]. exact (@comp_nth ws i (w :: v) 0 H).
Qed.

Lemma Forall2_weight_at (ws : weights_state RN) is wts :
  Forall2 (fun i w => weight_at ws i = Some w) is wts ->
  Rsum wts = Rsum (map (fun i => comp ws i 0) is).
Proof.
  induction 1 as [|i w is l H _ IH]; cbn; auto. rn. rewrite !Rsum_cons, IH.
  f_equal. symmetry. apply weight_at_comp. exact H.
Qed.

(** The recorded sum of the cell is the sum of the central weights of its members. *)
Lemma cell_weight_sum (ws : weights_state RN) seed nbrs (c : Cell RN) :
  cell_new ws seed nbrs = Some c ->
  weight_sum c = Rsum (map (fun i => comp ws i 0) (members c)).
Proof.
  intros H. apply cell_new_spec in H.
  destruct H as (w0 & k & wts & Hw & Hk & H2 & Hm & Hs & _). rewrite Hm, Hs. cbn.
  rewrite fold_left_Rplus. rewrite Rsum_cons. rewrite (weight_at_comp Hw).
  pose proof (Forall2_weight_at H2) as H2'. rn. rewrite <- H2'. reflexivity.
Qed.

Lemma resample_seeds_total mw nw nearest seeds (ws : weights_state RN) ws' cells :
  shaped mw nw ws -> resample_seeds mw nearest seeds ws = Some (ws', cells) ->
  forall k, total ws' k = total ws k.
Proof.
  intros Hs H k.
  enough (shaped mw nw ws' /\ total ws' k = total ws k) by tauto.
  revert H. apply (@resample_seeds_inv RN mw nearest (fun w => shaped mw nw w /\ total w k = total ws k)); auto.
  intros ws1 ws2 seed nbrs c w _ [H1 H2] _ _ _ _ _ Hr. split; [eapply resample_shaped; eauto|].
  rewrite (resample_total _ (shaped_wf H1) Hr). exact H2.
Qed.

(** *** No negative weight survives *)
Lemma weight_at_of_comp mw nw (ws : weights_state RN) i :
  shaped mw nw ws -> (i < length ws)%nat -> weight_at ws i = Some (comp ws i 0).
Proof.
  intros Hs Hi. destruct (shaped_weight_at Hs Hi) as [w Hw]. rewrite Hw.
  f_equal. symmetry. apply weight_at_comp. exact Hw.
Qed.

Lemma Rsum_members_all (f : nat -> R) m n :
  NoDup m -> (forall i, In i m <-> (i < n)%nat) -> Rsum (map f m) = Rsum (map f (seq 0 n)).
Proof.
  intros Hnd Hin. apply Rsum_perm, Permutation_map, NoDup_Permutation; auto.
  - apply seq_NoDup.
  - intros i. rewrite Hin, in_seq. lia.
Qed.

Lemma mean_nonneg l : 0 <= Rsum l -> 0 <= mean l.
Proof.
  intros H. unfold mean, Rdiv. destruct l as [|a t].
  - rewrite Rsum_nil. lra.
  - apply Rmult_le_pos; auto. left. apply Rinv_0_lt_compat. apply lt_0_INR. cbn. lia.
Qed.

Lemma cell_sum_nonneg (ws : weights_state RN) seed nbrs (c : Cell RN) :
  neighbours_of (length ws) seed nbrs -> (seed < length ws)%nat ->
  (forall i, (i < length ws)%nat -> i <> seed -> In i (map fst nbrs)) ->
  0 <= total ws 0 ->
  comp ws seed 0 <= 0 ->
  cell_new ws seed nbrs = Some c ->
  0 <= weight_sum c.
Proof.
  intros Hnb Hlt Hcompl Htot Hle H.
  destruct (cell_members Hlt Hnb H) as (Hnd & Hin & Hseed & Hne).
  rewrite (cell_weight_sum H).
  pose proof H as H'. apply cell_new_spec in H'.
  destruct H' as (w0 & k & wts & Hw & Hk & H2 & Hm & Hs & Hr & Hneg & Hstop).
  destruct (Nat.eq_dec k (length nbrs)) as [->|Hne'].
  - rewrite firstn_all in Hm.
    rewrite (@Rsum_members_all (fun i => comp ws i 0) _ (length ws) Hnd).
    + rewrite <- total_index. exact Htot.
    + intros i. split; auto. intros Hi. rewrite Hm. destruct (Nat.eq_dec i seed) as [->|Hn].
      * left; auto.
      * right. auto.
  - destruct Hstop as [_ Hst]; [lia|]. cbn in Hst. apply Rleb_true in Hst.
    rewrite (cell_weight_sum H) in Hst. exact Hst.
Qed.

Lemma no_negative_survives mw nw nearest seeds (ws : weights_state RN) ws' cells :
  shaped mw nw ws -> complete_search (length ws) nearest -> 0 <= total ws 0 ->
  (forall i, (i < length ws)%nat -> comp ws i 0 < 0 -> In i seeds) ->
  resample_seeds mw nearest seeds ws = Some (ws', cells) ->
  forall i, (i < length ws')%nat -> 0 <= comp ws' i 0.
Proof.
  unfold resample_seeds. generalize (@nil (Cell RN)). revert ws.
  induction seeds as [|s t IH]; intros ws cs Hs Hc Htot Hneg H i Hi; cbn [ofold] in H.
  - injection H as <- <-. apply Rnot_lt_le. intros Hlt. exact (Hneg i Hi Hlt).
  - destruct (seed_step mw nearest (ws, cs) s) as [[ws1 cs1]|] eqn:E; [|discriminate].
    apply seed_step_inv in E.
    destruct E as (w & Hw & Hlt & [(H0 & -> & ->) | (H0 & nbrs & c & Hn & Hcn & Hr & _)]).
    + refine (IH ws cs Hs Hc Htot _ H i Hi).
      intros j Hj Hj0. destruct (Hneg j Hj Hj0) as [<-|]; auto.
      apply weight_at_comp in Hw. cbn in H0. apply Rltb_true in H0. rn. lra.
    + pose proof (resample_frame _ _ _ Hr) as (_ & _ & Hlen & _).
      destruct (Hc s Hlt) as (nbrs' & Hn' & Hnb & Hcompl). rewrite Hn in Hn'. injection Hn' as <-.
      refine (IH ws1 cs1 _ _ _ _ H i Hi).
      * eapply resample_shaped; eauto.
      * rewrite Hlen. exact Hc.
      * rewrite (resample_total _ (shaped_wf Hs) Hr). exact Htot.
      * intros j Hj Hj0. rewrite Hlen in Hj.
        destruct (in_dec Nat.eq_dec j (members c)) as [Hin|Hnin].
        -- exfalso. rewrite (resample_mean _ (shaped_wf Hs) Hr j 0 Hin) in Hj0.
           assert (0 <= mean (map (fun j => comp ws j 0) (members c))); [|lra].
           apply mean_nonneg. rewrite <- (cell_weight_sum Hcn).
           eapply cell_sum_nonneg; eauto.
           apply weight_at_comp in Hw. cbn in H0. apply Rltb_false in H0. rn. lra.
        -- rewrite (@comp_out mw ws c ws1 j 0 Hr Hnin) in Hj0.
           destruct (Hneg j Hj Hj0) as [<-|]; auto.
           exfalso. apply Hnin. destruct (cell_members Hlt Hnb Hcn); tauto.
Qed.

(** *** Weights shrink *)
Lemma total_g_index (g : R -> R) (s : sample) k :
  Rsum (map (fun w => g (nth k w 0)) s) = Rsum (map (fun i => g (comp s i k)) (seq 0 (length s))).
Proof. exact (Rsum_by_index [] (fun w => g (nth k w 0)) s). Qed.

Lemma Rsum_le_mean_abs l : INR (length l) * Rabs (mean l) <= Rsum (map Rabs l).
Proof.
  destruct l as [|a t]; [cbn; rewrite Rsum_nil; lra|].
  assert (0 < INR (length (a :: t))) by (apply lt_0_INR; cbn; lia).
  rewrite <- (Rabs_pos_eq (INR (length (a :: t)))) by lra.
  rewrite <- Rabs_mult, mean_times by discriminate. apply Rabs_Rsum.
Qed.

Lemma Rsum_neg_le l : Rmax (- Rsum l) 0 <= Rsum (map (fun x => Rmax (- x) 0) l).
Proof.
  induction l as [|a t IH]; cbn [map].
  - rewrite !Rsum_nil. unfold Rmax. destruct Rle_dec; lra.
  - rewrite !Rsum_cons. revert IH. unfold Rmax. repeat destruct Rle_dec; lra.
Qed.

Lemma mean_neg l : INR (length l) * Rmax (- mean l) 0 <= Rsum (map (fun x => Rmax (- x) 0) l).
Proof.
  destruct l as [|a t]; [cbn; rewrite Rsum_nil; lra|].
  assert (Hp : 0 < INR (length (a :: t))) by (apply lt_0_INR; cbn; lia).
  rewrite <- RmaxRmult by lra. rewrite Rmult_0_r, <- Ropp_mult_distr_r, mean_times by discriminate.
  apply Rsum_neg_le.
Qed.

Lemma resample_convex (g : R -> R) mw (ws : weights_state RN) (c : Cell RN) ws' :
  (forall l, l <> [] -> INR (length l) * g (mean l) <= Rsum (map g l)) ->
  wf_weights mw ws ->
  cell_resample mw ws c = Some ws' -> forall k,
  Rsum (map (fun w => g (nth k w 0)) ws') <= Rsum (map (fun w => g (nth k w 0)) ws).
Proof.
  intros Hg Hwf H k.
  pose proof (resample_frame _ _ _ H) as (Hnd & Hlt & Hlen & avg & Hframe).
  rn. rewrite !total_g_index. rewrite Hlen.
  pose proof (@Rsum_change (length ws) (members c) (fun i => g (comp ws' i k)) (fun i => g (comp ws i k))
    Hnd Hlt (fun i Hi => f_equal g (@comp_out mw ws c ws' i k H Hi))) as Hc.
  destruct (members c) as [|m0 ms] eqn:Em.
  { cbn in Hc. rewrite !Rsum_nil in Hc. lra. }
  rewrite <- Em in *.
  rewrite (@Rsum_map_ext _ (fun i => g (comp ws' i k))
     (fun _ => g (mean (map (fun j => comp ws j k) (members c)))) (members c)) in Hc.
  2:{ intros i Hi. f_equal. eapply resample_mean; eauto. }
  rewrite Rsum_map_const in Hc.
  rewrite <- (map_length (fun j => comp ws j k) (members c)) in Hc.
  specialize (Hg (map (fun j => comp ws j k) (members c))).
  rewrite map_map in Hg. assert (map (fun j => comp ws j k) (members c) <> []).
  { rewrite Em. discriminate. }
  specialize (Hg H0). lra.
Qed.

Lemma resample_total_abs mw (ws : weights_state RN) (c : Cell RN) ws' :
  wf_weights mw ws -> cell_resample mw ws c = Some ws' ->
  forall k, total_abs ws' k <= total_abs ws k.
Proof.
  intros Hwf H k. apply (@resample_convex Rabs) with (mw := mw) (c := c); auto.
  intros l _. apply Rsum_le_mean_abs.
Qed.

Lemma resample_total_neg mw (ws : weights_state RN) (c : Cell RN) ws' :
  wf_weights mw ws -> cell_resample mw ws c = Some ws' ->
  forall k, total_neg ws' k <= total_neg ws k.
Proof.
  intros Hwf H k. apply (@resample_convex (fun x => Rmax (- x) 0)) with (mw := mw) (c := c); auto.
  intros l _. apply mean_neg.
Qed.

Lemma mean_between lo hi l : l <> [] -> (forall x, In x l -> lo <= x <= hi) -> lo <= mean l <= hi.
Proof.
  intros Hne H. assert (Hp : 0 < INR (length l)) by (apply lt_0_INR; destruct l; cbn; [congruence|lia]).
  pose proof (mean_times Hne) as Hm.
  assert (H1 : INR (length l) * lo <= Rsum l).
  { rewrite <- Rsum_map_const. rewrite <- (map_id l) at 2. apply Rsum_map_le. intros x Hx.
    apply H in Hx. lra. }
  assert (H2 : Rsum l <= INR (length l) * hi).
  { rewrite <- Rsum_map_const. rewrite <- (map_id l) at 1. apply Rsum_map_le. intros x Hx.
    apply H in Hx. lra. }
  rewrite <- Hm in *. split; apply Rmult_le_reg_l with (INR (length l)); auto.
Qed.

Lemma resample_within mw (ws : weights_state RN) (c : Cell RN) ws' lo hi k :
  wf_weights mw ws -> cell_resample mw ws c = Some ws' -> within lo hi k ws -> within lo hi k ws'.
Proof.
  intros Hwf H Hw i Hi.
  pose proof (resample_frame _ _ _ H) as (Hnd & Hlt & Hlen & _).
  destruct (in_dec Nat.eq_dec i (members c)) as [Hin|Hnin].
  - rewrite (resample_mean _ Hwf H i k Hin). apply mean_between.
    + destruct (members c); [destruct Hin|discriminate].
    + intros x Hx. apply in_map_iff in Hx. destruct Hx as (j & <- & Hj). apply Hw. auto.
  - rewrite (@comp_out mw ws c ws' i k H Hnin). apply Hw. rn. rewrite <- Hlen. exact Hi.
Qed.

Lemma resample_seeds_shrinks mw nw nearest seeds (ws : weights_state RN) ws' cells :
  shaped mw nw ws -> resample_seeds mw nearest seeds ws = Some (ws', cells) ->
  forall k, total_abs ws' k <= total_abs ws k /\ total_neg ws' k <= total_neg ws k /\
    forall lo hi, within lo hi k ws -> within lo hi k ws'.
Proof.
  intros Hs H k.
  enough (shaped mw nw ws' /\ total_abs ws' k <= total_abs ws k /\
    total_neg ws' k <= total_neg ws k /\ forall lo hi, within lo hi k ws -> within lo hi k ws') by tauto.
  revert H. apply (@resample_seeds_inv RN mw nearest (fun w => shaped mw nw w /\
    total_abs w k <= total_abs ws k /\ total_neg w k <= total_neg ws k /\
    forall lo hi, within lo hi k ws -> within lo hi k w)); [|split; [auto|split; [lra|split; [lra|auto]]]].
  intros ws1 ws2 seed nbrs c w _ (H1 & H2 & H3 & H4) _ _ _ _ _ Hr.
  pose proof (resample_total_abs (shaped_wf H1) Hr k).
  pose proof (resample_total_neg (shaped_wf H1) Hr k).
  split; [eapply resample_shaped; eauto|]. split; [lra|]. split; [lra|].
  intros lo hi Hw. eapply resample_within; eauto. eapply shaped_wf; eauto.
Qed.
