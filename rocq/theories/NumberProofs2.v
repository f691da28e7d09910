(** The sum of the weights in the output files, with binary64 arithmetic. *)
From Coq Require Import Reals Lra List Arith Lia ZArith Bool Permutation.
From Verif Require Import Base BaseProofs Num ModelEvent ModelSeeds SeedsProofs ModelCell ModelResampler SpecWeights CellProofs RunProofs RunProofs2 ModelText ModelIO ModelStripper
  ModelCres SpecCres SumProofs CresProofs CresProofs2 ModelMain SpecMain MainProofs MainProofs2 MainProofs3 B64Proofs SpecRounding B64Errors B64Run B64Run2 SpecNumber.
Import ListNotations.
Local Open Scope R_scope.

Lemma seeds_cells (N : NumOps) mw nearest seeds : forall (ws : weights_state N) ws' cells,
  resample_seeds mw nearest seeds ws = Some (ws', cells) -> (length cells <= length seeds)%nat.
Proof.
  intros ws ws' cells H. unfold resample_seeds in H. revert H.
  enough (Hi : forall seeds st st', ofold (seed_step (N := N) mw nearest) seeds st = Some st' -> (length (snd st') <= length (snd st) + length seeds)%nat)
    by (intros H; apply Hi in H; cbn in H; lia).
  clear. induction seeds as [|seed seeds IH]; intros st st' H; cbn [ofold] in H; [injection H as <-; cbn; lia|].
  destruct (seed_step mw nearest st seed) as [st1|] eqn:E; [|discriminate]. apply IH in H. cbn [length].
  enough (length (snd st1) <= length (snd st) + 1)%nat by lia. clear H IH.
  destruct st as [ws1 c1]. unfold seed_step in E. cbn [fst snd] in *.
  destruct (length ws1 <=? seed)%nat; [discriminate|]. destruct (weight_at ws1 seed) as [w|]; [|discriminate].
  destruct (nltb n0 w); [injection E as <-; cbn; lia|]. destruct (nearest seed) as [nb|]; [|discriminate].
  destruct (cell_new ws1 seed nb) as [c|]; [|discriminate]. destruct (cell_resample mw ws1 c) as [ws3|]; [|discriminate]. injection E as <-. cbn [snd]. rewrite app_length. cbn. lia.
Qed.

Lemma fin_not_nan (ws : list (list B64)) i w : finite_sample ws -> weight_at (N := B64) ws i = Some w -> not_nan w.
Proof.
  intros Hf H. apply weight_at_spec in H. destruct H as [v H]. apply b64_fin_not_nan.
  assert (Hin : In (w :: v) ws) by (eapply nth_error_In; exact H). unfold finite_sample in Hf. rewrite Forall_forall in Hf. specialize (Hf _ Hin). inversion Hf; assumption.
Qed.

(** Resampling all events, with the closed bound *)
Lemma resampler_error mw nw sort strategy (algo : search_algo B64) dist max (evs evs' : list (Event B64)) cells :
  sort_ok sort -> shaped mw nw (map ev_weights evs) -> (Z.of_nat (length evs) <= 2 ^ 53)%Z ->
  finite_sample (map ev_weights evs) -> finite_sample (map ev_weights evs') ->
  resampler_resample mw sort strategy algo dist max evs = Some (evs', cells) ->
  forall k, Rabs (total (b64_sample (map ev_weights evs')) k - total (b64_sample (map ev_weights evs)) k) <=
    rounding_error (length evs) (total_abs (b64_sample (map ev_weights evs)) k).
Proof.
  intros Hsort Hs Hz Hf Hf' H k.
  apply resampler_inv in H. destruct H as (seeds & ws' & H1 & H2 & ->).
  pose proof (resample_seeds_length _ _ _ _ H2) as Hl. rewrite map_length in Hl.
  destruct (with_weights_spec _ _ Hl) as (E1 & _).
  pose proof (seeds_cells _ _ _ _ _ _ _ H2) as Hc.
  assert (Hsl : (length seeds <= length evs)%nat).
  { assert (HD : forall i w, weight_at (N := B64) (map ev_weights evs) i = Some w -> not_nan w) by (intros i w; apply fin_not_nan; exact Hf).
    destruct (select_seeds_spec _ _ Hsort B64_order HD H1) as (Hnd & _).
    pose proof (select_seeds_lt Hsort B64_order HD H1) as Hlt.
    rewrite <- (seq_length (length evs) 0). apply NoDup_incl_length; [exact Hnd|]. intros i Hi. apply in_seq. specialize (Hlt i Hi). rewrite map_length in Hlt. lia. }
  unfold weights_state in *. cbn [num B64] in *. rewrite E1 in *.
  apply resample_seeds_cells in H2. destruct (cells_small _ _ _ H2) as [S2 S1]. rewrite map_length in S1, S2.
  assert (Hz' : (Z.of_nat (length (map ev_weights evs)) <= 2 ^ 53)%Z) by (rewrite map_length; exact Hz).
  destruct (proj2 (run_total_err _ (shaped_wf Hs) Hz' (finite_valid Hf) Hf' H2) k) as [He _]. eapply Rle_trans; [exact He|].
  unfold rounding_error. set (n := length evs) in *.
  assert (S1' : rounding (cells_steps cells) <= rounding (n * (n + 1))) by (apply rounding_mono; eapply Nat.le_trans; [exact S1|]; apply Nat.mul_le_mono_r; lia).
  assert (S2' : INR (cells_members cells) <= INR (n * n)) by (apply le_INR; eapply Nat.le_trans; [exact S2|]; apply Nat.mul_le_mono_r; lia).
  pose proof (total_abs_pos (b64_sample (map ev_weights evs)) k). pose proof (rounding_pos (cells_steps cells)).
  assert (Hh : 0 < half_ulp_min) by (unfold half_ulp_min; apply Rinv_0_lt_compat, pow_lt; lra).
  apply Rplus_le_compat; [apply Rmult_le_compat_r; assumption|].
  apply Rmult_le_compat; [lra| |lra|apply Rmult_le_compat_r; lra]. apply Rmult_le_pos; [apply pos_INR|lra].
Qed.

Section Run.
Context (Rec Err : Type) (is_ntuple : Rec -> bool) (convert : Rec -> Event B64 + Err)
  (cluster : Event B64 -> Event B64 + Err) (sort sort' : sorter)
  (shuffle : list (Event B64 + @cres_error Err) -> list (Event B64 + @cres_error Err)) (strategy : Strategy)
  (algo : search_algo B64) (dist : Event B64 -> Event B64 -> B64) (max : B64)
  (records : list (Rec + Err)) (W : list (list B64)) (evs : list (Event B64)).
Notation resample := (lib_resample (N := B64) (Err := Err) false sort' strategy algo dist max).
Notation input := (map ev_weights evs).
Hypothesis Hs : reorders shuffle.
Hypothesis Hsort : sort_ok sort.
Hypothesis Hsort' : sort_ok sort'.
Hypothesis He : events_of convert cluster records evs.
Hypothesis Hshape : shaped false 1 input.
Hypothesis Hsize : (Z.of_nat (length evs) <= 2 ^ 53)%Z.
Hypothesis Hfin : finite_sample input.
Hypothesis HfinW : finite_sample W.

Definition real_event (e : Event B64) : Event RN := mkEvent (ev_id e) (map b64_val (ev_weights e)) [].
Definition written64 (old new : list (list B64)) : list (list B64) := map (fun x => written_weights (N := B64) (fst x) (snd x)) (combine old new).
Lemma written64_real old new : b64_sample (written64 old new) = written (b64_sample old) (b64_sample new).
Proof.
  unfold written64, written, b64_sample. revert new. induction old as [|o old IH]; intros [|w new]; try reflexivity.
  cbn [combine map fst snd]. apply f_equal2; [|apply IH]. unfold written_weights, weights_is_empty. destruct w; reflexivity.
Qed.

Lemma events_fun evs' : events_of convert cluster records evs' -> evs' = evs.
Proof.
  destruct He as [H1 H2]. intros [H3 H4]. apply nth_error_ext. intros n.
  destruct (nth_error records n) as [r|] eqn:Er.
  - assert (n < length records)%nat by (apply nth_error_Some; congruence).
    destruct (nth_error evs n) as [e|] eqn:E1; [|apply nth_error_None in E1; lia].
    destruct (nth_error evs' n) as [e'|] eqn:E2; [|apply nth_error_None in E2; lia].
    destruct (H2 _ _ _ Er E1) as (a & b & c & -> & A1 & A2 & _ & ->).
    destruct (H4 _ _ _ Er E2) as (a' & b' & c' & A & B1 & B2 & _ & ->). injection A as <-. congruence.
  - apply nth_error_None in Er. transitivity (@None (Event B64)); [|symmetry]; apply nth_error_None; lia.
Qed.

Lemma b64_used (used : list (Event B64)) k : Permutation (filter has_particles evs) used ->
  total (b64_sample input) k = total (b64_sample (map ev_weights used)) k
     + total (b64_sample (map ev_weights (filter (fun e => negb (has_particles e)) evs))) k /\
  total_abs (b64_sample (map ev_weights used)) k <= total_abs (b64_sample input) k.
Proof.
  intros Hp. unfold total, total_abs, b64_sample. rewrite !map_map. split.
  - rewrite (Rsum_split has_particles). f_equal. apply Rsum_perm. apply Permutation_map. exact Hp.
  - rewrite (Rsum_split has_particles _ evs). rewrite (Rsum_perm (Permutation_map (fun e => Rabs (nth k (map b64_val (ev_weights e)) 0)) Hp)).
    enough (0 <= Rsum (map (fun e => Rabs (nth k (map b64_val (ev_weights e)) 0)) (filter (fun e => negb (has_particles e)) evs))) by lra.
    apply Rsum_nonneg. intros x Hx. apply in_map_iff in Hx as (y & <- & _). apply Rabs_pos.
Qed.

Lemma run_total_rounded :
  cres_run is_ntuple convert cluster false sort shuffle resample lib_no_unweight records = Wrote W ->
  Rabs (total (b64_sample (written64 input W)) 0 -
      (total (b64_sample input) 0 - total (b64_sample (map ev_weights (filter (fun e => negb (has_particles e)) evs))) 0)) <=
    rounding_error (length evs) (total_abs (b64_sample input) 0).
Proof.
  intros H. destruct (run_wrote Hs Hsort H) as (Hl & evs' & used & evs1 & evs2 & He' & Hp & Hr & Hu & Hid & Hw).
  apply events_fun in He'. subst evs'. cbn in Hu. injection Hu as <-.
  unfold lib_resample in Hr. destruct (resampler_resample false sort' strategy algo dist max used) as [[evs1' cells]|] eqn:Er; [|discriminate].
  injection Hr as ->.
  assert (Hlen : length evs = length records) by (apply He).
  assert (Hul : (length used <= length evs)%nat) by (rewrite <- (Permutation_length Hp); clear; induction evs as [|e l IH]; [apply le_n|]; cbn [filter length]; destruct (has_particles e); cbn [length]; lia).
  assert (Hus : forall P : Event B64 -> Prop, (forall e, In e evs -> P e) -> forall e, In e used -> P e).
  { intros P HP e Hin. eapply Permutation_in in Hin; [|apply Permutation_sym; exact Hp]. apply filter_In in Hin. apply HP, Hin. }
  assert (Hshu : shaped false 1 (map ev_weights used)).
  { destruct Hshape as (H1 & H2 & H3). split; [exact H1|]. split; [exact H2|]. apply Forall_map, Forall_forall. apply Hus. intros e Hin. unfold uniform in H3. rewrite Forall_forall in H3. apply H3. apply in_map. exact Hin. }
  assert (Hfu : finite_sample (map ev_weights used)).
  { apply Forall_map, Forall_forall. apply Hus. intros e Hin. unfold finite_sample in Hfin. rewrite Forall_forall in Hfin. apply Hfin. apply in_map. exact Hin. }
  pose proof Er as Ei. apply resampler_inv in Ei. destruct Ei as (seeds & ws' & _ & E2 & Ew).
  pose proof (resample_seeds_length _ _ _ _ E2) as Hl'. rewrite map_length in Hl'. destruct (with_weights_spec _ _ Hl') as (W1 & W2 & _).
  assert (T1 : map ev_id evs1 = map ev_id used) by (rewrite Ew; exact W2).
  assert (Hnd : NoDup (map ev_id evs1)) by (rewrite T1; eapply used_nodup; eauto).
  destruct (Hw Hnd) as [Hw1 Hw2]. clear Hw.
  assert (Hf1 : finite_sample (map ev_weights evs1)).
  { apply Forall_map, Forall_forall. intros e Hin. specialize (Hw1 e Hin). unfold finite_sample in HfinW. rewrite Forall_forall in HfinW. apply HfinW. eapply nth_error_In. exact Hw1. }
  assert (Hz : (Z.of_nat (length used) <= 2 ^ 53)%Z) by lia.
  pose proof (@resampler_error false 1 sort' strategy algo dist max used evs1 cells Hsort' Hshu Hz Hfu Hf1 Er 0%nat) as Herr.
  assert (Hne : forall e, In e evs1 -> ev_weights e <> []).
  { intros e Hin E. assert (H3 : shaped false 1 ws') by (eapply resample_seeds_shaped; [exact Hshu|exact E2]). destruct H3 as (_ & _ & H3). unfold uniform in H3. rewrite Forall_forall in H3.
    assert (Hi : In (ev_weights e) ws') by (rewrite <- W1, <- Ew; apply in_map; exact Hin). specialize (H3 _ Hi). rewrite E in H3. discriminate H3. }
  destruct (b64_used used 0 Hp) as [Ht Ha].
  assert (HW : total (b64_sample (written64 input W)) 0 = total (b64_sample (map ev_weights evs1)) 0).
  { rewrite written64_real. rewrite (@written_total false (b64_sample input) (b64_sample W) (map real_event evs1) 0).
    - rewrite Rplus_0_r. unfold b64_sample. rewrite !map_map. reflexivity.
    - unfold b64_sample. rewrite !map_length, Hlen. exact Hl.
    - rewrite map_map. exact Hnd.
    - intros e Hin. apply in_map_iff in Hin as (e0 & <- & Hin). cbn [real_event ev_id ev_weights]. unfold b64_sample. rewrite !map_length. split; [rewrite Hlen; apply Hid; exact Hin|]. split.
      + pose proof (Hne e0 Hin). destruct (ev_weights e0); [congruence|discriminate].
      + apply map_nth_error. apply Hw1. exact Hin.
    - intros n Hn Hnin. unfold b64_sample in *. rewrite !map_length in Hn. change (weights_default (N := RN) false) with (map b64_val (weights_default (N := B64) false)).
      apply map_nth_error. apply Hw2; [rewrite <- Hlen; exact Hn|]. rewrite map_map in Hnin. exact Hnin. }
  rewrite HW, Ht.
  replace (total (b64_sample (map ev_weights evs1)) 0 - (total (b64_sample (map ev_weights used)) 0 + total (b64_sample (map ev_weights (filter (fun e => negb (has_particles e)) evs))) 0 -
     total (b64_sample (map ev_weights (filter (fun e => negb (has_particles e)) evs))) 0)) with (total (b64_sample (map ev_weights evs1)) 0 - total (b64_sample (map ev_weights used)) 0) by ring.
  eapply Rle_trans; [exact Herr|]. unfold rounding_error. set (n := length used) in *. set (n' := length evs) in *.
  assert (R1 : rounding (n * (n + 1)) <= rounding (n' * (n' + 1))) by (apply rounding_mono, Nat.mul_le_mono; lia).
  assert (R2 : INR (n * n) <= INR (n' * n')) by (apply le_INR, Nat.mul_le_mono; lia).
  pose proof (rounding_pos (n * (n + 1))). pose proof (total_abs_pos (b64_sample (map ev_weights used)) 0).
  assert (Hh : 0 < half_ulp_min) by (unfold half_ulp_min; apply Rinv_0_lt_compat, pow_lt; lra).
  apply Rplus_le_compat; [apply Rmult_le_compat; assumption|].
  apply Rmult_le_compat; [lra| |lra|apply Rmult_le_compat_r; lra]. apply Rmult_le_pos; [apply pos_INR|lra].
Qed.

(** every event gets one weight *)
Lemma run_single :
  cres_run is_ntuple convert cluster false sort shuffle resample lib_no_unweight records = Wrote W -> Forall (fun ws => length ws = 1%nat) W.
Proof.
  clear HfinW Hfin Hsize. intros H. destruct (run_wrote Hs Hsort H) as (Hl & evs' & used & evs1 & evs2 & He' & Hp & Hr & Hu & Hid & Hw).
  apply events_fun in He'. subst evs'. cbn in Hu. injection Hu as <-.
  unfold lib_resample in Hr. destruct (resampler_resample false sort' strategy algo dist max used) as [[evs1' cells]|] eqn:Er; [|discriminate].
  injection Hr as ->.
  assert (Hshu : shaped false 1 (map ev_weights used)).
  { destruct Hshape as (H1 & H2 & H3). split; [exact H1|]. split; [exact H2|]. apply Forall_map, Forall_forall. intros e Hin.
    eapply Permutation_in in Hin; [|apply Permutation_sym; exact Hp]. apply filter_In in Hin as [Hin _]. unfold uniform in H3. rewrite Forall_forall in H3. apply H3. apply in_map. exact Hin. }
  apply resampler_inv in Er. destruct Er as (seeds & ws' & _ & E2 & Ew).
  pose proof (resample_seeds_length _ _ _ _ E2) as Hl'. rewrite map_length in Hl'. destruct (with_weights_spec _ _ Hl') as (W1 & W2 & _).
  assert (Hnd : NoDup (map ev_id evs1)) by (rewrite Ew, W2; eapply used_nodup; eauto).
  destruct (Hw Hnd) as [Hw1 Hw2]. apply Forall_forall. intros ws Hin. apply In_nth_error in Hin as [n Hn].
  destruct (in_dec Nat.eq_dec n (map ev_id evs1)) as [Hi|Hi].
  - apply in_map_iff in Hi as (e & <- & Hi). rewrite (Hw1 e Hi) in Hn. injection Hn as <-.
    assert (H3 : shaped false 1 ws') by (eapply resample_seeds_shaped; [exact Hshu|exact E2]). destruct H3 as (_ & _ & H3). unfold uniform in H3. rewrite Forall_forall in H3.
    apply H3. rewrite <- W1, <- Ew. apply in_map. exact Hi.
  - assert (Hlt : (n < length records)%nat) by (rewrite <- Hl; apply nth_error_Some; congruence). rewrite (Hw2 n Hlt Hi) in Hn. injection Hn as <-. reflexivity.
Qed.
End Run.
