(** Lemmas for C74: the weights at the end of a run. *)
From Coq Require Import Reals Lra List Arith Lia Permutation Ascii Bool ZArith.
From Verif Require Import Base BaseProofs Num ModelEvent SpecEvent EventProofs ModelText TextProofs ModelHepMC ModelLHEF ModelStripper ModelIO IOProofs FormatProofs
  ModelSeeds ModelNaive NaiveProofs SpecTree ModelVPTree VPTreeProofs2 SpecSearch RunProofs2 ModelResampler ModelDistance SpecDistance DistanceProofs DistanceProofs2
  ModelCluster ModelOpt ModelUnweight ModelCres SpecCres SpecWeights CresProofs CresProofs2 ModelMain SpecMain MainProofs MainProofs2 MainProofs3 ModelProgram ProgramProofs
  SpecUnweight UnweightProofs SumProofs PropsTree.
Import ListNotations.
Local Open Scope nat_scope.

(** *** Unweighting keeps weights nonnegative *)
Definition pos (e : Event RN) : Prop := exists w, ev_weights e = [w] /\ (0 <= w)%R.
Definition spos (e : Event RN) : Prop := exists w, ev_weights e = [w] /\ (0 < w)%R.
Lemma retain_pos (m : R) draws (l : list (Event RN)) : (0 < m)%R -> (forall k, (0 <= draws k)%R) -> Forall pos l -> forall k l' k',
  retain_loop (N := RN) m draws k l = Some (l', k') -> Forall spos l'.
Proof.
  intros Hm Hd. induction 1 as [|e l (w & Hw & Hw0) _ IH]; intros k l' k' H; cbn [retain_loop] in H.
  - injection H as <- _. constructor.
  - unfold ev_weight in H. rewrite Hw in H. cbn [central nth_error] in H.
    destruct (nltb m (nabs w)) eqn:E.
    + destruct (retain_loop m draws k l) as [[r k1]|] eqn:Er; [|discriminate]. injection H as <- _. constructor; [|eauto].
      exists w. split; [exact Hw|]. apply Rltb_true in E. cbn in E. rewrite Rabs_pos_eq in E by lra. lra.
    + destruct (retain_loop m draws (S k) l) as [[r k1]|] eqn:Er; [|discriminate]. injection H as <- _.
      destruct (Rltb (draws k) (Rabs w)) eqn:E2; [|eauto]. constructor; [|eauto].
      exists w. split; [exact Hw|]. apply Rltb_true in E2. cbn in E2. rewrite Rabs_pos_eq in E2 by lra. specialize (Hd k). lra.
Qed.
Lemma lift_pos (m : R) (l l' : list (Event RN)) : (0 < m)%R -> Forall spos l -> omap (lift_weight (N := RN) m) l = Some l' -> Forall spos l'.
Proof.
  intros Hm H. revert l'. induction H as [|e l (w & Hw & Hw0) _ IH]; intros l' H; cbn [omap] in H; [injection H as <-; constructor|].
  unfold lift_weight at 1, ev_weight in H. rewrite Hw in H. cbn [central nth_error] in H.
  destruct (omap (lift_weight m) l) as [l2|]; [|discriminate]. injection H as <-. constructor; [|auto].
  destruct (Rltb (Rabs w) m).
  - unfold rescale_weights. eexists. cbn [ev_weights]. rewrite Hw. split; [reflexivity|]. cbn.
    apply Rmult_lt_0_compat; [exact Hw0|]. apply Rdiv_lt_0_compat; [exact Hm|]. rewrite Rabs_pos_eq; lra.
  - exists w. auto.
Qed.
Lemma sum_pos (l : list (Event RN)) : Forall pos l -> (0 <= Rsum (map cw l))%R.
Proof.
  induction 1 as [|e l (w & Hw & Hw0) _ IH]; [apply Rle_refl|]. cbn [map Rsum fold_right]. unfold cw at 1. rewrite Hw. cbn [nth].
  exact (Rplus_le_le_0_compat _ _ Hw0 IH).
Qed.
Lemma spos_pos l : Forall spos l -> Forall pos l.
Proof. apply Forall_impl. intros e (w & H & H0). exists w. split; [exact H|lra]. Qed.
Lemma pos_ne l : Forall pos l -> Forall (fun e : Event RN => ev_weights e <> []) l.
Proof. apply Forall_impl. intros e (w & -> & _). discriminate. Qed.
Lemma unweight_pos psum (m : R) draws l l' k : (0 <= m)%R -> (forall x, psum x = Rsum x) -> (forall k, (0 <= draws k)%R) -> Forall pos l ->
  unweight (N := RN) psum m draws l = Some (l', k) -> Forall pos l'.
Proof.
  intros Hm Hps Hd Hl H. unfold unweight in H. destruct (_ || _); [injection H as <- _; exact Hl|].
  rewrite (omap_ev_weight (pos_ne _ Hl)) in H. destruct (nltb n0 m) eqn:Em; [|discriminate]. cbn [negb] in H. apply Rltb_true in Em. cbn in Em.
  destruct (retain_loop m draws 0 l) as [[kept kk]|] eqn:E1; [|discriminate].
  destruct (omap (lift_weight m) kept) as [lifted|] eqn:E2; [|discriminate].
  pose proof (retain_pos m draws l Em Hd Hl _ _ _ E1) as H1. pose proof (lift_pos m kept lifted Em H1 E2) as H2.
  rewrite (omap_ev_weight (pos_ne _ (spos_pos _ H2))) in H. injection H as <- _. rewrite !Hps. apply Forall_map.
  pose proof (sum_pos l Hl) as Ho. rewrite Forall_forall in *. intros e He. destruct (H2 e He) as (w & Hw & Hw0).
  eexists. unfold rescale_weights. cbn [ev_weights]. rewrite Hw. split; [reflexivity|]. cbn.
  apply Rmult_le_pos; [lra|]. apply Rmult_le_pos; [exact Ho|]. apply Rlt_le, Rinv_0_lt_compat.
  apply in_split in He. destruct He as (l1 & l2 & ->). rewrite map_app. cbn [map].
  assert (A : Forall pos l1) by (apply spos_pos; rewrite Forall_forall; intros x Hx; apply H2; apply in_or_app; auto).
  assert (B : Forall pos l2) by (apply spos_pos; rewrite Forall_forall; intros x Hx; apply H2; apply in_or_app; right; right; auto).
  apply sum_pos in A, B. rewrite Rsum_app. cbn [Rsum fold_right]. unfold cw at 2. rewrite Hw. cbn [nth].
  exact (Rplus_le_lt_0_compat _ _ A (Rplus_lt_le_0_compat _ _ Hw0 B)).
Qed.

Lemma total_used_split (p : Event RN -> bool) (evs : list (Event RN)) :
  total (map ev_weights evs) 0 = (total (map ev_weights (filter p evs)) 0 + total (map ev_weights (filter (fun e => negb (p e)) evs)) 0)%R.
Proof. unfold total. rewrite !map_map. apply Rsum_split. Qed.

(** *** The run *)
Section Run.
Context (double : parser RN) (sort : sorter) (MAX : R) (km : assignment RN) (neutrino hadron : Z -> bool)
  (delta_r : PseudoJet RN -> PseudoJet RN -> RN)
  (cluster_if : JetAlgorithm -> RN -> (PseudoJet RN -> bool) -> list (PseudoJet RN) -> list (PseudoJet RN))
  (choose : chooser) (psum : list R -> R) (draws : nat -> R)
  (shuffle : list (Event RN + @cres_error (option read_error)) -> list (Event RN + @cres_error (option read_error)))
  (opt : cres_opt RN) (mw : bool) (c : DefaultClustering RN).
Notation cluster := (default_cluster neutrino hadron delta_r cluster_if mw sort c).
Notation max := (match co_max_cell_size opt with Some max => max | None => MAX end).
Hypothesis Hsort : sort_ok sort.
Hypothesis Hkm : km_ok km.
Hypothesis Hch : choose_ok choose.
Hypothesis Hs : reorders shuffle.
Hypothesis Hps : forall x, psum x = Rsum x.
Hypothesis Hdr : forall k, (0 <= draws k)%R.
Hypothesis Hmin : (0 <= co_minweight opt)%R.

Lemma fv_from_physical (e x y z : RN) : physical (fv_from e x y z).
Proof. reflexivity. Qed.

Lemma clustered_built names records evs evs0 : Forall2 (fun r ev => try_convert double mw names sort r = inl ev) records evs ->
  events_of (try_convert double mw names sort) (try_cluster cluster) (map inl records) evs0 ->
  forall e0, In e0 evs0 -> has_particles e0 = true -> built sort e0 /\ exists e e', In e (filter (keeps_particles cluster) evs) /\ cluster e = Some e' /\ ev_out e0 = ev_out e' /\
    nth_error evs (ev_id e0) = Some e.
Proof.
  intros Hc [Hl He] e0 Hin Hpa. apply In_nth_error in Hin. destruct Hin as [i Hi].
  destruct (nth_error records i) as [r|] eqn:Er.
  2:{ apply nth_error_None in Er. assert (i < length evs0) by (apply nth_error_Some; congruence). rewrite map_length in Hl. lia. }
  destruct (He i _ _ (map_nth_error _ _ _ Er) Hi) as (r' & ev & ev' & A & B & C & X). injection A as <-.
  destruct (Forall2_nth _ _ _ _ _ Hc i r Er) as (e1 & E1 & Hr). rewrite B in Hr. injection Hr as <-.
  unfold try_cluster in C. destruct (cluster ev) as [e2|] eqn:Ec; [|discriminate]. injection C as <-. destruct X as [Xi ->]. cbn [ev_out] in *.
  split; [|exists ev, e2; split; [apply filter_In; split; [eapply nth_error_In; exact E1|unfold keeps_particles; rewrite Ec; exact Hpa]|auto]].
  destruct (convert_good double physical fv_from_physical mw names sort r ev B) as (b & Hb & Eb).
  destruct (cluster_good physical fv_from_physical neutrino hadron delta_r cluster_if mw sort c ev e2) as (b' & Hb' & Eb'); [|exact Ec|].
  - apply (built_out sort Hsort). apply (built_good sort b); [exact Hb|rewrite Eb; reflexivity].
  - apply (built_good sort b'); [exact Hb'|]. exact Eb'.
Qed.

Lemma clustered_kept names records evs evs0 : Forall2 (fun r ev => try_convert double mw names sort r = inl ev) records evs ->
  events_of (try_convert double mw names sort) (try_cluster cluster) (map inl records) evs0 ->
  Forall2 (fun e e0 => has_particles e0 = keeps_particles cluster e) evs evs0.
Proof.
  intros Hc [Hl He]. apply Forall2_from_nth.
  - rewrite Hl, map_length. symmetry. exact (Forall2_len _ _ _ _ _ Hc).
  - intros i e e0 Hi Hi0. destruct (nth_error records i) as [r|] eqn:Er.
    2:{ apply nth_error_None in Er. assert (i < length evs) by (apply nth_error_Some; congruence). rewrite (Forall2_len _ _ _ _ _ Hc) in Er. lia. }
    destruct (Forall2_nth _ _ _ _ _ Hc i r Er) as (e1 & E1 & Hr). rewrite Hi in E1. injection E1 as <-.
    destruct (He i _ _ (map_nth_error _ _ _ Er) Hi0) as (r' & ev & ev' & A & B & C & X). injection A as <-. rewrite Hr in B. injection B as <-.
    unfold try_cluster in C. unfold keeps_particles. destruct (cluster e) as [e2|] eqn:Ec; [|discriminate]. injection C as <-. destruct X as [_ ->]. reflexivity.
Qed.
Lemma nth_error_seq k : forall n i, i < k -> nth_error (seq n k) i = Some (n + i).
Proof.
  induction k as [|k IH]; intros n i Hi; [lia|]. destruct i as [|i]; cbn [seq nth_error]; [f_equal; lia|]. rewrite IH by lia. f_equal. lia.
Qed.

Lemma search_complete (used : list (Event RN)) : Forall (built sort) used -> (N.of_nat (length used) <= usize_max)%N ->
  (forall e1 e2 d, In e1 used -> In e2 used -> distance (N := RN) sort km (co_ptweight opt) e1 e2 = Some d -> (d <= max)%R) ->
  complete_search (length used) (search_of sort choose opt (length used) (dist_wrapper (distance_of sort km opt) used) max).
Proof.
  intros Hb Hn Hd.
  assert (Hle : forall i j, i < length used -> j < length used -> (dist_wrapper (N := RN) (distance_of sort km opt) used i j <= max)%R).
  { intros i j Hi Hj. unfold dist_wrapper.
    destruct (nth_error used i) as [e1|] eqn:E1; [|apply nth_error_None in E1; lia].
    destruct (nth_error used j) as [e2|] eqn:E2; [|apply nth_error_None in E2; lia].
    apply nth_error_In in E1, E2. rewrite Forall_forall in Hb.
    destruct (ddist_metric sort km (co_ptweight opt) Hsort Hkm e1 e2 e2 (Hb _ E1) (Hb _ E2) (Hb _ E2)) as (A & _).
    apply (Hd e1 e2 _ E1 E2) in A. exact A. }
  unfold search_of. destruct (co_search opt).
  - apply C07_tree_is_complete; auto. exact (wrapper_metric sort km (co_ptweight opt) Hsort Hkm used Hb).
  - apply naive_complete; auto.
Qed.

Lemma resampled_pos strategy algo dist limit (used evs1 : list (Event RN)) cells : shaped mw 1 (map ev_weights used) ->
  complete_search (length used) (algo (length used) (dist_wrapper dist used) limit) -> (0 <= total (map ev_weights used) 0)%R ->
  resampler_resample mw sort strategy algo dist limit used = Some (evs1, cells) -> map ev_id evs1 = map ev_id used /\ Forall pos evs1.
Proof.
  intros Hsh Hcs Ht Er.
  pose proof (@resampler_no_negative mw 1 sort strategy algo dist limit used evs1 cells Hsort Hsh Hcs Ht Er) as Hnn.
  destruct (resampler_total Hsh Er) as (_ & T1 & _ & Hsh1 & _). split; [exact T1|].
  rewrite Forall_forall. intros e He. specialize (Hnn e He). destruct Hsh1 as (_ & _ & U). unfold uniform in U. rewrite Forall_map, Forall_forall in U. specialize (U e He).
  destruct (ev_weights e) as [|w [|? ?]] eqn:Ee; try discriminate. exists w. split; [exact Ee|]. cbn [nth] in Hnn. exact Hnn.
Qed.

(** for any resampling that leaves no negative weights in the events it is applied to *)
Lemma run_nonneg_gen resample names records evs W : mw = false \/ names = [] ->
  (forall used evs1, Forall (built sort) used -> length used <= length evs ->
     (forall e0, In e0 used -> exists e e', In e (filter (keeps_particles cluster) evs) /\ cluster e = Some e' /\ ev_out e0 = ev_out e' /\ nth_error evs (ev_id e0) = Some e) ->
     shaped mw 1 (map ev_weights used) -> (0 <= total (map ev_weights used) 0)%R -> resample used = Some (inl evs1) ->
     map ev_id evs1 = map ev_id used /\ Forall pos evs1) ->
  Forall2 (fun r ev => try_convert double mw names sort r = inl ev) records evs ->
  run_on double mw names sort cluster shuffle resample (unweighter_of psum draws opt) (map inl records) = Wrote W ->
  (0 <= total (map ev_weights (filter (keeps_particles cluster) evs)) 0)%R ->
  forall n e ws, nth_error evs n = Some e -> nth_error W n = Some ws ->
  (exists w, ws = [w] /\ (0 <= w)%R) \/ (ws = weights_default mw /\ (keeps_particles cluster e = false \/ co_minweight opt <> 0%R)).
Proof.
  intros Hm Hres Hc Hrun Htot. unfold run_on in Hrun. rewrite map_map in Hrun. cbn beta iota in Hrun.
  assert (Hcl : forall e e' : Event RN, cluster e = Some e' -> ev_weights e' = ev_weights e).
  { intros e e' E. destruct (default_cluster_some neutrino hadron delta_r cluster_if mw sort c e) as (e2 & E2 & Hw & _). congruence. }
  destruct (run_wrote Hs Hsort Hrun) as (HlW & evs0 & used & evs1 & evs2 & Hev & Hp & Hr & Hu & Hid & HW).
  destruct (clustered_of double mw names sort cluster Hm Hcl records evs evs0 Hc Hev) as (Hw & Hdr0 & H1).
  assert (Hl0 : length evs0 = length evs) by (rewrite <- (map_length ev_weights evs0), Hw, map_length; reflexivity).
  assert (Hsh0 : shaped mw 1 (map ev_weights evs0)) by (rewrite Hw; split; [lia|split; [auto|exact H1]]).
  pose proof (shaped_used Hsh0 Hp) as Hsh.
  assert (Hin : forall e, In e used -> In e evs0 /\ has_particles e = true).
  { intros e He. eapply Permutation_in in He; [|apply Permutation_sym; exact Hp]. apply filter_In in He. exact He. }
  assert (Hlu : length used <= length evs).
  { rewrite <- Hl0, <- (Permutation_length Hp). clear. induction evs0 as [|e l IH]; [cbn; lia|]. cbn [filter]. destruct (has_particles e); cbn [length]; lia. }
  assert (Ht : (0 <= total (map ev_weights used) 0)%R).
  { pose proof (total_used 0 Hp) as T. rewrite Hw, Hdr0 in T.
    assert (S : total (map ev_weights evs) 0 = (total (map ev_weights (filter (keeps_particles cluster) evs)) 0 + total (map ev_weights (filter (fun e => negb (keeps_particles cluster e)) evs)) 0)%R).
    { apply (total_used_split (keeps_particles cluster)). }
    lra. }
  assert (Hbu : Forall (built sort) used).
  { rewrite Forall_forall. intros e He. apply (clustered_built names records evs evs0 Hc Hev e (proj1 (Hin e He)) (proj2 (Hin e He))). }
  destruct (Hres used evs1 Hbu Hlu) as [T1 Hpos1]; try assumption.
  { intros e He. apply (clustered_built names records evs evs0 Hc Hev e (proj1 (Hin e He)) (proj2 (Hin e He))). }
  unfold unweighter_of, lib_unweight in Hu. destruct (unweight psum (co_minweight opt) draws evs1) as [[x kk]|] eqn:Eu; [|discriminate]. injection Hu as ->.
  pose proof (unweight_pos psum (co_minweight opt) draws evs1 evs2 kk Hmin Hps Hdr Hpos1 Eu) as Hpos2.
  assert (Hnd : NoDup (map ev_id evs2)).
  { eapply thinned_nodup; [eapply unweight_thinned; exact Eu|]. rewrite T1. eapply used_nodup; eauto. }
  destruct (HW Hnd) as [W1 W2]. intros n e ws Hne Hnw.
  assert (Hnl : n < length W) by (apply nth_error_Some; intros E0; pose proof (eq_trans (eq_sym Hnw) E0) as E1; discriminate E1). rewrite HlW in Hnl.
  destruct (in_dec Nat.eq_dec n (map ev_id evs2)) as [Hi|Hi].
  - left. apply in_map_iff in Hi. destruct Hi as (e1 & <- & He). pose proof (eq_trans (eq_sym (W1 e1 He)) Hnw) as E1. injection E1 as <-. rewrite Forall_forall in Hpos2. exact (Hpos2 e1 He).
  - right. pose proof (eq_trans (eq_sym (W2 n Hnl Hi)) Hnw) as E1. injection E1 as <-. split; [reflexivity|].
    destruct (Req_EM_T (co_minweight opt) 0) as [Hz|Hz]; [left|right; exact Hz].
    assert (evs2 = evs1) as ->.
    { unfold unweight in Eu. assert (Q : neqb (co_minweight opt) n0 = true) by (apply Reqb_true; exact Hz). rewrite Q in Eu. injection Eu as <- _. reflexivity. }
    rewrite T1 in Hi. destruct (keeps_particles cluster e) eqn:Ek; [exfalso|reflexivity]. apply Hi.
    destruct (Forall2_nth _ _ _ _ _ (clustered_kept names records evs evs0 Hc Hev) n e Hne) as (e0 & E0 & Hk).
    rewrite Ek in Hk. assert (Hn0 : ev_id e0 = n).
    { pose proof (CresProofs2.events_of_ids Hev) as Hids. apply (map_nth_error ev_id) in E0. rewrite Hids, nth_error_seq in E0 by exact Hnl. injection E0 as <-. reflexivity. }
    rewrite <- Hn0. apply in_map. eapply Permutation_in; [exact Hp|]. apply filter_In. split; [eapply nth_error_In; exact E0|exact Hk].
Qed.

Lemma run_nonneg names records evs W : mw = false \/ names = [] ->
  Forall2 (fun r ev => try_convert double mw names sort r = inl ev) records evs ->
  run_on double mw names sort cluster shuffle (resampler_with sort MAX km choose mw opt) (unweighter_of psum draws opt) (map inl records) = Wrote W ->
  (N.of_nat (length evs) <= usize_max)%N ->
  (forall e1 e2 e1' e2' d, In e1 (filter (keeps_particles cluster) evs) -> In e2 (filter (keeps_particles cluster) evs) -> cluster e1 = Some e1' -> cluster e2 = Some e2' ->
     distance (N := RN) sort km (co_ptweight opt) e1' e2' = Some d -> (d <= max)%R) ->
  (0 <= total (map ev_weights (filter (keeps_particles cluster) evs)) 0)%R ->
  forall n e ws, nth_error evs n = Some e -> nth_error W n = Some ws ->
  (exists w, ws = [w] /\ (0 <= w)%R) \/ (ws = weights_default mw /\ (keeps_particles cluster e = false \/ co_minweight opt <> 0%R)).
Proof.
  intros Hm Hc Hrun Hn Hd Htot. apply (run_nonneg_gen (resampler_with sort MAX km choose mw opt) names records evs W Hm); try assumption.
  intros used evs1 Hbu Hlu Hfrom Hsh Ht Hr.
  assert (Hcs : complete_search (length used) (search_of sort choose opt (length used) (dist_wrapper (distance_of sort km opt) used) max)).
  { apply (search_complete used Hbu); [lia|]. intros e1 e2 d I1 I2 E.
    destruct (Hfrom e1 I1) as (a1 & b1 & A1 & B1 & O1 & _). destruct (Hfrom e2 I2) as (a2 & b2 & A2 & B2 & O2 & _).
    apply (Hd a1 a2 b1 b2 d A1 A2 B1 B2). unfold distance in *. rewrite <- O1, <- O2. exact E. }
  unfold resampler_with, lib_resample in Hr.
  destruct (resampler_resample mw sort (co_strategy opt) (search_of sort choose opt) (distance_of sort km opt) max used) as [[evs1' cells]|] eqn:Er; [|discriminate].
  injection Hr as ->. apply (resampled_pos (co_strategy opt) (search_of sort choose opt) (distance_of sort km opt) max used evs1 cells Hsh Hcs Ht Er).
Qed.
End Run.
