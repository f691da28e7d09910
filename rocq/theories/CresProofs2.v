(** Complete runs with the resampler and the unweighter of the library. *)
From Coq Require Import Reals Lra.
From Verif Require Import Base BaseProofs Num ModelEvent ModelResampler ModelSeeds ModelUnweight ModelCres
  SpecWeights SpecUnweight SpecCres SumProofs CellProofs RunProofs RunProofs2 UnweightProofs CresProofs.
Set Implicit Arguments.
Unset Strict Implicit.

(** [l'] consists of some of the events of [l], in order, with the same ids and momenta. *)
Inductive thinned (N : NumOps) : list (Event N) -> list (Event N) -> Prop :=
| thin_nil : thinned [] []
| thin_drop e l l' : thinned l l' -> thinned (e :: l) l'
| thin_keep e e' l l' : ev_id e' = ev_id e -> ev_out e' = ev_out e -> thinned l l' -> thinned (e :: l) (e' :: l').

Section Thin.
Context (N : NumOps).
Implicit Types l : list (Event N).

Lemma thinned_refl l : thinned l l.
Proof. induction l; [apply thin_nil|apply thin_keep; auto]. Qed.

Lemma thinned_maps l l' : map ev_id l' = map ev_id l -> map ev_out l' = map ev_out l -> thinned l l'.
Proof.
  revert l'. induction l as [|e l IH]; intros [|e' l'] H1 H2; try discriminate; [constructor|].
  cbn in H1, H2. injection H1 as H1 H1'. injection H2 as H2 H2'. apply thin_keep; auto.
Qed.

Lemma thinned_in l l' e' : thinned l l' -> In e' l' -> exists e, In e l /\ ev_id e' = ev_id e /\ ev_out e' = ev_out e.
Proof.
  induction 1 as [|e l l' H IH|e e'' l l' H1 H2 H IH]; intros Hin.
  - destruct Hin.
  - destruct (IH Hin) as (e0 & ? & ?). exists e0. split; [right; auto|auto].
  - destruct Hin as [<-|Hin]; [exists e; split; [left; auto|auto]|].
    destruct (IH Hin) as (e0 & ? & ?). exists e0. split; [right; auto|auto].
Qed.

Lemma thinned_nodup l l' : thinned l l' -> NoDup (map ev_id l) -> NoDup (map ev_id l').
Proof.
  induction 1 as [|e l l' H IH|e e'' l l' H1 H2 H IH]; intros Hnd; cbn in *; auto.
  - inversion Hnd; auto.
  - inversion Hnd as [|? ? Hn Hd]; subst. constructor; auto. rewrite H1. intros Hin. apply Hn.
    apply in_map_iff in Hin. destruct Hin as (x & E & Hx). destruct (thinned_in H Hx) as (y & Hy & Ey & _).
    rewrite <- E, Ey. apply in_map. auto.
Qed.

Lemma thinned_trans l1 l2 l3 : thinned l1 l2 -> thinned l2 l3 -> thinned l1 l3.
Proof.
  intros H. revert l3. induction H as [|e l l' H IH|e e'' l l' H1 H2 H IH]; intros l3 H3.
  - auto.
  - apply thin_drop; auto.
  - inversion H3; subst.
    + apply thin_drop; auto.
    + apply thin_keep; try congruence. auto.
Qed.

Lemma retain_thinned m draws k l l' k' : retain_loop (N := N) m draws k l = Some (l', k') -> thinned l l'.
Proof.
  revert k l' k'. induction l as [|e l IH]; intros k l' k' H; cbn [retain_loop] in H.
  - injection H as <- _. constructor.
  - destruct (ev_weight e) as [wt|]; [|discriminate].
    destruct (nltb m (nabs wt)).
    + destruct (retain_loop m draws k l) as [[r kk]|] eqn:E; [|discriminate]. injection H as <- _.
      apply thin_keep; eauto.
    + destruct (retain_loop m draws (S k) l) as [[r kk]|] eqn:E; [|discriminate]. injection H as <- _.
      destruct (nltb (draws k) (nabs wt)); [apply thin_keep|apply thin_drop]; eauto.
Qed.

Lemma lift_thinned m l l' : omap (lift_weight (N := N) m) l = Some l' -> thinned l l'.
Proof.
  rewrite omap_spec. induction 1 as [|e e' l l' H H' IH]; [constructor|].
  unfold lift_weight in H. destruct (ev_weight e) as [wt|]; [|discriminate]. injection H as <-.
  apply thin_keep; auto; destruct (nltb _ _); reflexivity.
Qed.

Lemma unweight_thinned psum m draws l l' k : unweight (N := N) psum m draws l = Some (l', k) -> thinned l l'.
Proof.
  unfold unweight. destruct (_ || _).
  - intros H. injection H as <- _. apply thinned_refl.
  - destruct (omap ev_weight l); [|discriminate]. destruct (negb _); [discriminate|].
    destruct (retain_loop m draws 0 l) as [[kept kk]|] eqn:E1; [|discriminate].
    destruct (omap (lift_weight m) kept) as [lifted|] eqn:E2; [|discriminate].
    destruct (omap ev_weight lifted); [|discriminate]. intros H. injection H as <- _.
    eapply thinned_trans; [eapply retain_thinned; eauto|]. eapply thinned_trans; [eapply lift_thinned; eauto|].
    apply thinned_maps; rewrite map_map; apply map_ext; reflexivity.
Qed.

Lemma resample_thinned mw sort strategy algo dist max l l' cells :
  resampler_resample (N := N) mw sort strategy algo dist max l = Some (l', cells) ->
  map ev_id l' = map ev_id l /\ map ev_out l' = map ev_out l.
Proof.
  intros H. apply resampler_inv in H. destruct H as (seeds & ws' & H1 & H2 & ->).
  pose proof (resample_seeds_length _ _ _ _ H2) as Hl. rewrite map_length in Hl.
  destruct (with_weights_spec _ _ Hl) as (E1 & E2 & E3). auto.
Qed.
End Thin.

Section Ids.
Context (N : NumOps) (Rec Err : Type) (convert : Rec -> Event N + Err) (cluster : Event N -> Event N + Err).

Lemma events_of_ids records evs : events_of convert cluster records evs -> map ev_id evs = seq 0 (length records).
Proof.
  intros [Hl He]. apply nth_error_ext. intros n. rewrite nth_error_map.
  destruct (nth_error evs n) as [e|] eqn:En; cbn.
  - assert (n < length records) by (rewrite <- Hl; apply nth_error_Some; congruence).
    destruct (nth_error records n) as [r|] eqn:Er; [|apply nth_error_None in Er; lia].
    destruct (He _ _ _ Er En) as (rec & ev & ev' & _ & _ & _ & _ & ->). cbn.
    rewrite <- (firstn_skipn n (seq 0 (length records))). symmetry.
    rewrite nth_error_app2; rewrite firstn_length_le; rewrite ?seq_length; try lia.
    rewrite Nat.sub_diag. replace (length records) with (n + (length records - n)) by lia.
    rewrite seq_app, skipn_app, skipn_all2 by (rewrite seq_length; lia). rewrite seq_length, Nat.sub_diag. cbn.
    destruct (length records - n) eqn:E; [lia|]. reflexivity.
  - apply nth_error_None in En. symmetry. apply nth_error_None. rewrite seq_length. lia.
Qed.

Lemma nodup_filter_map A B (f : A -> B) (p : A -> bool) l : NoDup (map f l) -> NoDup (map f (filter p l)).
Proof.
  induction l as [|a l IH]; cbn; auto. intros H. inversion H as [|? ? Hn Hd]; subst.
  destruct (p a); cbn; auto. constructor; auto. intros Hin. apply Hn. apply in_map_iff in Hin.
  destruct Hin as (x & E & Hx). apply filter_In in Hx. rewrite <- E. apply in_map. tauto.
Qed.

Lemma used_nodup records evs used : events_of convert cluster records evs ->
  Permutation (filter has_particles evs) used -> NoDup (map ev_id used).
Proof.
  intros He Hp. eapply Permutation_NoDup; [apply Permutation_map; exact Hp|].
  apply nodup_filter_map. rewrite (events_of_ids He). apply seq_NoDup.
Qed.

Lemma events_of_nth records evs e : events_of convert cluster records evs -> In e evs ->
  nth_error evs (ev_id e) = Some e.
Proof.
  intros He Hin. destruct (In_nth_error _ _ Hin) as [n Hn].
  pose proof (events_of_ids He) as Hids. destruct He as [Hl He].
  assert (Hlt : n < length records) by (rewrite <- Hl; apply nth_error_Some; congruence).
  destruct (nth_error records n) as [r|] eqn:Er; [|apply nth_error_None in Er; lia].
  destruct (He _ _ _ Er Hn) as (rec & ev & ev' & _ & _ & _ & _ & E).
  assert (E' : ev_id e = n) by (rewrite E; reflexivity). rewrite E'. auto.
Qed.
End Ids.

(** End to end: record [n] gets the final weights of the event made from record [n]. *)
Lemma run_lib (N : NumOps) (Rec Err : Type) is_ntuple (convert : Rec -> Event N + Err) cluster mw sort shuffle
    sort' strategy (algo : search_algo N) dist max psum (m : N) draws records W :
  reorders shuffle -> sort_ok sort ->
  cres_run is_ntuple convert cluster mw sort shuffle
    (lib_resample mw sort' strategy algo dist max) (lib_unweight psum m draws) records = Wrote W ->
  length W = length records /\
  exists evs used evs1 cells evs2 k, events_of convert cluster records evs /\ Permutation (filter has_particles evs) used /\
    resampler_resample mw sort' strategy algo dist max used = Some (evs1, cells) /\
    unweight psum m draws evs1 = Some (evs2, k) /\
    NoDup (map ev_id evs2) /\
    (forall e, In e evs2 -> exists e0, nth_error evs (ev_id e) = Some e0 /\ ev_out e0 = ev_out e) /\
    (forall e, In e evs2 -> nth_error W (ev_id e) = Some (ev_weights e)) /\
    (forall n, n < length records -> ~ In n (map ev_id evs2) -> nth_error W n = Some (weights_default mw)).
Proof.
  intros Hs Hsort H. destruct (run_wrote Hs Hsort H) as (Hl & evs & used & evs1 & evs2 & He & Hp & Hr & Hu & Hid & Hw).
  split; auto. unfold lib_resample in Hr. destruct (resampler_resample mw sort' strategy algo dist max used) as [[evs1' cells]|] eqn:Er; [|discriminate].
  injection Hr as ->. unfold lib_unweight in Hu. destruct (unweight psum m draws evs1) as [[evs2' k]|] eqn:Eu; [|discriminate].
  injection Hu as ->.
  destruct (resample_thinned Er) as [T1 T2]. pose proof (unweight_thinned Eu) as T3.
  assert (T : thinned used evs2) by (eapply thinned_trans; [apply thinned_maps; eauto|auto]).
  assert (Hnd : NoDup (map ev_id evs2)) by (eapply thinned_nodup; eauto; eapply used_nodup; eauto).
  exists evs, used, evs1, cells, evs2, k. do 5 (split; auto). split; [|apply Hw; auto].
  intros e Hin. destruct (thinned_in T Hin) as (e0 & H0 & E1 & E2). exists e0. split; auto.
  rewrite E1. eapply events_of_nth; eauto. apply Permutation_sym in Hp. eapply Permutation_in in H0; [|exact Hp].
  apply filter_In in H0. tauto.
Qed.

Local Open Scope R_scope.

(** *** Totals *)
Lemma written_nth old new n : length new = length old -> (n < length old)%nat ->
  nth n (written old new) [] = written_weights (N := RN) (nth n old []) (nth n new []).
Proof.
  revert new n. induction old as [|o old IH]; intros [|w new] n Hl Hn; cbn in Hl, Hn; try lia.
  destruct n as [|n]; [reflexivity|]. cbn [written combine map nth]. apply IH; lia.
Qed.

Lemma written_total mw (old W : sample) (final : list (Event RN)) k :
  length W = length old -> NoDup (map ev_id final) ->
  (forall e, In e final -> (ev_id e < length old)%nat /\ ev_weights e <> [] /\ nth_error W (ev_id e) = Some (ev_weights e)) ->
  (forall n, (n < length old)%nat -> ~ In n (map ev_id final) -> nth_error W n = Some (weights_default (N := RN) mw)) ->
  total (written old W) k =
  total (map ev_weights final) k + (if mw then total old k - Rsum (map (fun e => comp old (ev_id e) k) final) else 0).
Proof.
  intros Hl Hnd Hin Hout.
  assert (Hwl : length (written old W) = length old) by (unfold written; rewrite map_length, combine_length; lia).
  assert (Hfin : Rsum (map (fun i => comp (written old W) i k) (map ev_id final)) = total (map ev_weights final) k).
  { unfold total. rewrite !map_map. apply Rsum_map_ext. intros e He. destruct (Hin e He) as (H1 & H2 & H3).
    unfold comp. rewrite written_nth by auto. apply nth_error_nth with (d := []) in H3.
    match type of H3 with ?a = _ => change a with (nth (ev_id e) W []) in H3 end. rewrite H3.
    unfold written_weights, weights_is_empty. destruct (ev_weights e); [congruence|reflexivity]. }
  rewrite (total_index (written old W)), Hwl.
  set (g := fun i : nat => if mw then (if (i <? length old)%nat then comp old i k else 0) else 0).
  assert (Hlt : forall i, In i (map ev_id final) -> (i < length old)%nat).
  { intros i Hi. apply in_map_iff in Hi. destruct Hi as (e & <- & He). apply Hin. auto. }
  pose proof (@Rsum_change (length old) (map ev_id final)
    (fun i => if (i <? length old)%nat then comp (written old W) i k else 0) g Hnd Hlt) as Hc.
  match type of Hc with ?P -> _ => assert P as Hext end.
  { intros i Hi. unfold g. destruct (Nat.ltb_spec i (length old)); [|destruct mw; auto].
    unfold comp. rewrite written_nth by auto. specialize (Hout i H Hi).
    apply nth_error_nth with (d := []) in Hout.
    match type of Hout with ?a = _ => change a with (nth i W []) in Hout end. rewrite Hout.
    unfold written_weights, weights_default. destruct mw; cbn [weights_is_empty]; auto.
    destruct k as [|[|k]]; reflexivity. }
  specialize (Hc Hext). clear Hext.
  assert (E1 : Rsum (map (fun i => if (i <? length old)%nat then comp (written old W) i k else 0) (seq 0 (length old)))
     = Rsum (map (fun i => comp (written old W) i k) (seq 0 (length old)))).
  { apply Rsum_map_ext. intros i Hi. apply in_seq in Hi. destruct (Nat.ltb_spec i (length old)); [auto|lia]. }
  assert (E2 : Rsum (map (fun i => if (i <? length old)%nat then comp (written old W) i k else 0) (map ev_id final))
     = total (map ev_weights final) k).
  { rewrite <- Hfin. apply Rsum_map_ext. intros i Hi. specialize (Hlt i Hi). destruct (Nat.ltb_spec i (length old)); [auto|lia]. }
  rewrite E1, E2 in Hc.
  assert (E3 : Rsum (map g (seq 0 (length old))) = if mw then total old k else 0).
  { unfold g. destruct mw.
    - rewrite total_index. apply Rsum_map_ext. intros i Hi. apply in_seq in Hi. destruct (Nat.ltb_spec i (length old)); [auto|lia].
    - rewrite Rsum_map_const. ring. }
  assert (E4 : Rsum (map g (map ev_id final)) = if mw then Rsum (map (fun e => comp old (ev_id e) k) final) else 0).
  { unfold g. destruct mw.
    - rewrite map_map. apply Rsum_map_ext. intros e He. destruct (Hin e He) as (H1 & _).
      destruct (Nat.ltb_spec (ev_id e) (length old)); [auto|lia].
    - rewrite Rsum_map_const. ring. }
  rewrite E3, E4 in Hc. destruct mw; lra.
Qed.

Lemma unweight_total psum m draws (l l' : list (Event RN)) k : (forall x, psum x = Rsum x) ->
  unweight (N := RN) psum m draws l = Some (l', k) -> Forall (fun e => ev_weights e <> []) l ->
  Rsum (map cw l') <> 0 -> Rsum (map cw l') = Rsum (map cw l).
Proof.
  intros Hps H Hw Hne. unfold unweight in H. destruct (_ || _).
  - injection H as <- _. auto.
  - rewrite (omap_ev_weight Hw) in H. destruct (negb _); [discriminate|].
    destruct (retain_loop _ draws 0 l) as [[kept kk]|] eqn:E1; [|discriminate].
    destruct (omap _ kept) as [lifted|] eqn:E2; [|discriminate].
    destruct (omap ev_weight lifted) as [ws|] eqn:E3; [|discriminate]. injection H as <- _.
    assert (Hws : ws = map cw lifted).
    { clear - E3. apply omap_spec in E3. induction E3 as [|e w l ws H H' IH]; [auto|]. cbn [map]. f_equal; auto.
      unfold ev_weight, central in H. unfold cw. destruct (ev_weights e); [discriminate|]. cbn in *. congruence. }
    subst ws.
    set (r := ndiv (n := RN) (psum (map cw l)) (psum (map cw lifted))) in *.
    assert (E : Rsum (map cw (map (fun e => rescale_weights e r) lifted)) = r * Rsum (map cw lifted)).
    { rewrite map_map, <- Rsum_map_scal. apply Rsum_map_ext. intros e _. rewrite rescale_scaled, cw_scaled. apply Rmult_comm. }
    assert (Hne' : r * Rsum (map cw lifted) <> 0) by (intros E'; apply Hne; etransitivity; [exact E|exact E']).
    etransitivity; [exact E|]. clear E Hne. subst r. rewrite !Hps in *. cbn [ndiv RN] in *.
    destruct (Req_dec (Rsum (map cw lifted)) 0) as [E0|E0]; [exfalso; apply Hne'; rewrite E0; ring|]. field. auto.
Qed.

Lemma total_cw l : total (map ev_weights l) 0 = Rsum (map cw l).
Proof. unfold total. rewrite map_map. reflexivity. Qed.

Lemma total_used (evs used : list (Event RN)) k : Permutation (filter has_particles evs) used ->
  total (map ev_weights evs) k = total (map ev_weights used) k
     + total (map ev_weights (filter (fun e => negb (has_particles e)) evs)) k.
Proof.
  intros Hp. unfold total. rewrite !map_map. rewrite (Rsum_split has_particles). f_equal.
  apply Rsum_perm. apply Permutation_map. auto.
Qed.

Lemma shaped_used mw nw (evs used : list (Event RN)) : shaped mw nw (map ev_weights evs) ->
  Permutation (filter has_particles evs) used -> shaped mw nw (map ev_weights used).
Proof.
  intros (H1 & H2 & H3) Hp. split; auto. split; auto. unfold uniform in *. rewrite Forall_map in *.
  eapply Permutation_Forall; [exact Hp|]. rewrite Forall_forall in *. intros e He. apply filter_In in He. apply H3. tauto.
Qed.

Lemma shaped_nonempty mw nw (l : list (Event RN)) : shaped mw nw (map ev_weights l) -> Forall (fun e => ev_weights e <> []) l.
Proof.
  intros (H1 & _ & H). unfold uniform in H. rewrite Forall_map in H. eapply Forall_impl; [|exact H].
  cbn. intros e He E. rewrite E in He. cbn in He. lia.
Qed.

Section Totals.
Context (Rec Err : Type) (is_ntuple : Rec -> bool) (convert : Rec -> Event RN + Err)
  (cluster : Event RN -> Event RN + Err) (mw : bool) (nw : nat) (sort : sorter) 
  (shuffle : list (Event RN + @cres_error Err) -> list (Event RN + @cres_error Err))
  (resample : list (Event RN) -> option (list (Event RN) + Err))
  (records : list (Rec + Err)) (W : list (list R)) (evs : list (Event RN)).
(** what is needed of the resampling *)
Hypothesis Hres : forall l l', shaped mw nw (map ev_weights l) -> resample l = Some (inl l') ->
  map ev_id l' = map ev_id l /\ map ev_out l' = map ev_out l /\ shaped mw nw (map ev_weights l') /\
  forall k, total (map ev_weights l') k = total (map ev_weights l) k.
Notation input := (map ev_weights evs).
Hypothesis Hs : reorders shuffle.
Hypothesis Hsort : sort_ok sort.
Hypothesis He : events_of convert cluster records evs.
Hypothesis Hshape : shaped mw nw input.

Lemma events_of_fun evs' : events_of convert cluster records evs' -> evs' = evs.
Proof.
  clear Hshape Hres. destruct He as [H1 H2]. intros [H3 H4]. apply nth_error_ext. intros n.
  destruct (nth_error records n) as [r|] eqn:Er.
  - assert (n < length records)%nat by (apply nth_error_Some; congruence).
    destruct (nth_error evs n) as [e|] eqn:E1; [|apply nth_error_None in E1; lia].
    destruct (nth_error evs' n) as [e'|] eqn:E2; [|apply nth_error_None in E2; lia].
    destruct (H2 _ _ _ Er E1) as (a & b & c & -> & A1 & A2 & _ & ->).
    destruct (H4 _ _ _ Er E2) as (a' & b' & c' & A & B1 & B2 & _ & ->). injection A as <-. congruence.
  - apply nth_error_None in Er. transitivity (@None (Event RN)); [|symmetry]; apply nth_error_None; lia.
Qed.

Lemma run_final unweighter :
  (forall l l', unweighter l = Some (inl l') -> thinned l l') ->
  cres_run is_ntuple convert cluster mw sort shuffle resample unweighter records = Wrote W ->
  exists evs1 evs2, unweighter evs1 = Some (inl evs2) /\ thinned evs1 evs2 /\ NoDup (map ev_id evs1) /\
    shaped mw nw (map ev_weights evs1) /\
    (forall e, In e evs1 -> (ev_id e < length evs)%nat) /\
    (forall k, total (map ev_weights evs1) k = total input k
        - total (map ev_weights (filter (fun e => negb (has_particles e)) evs)) k) /\
    (forall k, Rsum (map (fun e => comp input (ev_id e) k) evs1) = total (map ev_weights evs1) k) /\
    length W = length input /\
    (forall e, In e evs2 -> nth_error W (ev_id e) = Some (ev_weights e)) /\
    (forall n, (n < length evs)%nat -> ~ In n (map ev_id evs2) -> nth_error W n = Some (weights_default (N := RN) mw)).
Proof.
  intros Hthin H. destruct (run_wrote Hs Hsort H) as (Hl & evs' & used & evs1 & evs2 & He' & Hp & Hr & Hu & Hid & Hw).
  apply events_of_fun in He'. subst evs'.
  destruct (Hres (shaped_used Hshape Hp) Hr) as (T1 & T2 & T3 & T4).
  pose proof (Hthin _ _ Hu) as T.
  assert (Hnd : NoDup (map ev_id evs1)) by (rewrite T1; eapply used_nodup; eauto).
  assert (Hnd2 : NoDup (map ev_id evs2)) by (eapply thinned_nodup; eauto).
  assert (Hlen : length evs = length records) by (apply He).
  specialize (Hw Hnd2). destruct Hw as [Hw1 Hw2].
  exists evs1, evs2. split; auto. split; auto. split; auto. split; auto. split.
  { intros e Hin. assert (In (ev_id e) (map ev_id used)) as Hi by (rewrite <- T1; apply in_map; auto).
    apply in_map_iff in Hi. destruct Hi as (e0 & E0 & Hi). rewrite <- E0.
    eapply Permutation_in in Hi; [|apply Permutation_sym; exact Hp]. apply filter_In in Hi. destruct Hi as [Hi _].
    apply (events_of_nth He) in Hi. apply nth_error_Some. congruence. }
  split; [intros k; rewrite T4, (total_used k Hp); ring|]. split.
  { intros k. rewrite T4. unfold total at 1. rewrite map_map.
    transitivity (Rsum (map (fun i => comp input i k) (map ev_id evs1))); [rewrite map_map; reflexivity|].
    rewrite T1, map_map. apply Rsum_map_ext. intros e Hi.
    eapply Permutation_in in Hi; [|apply Permutation_sym; exact Hp]. apply filter_In in Hi. destruct Hi as [Hi _].
    apply (events_of_nth He) in Hi. unfold comp. f_equal.
    apply (nth_error_nth input (ev_id e) []). apply map_nth_error. auto. }
  split; [rewrite map_length, Hlen; exact Hl|]. split; auto. intros n Hn. apply Hw2. rewrite <- Hlen; exact Hn.
Qed.

Lemma run_total_no_unweight_gen k :
  cres_run is_ntuple convert cluster mw sort shuffle resample lib_no_unweight records = Wrote W ->
  total (written input W) k =
  if mw then total input k
  else total input k - total (map ev_weights (filter (fun e => negb (has_particles e)) evs)) k.
Proof.
  intros H. destruct (@run_final lib_no_unweight) as (evs1 & evs2 & Hu & _ & Hnd & Hsh & Hlt & Ht & Ho & Hl & Hw1 & Hw2); auto.
  { intros l l' E. cbn in E. injection E as <-. apply thinned_refl. }
  cbn in Hu. injection Hu as <-.
  rewrite (@written_total mw input W evs1 k); auto.
  - rewrite Ho, Ht. destruct mw; lra.
  - intros e Hin. split; [rewrite map_length; auto|]. split; [|auto].
    apply shaped_nonempty in Hsh. rewrite Forall_forall in Hsh. auto.
  - rewrite map_length. auto.
Qed.

Lemma run_total_unweight_gen psum m draws : mw = false -> (forall x, psum x = Rsum x) ->
  cres_run is_ntuple convert cluster mw sort shuffle resample (lib_unweight psum m draws) records = Wrote W ->
  total (written input W) 0 <> 0 ->
  total (written input W) 0 = total input 0 - total (map ev_weights (filter (fun e => negb (has_particles e)) evs)) 0.
Proof.
  intros Hmw Hps H.
  destruct (@run_final (lib_unweight psum m draws)) as (evs1 & evs2 & Hu & Hthin & Hnd & Hsh & Hlt & Ht & Ho & Hl & Hw1 & Hw2); auto.
  { intros l l' E. unfold lib_unweight in E. destruct (unweight psum m draws l) as [[x kk]|] eqn:Eu; [|discriminate].
    injection E as <-. eapply unweight_thinned; eauto. }
  assert (Hne1 : Forall (fun e => ev_weights e <> []) evs1) by (eapply shaped_nonempty; eauto).
  unfold lib_unweight in Hu. destruct (unweight psum m draws evs1) as [[x kk]|] eqn:Eu; [|discriminate]. injection Hu as ->.
  assert (Hne2 : forall e, In e evs2 -> ev_weights e <> []).
  { clear - Eu Hne1. unfold unweight in Eu. destruct (_ || _).
    - injection Eu as <- _. rewrite Forall_forall in Hne1. auto.
    - destruct (omap ev_weight evs1); [|discriminate]. destruct (negb _); [discriminate|].
      destruct (retain_loop _ draws 0 evs1) as [[kept k1]|]; [|discriminate].
      destruct (omap _ kept) as [lifted|]; [|discriminate].
      destruct (omap ev_weight lifted) as [ws|] eqn:E3; [|discriminate]. injection Eu as <- _.
      apply omap_spec in E3. intros e Hin. apply in_map_iff in Hin. destruct Hin as (e0 & <- & Hin).
      assert (exists w, ev_weight e0 = Some w) as [w Hw].
      { clear - E3 Hin. induction E3 as [|a b l l' H H' IH]; [destruct Hin|]. destruct Hin as [<-|Hin]; eauto. }
      unfold ev_weight, central in Hw. cbn. destruct (ev_weights e0); [discriminate|]. discriminate. }
  rewrite (@written_total mw input W evs2 0); auto.
  - rewrite Hmw. rewrite <- Ht, !total_cw, Rplus_0_r. apply unweight_total with (psum := psum) (m := m) (draws := draws) (k := kk); auto.
  - eapply thinned_nodup; eauto.
  - intros e Hin. split; [|auto]. rewrite map_length. destruct (thinned_in Hthin Hin) as (e0 & H0 & -> & _). auto.
  - rewrite map_length. auto.
Qed.
End Totals.

Lemma lib_resample_facts (Err : Type) mw nw sort strategy algo dist max (l l' : list (Event RN)) : shaped mw nw (map ev_weights l) ->
  lib_resample (N := RN) (Err := Err) mw sort strategy algo dist max l = Some (inl l') ->
  map ev_id l' = map ev_id l /\ map ev_out l' = map ev_out l /\ shaped mw nw (map ev_weights l') /\
  forall k, total (map ev_weights l') k = total (map ev_weights l) k.
Proof.
  intros Hs Hr. unfold lib_resample in Hr. destruct (resampler_resample mw sort strategy algo dist max l) as [[evs1' cells]|] eqn:Er; [|discriminate].
  injection Hr as ->. destruct (resampler_total Hs Er) as (_ & T1 & T2 & T3 & T4). auto.
Qed.

Section Sequential.
Context (Rec Err : Type) (is_ntuple : Rec -> bool) (convert : Rec -> Event RN + Err)
  (cluster : Event RN -> Event RN + Err) (mw : bool) (nw : nat) (sort sort' : sorter) 
  (shuffle : list (Event RN + @cres_error Err) -> list (Event RN + @cres_error Err)) (strategy : Strategy)
  (algo : search_algo RN) (dist : Event RN -> Event RN -> R) (max : R)
  (records : list (Rec + Err)) (W : list (list R)) (evs : list (Event RN)).
Notation resample := (lib_resample (N := RN) (Err := Err) mw sort' strategy algo dist max).
Notation input := (map ev_weights evs).
Hypothesis Hs : reorders shuffle.
Hypothesis Hsort : sort_ok sort.
Hypothesis He : events_of convert cluster records evs.
Hypothesis Hshape : shaped mw nw input.

Lemma run_total_no_unweight k :
  cres_run is_ntuple convert cluster mw sort shuffle resample lib_no_unweight records = Wrote W ->
  total (written input W) k =
  if mw then total input k
  else total input k - total (map ev_weights (filter (fun e => negb (has_particles e)) evs)) k.
Proof. intros H. eapply run_total_no_unweight_gen; eauto. intros l l'. apply lib_resample_facts. Qed.

Lemma run_total_unweight psum m draws : mw = false -> (forall x, psum x = Rsum x) ->
  cres_run is_ntuple convert cluster mw sort shuffle resample (lib_unweight psum m draws) records = Wrote W ->
  total (written input W) 0 <> 0 ->
  total (written input W) 0 = total input 0 - total (map ev_weights (filter (fun e => negb (has_particles e)) evs)) 0.
Proof. intros Hm Hp H Ht. eapply run_total_unweight_gen; eauto. intros l l'. apply lib_resample_facts. Qed.
End Sequential.
