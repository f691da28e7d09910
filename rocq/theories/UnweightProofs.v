(** Lemmas about [ModelUnweight]. *)
From Coq Require Import Reals Lra.
From Verif Require Import Base BaseProofs Num ModelEvent ModelUnweight SpecWeights SpecUnweight SumProofs CellProofs.
Set Implicit Arguments.
Unset Strict Implicit.

Lemma unweight_off (N : NumOps) psum (m : N) draws events : neqb m n0 = true \/ events = [] ->
  unweight psum m draws events = Some (events, 0).
Proof. intros [H| ->]; unfold unweight; [rewrite H|rewrite Bool.orb_true_r]; reflexivity. Qed.

Lemma unweight_bad (N : NumOps) psum (m : N) draws events :
  neqb m n0 = false -> nltb n0 m = false -> events <> [] -> unweight psum m draws events = None.
Proof.
  intros H1 H2 H3. unfold unweight. rewrite H1, H2. destruct events; [congruence|]. cbn [length Nat.eqb orb].
  destruct (omap ev_weight _); reflexivity.
Qed.

Local Open Scope R_scope.

Lemma ev_weight_cw (e : Event RN) : ev_weights e <> [] -> ev_weight e = Some (cw e).
Proof. unfold ev_weight, central, cw. destruct (ev_weights e); [congruence|reflexivity]. Qed.

Lemma omap_ev_weight (l : list (Event RN)) : Forall (fun e => ev_weights e <> []) l ->
  omap ev_weight l = Some (map cw l).
Proof.
  induction 1 as [|e l He Hl IH]; auto. cbn [omap map]. rewrite (ev_weight_cw He), IH. auto.
Qed.

Lemma heavy_light m (e : Event RN) : nltb m (nabs (cw e)) = negb (light m e).
Proof.
  cbn [nltb nabs RN]. unfold light. destruct (Rleb (Rabs (cw e)) m) eqn:E; cbn.
  - apply Rleb_true in E. apply Rltb_false. auto.
  - apply Rleb_false in E. apply Rltb_true. auto.
Qed.

Lemma retain_RN m draws k (events : list (Event RN)) us : Forall (fun e => ev_weights e <> []) events ->
  length us = length events ->
  (forall i, (i < length (light_draws m events us))%nat -> draws (k + i)%nat = nth i (light_draws m events us) 0) ->
  retain_loop (N := RN) m draws k events
  = Some (survivors m events us, (k + length (light_draws m events us))%nat).
Proof.
  intros He. revert us k. induction He as [|e l Hw Hl IH]; intros [|u us] k Hlen Hd; try discriminate.
  - cbn. rewrite Nat.add_0_r. auto.
  - cbn [retain_loop]. rewrite (ev_weight_cw Hw). rewrite heavy_light.
    unfold light_draws, survivors in *. cbn [combine filter fst snd] in *.
    destruct (light m e) eqn:E; cbn [negb orb] in *.
    + cbn [map length] in Hd |- *. rewrite (IH us (S k)).
      * rewrite <- (Nat.add_0_r k) at 1. rewrite (Hd 0%nat) by lia. cbn [nth snd].
        change (nltb u (nabs (cw e))) with (Rltb u (Rabs (cw e))).
        destruct (Rltb u (Rabs (cw e))); cbn [map]; f_equal; f_equal; lia.
      * cbn in Hlen. lia.
      * intros i Hi. replace (S k + i)%nat with (k + S i)%nat by lia. rewrite (Hd (S i)) by lia. reflexivity.
    + rewrite (IH us k); [reflexivity|cbn in Hlen; lia|exact Hd].
Qed.

Lemma rescale_scaled (e : Event RN) s : rescale_weights e s = scaled s e.
Proof. reflexivity. Qed.

Lemma cw_scaled s e : cw (scaled s e) = cw e * s.
Proof. unfold cw, scaled. cbn. destruct (ev_weights e); cbn; [lra|reflexivity]. Qed.

Lemma scaled_scaled s s' e : scaled s (scaled s' e) = scaled (s' * s) e.
Proof. unfold scaled. cbn. f_equal. rewrite map_map. apply map_ext. intros. ring. Qed.

Lemma scaled_1 e : scaled 1 e = e.
Proof. destruct e as [i w o]. unfold scaled. cbn. f_equal. induction w; cbn; f_equal; auto. ring. Qed.

Lemma lift_RN m (l : list (Event RN)) : Forall (fun e => ev_weights e <> []) l ->
  omap (lift_weight (N := RN) m) l = Some (map (fun e => scaled (boost m e) e) l).
Proof.
  induction 1 as [|e l He Hl IH]; auto. cbn [omap map]. rewrite IH. unfold lift_weight. rewrite (ev_weight_cw He).
  cbn [nltb nabs ndiv RN]. unfold boost. destruct (Rltb (Rabs (cw e)) m); auto. rewrite scaled_1. auto.
Qed.

Lemma in_survivors m events us e : In e (survivors m events us) ->
  exists u, In (e, u) (combine events us) /\ (light m e = false \/ u < Rabs (cw e)).
Proof.
  intros H. apply in_map_iff in H. destruct H as ([e' u] & <- & H). apply filter_In in H. cbn in H.
  exists u. split; [tauto|]. destruct H as [_ H]. apply Bool.orb_true_iff in H.
  rewrite Bool.negb_true_iff, Rltb_true in H. exact H.
Qed.

Lemma unweight_spec psum m draws (events : list (Event RN)) us :
  (forall l, psum l = Rsum l) -> 0 < m -> events <> [] -> Forall (fun e => ev_weights e <> []) events ->
  length us = length events -> Forall (fun u => 0 <= u < m) us ->
  (forall i, (i < length (light_draws m events us))%nat -> draws i = nth i (light_draws m events us) 0) ->
  let kept := survivors m events us in
  let lifted := Rsum (map (fun e => cw e * boost m e) kept) in
  exists r,
    unweight (N := RN) psum m draws events
    = Some (map (fun e => scaled (boost m e * r) e) kept, length (light_draws m events us)) /\
    (lifted <> 0 -> r * lifted = Rsum (map cw events)) /\
    Forall (fun e => m <= Rabs (cw e * boost m e) /\ 0 < boost m e /\ cw e <> 0) kept.
Proof.
  intros Hps Hm Hne Hw Hlen Hu Hd kept lifted. exists (Rsum (map cw events) / lifted).
  assert (Hw' : Forall (fun e => ev_weights e <> []) kept).
  { rewrite Forall_forall in *. intros e He. apply in_survivors in He. destruct He as (u & He & _).
    apply in_combine_l in He. auto. }
  assert (Hw'' : Forall (fun e => ev_weights e <> []) (map (fun e => scaled (boost m e) e) kept)).
  { apply Forall_map. eapply Forall_impl; [|exact Hw']. intros e He. unfold scaled. cbn. cbn in He. destruct (ev_weights e); [exfalso; apply He; reflexivity|discriminate]. }
  split; [|split].
  - unfold unweight. assert (E1 : neqb (n := RN) m n0 = false).
    { cbn. destruct (Reqb m 0) eqn:E; auto. apply Reqb_true in E. lra. }
    assert (E2 : nltb (n := RN) n0 m = true) by (apply Rltb_true; auto).
    rewrite E1, E2. assert (E3 : (length events =? 0)%nat = false) by (apply Nat.eqb_neq; destruct events; [congruence|discriminate]).
    rewrite E3. cbn [orb negb].
    rewrite (omap_ev_weight Hw). rewrite (@retain_RN m draws 0 events us) by auto. fold kept.
    rewrite (lift_RN m Hw'), (omap_ev_weight Hw''). rewrite !Hps, !map_map. f_equal. f_equal.
    apply map_ext. intros e. rewrite rescale_scaled, scaled_scaled. f_equal. f_equal. cbn [ndiv RN]. unfold Rdiv. f_equal.
    f_equal. unfold lifted. apply Rsum_map_ext. intros e' _. apply cw_scaled.
  - intros Hl. field. auto.
  - apply Forall_forall. intros e He. apply in_survivors in He. destruct He as (u & He & Hs).
    apply in_combine_r in He. rewrite Forall_forall in Hu. specialize (Hu _ He).
    unfold light in Hs. rewrite Rleb_false in Hs. unfold boost.
    assert (Hpos : 0 < Rabs (cw e)) by (destruct Hs; lra).
    destruct (Rltb (Rabs (cw e)) m) eqn:E; [apply Rltb_true in E|apply Rltb_false in E].
    + split; [|split].
      * rewrite Rabs_mult, (Rabs_right (m / Rabs (cw e))).
        -- replace (Rabs (cw e) * (m / Rabs (cw e))) with m by (field; lra). lra.
        -- apply Rle_ge. apply Rlt_le, Rdiv_lt_0_compat; auto.
      * apply Rdiv_lt_0_compat; auto.
      * intros E0. rewrite E0, Rabs_R0 in Hpos. lra.
    + split; [rewrite Rmult_1_r; auto|]. split; [lra|]. intros E0. rewrite E0, Rabs_R0 in Hpos. lra.
Qed.

Lemma scaled_total m r (l : list (Event RN)) :
  Rsum (map cw (map (fun e => scaled (boost m e * r) e) l)) = r * Rsum (map (fun e => cw e * boost m e) l).
Proof.
  rewrite map_map, <- Rsum_map_scal. apply Rsum_map_ext. intros e _. rewrite cw_scaled. ring.
Qed.
