(** Lemmas for C74: what unweighting does to the weights of a run. *)
From Coq Require Import Reals Lra List Arith Lia Permutation Ascii Bool ZArith.
From Verif Require Import Base BaseProofs Num ModelEvent ModelUnweight SpecWeights SpecUnweight SumProofs UnweightProofs
  ModelCres SpecCres CresProofs CresProofs2.
Import ListNotations.
Local Open Scope R_scope.

(** which events survive, for given random numbers *)
Lemma retain_sound m draws (events : list (Event RN)) : Forall (fun e => ev_weights e <> []) events -> forall k kept k',
  retain_loop (N := RN) m draws k events = Some (kept, k') ->
  incl kept events /\ (forall e, In e events -> In e kept \/ (Rabs (cw e) <= m /\ exists i, Rabs (cw e) <= draws i)) /\
  (NoDup (map ev_id events) -> NoDup (map ev_id kept)).
Proof.
  induction 1 as [|e l Hw Hl IH]; intros k kept k' H; cbn [retain_loop] in H.
  - injection H as <- _. split; [intros x []|]. split; [intros x []|auto].
  - rewrite (ev_weight_cw Hw) in H. rewrite heavy_light in H.
    assert (Q : forall kept0 k0 k1, retain_loop (N := RN) m draws k0 l = Some (kept0, k1) -> incl (e :: kept0) (e :: l) /\
      (forall e', In e' (e :: l) -> In e' (e :: kept0) \/ (Rabs (cw e') <= m /\ exists i, Rabs (cw e') <= draws i)) /\
      (NoDup (map ev_id (e :: l)) -> NoDup (map ev_id (e :: kept0)))).
    { intros kept0 k0 k1 E. destruct (IH _ _ _ E) as (I1 & I2 & I3). split; [|split].
      - intros x [<-|Hx]; [left; reflexivity|right; apply I1; exact Hx].
      - intros e' [<-|He]; [left; left; reflexivity|]. destruct (I2 e' He) as [X|X]; [left; right; exact X|right; exact X].
      - cbn [map]. intros Hn. inversion Hn as [|? ? Hn1 Hn2]; subst. constructor; [|apply I3; exact Hn2].
        intros X. apply Hn1. apply in_map_iff in X. destruct X as (y & <- & Hy). apply in_map. apply I1. exact Hy. }
    destruct (light m e) eqn:E; cbn [negb] in H.
    + destruct (retain_loop m draws (S k) l) as [[r k1]|] eqn:Er; [|discriminate]. injection H as <- _.
      change (nltb (draws k) (nabs (cw e))) with (Rltb (draws k) (Rabs (cw e))). destruct (Rltb (draws k) (Rabs (cw e))) eqn:Ed; [eapply Q; exact Er|].
      destruct (IH _ _ _ Er) as (I1 & I2 & I3). split; [intros x Hx; right; apply I1; exact Hx|]. split.
      * intros e' [<-|He]; [right|apply I2; exact He]. split; [apply Rleb_true; exact E|]. exists k. apply Rltb_false. exact Ed.
      * cbn [map]. intros Hn. inversion Hn; subst. apply I3. assumption.
    + destruct (retain_loop m draws k l) as [[r k1]|] eqn:Er; [|discriminate]. injection H as <- _. eapply Q; exact Er.
Qed.

Lemma unweight_rel psum m draws (events out : list (Event RN)) k : 0 < m -> Forall (fun e => ev_weights e <> []) events ->
  unweight (N := RN) psum m draws events = Some (out, k) ->
  exists r kept, out = map (fun e => scaled (boost m e * r) e) kept /\ incl kept events /\
    (forall e, In e events -> In e kept \/ (Rabs (cw e) <= m /\ exists i, Rabs (cw e) <= draws i)) /\
    (NoDup (map ev_id events) -> NoDup (map ev_id kept)).
Proof.
  intros Hm Hw H. unfold unweight in H.
  destruct (neqb m n0 || (length events =? 0)%nat) eqn:Eo.
  - apply orb_true_iff in Eo. destruct Eo as [Eo|Eo]; [apply Reqb_true in Eo; rewrite Eo in Hm; exfalso; exact (Rlt_irrefl _ Hm)|].
    apply Nat.eqb_eq, length_zero_iff_nil in Eo. subst events. injection H as <- _. exists 0, []. repeat split; auto. intros e [].
  - rewrite (omap_ev_weight Hw) in H. destruct (negb (nltb n0 m)); [discriminate|].
    destruct (retain_loop m draws 0 events) as [[kept k0]|] eqn:Er; [|discriminate].
    destruct (retain_sound m draws events Hw _ _ _ Er) as (I1 & I2 & I3).
    assert (Hk : Forall (fun e => ev_weights e <> []) kept) by (rewrite Forall_forall in *; auto).
    rewrite (lift_RN m Hk) in H. destruct (omap ev_weight (map (fun e => scaled (boost m e) e) kept)) as [ws|]; [|discriminate]. injection H as <- _.
    exists (ndiv (psum (map cw events)) (psum ws)), kept. split; [|auto]. rewrite map_map. apply map_ext. intros e. rewrite rescale_scaled. apply scaled_scaled.
Qed.

(** two runs that differ in the unweighter only *)
Lemma run_shared (Rec Err : Type) is_ntuple (convert : Rec -> Event RN + Err) cluster sort shuffle resample u u' records W W' :
  reorders shuffle -> sort_ok sort ->
  cres_run is_ntuple convert cluster false sort shuffle resample u records = Wrote W ->
  cres_run is_ntuple convert cluster false sort shuffle resample u' records = Wrote W' ->
  exists evs used evs1, events_of convert cluster records evs /\ Permutation (filter has_particles evs) used /\ resample used = Some (inl evs1) /\
    forall v V, cres_run is_ntuple convert cluster false sort shuffle resample v records = Wrote V -> length V = length records /\
      exists evs2, v evs1 = Some (inl evs2) /\ 
       (NoDup (map ev_id evs2) ->
         (forall e, In e evs2 -> nth_error V (ev_id e) = Some (ev_weights e)) /\
         (forall n, (n < length records)%nat -> ~ In n (map ev_id evs2) -> nth_error V n = Some [0])).
Proof.
  intros Hs Hsort H H'. destruct (run_wrote Hs Hsort H) as (_ & evs & used & evs1 & _ & Hev & Hp & Hr & _).
  pose proof H as H0. unfold cres_run in H0. destruct (read_events is_ntuple convert cluster shuffle records) as [used0|err'] eqn:E; [|discriminate].
  rewrite (filter_ext _ _ (@has_particles_eq RN)) in H0. destruct (resample (filter has_particles used0)) as [[e1|]|] eqn:Er; try discriminate.
  destruct (read_events_ok Hs E) as (evs' & He' & Hp'). exists evs', (filter has_particles used0), e1.
  split; [exact He'|]. split; [apply filter_perm; exact Hp'|]. split; [exact Er|]. intros v V HV.
  (* the same run with the resampler replaced by the constant function *)
  assert (HV' : cres_run is_ntuple convert cluster false sort shuffle (fun _ => Some (inl e1)) v records = Wrote V).
  { unfold cres_run in *. rewrite E in *. rewrite (filter_ext _ _ (@has_particles_eq RN)) in HV. rewrite Er in HV. exact HV. }
  destruct (run_wrote Hs Hsort HV') as (HlV & x1 & x2 & x3 & evs2 & _ & _ & X & Hv & _ & HW). injection X as <-. split; [exact HlV|]. exists evs2. split; [exact Hv|exact HW].
Qed.
