(** C28-C30: complete runs. *)
From Coq Require Import Reals Lra.
From Verif Require Import Base BaseProofs Num ModelEvent ModelSeeds ModelResampler ModelNaive ModelUnweight ModelCres
  SpecWeights SpecUnweight SpecCres SumProofs UnweightProofs CresProofs CresProofs2.
From Verif Require RunProofs2 ConcProofs2 NaiveProofs.

(** C28.  Whenever a run gets as far as writing, the list [W] passed to the writer has one
    entry per record; [evs] are the converted events of the records in order (with the record
    number as id), those with particles are passed to the resampler in some order, and if
    resampler and unweighter do not duplicate ids, the entry of record [n] is the final weight
    vector of the event with id [n], or the default (no weight; with a single weight: 0) if
    the event is not among the final ones.  For all converters, clusterings, resamplers,
    unweighters and completion orders. *)
Theorem C28_weights_table : forall (N : NumOps) (Rec Err : Type) is_ntuple (convert : Rec -> Event N + Err) cluster
    mw sort resample unweighter shuffle records W,
  reorders shuffle -> sort_ok sort ->
  cres_run is_ntuple convert cluster mw sort shuffle resample unweighter records = Wrote W ->
  length W = length records /\
  exists evs used evs1 evs2, events_of convert cluster records evs /\ Permutation (filter has_particles evs) used /\
    resample used = Some (inl evs1) /\ unweighter evs1 = Some (inl evs2) /\
    (forall e, In e evs2 -> ev_id e < length records) /\
    (NoDup (map ev_id evs2) ->
       (forall e, In e evs2 -> nth_error W (ev_id e) = Some (ev_weights e)) /\
       (forall n, n < length records -> ~ In n (map ev_id evs2) -> nth_error W n = Some (weights_default mw))).
Proof. exact run_wrote. Qed.
Print Assumptions C28_weights_table.

(** With the resampler and the unweighter of the library ids are never duplicated, and the
    final event with id [n] has the momenta of record [n]. *)
Theorem C28_library : forall (N : NumOps) (Rec Err : Type) is_ntuple (convert : Rec -> Event N + Err) cluster
    mw sort shuffle sort' strategy (algo : search_algo N) dist max psum (m : N) draws records W,
  reorders shuffle -> sort_ok sort ->
  cres_run is_ntuple convert cluster mw sort shuffle
    (lib_resample mw sort' strategy algo dist max) (lib_unweight psum m draws) records = Wrote W ->
  length W = length records /\
  exists evs used evs1 cells evs2 k, events_of convert cluster records evs /\
    Permutation (filter has_particles evs) used /\
    resampler_resample mw sort' strategy algo dist max used = Some (evs1, cells) /\
    unweight psum m draws evs1 = Some (evs2, k) /\
    NoDup (map ev_id evs2) /\
    (forall e, In e evs2 -> exists e0, nth_error evs (ev_id e) = Some e0 /\ ev_out e0 = ev_out e) /\
    (forall e, In e evs2 -> nth_error W (ev_id e) = Some (ev_weights e)) /\
    (forall n, n < length records -> ~ In n (map ev_id evs2) -> nth_error W n = Some (weights_default mw)).
Proof. exact run_lib. Qed.
Print Assumptions C28_library.

(** C30.  If reading, converting or clustering some record fails, or the converted event has
    a non-zero id, the run fails with the error of one of the faulty records; nothing is
    written and neither resampler nor unweighter matter. *)
Theorem C30_error_reported : forall (N : NumOps) (Rec Err : Type) is_ntuple (convert : Rec -> Event N + Err) cluster
    mw sort resample unweighter shuffle records,
  reorders shuffle ->
  (exists r err, In r records /\ fault convert cluster r err) ->
  exists r err, In r records /\ fault convert cluster r err /\
    cres_run is_ntuple convert cluster mw sort shuffle resample unweighter records = Failed err.
Proof. exact run_fault. Qed.
Print Assumptions C30_error_reported.

(** Otherwise the events of all records that have particles are passed on; errors and panics
    of resampler and unweighter are those of the run; and if they return events with distinct
    ids of the input, all with a weight, the weights are written. *)
Theorem C30_all_used : forall (N : NumOps) (Rec Err : Type) is_ntuple (convert : Rec -> Event N + Err) cluster
    mw sort resample unweighter shuffle records,
  let run := cres_run is_ntuple convert cluster mw sort shuffle resample unweighter in
  reorders shuffle ->
  (forall r err, In r records -> ~ fault convert cluster r err) ->
  exists evs used, events_of convert cluster records evs /\ Permutation (filter has_particles evs) used /\
    (resample used = None -> run records = Panicked) /\
    (forall e, resample used = Some (inr e) -> run records = Failed (ResamplingErr e)) /\
    (forall evs1, resample used = Some (inl evs1) ->
       (unweighter evs1 = None -> run records = Panicked) /\
       (forall e, unweighter evs1 = Some (inr e) -> run records = Failed (UnweightErr e)) /\
       (forall evs2, unweighter evs1 = Some (inl evs2) -> sort_ok sort ->
          Forall (fun e => ev_weights e <> [] /\ ev_id e < length records) evs2 ->
          NoDup (map ev_id evs2) ->
          exists W, run records = Wrote W /\ length W = length records /\
            (forall e, In e evs2 -> nth_error W (ev_id e) = Some (ev_weights e)) /\
            (forall n, n < length records -> ~ In n (map ev_id evs2) -> nth_error W n = Some (weights_default mw)))).
Proof. intros. apply run_used; auto. Qed.
Print Assumptions C30_all_used.

(** Three records; numbers below 10 are weights of events with one particle, 10 stands for an
    event without particles, larger numbers cannot be converted. *)
Definition demo_convert (r : nat) : Event B64 + nat :=
  if r <? 10 then inl (mkEvent 0 [b64_of_Z (Z.of_nat r)] [(21%Z, [fv_from (b64_of_Z 1 : B64) n0 n0 n0])])
  else if r =? 10 then inl (mkEvent 0 [b64_of_Z 7] []) else inr r.
Definition demo_run mw m draws (records : list (nat + nat)) :=
  cres_run (N := B64) (fun _ => false) demo_convert inl mw isort (@rev _)
    (lib_resample mw isort MostNegative (naive_nearest first_min) (fun _ _ => b64_of_Z 1) (b64_of_Z 2))
    (lib_unweight (@nsum _) (b64_of_Z m) draws) records.

Example C28_case : reorders (@rev (Event B64 + @cres_error nat)) /\
  demo_run false 0 (fun _ => n0) [inl 3; inl 10; inl 5] = Wrote [[b64_of_Z 3]; [b64_of_Z 0]; [b64_of_Z 5]] /\
  demo_run false 4 (fun _ => b64_of_Z 2) [inl 3; inl 4; inl 1] = Wrote [[b64_of_Z 4]; [b64_of_Z 4]; [b64_of_Z 0]] /\
  demo_run true 0 (fun _ => n0) [inl 3; inl 10; inl 5] = Wrote [[b64_of_Z 3]; []; [b64_of_Z 5]].
Proof. split; [intros l; apply Permutation_rev|]. split; [vmr|]. split; vmr. Qed.

Example C30_case : demo_run false 0 (fun _ => n0) [inl 3; inl 99; inl 5; inl 11] = Failed (ConversionErr 11) /\
  demo_run false 0 (fun _ => n0) [inl 3; inl 99; inl 5; inr 11] = Failed (IOErr 11).
Proof. split; vmr. Qed.

Local Open Scope R_scope.

(** C29 as stated is false, in both configurations, also in cases where no rounding takes
    place.  Single weight: an event without identified particles (weight 7) is written with
    weight 0, so the total falls from 12 to 5.  Multiweight: an event of weight 1 discarded
    by unweighting keeps its weight in the output, although the weight of the other event has
    been raised to compensate for it: the total rises from 5 to 6. *)
Theorem C29_refuted : 
  (exists (records : list (nat + nat)) W,
     demo_run false 0 (fun _ => n0) records = Wrote W /\
     map (fun r => match r with inl r => match demo_convert r with inl e => ev_weights e | _ => [] end | _ => [] end) records
       = [[b64_of_Z 7]; [b64_of_Z 5]] /\
     map (fun x => written_weights (N := B64) (fst x) (snd x)) (combine [[b64_of_Z 7]; [b64_of_Z 5]] W)
       = [[b64_of_Z 0]; [b64_of_Z 5]]) /\
  (exists (records : list (nat + nat)) draws W, (forall k, nltb (n := B64) (draws k) (b64_of_Z 3) = true) /\
     demo_run true 3 draws records = Wrote W /\
     map (fun r => match r with inl r => match demo_convert r with inl e => ev_weights e | _ => [] end | _ => [] end) records
       = [[b64_of_Z 1]; [b64_of_Z 4]] /\
     map (fun x => written_weights (N := B64) (fst x) (snd x)) (combine [[b64_of_Z 1]; [b64_of_Z 4]] W)
       = [[b64_of_Z 1]; [b64_of_Z 5]]).
Proof.
  split.
  - exists [inl 10%nat; inl 5%nat], [[b64_of_Z 0]; [b64_of_Z 5]]. split; [vmr|]. split; vmr.
  - exists [inl 1%nat; inl 4%nat], (fun _ => b64_of_Z 2), [[]; [b64_of_Z 5]]. split; [intros; vmr|]. split; [vmr|]. split; vmr.
Qed.
Print Assumptions C29_refuted.

(** What holds instead, in exact arithmetic.  Without unweighting the totals of all weights
    agree with the multiweight feature; without it the output lacks the weights of the events
    that have no identified particles, and of no others. *)
Theorem C29_no_unweighting_partial : forall (Rec Err : Type) is_ntuple (convert : Rec -> Event RN + Err) cluster
    mw nw sort sort' shuffle strategy (algo : search_algo RN) dist max records W evs k,
  reorders shuffle -> sort_ok sort -> events_of convert cluster records evs ->
  shaped mw nw (map ev_weights evs) ->
  cres_run is_ntuple convert cluster mw sort shuffle
    (lib_resample mw sort' strategy algo dist max) lib_no_unweight records = Wrote W ->
  total (written (map ev_weights evs) W) k =
  if mw then total (map ev_weights evs) k
  else total (map ev_weights evs) k - total (map ev_weights (filter (fun e => negb (has_particles e)) evs)) k.
Proof. intros. eapply run_total_no_unweight; eauto. Qed.
Print Assumptions C29_no_unweighting_partial.

(** With unweighting and a single weight the same holds unless the output total is zero. *)
Theorem C29_unweighting_partial : forall (Rec Err : Type) is_ntuple (convert : Rec -> Event RN + Err) cluster
    mw nw sort sort' shuffle strategy (algo : search_algo RN) dist max records W evs psum m draws,
  reorders shuffle -> sort_ok sort -> events_of convert cluster records evs ->
  shaped mw nw (map ev_weights evs) -> mw = false -> (forall x, psum x = Rsum x) ->
  cres_run is_ntuple convert cluster mw sort shuffle
    (lib_resample mw sort' strategy algo dist max) (lib_unweight psum m draws) records = Wrote W ->
  total (written (map ev_weights evs) W) 0 <> 0 ->
  total (written (map ev_weights evs) W) 0 =
  total (map ev_weights evs) 0 - total (map ev_weights (filter (fun e => negb (has_particles e)) evs)) 0.
Proof. intros. eapply run_total_unweight; eauto. Qed.
Print Assumptions C29_unweighting_partial.

(** The premises can be met: records with weights -1, 3, the first two with a particle and a
    third without. *)
Definition demo_convert_R (r : nat) : Event RN + nat :=
  inl (mkEvent 0 [nth r [-1; 3; 7] 0] (if (r <? 2)%nat then [(21%Z, [mkFV (N := RN) 1 0 0 0 0])] else [])).

Example C29_case : exists W evs,
  events_of demo_convert_R inl [inl 0%nat; inl 1%nat; inl 2%nat] evs /\ shaped false 1 (map ev_weights evs) /\
  total (map ev_weights evs) 0 = 9 /\
  total (map ev_weights (filter (fun e => negb (has_particles e)) evs)) 0 = 7 /\
  cres_run (N := RN) (fun _ => false) demo_convert_R inl false isort (fun l => l)
    (lib_resample false isort MostNegative (naive_nearest first_min) (fun _ _ => 1) 2) lib_no_unweight
    [inl 0%nat; inl 1%nat; inl 2%nat] = Wrote W.
Proof.
  set (recs := [inl 0%nat; inl 1%nat; inl 2%nat] : list (nat + nat)).
  set (resample := lib_resample (N := RN) (Err := nat) false isort MostNegative (naive_nearest first_min) (fun _ _ => 1) 2).
  destruct (@run_used RN nat nat (fun _ => false) demo_convert_R inl false isort resample lib_no_unweight (fun l => l) recs)
    as (evs & used & He & Hp & _ & _ & Hrun).
  { intros l. apply Permutation_refl. }
  { intros r err Hin F. cbn in Hin. destruct F; [intuition discriminate|..].
    - discriminate.
    - discriminate.
    - injection H as <-. injection H0 as <-. apply H1. reflexivity. }
  assert (Eevs : evs = [mkEvent (N := RN) 0 [-1] [(21%Z, [mkFV (N := RN) 1 0 0 0 0])];
     mkEvent (N := RN) 1 [3] [(21%Z, [mkFV (N := RN) 1 0 0 0 0])]; mkEvent (N := RN) 2 [7] []]).
  { destruct He as [Hl He]. destruct evs as [|e0 [|e1 [|e2 [|e3 evs]]]]; try discriminate Hl.
    destruct (He 0%nat _ _ eq_refl eq_refl) as (r0 & a0 & b0 & A0 & B0 & D0 & _ & ->).
    destruct (He 1%nat _ _ eq_refl eq_refl) as (r1 & a1 & b1 & A1 & B1 & D1 & _ & ->).
    destruct (He 2%nat _ _ eq_refl eq_refl) as (r2 & a2 & b2 & A2 & B2 & D2 & _ & ->).
    injection A0 as <-. injection A1 as <-. injection A2 as <-.
    injection B0 as <-. injection B1 as <-. injection B2 as <-.
    injection D0 as <-. injection D1 as <-. injection D2 as <-. reflexivity. }
  assert (Hsh : shaped false 1 (map ev_weights evs)).
  { rewrite Eevs. split; [lia|]. split; [auto|]. repeat constructor. }
  pose proof (shaped_used Hsh Hp) as Hshu.
  destruct (@RunProofs2.resampler_some RN (fun _ => True) false 1 isort MostNegative (naive_nearest first_min)
    (fun _ _ => 1) 2 used isort_ok RN_order) as (evs1 & cells & Er); auto.
  { apply Forall_forall. intros w _. apply Forall_forall. auto. }
  { apply ConcProofs2.complete_valid. apply RunProofs2.naive_complete; [apply NaiveProofs.first_min_ok|]. intros i j Hi Hj. unfold dist_wrapper.
    destruct (nth_error used i), (nth_error used j); cbn; lra. }
  destruct (Hrun evs1) as (_ & _ & Hrun').
  { unfold resample, lib_resample. rewrite Er. reflexivity. }
  destruct (RunProofs2.resampler_total Hshu Er) as (L1 & I1 & _ & S1 & _).
  destruct (Hrun' evs1 eq_refl isort_ok) as (W & HW & _).
  { apply shaped_nonempty in S1. rewrite Forall_forall in *. intros e Hin. split; [auto|].
    assert (In (ev_id e) (map ev_id used)) as Hi by (rewrite <- I1; apply in_map; auto).
    apply in_map_iff in Hi. destruct Hi as (e0 & <- & Hi). apply Permutation_sym in Hp. eapply Permutation_in in Hi; [|exact Hp].
    apply filter_In in Hi. destruct Hi as [Hi _]. rewrite Eevs in Hi. cbn in Hi.
    destruct Hi as [<-|[<-|[<-|[]]]]; cbn; lia. }
  { rewrite I1. eapply used_nodup; eauto. }
  exists W, evs. split; auto. split; auto. rewrite Eevs. split; [|split; [|exact HW]].
  - unfold total, Rsum. cbn. lra.
  - unfold total, Rsum. cbn. lra.
Qed.
