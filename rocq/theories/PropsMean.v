(** C73: unweighting on average. *)
From Coq Require Import Reals Lra List Arith Lia.
From Coquelicot Require Import Coquelicot.
From Verif Require Import Base Num ModelEvent ModelUnweight SpecWeights SpecUnweight SumProofs UnweightProofs SpecMean MeanProofs.
Import ListNotations.
Local Open Scope R_scope.

(** The random numbers are drawn uniformly out of [[0, m)]. *)
Definition random_numbers (m : R) (n : nat) (ds : list R) : Prop := length ds = n /\ Forall (fun u => 0 <= u < m) ds.

(** On average, an event with weight [|w| < m] is kept with the probability [|w|/m], other events
    always; more generally, the sum of anything over the events that are kept. *)
Theorem C73_probability : forall psum (m : R) (events : list (Event RN)),
  (forall l, psum l = Rsum l) -> 0 < m -> events <> [] -> Forall (fun e => ev_weights e <> []) events ->
  let n := length (light_events m events) in
  exists out : list R -> list (Event RN),
    (forall ds, random_numbers m n ds -> unweight (N := RN) psum m (fun i => nth i ds 0) events = Some (out ds, n)) /\
    forall count : nat -> list (Z * list (FourVector RN)) -> R,
      average m n (fun ds => Rsum (map (fun e => count (ev_id e) (ev_out e)) (out ds)))
        (Rsum (map (fun e => count (ev_id e) (ev_out e) * Rmin 1 (Rabs (cw e) / m)) events)).
Proof.
  intros psum m events Hp Hm Hne Hw n.
  set (out := fun ds => match unweight (N := RN) psum m (fun i => nth i ds 0) events with Some (l, _) => l | None => [] end).
  assert (Hout : forall ds, random_numbers m n ds -> exists r, unweight (N := RN) psum m (fun i => nth i ds 0) events = Some (out ds, n) /\ out ds = map (scaled r) (lifted m events ds)).
  { intros ds [Hl Hr]. destruct (unweight_lifted psum m events ds Hp Hm Hne Hw Hl Hr) as (r & H & _). exists r. unfold out.
    match goal with |- context [unweight ?a ?b ?c ?d] => replace (unweight a b c d) with (Some (map (scaled r) (lifted m events ds), length ds)) by (symmetry; exact H) end.
    rewrite Hl. auto. }
  exists out. split.
  - intros ds H. destruct (Hout ds H) as (r & E & _). exact E.
  - intros count. eapply average_ext; [|apply (kept_mean count m events Hm)]. intros ds Hl Hr. destruct (Hout ds (conj Hl Hr)) as (r & _ & ->). rewrite map_map. reflexivity.
Qed.
Print Assumptions C73_probability.

(** Up to the common factor that restores the total, unweighting does not change any observable
    on average: for every component of the weights, provided that it vanishes where the central
    weight does (so always for the central weight). *)
Theorem C73_unbiased : forall psum (m : R) (events : list (Event RN)),
  (forall l, psum l = Rsum l) -> 0 < m -> events <> [] -> Forall (fun e => ev_weights e <> []) events ->
  let n := length (light_events m events) in
  exists new : list R -> list (Event RN),
    (forall ds, random_numbers m n ds -> exists r, unweight (N := RN) psum m (fun i => nth i ds 0) events = Some (map (scaled r) (new ds), n) /\
       (Rsum (map cw (new ds)) <> 0 -> r = Rsum (map cw events) / Rsum (map cw (new ds)))) /\
    forall O k, (forall e, In e events -> cw e = 0 -> nth k (ev_weights e) 0 = 0) ->
      average m n (fun ds => observed O k (new ds)) (observed O k events).
Proof.
  intros psum m events Hp Hm Hne Hw n. exists (lifted m events). split.
  - intros ds [Hl Hr]. destruct (unweight_lifted psum m events ds Hp Hm Hne Hw Hl Hr) as (r & H & Ht). exists r. rewrite Hl in H. split; [exact H|].
    intros Hn. rewrite <- (Ht Hn). field. exact Hn.
  - intros O k Hz. apply lifted_mean; assumption.
Qed.
Print Assumptions C73_unbiased.

(** An average is unique. *)
Theorem C73_average_unique : forall m n F v v', 0 < m -> average m n F v -> average m n F v' -> v = v'.
Proof. intros m n F v v' Hm. apply average_fun. exact Hm. Qed.
Print Assumptions C73_average_unique.

(** *** Limits *)
(** The full property: the average of every observable after unweighting is the one before. *)
Definition result (m : R) (events : list (Event RN)) (ds : list R) : list (Event RN) :=
  match unweight (N := RN) Rsum m (fun i => nth i ds 0) events with Some (l, _) => l | None => [] end.
Definition no_bias (k : nat) (m : R) (events : list (Event RN)) : Prop :=
  forall O, average m (length (light_events m events)) (fun ds => observed O k (result m events ds)) (observed O k events).

(** It fails because of the common factor, which is not independent of what is kept.  Weights 3
    and 1, minimum 2: the first weight becomes 12/5 or 4 with the same probability. *)
Theorem C73_rescaled_refuted :
  let events := [@mkEvent RN 0 [3] []; @mkEvent RN 1 [1] []] in
  let first := fun (id : nat) (_ : list (Z * list (FourVector RN))) => match id with O => 1 | _ => 0 end in
  observed first 0 events = 3 /\ average 2 1 (fun ds => observed first 0 (result 2 events ds)) (16 / 5) /\ ~ no_bias 0 2 events.
Proof.
  intros events first.
  assert (L0 : light 2 (@mkEvent RN 0 [3] []) = false) by (unfold light, cw; cbn; apply Rleb_false; rewrite Rabs_right; lra).
  assert (L1 : light 2 (@mkEvent RN 1 [1] []) = true) by (unfold light, cw; cbn; apply Rleb_true; rewrite Rabs_right; lra).
  assert (Hb0 : boost 2 (@mkEvent RN 0 [3] []) = 1).
  { unfold boost, cw. cbn. replace (Rltb (Rabs 3) 2) with false; [reflexivity|]. symmetry. apply Rltb_false. rewrite Rabs_right; lra. }
  assert (Hb1 : boost 2 (@mkEvent RN 1 [1] []) = 2).
  { unfold boost, cw. cbn. rewrite Rabs_R1. replace (Rltb 1 2) with true; [lra|]. symmetry. apply Rltb_true. lra. }
  assert (Hn : length (light_events 2 events) = 1%nat) by (unfold light_events, events; cbn [filter]; rewrite L0, L1; reflexivity).
  assert (Hw : Forall (fun e : Event RN => ev_weights e <> []) events) by (repeat constructor; discriminate).
  assert (Hl : forall u, lifted 2 events [u] = if Rltb u 1 then [scaled 1 (@mkEvent RN 0 [3] []); scaled 2 (@mkEvent RN 1 [1] [])] else [scaled 1 (@mkEvent RN 0 [3] [])]).
  { intros u. unfold lifted, survivors, events. cbn [expand]. rewrite L0, L1. cbn [combine filter fst snd]. rewrite L0, L1. cbn [negb orb cw ev_weights nth].
    rewrite Rabs_R1. destruct (Rltb u 1); cbn [map fst]; rewrite ?Hb0, ?Hb1; reflexivity. }
  assert (Hr : forall u, 0 <= u < 2 -> observed first 0 (result 2 events [u]) = if Rltb u 1 then 12 / 5 else 4).
  { intros u Hu. destruct (unweight_lifted Rsum 2 events [u]) as (r & H & Ht); auto.
    - lra.
    - discriminate.
    - unfold result. match goal with |- context [unweight ?a ?b ?c ?d] => replace (unweight a b c d) with (Some (map (scaled r) (lifted 2 events [u]), length [u])) by (symmetry; exact H) end.
      rewrite Hl in *. unfold events in Ht. destruct (Rltb u 1); unfold observed, Rsum, cw in *; cbn in *.
      + assert (3 * 1 + (1 * 2 + 0) <> 0) as Hz by lra. specialize (Ht Hz). assert (r = 4 / 5) by lra. subst r. lra.
      + assert (3 * 1 + 0 <> 0) as Hz by lra. specialize (Ht Hz). assert (r = 4 / 3) by lra. subst r. lra. }
  assert (Ha : average 2 1 (fun ds => observed first 0 (result 2 events ds)) (16 / 5)).
  { exists (fun u => (if Rltb u 1 then 12 / 5 - 4 else 0) + 4). split.
    - intros u Hu. cbn [average]. rewrite (Hr u Hu). destruct (Rltb u 1); lra.
    - replace (2 * (16 / 5)) with (plus (1 * (12 / 5 - 4)) (scal (2 - 0) 4)) by (unfold plus, scal; cbn; unfold mult; cbn; lra).
      apply (is_RInt_plus (fun u => if Rltb u 1 then 12 / 5 - 4 else 0) (fun _ => 4)); [apply step_mean; lra|apply (is_RInt_const 0 2 (4 : R))]. }
  assert (Ho : observed first 0 events = 3) by (unfold observed, events, Rsum; cbn; lra).
  split; [exact Ho|]. split; [exact Ha|]. intros Hnb. specialize (Hnb first). rewrite Hn, Ho in Hnb.
  assert (E : 16 / 5 = 3) by (eapply average_fun; [|exact Ha|exact Hnb]; lra). lra.
Qed.
Print Assumptions C73_rescaled_refuted.

(** Even without it, other components of the weights are lost where the central weight is zero. *)
Theorem C73_zero_refuted :
  let events := [@mkEvent RN 0 [3; 1] []; @mkEvent RN 1 [0; 1] []] in
  forall ds, random_numbers 2 1 ds -> result 2 events ds = [@mkEvent RN 0 [3; 1] []] /\ total (map ev_weights events) 1 = 2.
Proof.
  intros events ds [Hl Hr].
  assert (L0 : light 2 (@mkEvent RN 0 [3; 1] []) = false) by (unfold light, cw; cbn; apply Rleb_false; rewrite Rabs_right; lra).
  assert (L1 : light 2 (@mkEvent RN 1 [0; 1] []) = true) by (unfold light, cw; cbn; apply Rleb_true; rewrite Rabs_R0; lra).
  assert (Hb0 : boost 2 (@mkEvent RN 0 [3; 1] []) = 1).
  { unfold boost, cw. cbn. replace (Rltb (Rabs 3) 2) with false; [reflexivity|]. symmetry. apply Rltb_false. rewrite Rabs_right; lra. }
  destruct ds as [|u [|? ?]]; try discriminate. inversion Hr; subst.
  assert (Hn : length (light_events 2 events) = 1%nat) by (unfold light_events, events; cbn [filter]; rewrite L0, L1; reflexivity).
  assert (Hli : lifted 2 events [u] = [scaled 1 (@mkEvent RN 0 [3; 1] [])]).
  { unfold lifted, survivors, events. cbn [expand]. rewrite L0, L1. cbn [combine filter fst snd]. rewrite L0, L1. cbn [negb orb cw ev_weights nth].
    rewrite Rabs_R0. replace (Rltb u 0) with false by (symmetry; apply Rltb_false; lra). cbn [map fst]. rewrite Hb0. reflexivity. }
  split; [|unfold total, Rsum, events; cbn; lra].
  destruct (unweight_lifted Rsum 2 events [u]) as (r & H & Ht); auto; [lra|discriminate|repeat constructor; discriminate|].
  unfold result. match goal with |- context [unweight ?a ?b ?c ?d] => replace (unweight a b c d) with (Some (map (scaled r) (lifted 2 events [u]), length [u])) by (symmetry; exact H) end.
  rewrite Hli in *. unfold events, Rsum, cw in Ht. cbn in Ht. assert (3 * 1 + 0 <> 0) as Hz by lra. specialize (Ht Hz). assert (r = 1) by lra. subst r.
  unfold scaled. cbn. rewrite !Rmult_1_r. reflexivity.
Qed.
Print Assumptions C73_zero_refuted.

(** *** Example: weights 3, -1 and 1/2, minimum 2 *)
Example C73_case :
  let events := [@mkEvent RN 0 [3] []; @mkEvent RN 1 [-1] []; @mkEvent RN 2 [1 / 2] []] in
  0 < 2 /\ events <> [] /\ Forall (fun e : Event RN => ev_weights e <> []) events /\ length (light_events 2 events) = 2%nat /\
  (forall e : Event RN, In e events -> cw e = 0 -> nth 0 (ev_weights e) 0 = 0) /\ random_numbers 2 2 [1 / 3; 5 / 3] /\
  map (fun e => Rmin 1 (Rabs (cw e) / 2)) events = [1; 1 / 2; 1 / 4].
Proof.
  intros events. split; [lra|]. split; [discriminate|]. split; [repeat constructor; discriminate|]. split.
  - unfold light_events, events, light, cw. cbn [filter ev_weights nth].
    replace (Rleb (Rabs 3) 2) with false by (symmetry; apply Rleb_false; rewrite Rabs_right; lra).
    replace (Rleb (Rabs (-1)) 2) with true by (symmetry; apply Rleb_true; rewrite Rabs_left; lra).
    replace (Rleb (Rabs (1 / 2)) 2) with true by (symmetry; apply Rleb_true; rewrite Rabs_right; lra). reflexivity.
  - split; [intros e _ H; exact H|]. split; [split; [reflexivity|repeat constructor; lra]|].
    unfold events, cw. cbn [map ev_weights nth]. rewrite (Rabs_right 3), (Rabs_left (-1)), (Rabs_right (1 / 2)) by lra.
    apply f_equal2; [apply Rmin_left; lra|]. apply f_equal2; [rewrite Rmin_right; lra|]. apply f_equal2; [rewrite Rmin_right; lra|reflexivity].
Qed.
