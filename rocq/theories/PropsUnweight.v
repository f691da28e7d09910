(** C26-C27: unweighting. *)
From Coq Require Import Reals Lra.
From Verif Require Import Base Num ModelEvent ModelUnweight SpecWeights SpecUnweight SumProofs UnweightProofs.
Local Open Scope R_scope.

(** C26.  Let [m > 0] be the minimum weight and let event [i] be assigned the number [us[i]]
    out of [[0, m)], the random numbers being drawn in the order of the events that need one.
    Unweighting keeps exactly the events with [|w| > m] or [us[i] < |w|], i.e. an event with
    [|w| <= m] is kept on a fraction [|w|/m] of the range of its random number.  Kept events
    keep their order, ids and momenta.  All weights of an event are multiplied by the factor
    that lifts [|w|] to at least [m], and by one common factor [r]; unless the lifted weights
    sum to zero the total is the original one.  No weight changes sign under lifting, and
    events of weight zero are never kept. *)
Theorem C26_unweight : forall psum (m : R) (draws : nat -> R) (events : list (Event RN)) (us : list R),
  (forall l, psum l = Rsum l) -> 0 < m -> events <> [] ->
  Forall (fun e => ev_weights e <> []) events ->
  length us = length events -> Forall (fun u => 0 <= u < m) us ->
  (forall i, (i < length (light_draws m events us))%nat -> draws i = nth i (light_draws m events us) 0) ->
  let kept := survivors m events us in
  let lifted := Rsum (map (fun e => cw e * boost m e) kept) in
  exists r out,
    unweight (N := RN) psum m draws events = Some (out, length (light_draws m events us)) /\
    out = map (fun e => scaled (boost m e * r) e) kept /\
    (lifted <> 0 -> Rsum (map cw out) = Rsum (map cw events)) /\
    Forall (fun e => m <= Rabs (cw e * boost m e) /\ 0 < boost m e /\ cw e <> 0) kept.
Proof.
  intros psum m draws events us Hp Hm He Hw Hl Hu Hd kept lifted.
  destruct (unweight_spec Hp Hm He Hw Hl Hu Hd) as (r & H1 & H2 & H3).
  exists r. eexists. split; [exact H1|]. split; [reflexivity|]. split; [|exact H3].
  intros H. rewrite scaled_total. auto.
Qed.
Print Assumptions C26_unweight.

(** The total is lost when no event survives. *)
Theorem C26_total_refuted : exists (m : R) (draws : nat -> R) (events : list (Event RN)) out k,
  0 < m /\ (forall i, 0 <= draws i < m) /\ Forall (fun e => ev_weights e <> []) events /\
  unweight (N := RN) Rsum m draws events = Some (out, k) /\
  Rsum (map cw out) <> Rsum (map cw events).
Proof.
  pose (e := @mkEvent RN 0 [1] []).
  assert (Hl : light 2 e = true) by (unfold light, e, cw; cbn; apply Rleb_true; rewrite Rabs_R1; lra).
  assert (Hlt : Rltb 1 (Rabs (cw e)) = false) by (unfold e, cw; cbn; apply Rltb_false; rewrite Rabs_R1; lra).
  assert (Hld : light_draws 2 [e] [1] = [1]) by (unfold light_draws; cbn [combine filter map fst snd]; rewrite Hl; reflexivity).
  assert (Hsv : survivors 2 [e] [1] = []) by (unfold survivors; cbn [combine filter map fst snd]; rewrite Hl, Hlt; reflexivity).
  assert (Hw : Forall (fun e => ev_weights e <> []) [e]) by (repeat constructor; discriminate).
  destruct (@unweight_spec Rsum 2 (fun _ => 1) [e] [1]) as (r & H1 & _); auto.
  - lra.
  - discriminate.
  - repeat constructor; lra.
  - rewrite Hld. cbn. intros [|i] Hi; [reflexivity|lia].
  - exists 2, (fun _ => 1), [e]. rewrite Hsv in H1. eexists _, _. split; [lra|]. split; [intros; lra|]. split; [exact Hw|].
    split; [exact H1|]. cbn. unfold Rsum. cbn. unfold cw. cbn. lra.
Qed.
Print Assumptions C26_total_refuted.

(** A negative (or NaN) minimum weight makes unweighting of a non-empty sample panic. *)
Theorem C26_bad_minimum_panics : forall (N : NumOps) psum (m : N) draws (events : list (Event N)),
  neqb m n0 = false -> nltb n0 m = false -> events <> [] -> unweight psum m draws events = None.
Proof. exact unweight_bad. Qed.
Print Assumptions C26_bad_minimum_panics.

(** C27.  With minimum weight zero, on an empty sample, and with [NoUnweighter] the events are
    returned as they are and no random number is drawn; for every number type, in particular
    for binary64. *)
Theorem C27_identity : forall (N : NumOps) psum (m : N) draws (events : list (Event N)),
  (neqb m n0 = true \/ events = [] -> unweight psum m draws events = Some (events, 0%nat)) /\
  no_unweight events = Some events.
Proof. intros. split; [apply unweight_off|reflexivity]. Qed.
Print Assumptions C27_identity.

(** Both zeros of binary64 switch unweighting off. *)
Example C27_case : neqb (n := B64) (SpecFloat.S754_zero false) n0 = true
                /\ neqb (n := B64) (SpecFloat.S754_zero true) n0 = true.
Proof. split; reflexivity. Qed.

(** Three events, weights 3, -1, 1 and minimum 2: the first needs no random number, the
    second survives with draw 1/2, the third is discarded with draw 3/2. *)
Example C26_case :
  let e w i := @mkEvent RN i [w] [] in
  let evs := [e 3 0%nat; e (-1) 1%nat; e 1 2%nat] in let us := [0; 1/2; 3/2] in
  light_draws 2 evs us = [1/2; 3/2] /\ survivors 2 evs us = [e 3 0%nat; e (-1) 1%nat] /\
  Rsum (map (fun e => cw e * boost 2 e) (survivors 2 evs us)) = 1.
Proof.
  intros e evs us.
  assert (L0 : light 2 (e 3 0%nat) = false).
  { unfold light, e, cw. cbn. apply Rleb_false. rewrite Rabs_right; lra. }
  assert (L1 : light 2 (e (-1) 1%nat) = true).
  { unfold light, e, cw. cbn. apply Rleb_true. rewrite Rabs_left; lra. }
  assert (L2 : light 2 (e 1 2%nat) = true).
  { unfold light, e, cw. cbn. apply Rleb_true. rewrite Rabs_right; lra. }
  assert (S1 : Rltb (1/2) (Rabs (cw (e (-1) 1%nat))) = true).
  { unfold e, cw. cbn. apply Rltb_true. rewrite Rabs_left; lra. }
  assert (S2 : Rltb (3/2) (Rabs (cw (e 1 2%nat))) = false).
  { unfold e, cw. cbn. apply Rltb_false. rewrite Rabs_right; lra. }
  assert (Sv : survivors 2 evs us = [e 3 0%nat; e (-1) 1%nat]).
  { unfold survivors, evs, us. cbn [combine filter map fst snd]. rewrite L0, L1, L2, S1, S2. reflexivity. }
  split; [|split; [exact Sv|]].
  - unfold light_draws, evs, us. cbn [combine filter map fst snd]. rewrite L0, L1, L2. reflexivity.
  - rewrite Sv. unfold boost, e, cw, Rsum. cbn. rewrite (Rabs_right 3), (Rabs_left (-1)) by lra.
    replace (Rltb 3 2) with false by (symmetry; apply Rltb_false; lra).
    replace (Rltb (- -1) 2) with true by (symmetry; apply Rltb_true; lra). field.
Qed.
