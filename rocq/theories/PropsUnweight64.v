(** C89: unweighting in binary64, in release and in debug builds. *)
From Coq Require Import ZArith Reals Lra Lia SpecFloat.
From Flocq Require Import Core.Core IEEE754.BinarySingleNaN.
From Verif Require Import Base BaseProofs Num ModelEvent ModelUnweight ModelUnweight64 TextExamples B64Proofs B64Errors B64Finite SpecMoments B64Distance SpecUnweight64
  B64Unweight B64Unweight2 B64Unweight3.
Local Open Scope R_scope.
Local Open Scope list_scope.

(** Without debug assertions, there are no other panics than those of C26. *)
Theorem C89_release : forall (N : NumOps) psum (m : N) draws (events : list (Event N)), neqb (nsub m m) n0 = true ->
  unweight_checked false psum m draws events = unweight psum m draws events.
Proof. exact unweight_unchecked. Qed.
Print Assumptions C89_release.

(** The minimum weight and all weights are neither too large nor too small; there are not too many events; random numbers
    are not negative. *)
Definition moderate_input (m : B64) (draws : nat -> B64) (events : list (Event B64)) : Prop :=
  within (2 ^ 100) m /\ / 2 ^ 100 <= b64_val m /\ Forall tame_weights events /\ events <> [] /\ (Z.of_nat (length events) <= 2 ^ 53)%Z /\
  (forall i, b64_fin (draws i) /\ 0 <= b64_val (draws i)).

(** Then all resulting weights are finite exactly if the raised weights do not cancel, and with debug
    assertions there is a panic exactly if they do and in addition the original weights cancel
    or a weight of a kept event is zero. *)
Theorem C89_finite : forall psum m draws events, (forall l, sum_of l (psum l)) -> moderate_input m draws events ->
  exists kept out k, unweight psum m draws events = Some (out, k) /\
    part_of events kept /\ map ev_id out = map ev_id kept /\ map ev_out out = map ev_out kept /\
    let after_raising := psum (map (raised m) (map central_weight kept)) in
    let original := psum (map central_weight events) in
    (Forall finite_weights out <-> kept = [] \/ b64_val after_raising <> 0) /\
    (unweight_checked true psum m draws events = None <->
      b64_val after_raising = 0 /\ (b64_val original = 0 \/ exists e w, In e kept /\ In w (ev_weights e) /\ b64_val w = 0)) /\
    (unweight_checked true psum m draws events <> None -> unweight_checked true psum m draws events = Some (out, k)).
Proof.
  intros psum m draws events Hs (H1 & H2 & H3 & H4 & H5 & H6). destruct (@retain_part m H1 H2 draws events H3 H6 0) as (kept & k & Hr & Hp & Hn).
  exists kept, (results psum m events kept), k.
  pose proof (unchecked_result psum draws Hs H1 H2 H3 H4 H5 Hr Hp Hn) as U. rewrite unweight_unchecked in U.
  2:{ pose proof (uniform_fine events H1 H2) as X. unfold uniform_ok in X. apply Bool.andb_true_iff in X. exact (proj2 X). }
  assert (K : forall e, In e kept -> ev_id (lifted m e) = ev_id e /\ ev_out (lifted m e) = ev_out e).
  { intros e He. destruct (kept_tame H3 Hp Hn _ He) as [A B]. destruct (lift_ok H1 H2 true A B) as (_ & X & Y & _). auto. }
  split; [exact U|]. split; [exact Hp|]. split; [|split].
  - unfold results. rewrite !map_map. apply map_ext_in. intros e He. apply K. exact He.
  - unfold results. rewrite !map_map. apply map_ext_in. intros e He. apply K. exact He.
  - cbv zeta. split; [exact (finite_result psum Hs H1 H2 H3 H5 Hp Hn)|].
    destruct (checked_result psum draws Hs H1 H2 H3 H4 H5 Hr Hp Hn) as [C1 C2]. split.
    + rewrite C1. unfold total, before. split; intros [A B]; (split; [exact A|]); (destruct B as [B|B]; [left; exact B|right]).
      * apply Exists_exists in B as (e & He & B). apply Exists_exists in B as (w & Hw & B). exists e, w. auto.
      * destruct B as (e & w & He & Hw & B). apply Exists_exists. exists e. split; [exact He|]. apply Exists_exists. exists w. auto.
    + intros X. destruct C2 as [C2|C2]; [contradiction|exact C2].
Qed.
Print Assumptions C89_finite.

(** Without negative weights all results are finite and not negative; with debug assertions there is a
    panic only if all weights are zero. *)
Theorem C89_positive : forall psum m draws events, (forall l, sum_of l (psum l)) -> moderate_input m draws events ->
  Forall (fun e => 0 <= b64_val (central_weight e)) events ->
  exists out k, unweight psum m draws events = Some (out, k) /\ Forall finite_weights out /\ Forall (fun e => 0 <= b64_val (central_weight e)) out /\
    (unweight_checked true psum m draws events = None <-> Forall (fun e => b64_val (central_weight e) = 0) events) /\
    (unweight_checked true psum m draws events <> None -> unweight_checked true psum m draws events = Some (out, k)).
Proof.
  intros psum m draws events Hs (H1 & H2 & H3 & H4 & H5 & H6) Hpos. destruct (@retain_part m H1 H2 draws events H3 H6 0) as (kept & k & Hr & Hp & Hn).
  pose proof (unchecked_result psum draws Hs H1 H2 H3 H4 H5 Hr Hp Hn) as U. rewrite unweight_unchecked in U.
  2:{ pose proof (uniform_fine events H1 H2) as X. unfold uniform_ok in X. apply Bool.andb_true_iff in X. exact (proj2 X). }
  exists (results psum m events kept), k. split; [exact U|].
  assert (T : forall e, In e kept -> 0 <= b64_val (central_weight e) /\ upto (2 ^ 300) (central_weight (lifted m e)) /\ 0 < b64_val (central_weight (lifted m e))).
  { intros e He. rewrite Forall_forall in Hpos. pose proof (Hpos e (part_in Hp _ He)) as P. split; [exact P|].
    destruct (kept_tame H3 Hp Hn _ He) as [A B]. destruct (lift_ok H1 H2 true A B) as (_ & _ & _ & N & _ & W & S & _ & P'). specialize (P' P).
    assert (W' : within (2 ^ 300) (central_weight (lifted m e))).
    { unfold central_weight at 1. destruct (ev_weights (lifted m e)); [contradiction|]. inversion W; assumption. }
    rewrite Rabs_pos_eq in S by exact P'. pose proof (inv_pos 100) as I. destruct W' as [F Bd]. rewrite Rabs_pos_eq in Bd by exact P'.
    split; [split; [exact F|split; assumption]|lra]. }
  assert (Ub : Forall (upto (2 ^ 100)) (map central_weight events)).
  { apply Forall_forall. intros w Hw. apply in_map_iff in Hw as (e & <- & He). rewrite Forall_forall in Hpos, H3. pose proof (Hpos e He) as P.
    destruct (tame_central (H3 e He)) as [F Bd]. rewrite Rabs_pos_eq in Bd by exact P. split; [exact F|split; assumption]. }
  destruct (sum_pos 100 (Hs (map central_weight events)) Ub ltac:(rewrite map_length; exact H5) ltac:(lia)) as (B1 & B2 & B3). fold (before psum events) in B1, B2, B3.
  assert (Ut : Forall (upto (2 ^ 300)) (map central_weight (map (lifted m) kept))).
  { apply Forall_forall. intros w Hw. rewrite map_map in Hw. apply in_map_iff in Hw as (e & <- & He). apply (T e He). }
  destruct (sum_pos 300 (Hs (map central_weight (map (lifted m) kept))) Ut ltac:(rewrite !map_length; exact (kept_length H5 Hp)) ltac:(lia)) as (T1 & T2 & T3).
  rewrite <- (raised_central H1 H2 H3 Hp Hn) in T1, T2, T3. fold (total psum m kept) in T1, T2, T3.
  assert (Tz : b64_val (total psum m kept) = 0 <-> kept = []).
  { split.
    - intros E. destruct (nil_or_in kept) as [X|[e He]]; [exact X|]. exfalso. rewrite (raised_central H1 H2 H3 Hp Hn) in T2. rewrite Forall_forall in T2.
      specialize (T2 (central_weight (lifted m e))). rewrite map_map in T2. specialize (T2 (in_map (fun x => central_weight (lifted m x)) _ _ He)).
      destruct (T e He) as (_ & _ & P). lra.
    - intros E. apply T3. rewrite E. apply Forall_nil. }
  split; [|split; [|split]].
  - apply (finite_result psum Hs H1 H2 H3 H5 Hp Hn). destruct (nil_or_in kept) as [X|[e He]]; [left; exact X|right]. intros E. apply Tz in E. rewrite E in He. destruct He.
  - apply Forall_forall. intros e' He. unfold results in He. apply in_map_iff in He as (e1 & <- & He1). pose proof He1 as He1'. apply in_map_iff in He1' as (e & <- & He).
    assert (Z : b64_val (total psum m kept) <> 0) by (intros E; apply Tz in E; rewrite E in He; destruct He).
    destruct (regular psum Hs H1 H2 H3 H5 Hp Hn Z) as [Fr R]. destruct (T e He) as (_ & [Fl Bl] & Pl). destruct (kept_tame H3 Hp Hn _ He) as [A B].
    destruct (lift_ok H1 H2 true A B) as (_ & _ & _ & N & _ & _ & _ & _ & _).
    set (r := ndiv (n := B64) (before psum events) (total psum m kept)) in *.
    assert (C : central_weight (rescale_weights (lifted m e) r) = nmul (n := B64) (central_weight (lifted m e)) r).
    { unfold central_weight, rescale_weights. cbn [ev_weights]. destruct (ev_weights (lifted m e)); [contradiction|reflexivity]. }
    assert (I : In (central_weight (lifted m e)) (ev_weights (lifted m e))) by (unfold central_weight; destruct (ev_weights (lifted m e)); [contradiction|left; reflexivity]).
    rewrite C. pose proof (R _ _ He1 I) as Fp. destruct (b64_mul_inv (b64_fin_valid Fl) (b64_fin_valid Fr)) as [_ Q]. destruct (Q Fp) as (_ & _ & V). rewrite V.
    apply rnd_pos. apply Rmult_le_pos; [exact (proj1 Bl)|]. unfold r.
    destruct (b64_div_inv (b64_fin_valid (proj1 (before_within psum Hs H3 H5))) (b64_fin_valid (total_fin psum Hs H1 H2 H3 H5 Hp Hn)) Z) as [_ D]. destruct (D Fr) as [_ Vr]. rewrite Vr.
    apply rnd_pos. unfold Rdiv. apply Rmult_le_pos; [exact B1|]. apply Rlt_le, Rinv_0_lt_compat. lra.
  - destruct (checked_result psum draws Hs H1 H2 H3 H4 H5 Hr Hp Hn) as [C1 _]. rewrite C1, Tz. split.
    + intros [E [X|X]]; [|rewrite E in X; inversion X]. apply Forall_forall. intros e He. rewrite Forall_forall in B2, Hpos.
      specialize (B2 (central_weight e) (in_map central_weight _ _ He)). specialize (Hpos e He). lra.
    + intros Z. split; [|left; apply B3; apply Forall_forall; intros w Hw; apply in_map_iff in Hw as (e & <- & He); rewrite Forall_forall in Z; apply Z; exact He].
      destruct (nil_or_in kept) as [X|[e He]]; [exact X|]. exfalso. rewrite Forall_forall in Z, Hn. apply (Hn e He). apply Z. exact (part_in Hp _ He).
  - destruct (checked_result psum draws Hs H1 H2 H3 H4 H5 Hr Hp Hn) as [_ [C2|C2]]; intros X; [contradiction|exact C2].
Qed.
Print Assumptions C89_positive.

(** *** The full property does not hold *)
Lemma nsum_sum l : sum_of l (nsum (N := B64) l).
Proof.
  unfold nsum. induction l as [|x l IH] using rev_ind; [apply sum_nothing|]. rewrite fold_left_app. cbn [fold_left]. apply sum_parts; [exact IH|apply sum_one].
Qed.
Definition u_half : B64 := Eval vm_compute in ndiv (n := B64) (b64_of_Z 1) (b64_of_Z 2).
Definition u_quarter : B64 := Eval vm_compute in nopp (n := B64) (ndiv (n := B64) (b64_of_Z 1) (b64_of_Z 4)).
Definition u_event (w : B64) : Event B64 := mkEvent (N := B64) 0 [w] [].
Lemma u_fin : b64_fin u_half /\ b64_val u_half = / 2 /\ b64_fin u_quarter /\ b64_val u_quarter = - / 4.
Proof.
  unfold u_half, u_quarter, b64_val, SF2R, F2R. cbn. split; [split; reflexivity|]. split; [lra|]. split; [split; reflexivity|]. lra.
Qed.
Lemma u_one : b64_fin (b64_of_Z 1) /\ b64_val (b64_of_Z 1) = 1.
Proof. destruct (@b64_of_Z_val 1 ltac:(lia)) as [F V]. split; [exact F|exact V]. Qed.
Lemma u_pow : 1 <= 2 ^ 100 /\ / 2 ^ 100 <= / 4.
Proof.
  split; [apply pow_R1_Rle; lra|]. apply Rinv_le_contravar; [lra|]. replace 4 with (2 ^ 2) by ring. apply pow_mono. lia.
Qed.
Lemma u_tame w : b64_fin w -> / 4 <= Rabs (b64_val w) <= 1 -> tame_weights (u_event w).
Proof.
  intros F [A B]. destruct u_pow as [P1 P2]. split; [discriminate|]. split; [repeat constructor; [exact (proj1 F)|exact (proj2 F)|lra]|]. right. cbn. lra.
Qed.

(** Two events of weights 1/2 and -1/4 and minimum weight 1: if both are kept, their weights are
    raised to 1 and -1, the sum of which is zero, and the results are infinite. *)
Definition u_events : list (Event B64) := [u_event u_half; u_event u_quarter].
Lemma u_moderate draws : (forall i, b64_fin (draws i) /\ 0 <= b64_val (draws i)) -> moderate_input (b64_of_Z 1) draws u_events.
Proof.
  intros Hd. destruct u_one as [F1 V1], u_fin as (F2 & V2 & F4 & V4), u_pow as [P1 P2]. split; [split; [exact F1|rewrite V1, Rabs_R1; exact P1]|]. split; [rewrite V1; lra|].
  split; [|split; [discriminate|split; [cbn; lia|exact Hd]]]. apply Forall_cons; [|apply Forall_cons; [|apply Forall_nil]].
  - apply u_tame; [exact F2|]. rewrite V2, Rabs_pos_eq; lra.
  - apply u_tame; [exact F4|]. rewrite V4, Rabs_Ropp, Rabs_pos_eq; lra.
Qed.
Lemma zero_draws : forall i : nat, b64_fin ((fun _ => n0 : B64) i) /\ 0 <= b64_val ((fun _ => n0 : B64) i).
Proof. intros i. split; [split; reflexivity|]. change (b64_val (n0 : B64)) with 0. lra. Qed.
Theorem C89_infinite_refuted : ~ (forall psum m draws events, (forall l, sum_of l (psum l)) -> moderate_input m draws events ->
  exists out k, unweight psum m draws events = Some (out, k) /\ Forall finite_weights out).
Proof.
  intros H. destruct (H (nsum (N := B64)) (b64_of_Z 1) (fun _ => n0) u_events nsum_sum (u_moderate _ zero_draws)) as (out & k & E & F).
  assert (X : unweight (N := B64) (nsum (N := B64)) (b64_of_Z 1) (fun _ => n0) u_events = Some ([u_event (S754_infinity false); u_event (S754_infinity true)], 2%nat)) by vmr.
  rewrite X in E. injection E as <- _. inversion F as [|a b Y Z]; subst. inversion Y as [|a b [_ Y']]. discriminate.
Qed.
Print Assumptions C89_infinite_refuted.

(** If all events are dropped and the sum of their weights was zero, debug builds panic. *)
Definition u_cancel : list (Event B64) := [u_event u_half; u_event (nopp (n := B64) u_half)].
Theorem C89_panic_refuted : ~ (forall psum m draws events, (forall l, sum_of l (psum l)) -> moderate_input m draws events ->
  unweight_checked true psum m draws events <> None).
Proof.
  intros H. apply (H (nsum (N := B64)) (b64_of_Z 1) (fun _ => u_half) u_cancel nsum_sum).
  - destruct u_one as [F1 V1], u_fin as (F2 & V2 & _), u_pow as [P1 P2]. split; [split; [exact F1|rewrite V1, Rabs_R1; exact P1]|]. split; [rewrite V1; lra|].
    split; [|split; [discriminate|split; [cbn; lia|intros i; split; [exact F2|rewrite V2; lra]]]]. apply Forall_cons; [|apply Forall_cons; [|apply Forall_nil]].
    + apply u_tame; [exact F2|]. rewrite V2, Rabs_pos_eq; lra.
    + assert (V : b64_val (nopp (n := B64) u_half) = - / 2) by (unfold u_half, b64_val, SF2R, F2R; cbn; lra).
      apply u_tame; [split; reflexivity|]. rewrite V, Rabs_Ropp, Rabs_pos_eq; lra.
  - vmr.
Qed.
Print Assumptions C89_panic_refuted.

(** The lower limit on the weights is needed: the event of weight 2^-1074 is kept if the random number is zero.
    The factor that raises it is infinite and its new weight is NaN, although there are no negative weights. *)
Definition u_tiny : B64 := S754_finite false 1 (-1074).
Theorem C89_tiny_refuted : exists events : list (Event B64),
  Forall finite_weights events /\ Forall (fun e => 0 <= b64_val (central_weight e)) events /\
  unweight (N := B64) (nsum (N := B64)) (b64_of_Z 1) (fun _ => n0) events = Some ([u_event S754_nan; u_event S754_nan], 2%nat) /\
  unweight_checked (N := B64) true (nsum (N := B64)) (b64_of_Z 1) (fun _ => n0) events = None.
Proof.
  exists [u_event u_tiny; u_event u_tiny]. split; [repeat constructor|]. split; [|split; vmr].
  assert (P : 0 <= b64_val u_tiny) by (unfold u_tiny, b64_val, SF2R; apply F2R_ge_0; cbn; lia). apply Forall_cons; [exact P|apply Forall_cons; [exact P|apply Forall_nil]].
Qed.
Print Assumptions C89_tiny_refuted.

(** *** Cases *)
(** Weights 1/2 and 1/2, the first one being kept: raised to 1, which is the original sum *)
Definition u_positive : list (Event B64) := [u_event u_half; u_event u_half].
Definition u_draws (i : nat) : B64 := match i with O => n0 | _ => u_half end.
Example C89_case : moderate_input (b64_of_Z 1) u_draws u_positive /\ Forall (fun e => 0 <= b64_val (central_weight e)) u_positive /\
  unweight_checked (N := B64) true (nsum (N := B64)) (b64_of_Z 1) u_draws u_positive = Some ([u_event (b64_of_Z 1)], 2%nat) /\
  moderate_input (b64_of_Z 1) (fun _ => n0) u_events /\ neqb (n := B64) (nsub (n := B64) (b64_of_Z 1) (b64_of_Z 1)) n0 = true.
Proof.
  destruct u_one as [F1 V1], u_fin as (F2 & V2 & _), u_pow as [P1 P2]. split; [|split; [|split; [vmr|split; [apply u_moderate; exact zero_draws|vmr]]]].
  - split; [split; [exact F1|rewrite V1, Rabs_R1; exact P1]|]. split; [rewrite V1; lra|].
    split; [|split; [discriminate|split; [cbn; lia|]]].
    + apply Forall_cons; [|apply Forall_cons; [|apply Forall_nil]]; (apply u_tame; [exact F2|]; rewrite V2, Rabs_pos_eq; lra).
    + intros [|i]; cbn [u_draws]; [exact (zero_draws 0)|split; [exact F2|rewrite V2; lra]].
  - assert (P : 0 <= b64_val u_half) by (rewrite V2; lra). apply Forall_cons; [exact P|apply Forall_cons; [exact P|apply Forall_nil]].
Qed.
