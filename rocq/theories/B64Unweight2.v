(** Unweighting in binary64: the steps *)
From Coq Require Import ZArith Reals Lra Lia SpecFloat.
From Flocq Require Import Core.Core IEEE754.BinarySingleNaN.
From Verif Require Import Base BaseProofs Num ModelEvent ModelUnweight ModelUnweight64 B64Proofs B64Errors B64Finite SpecMoments B64Distance SpecUnweight64 B64Unweight.
Set Implicit Arguments.
Local Open Scope R_scope.

Lemma eqb_refl (x : B64) : neqb x x = negb (match x with S754_nan => true | _ => false end).
Proof.
  destruct x as [s|[|]| |[|] m e]; try reflexivity; cbn [neqb B64]; unfold SFeqb, SFcompare; rewrite Z.compare_refl;
    unfold Pos.compare; rewrite Pos.compare_cont_refl; reflexivity.
Qed.
Lemma checked_fin checks (x : B64) : b64_fin x -> checked checks x = Some x.
Proof. intros H. unfold checked. rewrite eqb_refl. destruct x; try (destruct checks; reflexivity). destruct H as [_ H]. discriminate. Qed.
Lemma zero_form (x : B64) : b64_fin x -> b64_val x = 0 -> exists s, x = S754_zero s.
Proof.
  intros [_ F] H. destruct x as [s| | |s m e]; try discriminate; [exists s; reflexivity|]. exfalso. unfold b64_val, SF2R, F2R in H. cbn [Fnum Fexp] in H.
  pose proof (bpow_gt_0 radix2 e). assert (IZR (cond_Zopp s (Z.pos m)) <> 0) by (apply IZR_neq; destruct s; discriminate). nra.
Qed.
Lemma nonzero_form (x : B64) : b64_fin x -> b64_val x <> 0 -> exists s m e, x = S754_finite s m e.
Proof. intros [_ F] H. destruct x as [s| | |s m e]; try discriminate; [exfalso; apply H; reflexivity|eauto]. Qed.

Lemma weight_central (e : Event B64) : ev_weights e <> [] -> ev_weight e = Some (central_weight e).
Proof. unfold ev_weight, central, central_weight. destruct (ev_weights e); [contradiction|reflexivity]. Qed.
Lemma weights_central (l : list (Event B64)) : Forall (fun e => ev_weights e <> []) l -> omap ev_weight l = Some (map central_weight l).
Proof. intros H. apply omap_map. rewrite Forall_forall in H. intros e He. apply weight_central. apply H. exact He. Qed.
Lemma tame_central e : tame_weights e -> within (2 ^ 100) (central_weight e).
Proof. intros (Hn & Hf & _). unfold central_weight. destruct (ev_weights e); [contradiction|]. inversion Hf; assumption. Qed.

Lemma part_in A (l l' : list A) : part_of l l' -> forall x, In x l' -> In x l.
Proof. induction 1 as [|a l l' H IH|a l l' H IH]; intros x Hx; [exact Hx| |right; apply IH; exact Hx]. destruct Hx as [->|Hx]; [left; reflexivity|right; apply IH; exact Hx]. Qed.
Lemma part_length A (l l' : list A) : part_of l l' -> (length l' <= length l)%nat.
Proof. induction 1; cbn [length]; lia. Qed.

Section Steps.
Context (m : B64).
Hypothesis Hm1 : within (2 ^ 100) m.
Hypothesis Hm2 : / 2 ^ 100 <= b64_val m.

Lemma inv_pos n : 0 < / 2 ^ n.
Proof. apply Rinv_0_lt_compat, pow_pos. Qed.
Lemma m_pos : 0 < b64_val m.
Proof. pose proof (inv_pos 100). lra. Qed.
Lemma m_upper : b64_val m <= 2 ^ 100.
Proof. pose proof (Rle_abs (b64_val m)). destruct Hm1. lra. Qed.

Lemma retain_part draws events : Forall tame_weights events -> (forall i, b64_fin (draws i) /\ 0 <= b64_val (draws i)) ->
  forall k, exists kept k', retain_loop (N := B64) m draws k events = Some (kept, k') /\ part_of events kept /\ Forall (fun e => b64_val (central_weight e) <> 0) kept.
Proof.
  intros Ht Hd. induction Ht as [|e l He Hl IH]; intros k; [exists [], k; split; [reflexivity|split; constructor]|].
  cbn [retain_loop]. rewrite (@weight_central e (proj1 He)). cbv zeta.
  destruct (tame_central He) as [Fw Bw]. destruct (@b64_abs (central_weight e) Fw) as [Fa Va].
  rewrite (@b64_ltb m _ (proj1 Hm1) Fa), Va. destruct (Rltb (b64_val m) (Rabs (b64_val (central_weight e)))) eqn:E.
  - destruct (IH k) as (kept & k' & E1 & E2 & E3). rewrite E1. exists (e :: kept), k'. split; [reflexivity|]. split; [apply part_kept; exact E2|].
    apply Forall_cons; [|exact E3]. intros E0. rewrite E0, Rabs_R0 in E. apply Rltb_true in E. pose proof m_pos. lra.
  - destruct (IH (S k)) as (kept & k' & E1 & E2 & E3). rewrite E1. destruct (Hd k) as [Fd Pd].
    rewrite (@b64_ltb _ _ Fd Fa), Va. destruct (Rltb (b64_val (draws k)) (Rabs (b64_val (central_weight e)))) eqn:E'.
    + exists (e :: kept), k'. split; [reflexivity|]. split; [apply part_kept; exact E2|].
      apply Forall_cons; [|exact E3]. intros E0. rewrite E0, Rabs_R0 in E'. apply Rltb_true in E'. lra.
    + exists kept, k'. split; [reflexivity|]. split; [apply part_dropped; exact E2|exact E3].
Qed.

Definition lifted (e : Event B64) : Event B64 :=
  if nltb (n := B64) (nabs (n := B64) (central_weight e)) m then rescale_weights e (ndiv (n := B64) m (nabs (n := B64) (central_weight e))) else e.
Definition zero_weight (e : Event B64) : Prop := Exists (fun v => b64_val v = 0) (ev_weights e).

Lemma factor_ok e : tame_weights e -> b64_val (central_weight e) <> 0 -> nltb (n := B64) (nabs (n := B64) (central_weight e)) m = true ->
  let f := ndiv (n := B64) m (nabs (n := B64) (central_weight e)) in within (2 ^ 200) f /\ 1 <= b64_val f.
Proof.
  intros He H0 Hlt f. destruct (tame_central He) as [Fw Bw]. destruct (@b64_abs (central_weight e) Fw) as [Fa Va].
  rewrite (@b64_ltb _ m Fa (proj1 Hm1)), Va in Hlt. apply Rltb_true in Hlt.
  destruct He as (_ & _ & [H|Hs]); [contradiction|]. set (a := Rabs (b64_val (central_weight e))) in *.
  pose proof (inv_pos 100) as Hi. pose proof m_upper as Hu. pose proof m_pos as Hp.
  assert (Ha : 0 < a) by lra. assert (Hq : 1 <= b64_val m / a) by (apply Rmult_le_reg_r with a; [exact Ha|]; unfold Rdiv; rewrite Rmult_assoc, Rinv_l by lra; lra).
  assert (Hq2 : b64_val m / a <= 2 ^ 200).
  { apply Rmult_le_reg_r with a; [exact Ha|]. unfold Rdiv. rewrite Rmult_assoc, Rinv_l, Rmult_1_r by lra.
    replace (2 ^ 200) with (2 ^ 100 * 2 ^ 100) by (rewrite pow_add; reflexivity). pose proof (pow_pos 100) as P.
    assert (1 <= 2 ^ 100 * a) by (rewrite <- (Rinv_r (2 ^ 100)) by lra; apply Rmult_le_compat_l; lra). nra. }
  unfold f. assert (V : b64_val (nabs (n := B64) (central_weight e)) = a) by exact Va.
  destruct (@div_v m (nabs (n := B64) (central_weight e)) (2 ^ 200) (proj1 Hm1) Fa) as [W E];
    [rewrite V; lra|apply fmt_pow|apply pow_big; lia|rewrite V, Rabs_pos_eq; lra|].
  split; [exact W|]. rewrite E, V. assert (G : b64_rnd 1 = 1).
  { destruct (@b64_of_Z_val 1 ltac:(lia)) as [F1 V1]. pose proof (@b64_rnd_val _ F1) as G. rewrite V1 in G. exact G. }
 
  rewrite <- G at 1. apply b64_rnd_mono. exact Hq.
Qed.

Lemma times_ok (v f : B64) : within (2 ^ 100) v -> within (2 ^ 200) f -> 1 <= b64_val f ->
  within (2 ^ 300) (nmul (n := B64) v f) /\ Rabs (b64_val v) <= Rabs (b64_val (nmul (n := B64) v f)) /\
  (b64_val v = 0 <-> b64_val (nmul (n := B64) v f) = 0) /\ (0 <= b64_val v -> 0 <= b64_val (nmul (n := B64) v f)).
Proof.
  intros [Fv Bv] [Ff Bf] H1. destruct (@mul_v v f (2 ^ 300) Fv Ff) as [W E]; [apply fmt_pow|apply pow_big; lia| |].
  { rewrite Rabs_mult. replace (2 ^ 300) with (2 ^ 100 * 2 ^ 200) by (rewrite pow_add; reflexivity). apply Rmult_le_compat; try apply Rabs_pos; assumption. }
  assert (A : Rabs (b64_val v) <= Rabs (b64_val (nmul (n := B64) v f))).
  { assert (X : b64_rnd (Rabs (b64_val v)) = Rabs (b64_val v)) by (rewrite <- (proj2 (@b64_abs v Fv)); apply b64_rnd_val; exact (proj1 (@b64_abs v Fv))).
    rewrite E, <- X. unfold b64_rnd at 2. rewrite <- (@round_NE_abs radix2 (FLT_exp (-1074) 53) (@FLT_exp_valid (-1074) 53 eq_refl)).
    apply b64_rnd_mono. rewrite Rabs_mult, (Rabs_pos_eq (b64_val f)) by lra. pose proof (Rabs_pos (b64_val v)). nra. }
  split; [exact W|]. split; [exact A|]. split.
  - split; intros H.
    + rewrite E, H, Rmult_0_l. apply b64_rnd_0.
    + rewrite H, Rabs_R0 in A. destruct (Req_dec (b64_val v) 0) as [X|X]; [exact X|]. apply Rabs_pos_lt in X. lra.
  - intros H. rewrite E. apply rnd_pos. nra.
Qed.

Lemma lift_ok checks e : tame_weights e -> b64_val (central_weight e) <> 0 ->
  lift_checked checks m e = Some (lifted e) /\ ev_id (lifted e) = ev_id e /\ ev_out (lifted e) = ev_out e /\ ev_weights (lifted e) <> [] /\
  central_weight (lifted e) = raised m (central_weight e) /\ Forall (within (2 ^ 300)) (ev_weights (lifted e)) /\
  / 2 ^ 100 <= Rabs (b64_val (central_weight (lifted e))) /\ (zero_weight (lifted e) <-> zero_weight e) /\
  (0 <= b64_val (central_weight e) -> 0 <= b64_val (central_weight (lifted e))).
Proof.
  intros He H0. unfold lift_checked. rewrite (@weight_central e (proj1 He)). cbv zeta. unfold lifted, raised.
  pose proof (factor_ok He H0) as Hf. destruct He as (Hn & Hb & Hs). destruct Hs as [Hs|Hs]; [contradiction|].
  destruct (nltb (n := B64) (nabs (n := B64) (central_weight e)) m).
  - specialize (Hf eq_refl). cbv zeta in Hf. destruct Hf as [Wf Gf]. set (f := ndiv (n := B64) m (nabs (n := B64) (central_weight e))) in *.
    assert (T : forall v, In v (ev_weights e) -> within (2 ^ 300) (nmul (n := B64) v f) /\ Rabs (b64_val v) <= Rabs (b64_val (nmul (n := B64) v f)) /\
      (b64_val v = 0 <-> b64_val (nmul (n := B64) v f) = 0) /\ (0 <= b64_val v -> 0 <= b64_val (nmul (n := B64) v f))).
    { intros v Hv. rewrite Forall_forall in Hb. apply times_ok; [apply Hb; exact Hv|exact Wf|exact Gf]. }
    rewrite (checked_fin checks (proj1 Wf)). unfold rescale_checked.
    rewrite (@omap_map _ _ _ (fun v => nmul (n := B64) v f)) by (intros v Hv; apply checked_fin; exact (proj1 (proj1 (T v Hv)))).
    assert (C : central_weight (rescale_weights e f) = nmul (n := B64) (central_weight e) f).
    { unfold central_weight, rescale_weights. cbn [ev_weights]. destruct (ev_weights e); [contradiction|reflexivity]. }
    assert (I : In (central_weight e) (ev_weights e)) by (unfold central_weight; destruct (ev_weights e); [contradiction|left; reflexivity]).
    split; [reflexivity|]. split; [reflexivity|]. split; [reflexivity|].
    split; [unfold rescale_weights; cbn [ev_weights]; destruct (ev_weights e); [contradiction|discriminate]|].
    split; [exact C|]. split; [|split; [|split]].
    + unfold rescale_weights. cbn [ev_weights]. apply Forall_forall. intros v' Hv. apply in_map_iff in Hv as (v & <- & Hv). apply (T v Hv).
    + rewrite C. destruct (T _ I) as (_ & X & _). lra.
    + unfold zero_weight, rescale_weights. cbn [ev_weights]. rewrite !Exists_exists. split.
      * intros (v' & Hv & Z). apply in_map_iff in Hv as (v & <- & Hv). exists v. split; [exact Hv|]. apply (T v Hv). exact Z.
      * intros (v & Hv & Z). exists (nmul (n := B64) v f). split; [apply in_map_iff; eauto|]. apply (T v Hv). exact Z.
    + rewrite C. apply (T _ I).
  - split; [reflexivity|]. split; [reflexivity|]. split; [reflexivity|]. split; [exact Hn|]. split; [reflexivity|].
    split; [eapply Forall_impl; [|exact Hb]; intros v Hv; eapply within_mono; [exact Hv|apply pow_mono; lia]|].
    split; [exact Hs|]. split; [reflexivity|auto].
Qed.
End Steps.
