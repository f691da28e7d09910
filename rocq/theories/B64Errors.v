(** Rounding errors of sums and means in binary64; uses Flocq. *)
From Coq Require Import ZArith Reals Lra SpecFloat.
From Flocq Require Import Core.Core IEEE754.BinarySingleNaN.
From Flocq Require Import Relative Plus_error.
From Verif Require Import Base Num B64Proofs SpecWeights SumProofs.

Set Implicit Arguments.
Local Open Scope R_scope.
Local Existing Instance Hprec64.
Local Existing Instance Hmax64.

(** The relative and the absolute error of an operation *)
Definition b64_eps : R := / 2 ^ 53.
Definition b64_eta : R := / 2 ^ 1075.

Lemma b64_eps_bpow : / 2 * bpow radix2 (Z.opp 53 + 1) = b64_eps.
Proof.
  unfold b64_eps. change (Z.opp 53 + 1)%Z with (- (52))%Z. rewrite bpow_opp.
  replace (bpow radix2 52) with (2 ^ 52). { rewrite <- Rinv_mult. reflexivity. }
  change (bpow radix2 52) with (bpow radix2 (Z.of_nat 52)). rewrite bpow_powerRZ, <- pow_powerRZ. reflexivity.
Qed.
Lemma b64_eta_bpow : / 2 * bpow radix2 (-1074) = b64_eta.
Proof.
  unfold b64_eta. change (-1074)%Z with (- (1074))%Z. rewrite bpow_opp.
  assert (H : bpow radix2 1074 = 2 ^ 1074).
  { change (bpow radix2 1074) with (bpow radix2 (Z.of_nat 1074)). rewrite bpow_powerRZ, <- pow_powerRZ. reflexivity. }
  rewrite H, <- Rinv_mult. reflexivity.
Qed.
Lemma b64_eps_pos : 0 < b64_eps.
Proof. unfold b64_eps. apply Rinv_0_lt_compat, pow_lt. lra. Qed.
Lemma b64_eta_pos : 0 < b64_eta.
Proof. unfold b64_eta. apply Rinv_0_lt_compat, pow_lt. lra. Qed.

Definition b64_valid (x : B64) : Prop := valid_binary prec64 emax64 x = true.

Lemma b64_fin_valid x : b64_fin x -> b64_valid x.
Proof. intros [H _]. exact H. Qed.

Lemma b64_valid_lift (x : B64) : b64_valid x -> exists b : b64, B2SF b = x.
Proof. intros H. exists (SF2B x H). apply B2SF_SF2B. Qed.
Lemma b64_valid_drop (b : b64) : b64_valid (B2SF b).
Proof. apply valid_binary_B2SF. Qed.

Lemma b64_fin_drop (b : b64) : b64_fin (B2SF b) -> is_finite b = true.
Proof. intros [_ H]. rewrite is_finite_SF_B2SF in H. exact H. Qed.

Lemma b64_add_inv x y : b64_valid x -> b64_valid y ->
  b64_valid (nadd (n := B64) x y) /\
  (b64_fin (nadd (n := B64) x y) -> b64_fin x /\ b64_fin y /\
     b64_val (nadd (n := B64) x y) = b64_rnd (b64_val x + b64_val y)).
Proof.
  intros Hx Hy. destruct (b64_valid_lift Hx) as [a <-], (b64_valid_lift Hy) as [b <-].
  cbn [nadd B64]. rewrite SFadd_eq. split; [apply b64_valid_drop|]. intros Hf. apply b64_fin_drop in Hf.
  assert (Fab : is_finite a = true /\ is_finite b = true).
  { destruct a as [sa|sa| |sa ma ea Ba], b as [sb|sb| |sb mb eb Bb]; cbn in Hf; auto; try discriminate;
      destruct (Bool.eqb _ _); discriminate. }
  destruct Fab as [Fa Fb]. destruct (b64_drop _ Fa) as [Ga Va], (b64_drop _ Fb) as [Gb Vb].
  split; auto. split; auto. destruct (b64_drop _ Hf) as [_ ->]. rewrite Va, Vb.
  pose proof (Bplus_correct prec64 emax64 _ _ mode_NE a b Fa Fb) as H.
  destruct (Rlt_bool _ _).
  - destruct H as (H1 & _). exact H1.
  - destruct H as (H1 & _). exfalso. rewrite <- is_finite_SF_B2SF, H1 in Hf. discriminate.
Qed.

Lemma b64_mul_inv x y : b64_valid x -> b64_valid y ->
  b64_valid (nmul (n := B64) x y) /\
  (b64_fin (nmul (n := B64) x y) -> b64_fin x /\ b64_fin y /\
     b64_val (nmul (n := B64) x y) = b64_rnd (b64_val x * b64_val y)).
Proof.
  intros Hx Hy. destruct (b64_valid_lift Hx) as [a <-], (b64_valid_lift Hy) as [b <-].
  cbn [nmul B64]. rewrite SFmul_eq. split; [apply b64_valid_drop|]. intros Hf. apply b64_fin_drop in Hf.
  destruct (b64_drop _ Hf) as [_ ->].
  pose proof (Bmult_correct prec64 emax64 _ _ mode_NE a b) as H.
  destruct (Rlt_bool _ _).
  - destruct H as (H1 & H2 & _). rewrite H2 in Hf. apply andb_true_iff in Hf. destruct Hf as [Fa Fb].
    destruct (b64_drop _ Fa) as [Ga Va], (b64_drop _ Fb) as [Gb Vb]. rewrite Va, Vb. auto.
  - exfalso. rewrite <- is_finite_SF_B2SF, H in Hf. discriminate.
Qed.

Lemma b64_div_inv x y : b64_valid x -> b64_valid y -> b64_val y <> 0 ->
  b64_valid (ndiv (n := B64) x y) /\
  (b64_fin (ndiv (n := B64) x y) -> b64_fin x /\
     b64_val (ndiv (n := B64) x y) = b64_rnd (b64_val x / b64_val y)).
Proof.
  intros Hx Hy H0. destruct (b64_valid_lift Hx) as [a <-], (b64_valid_lift Hy) as [b <-].
  cbn [ndiv B64]. rewrite SFdiv_eq. split; [apply b64_valid_drop|]. intros Hf. apply b64_fin_drop in Hf.
  destruct (b64_drop _ Hf) as [_ ->].
  assert (Vb : b64_val (B2SF b) = B2R b) by (unfold b64_val; apply SF2R_B2SF).
  rewrite Vb in *.
  pose proof (Bdiv_correct prec64 emax64 _ _ mode_NE a b H0) as H.
  destruct (Rlt_bool _ _).
  - destruct H as (H1 & H2 & _). rewrite H2 in Hf. destruct (b64_drop _ Hf) as [Ga Va]. rewrite Va. auto.
  - exfalso. rewrite <- is_finite_SF_B2SF, H in Hf. discriminate.
Qed.

(** Division never panics or leaves the set of floating-point numbers, whatever the divisor. *)
Lemma b64_div_valid x y : b64_valid x -> b64_valid y -> b64_valid (ndiv (n := B64) x y).
Proof.
  intros Hx Hy. destruct (b64_valid_lift Hx) as [a <-], (b64_valid_lift Hy) as [b <-].
  cbn [ndiv B64]. rewrite SFdiv_eq. apply b64_valid_drop.
Qed.

(** Errors of the operations *)
Lemma u_ro_eps : u_ro radix2 53 / (1 + u_ro radix2 53) <= b64_eps.
Proof.
  unfold u_ro. rewrite b64_eps_bpow. pose proof b64_eps_pos.
  apply Rmult_le_reg_r with (1 + b64_eps); [lra|]. unfold Rdiv. rewrite Rmult_assoc, Rinv_l by lra. nra.
Qed.

Lemma b64_add_err x y : b64_valid x -> b64_valid y -> b64_fin (nadd (n := B64) x y) ->
  exists d, Rabs d <= b64_eps /\ b64_val (nadd (n := B64) x y) = (b64_val x + b64_val y) * (1 + d).
Proof.
  intros Hx Hy Hf. destruct (b64_add_inv Hx Hy) as [_ H]. destruct (H Hf) as (Fx & Fy & ->).
  destruct (FLT_plus_error_N_ex radix2 (-1074) 53 (fun x => negb (Z.even x)) (b64_val x) (b64_val y)) as (d & Hd & E);
    auto using b64_val_format.
  exists d. split; [|exact E]. pose proof u_ro_eps. lra.
Qed.

Lemma b64_rnd_err x : exists d e, Rabs d <= b64_eps /\ Rabs e <= b64_eta /\ b64_rnd x = x * (1 + d) + e.
Proof.
  destruct (error_N_FLT radix2 (-1074) 53 eq_refl (fun x => negb (Z.even x)) x) as (d & e & Hd & He & _ & E).
  exists d, e. rewrite b64_eps_bpow in Hd. rewrite b64_eta_bpow in He. auto.
Qed.

(** The reciprocal of a number of events does not underflow. *)
Lemma b64_inv_err m : (0 < m)%nat -> (Z.of_nat m <= 2 ^ 53)%Z ->
  let i := ndiv (n := B64) n1 (nofnat m) in
  b64_fin i /\ exists d, Rabs d <= b64_eps /\ b64_val i = / INR m * (1 + d).
Proof.
  intros Hm Hb i.
  destruct (b64_of_Z_val (Z.of_nat m)) as [Fm Vm]; [lia|].
  destruct (b64_of_Z_val 1) as [F1 V1]; [lia|].
  assert (Pm : 1 <= INR m). { change 1 with (INR 1). apply le_INR. lia. }
  rewrite <- INR_IZR_INZ in Vm.
  assert (Im : 0 < / INR m <= 1).
  { split; [apply Rinv_0_lt_compat; lra|]. rewrite <- Rinv_1. apply Rinv_le_contravar; lra. }
  assert (Fi : b64_fin i).
  { unfold i. cbn [ndiv n1 nofnat B64]. destruct (b64_lift _ F1) as (a & Ea & Fa & Va).
    destruct (b64_lift _ Fm) as (b & Eb & Fb & Vb). rewrite <- Ea, <- Eb, SFdiv_eq.
    pose proof (Bdiv_correct prec64 emax64 _ _ mode_NE a b) as H. rewrite Vb, Va, Vm, V1 in H.
    specialize (H ltac:(lra)). rewrite Rlt_bool_true in H.
    - destruct H as (_ & H & _). rewrite Fa in H. apply b64_drop. exact H.
    - apply b64_no_overflow. unfold Rdiv. rewrite Rmult_1_l, Rabs_pos_eq by lra.
      apply Rle_trans with 1; [lra|]. change 1 with (bpow radix2 0).
      assert (bpow radix2 0 + bpow radix2 971 <= bpow radix2 972).
      { change 972%Z with (1 + 971)%Z. rewrite bpow_plus. change (bpow radix2 1) with 2.
        assert (bpow radix2 0 <= bpow radix2 971) by (apply bpow_le; lia). lra. }
      assert (bpow radix2 972 <= bpow radix2 1024) by (apply bpow_le; lia). lra. }
  split; [exact Fi|].
  destruct (@b64_div_inv n1 (nofnat m)) as [_ H].
  { apply b64_fin_valid. exact F1. } { apply b64_fin_valid. exact Fm. }
  { cbn [nofnat B64]. rewrite Vm. lra. }
  destruct (H Fi) as [_ E]. fold i in E. rewrite E. cbn [n1 nofnat B64]. rewrite V1, Vm.
  unfold Rdiv. rewrite Rmult_1_l.
  destruct (relative_error_N_FLT_ex radix2 (-1074) 53 eq_refl (fun x => negb (Z.even x)) (/ INR m)) as (d & Hd & E').
  - rewrite Rabs_pos_eq by lra. apply Rle_trans with (bpow radix2 (Z.opp 53)); [apply bpow_le; lia|].
    rewrite bpow_opp. apply Rinv_le_contravar; [lra|]. rewrite INR_IZR_INZ.
    change (bpow radix2 53) with (IZR (2 ^ 53)). apply IZR_le. lia.
  - exists d. split; [|exact E']. rewrite b64_eps_bpow in Hd. exact Hd.
Qed.

(** Sums from left to right *)
Lemma b64_sum_valid l : forall x, b64_valid x -> Forall b64_valid l -> b64_valid (fold_left (nadd (n := B64)) l x).
Proof.
  induction l as [|a l IH]; intros x Hx Hl; cbn; auto. inversion Hl; subst. apply IH; auto. apply b64_add_inv; auto.
Qed.

Lemma b64_sum_fin l : forall x, b64_valid x -> Forall b64_valid l ->
  b64_fin (fold_left (nadd (n := B64)) l x) -> b64_fin x /\ Forall b64_fin l.
Proof.
  induction l as [|a l IH]; intros x Hx Hl Hf; cbn in Hf; auto. inversion Hl; subst.
  apply IH in Hf; auto. 2: apply b64_add_inv; auto.
  destruct Hf as [H3 H4]. apply b64_add_inv in H3; auto. destruct H3 as (H3 & H5 & _). auto.
Qed.

Definition Rabs_sum (l : list R) : R := Rsum (map Rabs l).
Lemma Rabs_sum_pos l : 0 <= Rabs_sum l.
Proof.
  unfold Rabs_sum. induction l as [|a l IH]; [apply Req_le, eq_sym, Rsum_nil|]. cbn [map]. rewrite Rsum_cons. pose proof (Rabs_pos a). lra.
Qed.

Lemma eps_pow_ge n : 1 <= (1 + b64_eps) ^ n.
Proof. apply pow_R1_Rle. pose proof b64_eps_pos. lra. Qed.

Lemma b64_sum_err l : forall x, b64_valid x -> Forall b64_valid l ->
  b64_fin (fold_left (nadd (n := B64)) l x) ->
  Rabs (b64_val (fold_left (nadd (n := B64)) l x) - (b64_val x + Rsum (map b64_val l)))
    <= ((1 + b64_eps) ^ length l - 1) * (Rabs (b64_val x) + Rabs_sum (map b64_val l)).
Proof.
  induction l as [|a l IH]; intros x Hx Hl Hf.
  - cbn. unfold Rabs_sum. cbn. rewrite !Rplus_0_r, Rminus_eq_0, Rabs_R0. lra.
  - inversion Hl as [|? ? Ha Hl']; subst. cbn [fold_left] in *.
    destruct (b64_add_inv Hx Ha) as [Hv _].
    specialize (IH _ Hv Hl' Hf). destruct (@b64_sum_fin l _ Hv Hl' Hf) as [Hf1 _].
    destruct (b64_add_err Hx Ha Hf1) as (d & Hd & E). rewrite E in IH.
    set (Z := b64_val (fold_left _ _ _)) in *. clearbody Z.
    unfold Rabs_sum in *. cbn [map length] in *. rewrite !Rsum_cons.
    set (X := b64_val x) in *. set (A := b64_val a) in *. set (T := Rsum (map b64_val l)) in *.
    set (TA := Rsum (map Rabs (map b64_val l))) in *.
    assert (HTA : 0 <= TA) by (apply (Rabs_sum_pos (map b64_val l))).
    assert (HXA : Rabs (X + A) <= Rabs X + Rabs A) by apply Rabs_triang.
    pose proof (eps_pow_ge (length l)) as HG. set (G := (1 + b64_eps) ^ length l) in *.
    change ((1 + b64_eps) ^ S (length l)) with ((1 + b64_eps) * G).
    pose proof b64_eps_pos as He.
    assert (H1 : Rabs ((X + A) * (1 + d)) <= (Rabs X + Rabs A) * (1 + b64_eps)).
    { rewrite Rabs_mult. apply Rmult_le_compat; try apply Rabs_pos; auto.
      eapply Rle_trans; [apply Rabs_triang|]. rewrite Rabs_R1. lra. }
    assert (H2 : Rabs ((X + A) * (1 + d) - (X + A)) <= (Rabs X + Rabs A) * b64_eps).
    { replace ((X + A) * (1 + d) - (X + A)) with ((X + A) * d) by ring. rewrite Rabs_mult.
      apply Rmult_le_compat; try apply Rabs_pos; auto. }
    set (Y := (X + A) * (1 + d)) in *. clearbody Y.
    replace (Z - (X + (A + T))) with ((Z - (Y + T)) + (Y - (X + A))) by ring.
    eapply Rle_trans; [apply Rabs_triang|].
    assert (HX : 0 <= Rabs X + Rabs A) by (pose proof (Rabs_pos X); pose proof (Rabs_pos A); lra).
    rewrite <- (Rplus_assoc (Rabs X)). set (P := Rabs X + Rabs A) in *. clearbody P.
    assert (H3 : (G - 1) * (Rabs Y + TA) <= (G - 1) * (P * (1 + b64_eps) + TA)) by (apply Rmult_le_compat_l; lra).
    assert (H4 : 0 <= b64_eps * G * TA) by (apply Rmult_le_pos; [apply Rmult_le_pos|]; lra).
    lra.
Qed.
