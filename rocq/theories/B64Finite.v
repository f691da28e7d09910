(** Runs in binary64 do not overflow if the weights are not too large. *)
From Coq Require Import ZArith Reals Lra Permutation SpecFloat.
From Flocq Require Import Core.Core IEEE754.BinarySingleNaN.
From Verif Require Import Base BaseProofs Num ModelEvent ModelCell ModelSeeds ModelResampler ModelConc SpecWeights SpecSearch SpecConc
  SumProofs CellProofs RunProofs RunProofs2 ConcProofs ConcProofs2 B64Proofs B64Errors SpecRounding B64Run B64Run2 SeedsProofs.

Set Implicit Arguments.
Local Open Scope R_scope.
Local Existing Instance Hprec64.
Local Existing Instance Hmax64.

Definition big : R := bpow radix2 1024 - bpow radix2 971.

Lemma b64_mul x y : b64_fin x -> b64_fin y -> Rabs (b64_val x * b64_val y) <= big -> b64_fin (nmul (n := B64) x y).
Proof.
  intros Hx Hy Hb. destruct (b64_lift _ Hx) as (a & <- & Fa & Ea), (b64_lift _ Hy) as (b & <- & Fb & Eb).
  cbn [nmul B64]. rewrite SFmul_eq. rewrite <- Ea, <- Eb in Hb.
  pose proof (Bmult_correct prec64 emax64 _ _ mode_NE a b) as H.
  rewrite Rlt_bool_true in H by (apply b64_no_overflow; exact Hb).
  destruct H as (_ & H & _). apply b64_drop. rewrite H, Fa, Fb. reflexivity.
Qed.

Lemma b64_div x y : b64_fin x -> b64_fin y -> b64_val y <> 0 -> Rabs (b64_val x / b64_val y) <= big -> b64_fin (ndiv (n := B64) x y).
Proof.
  intros Hx Hy H0 Hb. destruct (b64_lift _ Hx) as (a & <- & Fa & Ea), (b64_lift _ Hy) as (b & <- & Fb & Eb).
  cbn [ndiv B64]. rewrite SFdiv_eq. rewrite <- Ea, <- Eb in Hb. rewrite <- Eb in H0.
  pose proof (Bdiv_correct prec64 emax64 _ _ mode_NE a b H0) as H.
  rewrite Rlt_bool_true in H by (apply b64_no_overflow; exact Hb).
  destruct H as (_ & H & _). apply b64_drop. rewrite H, Fa. reflexivity.
Qed.

Lemma b64_sum_fwd l : forall x, b64_fin x -> Forall b64_fin l ->
  (1 + b64_eps) ^ length l * (Rabs (b64_val x) + Rabs_sum (map b64_val l)) <= big ->
  b64_fin (fold_left (nadd (n := B64)) l x).
Proof.
  induction l as [|a l IH]; intros x Hx Hl Hb; [exact Hx|]. inversion Hl as [|? ? Ha Hl']; subst. cbn [fold_left].
  unfold Rabs_sum in *. cbn [map length] in Hb. rewrite Rsum_cons in Hb.
  pose proof (Rabs_sum_pos (map b64_val l)) as HTA. unfold Rabs_sum in HTA.
  set (TA := Rsum (map Rabs (map b64_val l))) in *.
  pose proof (Rabs_pos (b64_val x)) as PX. pose proof (Rabs_pos (b64_val a)) as PA.
  pose proof b64_eps_pos as He. pose proof (eps_pow_ge (length l)) as HG.
  change ((1 + b64_eps) ^ S (length l)) with ((1 + b64_eps) * (1 + b64_eps) ^ length l) in Hb.
  set (G := (1 + b64_eps) ^ length l) in *.
  pose proof (Rabs_triang (b64_val x) (b64_val a)) as HT.
  set (X := Rabs (b64_val x)) in *. set (A := Rabs (b64_val a)) in *.
  assert (HG1 : 1 <= (1 + b64_eps) * G) by nra.
  destruct (b64_add _ _ Hx Ha) as [Hf _].
  { fold big. eapply Rle_trans; [exact HT|]. eapply Rle_trans; [|exact Hb]. nra. }
  apply IH; auto.
  destruct (b64_add_err (b64_fin_valid Hx) (b64_fin_valid Ha) Hf) as (d & Hd & ->). rewrite Rabs_mult.
  assert (H1 : Rabs (1 + d) <= 1 + b64_eps) by (eapply Rle_trans; [apply Rabs_triang|]; rewrite Rabs_R1; lra).
  eapply Rle_trans; [|exact Hb].
  assert (Rabs (b64_val x + b64_val a) * Rabs (1 + d) <= (X + A) * (1 + b64_eps)) by (apply Rmult_le_compat; auto; apply Rabs_pos).
  replace ((1 + b64_eps) * G * (X + (A + TA))) with (G * ((X + A) * (1 + b64_eps) + TA + b64_eps * TA)) by ring.
  apply Rmult_le_compat_l; [lra|]. assert (0 <= b64_eps * TA) by (apply Rmult_le_pos; lra). lra.
Qed.

Lemma b64_sum_size l x : b64_fin x -> Forall b64_fin l -> b64_fin (fold_left (nadd (n := B64)) l x) ->
  Rabs (b64_val (fold_left (nadd (n := B64)) l x)) <= (1 + b64_eps) ^ length l * (Rabs (b64_val x) + Rabs_sum (map b64_val l)).
Proof.
  intros Hx Hl Hf.
  assert (Hv : Forall b64_valid l) by (eapply Forall_impl; [|exact Hl]; intros y; apply b64_fin_valid).
  pose proof (b64_sum_err (b64_fin_valid Hx) Hv Hf) as H.
  set (S := b64_val (fold_left _ _ _)) in *. set (T := b64_val x + Rsum (map b64_val l)) in *.
  assert (HT : Rabs T <= Rabs (b64_val x) + Rabs_sum (map b64_val l)).
  { unfold T. eapply Rle_trans; [apply Rabs_triang|]. apply Rplus_le_compat_l. apply Rsum_abs_le. }
  replace S with ((S - T) + T) by ring. eapply Rle_trans; [apply Rabs_triang|]. lra.
Qed.

Lemma b64_mean_fwd mw l : l <> [] -> Forall b64_fin l -> (Z.of_nat (length l) <= 2 ^ 53)%Z ->
  (1 + b64_eps) ^ (length l + 1) * Rabs_sum (map b64_val l) <= big ->
  b64_fin (@computed_mean B64 mw l).
Proof.
  intros Hne Hl Hz Hb. pose proof b64_eps_pos as He.
  assert (Hlen : (0 < length l)%nat) by (destruct l; [congruence|cbn; lia]).
  assert (H1m : 1 <= INR (length l)) by (change 1 with (INR 1); apply le_INR; lia).
  rewrite Nat.add_1_r in Hb. change ((1 + b64_eps) ^ S (length l)) with ((1 + b64_eps) * (1 + b64_eps) ^ length l) in Hb.
  pose proof (Rabs_sum_pos (map b64_val l)) as HP. pose proof (eps_pow_ge (length l)) as HG. 
  unfold computed_mean. destruct mw.
  - destruct l as [|a l]; [congruence|]. inversion Hl as [|? ? Ha Hl']; subst.
    assert (E : Rabs_sum (map b64_val (a :: l)) = Rabs (b64_val a) + Rabs_sum (map b64_val l)) by (unfold Rabs_sum; cbn [map]; apply Rsum_cons).
    rewrite E in *. set (P := Rabs (b64_val a) + Rabs_sum (map b64_val l)) in *.
    change ((1 + b64_eps) ^ length (a :: l)) with ((1 + b64_eps) * (1 + b64_eps) ^ length l) in *.
    pose proof (eps_pow_ge (length l)) as HG'. set (G := (1 + b64_eps) ^ length l) in *.
    assert (PGP : 0 <= G * P) by (apply Rmult_le_pos; lra).
    assert (PGP1 : 0 <= b64_eps * (G * P)) by (apply Rmult_le_pos; lra).
    assert (PGP2 : 0 <= b64_eps * (b64_eps * (G * P))) by (apply Rmult_le_pos; lra).
    assert (Fs : b64_fin (fold_left (nadd (n := B64)) l a)).
    { apply b64_sum_fwd; auto. fold P. fold G. lra. }
    destruct (@b64_inv_err (length (a :: l))) as (Fi & d & Hd & Ei); [cbn; lia|exact Hz|].
    apply b64_mul; [exact Fs|exact Fi|]. rewrite Rabs_mult.
    pose proof (b64_sum_size Ha Hl' Fs) as Hs. fold P in Hs. fold G in Hs.
    assert (Hi : Rabs (b64_val (ndiv (n := B64) n1 (nofnat (length (a :: l))))) <= 1 + b64_eps).
    { cbv zeta in Ei. rewrite Ei, Rabs_mult. rewrite (Rabs_pos_eq (/ _)) by (apply Rlt_le, Rinv_0_lt_compat; lra).
      assert (/ INR (length (a :: l)) <= 1) by (rewrite <- Rinv_1; apply Rinv_le_contravar; lra).
      assert (Rabs (1 + d) <= 1 + b64_eps) by (eapply Rle_trans; [apply Rabs_triang|]; rewrite Rabs_R1; lra).
      replace (1 + b64_eps) with (1 * (1 + b64_eps)) by ring.
      apply Rmult_le_compat; [apply Rlt_le, Rinv_0_lt_compat; lra|apply Rabs_pos|assumption|assumption]. }
    apply Rle_trans with (G * P * (1 + b64_eps)); [apply Rmult_le_compat; auto; apply Rabs_pos|]. lra.
  - assert (F0 : b64_fin (n0 : B64)) by (split; reflexivity).
    assert (V0 : Rabs (b64_val (n0 : B64)) = 0) by (change (b64_val (n0 : B64)) with 0; apply Rabs_R0).
    set (G := (1 + b64_eps) ^ length l) in *. set (P := Rabs_sum (map b64_val l)) in *.
    assert (PGP : 0 <= G * P) by (apply Rmult_le_pos; lra).
    assert (PGP1 : 0 <= b64_eps * (G * P)) by (apply Rmult_le_pos; lra).
    assert (Fs : b64_fin (fold_left (nadd (n := B64)) l n0)).
    { apply b64_sum_fwd; auto. rewrite V0. fold G. fold P. lra. }
    destruct (b64_of_Z_val (Z.of_nat (length l))) as [Fm Vm]; [lia|]. rewrite <- INR_IZR_INZ in Vm.
    pose proof (b64_sum_size F0 Hl Fs) as Hs. rewrite V0 in Hs. fold G in Hs. fold P in Hs.
    apply b64_div; [exact Fs|exact Fm|cbn [nofnat B64]; rewrite Vm; lra|]. cbn [nofnat B64]. rewrite Vm.
    unfold Rdiv. rewrite Rabs_mult. rewrite (Rabs_pos_eq (/ _)) by (apply Rlt_le, Rinv_0_lt_compat; lra).
    assert (/ INR (length l) <= 1) by (rewrite <- Rinv_1; apply Rinv_le_contravar; lra).
    apply Rle_trans with (Rabs (b64_val (fold_left (nadd (n := B64)) l n0)) * 1).
    + apply Rmult_le_compat_l; [apply Rabs_pos|assumption].
    + lra.
Qed.

Section OneCell.
Context (mw : bool) (ws : list (list B64)) (c : Cell B64) (ws' : list (list B64)).
Context (Hwf : wf_weights mw ws) (H : @cell_resample B64 mw ws c = Some ws').
Hypothesis Hsize : (Z.of_nat (length ws) <= 2 ^ 53)%Z.

Lemma cell_abs_sorted k : Rabs_sum (map b64_val (map (fun j => @gcomp B64 ws j k) (isort Nat.leb (members c)))) = cell_abs ws c k.
Proof.
  unfold Rabs_sum, cell_abs. rewrite !map_map.
  rewrite (Rsum_perm (Permutation_map (fun i => Rabs (comp (b64_sample ws) i k)) (isort_perm Nat.leb (members c)))).
  f_equal. apply map_ext. intros i. f_equal. symmetry. apply comp_b64.
Qed.

Lemma resample_finite_fwd : finite_sample ws -> (forall k, (1 + rounding (length (members c) + 1)) * cell_abs ws c k <= big) -> finite_sample ws'.
Proof.
  intros Hf Hb. pose proof (resample_frame _ _ _ H) as (Hnd & Hlt & Hlen & _).
  apply sample_of_nth. intros i k Hi Hk. rewrite (lengths_kept _ Hwf H) in Hk.
  assert (F0 : b64_fin (n0 : B64)) by (split; reflexivity).
  destruct (in_dec Nat.eq_dec i (members c)) as [Hin|Hn].
  - destruct (@resample_component B64 mw ws c ws' Hwf H i k Hin Hk) as [-> _].
    assert (Hl : length (map (fun j => @gcomp B64 ws j k) (isort Nat.leb (members c))) = length (members c)).
    { rewrite map_length. symmetry. apply Permutation_length, isort_perm. }
    apply b64_mean_fwd.
    + intros E. rewrite E in Hl. destruct (members c); [destruct Hin|discriminate].
    + apply Forall_gcomp; auto.
    + rewrite Hl. pose proof (members_bound _ _ _ H). lia.
    + rewrite Hl, cell_abs_sorted. specialize (Hb k). unfold rounding, b64_eps in *. lra.
  - rewrite (gcomp_out _ _ _ H) by auto. apply sample_nth; auto.
Qed.
End OneCell.

(** A run does not leave the finite numbers. *)
Lemma run_finite mw cells : forall ws ws', wf_weights mw ws -> (Z.of_nat (length ws) <= 2 ^ 53)%Z ->
  finite_sample ws -> ofold (@cell_resample B64 mw) cells ws = Some ws' ->
  (forall k, (1 + rounding (cells_steps cells)) * (total_abs (b64_sample ws) k + INR (cells_members cells) * half_ulp_min) <= big) ->
  finite_sample ws'.
Proof.
  induction cells as [|c cells IH]; intros ws ws' Hwf Hsz Hf H Hb; [cbn in H; injection H as <-; exact Hf|].
  cbn [ofold] in H. destruct (@cell_resample B64 mw ws c) as [ws1|] eqn:E; [|discriminate].
  set (m := length (members c)).
  assert (Hk : forall k, (1 + rounding (m + 1)) * cell_abs ws c k <= big /\
    (1 + rounding (cells_steps cells)) * ((1 + rounding (m + 1)) * total_abs (b64_sample ws) k + INR m * half_ulp_min + INR (cells_members cells) * half_ulp_min) <= big).
  { intros k. specialize (Hb k). unfold cells_steps, cells_members in Hb. cbn [map] in Hb.
    change (list_sum ((length (members c) + 1) :: map (fun c => length (members c) + 1) cells)%nat) with ((m + 1) + cells_steps cells)%nat in Hb.
    change (list_sum (length (members c) :: map (fun c => length (members c)) cells)) with (m + cells_members cells)%nat in Hb.
    rewrite rounding_add, plus_INR in Hb.
    assert (HA : cell_abs ws c k <= total_abs (b64_sample ws) k) by (eapply cell_abs_le; exact E).
    pose proof (cell_abs_pos ws c k) as HA0.
    pose proof (rounding_pos (m + 1)) as Hr. pose proof (rounding_pos (cells_steps cells)) as HS.
    set (r := rounding (m + 1)) in *. set (q := rounding (cells_steps cells)) in *.
    set (TA := total_abs (b64_sample ws) k) in *. set (CA := cell_abs ws c k) in *.
    pose proof half_ulp_pos as Hh. pose proof (pos_INR m) as Hm. pose proof (pos_INR (cells_members cells)) as HM.
    set (h := half_ulp_min) in *. set (mh := INR m * h) in *. set (Mh := INR (cells_members cells) * h) in *.
    assert (Hmh : 0 <= mh) by (apply Rmult_le_pos; lra).
    assert (HMh : 0 <= Mh) by (apply Rmult_le_pos; lra).
    replace ((INR m + INR (cells_members cells)) * h) with (mh + Mh) in Hb by (unfold mh, Mh; ring).
    assert (Q1 : 0 <= r * (mh + Mh)) by (apply Rmult_le_pos; lra).
    assert (Q2 : 0 <= q * (r * (mh + Mh))) by (apply Rmult_le_pos; lra).
    assert (Q3 : 0 <= q * (mh + Mh)) by (apply Rmult_le_pos; lra).
    assert (Q4 : 0 <= q * TA) by (apply Rmult_le_pos; lra).
    assert (Q5 : 0 <= q * (r * TA)) by (apply Rmult_le_pos; [lra|apply Rmult_le_pos; lra]).
    assert (Q6 : r * CA <= r * TA) by (apply Rmult_le_compat_l; lra).
    replace ((1 + (r * (1 + q) + q)) * (TA + (mh + Mh))) with
      (TA + r * TA + q * TA + q * (r * TA) + (mh + Mh) + r * (mh + Mh) + q * (mh + Mh) + q * (r * (mh + Mh))) in Hb by ring.
    split; [lra|].
    replace ((1 + q) * ((1 + r) * TA + mh + Mh)) with (TA + r * TA + q * TA + q * (r * TA) + (mh + Mh) + q * (mh + Mh)) by ring. lra. }
  assert (Hf1 : finite_sample ws1) by (eapply resample_finite_fwd; [exact Hwf|exact E|exact Hsz|exact Hf|intros k; apply Hk]).
  assert (Hwf1 : wf_weights mw ws1) by (eapply resample_wf; [exact Hwf|exact E]).
  assert (Hsz1 : (Z.of_nat (length ws1) <= 2 ^ 53)%Z).
  { pose proof (resample_frame _ _ _ E) as (_ & _ & Hlen & _). unfold weights_state in *. cbn [num B64] in *. rewrite Hlen. exact Hsz. }
  apply (IH ws1 ws' Hwf1 Hsz1 Hf1 H). intros k. destruct (Hk k) as [_ Hk2]. eapply Rle_trans; [|exact Hk2].
  pose proof (fun Z => @cell_total_err mw ws c ws1 Hwf E Z k (finite_valid Hf) Hf1) as C. destruct (C Hsz) as [_ C2].
  pose proof (rounding_pos (cells_steps cells)). apply Rmult_le_compat_l; [lra|].
  assert (HA : cell_abs ws c k <= total_abs (b64_sample ws) k) by (eapply cell_abs_le; exact E).
  unfold cell_error in C2. fold m in C2. pose proof (rounding_pos (m + 1)).
  assert (rounding (m + 1) * cell_abs ws c k <= rounding (m + 1) * total_abs (b64_sample ws) k) by (apply Rmult_le_compat_l; lra). lra.
Qed.

(** In closed form *)
Lemma bpow_pow n : bpow radix2 (Z.of_nat n) = 2 ^ n.
Proof. rewrite bpow_powerRZ, <- pow_powerRZ. reflexivity. Qed.

Lemma closed_bound (n p : nat) (size : R) : (Z.of_nat n <= 2 ^ 53)%Z -> (p <= n)%nat -> size <= 2 ^ 1022 ->
  (1 + rounding n) * (size + INR p * half_ulp_min) <= big.
Proof.
  intros Hn Hp Hs.
  assert (HN : INR n <= 2 ^ 53).
  { rewrite INR_IZR_INZ. apply IZR_le in Hn. rewrite <- (bpow_pow 53). change (bpow radix2 (Z.of_nat 53)) with (IZR (2 ^ 53)). exact Hn. }
  assert (P53 : 0 < 2 ^ 53) by (apply pow_lt; lra).
  assert (HR : rounding n <= 2).
  { assert (H1 : INR n * / 2 ^ 53 <= 1).
    { apply Rmult_le_reg_r with (2 ^ 53); [exact P53|]. rewrite Rmult_assoc, Rinv_l by lra. lra. }
    pose proof (rounding_linear _ H1). lra. }
  pose proof (rounding_pos n) as HR0.
  assert (Hnn : INR p * half_ulp_min <= 1).
  { assert (INR p <= 2 ^ 53) by (eapply Rle_trans; [|exact HN]; apply le_INR; lia).
    pose proof half_ulp_pos as Hh. pose proof (pos_INR p).
    assert (half_ulp_min <= / 2 ^ 53).
    { unfold half_ulp_min. apply Rinv_le_contravar; [exact P53|]. apply Rle_pow; [lra|lia]. }
    apply Rle_trans with (2 ^ 53 * / 2 ^ 53); [apply Rmult_le_compat; lra|]. rewrite Rinv_r; lra. }
  assert (E : big = 4 * 2 ^ 1022 - 2 ^ 971).
  { unfold big. change 1024%Z with (Z.of_nat 1024). change 971%Z with (Z.of_nat 971). rewrite !bpow_pow.
    change 1024%nat with (2 + 1022)%nat. rewrite pow_add. lra. }
  assert (B : 4 * 2 ^ 971 <= 2 ^ 1022).
  { replace 4 with (2 ^ 2) by lra. rewrite <- pow_add. apply Rle_pow; [lra|lia]. }
  assert (C : 4 <= 2 ^ 971) by (replace 4 with (2 ^ 2) by lra; apply Rle_pow; [lra|lia]).
  rewrite E. apply Rle_trans with (3 * (2 ^ 1022 + 1)).
  - apply Rle_trans with ((1 + rounding n) * (2 ^ 1022 + 1)); [apply Rmult_le_compat_l; lra|].
    assert (0 < 2 ^ 1022) by (apply pow_lt; lra). apply Rmult_le_compat_r; lra.
  - lra.
Qed.

(** *** Runs with a bound on the number of operations *)
(** [n] additions, [p] members of cells *)
Definition bounded (ws : list (list B64)) (n p : nat) : Prop :=
  forall k, (1 + rounding n) * (total_abs (b64_sample ws) k + INR p * half_ulp_min) <= big.

Lemma bounded_mono ws n p n' p' : bounded ws n p -> (n' <= n)%nat -> (p' <= p)%nat -> bounded ws n' p'.
Proof.
  intros H Hn Hp k. eapply Rle_trans; [|exact (H k)]. apply rounding_mono in Hn. apply le_INR in Hp.
  pose proof (rounding_pos n'). pose proof (total_abs_pos (b64_sample ws) k). pose proof half_ulp_pos. pose proof (pos_INR p').
  assert (0 <= INR p' * half_ulp_min) by (apply Rmult_le_pos; lra).
  assert (INR p' * half_ulp_min <= INR p * half_ulp_min) by (apply Rmult_le_compat_r; lra).
  apply Rmult_le_compat; lra.
Qed.

Lemma cell_sum_fwd (ws : list (list B64)) seed nbrs (c : Cell B64) : finite_sample ws -> @cell_new B64 ws seed nbrs = Some c ->
  (1 + rounding (length (members c))) * cell_abs ws c 0 <= big -> b64_fin (weight_sum c).
Proof.
  intros Hf H Hb. destruct (cell_new_central H) as (w0 & k & wts & H1 & H2 & H3 & H4 & H5 & _).
  set (ids := map fst (firstn k nbrs)) in *. rewrite H5.
  assert (Hg : forall i w, central_weight ws i w -> b64_fin w).
  { intros i w [o Hi]. apply nth_error_In in Hi. unfold finite_sample in Hf. rewrite Forall_forall in Hf. specialize (Hf _ Hi). inversion Hf; assumption. }
  assert (Hw : wts = map (fun i => @gcomp B64 ws i 0) ids).
  { clear - H3. induction H3; cbn; auto. f_equal; auto. apply central_gcomp. auto. }
  apply b64_sum_fwd; [eapply Hg; exact H1| |].
  - clear - H3 Hg. induction H3; constructor; eauto.
  - eapply Rle_trans; [|exact Hb]. assert (Hl : length wts = length ids) by (rewrite Hw, map_length; reflexivity).
    apply central_gcomp in H1.
    assert (E : Rabs (b64_val w0) + Rabs_sum (map b64_val wts) = cell_abs ws c 0).
    { unfold cell_abs, Rabs_sum. rewrite H4. cbn [map]. rewrite Rsum_cons, H1, Hw, !map_map. rewrite comp_b64. f_equal. f_equal. apply map_ext. intros i. rewrite comp_b64. reflexivity. }
    rewrite E. pose proof (cell_abs_pos ws c 0). apply Rmult_le_compat_r; [assumption|].
    replace ((1 + b64_eps) ^ length wts) with (1 + ((1 + b64_eps) ^ length wts - 1)) by ring.
    apply Rplus_le_compat_l. change ((1 + b64_eps) ^ length wts - 1) with (rounding (length wts)). apply rounding_mono. rewrite H4. cbn [length]. lia.
Qed.

Lemma steps_app a b : cells_steps (a ++ b) = (cells_steps a + cells_steps b)%nat.
Proof. unfold cells_steps. rewrite map_app. apply list_sum_app. Qed.
Lemma members_app a b : cells_members (a ++ b) = (cells_members a + cells_members b)%nat.
Proof. unfold cells_members. rewrite map_app. apply list_sum_app. Qed.

Lemma sums_finite mw nearest seeds ws ws' cells : wf_weights mw ws -> (Z.of_nat (length ws) <= 2 ^ 53)%Z -> finite_sample ws ->
  resample_seeds (N := B64) mw nearest seeds ws = Some (ws', cells) ->
  bounded ws (cells_steps cells) (cells_members cells) -> Forall (fun c => b64_fin (weight_sum c)) cells.
Proof.
  intros Hwf Hsz Hf H. unfold resample_seeds in H.
  enough (Hi : ofold (cell_resample (N := B64) mw) cells ws = Some ws' /\
    (bounded ws (cells_steps cells) (cells_members cells) -> Forall (fun c => b64_fin (weight_sum c)) cells)) by (apply Hi).
  revert H. apply (ofold_inv (seed_step (N := B64) mw nearest) (fun st => ofold (cell_resample (N := B64) mw) (snd st) ws = Some (fst st) /\
    (bounded ws (cells_steps (snd st)) (cells_members (snd st)) -> Forall (fun c => b64_fin (weight_sum c)) (snd st)))).
  2:{ cbn [fst snd]. split; [reflexivity|constructor]. }
  intros seed [ws1 c1] [ws2 c2] _ [H1 HF] H2. cbn [fst snd] in *. unfold seed_step in H2.
  destruct (length ws1 <=? seed)%nat; [discriminate|]. destruct (weight_at ws1 seed) as [w|]; [|discriminate].
  destruct (nltb n0 w); [injection H2 as <- <-; auto|]. destruct (nearest seed) as [nb|]; [|discriminate].
  destruct (cell_new ws1 seed nb) as [c|] eqn:En; [|discriminate].
  destruct (cell_resample mw ws1 c) as [ws3|] eqn:E; [|discriminate]. injection H2 as <- <-. split.
  { rewrite ofold_app, H1. cbn. rewrite E. reflexivity. }
  intros Hb. rewrite steps_app, members_app in Hb.
  assert (Hb1 : bounded ws (cells_steps c1) (cells_members c1)) by (eapply bounded_mono; [exact Hb|lia|lia]).
  apply Forall_app. split; [auto|]. constructor; [|constructor].
  assert (Hf1 : finite_sample ws1) by (eapply run_finite; [exact Hwf|exact Hsz|exact Hf|exact H1|exact Hb1]).
  eapply cell_sum_fwd; [exact Hf1|exact En|].
  destruct (proj2 (run_total_err _ Hwf Hsz (finite_valid Hf) Hf1 H1) 0%nat) as [_ Ha].
  eapply Rle_trans; [|exact (Hb 0%nat)].
  assert (HA : cell_abs ws1 c 0 <= total_abs (b64_sample ws1) 0) by (eapply cell_abs_le; exact E).
  set (TA := total_abs (b64_sample ws) 0) in *. change (cells_steps [c]) with (length (members c) + 1 + 0)%nat.
  pose proof (cell_abs_pos ws1 c 0). pose proof (rounding_pos (length (members c))) as R1. pose proof (rounding_pos (cells_steps c1)) as R2.
  rewrite rounding_add. assert (R3 : rounding (length (members c)) <= rounding (length (members c) + 1 + 0)) by (apply rounding_mono; lia).
  set (a := rounding (length (members c))) in *. set (a' := rounding (length (members c) + 1 + 0)) in *. set (q := rounding (cells_steps c1)) in *.
  pose proof half_ulp_pos. assert (M : INR (cells_members c1) <= INR (cells_members c1 + cells_members [c])) by (apply le_INR; lia).
  pose proof (pos_INR (cells_members c1)). pose proof (total_abs_pos (b64_sample ws) 0) as PT. fold TA in PT.
  set (h1 := INR (cells_members c1) * half_ulp_min) in *. set (h2 := INR (cells_members c1 + cells_members [c]) * half_ulp_min).
  assert (0 <= h1) by (apply Rmult_le_pos; lra). assert (h1 <= h2) by (apply Rmult_le_compat_r; lra).
  apply Rle_trans with ((1 + a) * ((1 + q) * (TA + h1))).
  - apply Rmult_le_compat_l; [lra|]. lra.
  - replace ((1 + (q * (1 + a') + a')) * (TA + h2)) with ((1 + a') * ((1 + q) * (TA + h2))) by ring.
    assert (0 <= (1 + q) * (TA + h1)) by (apply Rmult_le_pos; lra).
    apply Rmult_le_compat; try lra. apply Rmult_le_compat_l; lra.
Qed.
