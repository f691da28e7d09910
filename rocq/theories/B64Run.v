(** Resampling in binary64: totals are preserved up to rounding. *)
From Coq Require Import ZArith Reals Lra Permutation.
From Verif Require Import Base BaseProofs Num ModelEvent ModelCell ModelSeeds ModelResampler SpecWeights SumProofs CellProofs RunProofs
  RunProofs2 B64Proofs B64Errors SpecRounding.

Set Implicit Arguments.

(** *** The new value of a member, in any arithmetic *)
Section Any.
Context (N : NumOps).
Definition gcomp (ws : list (list N)) (i k : nat) : N := nth k (nth i ws []) n0.

Lemma gcomp_nth ws i w k : nth_error ws i = Some w -> gcomp ws i k = nth k w n0.
Proof. intros H. unfold gcomp. f_equal. apply nth_error_nth. exact H. Qed.

Lemma weights_add_nth (l r s : list N) k : weights_add l r = Some s -> k < length l ->
  nth k s n0 = nadd (nth k l n0) (nth k r n0).
Proof.
  revert r s k. induction l as [|a t IH]; intros [|b r] s k H Hk; cbn in H, Hk; try discriminate; [lia|].
  destruct (weights_add t r) as [s'|] eqn:E; [|discriminate]. injection H as <-.
  destruct k as [|k]; cbn; [reflexivity|]. eapply IH; eauto. lia.
Qed.

Lemma fold_add_nth (ws : list (list N)) : forall w0 s k,
  ofold weights_add ws w0 = Some s -> k < length w0 ->
  nth k s n0 = fold_left nadd (map (fun w => nth k w n0) ws) (nth k w0 n0).
Proof.
  induction ws as [|w t IH]; intros w0 s k H Hk; cbn in H.
  - injection H as <-. reflexivity.
  - destruct (weights_add w0 w) as [s1|] eqn:E; [|discriminate].
    assert (Hl : length s1 = length w0) by (apply weights_add_length in E; intuition congruence).
    cbn. rewrite (IH _ _ _ H) by lia. f_equal. eapply weights_add_nth; eauto.
Qed.

(** The average as computed, from the members' components in the order of their indices *)
Definition computed_mean (mw : bool) (l : list N) : N :=
  if mw then match l with
             | a :: l' => nmul (fold_left nadd l' a) (ndiv n1 (nofnat (length l)))
             | [] => n0
             end
  else ndiv (fold_left nadd l n0) (nofnat (length l)).

Lemma map_nth_lt (f : N -> N) l k : k < length l -> nth k (map f l) n0 = f (nth k l n0).
Proof.
  revert k. induction l as [|a l IH]; intros k H; cbn in *; [lia|]. destruct k; auto. apply IH. lia.
Qed.

Lemma Forall2_map_gcomp ws is l k :
  Forall2 (fun i w => nth_error ws i = Some w) is l ->
  map (fun w => nth k w n0) l = map (fun i => gcomp ws i k) is.
Proof. induction 1 as [|i w is l H _ IH]; cbn; auto. f_equal; auto. symmetry. apply gcomp_nth; auto. Qed.

Lemma resample_component mw ws (c : Cell N) ws' :
  wf_weights mw ws -> cell_resample mw ws c = Some ws' ->
  forall i k, In i (members c) -> k < length (nth i ws []) ->
  gcomp ws' i k = computed_mean mw (map (fun j => gcomp ws j k) (isort Nat.leb (members c))) /\
  forall j, In j (members c) -> k < length (nth j ws []).
Proof.
  intros Hwf H i k Hi Hk.
  assert (Hlens : forall j, In j (members c) -> length (nth j ws []) = length (nth i ws' []) ).
  { pose proof (resample_frame _ _ _ H) as (Hnd & Hlt & Hlen & avg & Hframe).
    intros j Hj. assert (Hj' := Hlt _ Hj). assert (Hi' := Hlt _ Hi).
    destruct (nth_error ws j) as [wj|] eqn:Ej; [|apply nth_error_None in Ej; lia].
    assert (Ej' : nth_error ws' j = Some avg) by (rewrite Hframe; destruct in_dec; tauto).
    assert (Ei' : nth_error ws' i = Some avg) by (rewrite Hframe; destruct in_dec; tauto).
    rewrite (nth_error_nth _ _ [] Ei'), (nth_error_nth _ _ [] Ej).
    symmetry. eapply resample_lengths; eauto. }
  split; [|intros j Hj; rewrite (Hlens j Hj), <- (Hlens i Hi); auto].
  pose proof (resample_frame _ _ _ H) as (Hnd & Hlt & Hlen & avg & Hframe).
  assert (Hci : gcomp ws' i k = nth k avg n0).
  { apply gcomp_nth. rewrite Hframe. destruct in_dec; tauto. }
  assert (Ei' : nth_error ws' i = Some avg) by (rewrite Hframe; destruct in_dec; tauto).
  assert (Hka : k < length avg).
  { rewrite (Hlens i Hi), (nth_error_nth _ _ [] Ei') in Hk. exact Hk. }
  rewrite Hci.
  set (ms := isort Nat.leb (members c)) in *.
  assert (Hp : Permutation (members c) ms) by apply isort_perm.
  unfold cell_resample in H. destruct mw.
  - unfold resample_multi in H. fold ms in H.
    destruct (nodupb ms) eqn:End; [|discriminate].
    destruct ms as [|first rest] eqn:Ems; [discriminate|].
    destruct (get_weights ws first) as [w0|] eqn:E0; [|discriminate].
    destruct (omap (get_weights ws) rest) as [wrest|] eqn:E1; [|discriminate].
    destruct (ofold weights_add wrest w0) as [tot|] eqn:E2; [|discriminate].
    set (avg' := map _ tot) in H. destruct (copy_all ws rest avg') as [ws1|] eqn:E3; [|discriminate].
    assert (avg = avg').
    { apply set_nth_spec in H. destruct H as (_ & _ & H). specialize (H first).
      rewrite Nat.eqb_refl in H. rewrite Hframe in H.
      destruct (in_dec Nat.eq_dec first (members c)) as [|Hn]; [congruence|].
      exfalso. apply Hn. eapply Permutation_in; [apply Permutation_sym; exact Hp|left; auto]. }
    subst avg. unfold avg' in *. rewrite map_length in Hka.
    rewrite (map_nth_lt (fun w => nmul w _)) by exact Hka.
    assert (Hl0 : length tot = length w0) by (apply fold_add_length in E2; tauto).
    rewrite (@fold_add_nth _ _ _ k E2) by lia.
    rewrite omap_get_nth in E1. rewrite (@Forall2_map_gcomp ws rest wrest k E1).
    unfold get_weights in E0. unfold computed_mean. cbn [map]. rewrite (@gcomp_nth ws first w0 k E0).
    cbn [length]. rewrite map_length. reflexivity.
  - unfold resample_single in H. fold ms in H.
    destruct (nodupb ms) eqn:End; [|discriminate].
    destruct (omap (weight_at ws) ms) as [wts|] eqn:E1; [|discriminate].
    apply write_all_spec in H. destruct H as (_ & _ & H). specialize (H i).
    rewrite Hframe in H.
    destruct (in_dec Nat.eq_dec i (members c)); [|tauto].
    assert (Hims : In i ms) by (eapply Permutation_in; eauto).
    destruct (in_dec Nat.eq_dec i ms); [|tauto]. injection H as ->.
    cbn in Hka. assert (k = 0) by lia. subst k. cbn [nth].
    unfold computed_mean. rewrite map_length. unfold nsum. f_equal. f_equal.
    rewrite omap_spec in E1. clear - E1. induction E1 as [|j w js l Hj _ IH]; cbn; auto.
    f_equal; auto. apply weight_at_spec in Hj. destruct Hj as [v Hj]. rewrite (@gcomp_nth ws j (w :: v) 0 Hj). reflexivity.
Qed.
End Any.

Local Open Scope R_scope.

Lemma Rsum_abs_le l : Rabs (Rsum l) <= Rabs_sum l.
Proof. apply Rabs_Rsum. Qed.

Lemma b64_mean_valid mw l : Forall b64_valid l -> b64_valid (@computed_mean B64 mw l).
Proof.
  intros H. assert (H0 : b64_valid (n0 : B64)) by reflexivity. unfold computed_mean.
  assert (Hn : forall m, b64_valid (nofnat m : B64)).
  { intros m. cbn [nofnat B64]. unfold b64_of_Z. rewrite binary_normalize_eq. apply b64_valid_drop. }
  destruct mw.
  - destruct l as [|a l]; auto. inversion H; subst. apply b64_mul_inv.
    + apply b64_sum_valid; auto.
    + apply b64_div_valid; auto.
  - apply b64_div_valid; auto. apply b64_sum_valid; auto.
Qed.

Lemma pow_1_add e n m : (1 + e) ^ (n + m) = (1 + e) ^ n * (1 + e) ^ m.
Proof. apply pow_add. Qed.

Lemma b64_mean_err mw l : l <> [] -> Forall b64_valid l -> (Z.of_nat (length l) <= 2 ^ 53)%Z ->
  b64_fin (@computed_mean B64 mw l) ->
  Forall b64_fin l /\
  Rabs (INR (length l) * b64_val (@computed_mean B64 mw l) - Rsum (map b64_val l))
    <= ((1 + b64_eps) ^ (length l + 1) - 1) * Rabs_sum (map b64_val l) + INR (length l) * b64_eta.
Proof.
  intros Hne Hv Hb Hf. unfold computed_mean in *. destruct mw.
  - destruct l as [|a l]; [congruence|]. set (m := length (a :: l)) in *.
    assert (Hm : (0 < m)%nat) by (cbn; lia).
    inversion Hv as [|? ? Ha Hl]; subst.
    destruct (b64_inv_err Hm Hb) as (Fi & d1 & Hd1 & Ei). cbv zeta in *.
    set (i := ndiv n1 (nofnat m)) in *.
    set (T := fold_left nadd l a) in *.
    assert (VT : b64_valid T) by (apply b64_sum_valid; auto).
    destruct (b64_mul_inv VT (b64_fin_valid Fi)) as [_ HM]. destruct (HM Hf) as (FT & _ & EM). rewrite EM.
    destruct (b64_sum_fin Ha Hl FT) as [Fa Fl]. split; [constructor; auto|].
    pose proof (b64_sum_err Ha Hl FT) as HS. fold T in HS.
    destruct (b64_rnd_err (b64_val T * b64_val i)) as (d2 & e & Hd2 & He & ->). rewrite Ei.
    assert (Pm : 0 < INR m) by (apply lt_0_INR; auto).
    replace (INR m * (b64_val T * (/ INR m * (1 + d1)) * (1 + d2) + e))
      with (b64_val T * ((1 + d1) * (1 + d2)) + INR m * e) by (field; lra).
    cbn [map]. rewrite Rsum_cons. unfold Rabs_sum in *. cbn [map]. rewrite Rsum_cons.
    set (A := Rabs (b64_val a) + Rsum (map Rabs (map b64_val l))) in *.
    set (X := b64_val a + Rsum (map b64_val l)) in *.
    assert (HXA : Rabs X <= A).
    { unfold X, A. eapply Rle_trans; [apply Rabs_triang|]. apply Rplus_le_compat_l, Rabs_Rsum. }
    replace (m + 1)%nat with (2 + length l)%nat by (unfold m; cbn; lia). rewrite pow_add.
    pose proof (eps_pow_ge (length l)) as HG. set (G := (1 + b64_eps) ^ length l) in *.
    pose proof b64_eps_pos as Hp.
    set (g2 := (1 + b64_eps) ^ 2).
    assert (Eg : g2 = 1 + 2 * b64_eps + b64_eps * b64_eps) by (unfold g2; ring).
    assert (Hdd : Rabs ((1 + d1) * (1 + d2) - 1) <= g2 - 1).
    { rewrite Eg. replace ((1 + d1) * (1 + d2) - 1) with (d1 + d2 + d1 * d2) by ring.
      eapply Rle_trans; [apply Rabs_triang|].
      assert (Rabs (d1 + d2) <= 2 * b64_eps) by (eapply Rle_trans; [apply Rabs_triang|lra]).
      assert (Rabs (d1 * d2) <= b64_eps * b64_eps).
      { rewrite Rabs_mult. apply Rmult_le_compat; auto using Rabs_pos. }
      lra. }
    clearbody g2. clear Eg. set (dd := (1 + d1) * (1 + d2) - 1) in *.
    replace ((1 + d1) * (1 + d2)) with (1 + dd) by (unfold dd; ring).
    replace (b64_val T * (1 + dd) + INR m * e - X) with ((b64_val T - X) * (1 + dd) + X * dd + INR m * e) by ring.
    set (t := b64_val T - X) in *. clearbody dd t X A.
    assert (H1 : Rabs (t * (1 + dd)) <= (G - 1) * A * g2).
    { rewrite Rabs_mult. apply Rmult_le_compat; auto using Rabs_pos.
      eapply Rle_trans; [apply Rabs_triang|]. rewrite Rabs_R1. lra. }
    assert (H2 : Rabs (X * dd) <= A * (g2 - 1)).
    { rewrite Rabs_mult. apply Rmult_le_compat; auto using Rabs_pos. }
    assert (H3 : Rabs (INR m * e) <= INR m * b64_eta).
    { rewrite Rabs_mult, (Rabs_pos_eq (INR m)) by lra. apply Rmult_le_compat_l; lra. }
    eapply Rle_trans; [apply Rabs_triang|]. apply Rplus_le_compat; auto.
    eapply Rle_trans; [apply Rabs_triang|]. lra.
  - set (m := length l) in *.
    assert (Hm : (0 < m)%nat) by (unfold m; destruct l; [congruence|cbn; lia]).
    destruct (b64_of_Z_val (Z.of_nat m)) as [Fm Vm]; [lia|]. rewrite <- INR_IZR_INZ in Vm.
    assert (Pm : 0 < INR m) by (apply lt_0_INR; auto).
    assert (V0 : b64_valid (n0 : B64)) by reflexivity.
    set (T := fold_left nadd l (n0 : B64)) in *.
    assert (VT : b64_valid T) by (apply b64_sum_valid; auto).
    assert (Nz : b64_val (nofnat m : B64) <> 0) by (cbn [nofnat B64]; rewrite Vm; lra).
    destruct (@b64_div_inv T (nofnat m) VT (b64_fin_valid Fm) Nz) as [_ HD]. destruct (HD Hf) as [FT ED]. rewrite ED.
    cbn [nofnat B64]. rewrite Vm.
    destruct (b64_sum_fin V0 Hv FT) as [_ Fl]. split; auto.
    pose proof (b64_sum_err V0 Hv FT) as HS. fold T in HS.
    replace (b64_val (n0 : B64)) with 0 in HS by reflexivity. rewrite Rabs_R0, !Rplus_0_l in HS.
    destruct (b64_rnd_err (b64_val T / INR m)) as (d & e & Hd & He & ->).
    replace (INR m * (b64_val T / INR m * (1 + d) + e)) with (b64_val T * (1 + d) + INR m * e) by (field; lra).
    pose proof (Rabs_Rsum (map b64_val l)) as HXA. fold (Rabs_sum (map b64_val l)) in HXA.
    set (X := Rsum (map b64_val l)) in *. set (A := Rabs_sum (map b64_val l)) in *.
    rewrite pow_add, pow_1. fold m in HS.
    pose proof (eps_pow_ge m) as HG. set (G := (1 + b64_eps) ^ m) in *. pose proof b64_eps_pos as Hp.
    replace (b64_val T * (1 + d) + INR m * e - X) with ((b64_val T - X) * (1 + d) + X * d + INR m * e) by ring.
    set (t := b64_val T - X) in *. clearbody t X A.
    assert (H1 : Rabs (t * (1 + d)) <= (G - 1) * A * (1 + b64_eps)).
    { rewrite Rabs_mult. apply Rmult_le_compat; auto using Rabs_pos.
      eapply Rle_trans; [apply Rabs_triang|]. rewrite Rabs_R1. lra. }
    assert (H2 : Rabs (X * d) <= A * b64_eps).
    { rewrite Rabs_mult. apply Rmult_le_compat; auto using Rabs_pos. }
    assert (H3 : Rabs (INR m * e) <= INR m * b64_eta).
    { rewrite Rabs_mult, (Rabs_pos_eq (INR m)) by lra. apply Rmult_le_compat_l; lra. }
    eapply Rle_trans; [apply Rabs_triang|]. apply Rplus_le_compat; auto.
    eapply Rle_trans; [apply Rabs_triang|]. lra.
Qed.

(** *** Cells and runs in binary64 *)
Ltac bn := unfold weights_state in *; cbn [num B64] in *.

Definition valid_sample (s : list (list B64)) : Prop := Forall (Forall b64_valid) s.

Lemma finite_valid s : finite_sample s -> valid_sample s.
Proof. apply Forall_impl. intros l. apply Forall_impl. intros x. apply b64_fin_valid. Qed.

Lemma nth_b64_val l k : nth k (map b64_val l) 0 = b64_val (nth k l (n0 : B64)).
Proof. change 0 with (b64_val (n0 : B64)). apply map_nth. Qed.

Lemma comp_b64 (ws : list (list B64)) i k : comp (b64_sample ws) i k = b64_val (@gcomp B64 ws i k).
Proof.
  unfold comp, b64_sample, gcomp. rewrite (map_nth (map b64_val) ws []). apply nth_b64_val.
Qed.

Lemma sample_nth (P : B64 -> Prop) (ws : list (list B64)) i k : P n0 -> Forall (Forall P) ws -> P (@gcomp B64 ws i k).
Proof.
  intros H0 H. unfold gcomp. rewrite Forall_forall in H.
  destruct (nth_in_or_default i ws []) as [Hi|Hi].
  - apply H in Hi. rewrite Forall_forall in Hi.
    destruct (nth_in_or_default k (nth i ws []) (n0 : B64)) as [Hk|Hk]; [apply Hi; exact Hk|].
    bn. rewrite Hk. exact H0.
  - bn. rewrite Hi. destruct k; exact H0.
Qed.

Lemma sample_of_nth (P : B64 -> Prop) (ws : list (list B64)) :
  (forall i k, (i < length ws)%nat -> (k < length (nth i ws []))%nat -> P (@gcomp B64 ws i k)) -> Forall (Forall P) ws.
Proof.
  intros H. apply Forall_forall. intros w Hw. apply Forall_forall. intros x Hx.
  apply (In_nth _ _ []) in Hw. destruct Hw as (i & Hi & <-).
  apply (In_nth _ _ (n0 : B64)) in Hx. destruct Hx as (k & Hk & <-). apply H; auto.
Qed.

Lemma Forall_gcomp (P : B64 -> Prop) ws k l : P n0 -> Forall (Forall P) ws ->
  Forall P (map (fun j => @gcomp B64 ws j k) l).
Proof. intros H0 H. apply Forall_forall. intros x Hx. apply in_map_iff in Hx. destruct Hx as (j & <- & _). apply sample_nth; auto. Qed.

Section OneCell.
Context (mw : bool) (ws : list (list B64)) (c : Cell B64) (ws' : list (list B64)).
Context (Hwf : wf_weights mw ws) (H : @cell_resample B64 mw ws c = Some ws').
Let sorted := isort Nat.leb (members c).

Lemma gcomp_out i k : ~ In i (members c) -> @gcomp B64 ws' i k = @gcomp B64 ws i k.
Proof.
  intros Hi. pose proof (resample_frame _ _ _ H) as (Hnd & Hlt & Hlen & avg & Hframe).
  specialize (Hframe i). destruct in_dec; [tauto|]. unfold gcomp. f_equal.
  rewrite (nth_nth_error ws' i []), (nth_nth_error ws i []) || idtac.
  destruct (nth_error ws i) eqn:E.
  - rewrite (nth_error_nth _ _ [] E), (nth_error_nth _ _ [] Hframe). reflexivity.
  - apply nth_error_None in E, Hframe. rewrite !nth_overflow by assumption. reflexivity.
Qed.

Lemma lengths_kept i : length (nth i ws' []) = length (nth i ws []).
Proof.
  pose proof (resample_frame _ _ _ H) as (Hnd & Hlt & Hlen & avg & Hframe).
  destruct (Nat.lt_ge_cases i (length ws)) as [Hi|Hi].
  - destruct (nth_error ws i) as [w|] eqn:E; [|apply nth_error_None in E; lia].
    destruct (nth_error ws' i) as [w'|] eqn:E'; [|apply nth_error_None in E'; bn; lia].
    rewrite (nth_error_nth _ _ [] E), (nth_error_nth _ _ [] E'). eapply resample_lengths; eauto.
  - rewrite !nth_overflow; auto. bn. lia.
Qed.

Lemma resample_valid : valid_sample ws -> valid_sample ws'.
Proof.
  intros Hv. apply sample_of_nth. intros i k Hi Hk. rewrite lengths_kept in Hk.
  destruct (in_dec Nat.eq_dec i (members c)) as [Hin|Hn].
  - destruct (@resample_component B64 mw ws c ws' Hwf H i k Hin Hk) as [-> _]. apply b64_mean_valid. apply Forall_gcomp; auto. reflexivity.
  - rewrite gcomp_out by auto. apply sample_nth; auto. reflexivity.
Qed.

Hypothesis Hsize : (Z.of_nat (length ws) <= 2 ^ 53)%Z.

Lemma members_bound : (length (members c) <= length ws)%nat.
Proof.
  pose proof (resample_frame _ _ _ H) as (Hnd & Hlt & _).
  apply Nat.le_trans with (length (seq 0 (length ws))); [|rewrite seq_length; auto].
  apply NoDup_incl_length; auto. intros i Hi. apply in_seq. specialize (Hlt i Hi). bn. lia.
Qed.

Lemma sorted_length : length sorted = length (members c).
Proof. symmetry. apply Permutation_length, isort_perm. Qed.

Lemma resample_finite_back : valid_sample ws -> finite_sample ws' -> finite_sample ws.
Proof.
  intros Hv Hf. pose proof (resample_frame _ _ _ H) as (Hnd & Hlt & Hlen & _).
  apply sample_of_nth. intros i k Hi Hk.
  destruct (in_dec Nat.eq_dec i (members c)) as [Hin|Hn].
  - destruct (@resample_component B64 mw ws c ws' Hwf H i k Hin Hk) as [E Hall].
    assert (Ff : b64_fin (@gcomp B64 ws' i k)) by (apply sample_nth; [split; reflexivity|exact Hf]).
    rewrite E in Ff. fold sorted in Ff.
    apply b64_mean_err in Ff.
    + destruct Ff as [Ff _]. rewrite Forall_forall in Ff. apply Ff. apply in_map_iff. exists i. split; auto.
      unfold sorted. eapply Permutation_in; [apply isort_perm|exact Hin].
    + unfold sorted. intros Ez. apply map_eq_nil in Ez. pose proof (isort_perm Nat.leb (members c)) as Hp.
      rewrite Ez in Hp. apply Permutation_sym, Permutation_nil in Hp. rewrite Hp in Hin. destruct Hin.
    + apply Forall_gcomp; auto. reflexivity.
    + rewrite map_length, sorted_length. pose proof members_bound. lia.
  - rewrite <- gcomp_out by auto. apply sample_nth; auto. split; reflexivity.
Qed.

(** weight in the cell, the bound for the rounding error *)
Definition cell_abs (k : nat) : R := Rsum (map (fun i => Rabs (comp (b64_sample ws) i k)) (members c)).
Definition cell_error (k : nat) : R := rounding (length (members c) + 1) * cell_abs k + INR (length (members c)) * half_ulp_min.

Lemma cell_abs_pos k : 0 <= cell_abs k.
Proof. unfold cell_abs. apply Rsum_nonneg. intros x Hx. apply in_map_iff in Hx. destruct Hx as (i & <- & _). apply Rabs_pos. Qed.
Lemma rounding_pos n : 0 <= rounding n.
Proof. unfold rounding. pose proof (eps_pow_ge n). unfold b64_eps in *. lra. Qed.
Lemma cell_error_pos k : 0 <= cell_error k.
Proof.
  unfold cell_error. pose proof (cell_abs_pos k). pose proof (rounding_pos (length (members c) + 1)).
  assert (0 <= rounding (length (members c) + 1) * cell_abs k) by (apply Rmult_le_pos; auto).
  assert (0 <= INR (length (members c)) * half_ulp_min).
  { apply Rmult_le_pos; [apply pos_INR|]. unfold half_ulp_min. pose proof b64_eta_pos. unfold b64_eta in *. lra. }
  lra.
Qed.

Lemma cell_mean_err k : valid_sample ws -> finite_sample ws' -> members c <> [] ->
  exists v, (forall i, In i (members c) -> comp (b64_sample ws') i k = v) /\
    Rabs (INR (length (members c)) * v - Rsum (map (fun i => comp (b64_sample ws) i k) (members c))) <= cell_error k.
Proof.
  intros Hv Hf Hne. pose proof (resample_frame _ _ _ H) as (Hnd & Hlt & Hlen & avg & Hframe).
  assert (Hex : exists i0, In i0 (members c)) by (destruct (members c) as [|i0 t]; [congruence|exists i0; left; auto]).
  destruct Hex as [i0 Hi0].
  destruct (Nat.lt_ge_cases k (length (nth i0 ws []))) as [Hk|Hk].
  - exists (b64_val (@computed_mean B64 mw (map (fun j => @gcomp B64 ws j k) sorted))).
    destruct (@resample_component B64 mw ws c ws' Hwf H i0 k Hi0 Hk) as [E0 Hall]. split.
    + intros i Hi. rewrite comp_b64. destruct (@resample_component B64 mw ws c ws' Hwf H i k Hi (Hall i Hi)) as [-> _]. reflexivity.
    + assert (Ff : b64_fin (@gcomp B64 ws' i0 k)) by (apply sample_nth; [split; reflexivity|exact Hf]).
      rewrite E0 in Ff. fold sorted in Ff.
      apply b64_mean_err in Ff.
      2:{ intros Ez. apply map_eq_nil in Ez. pose proof sorted_length as Hl. rewrite Ez in Hl. destruct (members c); [congruence|discriminate]. }
      2:{ apply Forall_gcomp; auto. reflexivity. }
      2:{ rewrite map_length, sorted_length. pose proof members_bound. lia. }
      destruct Ff as [_ Ff]. rewrite map_length, sorted_length in Ff. rewrite !map_map in Ff.
      assert (Hp : Permutation (members c) sorted) by apply isort_perm.
      unfold Rabs_sum in Ff. rewrite !map_map in Ff.
      rewrite (Rsum_map_ext _ (fun i => comp (b64_sample ws) i k) sorted) in Ff by (intros; symmetry; apply comp_b64).
      rewrite (Rsum_map_ext (fun i => Rabs (b64_val (@gcomp B64 ws i k))) (fun i => Rabs (comp (b64_sample ws) i k)) sorted) in Ff by (intros; f_equal; symmetry; apply comp_b64).
      rewrite <- (Rsum_perm (Permutation_map (fun i => comp (b64_sample ws) i k) Hp)) in Ff.
      rewrite <- (Rsum_perm (Permutation_map (fun i => Rabs (comp (b64_sample ws) i k)) Hp)) in Ff.
      exact Ff.
  - assert (Hall : forall i, In i (members c) -> (length (nth i ws []) <= k)%nat).
    { intros i Hi. destruct (Nat.lt_ge_cases k (length (nth i ws []))) as [Hk'|]; auto.
      destruct (@resample_component B64 mw ws c ws' Hwf H i k Hi Hk') as [_ Ha]. specialize (Ha i0 Hi0). bn. lia. }
    exists 0. split.
    + intros i Hi. rewrite comp_b64. unfold gcomp. rewrite nth_overflow; [reflexivity|]. rewrite lengths_kept. auto.
    + rewrite (Rsum_map_ext _ (fun _ => 0) (members c)).
      * rewrite Rsum_map_const, Rmult_0_r, Rminus_eq_0, Rabs_R0. apply cell_error_pos.
      * intros i Hi. rewrite comp_b64. unfold gcomp. rewrite nth_overflow; [reflexivity|]. auto.
Qed.

Lemma b64_sample_length : length (b64_sample ws') = length (b64_sample ws).
Proof. unfold b64_sample. rewrite !map_length. apply (resample_frame _ _ _ H). Qed.

Lemma cell_total_err k : valid_sample ws -> finite_sample ws' ->
  Rabs (total (b64_sample ws') k - total (b64_sample ws) k) <= cell_error k /\
  total_abs (b64_sample ws') k <= total_abs (b64_sample ws) k + cell_error k.
Proof.
  intros Hv Hf. pose proof (resample_frame _ _ _ H) as (Hnd & Hlt & Hlen & _).
  assert (Hlt' : forall i, In i (members c) -> (i < length (b64_sample ws))%nat).
  { intros i Hi. unfold b64_sample. rewrite map_length. auto. }
  rewrite !total_index, b64_sample_length.
  unfold total_abs. rewrite !(total_g_index Rabs), b64_sample_length.
  pose proof (@Rsum_change (length (b64_sample ws)) (members c) (fun i => comp (b64_sample ws') i k)
    (fun i => comp (b64_sample ws) i k) Hnd Hlt') as Hc.
  pose proof (@Rsum_change (length (b64_sample ws)) (members c) (fun i => Rabs (comp (b64_sample ws') i k))
    (fun i => Rabs (comp (b64_sample ws) i k)) Hnd Hlt') as Ha.
  assert (Hout : forall i, ~ In i (members c) -> comp (b64_sample ws') i k = comp (b64_sample ws) i k).
  { intros i Hi. rewrite !comp_b64, gcomp_out; auto. }
  specialize (Hc Hout). specialize (Ha (fun i Hi => f_equal Rabs (Hout i Hi))).
  assert (Hdec : members c = [] \/ members c <> []) by (destruct (members c); [left|right]; congruence).
  destruct Hdec as [Em|Hne].
  { rewrite Em in Hc, Ha. cbn [map] in Hc, Ha. rewrite !Rsum_nil in Hc, Ha. pose proof (cell_error_pos k). split; [|lra].
    match goal with |- Rabs ?x <= _ => replace x with 0 by lra end. rewrite Rabs_R0. auto. }
  destruct (cell_mean_err k Hv Hf Hne) as (v & Hvv & Hb).
  rewrite (Rsum_map_ext (fun i => comp (b64_sample ws') i k) (fun _ => v) (members c) Hvv) in Hc.
  rewrite (Rsum_map_ext (fun i => Rabs (comp (b64_sample ws') i k)) (fun _ => Rabs v) (members c)) in Ha
    by (intros i Hi; rewrite Hvv by auto; reflexivity).
  rewrite Rsum_map_const in Hc, Ha.
  assert (HA : Rabs (Rsum (map (fun i => comp (b64_sample ws) i k) (members c)))
     <= Rsum (map (fun i => Rabs (comp (b64_sample ws) i k)) (members c))).
  { eapply Rle_trans; [apply Rabs_Rsum|]. rewrite map_map. lra. }
  assert (Hnv : Rabs (INR (length (members c)) * v) = INR (length (members c)) * Rabs v).
  { rewrite Rabs_mult, Rabs_pos_eq; auto using pos_INR. }
  set (T := Rsum (map (fun i => comp (b64_sample ws) i k) (members c))) in *.
  set (nv := INR (length (members c)) * v) in *.
  split.
  - match goal with |- Rabs ?x <= _ => replace x with (nv - T) by lra end. exact Hb.
  - assert (Rabs nv <= Rabs (nv - T) + Rabs T).
    { replace nv with ((nv - T) + T) at 1 by ring. apply Rabs_triang. }
    lra.
Qed.

Lemma cell_abs_le k : cell_abs k <= total_abs (b64_sample ws) k.
Proof.
  pose proof (resample_frame _ _ _ H) as (Hnd & Hlt & _).
  unfold cell_abs, total_abs. rewrite (total_g_index Rabs).
  assert (Hlt' : forall i, In i (members c) -> (i < length (b64_sample ws))%nat).
  { intros i Hi. unfold b64_sample. rewrite map_length. auto. }
  set (g := fun i => Rabs (comp (b64_sample ws) i k)).
  pose proof (@Rsum_change (length (b64_sample ws)) (members c) (fun i => if in_dec Nat.eq_dec i (members c) then 0 else g i) g
    Hnd Hlt') as Hc.
  rewrite (Rsum_map_ext _ (fun _ => 0) (members c)) in Hc.
  2:{ intros i Hi. destruct in_dec; tauto. }
  rewrite Rsum_map_const, Rmult_0_r in Hc.
  assert (0 <= Rsum (map (fun i => if in_dec Nat.eq_dec i (members c) then 0 else g i) (seq 0 (length (b64_sample ws))))).
  { apply Rsum_nonneg. intros x Hx. apply in_map_iff in Hx. destruct Hx as (i & <- & _).
    destruct in_dec; [lra|apply Rabs_pos]. }
  assert (Hc' := Hc ltac:(intros i Hi; destruct in_dec; tauto)). lra.
Qed.

Lemma resample_wf : wf_weights mw ws'.
Proof.
  intros Hm. assert (Hwf' := Hwf Hm). apply Forall_forall. intros w Hw. apply (In_nth _ _ []) in Hw.
  destruct Hw as (i & Hi & <-). rewrite lengths_kept. unfold uniform in Hwf'. rewrite Forall_forall in Hwf'. apply Hwf'.
  apply nth_In. pose proof (resample_frame _ _ _ H) as (_ & _ & Hlen & _). bn. lia.
Qed.
End OneCell.

Definition cells_members (cells : list (Cell B64)) : nat := list_sum (map (fun c => length (members c)) cells).
Definition cells_steps (cells : list (Cell B64)) : nat := list_sum (map (fun c => length (members c) + 1)%nat cells).

Lemma half_ulp_pos : 0 < half_ulp_min.
Proof. exact b64_eta_pos. Qed.

Lemma rounding_add a b : rounding (a + b) = rounding a * (1 + rounding b) + rounding b.
Proof. unfold rounding. rewrite pow_add. ring. Qed.

Lemma run_total_err mw cells : forall ws ws', wf_weights mw ws -> (Z.of_nat (length ws) <= 2 ^ 53)%Z ->
  valid_sample ws -> finite_sample ws' -> ofold (@cell_resample B64 mw) cells ws = Some ws' ->
  finite_sample ws /\ forall k,
  Rabs (total (b64_sample ws') k - total (b64_sample ws) k) <=
    rounding (cells_steps cells) * (total_abs (b64_sample ws) k)
    + (1 + rounding (cells_steps cells)) * (INR (cells_members cells) * half_ulp_min) /\
  total_abs (b64_sample ws') k <=
    (1 + rounding (cells_steps cells)) * (total_abs (b64_sample ws) k + INR (cells_members cells) * half_ulp_min).
Proof.
  induction cells as [|c cells IH]; intros ws ws' Hwf Hsz Hv Hf H.
  - cbn in H. injection H as <-. split; [exact Hf|]. intros k. unfold cells_steps, cells_members. cbn [map list_sum fold_right].
    unfold rounding. rewrite pow_O. rewrite Rminus_eq_0, Rabs_R0. cbn [INR]. split; lra.
  - cbn [ofold] in H. destruct (@cell_resample B64 mw ws c) as [ws1|] eqn:E; [|discriminate].
    assert (Hwf1 : wf_weights mw ws1) by (eapply resample_wf; [exact Hwf|exact E]).
    assert (Hv1 : valid_sample ws1) by (eapply resample_valid; [exact Hwf|exact E|exact Hv]).
    assert (Hsz1 : (Z.of_nat (length ws1) <= 2 ^ 53)%Z).
    { pose proof (resample_frame _ _ _ E) as (_ & _ & Hlen & _). bn. rewrite Hlen. exact Hsz. }
    destruct (IH ws1 ws' Hwf1 Hsz1 Hv1 Hf H) as [Hf1 IHk].
    split; [eapply resample_finite_back; [exact Hwf|exact E|exact Hsz|exact Hv|exact Hf1]|]. intros k.
    destruct (IHk k) as [I1 I2]. pose proof (fun H => @cell_total_err mw ws c ws1 Hwf E H k) as Hc. destruct (Hc Hsz Hv Hf1) as [C1 C2].
    unfold cells_steps, cells_members. cbn [map]. 
    change (list_sum ((length (members c) + 1) :: map (fun c => length (members c) + 1) cells)%nat)
      with ((length (members c) + 1) + cells_steps cells)%nat.
    change (list_sum (length (members c) :: map (fun c => length (members c)) cells))
      with (length (members c) + cells_members cells)%nat.
    set (m := length (members c)) in *. set (S := cells_steps cells) in *. set (M := cells_members cells) in *.
    rewrite rounding_add, plus_INR.
    assert (HA : cell_abs ws c k <= total_abs (b64_sample ws) k) by (eapply cell_abs_le; exact E).
    pose proof (cell_abs_pos ws c k) as HA0.
    unfold cell_error in *. fold m in C1, C2.
    pose proof (rounding_pos (m + 1)) as Hr. pose proof (rounding_pos S) as HS.
    set (r := rounding (m + 1)) in *. set (q := rounding S) in *.
    set (TA := total_abs (b64_sample ws) k) in *. set (TA1 := total_abs (b64_sample ws1) k) in *.
    set (TA' := total_abs (b64_sample ws') k) in *. set (CA := cell_abs ws c k) in *.
    pose proof half_ulp_pos as Hh. pose proof (pos_INR m) as Hm. pose proof (pos_INR M) as HM.
    set (h := half_ulp_min) in *. set (mh := INR m * h) in *. set (Mh := INR M * h) in *.
    assert (Hmh : 0 <= mh) by (apply Rmult_le_pos; lra).
    assert (HMh : 0 <= Mh) by (apply Rmult_le_pos; lra).
    assert (HrC : r * CA <= r * TA) by (apply Rmult_le_compat_l; lra).
    assert (Hq1 : q * TA1 <= q * ((1 + r) * TA + mh)) by (apply Rmult_le_compat_l; lra).
    assert (0 <= r * mh) by (apply Rmult_le_pos; lra).
    assert (0 <= r * Mh) by (apply Rmult_le_pos; lra).
    assert (0 <= q * mh) by (apply Rmult_le_pos; lra).
    assert (0 <= q * Mh) by (apply Rmult_le_pos; lra).
    assert (0 <= q * (r * mh)) by (apply Rmult_le_pos; lra).
    assert (0 <= q * (r * Mh)) by (apply Rmult_le_pos; lra).
    replace ((INR m + INR M) * h) with (mh + Mh) by (unfold mh, Mh; ring).
    split.
    + set (T' := total (b64_sample ws') k) in *. set (T1 := total (b64_sample ws1) k) in *. set (T := total (b64_sample ws) k) in *.
      assert (Rabs (T' - T) <= Rabs (T' - T1) + Rabs (T1 - T)).
      { replace (T' - T) with ((T' - T1) + (T1 - T)) by ring. apply Rabs_triang. }
      nra.
    + nra.
Qed.

(** *** A bound without powers *)
Lemma rounding_linear n : INR n * / 2 ^ 53 <= 1 -> rounding n <= 2 * INR n * / 2 ^ 53.
Proof.
  intros H. unfold rounding. set (u := / 2 ^ 53) in *.
  assert (Hu : 0 < u) by exact b64_eps_pos.
  enough (Hind : forall m, (m <= n)%nat -> (1 + u) ^ m <= 1 + INR m * u + (INR m * u) * (INR m * u)).
  { specialize (Hind n (le_n n)). pose proof (pos_INR n). assert (0 <= INR n * u) by (apply Rmult_le_pos; lra). nra. }
  induction m as [|m IH]; intros Hm.
  - rewrite pow_O. cbn [INR]. lra.
  - rewrite <- tech_pow_Rmult, S_INR. specialize (IH ltac:(lia)).
    assert (Hmu : INR m * u <= 1).
    { eapply Rle_trans; [|exact H]. apply Rmult_le_compat_r; [lra|]. apply le_INR. lia. }
    pose proof (pos_INR m). set (x := INR m * u) in *. assert (0 <= x) by (apply Rmult_le_pos; lra).
    replace ((INR m + 1) * u) with (x + u) by (unfold x; ring).
    assert ((1 + u) * (1 + u) ^ m <= (1 + u) * (1 + x + x * x)) by (apply Rmult_le_compat_l; lra).
    assert (x * x <= x) by nra. assert (u * (x * x) <= u * x) by (apply Rmult_le_compat_l; lra).
    assert (0 <= u * u) by (apply Rmult_le_pos; lra). lra.
Qed.
