(** Runs in binary64: rounding bounds for a run with one thread, for any schedule, and for
    the sign of a resampled cell. *)
From Coq Require Import ZArith Reals Lra Permutation.
From Verif Require Import Base BaseProofs Num ModelEvent ModelCell ModelSeeds ModelResampler ModelConc SpecWeights SpecSearch SpecConc
  SumProofs CellProofs RunProofs RunProofs2 ConcProofs ConcProofs2 B64Proofs B64Errors SpecRounding B64Run.

Set Implicit Arguments.

Lemma resample_seeds_cells (N : NumOps) mw nearest seeds : forall (ws : weights_state N) ws' cells,
  resample_seeds mw nearest seeds ws = Some (ws', cells) -> ofold (cell_resample mw) cells ws = Some ws'.
Proof.
  intros ws ws' cells H. unfold resample_seeds in H.
  enough (Hi : forall st, ofold (seed_step mw nearest) seeds (ws, []) = Some st ->
    ofold (cell_resample mw) (snd st) ws = Some (fst st)) by (apply (Hi _ H)).
  intros st. apply (ofold_inv (seed_step mw nearest) (fun st => ofold (cell_resample mw) (snd st) ws = Some (fst st))).
  - intros seed [ws1 c1] [ws2 c2] _ H1 H2. cbn [fst snd] in *. unfold seed_step in H2.
    destruct (length ws1 <=? seed)%nat; [discriminate|]. destruct (weight_at ws1 seed) as [w|]; [|discriminate].
    destruct (nltb n0 w); [congruence|]. destruct (nearest seed) as [nb|]; [|discriminate].
    destruct (cell_new ws1 seed nb) as [c|]; [|discriminate].
    destruct (cell_resample mw ws1 c) as [ws3|] eqn:E; [|discriminate]. injection H2 as <- <-.
    rewrite ofold_app, H1. cbn. rewrite E. reflexivity.
  - reflexivity.
Qed.

Local Open Scope R_scope.

Lemma rounding_mono a b : (a <= b)%nat -> rounding a <= rounding b.
Proof.
  intros H. replace b with (a + (b - a))%nat by lia. rewrite rounding_add.
  pose proof (rounding_pos a). pose proof (rounding_pos (b - a)).
  assert (0 <= rounding a * rounding (b - a)) by (apply Rmult_le_pos; auto). lra.
Qed.

(** Sizes of the cells of a run *)
Lemma cells_small mw cells : forall (ws ws' : list (list B64)), ofold (@cell_resample B64 mw) cells ws = Some ws' ->
  (cells_members cells <= length cells * length ws)%nat /\ (cells_steps cells <= length cells * (length ws + 1))%nat.
Proof.
  induction cells as [|c cells IH]; intros ws ws' H; [split; cbn; lia|].
  cbn [ofold] in H. destruct (@cell_resample B64 mw ws c) as [ws1|] eqn:E; [|discriminate].
  destruct (IH _ _ H) as [I1 I2].
  assert (Hm : (length (members c) <= length ws)%nat) by (eapply members_bound; exact E).
  pose proof (resample_frame _ _ _ E) as (_ & _ & Hlen & _). unfold weights_state in *. cbn [num B64] in *. rewrite Hlen in I1, I2.
  unfold cells_members, cells_steps, list_sum in *. cbn [map fold_right length]. lia.
Qed.

Lemma total_abs_pos s k : 0 <= total_abs s k.
Proof. unfold total_abs. apply Rsum_nonneg. intros x Hx. apply in_map_iff in Hx. destruct Hx as (i & <- & _). apply Rabs_pos. Qed.

Lemma conc_total_err mw nw (nearest : search B64) (ws0 : list (list B64)) seeds nthreads k (s : cstate B64) :
  valid_search (length ws0) nearest -> shaped mw nw ws0 -> (forall i, In i seeds -> i < length ws0)%nat ->
  conc_steps mw nearest k (conc_init nthreads seeds (ws0 : weights_state B64)) s -> quiescent s ->
  finite_sample ws0 -> finite_sample (mem s) -> (Z.of_nat (length ws0) <= 2 ^ 53)%Z ->
  forall j, Rabs (total (b64_sample (mem s)) j - total (b64_sample ws0) j) <=
    rounding (length seeds * (length ws0 + 1)) * total_abs (b64_sample ws0) j
    + (1 + rounding (length seeds * (length ws0 + 1))) * (INR (length seeds * length ws0) * half_ulp_min).
Proof.
  intros H1 H2 H3 H4 H5 Hf Hf' Hz j.
  destruct (linearise_spec H1 H2 H3 H4 H5) as (cells & A & B & _).
  destruct (cells_small _ _ _ A) as [C1 C2].
  destruct (run_total_err _ (shaped_wf H2) Hz (finite_valid Hf) Hf' A) as [_ D]. destruct (D j) as [D1 _].
  eapply Rle_trans; [exact D1|].
  assert (S1 : (cells_steps cells <= length seeds * (length ws0 + 1))%nat).
  { eapply Nat.le_trans; [exact C2|]. apply Nat.mul_le_mono_r; exact B. }
  assert (S2 : (cells_members cells <= length seeds * length ws0)%nat).
  { eapply Nat.le_trans; [exact C1|]. apply Nat.mul_le_mono_r; exact B. }
  apply rounding_mono in S1. apply le_INR in S2.
  pose proof (rounding_pos (cells_steps cells)). pose proof (pos_INR (cells_members cells)). pose proof half_ulp_pos.
  apply Rplus_le_compat.
  - apply Rmult_le_compat_r; [apply total_abs_pos|exact S1].
  - apply Rmult_le_compat; try lra; [apply Rmult_le_pos; lra|]. apply Rmult_le_compat_r; lra.
Qed.

(** *** The sign of a cell *)
Lemma central_gcomp (ws : list (list B64)) i w : central_weight ws i w -> w = @gcomp B64 ws i 0.
Proof. intros [o H]. rewrite (@gcomp_nth B64 ws i (w :: o) 0 H). reflexivity. Qed.

Lemma cell_sum_err (ws : list (list B64)) seed nbrs (c : Cell B64) :
  valid_sample ws -> @cell_new B64 ws seed nbrs = Some c -> b64_fin (weight_sum c) ->
  Rabs (b64_val (weight_sum c) - Rsum (map (fun i => comp (b64_sample ws) i 0) (members c)))
  <= rounding (length (members c)) * Rsum (map (fun i => Rabs (comp (b64_sample ws) i 0)) (members c)).
Proof.
  intros Hv H Hf. destruct (cell_new_central H) as (w0 & k & wts & H1 & H2 & H3 & H4 & H5 & _).
  set (ids := map fst (firstn k nbrs)) in *. rewrite H5 in Hf.
  assert (Hw : wts = map (fun i => @gcomp B64 ws i 0) ids).
  { clear - H3. induction H3; cbn; auto. f_equal; auto. apply central_gcomp. auto. }
  apply central_gcomp in H1.
  assert (V0 : b64_valid w0) by (rewrite H1; apply sample_nth; auto; reflexivity).
  assert (Vs : Forall b64_valid wts) by (rewrite Hw; apply Forall_gcomp; auto; reflexivity).
  pose proof (b64_sum_err V0 Vs Hf) as Hb. rewrite <- H5 in Hb.
  assert (Hl : length wts = length ids) by (rewrite Hw, map_length; reflexivity).
  assert (E1 : b64_val w0 = comp (b64_sample ws) seed 0) by (rewrite comp_b64, H1; reflexivity).
  assert (E2 : map b64_val wts = map (fun i => comp (b64_sample ws) i 0) ids).
  { rewrite Hw, map_map. apply map_ext. intros i. symmetry. apply comp_b64. }
  unfold Rabs_sum in Hb. rewrite E1, E2, map_map, Hl in Hb. rewrite H4. cbn [map length]. rewrite !Rsum_cons.
  eapply Rle_trans; [exact Hb|].
  apply Rmult_le_compat_r.
  - assert (0 <= Rsum (map (fun x => Rabs (comp (b64_sample ws) x 0)) ids)).
    { apply Rsum_nonneg. intros x Hx. apply in_map_iff in Hx. destruct Hx as (i & <- & _). apply Rabs_pos. }
    pose proof (Rabs_pos (comp (b64_sample ws) seed 0)). lra.
  - change ((1 + b64_eps) ^ length ids - 1) with (rounding (length ids)). apply rounding_mono. lia.
Qed.

Lemma cell_sign_err mw (ws : list (list B64)) seed nbrs (c : Cell B64) (ws' : list (list B64)) :
  wf_weights mw ws -> finite_sample ws -> finite_sample ws' -> (Z.of_nat (length ws) <= 2 ^ 53)%Z ->
  @cell_new B64 ws seed nbrs = Some c -> @cell_resample B64 mw ws c = Some ws' -> b64_fin (weight_sum c) ->
  0 <= b64_val (weight_sum c) ->
  forall i, In i (members c) -> - INR (length (members c)) * comp (b64_sample ws') i 0 <=
    2 * rounding (length (members c) + 1) * Rsum (map (fun j => Rabs (comp (b64_sample ws) j 0)) (members c))
    + INR (length (members c)) * half_ulp_min.
Proof.
  intros Hwf Hf Hf' Hz Hc Hr Hs H0 i Hi.
  pose proof (cell_sum_err _ _ (finite_valid Hf) Hc Hs) as E1.
  assert (Hne : members c <> []) by (intros E; rewrite E in Hi; destruct Hi).
  pose proof (fun H => @cell_mean_err mw ws c ws' Hwf Hr H 0%nat (finite_valid Hf) Hf' Hne) as E2. destruct (E2 Hz) as (v & Hv & Hb).
  rewrite (Hv i Hi). unfold cell_error, cell_abs in Hb.
  set (A := Rsum (map (fun j => Rabs (comp (b64_sample ws) j 0)) (members c))) in *.
  set (T := Rsum (map (fun j => comp (b64_sample ws) j 0) (members c))) in *.
  assert (HA : 0 <= A) by (apply Rsum_nonneg; intros x Hx; apply in_map_iff in Hx; destruct Hx as (j & <- & _); apply Rabs_pos).
  assert (Hm : rounding (length (members c)) <= rounding (length (members c) + 1)) by (apply rounding_mono; lia).
  assert (Hm' : rounding (length (members c)) * A <= rounding (length (members c) + 1) * A) by (apply Rmult_le_compat_r; auto).
  set (d1 := b64_val (weight_sum c) - T) in *. set (d2 := INR (length (members c)) * v - T) in *.
  pose proof (Rle_abs d1). pose proof (Rle_abs (- d2)) as Hd2. rewrite Rabs_Ropp in Hd2. unfold d1, d2 in *. lra.
Qed.
