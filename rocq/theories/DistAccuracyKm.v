(** Rounding errors of the distance of two events: the assignment algorithm. *)
From Coq Require Import ZArith Reals Lra Lia Permutation SpecFloat Sorted.
From Flocq Require Import Core.Core IEEE754.BinarySingleNaN Plus_error Relative.
From Verif Require Import Base BaseProofs Num ModelEvent ModelDistance SpecWeights SpecEvent SpecDistance B64Proofs B64Errors B64Finite SpecMoments SpecAccuracy SumProofs EventProofs PairingProofs PermProofs DistanceProofs DistanceProofs2 PropsDistance B64Distance B64Distance2 DistAccuracy DistAccuracy2.
From Coq Require Import List.
Import ListNotations.
Local Open Scope R_scope.
Set Implicit Arguments.

Lemma opp_val (x : B64) : b64_val (nopp (n := B64) x) = - b64_val x.
Proof.
  destruct x as [s|s| |s m e]; cbn [nopp B64 SFopp b64_val SF2R]; try (rewrite Ropp_0; reflexivity); try reflexivity.
  unfold b64_val. cbn [SF2R]. rewrite <- F2R_Zopp. f_equal. f_equal. destruct s; reflexivity.
Qed.
Lemma opp_fin (x : B64) : b64_fin x -> b64_fin (nopp (n := B64) x).
Proof. intros [H1 H2]. destruct x as [s|s| |s m e]; split; try exact H1; try exact H2; try discriminate. Qed.

Section Km.
Context (B T : R) (Blo : / 2 ^ 400 <= B) (Bhi : B <= 2 ^ 500) (T1 : 1 <= T) (T9 : T <= 2 ^ 9).
Context (tau : B64) (Ftau : b64_fin tau) (Htau : Rabs (b64_val tau) <= T).
Let D := mom_dist (b64_val tau).

Lemma real_new : real_mom (@fv_new B64) = zero_mom.
Proof.
  unfold real_mom, zero_mom, fv_from, update_pt, fv_new. cbn [fv_e fv_x fv_y fv_z fv_pt]. change (b64_val (n0 : B64)) with 0. f_equal.
  cbn [nsqrt nadd nmul RN]. rewrite Rmult_0_l, Rplus_0_l. apply sqrt_0.
Qed.

Lemma km_near km P Q : km_accurate km -> Forall (mom_upto B) P -> Forall (mom_upto B) Q -> length P = length Q -> (Z.of_nat (length Q) <= 2 ^ 40)%Z ->
  let err := (200 * INR (length Q) + 9 * INR (length Q) ^ 2) * (b64_eps * (T * B)) in
  exists d, min_paired_distance_hungarian km tau P Q = Some d /\ b64_fin d /\ 0 <= b64_val d /\
    (exists L, pairing (map real_mom P) (map real_mom Q) L /\ cost D L <= b64_val d + err) /\
    (forall L, pairing (map real_mom P) (map real_mom Q) L -> b64_val d <= cost D L + err).
Proof.
  intros Hkm HP HQ E Hn err. unfold min_paired_distance_hungarian, sm_from. rewrite map_length, prod_length, E.
  set (n := length Q) in *. rewrite Nat.sqrt_square, Nat.eqb_refl.   set (entries := map nopp (map (fun x => pt_dist (fst x) (snd x) tau) (list_prod P Q))).
  set (w := sm_at (@mkSM B64 entries n)).
  exists (nopp (n := B64) (km n w)). split; [reflexivity|].
  destruct (eTB Blo T1) as (E1 & E2 & E3 & E4 & E5). pose proof b64_eps_pos as He. pose proof eps_small as Hes.
  assert (Hw : forall i j, (i < n)%nat -> (j < n)%nat -> w i j = nopp (n := B64) (pt_dist (nth i P fv_new) (nth j Q fv_new) tau)).
  { intros i j Hi Hj. unfold w, sm_at, entries. cbn [sm_rows sm_entries].
    set (g := fun x : FourVector B64 * FourVector B64 => nopp (n := B64) (pt_dist (N := B64) (fst x) (snd x) tau)).
    rewrite map_map. change (nth (i * n + j) (map g (list_prod P Q)) n0 = g (nth i P fv_new, nth j Q fv_new)).
    rewrite (nth_indep _ _ (g (fv_new, fv_new))).
    2:{ rewrite map_length, prod_length, E. fold n. assert (i * n + n <= n * n)%nat by nia. lia. }
    rewrite map_nth. unfold n. rewrite list_prod_nth by (auto; rewrite E; auto). reflexivity. }
  assert (Hd : forall i j, (i < n)%nat -> (j < n)%nat ->
    mom_near B T (pt_dist (nth i P fv_new) (nth j Q fv_new) tau) (D (nth i (map real_mom P) zero_mom) (nth j (map real_mom Q) zero_mom))).
  { intros i j Hi Hj. rewrite <- real_new, !map_nth. apply pt_dist_near; auto.
    - rewrite Forall_forall in HP. apply HP, nth_In. rewrite E; exact Hi.
    - rewrite Forall_forall in HQ. apply HQ, nth_In. exact Hj. }
  set (rP := map real_mom P) in *. set (rQ := map real_mom Q) in *.
  assert (LP : length rP = n) by (unfold rP; rewrite map_length; exact E). assert (LQ : length rQ = n) by (unfold rQ; rewrite map_length; reflexivity).
  set (total := fun s => Rsum (map (fun ij => b64_val (w (fst ij) (snd ij))) (combine (seq 0 n) s))).
  assert (Hcost : forall s, Permutation (seq 0 n) s ->
    Rabs (total s + cost D (combine rP (map (fun j => nth j rQ zero_mom) s))) <= INR n * (200 * (b64_eps * (T * B)))).
  { intros s Hs. unfold total. rewrite <- (map_nth_seq zero_mom rP) at 1. rewrite LP. pose proof (Permutation_length Hs) as Hlen.
    assert (Hin : forall j, In j s -> (j < n)%nat).
    { intros j Hj. apply (Permutation_in j (Permutation_sym Hs)) in Hj. apply in_seq in Hj. lia. }
    assert (Hin0 : forall j, In j (seq 0 n) -> (j < n)%nat) by (intros j Hj; apply in_seq in Hj; lia).
    replace (INR n) with (INR (length (seq 0 n))) by (rewrite seq_length; reflexivity).
    clear Hs. revert s Hin Hlen. induction (seq 0 n) as [|i r IH]; intros [|j s] Hin Hlen; cbn [length] in Hlen; try discriminate; cbn [combine map].
    - rewrite cost_nil, Rsum_nil, Rplus_0_r, Rabs_R0. cbn. lra.
    - rewrite cost_cons, Rsum_cons. cbn [fst snd]. cbn [length]. rewrite S_INR.
      assert (Hi : (i < n)%nat) by (apply Hin0; left; auto). assert (Hj : (j < n)%nat) by (apply Hin; left; auto).
      rewrite Hw by auto. rewrite opp_val. destruct (Hd i j Hi Hj) as (_ & _ & _ & X).
      assert (Y := IH ltac:(intros; apply Hin0; right; auto) s ltac:(intros; apply Hin; right; auto) ltac:(lia)).
      apply Rabs_le_inv in X, Y. apply Rabs_le. lra. }
  assert (Hpair : forall s, Permutation (seq 0 n) s -> pairing rP rQ (combine rP (map (fun j => nth j rQ zero_mom) s))).
  { intros s Hs. pose proof (Permutation_length Hs) as Hlen. rewrite seq_length in Hlen.
    assert (Hl : length rP = length (map (fun j => nth j rQ zero_mom) s)) by (rewrite map_length, <- Hlen; exact LP).
    split; [rewrite map_fst_combine; auto|]. rewrite map_snd_combine by auto.
    etransitivity; [apply Permutation_map; symmetry; exact Hs|]. rewrite <- LQ, map_nth_seq. auto. }
  destruct (Hkm n w (8 * (T * B)) Hn) as (KF & KP & (s & Hs & Es) & Hmax).
  { split; [lra|]. replace (2 ^ 513) with (2 ^ 4 * (2 ^ 9 * 2 ^ 500)) by (rewrite !pow_add; reflexivity).
    assert (T * B <= 2 ^ 9 * 2 ^ 500) by (apply Rmult_le_compat; try lra; pose proof (B_pos Blo); lra). clear -H E3. set (x := 2 ^ 9 * 2 ^ 500) in *. set (y := T * B) in *. clearbody x y. simpl pow. lra. }
  { intros i j Hi Hj. rewrite Hw by auto. destruct (Hd i j Hi Hj) as (X1 & X2 & X3 & X4). unfold within. rewrite opp_val, Rabs_Ropp, Rabs_pos_eq by exact X2.
    apply Rabs_le_inv in X4. split; [split; [apply opp_fin; exact X1|]|lra].
    assert (200 * (b64_eps * (T * B)) <= / 2 * (T * B)); [|lra]. rewrite <- Rmult_assoc. apply Rmult_le_compat_r; lra. }
  cbv beta zeta in Es, Hmax. change (Rabs (b64_val (km n w) - total s) <= INR n ^ 2 * b64_eps * (8 * (T * B))) in Es.
  change (forall s, Permutation (seq 0 n) s -> total s <= b64_val (km n w) + INR n ^ 2 * b64_eps * (8 * (T * B))) in Hmax. split; [apply opp_fin; exact KF|]. rewrite opp_val. split; [lra|].
  assert (Herr : INR n ^ 2 * b64_eps * (8 * (T * B)) + INR n * (200 * (b64_eps * (T * B))) <= err).
  { unfold err. assert (0 <= INR n ^ 2 * (b64_eps * (T * B))) by (apply Rmult_le_pos; [apply pow2_ge_0|lra]). lra. }
  split.
  - exists (combine rP (map (fun j => nth j rQ zero_mom) s)). split; [apply Hpair; exact Hs|].
    pose proof (Hcost s Hs) as X. apply Rabs_le_inv in X. apply Rabs_le_inv in Es. lra.
  - intros L HL. pose proof (pairing_swap HL) as HL'. apply pairing_combine in HL'. destruct HL' as (Q' & HQ' & HL').
    rewrite <- (map_nth_seq zero_mom rQ) in HQ'. symmetry in HQ'. apply Permutation_map_inv in HQ'.
    destruct HQ' as (s' & -> & Hs'). rewrite LQ in Hs'. specialize (Hmax s' Hs'). pose proof (Hcost s' Hs') as X. apply Rabs_le_inv in X.
    assert (Ec : cost D L = cost D (combine rP (map (fun j => nth j rQ zero_mom) s'))).
    { unfold D. rewrite <- (@cost_swap _ (mom_dist (b64_val tau)) (@mom_sym (b64_val tau)) L), (cost_perm (mom_dist (b64_val tau)) HL').
      rewrite <- (@cost_swap _ (mom_dist (b64_val tau)) (@mom_sym (b64_val tau))). f_equal.
      clear. generalize (map (fun j => nth j rQ zero_mom) s') as l. intros l. clearbody rP. clear. revert rP.
      induction l as [|a l IH]; intros [|p0 P0]; cbn; auto. f_equal. auto. }
    rewrite Ec. lra.
Qed.
End Km.

(** An accurate algorithm: try all assignments *)
Section Brute.
Context (n : nat) (w : nat -> nat -> B64) (U : R).
Definition value64 (s : list nat) : B64 := nsum (N := B64) (map (fun ij => w (fst ij) (snd ij)) (combine (seq 0 n) s)).
Definition best64 : list nat :=
  fold_right (fun s m => if nleb (n := B64) (value64 m) (value64 s) then s else m) (seq 0 n) (perms (seq 0 n)).
Hypothesis Hn : (Z.of_nat n <= 2 ^ 40)%Z.
Hypothesis HU : 0 <= U <= 2 ^ 513.
Hypothesis Hw : forall i j, (i < n)%nat -> (j < n)%nat -> within U (w i j) /\ b64_val (w i j) <= 0.

Definition nearU (k : nat) (x : B64) (r : R) : Prop :=
  b64_fin x /\ b64_val x <= 0 /\ - (INR k * U) <= r <= 0 /\ Rabs (b64_val x - r) <= INR k ^ 2 * b64_eps * U.

Lemma add_one k x r y : (Z.of_nat (k + 1) <= 2 ^ 40)%Z -> nearU k x r -> within U y -> b64_val y <= 0 -> nearU (k + 1) (nadd (n := B64) x y) (r + b64_val y).
Proof.
  intros Hk (F & P & R & X) [Fy Uy] Py. pose proof (pos_INR k) as Pk. pose proof b64_eps_pos as He. pose proof eps_small as Hes.
  rewrite Rabs_left1 in Uy by exact Py. apply Rabs_le_inv in X.
  assert (Ke : INR k * b64_eps <= / 1000).
  { assert (H : (Z.of_nat k <= 2 ^ 40)%Z) by lia. apply IZR_le in H. rewrite <- INR_IZR_INZ in H. unfold b64_eps in *.
    apply Rle_trans with (IZR (2 ^ 40) * / 2 ^ 53); [apply Rmult_le_compat_r; lra|].
    replace (IZR (2 ^ 40)) with (2 ^ 40) by (rewrite pow_IZR; reflexivity).
    replace (2 ^ 53) with (2 ^ 40 * 2 ^ 13) by (rewrite pow_add; reflexivity).
    rewrite Rinv_mult. rewrite <- Rmult_assoc, Rinv_r, Rmult_1_l by (apply pow_nonzero; lra).
    apply Rinv_le_contravar; [lra|]. lra. }
  assert (KU : 0 <= INR k * U) by (apply Rmult_le_pos; lra).
  assert (K2 : INR k ^ 2 * b64_eps * U <= / 1000 * (INR k * U)).
  { replace (INR k ^ 2 * b64_eps * U) with (INR k * b64_eps * (INR k * U)) by ring. apply Rmult_le_compat_r; assumption. }
  assert (SB : - (b64_val x + b64_val y) <= 1001 / 1000 * (INR k * U) + U) by lra.
  assert (G : Rabs (b64_val x + b64_val y) <= big).
  { rewrite Rabs_left1 by lra. apply Rle_trans with (INR (2 * (k + 1)) * 2 ^ 513).
    - rewrite mult_INR, plus_INR. cbn [INR]. assert (0 < 2 ^ 513) by (apply pow_lt; lra).
      assert (INR k * U <= INR k * 2 ^ 513) by (apply Rmult_le_compat_l; lra). lra.
    - apply count_big; lia. }
  assert (A := b64_add x y F Fy G). destruct A as [F' V].
  assert (E : Rabs (b64_val (nadd (n := B64) x y) - (b64_val x + b64_val y)) <= b64_eps * Rabs (b64_val x + b64_val y)).
  { rewrite V.
    destruct (@FLT_plus_error_N_ex radix2 (-1074) 53 eq_refl (fun x => negb (Z.even x)) (b64_val x) (b64_val y)) as (d & Hd & E).
    - apply b64_val_format; auto.
    - apply b64_val_format; auto.
    - change (b64_rnd (b64_val x + b64_val y)) with (round radix2 (FLT_exp (-1074) 53) ZnearestE (b64_val x + b64_val y)).
      rewrite E. replace ((b64_val x + b64_val y) * (1 + d) - (b64_val x + b64_val y)) with (d * (b64_val x + b64_val y)) by ring.
      rewrite Rabs_mult. apply Rmult_le_compat_r; [apply Rabs_pos|]. eapply Rle_trans; [exact Hd|apply u_ro_eps]. }
  split; [exact F'|]. rewrite (Rabs_left1 (b64_val x + b64_val y)) in E by lra.
  assert (Es : b64_eps * - (b64_val x + b64_val y) <= b64_eps * (1001 / 1000 * (INR k * U) + U)) by (apply Rmult_le_compat_l; lra).
  apply Rabs_le_inv in E. split; [|rewrite plus_INR; cbn [INR]; split; [lra|]].
  - assert (b64_eps * - (b64_val x + b64_val y) <= 1 * - (b64_val x + b64_val y)) by (apply Rmult_le_compat_r; lra). lra.
  - replace ((INR k + 1) ^ 2 * b64_eps * U) with (INR k ^ 2 * b64_eps * U + 2 * (b64_eps * (INR k * U)) + b64_eps * U) by ring.
    assert (0 <= b64_eps * (INR k * U)) by (apply Rmult_le_pos; lra).
    apply Rabs_le. lra.
Qed.

Lemma add_all l : forall k x r, (Z.of_nat (k + length l) <= 2 ^ 40)%Z -> nearU k x r -> Forall (fun y => within U y /\ b64_val y <= 0) l ->
  nearU (k + length l) (fold_left (nadd (n := B64)) l x) (r + Rsum (map b64_val l)).
Proof.
  induction l as [|y l IH]; intros k x r Hk Hx Hl; cbn [fold_left length map] in *.
  - rewrite Nat.add_0_r, Rsum_nil, Rplus_0_r. exact Hx.
  - inversion Hl as [|? ? [Hy1 Hy2] Hl']; subst. rewrite Rsum_cons, <- Rplus_assoc. replace (k + Datatypes.S (length l))%nat with ((k + 1) + length l)%nat in * by lia.
    apply IH; [exact Hk| |exact Hl']. apply add_one; auto. lia.
Qed.

Lemma value_near s : Permutation (seq 0 n) s ->
  nearU n (value64 s) (Rsum (map (fun ij => b64_val (w (fst ij) (snd ij))) (combine (seq 0 n) s))).
Proof.
  intros Hs. pose proof (Permutation_length Hs) as L. rewrite seq_length in L. set (l := map (fun ij => w (fst ij) (snd ij)) (combine (seq 0 n) s)).
  assert (Ln : length l = n) by (unfold l; rewrite map_length, combine_length, seq_length; lia).
  replace (Rsum (map (fun ij => b64_val (w (fst ij) (snd ij))) (combine (seq 0 n) s))) with (0 + Rsum (map b64_val l)) by (unfold l; rewrite map_map, Rplus_0_l; reflexivity).
  rewrite <- Ln. unfold value64. fold l. apply (@add_all l 0%nat n0 0).
  - cbn [Nat.add]. rewrite Ln. exact Hn.
  - split; [split; reflexivity|]. change (b64_val (n0 : B64)) with 0. cbn [INR]. split; [lra|]. split; [lra|]. rewrite Rminus_0_r, Rabs_R0. lra.
  - apply Forall_forall. intros y Hy. apply in_map_iff in Hy as ([i j] & <- & Hij). cbn [fst snd].
    pose proof (in_combine_l _ _ _ _ Hij) as Hi. pose proof (in_combine_r _ _ _ _ Hij) as Hj. apply in_seq in Hi.
    apply (Permutation_in j (Permutation_sym Hs)) in Hj. apply in_seq in Hj. apply Hw; lia.
Qed.

Lemma best_spec : Permutation (seq 0 n) best64 /\ forall s, Permutation (seq 0 n) s -> b64_val (value64 s) <= b64_val (value64 best64).
Proof.
  assert (G : forall l, (forall s, In s l -> Permutation (seq 0 n) s) ->
    let m := fold_right (fun s m => if nleb (n := B64) (value64 m) (value64 s) then s else m) (seq 0 n) l in
    Permutation (seq 0 n) m /\ forall s, In s l -> b64_val (value64 s) <= b64_val (value64 m)).
  { induction l as [|a l IH]; intros Hl; cbn [fold_right].
    - split; [reflexivity|intros s []].
    - destruct (IH (fun s Hs => Hl s (or_intror Hs))) as [I1 I2]. set (m := fold_right _ _ l) in *.
      pose proof (Hl a (or_introl eq_refl)) as Ha. destruct (value_near Ha) as (Fa & _). destruct (value_near I1) as (Fm & _).
      cbv zeta. rewrite (b64_leb _ _ Fm Fa). unfold Rleb. destruct (Rle_dec (b64_val (value64 m)) (b64_val (value64 a))) as [L|L].
      + split; [exact Ha|]. intros s [<-|Hs]; [lra|]. specialize (I2 s Hs). lra.
      + split; [exact I1|]. intros s [<-|Hs]; [lra|]. exact (I2 s Hs). }
  destruct (G (perms (seq 0 n))) as [G1 G2]; [intros s Hs; apply perms_sound; exact Hs|].
  split; [exact G1|]. intros s Hs. apply G2, perms_complete, Hs.
Qed.
End Brute.

Definition km64 (n : nat) (w : nat -> nat -> B64) : B64 := value64 n w (best64 n w).
Lemma km64_accurate : km_accurate km64.
Proof.
  intros n w U Hn HU Hw total. destruct (@best_spec n w U Hn HU Hw) as [B1 B2]. destruct (@value_near n w U Hn HU Hw _ B1) as (F & P & _ & X). fold (total (best64 n w)) in X.
  unfold km64. split; [exact F|]. split; [exact P|]. split; [exists (best64 n w); split; [exact B1|exact X]|].
  intros s Hs. destruct (@value_near n w U Hn HU Hw _ Hs) as (_ & _ & _ & Y). fold (total s) in Y. specialize (B2 s Hs). apply Rabs_le_inv in Y. unfold b64_eps in Y. lra.
Qed.
