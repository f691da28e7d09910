(** Rounding errors of the distance of two events. *)
From Coq Require Import ZArith Reals Lra Lia Permutation SpecFloat Sorted.
From Flocq Require Import Core.Core IEEE754.BinarySingleNaN Plus_error Relative.
From Verif Require Import Base BaseProofs Num ModelEvent ModelDistance SpecWeights SpecEvent SpecDistance B64Proofs B64Errors B64Finite SpecMoments SpecAccuracy SumProofs EventProofs PairingProofs DistanceProofs DistanceProofs2 PropsDistance B64Distance B64Distance2 DistAccuracy DistAccuracy2 DistAccuracyKm.
From Coq Require Import List.
Import ListNotations.
Local Open Scope R_scope.
Set Implicit Arguments.

Lemma add_rel x y : b64_fin x -> b64_fin y -> Rabs (b64_val x + b64_val y) <= big ->
  b64_fin (nadd (n := B64) x y) /\ b64_val (nadd (n := B64) x y) = b64_rnd (b64_val x + b64_val y) /\
  Rabs (b64_val (nadd (n := B64) x y) - (b64_val x + b64_val y)) <= eps * Rabs (b64_val x + b64_val y).
Proof.
  intros Fx Fy H. destruct (b64_add x y Fx Fy H) as [F V]. split; [exact F|]. split; [exact V|]. rewrite V.
  destruct (@FLT_plus_error_N_ex radix2 (-1074) 53 eq_refl (fun x => negb (Z.even x)) (b64_val x) (b64_val y)) as (d & Hd & E).
  - apply b64_val_format; auto.
  - apply b64_val_format; auto.
  - change (b64_rnd (b64_val x + b64_val y)) with (round radix2 (FLT_exp (-1074) 53) ZnearestE (b64_val x + b64_val y)).
    rewrite E. replace ((b64_val x + b64_val y) * (1 + d) - (b64_val x + b64_val y)) with (d * (b64_val x + b64_val y)) by ring.
    rewrite Rabs_mult. apply Rmult_le_compat_r; [apply Rabs_pos|]. eapply Rle_trans; [exact Hd|apply u_ro_eps].
Qed.

Section Sums.
Context (B T : R) (Blo : / 2 ^ 400 <= B) (Bhi : B <= 2 ^ 500) (T1 : 1 <= T) (T9 : T <= 2 ^ 9).

(** [x] is near the sum [r] of [k] numbers *)
Definition sum_near (k : nat) (x : B64) (r : R) : Prop :=
  b64_fin x /\ 0 <= b64_val x /\ 0 <= r <= INR k * (15 / 2 * (T * B)) /\
  Rabs (b64_val x - r) <= (200 * INR k + 9 * INR k ^ 2) * (eps * (T * B)).

Definition some (n : nat) : Prop := (Z.of_nat n <= 2 ^ 40)%Z.

Lemma some_eps n : some n -> INR n * eps <= / 1000.
Proof.
  intros H. unfold some in H. apply IZR_le in H. rewrite <- INR_IZR_INZ in H. unfold b64_eps.
  assert (0 < / 2 ^ 53) by (apply Rinv_0_lt_compat, pow_lt; lra).
  apply Rle_trans with (IZR (2 ^ 40) * / 2 ^ 53); [apply Rmult_le_compat_r; lra|].
  replace (IZR (2 ^ 40)) with (2 ^ 40) by (rewrite pow_IZR; reflexivity).
  replace (2 ^ 53) with (2 ^ 40 * 2 ^ 13) by (rewrite pow_add; reflexivity).
  rewrite Rinv_mult. rewrite <- Rmult_assoc, Rinv_r, Rmult_1_l by (apply pow_nonzero; lra).
  apply Rinv_le_contravar; [lra|]. lra.
Qed.

Lemma near_0 : sum_near 0 n0 0.
Proof.
  split; [split; reflexivity|]. change (b64_val (n0 : B64)) with 0. cbn [INR].
  split; [lra|]. split; [lra|]. rewrite Rminus_diag_eq, Rabs_R0 by reflexivity. lra.
Qed.

Lemma near_mono a b x r : (a <= b)%nat -> sum_near a x r -> sum_near b x r.
Proof.
  intros H (F & P & R & D). destruct (eTB Blo T1) as (E1 & E2 & E3 & E4 & E5). apply le_INR in H. pose proof (pos_INR a) as Pa.
  split; [exact F|]. split; [exact P|]. split; [split; [lra|]|].
  - eapply Rle_trans; [apply R|]. apply Rmult_le_compat_r; lra.
  - eapply Rle_trans; [exact D|]. apply Rmult_le_compat_r; [lra|]. nra.
Qed.

Lemma near_1 x r : mom_near B T x r -> sum_near 1 x r.
Proof.
  intros (F & P & R & D). destruct (eTB Blo T1) as (E1 & E2 & E3 & E4 & E5). split; [exact F|]. split; [exact P|]. cbn [INR]. split; lra.
Qed.

Lemma near_upper k x r : some k -> sum_near k x r -> b64_val x <= INR k * (9 * (T * B)).
Proof.
  intros Hk (F & P & R & D). destruct (eTB Blo T1) as (E1 & E2 & E3 & E4 & E5). pose proof (some_eps Hk) as He. pose proof (pos_INR k) as Pk.
  apply Rabs_le_inv in D. pose proof b64_eps_pos. pose proof eps_small.
  assert ((200 * INR k + 9 * INR k ^ 2) * (eps * (T * B)) <= INR k * (3 / 2 * (T * B))); [|lra].
  replace ((200 * INR k + 9 * INR k ^ 2) * (eps * (T * B))) with (INR k * (T * B) * (200 * eps + 9 * (INR k * eps))) by ring.
  replace (INR k * (3 / 2 * (T * B))) with (INR k * (T * B) * (3 / 2)) by ring.
  apply Rmult_le_compat_l; [apply Rmult_le_pos; lra|]. lra.
Qed.

Lemma near_add a b x y r s : some (a + b) -> sum_near a x r -> sum_near b y s -> sum_near (a + b) (nadd (n := B64) x y) (r + s).
Proof.
  intros Hab Hx Hy. assert (Ha : some a) by (unfold some in *; lia). assert (Hb : some b) by (unfold some in *; lia).
  pose proof (near_upper Ha Hx) as Ux. pose proof (near_upper Hb Hy) as Uy.
  destruct Hx as (Fx & Px & Rx & Dx), Hy as (Fy & Py & Ry & Dy). destruct (eTB Blo T1) as (E1 & E2 & E3 & E4 & E5).
  pose proof (pos_INR a) as Pa. pose proof (pos_INR b) as Pb. pose proof b64_eps_pos as He0.
  assert (G : Rabs (b64_val x + b64_val y) <= big).
  { rewrite Rabs_pos_eq by lra. apply Rle_trans with (INR (a + b) * 2 ^ 513).
    - rewrite plus_INR. assert (9 * (T * B) <= 2 ^ 513); [|nra].
      replace (2 ^ 513) with (2 ^ 4 * (2 ^ 9 * 2 ^ 500)) by (rewrite !pow_add; reflexivity).
      assert (T * B <= 2 ^ 9 * 2 ^ 500) by (apply Rmult_le_compat; try lra; pose proof (B_pos Blo); lra). lra.
    - apply count_big; [unfold some in *; lia|lia]. }
  destruct (add_rel Fx Fy G) as (F & V & D). unfold sum_near. rewrite plus_INR. split; [exact F|]. split; [rewrite V; apply rnd_pos; lra|]. split; [lra|].
  destruct a as [|a'].
  { cbn [INR] in *. assert (X0 : b64_val x = 0) by lra. assert (R0 : r = 0) by lra. rewrite V, X0, R0, !Rplus_0_l, b64_rnd_val by exact Fy. exact Dy. }
  destruct b as [|b'].
  { cbn [INR] in Uy, Ry |- *. assert (Y0 : b64_val y = 0) by lra. assert (S0 : s = 0) by lra. rewrite V, Y0, S0, !Rplus_0_r, b64_rnd_val by exact Fx. exact Dx. }
  set (a := Datatypes.S a') in *. set (b := Datatypes.S b') in *.
  assert (A1 : 1 <= INR a) by (apply (le_INR 1); lia). assert (B1 : 1 <= INR b) by (apply (le_INR 1); lia).
  match goal with |- Rabs (?v - (r + s)) <= _ => replace (v - (r + s)) with ((v - (b64_val x + b64_val y)) + ((b64_val x - r) + (b64_val y - s))) by ring end.
  eapply Rle_trans; [apply Rabs_triang|]. eapply Rle_trans; [apply Rplus_le_compat; [exact D|apply Rabs_triang]|].
  rewrite Rabs_pos_eq by lra.
  assert (eps * (b64_val x + b64_val y) <= eps * ((INR a + INR b) * (9 * (T * B)))) by (apply Rmult_le_compat_l; lra).
  apply Rle_trans with (9 * (INR a + INR b) * (eps * (T * B)) + ((200 * INR a + 9 * INR a ^ 2) * (eps * (T * B)) + (200 * INR b + 9 * INR b ^ 2) * (eps * (T * B)))); [lra|].
  rewrite <- !Rmult_plus_distr_r. apply Rmult_le_compat_r; [lra|]. nra.
Qed.

Context (tau : B64) (Ftau : b64_fin tau) (Htau : Rabs (b64_val tau) <= T).
Let D := mom_dist (b64_val tau).
Let M := minv D zero_mom.

Lemma sum_list l : forall rs x r k, sum_near k x r -> Forall2 (mom_near B T) l rs -> some (k + length l) ->
  sum_near (k + length l) (fold_left (nadd (n := B64)) l x) (r + Rsum rs).
Proof.
  induction l as [|y l IH]; intros rs x r k Hx Hl Hk; inversion Hl; subst; cbn [fold_left length] in *.
  - rewrite Nat.add_0_r, Rsum_nil, Rplus_0_r. exact Hx.
  - rewrite Rsum_cons, <- Rplus_assoc. replace (k + Datatypes.S (length l))%nat with ((k + 1) + length l)%nat in * by lia.
    apply IH; [|assumption|exact Hk]. apply near_add; [unfold some in *; lia|exact Hx|apply near_1; assumption].
Qed.
Lemma nsum_near l rs : Forall2 (mom_near B T) l rs -> some (length l) -> sum_near (length l) (nsum (N := B64) l) (Rsum rs).
Proof. intros H Hk. replace (Rsum rs) with (0 + Rsum rs) by ring. apply (@sum_list l rs n0 0 0%nat near_0 H Hk). Qed.

Lemma zero_upto : mom_upto B (@fv_new B64).
Proof.
  pose proof (B_pos Blo). exists n0, n0, n0, n0. split; [reflexivity|]. split; [discriminate|].
  repeat split; try (change (b64_val (n0 : B64)) with 0; rewrite Rabs_R0; lra).
Qed.
Lemma real_zero : real_mom (@fv_new B64) = zero_mom.
Proof.
  unfold real_mom, zero_mom, fv_from, update_pt, fv_new. cbn [fv_e fv_x fv_y fv_z fv_pt]. change (b64_val (n0 : B64)) with 0. f_equal.
  cbn [nsqrt nadd nmul RN]. rewrite Rmult_0_l, Rplus_0_l. apply sqrt_0.
Qed.
Lemma real_physical p : physical (real_mom p).
Proof. reflexivity. Qed.

Lemma norm_set P : Forall (mom_upto B) P -> some (length P) -> sum_near (length P) (set_norm tau P) (M (map real_mom P) []).
Proof.
  intros HP Hk. unfold M. rewrite minv_nil. unfold set_norm. rewrite map_map. rewrite <- (map_length (fun p => pt_norm p tau) P) in *.
  apply nsum_near; [|exact Hk]. clear Hk. induction HP as [|p P Hp HP IH]; cbn [map]; constructor; [|exact IH]. apply pt_norm_near; assumption.
Qed.

Lemma paired_near P Q : Forall (mom_upto B) P -> Forall (mom_upto B) Q -> length P = length Q -> some (length P) ->
  sum_near (length P) (paired_distance tau P Q) (pairing_cost (b64_val tau) (map real_mom P) (map real_mom Q)).
Proof.
  intros HP HQ E Hk. unfold paired_distance, pairing_cost.
  assert (L : length P = length (map (fun x => pt_dist (fst x) (snd x) tau) (combine P Q))) by (rewrite map_length, combine_length; lia).
  rewrite L in Hk |- *. apply nsum_near; [|exact Hk]. clear L Hk. revert Q HQ E. induction HP as [|p P Hp HP IH]; intros [|q Q] HQ E; try discriminate; cbn [map combine]; constructor.
  - inversion HQ; subst. apply pt_dist_near; assumption.
  - inversion HQ; subst. apply IH; [assumption|]. cbn in E. lia.
Qed.

Lemma not_nan_upto P : Forall (mom_upto B) P -> Forall (mom_in not_nan) P.
Proof. intros H. eapply Forall_impl; [|exact H]. intros p Hp. apply moderate_not_nan, (mom_moderate Bhi Hp). Qed.

Lemma le_fin x y : b64_fin x -> b64_fin y -> nleb (n := B64) x y = true -> b64_val x <= b64_val y.
Proof. intros Fx Fy H. rewrite (b64_leb x y Fx Fy) in H. unfold Rleb in H. destruct (Rle_dec (b64_val x) (b64_val y)); [assumption|discriminate]. Qed.

Lemma map_repeat' A C (f : A -> C) a n : map f (repeat a n) = repeat (f a) n.
Proof. induction n as [|n IH]; cbn; [reflexivity|rewrite IH; reflexivity]. Qed.

(** One type: the shorter list first *)
Lemma le_near sort km P Q : sort_ok sort -> Forall (mom_upto B) P -> Forall (mom_upto B) Q -> (length P <= length Q)%nat -> some (length Q) -> km_accurate km \/ (length Q <= 3)%nat ->
  exists d, min_paired_distance_le sort km tau P Q = Some d /\ sum_near (length Q) d (M (map real_mom P) (map real_mom Q)).
Proof.
  intros Hsort HP HQ HL S3 H3. set (P' := P ++ repeat (@fv_new B64) (length Q - length P)).
  assert (LP : length P' = length Q) by (unfold P'; rewrite app_length, repeat_length; lia).
  assert (HP' : Forall (mom_upto B) P').
  { unfold P'. apply Forall_app. split; [exact HP|]. apply Forall_forall. intros p Hp. apply repeat_spec in Hp as ->. exact zero_upto. }
  assert (EP : filled (length Q) (map real_mom P) = map real_mom P').
  { unfold filled, P'. rewrite map_app, map_repeat', real_zero, map_length. reflexivity. }
  assert (EQ : filled (length Q) (map real_mom Q) = map real_mom Q).
  { unfold filled. rewrite map_length, Nat.sub_diag. apply app_nil_r. }
  pose proof (proj2 (min_pairing_mp (b64_val tau) (map real_mom P) (map real_mom Q) _) (minv_spec (mom_dist (b64_val tau)) zero_mom _ _)) as HM.
  fold D M in HM. unfold min_pairing in HM. cbv zeta in HM. rewrite !map_length, (Nat.max_r _ _ HL), EP, EQ in HM. destruct HM as [(P1 & Pm & E1) Hmin].
  destruct (Permutation_map_inv _ _ (Permutation_sym Pm)) as (m1 & -> & Hm1). 
  assert (PN : forall m, Permutation P' m -> sum_near (length Q) (paired_distance tau m Q) (pairing_cost (b64_val tau) (map real_mom m) (map real_mom Q))).
  { intros m Hm. pose proof (Permutation_length Hm) as Lm. replace (length Q) with (length m) by lia. apply paired_near; [|exact HQ|lia|unfold some in *; rewrite <- Lm; lia].
    eapply Permutation_Forall; eassumption. }
  assert (K : forall d m, Permutation P' m -> sum_near (length Q) d (pairing_cost (b64_val tau) (map real_mom m) (map real_mom Q)) ->
     (exists d', sum_near (length Q) d' (pairing_cost (b64_val tau) (map real_mom m1) (map real_mom Q)) /\ b64_val d <= b64_val d') ->
     sum_near (length Q) d (M (map real_mom P) (map real_mom Q))).
  { intros d m Hm (F & P0 & R0 & D0) (d' & (F' & P0' & R0' & D0') & L). split; [exact F|]. split; [exact P0|]. rewrite E1. split; [exact R0'|].
    assert (Q1 := Hmin _ (Permutation_map real_mom Hm)). rewrite E1 in Q1. apply Rabs_le_inv in D0, D0'. apply Rabs_le. lra. }
  destruct (@Hsort _ (@fv_leb B64) P') as [Ps _].
  { apply (fv_preorder B64_cmp). intros p Hp. pose proof (not_nan_upto HP') as NN. rewrite Forall_forall in NN. auto. }
  unfold min_paired_distance_le. cbv zeta. fold P'. rewrite <- (Permutation_length Ps), LP.
  destruct (length Q) as [|[|n]] eqn:LQ.
  - exists n0. split; [reflexivity|]. apply (K n0 m1 (Hm1)).
    + destruct Q; [|discriminate]. destruct m1; [|apply Permutation_length in Hm1; cbn in Hm1; lia]. exact near_0.
    + exists n0. split; [|lra]. destruct Q; [|discriminate]. destruct m1; [|apply Permutation_length in Hm1; cbn in Hm1; lia]. exact near_0.
  - destruct P' as [|a [|? ?]]; try discriminate. apply Permutation_length_1_inv in Ps. rewrite Ps. destruct Q as [|b [|? ?]]; try discriminate.
    exists (pt_dist a b tau). split; [reflexivity|]. apply Permutation_length_1_inv in Hm1. subst m1.
    assert (X : sum_near 1 (pt_dist a b tau) (pairing_cost (b64_val tau) (map real_mom [a]) (map real_mom [b]))).
    { apply near_1. unfold pairing_cost. cbn [map combine fst snd]. rewrite Rsum_cons, Rsum_nil, Rplus_0_r. inversion HP'; inversion HQ; subst. apply pt_dist_near; assumption. }
    apply (K (pt_dist a b tau) [a]); [reflexivity|exact X|]. exists (pt_dist a b tau). split; [exact X|lra].
  - destruct (Nat.leb_spec (Datatypes.S (Datatypes.S n)) max_part_naive) as [Hle|Hgt].
    { destruct (@C22_enumeration_binary64 sort tau P' Q Hsort (not_nan_upto HP')) as (r & E & (m & Hm & ->) & Hr).
      { intros m Hm. apply b64_fin_not_nan. exact (proj1 (PN m Hm)). }
      rewrite E. exists (paired_distance tau m Q). split; [reflexivity|]. apply (K _ m Hm (PN m Hm)). exists (paired_distance tau m1 Q). split; [exact (PN m1 Hm1)|].
      apply le_fin; [exact (proj1 (PN m Hm))|exact (proj1 (PN m1 Hm1))|]. apply Hr. exact Hm1. }
    assert (Hkm : km_accurate km) by (destruct H3 as [H3|H3]; [exact H3|unfold max_part_naive in Hgt; lia]).
    assert (HPs : Forall (mom_upto B) (sort _ (@fv_leb B64) P')) by (eapply Permutation_Forall; [exact Ps|exact HP']).
    destruct (@km_near B T Blo Bhi T1 T9 tau Ftau Htau km (sort _ (@fv_leb B64) P') Q Hkm HPs HQ) as (d & E & Fd & Pd & (L1 & PL1 & CL1) & CL).
    { rewrite <- (Permutation_length Ps). congruence. }
    { rewrite LQ. exact S3. }
    exists d. split; [exact E|]. rewrite LQ in CL1, CL.
    pose proof (minv_spec (mom_dist (b64_val tau)) zero_mom (map real_mom P) (map real_mom Q)) as MP. unfold mp in MP. cbv zeta in MP.
    rewrite !map_length, Nat.max_r in MP by lia. unfold fil in MP. rewrite !map_length in MP.
    assert (MI : ismin (mom_dist (b64_val tau)) (map real_mom (sort _ (@fv_leb B64) P')) (map real_mom Q) (M (map real_mom P) (map real_mom Q))).
    { eapply ismin_perm; [| |exact MP].
      - rewrite <- real_zero, <- map_repeat', <- map_app, LQ. apply Permutation_map. exact Ps.
      - rewrite Nat.sub_diag. cbn [repeat]. rewrite app_nil_r. reflexivity. }
    destruct MI as [(L0 & PL0 & EL0) ML]. specialize (CL L0 PL0). specialize (ML L1 PL1).
    destruct (PN m1 Hm1) as (_ & _ & R0' & _). split; [exact Fd|]. split; [exact Pd|]. rewrite E1 at 1 2. split; [exact R0'|].
    fold D in CL, CL1, EL0, ML. apply Rabs_le. fold M D in EL0, ML. lra.
Qed.

Lemma min_near sort km P Q : sort_ok sort -> Forall (mom_upto B) P -> Forall (mom_upto B) Q -> some (length P) -> some (length Q) ->
  km_accurate km \/ (length P <= 3)%nat -> km_accurate km \/ (length Q <= 3)%nat ->
  exists d, min_paired_distance sort km tau P Q = Some d /\ sum_near (length P + length Q) d (M (map real_mom P) (map real_mom Q)).
Proof.
  intros Hsort HP HQ SP SQ H1 H2. unfold min_paired_distance. destruct (Nat.ltb_spec (length Q) (length P)) as [H|H].
  - destruct (@le_near sort km Q P Hsort HQ HP ltac:(lia) SP H1) as (d & E & Hd). exists d. split; [exact E|]. eapply near_mono; [|replace (M (map real_mom P) (map real_mom Q)) with (M (map real_mom Q) (map real_mom P)); [exact Hd|apply M_sym]]. lia.
  - destruct (@le_near sort km P Q Hsort HP HQ H SQ H2) as (d & E & Hd). exists d. split; [exact E|]. eapply near_mono; [|exact Hd]. lia.
Qed.
End Sums.
