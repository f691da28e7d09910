(** Distances in binary64 are finite. *)
From Coq Require Import ZArith Reals Lra Lia Permutation SpecFloat.
From Flocq Require Import Core.Core IEEE754.BinarySingleNaN.
From Verif Require Import Base BaseProofs Num ModelEvent ModelDistance SpecWeights SpecEvent SpecDistance B64Proofs B64Errors B64Finite SpecMoments DistanceProofs PropsDistance.
Set Implicit Arguments.
Local Open Scope R_scope.
Local Existing Instance Hprec64.
Local Existing Instance Hmax64.

Lemma SFsqrt_eq (x : b64) : SFsqrt prec64 emax64 (B2SF x) = B2SF (Bsqrt mode_NE x).
Proof.
  destruct x as [sx|[|]| |[|] mx ex Bx]; try reflexivity. simpl. rewrite B2SF_SF2B.
  set (melz := SFsqrt_core_binary _ _ _ _). case melz as [[mz ez] lz]. apply binary_round_aux_eq.
Qed.
Lemma b64_sqrt x : b64_fin x -> 0 <= b64_val x -> b64_fin (nsqrt (n := B64) x) /\ b64_val (nsqrt (n := B64) x) = b64_rnd (sqrt (b64_val x)).
Proof.
  intros Hx H0. destruct (b64_lift _ Hx) as (a & <- & Fa & Ea). cbn [nsqrt B64]. rewrite SFsqrt_eq. rewrite <- Ea in *.
  pose proof (Bsqrt_correct prec64 emax64 _ _ mode_NE a) as (H1 & H2 & _).
  assert (F : is_finite (Bsqrt mode_NE a) = true).
  { rewrite H2. destruct a as [s|s| |[|] m e B]; try reflexivity; try discriminate. exfalso.
    cbn in H0. unfold F2R in H0. cbn in H0. pose proof (bpow_gt_0 radix2 e).
    assert (IZR (Z.neg m) < 0) by (apply IZR_lt; reflexivity). nra. }
  destruct (b64_drop _ F) as [F' V]. split; [exact F'|]. rewrite V. exact H1.
Qed.

(** *** rounding and bounds *)
Definition fmt (v : R) : Prop := generic_format radix2 (FLT_exp (-1074) 53) v.
Lemma rnd_abs z v : fmt v -> Rabs z <= v -> Rabs (b64_rnd z) <= v.
Proof. intros Hv Hz. apply abs_round_le_generic; [apply FLT_exp_valid; reflexivity|apply valid_rnd_N|exact Hv|exact Hz]. Qed.
Lemma rnd_pos z : 0 <= z -> 0 <= b64_rnd z.
Proof. intros H. rewrite <- b64_rnd_0. apply b64_rnd_mono. exact H. Qed.
Lemma fmt_pow n : fmt (2 ^ n).
Proof. rewrite <- bpow_pow. apply generic_format_bpow. cbn. unfold FLT_exp. lia. Qed.
Lemma fmt_mult m n : (Z.of_nat m <= 2 ^ 53)%Z -> fmt (INR m * 2 ^ n).
Proof.
  intros Hm. destruct (Z.eq_dec (Z.of_nat m) (2 ^ 53)) as [E|E].
  - rewrite INR_IZR_INZ, E. change (IZR (2 ^ 53)) with (IZR (radix2 ^ 53)). rewrite IZR_Zpower by lia. rewrite <- bpow_pow, <- bpow_plus.
    apply generic_format_bpow. unfold FLT_exp. lia.
  - apply generic_format_FLT. exists (Float radix2 (Z.of_nat m) (Z.of_nat n)).
    + unfold F2R. cbn [Fnum Fexp]. rewrite <- INR_IZR_INZ, bpow_pow. reflexivity.
    + cbn [Fnum]. rewrite Z.abs_eq by lia. change (radix2 ^ 53)%Z with (2 ^ 53)%Z. lia.
    + cbn [Fexp]. lia.
Qed.
Lemma pow_big n : (n <= 1023)%nat -> 2 ^ n <= big.
Proof.
  intros H. apply Rle_trans with (2 ^ 1023); [apply Rle_pow; [lra|exact H]|]. unfold big. rewrite <- bpow_pow.
  replace (bpow radix2 1024) with (2 * bpow radix2 1023) by (change 1024%Z with (1 + 1023)%Z; rewrite bpow_plus; reflexivity).
  assert (bpow radix2 971 <= bpow radix2 1023) by (apply bpow_le; lia). change (Z.of_nat 1023) with 1023%Z. lra.
Qed.
Lemma pow_add a b : 2 ^ a * 2 ^ b = 2 ^ (a + b).
Proof. symmetry. apply pow_add. Qed.
Lemma pow_double a : 2 ^ a + 2 ^ a = 2 ^ (S a).
Proof. cbn [pow]. ring. Qed.
Lemma pow_mono a b : (a <= b)%nat -> 2 ^ a <= 2 ^ b.
Proof. intros. apply Rle_pow; [lra|assumption]. Qed.
Lemma pow_pos a : 0 < 2 ^ a.
Proof. apply pow_lt. lra. Qed.

Lemma within_mono x a b : within a x -> a <= b -> within b x.
Proof. intros [H1 H2] H. split; [exact H1|lra]. Qed.
Lemma within_0 b : 0 <= b -> within b (n0 : B64).
Proof. intros H. split; [split; reflexivity|]. change (b64_val (n0 : B64)) with 0. rewrite Rabs_R0. exact H. Qed.

Lemma add_v x y v : b64_fin x -> b64_fin y -> fmt v -> v <= big -> Rabs (b64_val x + b64_val y) <= v ->
  within v (nadd (n := B64) x y) /\ b64_val (nadd (n := B64) x y) = b64_rnd (b64_val x + b64_val y).
Proof.
  intros Hx Hy Hv Hb H. destruct (@b64_add x y Hx Hy) as [F V]; [fold big; lra|]. split; [split; [exact F|]|exact V].
  rewrite V. apply rnd_abs; assumption.
Qed.
Lemma sub_v x y v : b64_fin x -> b64_fin y -> fmt v -> v <= big -> Rabs (b64_val x - b64_val y) <= v ->
  within v (nsub (n := B64) x y) /\ b64_val (nsub (n := B64) x y) = b64_rnd (b64_val x - b64_val y).
Proof.
  intros Hx Hy Hv Hb H. destruct (@b64_sub x y Hx Hy) as [F V]; [fold big; lra|]. split; [split; [exact F|]|exact V].
  rewrite V. apply rnd_abs; assumption.
Qed.
Lemma mul_v x y v : b64_fin x -> b64_fin y -> fmt v -> v <= big -> Rabs (b64_val x * b64_val y) <= v ->
  within v (nmul (n := B64) x y) /\ b64_val (nmul (n := B64) x y) = b64_rnd (b64_val x * b64_val y).
Proof.
  intros Hx Hy Hv Hb H. pose proof (@b64_mul x y Hx Hy ltac:(lra)) as F.
  destruct (b64_mul_inv (b64_fin_valid Hx) (b64_fin_valid Hy)) as [_ I]. destruct (I F) as (_ & _ & V).
  split; [split; [exact F|]|exact V]. rewrite V. apply rnd_abs; assumption.
Qed.
Lemma sqrt_v x v w : b64_fin x -> 0 <= b64_val x -> fmt v -> 0 <= v -> b64_val x <= w -> w <= v * v ->
  within v (nsqrt (n := B64) x) /\ 0 <= b64_val (nsqrt (n := B64) x) /\ b64_val (nsqrt (n := B64) x) = b64_rnd (sqrt (b64_val x)).
Proof.
  intros Hx H0 Hv Hp Hw Hs. destruct (@b64_sqrt x Hx H0) as [F V]. split; [split; [exact F|]|split; [|exact V]].
  - rewrite V. apply rnd_abs; [exact Hv|]. rewrite Rabs_pos_eq by apply sqrt_pos. rewrite <- (sqrt_square v Hp). apply sqrt_le_1_alt. lra.
  - rewrite V. apply rnd_pos. apply sqrt_pos.
Qed.

(** non-negative and bounded *)
Definition upto (b : R) (x : B64) : Prop := b64_fin x /\ 0 <= b64_val x <= b.
Lemma upto_within b x : upto b x -> within b x.
Proof. intros [H [H0 H1]]. split; [exact H|]. rewrite Rabs_pos_eq; lra. Qed.
Lemma square_upto a x : (2 * a <= 1023)%nat -> within (2 ^ a) x -> upto (2 ^ (2 * a)) (nmul (n := B64) x x).
Proof.
  intros Ha [Fx Hx]. assert (B : Rabs (b64_val x * b64_val x) <= 2 ^ (2 * a)).
  { rewrite Rabs_mult. replace (2 * a)%nat with (a + a)%nat by lia. rewrite <- pow_add. pose proof (Rabs_pos (b64_val x)). nra. }
  destruct (@mul_v x x (2 ^ (2 * a)) Fx Fx (fmt_pow _) (@pow_big _ Ha) B) as [[F W] V].
  split; [exact F|]. rewrite V. split; [apply rnd_pos; nra|]. rewrite <- V. exact (Rle_trans _ _ _ (Rle_abs _) W).
Qed.
Lemma add_upto x y a b c : upto a x -> upto b y -> a + b <= c -> fmt c -> c <= big -> upto c (nadd (n := B64) x y).
Proof.
  intros [Fx [Hx Hx']] [Fy [Hy Hy']] H Hc Hb. assert (B : Rabs (b64_val x + b64_val y) <= c) by (rewrite Rabs_pos_eq; lra).
  destruct (@add_v x y c Fx Fy Hc Hb B) as [[F W] V]. split; [exact F|]. rewrite V. split; [apply rnd_pos; lra|].
  rewrite <- V. exact (Rle_trans _ _ _ (Rle_abs _) W).
Qed.
Lemma sqrt_upto x a : upto (2 ^ (2 * a)) x -> upto (2 ^ a) (nsqrt (n := B64) x).
Proof.
  intros [F [H0 H1]]. destruct (@sqrt_v x (2 ^ a) (2 ^ (2 * a)) F H0 (fmt_pow a) (Rlt_le _ _ (pow_pos a)) H1) as [[F' W] [P _]].
  { rewrite pow_add. replace (a + a)%nat with (2 * a)%nat by lia. lra. }
  split; [exact F'|]. split; [exact P|]. exact (Rle_trans _ _ _ (Rle_abs _) W).
Qed.
Lemma upto_mono x a b : upto a x -> a <= b -> upto b x.
Proof. intros [F [H0 H1]] H. split; [exact F|lra]. Qed.
Lemma upto_0 b : 0 <= b -> upto b (n0 : B64).
Proof. intros H. split; [split; reflexivity|]. change (b64_val (n0 : B64)) with 0. lra. Qed.

Lemma three_upto a (x y z : B64) : (2 * a + 2 <= 1023)%nat -> within (2 ^ a) x -> within (2 ^ a) y -> within (2 ^ a) z ->
  upto (2 ^ (2 * a + 2)) (nsum (N := B64) [nmul x x; nmul y y; nmul z z]).
Proof.
  intros Ha Hx Hy Hz. apply square_upto in Hx, Hy, Hz; try lia. unfold nsum. cbn [fold_left].
  pose proof (pow_pos (2 * a)) as P. set (A := 2 ^ (2 * a)) in *.
  assert (E1 : 2 ^ (2 * a + 1) = 2 * A) by (rewrite <- pow_add; cbn [pow]; fold A; ring).
  assert (E2 : 2 ^ (2 * a + 2) = 4 * A) by (rewrite <- pow_add; cbn [pow]; fold A; ring).
  assert (H1 : upto A (nadd (n := B64) n0 (nmul x x))).
  { apply (@add_upto _ _ 0 A A); [apply upto_0; lra|exact Hx|lra|apply fmt_pow|apply pow_big; lia]. }
  assert (H2 : upto (2 ^ (2 * a + 1)) (nadd (n := B64) (nadd (n := B64) n0 (nmul x x)) (nmul y y))).
  { apply (@add_upto _ _ A A); [exact H1|exact Hy|lra|apply fmt_pow|apply pow_big; lia]. }
  apply (@add_upto _ _ (2 ^ (2 * a + 1)) A); [exact H2|exact Hz|lra|apply fmt_pow|apply pow_big; lia].
Qed.

Lemma moderate_pt p : moderate p -> upto (2 ^ 501) (fv_pt p) /\ within (2 ^ 500) (fv_x p) /\ within (2 ^ 500) (fv_y p) /\ within (2 ^ 500) (fv_z p).
Proof.
  intros (e & x & y & z & -> & He & Hx & Hy & Hz). cbn [fv_from update_pt fv_pt fv_x fv_y fv_z]. split; [|auto].
  apply sqrt_upto. apply square_upto in Hx, Hy; try lia.
  apply (@add_upto _ _ (2 ^ (2 * 500)) (2 ^ (2 * 500))); [exact Hx|exact Hy| |apply fmt_pow|apply pow_big; lia].
  rewrite pow_double. apply pow_mono. lia.
Qed.
Lemma moderate_not_nan p : moderate p -> mom_in not_nan p.
Proof.
  intros H. destruct (moderate_pt H) as (Hpt & Hx & Hy & Hz). destruct H as (e & x & y & z & -> & He & _).
  unfold mom_in. repeat apply Forall_cons; try apply Forall_nil; [|exact He| | |]; apply b64_fin_not_nan; [exact (proj1 Hpt)|exact (proj1 Hx)|exact (proj1 Hy)|exact (proj1 Hz)].
Qed.
Lemma moderate_new : moderate (@fv_new B64).
Proof.
  exists n0, n0, n0, n0. split; [reflexivity|]. split; [discriminate|].
  pose proof (pow_pos 500). repeat split; try (change (b64_val (n0 : B64)) with 0; rewrite Rabs_R0; lra).
Qed.

Section Tau.
Context (tau : B64) (Htau : within (2 ^ 9) tau).

Lemma tau_mul x a : (9 + a <= 1023)%nat -> within (2 ^ a) x -> within (2 ^ (9 + a)) (nmul (n := B64) tau x).
Proof.
  intros Ha [Fx Hx]. destruct Htau as [Ft Ht]. apply mul_v; [exact Ft|exact Fx|apply fmt_pow|apply pow_big; exact Ha|].
  rewrite Rabs_mult, <- pow_add. pose proof (Rabs_pos (b64_val tau)). pose proof (Rabs_pos (b64_val x)). pose proof (pow_pos 9). pose proof (pow_pos a). nra.
Qed.
Lemma sub_within x y a : (S a <= 1023)%nat -> within (2 ^ a) x -> within (2 ^ a) y -> within (2 ^ S a) (nsub (n := B64) x y).
Proof.
  intros Ha [Fx Hx] [Fy Hy]. apply sub_v; [exact Fx|exact Fy|apply fmt_pow|apply pow_big; exact Ha|].
  rewrite <- pow_double. unfold Rminus. eapply Rle_trans; [apply Rabs_triang|]. rewrite Rabs_Ropp. lra.
Qed.

Lemma pt_dist_upto p q : moderate p -> moderate q -> upto (2 ^ 512) (pt_dist p q tau).
Proof.
  intros Hp Hq. destruct (moderate_pt Hp) as (Pp & Px & Py & Pz), (moderate_pt Hq) as (Qp & Qx & Qy & Qz).
  unfold pt_dist, pt_dist_sq. apply sqrt_upto.
  assert (H1 : upto (2 ^ (2 * 501 + 2)) (spatial_norm_sq (fv_sub p q))).
  { unfold spatial_norm_sq, fv_sub. cbn [update_pt fv_x fv_y fv_z]. apply three_upto; [lia| | |]; apply sub_within; auto; lia. }
  assert (H2 : upto (2 ^ (2 * (9 + 502))) (nmul (n := B64) (nmul (n := B64) tau (nsub (n := B64) (fv_pt p) (fv_pt q))) (nmul (n := B64) tau (nsub (n := B64) (fv_pt p) (fv_pt q))))).
  { apply square_upto; [lia|]. apply tau_mul; [lia|]. apply sub_within; [lia| |]; apply upto_within; assumption. }
  eapply upto_mono; [|apply (@pow_mono 1023 (2 * 512)); lia].
  apply (@add_upto _ _ _ _ _ H1 H2); [|apply fmt_pow|apply pow_big; lia].
  apply Rle_trans with (2 ^ 1022 + 2 ^ 1022); [|rewrite pow_double; lra].
  apply Rplus_le_compat; apply pow_mono; lia.
Qed.
Lemma pt_norm_upto p : moderate p -> upto (2 ^ 512) (pt_norm p tau).
Proof.
  intros Hp. destruct (moderate_pt Hp) as (Pp & Px & Py & Pz). unfold pt_norm, pt_norm_sq. apply sqrt_upto.
  assert (H1 : upto (2 ^ (2 * 500 + 2)) (spatial_norm_sq p)) by (apply three_upto; [lia| | |]; assumption).
  assert (H2 : upto (2 ^ (2 * (9 + 501))) (nmul (n := B64) (nmul (n := B64) tau (fv_pt p)) (nmul (n := B64) tau (fv_pt p)))).
  { apply square_upto; [lia|]. apply tau_mul; [lia|]. apply upto_within; assumption. }
  eapply upto_mono; [|apply (@pow_mono 1023 (2 * 512)); lia].
  apply (@add_upto _ _ _ _ _ H1 H2); [|apply fmt_pow|apply pow_big; lia].
  apply Rle_trans with (2 ^ 1022 + 2 ^ 1022); [|rewrite pow_double; lra].
  apply Rplus_le_compat; apply pow_mono; lia.
Qed.

(** sums *)
Lemma sum_upto l : forall x k n, upto (INR k * 2 ^ n) x -> Forall (upto (2 ^ n)) l -> (Z.of_nat (k + length l) <= 2 ^ 53)%Z -> (n + 53 <= 1023)%nat ->
  upto (INR (k + length l) * 2 ^ n) (fold_left (nadd (n := B64)) l x).
Proof.
  induction l as [|y l IH]; intros x k n Hx Hl Hk Hn; cbn [fold_left length].
  - rewrite Nat.add_0_r. exact Hx.
  - inversion Hl as [|? ? Hy Hl']; subst. replace (k + S (length l))%nat with (S k + length l)%nat by lia.
    apply IH; [|exact Hl'|cbn [length] in Hk; lia|exact Hn].
    apply (@add_upto _ _ _ _ _ Hx Hy); [rewrite S_INR; lra|apply fmt_mult; cbn [length] in Hk; lia|].
    apply Rle_trans with (2 ^ 53 * 2 ^ n); [|rewrite pow_add; apply pow_big; lia].
    apply Rmult_le_compat_r; [apply Rlt_le, pow_pos|]. rewrite INR_IZR_INZ, <- bpow_pow.
    change (bpow radix2 (Z.of_nat 53)) with (IZR (2 ^ 53)). apply IZR_le. cbn [length] in Hk. lia.
Qed.
Lemma nsum_upto l n : Forall (upto (2 ^ n)) l -> (Z.of_nat (length l) <= 2 ^ 53)%Z -> (n + 53 <= 1023)%nat ->
  upto (INR (length l) * 2 ^ n) (nsum (N := B64) l).
Proof. intros H1 H2 H3. apply (@sum_upto l n0 0%nat n); [|exact H1|exact H2|exact H3]. apply upto_0. cbn. lra. Qed.

Lemma paired_upto P Q : Forall moderate P -> Forall moderate Q -> (Z.of_nat (length P) <= 2 ^ 53)%Z ->
  upto (INR (length P) * 2 ^ 512) (paired_distance tau P Q).
Proof.
  intros HP HQ HL. unfold paired_distance. set (l := map _ (combine P Q)).
  assert (Hl : (length l <= length P)%nat) by (unfold l; rewrite map_length, combine_length; lia).
  apply (@upto_mono _ (INR (length l) * 2 ^ 512)); [apply (@nsum_upto l 512); [|lia|lia]|].
  - unfold l. apply Forall_map. apply Forall_forall. intros [p q] Hin. cbn [fst snd]. rewrite Forall_forall in HP, HQ.
    apply pt_dist_upto; [apply HP; eapply in_combine_l; exact Hin|apply HQ; eapply in_combine_r; exact Hin].
  - apply Rmult_le_compat_r; [apply Rlt_le, pow_pos|]. apply le_INR. exact Hl.
Qed.
Lemma set_norm_upto P : Forall moderate P -> (Z.of_nat (length P) <= 2 ^ 53)%Z -> upto (INR (length P) * 2 ^ 512) (set_norm tau P).
Proof.
  intros HP HL. unfold set_norm. rewrite <- (map_length (fun p => pt_norm p tau) P) in *. apply nsum_upto; [|exact HL|lia].
  apply Forall_map. eapply Forall_impl; [|exact HP]. intros p. apply pt_norm_upto.
Qed.
End Tau.
