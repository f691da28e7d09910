(** Rounding errors of the distance of two momenta. *)
From Coq Require Import ZArith Reals Lra Lia Permutation SpecFloat.
From Flocq Require Import Core.Core IEEE754.BinarySingleNaN.
From Verif Require Import Base BaseProofs Num ModelEvent ModelDistance SpecWeights SpecEvent SpecDistance B64Proofs B64Errors B64Finite SpecMoments DistanceProofs B64Distance.
From Coq Require Import List.
Import ListNotations.
Local Open Scope R_scope.
Set Implicit Arguments.

Notation eps := b64_eps.
Notation eta := b64_eta.

Lemma eps_small : eps <= / 1000000000.
Proof. unfold b64_eps. apply Rinv_le_contravar; [lra|]. assert (E : 2 ^ 53 = IZR (2 ^ 53)) by apply (pow_IZR 2 53). rewrite E. apply IZR_le. lia. Qed.

Lemma rnd_close y : Rabs (b64_rnd y - y) <= eps * Rabs y + eta.
Proof.
  destruct (b64_rnd_err y) as (d & e & Hd & He & ->). replace (y * (1 + d) + e - y) with (y * d + e) by ring.
  eapply Rle_trans; [apply Rabs_triang|]. rewrite Rabs_mult. pose proof (Rabs_pos y). nra.
Qed.

(** [x] is the non-negative number [r] up to [k] roundings *)
Definition close (k : R) (x : B64) (r : R) : Prop :=
  b64_fin x /\ 0 <= r /\ Rabs (b64_val x - r) <= k * (2 * eps * r + 2 * eta).

Lemma round_close k y r : 0 <= k <= 1000 -> 0 <= r -> Rabs (y - r) <= k * (2 * eps * r + 2 * eta) ->
  Rabs (b64_rnd y - r) <= (k + 1) * (2 * eps * r + 2 * eta).
Proof.
  intros Hk Hr H. pose proof (rnd_close y) as H1. pose proof eps_small as He. pose proof b64_eps_pos as He0. pose proof b64_eta_pos as Hn.
  replace (b64_rnd y - r) with ((b64_rnd y - y) + (y - r)) by ring.
  eapply Rle_trans; [apply Rabs_triang|].
  assert (Ry : Rabs y <= r + k * (2 * eps * r + 2 * eta)).
  { replace y with ((y - r) + r) by ring. eapply Rle_trans; [apply Rabs_triang|]. rewrite (Rabs_pos_eq r) by lra. lra. }
  assert (Q : eps * (k * (2 * eps * r + 2 * eta)) <= eps * r + eta).
  { assert (eps * k <= / 4) by nra. replace (eps * (k * (2 * eps * r + 2 * eta))) with ((eps * k) * (2 * eps * r + 2 * eta)) by ring.
    assert (0 <= 2 * eps * r + 2 * eta) by nra. nra. }
  assert (eps * Rabs y <= eps * r + eps * (k * (2 * eps * r + 2 * eta))) by nra. lra.
Qed.

Lemma square_close x : b64_fin x -> b64_fin (nmul (n := B64) x x) -> close 1 (nmul (n := B64) x x) (b64_val x ^ 2).
Proof.
  intros Fx F. destruct (b64_mul_inv (b64_fin_valid Fx) (b64_fin_valid Fx)) as [_ H]. destruct (H F) as (_ & _ & V).
  split; [exact F|]. split; [apply pow2_ge_0|]. rewrite V.
  replace 1 with (0 + 1) at 1 by ring. apply round_close; [lra|apply pow2_ge_0|]. replace (b64_val x * b64_val x - b64_val x ^ 2) with 0 by ring. rewrite Rabs_R0. lra.
Qed.

Lemma add_close j k x y r s : close j x r -> close k y s -> 0 <= j -> 0 <= k -> j + k <= 1000 -> b64_fin (nadd (n := B64) x y) ->
  close (j + k + 1) (nadd (n := B64) x y) (r + s).
Proof.
  intros (Fx & Hr & Hx) (Fy & Hs & Hy) Hj Hk Hjk F. destruct (b64_add_inv (b64_fin_valid Fx) (b64_fin_valid Fy)) as [_ H]. destruct (H F) as (_ & _ & V).
  split; [exact F|]. split; [lra|]. rewrite V. apply round_close; [lra|lra|].
  replace (b64_val x + b64_val y - (r + s)) with ((b64_val x - r) + (b64_val y - s)) by ring.
  eapply Rle_trans; [apply Rabs_triang|]. pose proof b64_eps_pos. pose proof b64_eta_pos.
  assert (0 <= j * (2 * eps * s)) by (apply Rmult_le_pos; nra). assert (0 <= k * (2 * eps * r)) by (apply Rmult_le_pos; nra). lra.
Qed.

Lemma zero_close : close 0 (n0 : B64) 0.
Proof. split; [split; reflexivity|]. split; [lra|]. change (b64_val (n0 : B64)) with 0. rewrite Rminus_0_r, Rabs_R0. lra. Qed.

(** square roots *)
Lemma sqrt_close x r k q : 0 <= x -> 0 <= r -> 0 <= q -> 0 <= k <= 1 -> Rabs (x - r) <= k * r + q ^ 2 ->
  Rabs (sqrt x - sqrt r) <= k * sqrt r + q.
Proof.
  intros Hx Hr Hq Hk H. apply Rabs_le_inv in H. pose proof (sqrt_pos r) as Ps. pose proof (sqrt_pos x) as Px.
  pose proof (sqrt_sqrt r Hr) as Er. set (s := sqrt r) in *.
  apply Rabs_le. split.
  - assert (s * (1 - k) - q <= sqrt x); [|lra].
    destruct (Rle_dec (s * (1 - k) - q) 0) as [Hn|Hn]; [lra|].
    apply Rsqr_incr_0_var; [|exact Px]. rewrite Rsqr_sqrt by lra. unfold Rsqr.
    apply Rle_trans with ((s * (1 - k) - q) * (s * (1 - k) + q)).
    + apply Rmult_le_compat_l; lra.
    + replace ((s * (1 - k) - q) * (s * (1 - k) + q)) with ((s * s) * ((1 - k) * (1 - k)) - q ^ 2) by ring. rewrite Er. nra.
  - assert (sqrt x <= s * (1 + k) + q); [|lra].
    assert (0 <= s * k) by nra. apply Rsqr_incr_0_var; [|lra]. rewrite Rsqr_sqrt by lra. unfold Rsqr.
    replace ((s * (1 + k) + q) * (s * (1 + k) + q)) with ((s * s) * ((1 + k) * (1 + k)) + 2 * q * (s + s * k) + q ^ 2) by ring. rewrite Er. nra.
Qed.

Section Scale.
(** the scale of the momenta, and a bound on the weight of the transverse momentum *)
Context (B T : R) (Blo : / 2 ^ 400 <= B) (Bhi : B <= 2 ^ 500) (T1 : 1 <= T) (T9 : T <= 2 ^ 9).

Lemma B_pos : 0 < B.
Proof. eapply Rlt_le_trans; [|exact Blo]. apply Rinv_0_lt_compat, pow_lt. lra. Qed.

Lemma tiny_root : exists q, 0 <= q /\ q <= eps * B /\ q ^ 2 = 32 * eta.
Proof.
  exists (/ 2 ^ 535). assert (P : forall n, 0 < / 2 ^ n) by (intros n; apply Rinv_0_lt_compat, pow_lt; lra).
  split; [apply Rlt_le, P|]. split.
  - apply Rle_trans with (eps * / 2 ^ 400); [|apply Rmult_le_compat_l; [apply Rlt_le, b64_eps_pos|exact Blo]].
    unfold b64_eps. rewrite <- Rinv_mult, B64Distance.pow_add. apply Rinv_le_contravar; [apply pow_lt; lra|]. apply Rle_pow; [lra|lia].
  - unfold b64_eta. change 1075%nat with (5 + (535 + 535))%nat. rewrite !Rdef_pow_add. replace (2 ^ 5) with 32 by ring.
    pose proof (pow_lt 2 535 ltac:(lra)). field; lra.
Qed.
Lemma eta_small : eta <= eps * B.
Proof.
  apply Rle_trans with (eps * / 2 ^ 400); [|apply Rmult_le_compat_l; [apply Rlt_le, b64_eps_pos|exact Blo]].
  unfold b64_eps, b64_eta. rewrite <- Rinv_mult, B64Distance.pow_add. apply Rinv_le_contravar; [apply pow_lt; lra|]. apply Rle_pow; [lra|lia].
Qed.

Lemma root_close k x r : 0 <= k <= 16 -> close k x r -> 0 <= b64_val x ->
  b64_fin (nsqrt (n := B64) x) /\ Rabs (b64_val (nsqrt (n := B64) x) - sqrt r) <= (k + 1) * (2 * eps) * sqrt r + 3 * (eps * B).
Proof.
  intros Hk (Fx & Hr & Hx) P. destruct (b64_sqrt Fx P) as [F V]. split; [exact F|]. rewrite V.
  destruct tiny_root as (q & Hq0 & Hq1 & Hq2). pose proof b64_eps_pos as He. pose proof eps_small as Hes. pose proof b64_eta_pos as Hn. pose proof B_pos as HB.
  assert (S1 : Rabs (sqrt (b64_val x) - sqrt r) <= (k * (2 * eps)) * sqrt r + q).
  { apply sqrt_close; auto; [nra|]. rewrite Hq2. eapply Rle_trans; [exact Hx|]. nra. }
  pose proof (rnd_close (sqrt (b64_val x))) as S2. pose proof (sqrt_pos r) as Ps. pose proof (sqrt_pos (b64_val x)) as Px.
  rewrite (Rabs_pos_eq _ Px) in S2.
  set (y := sqrt (b64_val x)) in *. set (s := sqrt r) in *.
  replace (b64_rnd y - s) with ((b64_rnd y - y) + (y - s)) by ring. eapply Rle_trans; [apply Rabs_triang|].
  pose proof eta_small as Hes2.
  assert (Y : y <= s + (k * (2 * eps)) * s + q). { apply Rabs_le_inv in S1. lra. }
  assert (k * (2 * eps) <= / 2) by nra.
  assert (Y2 : y <= 2 * s + q). { assert (k * (2 * eps) * s <= / 2 * s) by (apply Rmult_le_compat_r; lra). lra. }
  assert (eps * y <= 2 * eps * s + eps * q). { apply Rle_trans with (eps * (2 * s + q)); [apply Rmult_le_compat_l; lra|lra]. }
  assert (q <= B * / 2). { assert (eps * B <= / 2 * B) by (apply Rmult_le_compat_r; lra). lra. }
  assert (eps * q <= eps * (B * / 2)) by (apply Rmult_le_compat_l; lra).
  assert (0 <= eps * B) by nra.
  enough (k * (2 * eps) * s + q + (2 * eps * s + eps * q + eta) <= (k + 1) * (2 * eps) * s + 3 * (eps * B)) by lra.
  lra.
Qed.
End Scale.
