(** The tree search in machine arithmetic. *)
From Coq Require Import NArith ZArith Reals Lra SpecFloat.
From Flocq Require Import Core.Core.
From Verif Require Import Base BaseProofs Num ModelNaive ModelVPTree SpecSearch SpecTree RunProofs
  RunProofs2 VPTreeProofs VPTreeProofs2 UnlimitedProofs B64Proofs.
Local Open Scope R_scope.

Definition b64_metric (n : nat) (dist : nat -> nat -> B64) : Prop :=
  (forall i j, (i < n)%nat -> (j < n)%nat -> b64_fin (dist i j) /\ 0 <= b64_val (dist i j)) /\
  metric_on n (fun i j => b64_val (dist i j)).

Lemma b64_sub_dist x y : b64_fin x -> b64_fin y -> 0 <= b64_val x -> 0 <= b64_val y ->
  b64_fin (nsub (n := B64) x y) /\ b64_val (nsub (n := B64) x y) = b64_rnd (b64_val x - b64_val y).
Proof.
  intros Hx Hy Px Py. apply b64_sub; auto.
  pose proof (b64_bound _ Hx) as Bx. pose proof (b64_bound _ Hy) as By.
  rewrite Rabs_pos_eq in Bx, By by auto. apply Rabs_le. lra.
Qed.

Lemma prune_B64 n dist : b64_metric n dist -> prune_sound (F := B64) (fun i => (i < n)%nat) dist.
Proof.
  intros [Hf [Hsym Htri]] q v y z Hq Hv Hy Hz. cbv zeta.
  destruct (Hf q v Hq Hv) as [Fd Pd], (Hf v z Hv Hz) as [Fr Pr], (Hf q y Hq Hy) as [Fy Py],
    (Hf v y Hv Hy) as [Fvy Pvy].
  destruct (b64_sub_dist _ _ Fd Fr Pd Pr) as [F1 V1], (b64_sub_dist _ _ Fr Fd Pr Pd) as [F2 V2].
  destruct (b64_abs _ F1) as [A1 W1], (b64_abs _ F2) as [A2 W2].
  rewrite !b64_leb, b64_ltb by auto. rewrite W1, W2, V1, V2.
  pose proof (Htri q y v Hq Hy Hv) as T1. pose proof (Htri v q y Hv Hq Hy) as T2. cbn in T1, T2.
  rewrite (Hsym y v) in T1 by auto. rewrite (Hsym v q) in T2 by auto.
  assert (Hr : forall x, - b64_val (dist q y) <= x <= b64_val (dist q y) ->
     Rleb (Rabs (b64_rnd x)) (b64_val (dist q y)) = true).
  { intros x Hx. apply Rleb_true, round_abs; auto using b64_rnd_mono, b64_rnd_0, b64_rnd_val, b64_rnd_opp_val. }
  split; intros Hl Hb.
  - apply Rltb_true in Hl. apply Rleb_true in Hb. split; apply Hr; lra.
  - apply Rltb_false in Hl. apply Rleb_true in Hb. split; apply Hr; lra.
Qed.

Lemma tree_exact_B64 sort choose n (dist : nat -> nat -> B64) max q :
  sort_ok sort -> choose_ok choose -> b64_metric n dist -> not_nan max ->
  (N.of_nat n <= usize_max)%N -> (q < n)%nat ->
  exists l, tree_nearest (F := B64) sort choose n dist max q = Some l /\
    nearest_list (N := B64) n q (dist q) max l.
Proof.
  intros Hs Hc Hm Hx Hn Hq.
  apply (@tree_nearest_spec B64 not_nan B64_order sort Hs dist choose Hc (fun i => (i < n)%nat)); auto.
  - intros i j Hi Hj. apply b64_fin_not_nan. apply (proj1 Hm); auto.
  - intros a b c Ha Hb Hcc.
    destruct (proj1 Hm a b Ha Hb) as [F1 P1], (proj1 Hm b c Hb Hcc) as [F2 P2].
    destruct (b64_sub_dist _ _ F1 F2 P1 P2) as [G1 _], (b64_sub_dist _ _ F2 F1 P2 P1) as [G2 _].
    split; apply b64_fin_not_nan, b64_abs; auto.
  - apply prune_B64; auto.
Qed.

(** A limit that no distance exceeds: the search finds all points, also if the triangle inequality
    does not hold. *)
Lemma tree_unlimited_B64 sort choose n (dist : nat -> nat -> B64) max :
  sort_ok sort -> choose_ok choose -> (N.of_nat n <= usize_max)%N -> not_nan max ->
  (forall i j, (i < n)%nat -> (j < n)%nat -> b64_fin (dist i j) /\ 0 <= b64_val (dist i j) /\ nleb (dist i j) max = true) ->
  complete_search n (tree_nearest (F := B64) sort choose n dist max).
Proof.
  intros Hs Hc Hn Hmx Hd. apply (@tree_unlimited B64 not_nan); auto using B64_order.
  - intros i j Hi Hj. apply b64_fin_not_nan. apply Hd; auto.
  - intros i j Hi Hj. apply Hd; auto.
  - intros i j k Hi Hj Hk. destruct (Hd i j Hi Hj) as (F1 & P1 & M1), (Hd j k Hj Hk) as (F2 & P2 & M2).
    destruct (b64_sub_dist _ _ F1 F2 P1 P2) as [G1 V1]. destruct (b64_abs _ G1) as [A1 W1].
    destruct B64_order as [[_ Htr] _].
    destruct (Rle_dec (b64_val (dist i j)) (b64_val (dist j k))) as [Hle|Hle].
    + apply (Htr _ (dist j k) max); auto using b64_fin_not_nan. rewrite b64_leb, W1, V1 by auto.
      apply Rleb_true, round_abs; auto using b64_rnd_mono, b64_rnd_0, b64_rnd_val, b64_rnd_opp_val. lra.
    + apply (Htr _ (dist i j) max); auto using b64_fin_not_nan. rewrite b64_leb, W1, V1 by auto.
      apply Rleb_true, round_abs; auto using b64_rnd_mono, b64_rnd_0, b64_rnd_val, b64_rnd_opp_val. lra.
Qed.
