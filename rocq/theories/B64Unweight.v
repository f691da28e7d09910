(** Unweighting in binary64 *)
From Coq Require Import ZArith Reals Lra Lia SpecFloat.
From Flocq Require Import Core.Core IEEE754.BinarySingleNaN.
From Verif Require Import Base BaseProofs Num ModelEvent ModelUnweight ModelUnweight64 B64Proofs B64Errors B64Finite SpecMoments B64Distance SpecUnweight64.
Set Implicit Arguments.
Local Open Scope R_scope.
Local Existing Instance Hprec64.
Local Existing Instance Hmax64.

(** *** Without checks *)
Lemma omap_map A B (f : A -> option B) g l : (forall x, In x l -> f x = Some (g x)) -> omap f l = Some (map g l).
Proof. induction l as [|a l IH]; intros H; [reflexivity|]. cbn [omap map]. rewrite (H a (or_introl eq_refl)), IH; [reflexivity|]. intros x Hx. apply H. right. exact Hx. Qed.
Lemma omap_ext A B (f g : A -> option B) l : (forall x, In x l -> f x = g x) -> omap f l = omap g l.
Proof. induction l as [|a l IH]; intros H; [reflexivity|]. cbn [omap]. rewrite (H a (or_introl eq_refl)), IH; [reflexivity|]. intros x Hx. apply H. right. exact Hx. Qed.
Lemma omap_none A B (f : A -> option B) l x : In x l -> f x = None -> omap f l = None.
Proof.
  induction l as [|a l IH]; intros Hx H; [destruct Hx|]. cbn [omap]. destruct Hx as [->|Hx]; [rewrite H; reflexivity|].
  rewrite (IH Hx H). destruct (f a); reflexivity.
Qed.
Lemma rescale_unchecked (N : NumOps) (e : Event N) s : rescale_checked false e s = Some (rescale_weights e s).
Proof. unfold rescale_checked, rescale_weights. rewrite (@omap_map _ _ _ (fun w => nmul w s)); [reflexivity|]. intros w _. reflexivity. Qed.
Lemma lift_unchecked (N : NumOps) (m : N) e : lift_checked false m e = lift_weight m e.
Proof. unfold lift_checked, lift_weight. destruct (ev_weight e) as [w|]; [|reflexivity]. cbv zeta. destruct (nltb (nabs w) m); [|reflexivity]. cbn [checked andb]. apply rescale_unchecked. Qed.
Lemma unweight_unchecked (N : NumOps) psum (m : N) draws events : neqb (nsub m m) n0 = true ->
  unweight_checked false psum m draws events = unweight psum m draws events.
Proof.
  intros Hm. unfold unweight_checked, unweight, uniform_ok. rewrite Hm, Bool.andb_true_r. destruct (neqb m n0 || _); [reflexivity|].
  destruct (omap ev_weight events) as [wts|]; [|reflexivity]. cbn [checked andb]. destruct (negb (nltb n0 m)); [reflexivity|].
  destruct (retain_loop m draws 0 events) as [[kept k]|]; [|reflexivity].
  rewrite (@omap_ext _ _ _ (lift_weight m)) by (intros; apply lift_unchecked). destruct (omap (lift_weight m) kept) as [lifted|]; [|reflexivity].
  destruct (omap ev_weight lifted) as [wts'|]; [|reflexivity]. rewrite (@omap_map _ _ _ (fun e => rescale_weights e (ndiv (psum wts) (psum wts')))); [reflexivity|].
  intros e _. apply rescale_unchecked.
Qed.

(** *** Sums *)
Definition grid (x : R) : Prop := generic_format radix2 (FIX_exp (-152)) x.
Lemma grid_0 : grid 0.
Proof. apply generic_format_0. Qed.
Lemma grid_add x y : grid x -> grid y -> grid (b64_rnd (x + y)).
Proof.
  intros Hx Hy. apply generic_round_generic; [apply FIX_exp_valid|apply FLT_exp_valid; reflexivity|apply valid_rnd_N|].
  apply FIX_format_generic in Hx as [[n1 e1] -> E1]. apply FIX_format_generic in Hy as [[n2 e2] -> E2]. cbn [Fexp] in E1, E2. subst.
  apply generic_format_FIX. exists (Float radix2 (n1 + n2) (-152)); [|reflexivity]. unfold F2R. cbn [Fnum Fexp]. rewrite plus_IZR. ring.
Qed.
Lemma pow_inv n : / 2 ^ n = bpow radix2 (- Z.of_nat n).
Proof. rewrite bpow_opp, bpow_pow. reflexivity. Qed.
Lemma grid_large x : b64_fin x -> / 2 ^ 100 <= Rabs (b64_val x) -> grid (b64_val x).
Proof.
  intros Hf H. unfold grid. pose proof (@b64_val_format x Hf) as F. revert F. apply generic_inclusion_mag. intros H0.
  assert (M : (-99 <= mag radix2 (b64_val x))%Z).
  { rewrite (pow_inv 100) in H. change (- Z.of_nat 100)%Z with (-100)%Z in H. apply mag_ge_bpow. change (-99 - 1)%Z with (-100)%Z. exact H. }
  unfold FIX_exp, FLT_exp. lia.
Qed.
Lemma grid_small x : grid x -> x <> 0 -> / 2 ^ 152 <= Rabs x.
Proof.
  intros H H0. apply FIX_format_generic in H as [[n e] -> E]. cbn [Fexp] in E. subst e. unfold F2R in *. cbn [Fnum Fexp] in *.
  rewrite (pow_inv 152). change (- Z.of_nat 152)%Z with (-152)%Z. rewrite Rabs_mult, (Rabs_pos_eq (bpow _ _)) by apply bpow_ge_0.
  assert (n <> 0%Z) by (intros ->; apply H0; ring). rewrite <- abs_IZR. assert (1 <= IZR (Z.abs n)) by (apply IZR_le; lia). pose proof (bpow_ge_0 radix2 (-152)). nra.
Qed.

Lemma sum_within l x n : sum_of l x -> Forall (within (2 ^ n)) l -> (Z.of_nat (length l) <= 2 ^ 53)%Z -> (n + 53 <= 1023)%nat ->
  within (INR (length l) * 2 ^ n) x.
Proof.
  intros H. induction H as [|x|l1 l2 x y H1 IH1 H2 IH2]; intros Hf Hl Hn.
  - apply within_0. cbn. lra.
  - inversion Hf; subst. cbn [length INR]. rewrite Rmult_1_l. assumption.
  - apply Forall_app in Hf as [F1 F2]. rewrite app_length in *. specialize (IH1 F1 ltac:(lia) Hn) as [X1 X2]. specialize (IH2 F2 ltac:(lia) Hn) as [Y1 Y2].
    refine (proj1 (add_v X1 Y1 _ _ _)); [apply fmt_mult; exact Hl| |].
    + apply Rle_trans with (2 ^ 53 * 2 ^ n); [apply Rmult_le_compat_r; [apply Rlt_le, pow_pos|]|rewrite pow_add; apply pow_big; lia].
      rewrite INR_IZR_INZ. apply Rle_trans with (IZR (2 ^ 53)); [apply IZR_le; exact Hl|]. rewrite <- bpow_pow. change (IZR (2 ^ 53)) with (IZR (radix2 ^ 53)). rewrite IZR_Zpower by lia. apply Rle_refl.
    + rewrite plus_INR. pose proof (Rabs_triang (b64_val x) (b64_val y)). lra.
Qed.

Lemma sum_grid l x n : sum_of l x -> Forall (within (2 ^ n)) l -> Forall (fun w => grid (b64_val w)) l -> (Z.of_nat (length l) <= 2 ^ 53)%Z -> (n + 53 <= 1023)%nat ->
  grid (b64_val x).
Proof.
  intros H. induction H as [|x|l1 l2 x y H1 IH1 H2 IH2]; intros Hf Hg Hl Hn.
  - exact grid_0.
  - inversion Hg; subst. assumption.
  - apply Forall_app in Hf as [F1 F2]. apply Forall_app in Hg as [G1 G2]. pose proof Hl as Hl'. rewrite app_length in Hl'.
    pose proof (@sum_within _ _ n H1 F1 ltac:(lia) Hn) as [X1 X2]. pose proof (@sum_within _ _ n H2 F2 ltac:(lia) Hn) as [Y1 Y2].
    rewrite (proj2 (@add_v x y (INR (length l1 + length l2) * 2 ^ n) X1 Y1 ltac:(apply fmt_mult; lia)
      ltac:(apply Rle_trans with (2 ^ 53 * 2 ^ n); [apply Rmult_le_compat_r; [apply Rlt_le, pow_pos|rewrite INR_IZR_INZ; apply Rle_trans with (IZR (2 ^ 53)); [apply IZR_le; exact Hl'|
        rewrite <- bpow_pow; change (IZR (2 ^ 53)) with (IZR (radix2 ^ 53)); rewrite IZR_Zpower by lia; apply Rle_refl]]|rewrite pow_add; apply pow_big; lia])
      ltac:(rewrite plus_INR; pose proof (Rabs_triang (b64_val x) (b64_val y)); lra))).
    apply grid_add; [apply IH1|apply IH2]; auto; lia.
Qed.
(** sums of non-negative numbers are at least as large as each of them *)
Lemma sum_pos l x n : sum_of l x -> Forall (upto (2 ^ n)) l -> (Z.of_nat (length l) <= 2 ^ 53)%Z -> (n + 53 <= 1023)%nat ->
  0 <= b64_val x /\ Forall (fun w => b64_val w <= b64_val x) l /\ (Forall (fun w => b64_val w = 0) l -> b64_val x = 0).
Proof.
  intros H. induction H as [|x|l1 l2 x y H1 IH1 H2 IH2]; intros Hf Hl Hn.
  - change (b64_val n0) with 0. split; [lra|]. split; [apply Forall_nil|reflexivity].
  - inversion Hf as [|a b [A1 A2] B]; subst. split; [lra|]. split; [repeat constructor; lra|]. intros H. inversion H; assumption.
  - pose proof Hf as Hw. apply Forall_app in Hf as [F1 F2]. pose proof Hl as Hl'. rewrite app_length in Hl'.
    assert (W : forall l, Forall (upto (2 ^ n)) l -> Forall (within (2 ^ n)) l) by (intros l; apply Forall_impl; intros a; apply upto_within).
    pose proof (@sum_within _ _ n H1 (W _ F1) ltac:(lia) Hn) as [X1 X2]. pose proof (@sum_within _ _ n H2 (W _ F2) ltac:(lia) Hn) as [Y1 Y2].
    destruct (IH1 F1 ltac:(lia) Hn) as (P1 & Q1 & Z1). destruct (IH2 F2 ltac:(lia) Hn) as (P2 & Q2 & Z2).
    assert (V : b64_val (nadd (n := B64) x y) = b64_rnd (b64_val x + b64_val y)).
    { apply (proj2 (@add_v x y (INR (length l1 + length l2) * 2 ^ n) X1 Y1 ltac:(apply fmt_mult; lia)
      ltac:(apply Rle_trans with (2 ^ 53 * 2 ^ n); [apply Rmult_le_compat_r; [apply Rlt_le, pow_pos|rewrite INR_IZR_INZ; apply Rle_trans with (IZR (2 ^ 53)); [apply IZR_le; exact Hl'|
        rewrite <- bpow_pow; change (IZR (2 ^ 53)) with (IZR (radix2 ^ 53)); rewrite IZR_Zpower by lia; apply Rle_refl]]|rewrite pow_add; apply pow_big; lia])
      ltac:(rewrite plus_INR; pose proof (Rabs_triang (b64_val x) (b64_val y)); lra))). }
    rewrite V. assert (Lx : b64_val x <= b64_rnd (b64_val x + b64_val y)) by (rewrite <- (@b64_rnd_val x X1) at 1; apply b64_rnd_mono; lra).
    assert (Ly : b64_val y <= b64_rnd (b64_val x + b64_val y)) by (rewrite <- (@b64_rnd_val y Y1) at 1; apply b64_rnd_mono; lra).
    split; [lra|]. split.
    + apply Forall_app. split; [eapply Forall_impl; [|exact Q1]|eapply Forall_impl; [|exact Q2]]; intros a Ha; cbv beta in *; lra.
    + intros Hz. apply Forall_app in Hz as [Za Zb]. rewrite (Z1 Za), (Z2 Zb), Rplus_0_r. apply b64_rnd_0.
Qed.

(** *** Division *)
Lemma div_v x y v : b64_fin x -> b64_fin y -> b64_val y <> 0 -> fmt v -> v <= big -> Rabs (b64_val x / b64_val y) <= v ->
  within v (ndiv (n := B64) x y) /\ b64_val (ndiv (n := B64) x y) = b64_rnd (b64_val x / b64_val y).
Proof.
  intros Hx Hy H0 Hv Hb H. pose proof (b64_div Hx Hy H0 ltac:(lra)) as F.
  destruct (b64_div_inv (b64_fin_valid Hx) (b64_fin_valid Hy) H0) as [_ I]. pose proof (proj2 (I F)) as V.
  split; [split; [exact F|]|]; try rewrite V; try (apply rnd_abs; assumption). reflexivity.
Qed.
