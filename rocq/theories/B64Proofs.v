(** The binary64 operations of [Num.B64] compute correctly rounded results; uses Flocq. *)
From Coq Require Import ZArith Reals Lra SpecFloat.
From Flocq Require Import Core.Core IEEE754.BinarySingleNaN.
From Verif Require Import Base Num.

Local Open Scope R_scope.

(** A finite binary64 number, and the real number it stands for. *)
Definition b64_fin (x : B64) : Prop := valid_binary prec64 emax64 x = true /\ is_finite_SF x = true.
Definition b64_val (x : B64) : R := SF2R radix2 x.

(** Round to nearest even, unbounded exponent range above, gradual underflow. *)
Definition b64_rnd (x : R) : R := round radix2 (FLT_exp (-1074) 53) ZnearestE x.

Local Instance Hprec64 : FLX.Prec_gt_0 prec64 := eq_refl.
Local Instance Hmax64 : Prec_lt_emax prec64 emax64 := eq_refl.

Notation b64 := (binary_float prec64 emax64).

Lemma b64_lift (x : B64) : b64_fin x -> exists b : b64, B2SF b = x /\ is_finite b = true /\ B2R b = b64_val x.
Proof.
  intros [Hv Hf]. exists (SF2B x Hv). rewrite B2SF_SF2B, is_finite_SF2B, B2R_SF2B. auto.
Qed.

Lemma b64_drop (b : b64) : is_finite b = true -> b64_fin (B2SF b) /\ b64_val (B2SF b) = B2R b.
Proof.
  intros H. split; [split|].
  - apply valid_binary_B2SF.
  - rewrite is_finite_SF_B2SF. auto.
  - unfold b64_val. apply SF2R_B2SF.
Qed.

Lemma round_nearest_even_eq s m l : round_nearest_even m l = choice_mode mode_NE s m l.
Proof.
  case l; [reflexivity|intro c]. case c; [ | reflexivity..].
  now simpl; unfold Round.cond_incr; case Z.even.
Qed.

Lemma binary_round_aux_eq sx mx ex lx :
  SpecFloat.binary_round_aux prec64 emax64 sx mx ex lx
  = binary_round_aux prec64 emax64 mode_NE sx mx ex lx.
Proof.
  unfold SpecFloat.binary_round_aux, binary_round_aux.
  set (mrse' := shr_fexp _ _ _). case mrse'; intros mrs' e'; simpl.
  now rewrite (round_nearest_even_eq sx).
Qed.

Lemma binary_round_eq s m e :
  SpecFloat.binary_round prec64 emax64 s m e = binary_round prec64 emax64 mode_NE s m e.
Proof.
  unfold SpecFloat.binary_round, binary_round, shl_align_fexp.
  set (mez := shl_align _ _ _); case mez as [mz ez]. apply binary_round_aux_eq.
Qed.

Lemma binary_normalize_eq m e szero :
  SpecFloat.binary_normalize prec64 emax64 m e szero
  = B2SF (binary_normalize prec64 emax64 _ _ mode_NE m e szero).
Proof.
  case m as [ | p | p]; [reflexivity| |]; simpl; rewrite B2SF_SF2B; apply binary_round_eq.
Qed.

Lemma SFsub_eq (x y : b64) :
  SFsub prec64 emax64 (B2SF x) (B2SF y) = B2SF (Bminus mode_NE x y).
Proof.
  destruct x as [sx|sx| |sx mx ex Bx]; destruct y as [sy|sy| |sy my ey By];
    [now (trivial || simpl; case Bool.eqb).. | ].
  simpl. unfold Zminus. rewrite <- cond_Zopp_negb. apply binary_normalize_eq.
Qed.

Lemma SFadd_eq (x y : b64) :
  SFadd prec64 emax64 (B2SF x) (B2SF y) = B2SF (Bplus mode_NE x y).
Proof.
  destruct x as [sx|sx| |sx mx ex Bx]; destruct y as [sy|sy| |sy my ey By];
    [now (trivial || simpl; case Bool.eqb).. | ].
  apply binary_normalize_eq.
Qed.

Lemma SFmul_eq (x y : b64) :
  SFmul prec64 emax64 (B2SF x) (B2SF y) = B2SF (Bmult mode_NE x y).
Proof.
  destruct x as [sx|sx| |sx mx ex Bx]; destruct y as [sy|sy| |sy my ey By]; [now trivial.. | ].
  simpl. rewrite B2SF_SF2B. apply binary_round_aux_eq.
Qed.

Lemma SFdiv_eq (x y : b64) :
  SFdiv prec64 emax64 (B2SF x) (B2SF y) = B2SF (Bdiv mode_NE x y).
Proof.
  destruct x as [sx|sx| |sx mx ex Bx]; destruct y as [sy|sy| |sy my ey By];
    [now (trivial || simpl; case Bool.eqb).. | ].
  simpl. rewrite B2SF_SF2B. set (melz := SFdiv_core_binary _ _ _ _ _ _).
  case melz as [[mz ez] lz]. apply binary_round_aux_eq.
Qed.

Lemma SFabs_eq (x : b64) : SFabs (B2SF x) = B2SF (Babs x).
Proof. now destruct x. Qed.

Lemma SFcompare_eq (x y : b64) : SFcompare (B2SF x) (B2SF y) = Bcompare x y.
Proof. now destruct x, y. Qed.

Lemma b64_leb x y : b64_fin x -> b64_fin y -> nleb (n := B64) x y = Rleb (b64_val x) (b64_val y).
Proof.
  intros Hx Hy. destruct (b64_lift _ Hx) as (a & <- & Fa & <-), (b64_lift _ Hy) as (b & <- & Fb & <-).
  cbn [nleb B64]. unfold SFleb. rewrite SFcompare_eq, Bcompare_correct by auto.
  unfold Rleb. destruct (Rle_dec (B2R a) (B2R b)); destruct (Rcompare_spec (B2R a) (B2R b)); auto; lra.
Qed.

Lemma b64_ltb x y : b64_fin x -> b64_fin y -> nltb (n := B64) x y = Rltb (b64_val x) (b64_val y).
Proof.
  intros Hx Hy. destruct (b64_lift _ Hx) as (a & <- & Fa & <-), (b64_lift _ Hy) as (b & <- & Fb & <-).
  cbn [nltb B64]. unfold SFltb. rewrite SFcompare_eq, Bcompare_correct by auto.
  unfold Rltb. destruct (Rlt_dec (B2R a) (B2R b)); destruct (Rcompare_spec (B2R a) (B2R b)); auto; lra.
Qed.

Lemma b64_abs x : b64_fin x -> b64_fin (nabs (n := B64) x) /\ b64_val (nabs (n := B64) x) = Rabs (b64_val x).
Proof.
  intros Hx. destruct (b64_lift _ Hx) as (a & <- & Fa & <-). cbn [nabs B64]. rewrite SFabs_eq.
  destruct (b64_drop (Babs a)) as [H1 H2]; [rewrite is_finite_Babs; auto|].
  rewrite H2, B2R_Babs. auto.
Qed.

Lemma b64_rnd_mono x y : x <= y -> b64_rnd x <= b64_rnd y.
Proof. intros. apply round_le; auto. apply FLT_exp_valid. reflexivity. apply valid_rnd_N. Qed.

Lemma b64_rnd_0 : b64_rnd 0 = 0.
Proof. apply round_0. apply valid_rnd_N. Qed.

Lemma b64_val_format x : b64_fin x -> generic_format radix2 (FLT_exp (-1074) 53) (b64_val x).
Proof.
  intros H. destruct (b64_lift _ H) as (a & _ & _ & <-). apply (generic_format_B2R prec64 emax64).
Qed.

Lemma b64_rnd_val x : b64_fin x -> b64_rnd (b64_val x) = b64_val x.
Proof. intros H. apply round_generic; [apply valid_rnd_N|]. apply b64_val_format; auto. Qed.

Lemma b64_rnd_opp_val x : b64_fin x -> b64_rnd (- b64_val x) = - b64_val x.
Proof. intros H. apply round_generic; [apply valid_rnd_N|]. apply generic_format_opp, b64_val_format; auto. Qed.

(** Largest finite magnitude. *)
Lemma b64_bound x : b64_fin x -> Rabs (b64_val x) <= bpow radix2 1024 - bpow radix2 971.
Proof.
  intros H. destruct (b64_lift _ H) as (a & _ & _ & <-). apply (abs_B2R_le_emax_minus_prec prec64 emax64 _ a).
Qed.

Lemma b64_big_format : exists b : B64, b64_fin b /\ b64_val b = bpow radix2 1024 - bpow radix2 971.
Proof.
  exists b64_max. split; [split; reflexivity|].
  unfold b64_val, b64_max, SF2R, F2R. cbn [Fnum Fexp cond_Zopp].
  replace (bpow radix2 1024) with (bpow radix2 53 * bpow radix2 971) by (rewrite <- bpow_plus; reflexivity).
  replace (bpow radix2 53) with (IZR (2 ^ 53)) by reflexivity.
  replace (IZR (Z.pos (2 ^ 53 - 1))) with (IZR (2 ^ 53) - 1) by (rewrite <- minus_IZR; reflexivity).
  ring.
Qed.

Lemma b64_no_overflow z : Rabs z <= bpow radix2 1024 - bpow radix2 971 -> Rabs (b64_rnd z) < bpow radix2 1024.
Proof.
  intros Hz. destruct b64_big_format as (b & Hb & Eb). rewrite <- Eb in Hz.
  apply Rabs_def2b in Hz || apply Rabs_le_inv in Hz.
  assert (H : Rabs (b64_rnd z) <= b64_val b).
  { apply Rabs_le. split.
    - rewrite <- (b64_rnd_opp_val b Hb). apply b64_rnd_mono; lra.
    - rewrite <- (b64_rnd_val b Hb). apply b64_rnd_mono; lra. }
  rewrite Eb in H. pose proof (bpow_gt_0 radix2 971). lra.
Qed.

Lemma b64_sub x y : b64_fin x -> b64_fin y ->
  Rabs (b64_val x - b64_val y) <= bpow radix2 1024 - bpow radix2 971 ->
  b64_fin (nsub (n := B64) x y) /\ b64_val (nsub (n := B64) x y) = b64_rnd (b64_val x - b64_val y).
Proof.
  intros Hx Hy Hb. destruct (b64_lift _ Hx) as (a & <- & Fa & Ea), (b64_lift _ Hy) as (b & <- & Fb & Eb).
  rewrite <- Ea, <- Eb in *. cbn [nsub B64]. rewrite SFsub_eq.
  pose proof (Bminus_correct prec64 emax64 _ _ mode_NE a b Fa Fb) as H.
  rewrite Rlt_bool_true in H by (apply b64_no_overflow; auto).
  destruct H as (H1 & H2 & _). destruct (b64_drop _ H2) as [H3 H4]. split; auto.
  rewrite H4. exact H1.
Qed.

Lemma b64_add x y : b64_fin x -> b64_fin y ->
  Rabs (b64_val x + b64_val y) <= bpow radix2 1024 - bpow radix2 971 ->
  b64_fin (nadd (n := B64) x y) /\ b64_val (nadd (n := B64) x y) = b64_rnd (b64_val x + b64_val y).
Proof.
  intros Hx Hy Hb. destruct (b64_lift _ Hx) as (a & <- & Fa & Ea), (b64_lift _ Hy) as (b & <- & Fb & Eb).
  rewrite <- Ea, <- Eb in *. cbn [nadd B64]. rewrite SFadd_eq.
  pose proof (Bplus_correct prec64 emax64 _ _ mode_NE a b Fa Fb) as H.
  rewrite Rlt_bool_true in H by (apply b64_no_overflow; auto).
  destruct H as (H1 & H2 & _). destruct (b64_drop _ H2) as [H3 H4]. split; auto.
  rewrite H4. exact H1.
Qed.

Lemma b64_fin_not_nan x : b64_fin x -> not_nan x.
Proof. intros [_ H] ->. discriminate. Qed.

Lemma b64_of_Z_val z : (Z.abs z <= 2 ^ 53)%Z -> b64_fin (b64_of_Z z) /\ b64_val (b64_of_Z z) = IZR z.
Proof.
  intros Hz. unfold b64_of_Z. rewrite binary_normalize_eq.
  assert (Hg : generic_format radix2 (FLT_exp (-1074) 53) (IZR z)).
  { destruct (Z.eq_dec (Z.abs z) (2 ^ 53)) as [E|E].
    - assert (z = 2 ^ 53 \/ z = - 2 ^ 53)%Z as [-> | ->] by lia.
      + change (IZR (2 ^ 53)) with (bpow radix2 53). apply generic_format_bpow. reflexivity || (cbn; lia).
      + rewrite opp_IZR. apply generic_format_opp.
        change (IZR (2 ^ 53)) with (bpow radix2 53). apply generic_format_bpow. reflexivity || (cbn; lia).
    - apply generic_format_FLT. exists (Float radix2 z 0); cbn [Fnum Fexp].
      + unfold F2R. cbn. ring.
      + change (radix2 ^ 53)%Z with (2 ^ 53)%Z. lia.
      + lia. }
  pose proof (binary_normalize_correct prec64 emax64 _ _ mode_NE z 0 false) as H.
  assert (E0 : F2R (Float radix2 z 0) = IZR z) by (unfold F2R; cbn; ring).
  cbv zeta in H. rewrite E0 in H.
  assert (Er : round radix2 (SpecFloat.fexp prec64 emax64) (round_mode mode_NE) (IZR z) = IZR z)
    by (apply round_generic; [apply valid_rnd_N|exact Hg]).
  rewrite Er in H. rewrite Rlt_bool_true in H.
  - destruct H as (H1 & H2 & _). destruct (b64_drop _ H2) as [H3 H4]. split; auto. rewrite H4. exact H1.
  - rewrite <- abs_IZR. apply Rle_lt_trans with (IZR (2 ^ 53)); [apply IZR_le; auto|].
    change (IZR (2 ^ 53)) with (bpow radix2 53). apply bpow_lt. reflexivity.
Qed.
