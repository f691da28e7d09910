(** Rounding errors of the distance of two momenta, continued. *)
From Coq Require Import ZArith Reals Lra Lia Permutation SpecFloat.
From Flocq Require Import Core.Core IEEE754.BinarySingleNaN Plus_error Relative.
From Verif Require Import Base BaseProofs Num ModelEvent ModelDistance SpecWeights SpecEvent SpecDistance B64Proofs B64Errors B64Finite SpecMoments SpecAccuracy DistanceProofs B64Distance DistAccuracy.
From Coq Require Import List.
Import ListNotations.
Local Open Scope R_scope.
Set Implicit Arguments.

Lemma sub_rel x y : b64_fin x -> b64_fin y -> Rabs (b64_val x - b64_val y) <= big ->
  Rabs (b64_val (nsub (n := B64) x y) - (b64_val x - b64_val y)) <= eps * Rabs (b64_val x - b64_val y).
Proof.
  intros Fx Fy H. destruct (b64_sub x y Fx Fy H) as [_ V]. rewrite V. unfold Rminus at 2.
  destruct (@FLT_plus_error_N_ex radix2 (-1074) 53 eq_refl (fun x => negb (Z.even x)) (b64_val x) (- b64_val y)) as (d & Hd & E).
  - apply b64_val_format; auto.
  - apply generic_format_opp, b64_val_format; auto.
  - change (b64_rnd (b64_val x + - b64_val y)) with (round radix2 (FLT_exp (-1074) 53) ZnearestE (b64_val x + - b64_val y)).
    rewrite E. replace ((b64_val x + - b64_val y) * (1 + d) - (b64_val x - b64_val y)) with (d * (b64_val x - b64_val y)) by ring.
    rewrite Rabs_mult. apply Rmult_le_compat_r; [apply Rabs_pos|]. eapply Rle_trans; [exact Hd|apply u_ro_eps].
Qed.

Lemma mul_abs x y : b64_fin x -> b64_fin y -> b64_fin (nmul (n := B64) x y) ->
  Rabs (b64_val (nmul (n := B64) x y) - b64_val x * b64_val y) <= eps * Rabs (b64_val x * b64_val y) + eta.
Proof.
  intros Fx Fy F. destruct (b64_mul_inv (b64_fin_valid Fx) (b64_fin_valid Fy)) as [_ H]. destruct (H F) as (_ & _ & ->). apply rnd_close.
Qed.

(** *** Norms of four numbers *)
Definition norm4 (a b c e : R) : R := sqrt (a ^ 2 + b ^ 2 + c ^ 2 + e ^ 2).

Lemma norm4_le a b c e : norm4 a b c e <= Rabs a + Rabs b + Rabs c + Rabs e.
Proof.
  pose proof (Rabs_pos a). pose proof (Rabs_pos b). pose proof (Rabs_pos c). pose proof (Rabs_pos e).
  unfold norm4. apply Rsqr_incr_0_var; [|lra]. pose proof (pow2_ge_0 a). pose proof (pow2_ge_0 b). pose proof (pow2_ge_0 c). pose proof (pow2_ge_0 e).
  rewrite Rsqr_sqrt by lra. rewrite <- (pow2_abs a), <- (pow2_abs b), <- (pow2_abs c), <- (pow2_abs e). unfold Rsqr.
  set (a' := Rabs a) in *. set (b' := Rabs b) in *. set (c' := Rabs c) in *. set (e' := Rabs e) in *.
  assert (0 <= a' * b' /\ 0 <= a' * c' /\ 0 <= a' * e' /\ 0 <= b' * c' /\ 0 <= b' * e' /\ 0 <= c' * e') by (repeat split; apply Rmult_le_pos; lra). nra.
Qed.

Lemma norm4_near a b c e a' b' c' e' :
  Rabs (norm4 a b c e - norm4 a' b' c' e') <= Rabs (a - a') + Rabs (b - b') + Rabs (c - c') + Rabs (e - e').
Proof.
  pose proof (minkowski a' b' c' e' (a - a') (b - b') (c - c') (e - e')) as H1.
  pose proof (minkowski a b c e (a' - a) (b' - b) (c' - c) (e' - e)) as H2.
  replace (a' + (a - a')) with a in H1 by ring. replace (b' + (b - b')) with b in H1 by ring. replace (c' + (c - c')) with c in H1 by ring. replace (e' + (e - e')) with e in H1 by ring.
  replace (a + (a' - a)) with a' in H2 by ring. replace (b + (b' - b)) with b' in H2 by ring. replace (c + (c' - c)) with c' in H2 by ring. replace (e + (e' - e)) with e' in H2 by ring.
  fold (norm4 a b c e) (norm4 a' b' c' e') (norm4 (a - a') (b - b') (c - c') (e - e')) in H1.
  fold (norm4 a b c e) (norm4 a' b' c' e') (norm4 (a' - a) (b' - b) (c' - c) (e' - e)) in H2.
  pose proof (norm4_le (a - a') (b - b') (c - c') (e - e')). pose proof (norm4_le (a' - a) (b' - b) (c' - c) (e' - e)) as H3.
  rewrite (Rabs_minus_sym a' a), (Rabs_minus_sym b' b), (Rabs_minus_sym c' c), (Rabs_minus_sym e' e) in H3.
  apply Rabs_le. lra.
Qed.

Lemma four_close (x y z w : B64) : b64_fin x -> b64_fin y -> b64_fin z -> b64_fin w ->
  let s := nadd (n := B64) (nsum (N := B64) [nmul x x; nmul y y; nmul z z]) (nmul w w) in
  b64_fin s -> close 8 s (b64_val x ^ 2 + b64_val y ^ 2 + b64_val z ^ 2 + b64_val w ^ 2) /\ 0 <= b64_val s.
Proof.
  intros Fx Fy Fz Fw s F. unfold s, nsum in *. cbn [fold_left] in *.
  assert (VM : forall a : B64, b64_fin a -> b64_valid (nmul (n := B64) a a)).
  { intros a Fa. exact (proj1 (b64_mul_inv (b64_fin_valid Fa) (b64_fin_valid Fa))). }
  pose proof (VM x Fx) as Vx. pose proof (VM y Fy) as Vy. pose proof (VM z Fz) as Vz. pose proof (VM w Fw) as Vw. clear VM.
  assert (V0 : b64_valid (n0 : B64)) by reflexivity.
  set (xx := nmul (n := B64) x x) in *. set (yy := nmul (n := B64) y y) in *. set (zz := nmul (n := B64) z z) in *. set (ww := nmul (n := B64) w w) in *.
  pose proof (proj1 (b64_add_inv V0 Vx)) as V1. set (s1 := nadd (n := B64) n0 xx) in *.
  pose proof (proj1 (b64_add_inv V1 Vy)) as V2. set (s2 := nadd (n := B64) s1 yy) in *.
  pose proof (proj1 (b64_add_inv V2 Vz)) as V3. set (s3 := nadd (n := B64) s2 zz) in *.
  destruct (proj2 (b64_add_inv V3 Vw) F) as (F3 & Fww & E4).
  destruct (proj2 (b64_add_inv V2 Vz) F3) as (F2 & Fzz & E3).
  destruct (proj2 (b64_add_inv V1 Vy) F2) as (F1 & Fyy & E2).
  destruct (proj2 (b64_add_inv V0 Vx) F1) as (F0 & Fxx & E1).
  fold s1 in E1. fold s2 in E2. fold s3 in E3.
  pose proof (square_close Fx Fxx) as Cx. pose proof (square_close Fy Fyy) as Cy. pose proof (square_close Fz Fzz) as Cz. pose proof (square_close Fw Fww) as Cw.
  fold xx in Cx. fold yy in Cy. fold zz in Cz. fold ww in Cw.
  assert (C1 : close 2 s1 (b64_val x ^ 2)). { replace 2 with (0 + 1 + 1) by ring. replace (b64_val x ^ 2) with (0 + b64_val x ^ 2) by ring. apply add_close; auto using zero_close; lra. }
  assert (C2 : close 4 s2 (b64_val x ^ 2 + b64_val y ^ 2)). { replace 4 with (2 + 1 + 1) by ring. apply add_close; auto; lra. }
  assert (C3 : close 6 s3 (b64_val x ^ 2 + b64_val y ^ 2 + b64_val z ^ 2)). { replace 6 with (4 + 1 + 1) by ring. apply add_close; auto; lra. }
  split.
  - replace 8 with (6 + 1 + 1) by ring. apply add_close; auto; lra.
  - assert (PM : forall a aa : B64, b64_fin a -> aa = nmul (n := B64) a a -> b64_fin aa -> 0 <= b64_val aa).
    { intros a aa Fa -> Faa. destruct (b64_mul_inv (b64_fin_valid Fa) (b64_fin_valid Fa)) as [_ H]. destruct (H Faa) as (_ & _ & ->).
      apply rnd_pos. apply Rle_trans with (b64_val a ^ 2); [apply pow2_ge_0|lra]. }
    pose proof (PM x xx Fx eq_refl Fxx). pose proof (PM y yy Fy eq_refl Fyy). pose proof (PM z zz Fz eq_refl Fzz). pose proof (PM w ww Fw eq_refl Fww).
    change (b64_val (n0 : B64)) with 0 in E1.
    rewrite E4. apply rnd_pos. apply Rplus_le_le_0_compat; auto. rewrite E3. apply rnd_pos. apply Rplus_le_le_0_compat; auto.
    rewrite E2. apply rnd_pos. apply Rplus_le_le_0_compat; auto. rewrite E1. apply rnd_pos. lra.
Qed.

Lemma two_close (x y : B64) : b64_fin x -> b64_fin y ->
  let s := nadd (n := B64) (nmul x x) (nmul y y) in
  b64_fin s -> close 3 s (b64_val x ^ 2 + b64_val y ^ 2) /\ 0 <= b64_val s.
Proof.
  intros Fx Fy s F. unfold s in *.
  pose proof (proj1 (b64_mul_inv (b64_fin_valid Fx) (b64_fin_valid Fx))) as Vx. pose proof (proj1 (b64_mul_inv (b64_fin_valid Fy) (b64_fin_valid Fy))) as Vy.
  destruct (proj2 (b64_add_inv Vx Vy) F) as (Fxx & Fyy & E).
  split.
  - replace 3 with (1 + 1 + 1) by ring. apply add_close; auto using square_close; lra.
  - assert (PM : forall a : B64, b64_fin a -> b64_fin (nmul (n := B64) a a) -> 0 <= b64_val (nmul (n := B64) a a)).
    { intros a Fa Faa. destruct (b64_mul_inv (b64_fin_valid Fa) (b64_fin_valid Fa)) as [_ H]. destruct (H Faa) as (_ & _ & ->).
      apply rnd_pos. apply Rle_trans with (b64_val a ^ 2); [apply pow2_ge_0|lra]. }
    rewrite E. apply rnd_pos. apply Rplus_le_le_0_compat; auto.
Qed.

Section Momenta.
Context (B T : R) (Blo : / 2 ^ 400 <= B) (Bhi : B <= 2 ^ 500) (T1 : 1 <= T) (T9 : T <= 2 ^ 9).
Context (tau : B64) (Ftau : b64_fin tau) (Htau : Rabs (b64_val tau) <= T).

Lemma within_mono' x a b : within a x -> a <= b -> within b x.
Proof. intros [F H] L. split; [exact F|lra]. Qed.

Lemma mom_moderate p : mom_upto B p -> moderate p.
Proof. intros (e & x & y & z & E & He & Hx & Hy & Hz). exists e, x, y, z. repeat split; auto; try apply Hx; try apply Hy; try apply Hz; eapply Rle_trans; try exact Bhi; [apply Hx|apply Hy|apply Hz]. Qed.

Lemma tau_within : within (2 ^ 9) tau.
Proof. split; [exact Ftau|lra]. Qed.

(** the transverse momentum *)
Lemma pt_close p : mom_upto B p ->
  Rabs (b64_val (fv_pt p) - pt_of (real_mom p)) <= 15 * (eps * B) /\ 0 <= pt_of (real_mom p) <= 3 / 2 * B.
Proof.
  intros Hp. pose proof (moderate_pt (mom_moderate Hp)) as (Upt & _). destruct Hp as (e & x & y & z & -> & He & [Fx Hx] & [Fy Hy] & [Fz Hz]).
  unfold pt_of, real_mom. cbn [fv_from update_pt fv_pt fv_x fv_y fv_z fv_e] in *.
  pose proof (B_pos Blo) as HB. pose proof b64_eps_pos as He0.
  assert (Fs : b64_fin (nadd (n := B64) (nmul x x) (nmul y y))).
  { assert (W : forall a : B64, b64_fin a -> Rabs (b64_val a) <= B -> upto (2 ^ (2 * 500)) (nmul (n := B64) a a)).
    { intros a Fa Ha. apply square_upto; [lia|]. split; [exact Fa|lra]. }
    apply (@add_upto _ _ (2 ^ (2 * 500)) (2 ^ (2 * 500)) (2 ^ (2 * 501))); auto; [|apply fmt_pow|apply pow_big; lia].
    rewrite pow_double. apply pow_mono. lia. }
  destruct (two_close Fx Fy Fs) as [C P].
  destruct (root_close Blo (k := 3) ltac:(lra) C P) as [_ R].
  replace (b64_val x * b64_val x + b64_val y * b64_val y) with (b64_val x ^ 2 + b64_val y ^ 2) by ring.
  assert (Q : sqrt (b64_val x ^ 2 + b64_val y ^ 2) <= 3 / 2 * B).
  { apply Rsqr_incr_0_var; [|lra]. rewrite Rsqr_sqrt by (pose proof (pow2_ge_0 (b64_val x)); pose proof (pow2_ge_0 (b64_val y)); lra).
    rewrite <- (pow2_abs (b64_val x)), <- (pow2_abs (b64_val y)). unfold Rsqr. pose proof (Rabs_pos (b64_val x)). pose proof (Rabs_pos (b64_val y)). nra. }
  split; [|split; [apply sqrt_pos|exact Q]].
  eapply Rle_trans; [exact R|]. set (s := sqrt _) in *. assert (eps * s <= eps * (3 / 2 * B)) by (apply Rmult_le_compat_l; lra). lra.
Qed.

(** A number near the real number [r] *)
Definition mom_near (d : B64) (r : R) : Prop :=
  b64_fin d /\ 0 <= b64_val d /\ 0 <= r <= 15 / 2 * (T * B) /\ Rabs (b64_val d - r) <= 200 * (eps * (T * B)).

Lemma eTB : 0 < eps * B /\ eps * B <= eps * (T * B) /\ 0 < T * B /\ B <= T * B /\ eps * (eps * (T * B)) <= / 1000000 * (eps * (T * B)).
Proof.
  pose proof (B_pos Blo) as HB. pose proof b64_eps_pos as He0. pose proof eps_small as Hes.
  assert (B <= T * B) by nra. assert (0 < T * B) by nra. assert (0 < eps * (T * B)) by nra.
  repeat split; try nra.
Qed.

Lemma norm_near x y z w s a b c e : b64_fin x -> b64_fin y -> b64_fin z -> b64_fin w ->
  s = nadd (n := B64) (nsum (N := B64) [nmul x x; nmul y y; nmul z z]) (nmul w w) -> b64_fin s ->
  Rabs (b64_val x - a) <= 2 * (eps * B) -> Rabs (b64_val y - b) <= 2 * (eps * B) -> Rabs (b64_val z - c) <= 2 * (eps * B) ->
  Rabs (b64_val w - e) <= 35 * (eps * (T * B)) ->
  Rabs a <= 2 * B -> Rabs b <= 2 * B -> Rabs c <= 2 * B -> Rabs e <= 3 / 2 * (T * B) ->
  mom_near (nsqrt (n := B64) s) (norm4 a b c e).
Proof.
  intros Fx Fy Fz Fw Es Fs Dx Dy Dz Dw Ha Hb Hc He. destruct eTB as (E1 & E2 & E3 & E4 & E5). pose proof (B_pos Blo) as HB. pose proof b64_eps_pos as He0. pose proof eps_small as Hes.
  subst s. destruct (four_close Fx Fy Fz Fw Fs) as [C P].
  destruct (root_close Blo (k := 8) ltac:(lra) C P) as [Fr R]. fold (norm4 (b64_val x) (b64_val y) (b64_val z) (b64_val w)) in R.
  pose proof (norm4_near (b64_val x) (b64_val y) (b64_val z) (b64_val w) a b c e) as D.
  pose proof (norm4_le a b c e) as L. set (n1 := norm4 (b64_val x) _ _ _) in *. set (n2 := norm4 a b c e) in *.
  assert (D' : Rabs (n1 - n2) <= 41 * (eps * (T * B))) by lra.
  assert (Pn : 0 <= n2) by apply sqrt_pos.
  assert (L1 : n1 <= 8 * (T * B)). { apply Rabs_le_inv in D'. assert (41 * (eps * (T * B)) <= / 2 * (T * B)) by nra. lra. }
  split; [exact Fr|]. split; [|split; [lra|]].
  - destruct (b64_sqrt (proj1 C) P) as [_ ->]. apply rnd_pos, sqrt_pos.
  - match goal with |- Rabs (?v - n2) <= _ => replace (v - n2) with ((v - n1) + (n1 - n2)) by ring end.
    eapply Rle_trans; [apply Rabs_triang|]. assert (eps * n1 <= eps * (8 * (T * B))) by (apply Rmult_le_compat_l; lra). lra.
Qed.

Lemma pt_dist_near p q : mom_upto B p -> mom_upto B q -> mom_near (pt_dist p q tau) (mom_dist (b64_val tau) (real_mom p) (real_mom q)).
Proof.
  intros Hp Hq. destruct (pt_close Hp) as [Cp Bp], (pt_close Hq) as [Cq Bq].
  pose proof (pt_dist_upto tau_within (mom_moderate Hp) (mom_moderate Hq)) as U.
  destruct (moderate_pt (mom_moderate Hp)) as (Upt & Mx & My & Mz), (moderate_pt (mom_moderate Hq)) as (Vpt & Nx & Ny & Nz).
  destruct eTB as (E1 & E2 & E3 & E4 & E5). pose proof (B_pos Blo) as HB. pose proof b64_eps_pos as He0. pose proof eps_small as Hes. pose proof (eta_small Blo) as Het.
  assert (Wp : within B (fv_x p) /\ within B (fv_y p) /\ within B (fv_z p)) by (destruct Hp as (? & ? & ? & ? & -> & _ & ? & ? & ?); auto).
  assert (Wq : within B (fv_x q) /\ within B (fv_y q) /\ within B (fv_z q)) by (destruct Hq as (? & ? & ? & ? & -> & _ & ? & ? & ?); auto).
  destruct Wp as (Px & Py & Pz), Wq as (Qx & Qy & Qz).
  assert (S : forall x y : B64, within B x -> within B y -> b64_fin (nsub (n := B64) x y) /\
    Rabs (b64_val (nsub (n := B64) x y) - (b64_val x - b64_val y)) <= 2 * (eps * B) /\ Rabs (b64_val x - b64_val y) <= 2 * B).
  { intros x y [Fx Hx] [Fy Hy]. assert (A : Rabs (b64_val x - b64_val y) <= 2 * B).
    { unfold Rminus. eapply Rle_trans; [apply Rabs_triang|]. rewrite Rabs_Ropp. lra. }
    assert (G : Rabs (b64_val x - b64_val y) <= big). { eapply Rle_trans; [exact A|]. apply Rle_trans with (2 ^ 501); [|apply pow_big; lia]. rewrite <- (pow_double 500). lra. }
    split; [exact (proj1 (b64_sub x y Fx Fy G))|]. split; [|exact A]. eapply Rle_trans; [apply sub_rel; auto|]. nra. }
  destruct (S _ _ Px Qx) as (Fx & Dx & Ax), (S _ _ Py Qy) as (Fy & Dy & Ay), (S _ _ Pz Qz) as (Fz & Dz & Az).
  pose proof (sub_within (a := 501) ltac:(lia) (upto_within Upt) (upto_within Vpt)) as [Fd Hd].
  assert (Gd : Rabs (b64_val (fv_pt p) - b64_val (fv_pt q)) <= big).
  { destruct Upt as [_ Upt], Vpt as [_ Vpt]. pose proof (@pow_big 501 ltac:(lia)). apply Rabs_le. lra. }
  pose proof (sub_rel (proj1 Upt) (proj1 Vpt) Gd) as Dd.
  set (dpt := nsub (n := B64) (fv_pt p) (fv_pt q)) in *.
  set (P := pt_of (real_mom p)) in *. set (Q := pt_of (real_mom q)) in *.
  assert (D1 : Rabs ((b64_val (fv_pt p) - b64_val (fv_pt q)) - (P - Q)) <= 30 * (eps * B)).
  { replace (b64_val (fv_pt p) - b64_val (fv_pt q) - (P - Q)) with ((b64_val (fv_pt p) - P) + - (b64_val (fv_pt q) - Q)) by ring.
    eapply Rle_trans; [apply Rabs_triang|]. rewrite Rabs_Ropp. lra. }
  assert (APQ : Rabs (P - Q) <= 3 / 2 * B) by (apply Rabs_le; lra).
  assert (A1 : Rabs (b64_val (fv_pt p) - b64_val (fv_pt q)) <= 2 * B).
  { replace (b64_val (fv_pt p) - b64_val (fv_pt q)) with (((b64_val (fv_pt p) - b64_val (fv_pt q)) - (P - Q)) + (P - Q)) by ring.
    eapply Rle_trans; [apply Rabs_triang|]. assert (30 * (eps * B) <= / 2 * B) by nra. lra. }
  assert (D2 : Rabs (b64_val dpt - (P - Q)) <= 32 * (eps * B)).
  { replace (b64_val dpt - (P - Q)) with ((b64_val dpt - (b64_val (fv_pt p) - b64_val (fv_pt q))) + ((b64_val (fv_pt p) - b64_val (fv_pt q)) - (P - Q))) by ring.
    eapply Rle_trans; [apply Rabs_triang|]. assert (eps * Rabs (b64_val (fv_pt p) - b64_val (fv_pt q)) <= eps * (2 * B)) by (apply Rmult_le_compat_l; lra). lra. }
  assert (A2 : Rabs (b64_val dpt) <= 2 * B).
  { replace (b64_val dpt) with ((b64_val dpt - (P - Q)) + (P - Q)) by ring. eapply Rle_trans; [apply Rabs_triang|]. assert (32 * (eps * B) <= / 2 * B) by nra. lra. }
  destruct (tau_mul tau_within (a := 502) ltac:(lia) (conj Fd Hd)) as [Fw _].
  pose proof (mul_abs Ftau Fd Fw) as Dm. set (w := nmul (n := B64) tau dpt) in *.
  assert (A3 : Rabs (b64_val tau * b64_val dpt) <= 2 * (T * B)).
  { rewrite Rabs_mult. pose proof (Rabs_pos (b64_val tau)). pose proof (Rabs_pos (b64_val dpt)). nra. }
  assert (D3 : Rabs (b64_val w - b64_val tau * (P - Q)) <= 35 * (eps * (T * B))).
  { replace (b64_val w - b64_val tau * (P - Q)) with ((b64_val w - b64_val tau * b64_val dpt) + b64_val tau * (b64_val dpt - (P - Q))) by ring.
    eapply Rle_trans; [apply Rabs_triang|]. rewrite (Rabs_mult (b64_val tau)).
    assert (Rabs (b64_val tau) * Rabs (b64_val dpt - (P - Q)) <= T * (32 * (eps * B))) by (apply Rmult_le_compat; auto using Rabs_pos).
    assert (eps * Rabs (b64_val tau * b64_val dpt) <= eps * (2 * (T * B))) by (apply Rmult_le_compat_l; lra). lra. }
  assert (A4 : Rabs (b64_val tau * (P - Q)) <= 3 / 2 * (T * B)).
  { rewrite Rabs_mult. pose proof (Rabs_pos (b64_val tau)). pose proof (Rabs_pos (P - Q)). nra. }
  replace (mom_dist (b64_val tau) (real_mom p) (real_mom q)) with
    (norm4 (b64_val (fv_x p) - b64_val (fv_x q)) (b64_val (fv_y p) - b64_val (fv_y q)) (b64_val (fv_z p) - b64_val (fv_z q)) (b64_val tau * (P - Q))).
  2:{ unfold norm4, mom_dist. fold P Q. unfold real_mom. cbn [fv_from update_pt fv_x fv_y fv_z]. f_equal. ring. }
  assert (Fs : b64_fin (pt_dist_sq p q tau)).
  { unfold pt_dist_sq. cbv zeta.
    assert (H1 : upto (2 ^ (2 * 501 + 2)) (spatial_norm_sq (fv_sub p q))).
    { unfold spatial_norm_sq, fv_sub. cbn [update_pt fv_x fv_y fv_z]. apply three_upto; [lia| | |]; apply sub_within; auto; lia. }
    assert (H2 : upto (2 ^ (2 * (9 + 502))) (nmul (n := B64) w w)).
    { apply square_upto; [lia|]. apply (tau_mul tau_within); [lia|]. split; auto. }
    apply (@add_upto _ _ _ _ (2 ^ 1023) H1 H2); [|apply fmt_pow|apply pow_big; lia].
    apply Rle_trans with (2 ^ 1022 + 2 ^ 1022); [|rewrite pow_double; lra].
    apply Rplus_le_compat; apply pow_mono; lia. }
  unfold pt_dist. apply (@norm_near _ _ _ w (pt_dist_sq p q tau) _ _ _ _ Fx Fy Fz Fw eq_refl Fs Dx Dy Dz D3 Ax Ay Az A4).
Qed.

Lemma pt_norm_near p : mom_upto B p -> mom_near (pt_norm p tau) (mom_dist (b64_val tau) (real_mom p) zero_mom).
Proof.
  intros Hp. destruct (pt_close Hp) as [Cp Bp].
  destruct (moderate_pt (mom_moderate Hp)) as (Upt & Mx & My & Mz).
  destruct eTB as (E1 & E2 & E3 & E4 & E5). pose proof (B_pos Blo) as HB. pose proof b64_eps_pos as He0. pose proof eps_small as Hes. pose proof (eta_small Blo) as Het.
  assert (Wp : within B (fv_x p) /\ within B (fv_y p) /\ within B (fv_z p)) by (destruct Hp as (? & ? & ? & ? & -> & _ & ? & ? & ?); auto).
  destruct Wp as ([Fx Px] & [Fy Py] & [Fz Pz]).
  set (P := pt_of (real_mom p)) in *.
  assert (A2 : Rabs (b64_val (fv_pt p)) <= 2 * B).
  { replace (b64_val (fv_pt p)) with ((b64_val (fv_pt p) - P) + P) by ring. eapply Rle_trans; [apply Rabs_triang|]. rewrite (Rabs_pos_eq P) by lra.
    assert (15 * (eps * B) <= / 2 * B) by nra. lra. }
  destruct (tau_mul tau_within (a := 501) ltac:(lia) (upto_within Upt)) as [Fw Hw].
  pose proof (mul_abs Ftau (proj1 Upt) Fw) as Dm. set (w := nmul (n := B64) tau (fv_pt p)) in *.
  assert (A3 : Rabs (b64_val tau * b64_val (fv_pt p)) <= 2 * (T * B)).
  { rewrite Rabs_mult. pose proof (Rabs_pos (b64_val tau)). pose proof (Rabs_pos (b64_val (fv_pt p))). nra. }
  assert (D3 : Rabs (b64_val w - b64_val tau * P) <= 35 * (eps * (T * B))).
  { replace (b64_val w - b64_val tau * P) with ((b64_val w - b64_val tau * b64_val (fv_pt p)) + b64_val tau * (b64_val (fv_pt p) - P)) by ring.
    eapply Rle_trans; [apply Rabs_triang|]. rewrite (Rabs_mult (b64_val tau) (b64_val (fv_pt p) - P)).
    assert (Rabs (b64_val tau) * Rabs (b64_val (fv_pt p) - P) <= T * (15 * (eps * B))) by (apply Rmult_le_compat; auto using Rabs_pos).
    assert (eps * Rabs (b64_val tau * b64_val (fv_pt p)) <= eps * (2 * (T * B))) by (apply Rmult_le_compat_l; lra). lra. }
  assert (A4 : Rabs (b64_val tau * P) <= 3 / 2 * (T * B)).
  { rewrite Rabs_mult, (Rabs_pos_eq P) by lra. pose proof (Rabs_pos (b64_val tau)). nra. }
  replace (mom_dist (b64_val tau) (real_mom p) zero_mom) with (norm4 (b64_val (fv_x p)) (b64_val (fv_y p)) (b64_val (fv_z p)) (b64_val tau * P)).
  2:{ unfold norm4, mom_dist. fold P. rewrite <- zero_physical. unfold real_mom, zero_mom. cbn [fv_from update_pt fv_x fv_y fv_z fv_pt]. f_equal. ring. }
  assert (Fs : b64_fin (pt_norm_sq p tau)).
  { unfold pt_norm_sq. cbv zeta.
    assert (H1 : upto (2 ^ (2 * 500 + 2)) (spatial_norm_sq p)) by (apply three_upto; [lia| | |]; assumption).
    assert (H2 : upto (2 ^ (2 * (9 + 501))) (nmul (n := B64) w w)).
    { apply square_upto; [lia|]. split; auto. }
    apply (@add_upto _ _ _ _ (2 ^ 1023) H1 H2); [|apply fmt_pow|apply pow_big; lia].
    apply Rle_trans with (2 ^ 1022 + 2 ^ 1022); [|rewrite pow_double; lra].
    apply Rplus_le_compat; apply pow_mono; lia. }
  assert (Z0 : forall r, Rabs (r - r) <= 2 * (eps * B)) by (intros r; rewrite Rminus_diag_eq by reflexivity; rewrite Rabs_R0; lra).
  unfold pt_norm. apply (@norm_near _ _ _ w (pt_norm_sq p tau) _ _ _ _ Fx Fy Fz Fw eq_refl Fs (Z0 _) (Z0 _) (Z0 _) D3); lra.
Qed.
End Momenta.
