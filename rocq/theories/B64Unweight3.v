(** Unweighting in binary64: the result *)
From Coq Require Import ZArith Reals Lra Lia SpecFloat.
From Flocq Require Import Core.Core IEEE754.BinarySingleNaN.
From Verif Require Import Base BaseProofs Num ModelEvent ModelUnweight ModelUnweight64 B64Proofs B64Errors B64Finite SpecMoments B64Distance SpecUnweight64
  B64Unweight B64Unweight2.
Set Implicit Arguments.
Local Open Scope R_scope.

Lemma nil_or_in A (l : list A) : l = [] \/ exists e, In e l.
Proof. destruct l as [|a l]; [left; reflexivity|right; exists a; left; reflexivity]. Qed.

Section Result.
Context (psum : list B64 -> B64) (m : B64) (draws : nat -> B64) (events : list (Event B64)).
Hypothesis Hsum : forall l, sum_of l (psum l).
Hypothesis Hm1 : within (2 ^ 100) m.
Hypothesis Hm2 : / 2 ^ 100 <= b64_val m.
Hypothesis Ht : Forall tame_weights events.
Hypothesis Hne : events <> [].
Hypothesis Hlen : (Z.of_nat (length events) <= 2 ^ 53)%Z.
Hypothesis Hd : forall i, b64_fin (draws i) /\ 0 <= b64_val (draws i).

Lemma uniform_fine : uniform_ok (N := B64) m = true.
Proof.
  unfold uniform_ok. rewrite (@b64_ltb n0 m) by (try (split; reflexivity); exact (proj1 Hm1)). change (b64_val n0) with 0.
  rewrite (proj2 (Rltb_true _ _) (@m_pos m Hm2)). cbn [andb].
  destruct (@sub_v m m 1 (proj1 Hm1) (proj1 Hm1)) as [F V]; [apply (fmt_pow 0)|apply (pow_big (n := 0)); lia|rewrite Rminus_diag_eq by reflexivity; rewrite Rabs_R0; lra|].
  rewrite Rminus_diag_eq, b64_rnd_0 in V by reflexivity. destruct (zero_form (proj1 F) V) as [s E]. rewrite E. destruct s; reflexivity.
Qed.
Lemma m_not_zero : neqb (n := B64) m n0 = false.
Proof.
  destruct (nonzero_form (proj1 Hm1)) as (s & p & e & E); [pose proof (@m_pos m Hm2); lra|]. rewrite E. destruct s; reflexivity.
Qed.

Context (kept : list (Event B64)) (k : nat).
Hypothesis Hret : retain_loop (N := B64) m draws 0 events = Some (kept, k).
Hypothesis Hpart : part_of events kept.
Hypothesis Hnz : Forall (fun e => b64_val (central_weight e) <> 0) kept.

Definition before : B64 := psum (map central_weight events).
Definition total : B64 := psum (map (raised m) (map central_weight kept)).
Let L := map (lifted m) kept.

Lemma kept_tame e : In e kept -> tame_weights e /\ b64_val (central_weight e) <> 0.
Proof. intros He. rewrite Forall_forall in Ht, Hnz. split; [apply Ht; exact (part_in Hpart _ He)|apply Hnz; exact He]. Qed.
Lemma kept_length : (Z.of_nat (length kept) <= 2 ^ 53)%Z.
Proof. pose proof (part_length Hpart). lia. Qed.

Lemma before_within : within (2 ^ 153) before.
Proof.
  unfold before. eapply within_mono; [apply (@sum_within _ _ 100 (Hsum _)); [|rewrite map_length; exact Hlen|lia]|].
  - apply Forall_forall. intros w Hw. apply in_map_iff in Hw as (e & <- & He). apply tame_central. rewrite Forall_forall in Ht. apply Ht. exact He.
  - rewrite map_length. replace (2 ^ 153) with (2 ^ 53 * 2 ^ 100) by (rewrite pow_add; reflexivity). apply Rmult_le_compat_r; [apply Rlt_le, pow_pos|].
    rewrite INR_IZR_INZ. apply Rle_trans with (IZR (2 ^ 53)); [apply IZR_le; exact Hlen|]. rewrite <- bpow_pow. change (IZR (2 ^ 53)) with (IZR (radix2 ^ 53)).
    rewrite IZR_Zpower by lia. apply Rle_refl.
Qed.
Lemma raised_central : map (raised m) (map central_weight kept) = map central_weight L.
Proof. unfold L. rewrite !map_map. apply map_ext_in. intros e He. destruct (kept_tame _ He) as [A B]. symmetry. apply (lift_ok Hm1 Hm2 true A B). Qed.
Lemma raised_within : Forall (within (2 ^ 300)) (map central_weight L) /\ Forall (fun w => grid (b64_val w)) (map central_weight L).
Proof.
  split; apply Forall_forall; intros w Hw; apply in_map_iff in Hw as (e' & <- & He); unfold L in He; apply in_map_iff in He as (e & <- & He);
    destruct (kept_tame _ He) as [A B]; destruct (lift_ok Hm1 Hm2 true A B) as (_ & _ & _ & C & _ & D & E & _).
  - unfold central_weight at 1. destruct (ev_weights (lifted m e)); [contradiction|]. inversion D; assumption.
  - apply grid_large; [|exact E]. unfold central_weight at 1. destruct (ev_weights (lifted m e)); [contradiction|]. inversion D as [|a b [X _]]. exact X.
Qed.
Lemma total_fin : b64_fin total.
Proof.
  unfold total. rewrite raised_central. refine (proj1 (@sum_within _ _ 300 (Hsum _) (proj1 raised_within) _ _)); [|lia].
  unfold L. rewrite !map_length. exact kept_length.
Qed.
Lemma total_size : b64_val total <> 0 -> / 2 ^ 152 <= Rabs (b64_val total).
Proof.
  apply grid_small. unfold total. rewrite raised_central. refine (@sum_grid _ _ 300 (Hsum _) (proj1 raised_within) (proj2 raised_within) _ _); [|lia].
  unfold L. rewrite !map_length. exact kept_length.
Qed.

Lemma reduce checks : unweight_checked checks psum m draws events =
  match checked checks (ndiv (n := B64) before total) with
  | None => None
  | Some r => match omap (fun e => rescale_checked checks e r) L with Some out => Some (out, k) | None => None end
  end.
Proof.
  unfold unweight_checked. rewrite m_not_zero. cbn [orb]. destruct (Nat.eqb_spec (length events) 0) as [E|E]; [destruct events; [contradiction|discriminate]|].
  rewrite weights_central by (eapply Forall_impl; [|exact Ht]; intros e He; exact (proj1 He)). fold before.
  rewrite (checked_fin checks (proj1 before_within)), uniform_fine. cbn [negb]. rewrite Hret.
  rewrite (@omap_map _ _ _ (lifted m)) by (intros e He; destruct (kept_tame _ He) as [A B]; apply (lift_ok Hm1 Hm2 checks A B)). fold L.
  rewrite weights_central.
  - rewrite <- raised_central. fold total. rewrite (checked_fin checks total_fin). reflexivity.
  - apply Forall_forall. intros e' He. unfold L in He. apply in_map_iff in He as (e & <- & He). destruct (kept_tame _ He) as [A B]. apply (lift_ok Hm1 Hm2 checks A B).
Qed.
Lemma L_weights e' w : In e' L -> In w (ev_weights e') -> within (2 ^ 300) w.
Proof.
  intros He Hw. unfold L in He. apply in_map_iff in He as (e & <- & He). destruct (kept_tame _ He) as [A B].
  destruct (lift_ok Hm1 Hm2 true A B) as (_ & _ & _ & _ & _ & D & _). rewrite Forall_forall in D. apply D. exact Hw.
Qed.

Let r := ndiv (n := B64) before total.
(** The raised weights do not cancel. *)
Lemma regular : b64_val total <> 0 -> b64_fin r /\ forall e' w, In e' L -> In w (ev_weights e') -> b64_fin (nmul (n := B64) w r).
Proof.
  intros H0. destruct before_within as [Fb Bb]. pose proof (total_size H0) as Hs. pose proof (inv_pos 152) as Hi. pose proof (pow_pos 152) as Hp.
  assert (Hr : within (2 ^ 305) r).
  { refine (proj1 (@div_v before total (2 ^ 305) Fb total_fin H0 (fmt_pow 305) (pow_big (n := 305) ltac:(lia)) _)).
    unfold Rdiv. rewrite Rabs_mult, Rabs_inv. replace (2 ^ 305) with (2 ^ 153 * 2 ^ 152) by (rewrite pow_add; reflexivity).
    apply Rmult_le_compat; [apply Rabs_pos| |exact Bb|].
    - apply Rlt_le, Rinv_0_lt_compat. lra.
    - rewrite <- (Rinv_inv (2 ^ 152)). apply Rinv_le_contravar; [exact Hi|exact Hs]. }
  split; [exact (proj1 Hr)|]. intros e' w He Hw. destruct (L_weights _ _ He Hw) as [Fw Bw].
  refine (proj1 (proj1 (@mul_v w r (2 ^ 605) Fw (proj1 Hr) (fmt_pow 605) (pow_big (n := 605) ltac:(lia)) _))).
  rewrite Rabs_mult. replace (2 ^ 605) with (2 ^ 300 * 2 ^ 305) by (rewrite pow_add; reflexivity). apply Rmult_le_compat; try apply Rabs_pos; [exact Bw|exact (proj2 Hr)].
Qed.
(** They do. *)
Lemma irregular : b64_val total = 0 -> (b64_val before = 0 -> r = S754_nan) /\ (b64_val before <> 0 -> exists s, r = S754_infinity s).
Proof.
  intros H0. destruct (zero_form total_fin H0) as [s E]. unfold r. rewrite E. split; intros Hb.
  - destruct (zero_form (proj1 before_within) Hb) as [s' E']. rewrite E'. reflexivity.
  - destruct (nonzero_form (proj1 before_within) Hb) as (s' & p & e & E'). rewrite E'. cbn [ndiv B64 SFdiv]. eauto.
Qed.
Lemma times_irregular w : b64_fin w -> b64_val total = 0 -> ~ b64_fin (nmul (n := B64) w r) /\
  (b64_val before <> 0 -> (neqb (n := B64) (nmul (n := B64) w r) (nmul (n := B64) w r) = false <-> b64_val w = 0)).
Proof.
  intros Fw H0. destruct (irregular H0) as [I1 I2]. destruct (Req_dec (b64_val before) 0) as [Hb|Hb].
  - rewrite (I1 Hb). split; [|contradiction]. intros [_ H]. destruct w; discriminate.
  - destruct (I2 Hb) as [s E]. rewrite E. split; [intros [_ H]; destruct Fw as [_ Fw]; destruct w; discriminate|]. intros _.
    destruct (Req_dec (b64_val w) 0) as [Hw|Hw].
    + destruct (zero_form Fw Hw) as [s' ->]. split; [intros _; exact Hw|reflexivity].
    + destruct (nonzero_form Fw Hw) as (s' & p & e & ->). split; [|contradiction]. rewrite eqb_refl. discriminate.
Qed.

Definition results : list (Event B64) := map (fun e => rescale_weights e r) L.
Lemma unchecked_result : unweight_checked false psum m draws events = Some (results, k).
Proof.
  rewrite reduce. cbn [checked andb]. rewrite (@omap_map _ _ _ (fun e => rescale_weights e r)); [reflexivity|]. intros e _. apply rescale_unchecked.
Qed.
Lemma finite_result : Forall finite_weights results <-> kept = [] \/ b64_val total <> 0.
Proof.
  split.
  - intros H. destruct (Req_dec (b64_val total) 0) as [H0|H0]; [|right; exact H0]. left. destruct (nil_or_in kept) as [Ek|[e He]]; [exact Ek|]. exfalso.
    rewrite Forall_forall in H. specialize (H (rescale_weights (lifted m e) r)).
    assert (Hl : In (lifted m e) L) by (unfold L; apply in_map; exact He).
    assert (Hr : In (rescale_weights (lifted m e) r) results) by (unfold results; apply in_map_iff; eauto).
    specialize (H Hr). unfold finite_weights, rescale_weights in H. cbn [ev_weights] in H.
    assert (Hw : ev_weights (lifted m e) <> []).
    { assert (A : tame_weights e /\ b64_val (central_weight e) <> 0) by (apply kept_tame; exact He). destruct A as [A B]. apply (lift_ok Hm1 Hm2 true A B). }
    destruct (ev_weights (lifted m e)) as [|w ws] eqn:Ew; [contradiction|]. inversion H as [|a b X Y]; subst.
    refine (proj1 (@times_irregular w _ H0) X). refine (proj1 (@L_weights _ w Hl _)). rewrite Ew. left. reflexivity.
  - intros [H|H].
    + unfold results, L. rewrite H. apply Forall_nil.
    + destruct (regular H) as [_ R]. apply Forall_forall. intros e He. unfold results in He. apply in_map_iff in He as (e' & <- & He).
      unfold finite_weights, rescale_weights. cbn [ev_weights]. apply Forall_forall. intros w Hw. apply in_map_iff in Hw as (w' & <- & Hw). eapply R; eauto.
Qed.
Lemma checked_result : (unweight_checked true psum m draws events = None <->
    b64_val total = 0 /\ (b64_val before = 0 \/ Exists zero_weight kept)) /\
  (unweight_checked true psum m draws events = None \/ unweight_checked true psum m draws events = Some (results, k)).
Proof.
  rewrite reduce. fold r. destruct (Req_dec (b64_val total) 0) as [H0|H0].
  - destruct (irregular H0) as [I1 I2]. destruct (Req_dec (b64_val before) 0) as [Hb|Hb].
    + rewrite (I1 Hb). split; [split; [intros _; split; [exact H0|left; exact Hb]|reflexivity]|left; reflexivity].
    + destruct (I2 Hb) as [s Er]. assert (Hc : checked true r = Some r) by (unfold checked; rewrite eqb_refl, Er; reflexivity). rewrite Hc.
      assert (Hz : Exists zero_weight kept <-> exists e' w, In e' L /\ In w (ev_weights e') /\ b64_val w = 0).
      { rewrite Exists_exists. split.
        - intros (e & He & Hz). destruct (kept_tame _ He) as [A B]. destruct (lift_ok Hm1 Hm2 true A B) as (_ & _ & _ & _ & _ & _ & _ & Z & _). apply Z in Hz.
          apply Exists_exists in Hz as (w & Hw & Hz). exists (lifted m e), w. split; [unfold L; apply in_map; exact He|]. split; assumption.
        - intros (e' & w & He & Hw & Hz). unfold L in He. apply in_map_iff in He as (e & <- & He). exists e. split; [exact He|].
          destruct (kept_tame _ He) as [A B]. destruct (lift_ok Hm1 Hm2 true A B) as (_ & _ & _ & _ & _ & _ & _ & Z & _). apply Z. apply Exists_exists. eauto. }
      destruct (Exists_dec (fun e' => Exists (fun w => neqb (n := B64) (nmul (n := B64) w r) (nmul (n := B64) w r) = false) (ev_weights e')) L) as [Hx|Hx].
      { intros e'. apply Exists_dec. intros w. destruct (neqb _ _); [right; discriminate|left; reflexivity]. }
      * apply Exists_exists in Hx as (e' & He & Hx). apply Exists_exists in Hx as (w & Hw & Hx).
        assert (Hn : omap (fun e => rescale_checked true e r) L = None).
        { apply (@omap_none _ _ _ _ e' He). unfold rescale_checked. rewrite (@omap_none _ _ _ _ w Hw); [reflexivity|]. unfold checked. rewrite Hx. reflexivity. }
        rewrite Hn. split; [|left; reflexivity]. split; [intros _|reflexivity]. split; [exact H0|]. right. apply Hz. exists e', w. split; [exact He|]. split; [exact Hw|].
        apply (@times_irregular w (proj1 (@L_weights _ w He Hw)) H0); assumption.
      * assert (Hs : omap (fun e => rescale_checked true e r) L = Some results).
        { apply omap_map. intros e' He. unfold rescale_checked, rescale_weights. rewrite (@omap_map _ _ _ (fun w => nmul (n := B64) w r)); [reflexivity|].
          intros w Hw. unfold checked. destruct (neqb (nmul w r) (nmul w r)) eqn:En; [reflexivity|]. exfalso. apply Hx. apply Exists_exists. exists e'. split; [exact He|].
          apply Exists_exists. eauto. }
        rewrite Hs. split; [|right; reflexivity]. split; [discriminate|]. intros [_ [Y|Y]]; [contradiction|]. exfalso. apply Hz in Y as (e' & w & He & Hw & Y).
        apply Hx. apply Exists_exists. exists e'. split; [exact He|]. apply Exists_exists. exists w. split; [exact Hw|].
        apply (@times_irregular w (proj1 (@L_weights _ w He Hw)) H0); assumption.
  - destruct (regular H0) as [Fr R]. rewrite (checked_fin true Fr).
    assert (Hs : omap (fun e => rescale_checked true e r) L = Some results).
    { apply omap_map. intros e' He. unfold rescale_checked, rescale_weights. rewrite (@omap_map _ _ _ (fun w => nmul (n := B64) w r)); [reflexivity|].
      intros w Hw. apply checked_fin. eapply R; eauto. }
    rewrite Hs. split; [|right; reflexivity]. split; [discriminate|]. intros [Y _]. contradiction.
Qed.
End Result.
